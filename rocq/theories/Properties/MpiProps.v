(** C01-C04: MPI task distribution (mpi_aux.py). *)
From Verif Require Import Base.PyBase Base.PyFacts Model.MpiAux Proofs.MpiAuxP.
From Coq Require Import Permutation.

(** C01. The task lists of ranks 0..p-1, concatenated in rank order, are exactly
    the tasks 0..nt-1. *)
Theorem C01_tasks_partition : forall nt p, 0 <= nt -> 0 < p ->
  exists ts, mapM (my_tasks nt p) (arange 0 p) = Ok ts /\ concat ts = arange 0 nt.
Proof. exact tasks_partition. Qed.
Print Assumptions C01_tasks_partition.

Example C01_example : mapM (my_tasks 7 3) (arange 0 3) = Ok [[0;1];[2;3];[4;5;6]].
Proof. reflexivity. Qed.
Example C01_example_few_tasks : mapM (my_tasks 2 3) (arange 0 3) = Ok [[];[0];[1]].
Proof. reflexivity. Qed.

(** C02. Every rank has floor(nt/p) tasks, plus one for exactly the last [nt mod p]
    ranks; the announced size is the length of the task list; sizes sum to nt. *)
Theorem C02_balance : forall nt p r, 0 <= nt -> 0 < p -> 0 <= r < p ->
  my_size nt p r = Ok (nt / p + (if p - nt mod p <=? r then 1 else 0)).
Proof. exact my_size_val. Qed.
Print Assumptions C02_balance.

Theorem C02_size_is_task_count : forall nt p r, 0 <= nt -> 0 < p -> 0 <= r < p ->
  exists ts k, my_tasks nt p r = Ok ts /\ my_size nt p r = Ok k /\ zlen ts = k.
Proof. exact my_tasks_size. Qed.
Print Assumptions C02_size_is_task_count.

Theorem C02_sizes_sum : forall nt p, 0 <= nt -> 0 < p -> zsum (sizes nt p) = nt.
Proof. exact zsum_sizes. Qed.
Print Assumptions C02_sizes_sum.

Example C02_example : sizes 7 3 = [2;2;3] /\ sizes 2 3 = [0;1;1] /\ sizes 0 2 = [0;0].
Proof. repeat split. Qed.

(** C03. scatter; apply f to every row on every rank; gather = serial map f.
    (The gathered buffer has no undefined cell: every entry is [Some].) *)
Theorem C03_scatter_map_gather : forall A B nt p (f : A -> B) (data : list A),
  0 <= nt -> 0 < p -> zlen data = nt ->
  exists pieces, scatter nt p data = Ok pieces /\ zlen pieces = p /\
    gather nt p (map (map f) pieces) = Ok (map Some (map f data)).
Proof. exact scatter_map_gather. Qed.
Print Assumptions C03_scatter_map_gather.

Example C03_example : scatter 5 2 [10;11;12;13;14] = Ok [[10;11];[12;13;14]] /\
  gather 5 2 [[10;11];[12;13;14]] = Ok [Some 10; Some 11; Some 12; Some 13; Some 14].
Proof. split; reflexivity. Qed.

(** C04. Partial sums over my_tasks, all-reduced in any order of the ranks, equal the
    serial sum, for any commutative monoid. *)
Theorem C04_allreduce_serial : forall M (op : M -> M -> M) e (f : Z -> M) nt p order,
  (forall a b c, op a (op b c) = op (op a b) c) -> (forall a b, op a b = op b a) -> (forall a, op e a = a) ->
  0 <= nt -> 0 < p -> Permutation order (arange 0 p) ->
  allreduce op e order (rank_partial op e f nt p) = fold_right op e (map f (arange 0 nt)).
Proof. exact allreduce_serial. Qed.
Print Assumptions C04_allreduce_serial.

Example C04_example :
  allreduce Z.add 0 [2;0;1] (rank_partial Z.add 0 (fun t => t*t) 7 3) = 91 /\ Permutation [2;0;1] (arange 0 3).
Proof.
  split; [reflexivity|]. change (arange 0 3) with [0;1;2].
  apply perm_trans with [0;2;1]; [apply perm_swap|]. apply perm_skip, perm_swap.
Qed.
