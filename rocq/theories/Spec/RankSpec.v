(** Vocabulary for the statements about the rank files. *)
From Coq Require Import String.
From Verif Require Import Base.PyBase Base.Arr Model.RankFiles.
Set Implicit Arguments.
Local Open Scope string_scope.
Local Open Scope Z_scope.

Definition get4 {A} (m : list (list (list (list A)))) (a b c d : Z) : option A := obind (zget m a) (fun r => get3 r b c d).
Definition shape4 {A} (m : list (list (list (list A)))) (n1 n2 n3 n4 : Z) : Prop :=
  zlen m = n1 /\ forall r, In r m -> shape3 r n2 n3 n4.

(** The component array a dataset name stands for. *)
Definition component {A} (d : vdata A) (ds : string) : option (arr4 A) :=
  if String.eqb ds "f1_dens" then Some (f1_dens d)
  else if String.eqb ds "f2_dens" then Some (f2_dens d)
  else if String.eqb ds "f1_magn" then Some (f1_magn d)
  else if String.eqb ds "f2_magn" then Some (f2_magn d) else None.

(** A consistent frequency box (config.py:157-208, 452-484). *)
Definition cfg_ok (c : cfg) : Prop :=
  0 <= niw_core c /\ 0 <= niv_core c /\
  niv_pp c = Z.min (niw_core c / 2) (niv_core c / 2) /\
  0 <= niw_vert c <= niw_core c /\ 0 <= niw_cond c <= niv_core c /\ niv_vert c = niv_core c - niw_cond c.

(** All component arrays carry nq momenta, the bosonic box and the fermionic box. *)
Definition data_ok {A} (c : cfg) (d : vdata A) (nq : Z) : Prop :=
  forall ds a, component d ds = Some a -> shape4 a nq (2 * niw_core c + 1) (2 * niv_core c) (2 * niv_core c).

(** A complete parallel write: every rank r < mpi_size starts with a fresh file and its list of writes, the ranks are
    interleaved by [sched], and all have finished in [s]. *)
Definition written {A} (opp : A -> A) (c : cfg) (d : vdata A) (path name : string) (nq mpi_size : Z) (fs0 : fsys A) (todo : Z -> list (op A)) (sched : list Z) (s : job A) : Prop :=
  (forall r, 0 <= r < mpi_size -> fs0 (rank_fname path name r) = Some nil) /\
  (forall r, 0 <= r < mpi_size -> rank_ops opp c d nq mpi_size r = Ok (todo r)) /\
  (forall r, ~ 0 <= r < mpi_size -> todo r = nil) /\
  job_run path name sched {| j_fs := fs0; j_todo := todo |} = Ok s /\
  (forall r, 0 <= r < mpi_size -> j_todo s r = nil).

(** The beginning of a parallel write. *)
Definition started {A} (opp : A -> A) (c : cfg) (d : vdata A) (path name : string) (nq mpi_size : Z) (fs0 : fsys A) (todo : Z -> list (op A)) : Prop :=
  (forall r, 0 <= r < mpi_size -> fs0 (rank_fname path name r) = Some nil) /\
  (forall r, 0 <= r < mpi_size -> rank_ops opp c d nq mpi_size r = Ok (todo r)) /\
  (forall r, ~ 0 <= r < mpi_size -> todo r = nil).
