(** Model of /repo/src/dga/mpi_aux.py *)
From Verif Require Import Base.PyBase.
Set Implicit Arguments.

(** mpi_aux.py:105-111 [MpiDistributor.distribute_tasks], the [_sizes] array:
    [n_per_rank = ntasks // mpi_size; n_excess = ntasks - n_per_rank*mpi_size;
     sizes = n_per_rank*ones(mpi_size); if n_excess: sizes[-n_excess:] += 1]. *)
Definition sizes (ntasks mpi_size : Z) : list Z :=
  let n_per_rank := ntasks / mpi_size in
  let n_excess := ntasks - n_per_rank * mpi_size in
  let s := repeat n_per_rank (Z.to_nat mpi_size) in
  if n_excess =? 0 then s
  else
    let a := clampi (zlen s) (- n_excess) in
    firstn (Z.to_nat a) s ++ map (fun x => x + 1) (skipn (Z.to_nat a) s).

(** mpi_aux.py:113-114: [slice_ends = sizes.cumsum();
    slices = map(slice, slice_ends - sizes, slice_ends)]. *)
Definition slices_of (s : list Z) : list (Z * Z) :=
  let slice_ends := cumsum s in
  map2 pair (map2 Z.sub slice_ends s) slice_ends.
Definition slices (ntasks mpi_size : Z) : list (Z * Z) := slices_of (sizes ntasks mpi_size).

(** mpi_aux.py:116-117, 79-85: [my_size = sizes[rank]], [my_slice = slices[rank]]. *)
Definition my_size (ntasks mpi_size rank : Z) : res Z := py_get (sizes ntasks mpi_size) rank.
Definition my_slice (ntasks mpi_size rank : Z) : res (Z * Z) := py_get (slices ntasks mpi_size) rank.

(** mpi_aux.py:71-73 [my_tasks = np.arange(0, ntasks)[my_slice]]. *)
Definition my_tasks (ntasks mpi_size rank : Z) : res (list Z) :=
  let! sl := my_slice ntasks mpi_size rank in
  Ok (slice (arange 0 ntasks) (fst sl) (snd sl)).

(** The MPI v-collectives with default (contiguous) displacements, acting on
    rows: element counts are [sizes * other_dims], i.e. whole rows
    (mpi_aux.py:123-127, 134-135, 152-153). *)
Definition displs (counts : list Z) : list Z := map2 Z.sub (cumsum counts) counts.

(** [Scatterv]: rank r receives [counts[r]] rows of the root buffer starting at
    its displacement.  A root buffer that is too short is an MPI error. *)
Definition scatterv {A} (counts : list Z) (data : list A) : res (list (list A)) :=
  if zsum counts <=? zlen data
  then Ok (map2 (fun d c => slice data d (d + c)) (displs counts) counts)
  else Raise ValueError.

(** [Gatherv]/[Allgatherv] into an uninitialised buffer ([np.empty]) of
    [total] rows; a cell never received stays [None].  A rank buffer whose
    length differs from the announced count is an MPI error. *)
Definition gatherv {A} (counts : list Z) (total : Z) (bufs : list (list A)) : res (list (option A)) :=
  foldM (fun tot dcb =>
           let '(d, c, b) := dcb in
           if zlen b =? c then assign_slice tot d (d + c) (map Some b) else Raise ValueError)
        (combine (combine (displs counts) counts) bufs)
        (repeat None (Z.to_nat total)).

(** mpi_aux.py:138-154 [scatter]: what all ranks hold afterwards, in rank order. *)
Definition scatter {A} (ntasks mpi_size : Z) (full_data : list A) : res (list (list A)) :=
  scatterv (sizes ntasks mpi_size) full_data.

(** mpi_aux.py:119-128 and 130-136 [allgather]/[gather]: the assembled array
    (on every rank, resp. on root). *)
Definition gather {A} (ntasks mpi_size : Z) (bufs : list (list A)) : res (list (option A)) :=
  gatherv (sizes ntasks mpi_size) ntasks bufs.

(** mpi_aux.py:160-163 [allreduce] with MPI.SUM: the ranks' contributions
    are combined in an order chosen by the MPI library, here the permutation [order]
    of the rank numbers. *)
Definition allreduce {M} (op : M -> M -> M) (e : M) (order : list Z) (contrib : Z -> M) : M :=
  fold_right op e (map contrib order).

(** The way every MPI loop of the package uses the distributor: each rank works
    through [my_tasks] (e.g. four_point.py:300, dga_main.py). *)
Definition rank_partial {M} (op : M -> M -> M) (e : M) (f : Z -> M) (ntasks mpi_size rank : Z) : M :=
  match my_tasks ntasks mpi_size rank with
  | Ok ts => fold_right op e (map f ts)
  | Raise _ => e
  end.
