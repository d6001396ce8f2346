(** Python / numpy primitives used throughout the model.

    These definitions model the *runtime* (CPython 3 and numpy), not DGApy:
    they are part of the trusted base and are therefore kept small.
    One-dimensional arrays are lists; an n-dimensional array is a nested list.
    Indices are mathematical integers [Z]. *)
From Coq Require Export ZArith List Bool Lia.
Export ListNotations.
Open Scope Z_scope.
Set Implicit Arguments.

(** Exceptions are values. *)
Inductive exn : Set :=
| IndexError | ValueError | AssertionError | NotImplementedError
| KeyError | FileNotFoundError | AttributeError | TypeError | LinAlgError | RuntimeError | ZeroDivisionError.

Inductive res (A : Type) : Type :=
| Ok (a : A)
| Raise (e : exn).
Arguments Ok {A} a.
Arguments Raise {A} e.

Definition bind {A B} (m : res A) (f : A -> res B) : res B :=
  match m with Ok a => f a | Raise e => Raise e end.
Notation "'let!' x ':=' m 'in' f" := (bind m (fun x => f))
  (at level 200, x name, m at level 100, f at level 200).

Definition rmap {A B} (f : A -> B) (m : res A) : res B :=
  match m with Ok a => Ok (f a) | Raise e => Raise e end.

(** A list comprehension whose body may raise: the first exception wins. *)
Fixpoint mapM {A B} (f : A -> res B) (l : list A) : res (list B) :=
  match l with
  | [] => Ok []
  | x :: xs => let! y := f x in let! ys := mapM f xs in Ok (y :: ys)
  end.

(** [for x in l: s = f(s, x)] with a body that may raise. *)
Fixpoint foldM {A S} (f : S -> A -> res S) (l : list A) (s : S) : res S :=
  match l with
  | [] => Ok s
  | x :: xs => let! s' := f s x in foldM f xs s'
  end.

Definition zlen {A} (l : list A) : Z := Z.of_nat (length l).

(** Mathematical (non-wrapping) lookup. *)
Definition zget {A} (l : list A) (i : Z) : option A :=
  if i <? 0 then None else nth_error l (Z.to_nat i).

(** Python/numpy integer indexing: negative indices count from the end,
    anything outside [-n, n) raises IndexError. *)
Definition py_get {A} (l : list A) (i : Z) : res A :=
  let n := zlen l in
  let j := if i <? 0 then i + n else i in
  match zget l j with Some a => Ok a | None => Raise IndexError end.

(** Python slice bound normalisation for step 1 ([slice.indices]). *)
Definition clampi (n i : Z) : Z :=
  let j := if i <? 0 then i + n else i in Z.max 0 (Z.min n j).

(** [l[a:b]] *)
Definition slice {A} (l : list A) (a b : Z) : list A :=
  let n := zlen l in
  let a' := clampi n a in
  let b' := clampi n b in
  firstn (Z.to_nat (b' - a')) (skipn (Z.to_nat a') l).

(** [l[a:]] and [l[:b]] *)
Definition slice_from {A} (l : list A) (a : Z) : list A := slice l a (zlen l).
Definition slice_to {A} (l : list A) (b : Z) : list A := slice l 0 b.

(** [l[a:b] = src] for an array [l]; the lengths have to agree, otherwise numpy
    raises ValueError.  Broadcasting of a length-one source is not modelled. *)
Definition assign_slice {A} (l : list A) (a b : Z) (src : list A) : res (list A) :=
  let n := zlen l in
  let a' := clampi n a in
  let b' := Z.max a' (clampi n b) in
  if zlen src =? b' - a'
  then Ok (firstn (Z.to_nat a') l ++ src ++ skipn (Z.to_nat b') l)
  else Raise ValueError.

(** [l[i] = x] *)
Definition py_set {A} (l : list A) (i : Z) (x : A) : res (list A) :=
  let n := zlen l in
  let j := if i <? 0 then i + n else i in
  if (0 <=? j) && (j <? n)
  then Ok (firstn (Z.to_nat j) l ++ x :: skipn (Z.to_nat (j + 1)) l)
  else Raise IndexError.

(** [np.arange(a, b)] *)
Definition arange (a b : Z) : list Z :=
  map (fun i => a + Z.of_nat i) (seq 0 (Z.to_nat (b - a))).

(** [range(n)] as a list of integers. *)
Definition range (n : Z) : list Z := arange 0 n.

(** [enumerate(l)] *)
Definition enumerate {A} (l : list A) : list (Z * A) :=
  combine (range (zlen l)) l.

(** [np.roll(l, s)] along this axis: numpy computes [offset = s % n] and then
    [result[offset:] = l[:n-offset]; result[:offset] = l[n-offset:]]. *)
Definition roll {A} (l : list A) (s : Z) : list A :=
  let n := zlen l in
  let k := s mod n in
  slice l (n - k) n ++ slice l 0 (n - k).

(** [np.flip] along this axis. *)
Definition flip {A} (l : list A) : list A := rev l.

(** [np.cumsum] of an integer array. *)
Fixpoint cumsum_from (acc : Z) (l : list Z) : list Z :=
  match l with
  | [] => []
  | x :: xs => (acc + x) :: cumsum_from (acc + x) xs
  end.
Definition cumsum (l : list Z) : list Z := cumsum_from 0 l.

Definition zsum (l : list Z) : Z := fold_right Z.add 0 l.

(** [np.unique(l, return_index=True, return_inverse=True, return_counts=True)]
    for an integer array: sorted distinct values, index of the first
    occurrence of each, position of every element among the distinct values,
    number of occurrences. *)
Fixpoint insert_uniq (x : Z) (l : list Z) : list Z :=
  match l with
  | [] => [x]
  | y :: ys => if x <? y then x :: l
               else if x =? y then l
               else y :: insert_uniq x ys
  end.
Definition uniq (l : list Z) : list Z := fold_right insert_uniq [] l.

Fixpoint first_index (x : Z) (l : list Z) : Z :=
  match l with
  | [] => 0
  | y :: ys => if x =? y then 0 else 1 + first_index x ys
  end.
Definition count (x : Z) (l : list Z) : Z :=
  zlen (filter (fun y => x =? y) l).

Record unique_res := { uq_vals : list Z; uq_index : list Z; uq_inverse : list Z; uq_counts : list Z }.
Definition np_unique (l : list Z) : unique_res :=
  let u := uniq l in
  {| uq_vals := u;
     uq_index := map (fun v => first_index v l) u;
     uq_inverse := map (fun x => first_index x u) l;
     uq_counts := map (fun v => count v l) u |}.

(** [l[idx]] with an integer index array (fancy indexing). *)
Definition take {A} (l : list A) (idx : list Z) : res (list A) := mapM (py_get l) idx.

(** Transpose of the first two axes of a rectangular nested list with [m] columns. *)
Definition col {A} (j : Z) (l : list (list A)) : list A :=
  flat_map (fun r => match zget r j with Some x => [x] | None => [] end) l.
Definition transpose {A} (m : Z) (l : list (list A)) : list (list A) :=
  map (fun j => col j l) (range m).

(** pointwise product etc. of two arrays of equal length *)
Fixpoint map2 {A B C} (f : A -> B -> C) (l : list A) (m : list B) : list C :=
  match l, m with
  | a :: l', b :: m' => f a b :: map2 f l' m'
  | _, _ => []
  end.

(** numpy elementwise binary operation: shapes have to agree (length-one
    broadcasting is not modelled), else ValueError. *)
Definition np_map2 {A B C} (f : A -> B -> C) (l : list A) (m : list B) : res (list C) :=
  if zlen l =? zlen m then Ok (map2 f l m) else Raise ValueError.
