(** Vocabulary for real-frequency meshes. *)
From Coq Require Import ZArith Reals List.
From Verif Require Import Base.PyBase.
Local Open Scope R_scope.
(** n points from wmin to wmax, strictly increasing, symmetric about the centre of the interval *)
Record frequency_mesh (w : list R) (n : Z) (wmin wmax : R) : Prop := {
  fm_size : zlen w = n;
  fm_first : zget w 0 = Some wmin;
  fm_last : zget w (n - 1) = Some wmax;
  fm_increasing : forall i j a b, (i < j)%Z -> zget w i = Some a -> zget w j = Some b -> a < b;
  fm_symmetric : forall i a, zget w i = Some a -> zget w (n - 1 - i) = Some (wmin + wmax - a)
}.
