(** Specification vocabulary for frequency arrays (nothing here models code). *)
From Verif Require Import Base.PyBase.
Set Implicit Arguments.
(** the value of a bosonic array (length 2*niw+1) at frequency index w, None outside its grid *)
Definition bos {A} (m : list A) (w : Z) : option A := zget m (zlen m / 2 + w).
(** addition of two values, a missing one counting as nothing *)
Definition addo {A} (add : A -> A -> A) (a b : option A) : option A :=
  match a, b with Some x, Some y => Some (add x y) | Some x, None => Some x | None, o => o end.
