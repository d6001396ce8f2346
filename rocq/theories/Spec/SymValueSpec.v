(** Values produced by the w2dynamics symmetrisation (no reference to the model). *)
From mathcomp Require Import all_ssreflect all_algebra.
From Verif Require Import Base.PyBase Spec.SymSpec.
Import GRing.Theory.
Set Implicit Arguments. Unset Strict Implicit. Unset Printing Implicit Defensive.
Local Open Scope ring_scope.
Section V.
Variable F : fieldType.
Definition sign_of (z : Z) : F := match z with Z0 => 0 | Zpos _ => 1 | Zneg _ => -1 end.
(** Sum, with the spin weights of the channel, of the input values of all groups
    whose bands lie in the orbit O. *)
Definition orbit_sum (magn : bool) (bands spins : Z -> list Z) (x : Z -> F) (O : list (list Z)) (grs : list Z) : F :=
  List.fold_right +%R 0
    (List.map (fun g => if List.in_dec (List.list_eq_dec Z.eq_dec) (bands g) O
                        then sign_of (weight magn (spins g)) * x g else 0) grs).
(** 2 spin components enter the density average, 4 the magnetic one. *)
Definition channel_norm (magn : bool) : F := if magn then 4%:R else 2%:R.
(** Arithmetic mean, and the spin mean of a band of one-frequency data. *)
Definition mean (l : list F) : F := List.fold_right +%R 0 l / (length l)%:R.
Definition band_mean (g : list (list F)) (b : Z) : F :=
  match zget g b with Some l => mean l | None => 0 end.
End V.
