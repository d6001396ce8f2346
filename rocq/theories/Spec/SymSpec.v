(** Vocabulary for the w2dynamics symmetrisation (no reference to the model). *)
From Verif Require Import Base.PyBase.
Set Implicit Arguments.
Local Open Scope Z_scope.

(** Value of a list of digits, most significant first, in a given base. *)
Definition positional (base : Z) (digits : list Z) : Z :=
  fold_left (fun acc d => acc * base + d) digits 0.

Definition digits_below (base : Z) (digits : list Z) : Prop :=
  forall d, List.In d digits -> 0 <= d < base.

(** Compound band-spin digits 2*band+spin of a list of (band, spin) pairs. *)
Definition compound (bs : list (Z * Z)) : list Z := map (fun p => 2 * fst p + snd p) bs.

(** A symmetry table as the user means it: entry x lists, 1-based and without
    repetition, the bands equivalent to band x, and being listed is an
    equivalence relation. *)
Definition listed (sym : list (list Z)) (x y : Z) : Prop :=
  exists l, zget sym x = Some l /\ List.In (y + 1) l.
Record good_sym (Nbands : Z) (sym : list (list Z)) : Prop := {
  gs_len  : zlen sym = Nbands;
  gs_nodup : forall x l, zget sym x = Some l -> NoDup l;
  gs_rng  : forall x y, listed sym x y -> 0 <= y < Nbands;
  gs_refl : forall x, 0 <= x < Nbands -> listed sym x x;
  gs_sym  : forall x y, listed sym x y -> listed sym y x;
  gs_trans : forall x y z, listed sym x y -> listed sym y z -> listed sym x z }.

(** Two band quadruples are related by the symmetry when corresponding bands
    are equivalent and the same positions carry equal bands. *)
Definition related (sym : list (list Z)) (b b' : list Z) : Prop :=
  length b' = length b /\
  (forall i x x', zget b i = Some x -> zget b' i = Some x' -> listed sym x x') /\
  (forall i j x x' y y', zget b i = Some x -> zget b' i = Some x' ->
                         zget b j = Some y -> zget b' j = Some y' -> (x = y <-> x' = y')).

(** Band quadruples occurring with a Kanamori interaction. *)
Definition kanamori_bands (b : list Z) : Prop :=
  exists i j, b = [i; i; j; j] \/ b = [i; j; i; j] \/ b = [i; j; j; i].
(** Spin quadruples allowed by spin conservation. *)
Definition spin_conserving (s : list Z) : Prop :=
  exists i j, (i = 0 \/ i = 1) /\ (j = 0 \/ j = 1) /\ (s = [i; i; j; j] \/ s = [i; j; j; i]).

(** Weight of a spin quadruple in the density and magnetic channel: the density
    sums all (s s s' s'); the magnetic channel sums s s' (s s s' s') and the two
    spin-flip components. *)
Definition weight (magn : bool) (s : list Z) : Z :=
  match s with
  | [s1; s2; s3; s4] =>
      if (s1 =? s2) && (s3 =? s4)
      then (if magn then (if s1 =? s3 then 1 else -1) else 1)
      else (if magn then 1 else 0)
  | _ => 0
  end.
