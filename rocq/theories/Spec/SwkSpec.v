(** Vocabulary for Green functions on the real axis over momenta and frequencies. *)
From Coq Require Import ZArith Reals List Sorted.
From Verif Require Import Base.PyBase Base.Arr Base.RSum Spec.ShownKSpec.
Local Open Scope Z_scope.

(** The entry of an array [kx, ky, kz, w]. *)
Definition get4 {A} (m : list (list (list (list A)))) (i j l t : Z) : option A := obind (get3 m i j l) (fun s => zget s t).
Definition shape4 {A} (m : list (list (list (list A)))) (a b c d : Z) : Prop :=
  shape3 m a b c /\ forall i j l s, get3 m i j l = Some s -> zlen s = d.
(** [m] holds the numbers f(kx, ky, kz, w) at the mesh momenta and the frequencies of the list [w]. *)
Definition samples4 {A} (f : R -> R -> R -> R -> A) (n1 n2 n3 : Z) (w : list R) (m : list (list (list (list A)))) : Prop :=
  shape4 m n1 n2 n3 (zlen w) /\
  forall i j l t x, 0 <= i < n1 -> 0 <= j < n2 -> 0 <= l < n3 -> zget w t = Some x -> get4 m i j l t = Some (f (mom n1 i) (mom n2 j) (mom n3 l) x).
Definition periodic3 {A} (f : R -> R -> R -> A) : Prop :=
  forall x y z, f (x + 2 * PI)%R y z = f x y z /\ f x (y + 2 * PI)%R z = f x y z /\ f x y (z + 2 * PI)%R = f x y z.

Local Open Scope R_scope.
(** Every entry of the self-energy has a negative imaginary part of at least [c]. *)
Definition damped (c : R) (S : list (list (list (list (R * R))))) : Prop := forall i j l t s, get4 S i j l t = Some s -> snd s <= - c.
(** No entry has a positive imaginary part. *)
Definition causal (S : list (list (list (list (R * R))))) : Prop := forall i j l t s, get4 S i j l t = Some s -> snd s <= 0.
(** [z] times [g] is one, for complex numbers as pairs. *)
Definition inverse_of (g z : R * R) : Prop := fst g * fst z - snd g * snd z = 1 /\ fst g * snd z + snd g * fst z = 0.

(** The momentum that an array shifted by half of [n] momenta has at its entry [i]. *)
Definition shifted_mom (n i : Z) : R := mom n i - PI + (if Z.even n then 0 else PI / IZR n).

(** 1/(x + mu - e - s), and the textbook formula for -Im of it over pi *)
Definition denom (mu e : R) (s : R * R) (x : R) : R * R := (x + mu - e - fst s, - snd s).
Definition lorentz (mu e : R) (s : R * R) (x : R) : R := / PI * (- snd s / ((x + mu - e - fst s) ^ 2 + snd s ^ 2)).
(** the mean over the mesh momenta *)
Definition zsumf (n : Z) (f : Z -> R) : R := rsum (Z.to_nat n) (fun i => f (Z.of_nat i)).
Definition bz_mean (n1 n2 n3 : Z) (f : R -> R -> R -> R) : R :=
  zsumf n1 (fun i => zsumf n2 (fun j => zsumf n3 (fun l => f (mom n1 i) (mom n2 j) (mom n3 l)))) / IZR (n1 * n2 * n3).
(** the trapezoid rule for the function [h] on the points [x] *)
Fixpoint trapezoid (h : R -> R) (x : list R) : R :=
  match x with x0 :: ((x1 :: _) as x') => (x1 - x0) * ((h x0 + h x1) / 2) + trapezoid h x' | _ => 0 end.
Definition not_positive (w : list R) : list R := filter (fun x => if Rle_dec x 0 then true else false) w.
(** the number of electrons per spin *)
Definition occupation (n1 n2 n3 : Z) (w : list R) (mu : R) (e : R -> R -> R -> R) (S : R -> R -> R -> R -> R * R) : R :=
  trapezoid (fun x => bz_mean n1 n2 n3 (fun kx ky kz => lorentz mu (e kx ky kz) (S kx ky kz x) x)) (not_positive w).

(** A smallest value of [f]; a minimizer that stays where it starts if the function has the same value at a step [eps]. *)
Definition is_minimum (f : R -> R) (x : R) : Prop := forall y, f x <= f y.
Definition stays_if_flat (eps : R) (minimize : (R -> R) -> R -> R) : Prop := forall f x0, f (x0 + eps) = f x0 -> minimize f x0 = x0.

(** Functions of the momentum (and the frequency) with the period of the zone *)
Definition periodic4 {A} (f : R -> R -> R -> R -> A) : Prop := forall x, periodic3 (fun kx ky kz => f kx ky kz x).
(** where [np.linspace(-pi, pi, n)] puts entry [i] *)
Definition shown_at (n i : Z) : R := - PI + 2 * PI * IZR i / IZR (n - 1).
(** the values on the plane of the shifted mesh with the first kz *)
Definition plane (f : R -> R -> R -> R) (n1 n2 n3 : Z) (i j : Z) : option R :=
  if ((0 <=? i) && (i <? n1) && (0 <=? j) && (j <? n2))%bool%Z then Some (f (shifted_mom n1 i) (shifted_mom n2 j) (shifted_mom n3 0)) else None.
(** the real part of 1/(x + mu - e - s) *)
Definition re_green (mu e : R) (s : R * R) (x : R) : R := (x + mu - e - fst s) / ((x + mu - e - fst s) ^ 2 + snd s ^ 2).
(** entries with an imaginary part smaller than [c] get the imaginary part -c *)
Definition cut_off (c : R) (s : R * R) : R * R := (fst s, if Rlt_dec (Rabs (snd s)) c then - c else snd s).
