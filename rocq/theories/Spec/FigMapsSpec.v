(** Vocabulary for maps in figures: lists of (place, place, value). *)
From Coq Require Import ZArith Reals List.
From Verif Require Import Base.PyBase Base.Arr Spec.ShownKSpec Spec.SwkSpec.
Local Open Scope R_scope.

(** The smallest, the largest number of an array *)
Definition is_min2 (a : list (list R)) (lo : R) : Prop := (exists i j, get2 a i j = Some lo) /\ forall i j v, get2 a i j = Some v -> lo <= v.
Definition is_max2 (a : list (list R)) (hi : R) : Prop := (exists i j, get2 a i j = Some hi) /\ forall i j v, get2 a i j = Some v -> v <= hi.

(** On the axes k - pi the map shows the function [f] of the momenta: at every place (kx, ky) the value f(kx, ky). *)
Definition true_map (n1 n2 : Z) (f : R -> R -> R) (cells : list (R * R * R)) : Prop :=
  forall a b v, In (a, b, v) cells <-> exists i j, (0 <= i < n1)%Z /\ (0 <= j < n2)%Z /\ a = mom n1 i - PI /\ b = mom n2 j - PI /\ v = f a b.
(** It shows the values of the shifted momenta. *)
Definition shifted_map (n1 n2 : Z) (f : R -> R -> R) (cells : list (R * R * R)) : Prop :=
  forall a b v, In (a, b, v) cells <-> exists i j, (0 <= i < n1)%Z /\ (0 <= j < n2)%Z /\ a = mom n1 i - PI /\ b = mom n2 j - PI /\ v = f (shifted_mom n1 i) (shifted_mom n2 j).
(** Pixel [i] of [n] between 0 and [x]. *)
Definition pixel (x : R) (n i : Z) : R := (IZR i + / 2) * (x / IZR n).
(** Pixels, with the value of kx = momentum i, ky = momentum j in column j and row i. *)
Definition pixel_map (n1 n2 : Z) (f : R -> R -> R) (cells : list (R * R * R)) : Prop :=
  forall a b v, In (a, b, v) cells <-> exists i j, (0 <= i < n1)%Z /\ (0 <= j < n2)%Z /\
    a = pixel (mom n1 (n1 - 1)) n2 j /\ b = pixel (mom n2 (n2 - 1)) n1 i /\ v = f (mom n1 i) (mom n2 j).

(** The frequencies between [w_int] and 0, and the mean of a function over them *)
Definition between (w_int : R) (w : list R) : list R := filter (fun x => if Rlt_dec x 0 then (if Rlt_dec w_int x then true else false) else false) w.
Definition window_mean (w_int : R) (w : list R) (h : R -> R) : R := trapezoid h (between w_int w) / Rabs w_int.
(** [x] is one of the numbers of [w] that are nearest to [y]. *)
Definition nearest (y : R) (w : list R) (x : R) : Prop := In x w /\ forall x', In x' w -> Rabs (x - y) <= Rabs (x' - y).
(** What the first two panels show of the Green function [g] on the plane kz = 0. *)
Definition shown_of (w_int : option R) (w_plot : R) (w : list R) (g : R -> R -> R -> R -> R * R) (F : R -> R -> R * R) : Prop :=
  match w_int with
  | None => exists x, nearest w_plot w x /\ forall kx ky, F kx ky = g kx ky 0 x
  | Some wi => forall kx ky, F kx ky = (window_mean wi w (fun x => fst (g kx ky 0 x)), window_mean wi w (fun x => snd (g kx ky 0 x)))
  end.
(** 1/z *)
Definition inv_re (z : R * R) : R := fst z / (fst z ^ 2 + snd z ^ 2).
