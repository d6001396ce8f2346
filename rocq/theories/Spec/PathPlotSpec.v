(** Vocabulary for the statements about paths through the Brillouin zone: names, corners, ticks, distances. *)
From Coq Require Import ZArith Reals List String Ascii.
From Verif Require Import Base.PyBase.
Import ListNotations.
Set Implicit Arguments.
Local Open Scope Z_scope.

(** ** Strings *)
Definition has_char (c : ascii) (s : string) : Prop := In c (list_ascii_of_string s).
(** the names with the delimiter between them *)
Fixpoint join (d : ascii) (names : list string) : string :=
  match names with [] => EmptyString | [n] => n | n :: rest => (n ++ String d (join d rest))%string end.

(** ** Corners *)
(** the named points: name, coordinates in units of 2 pi, label in figures *)
Inductive named_point : string -> R * R * R -> string -> Prop :=
| np_Gamma : named_point "Gamma" (0, 0, 0)%R "$\Gamma$"
| np_X : named_point "X" (1/2, 0, 0)%R "X"
| np_Y : named_point "Y" (0, 1/2, 0)%R "Y"
| np_M : named_point "M" (1/2, 1/2, 0)%R "M"
| np_M2 : named_point "M2" (1/4, 1/4, 0)%R "M/2"
| np_Z : named_point "Z" (0, 0, 1/2)%R "Z"
| np_R : named_point "R" (1/2, 0, 1/2)%R "R"
| np_A : named_point "A" (1/2, 1/2, 1/2)%R "A".
Definition is_named (s : string) : Prop := exists p l, named_point s p l.
(** what a corner of the path string stands for, given how numbers are read *)
Inductive corner_means (float_of : string -> res R) : string -> R * R * R -> Prop :=
| cm_named : forall s p l, named_point s p l -> corner_means float_of s p
| cm_three : forall s1 s2 s3 a b c, ~ has_char " " s1 -> ~ has_char " " s2 -> ~ has_char " " s3 ->
    float_of s1 = Ok a -> float_of s2 = Ok b -> float_of s3 = Ok c -> corner_means float_of (join " " [s1; s2; s3]) (a, b, c)
| cm_one : forall s a, ~ is_named s -> ~ has_char " " s -> float_of s = Ok a -> corner_means float_of s (a, a, a).

(** ** The position of the j-th corner among the points of a path whose segments have [nkp] points *)
Definition corner_pos (nkp : list Z) (j : Z) : Z := zsum (firstn (Z.to_nat j) nkp).

(** ** Distances in the plane *)
Definition distance (p k : R * R) : R := sqrt ((fst p - fst k) * (fst p - fst k) + (snd p - snd k) * (snd p - snd k)).
(** d is the distance of k from the closest of the points *)
Definition distance_to (pts : list (R * R)) (k : R * R) (d : R) : Prop :=
  (exists p, In p pts /\ distance p k = d) /\ forall p, In p pts -> (d <= distance p k)%R.
(** the same momentum up to reciprocal lattice vectors *)
Definition same_momentum (p k : R * R) : Prop :=
  exists m1 m2 : Z, (fst p - fst k = 2 * PI * IZR m1 /\ snd p - snd k = 2 * PI * IZR m2)%R.

(** ** Segments *)
(** point number t is looked at for segment j, between corner j and corner j+1, but one point early *)
Definition searched (nkp : list Z) (j t : Z) : Prop := 0 <= t /\ corner_pos nkp j <= t + 1 < corner_pos nkp (j + 1).
(** coordinates (x, y) of path point t *)
Definition point_xy (k_val : list R * list R * list R) (t : Z) (k : R * R) : Prop :=
  zget (fst (fst k_val)) t = Some (fst k) /\ zget (snd (fst k_val)) t = Some (snd k).
