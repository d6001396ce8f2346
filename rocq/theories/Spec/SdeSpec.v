(** Reading nested lists as functions of (frequency) indices, for specifications; a position outside reads 0. *)
From mathcomp Require Import all_ssreflect all_algebra.
From Verif Require Import Base.PyBase Base.Arr.
Set Implicit Arguments. Unset Strict Implicit. Unset Printing Implicit Defensive.
Import GRing.Theory. Local Open Scope ring_scope.
Section S.
Variable F : fieldType.
Definition val (l : list F) (i : Z) : F := odflt 0 (zget l i).
Definition val2 (m : list (list F)) (i j : Z) : F := odflt 0 (get2 m i j).
(** value of a fermionic array (length 2 niv, frequencies -niv..niv-1) at frequency index v *)
Definition fer (l : list F) (v : Z) : F := val l (zlen l / 2 + v)%Z.
(** a matrix / row vector as the nested list numpy would hold *)
Definition rv2l n (v : 'rV[F]_n) : list F := [seq v 0 i | i <- enum 'I_n].
Definition mx2l m n (M : 'M[F]_(m, n)) : list (list F) := [seq [seq M i j | j <- enum 'I_n] | i <- enum 'I_m].
(** Schwinger-Dyson sum  1/beta sum_w K_w(v) G(v-w)  over the listed bosonic frequencies; [K j v] belongs to the j-th. *)
Definition sd_sum (beta : F) (wn : list Z) (K : Z -> F) (giw : list F) (v : Z) : F :=
  beta^-1 * \sum_(j <- range (zlen wn)) K j * fer giw (v - odflt 0%Z (zget wn j))%Z.
(** the three-leg vertex continued by one outside the core *)
Definition vrg_cont (vrg : list (list F)) (nc : Z) (j v : Z) : F := if (- nc <=? v)%Z && (v <? nc)%Z then val2 vrg j (nc + v) else 1.
End S.
