(** Vocabulary for the properties of bubbles (nothing here models code). *)
From mathcomp Require Import all_ssreflect all_algebra.
From mathcomp.real_closed Require Import complex.
From Coq Require Import String ZArith Lia.
From Verif Require Import Base.PyBase Spec.BZSpec.
Import GRing.Theory Num.Theory.
Set Implicit Arguments. Unset Strict Implicit. Unset Printing Implicit Defensive.
(** the values at fermionic indices -n..n-1 and at bosonic indices -n..n *)
Definition frow (A : Type) (n : Z) (f : Z -> A) : list A := map f (arange (- n) n).
Definition brow (A : Type) (n : Z) (f : Z -> A) : list A := map f (arange (- n) (n + 1)).
(** frequencies of the two Green functions relative to v in the three conventions: 'plus' v, v+w; 'minus' v, v-w;
    'center' v+floor(w/2), v+floor(w/2)-w *)
Inductive conv := Plus | Minus | Center.
Definition name (c : conv) : string := match c with Plus => "plus" | Minus => "minus" | Center => "center" end.
Definition sh1 (c : conv) (w : Z) : Z := match c with Center => w / 2 | _ => 0 end.
Definition sh2 (c : conv) (w : Z) : Z := match c with Plus => w | Minus => - w | Center => w / 2 - w end.
(** k + q on a periodic axis of n points *)
Lemma addq_subproof n (q : Z) (i : 'I_n) : (Z.to_nat ((Z.of_nat i + q) mod Z.of_nat n) < n)%nat.
Proof. have /ssrnat.ltP Hn := ltn_ord i. apply/ssrnat.ltP. have H := Z.mod_pos_bound (Z.of_nat i + q) (Z.of_nat n). lia. Qed.
Definition addq n (q : Z) (i : 'I_n) : 'I_n := Ordinal (addq_subproof q i).
Definition kplusq nx ny nz (k : 'I_nx * 'I_ny * 'I_nz) (q : Z * Z * Z) : 'I_nx * 'I_ny * 'I_nz := (addq q.1.1 k.1.1, addq q.1.2 k.1.2, addq q.2 k.2).
(** the mesh point as integer indices *)
Definition qpoint nx ny nz (k : 'I_nx * 'I_ny * 'I_nz) : Z * Z * Z := (Z.of_nat k.1.1, Z.of_nat k.1.2, Z.of_nat k.2).

(** -q, and momenta that agree modulo the mesh *)
Definition qneg (q : Z * Z * Z) : Z * Z * Z := ((- q.1.1)%Z, (- q.1.2)%Z, (- q.2)%Z).
Definition same_q (nx ny nz : nat) (q p : Z * Z * Z) : Prop :=
  ((q.1.1 - p.1.1) mod Z.of_nat nx = 0 /\ (q.1.2 - p.1.2) mod Z.of_nat ny = 0 /\ (q.2 - p.2) mod Z.of_nat nz = 0)%Z.
Local Open Scope ring_scope.
Local Open Scope complex_scope.
(** -beta G(v+s1) G(v+s2) *)
Definition bub (R : rcfType) (beta : R) (G : Z -> R[i]) c w v : R[i] := - beta%:C * G (v + sh1 c w)%Z * G (v + sh2 c w)%Z.
Section Lat.
Variables nx ny nz : nat.
Notation K := ('I_nx * 'I_ny * 'I_nz)%type.
(** -beta times the average over k of G(k,v+s1) G(k+q,v+s2) *)
Definition qbub (R : rcfType) (beta : R) (G : K -> Z -> R[i]) c q w v : R[i] :=
  - beta%:C * ((\sum_(k : K) G k (v + sh1 c w)%Z * G (kplusq k q) (v + sh2 c w)%Z) / #|{: K}|%:R).
(** G takes the same values at points related by the point operation of that name *)
Definition has_symmetry (R : rcfType) (G : K -> Z -> R[i]) (s : string) : Prop :=
  forall k k' v, qpoint k' = point_op (Z.of_nat nx) (Z.of_nat ny) (Z.of_nat nz) s (qpoint k) -> G k' v = G k v.
End Lat.
