(** Vocabulary for the properties of the optical conductivity (nothing here models code). *)
From mathcomp Require Import all_ssreflect all_algebra.
From mathcomp.real_closed Require Import complex.
From Coq Require Import ZArith.
From Verif Require Import Base.PyBase Spec.BubbleSpec Spec.LatticeSdeSpec.
Import GRing.Theory Num.Theory.
Set Implicit Arguments. Unset Strict Implicit. Unset Printing Implicit Defensive.
Local Open Scope ring_scope.
Local Open Scope complex_scope.
Section Spec.
Variable R : rcfType.
Notation C := R[i].
Variables nx ny nz : nat.
Notation K := ('I_nx * 'I_ny * 'I_nz)%type.
(** - 2/(beta N_k) sum_k a(k) b(k) sum_v G(k,v+s1) G(k,v+s2), v = -n..n-1 *)
Definition chijj0 (beta : R) (a b : K -> C) (G : K -> Z -> C) (c : conv) (n w : Z) : C :=
  - 2%:R / beta%:C * ((\sum_(k : K) a k * b k * \sum_(v <- arange (- n) n) G k (v + sh1 c w)%Z * G k (v + sh2 c w)%Z) / #|{: K}|%:R).
(** One momentum of the vertex contribution: the average over k of
    sum_{v,w'} a(k) b(k+q) G(k,v-w) G(k,v) G(k+q,v-w') G(k+q,v-w'-w) F(q,w',w,v) *)
Definition chijj1_q (a b : K -> C) (G : K -> Z -> C) (wps : list Z) (n w : Z) (q : Z * Z * Z) (F : nat -> Z -> C) : C :=
  (\sum_(k : K) \sum_(v <- arange (- n) n) a k * b (kplusq k q) * G k (v - w)%Z * G k v *
      (\sum_(j < size wps) G (kplusq k q) (v - wat wps j)%Z * G (kplusq k q) (v - wat wps j - w)%Z * F j v)) / #|{: K}|%:R.
(** The expression of the documentation of the routine for one momentum: the average over k of
    sum_{v,w'} a(k-q) b(k) G(k,v-w) G(k,v) G(k-q,v-w') G(k-q,v-w'-w) F(q,w',w,v) *)
Definition chijj1_doc (a b : K -> C) (G : K -> Z -> C) (wps : list Z) (n w : Z) (q : Z * Z * Z) (F : nat -> Z -> C) : C :=
  (\sum_(k : K) \sum_(v <- arange (- n) n) \sum_(j < size wps)
      a (kplusq k (qneg q)) * b k * G k (v - w)%Z * G k v * G (kplusq k (qneg q)) (v - wat wps j)%Z * G (kplusq k (qneg q)) (v - wat wps j - w)%Z * F j v) / #|{: K}|%:R.
(** - 2/(beta^2 N_q) times the sum over the momenta *)
Definition chijj1 (beta : R) (nk : nat) (a b : K -> C) (G : K -> Z -> C) (qs : list (Z * Z * Z)) (wps : list Z) (n w : Z) (F : nat -> nat -> Z -> C) : C :=
  - 2%:R / (beta%:C ^+ 2 * nk%:R) * \sum_(i < size qs) chijj1_q a b G wps n w (qat qs i) (F i).
(** the array [q,w',w,v] with these entries *)
Definition arr4 (T : Type) (nq nwp nw : nat) (n : Z) (f : nat -> nat -> nat -> Z -> T) : list (list (list (list T))) :=
  mkseq (fun i => mkseq (fun j => mkseq (fun c => frow n (f i j c)) nw) nwp) nq.
End Spec.
