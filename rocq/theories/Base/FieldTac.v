(** Coq's [ring]/[field] for a mathcomp field: operations wrapped in definitions so that the tactic's syntactic
    matching does not see mathcomp's canonical structures. *)
From mathcomp Require Import all_ssreflect all_algebra.
From Coq Require Export Field.
Import GRing.Theory. Local Open Scope ring_scope.
Section S. Variable F : fieldType.
Definition Kadd (a b : F) : F := a + b.
Definition Kmul (a b : F) : F := a * b.
Definition Ksub (a b : F) : F := a - b.
Definition Kopp (a : F) : F := - a.
Definition Kinv (a : F) : F := a^-1.
Definition Kdiv (a b : F) : F := a / b.
Definition K0 : F := 0.
Definition K1 : F := 1.
Lemma Kft : field_theory K0 K1 Kadd Kmul Ksub Kopp Kdiv Kinv eq.
Proof.
  constructor; last 2 first.
  - by [].
  - by move=> x /eqP hx; rewrite /Kmul /Kinv mulVf.
  - by constructor; rewrite /Kadd /Kmul /Ksub /Kopp /K0 /K1;
    [apply: add0r | apply: addrC | apply: addrA | apply: mul1r | apply: mulrC | apply: mulrA | apply: mulrDl | | apply: subrr].
  - by apply/eqP; rewrite oner_neq0.
Qed.
Lemma Kcancel (a b : F) : Kadd K0 a = Kadd K0 b -> a = b.
Proof. by rewrite /Kadd /K0 !add0r. Qed.
End S.
Ltac to_K F :=
  rewrite ?expr2 ?expr1 ?mulr1 ?mul1r ?div1r;
  repeat match goal with
  | |- context [@GRing.natmul ?V ?a 2] => change (@GRing.natmul V a 2) with (@Kadd F a a)
  end;
  repeat match goal with
  | |- context [@GRing.add ?V ?a ?b] => change (@GRing.add V a b) with (@Kadd F a b)
  | |- context [@GRing.mul ?V ?a ?b] => change (@GRing.mul V a b) with (@Kmul F a b)
  | |- context [@GRing.opp ?V ?a] => change (@GRing.opp V a) with (@Kopp F a)
  | |- context [@GRing.inv ?V ?a] => change (@GRing.inv V a) with (@Kinv F a)
  | |- context [@GRing.zero ?V] => change (@GRing.zero V) with (@K0 F)
  | |- context [@GRing.one ?V] => change (@GRing.one V) with (@K1 F)
  end;
  match goal with |- @eq _ ?a ?b => change (@eq (GRing.Field.sort F) a b) end; apply: Kcancel.
Ltac of_K := rewrite /Kadd /Kmul /Kopp /Kinv /Kdiv /Ksub /K0 /K1.
