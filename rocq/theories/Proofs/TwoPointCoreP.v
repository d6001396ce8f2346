(** The core estimate and the window of the real-frequency filling. *)
From mathcomp Require Import all_ssreflect all_algebra.
From mathcomp.real_closed Require Import complex.
From Coq Require Import ZArith Lia.
From Verif Require Import Base.PyBase Base.PyFacts Model.Matsubara Model.TwoPoint Spec.TwoPointSpec Proofs.TwoPointP Proofs.TwoPointMainP Proofs.TwoPointFillP Proofs.TwoPointRealP.
Import Order.Theory GRing.Theory Num.Theory.
Set Implicit Arguments. Unset Strict Implicit. Unset Printing Implicit Defensive.
Local Open Scope ring_scope.
Local Open Scope complex_scope.
Section T.
Variable R : rcfType.
Notation C := R[i].
Lemma find_first (l : list bool) (a : nat) : List.nth_error l a = Some true -> (forall i, (i < a)%coq_nat -> List.nth_error l i = Some false) -> has id l /\ seq.find id l = a.
Proof.
  elim: l a => [|b l IH] [|a] //= Ha Hf.
  - case: Ha => ->. by [].
  - have Hb : b = false by have := Hf 0%nat ltac:(lia) => -[]. have [|i Hi|H1 H2] := IH a => //; first by apply: (Hf i.+1); lia.
    by rewrite Hb /= H1 H2.
Qed.
Lemma argmax_first (l : list bool) (a : nat) : zget l (Z.of_nat a) = Some true -> (forall i, (0 <= i < Z.of_nat a)%Z -> zget l i = Some false) -> argmax l = a.
Proof.
  move=> Ha Hf. have [|i Hi|H1 H2] := @find_first l a; last by rewrite /argmax H1.
  - move: Ha. rewrite /zget. case: Z.ltb_spec; [lia|]. by rewrite Nat2Z.id.
  - have := Hf (Z.of_nat i) ltac:(lia). rewrite /zget. case: Z.ltb_spec; [lia|]. by rewrite Nat2Z.id.
Qed.
Lemma estimate_first (K : finType) (sigma : K -> list C) n pb s0 s1 err (a b : Z) : (0 <= a < Z.of_nat n)%Z -> (0 <= b < Z.of_nat n)%Z ->
  let d v := (\sum_(k : K) entry (sigma k) v) / #|K|%:R - tail_fun (nu pb) s0 s1 v in
  `|complex.Re (d a)| < err -> (forall v, (0 <= v < a)%Z -> err <= `|complex.Re (d v)|) ->
  `|complex.Im (d b)| < err -> (forall v, (0 <= v < b)%Z -> err <= `|complex.Im (d v)|) ->
  estimate_niv_core sigma n pb s0 s1 err = Z.max 20 (Z.max a b).
Proof.
  move=> Ha Hb d A1 A2 B1 B2. rewrite /estimate_niv_core /niv_core_min.
  have HA : forall (f : C * C -> bool) c, (0 <= c < Z.of_nat n)%Z -> f ((\sum_(k : K) entry (sigma k) c) / #|K|%:R, tail_fun (nu pb) s0 s1 c) = true ->
    (forall v, (0 <= v < c)%Z -> f ((\sum_(k : K) entry (sigma k) v) / #|K|%:R, tail_fun (nu pb) s0 s1 v) = false) ->
    Z.of_nat (argmax (map f (combine (kmean_v n sigma) (tail_row pb s0 s1 (Z.of_nat n) 0)))) = c.
    move=> f c Hc Ht Hf. rewrite (@argmax_first _ (Z.to_nat c)); first lia.
    - have -> : Z.of_nat (Z.to_nat c) = c by lia. rewrite zget_map zget_combine zget_kmean // zget_tail //=. by rewrite Ht.
    - move=> i Hi. have Hi' : (0 <= i < c)%Z by lia. rewrite zget_map zget_combine zget_kmean ?zget_tail; [|lia|lia] => /=. by rewrite Hf.
  rewrite (HA (fun x => `|complex.Re x.1 - complex.Re x.2| < err) a) => [|//| |v Hv]; first last.
    by apply/negbTE; rewrite -leNgt -ReB; exact: A2.
    by rewrite -ReB.
  rewrite (HA (fun x => `|complex.Im x.1 - complex.Im x.2| < err) b) => [|//| |v Hv]; first last.
    by apply/negbTE; rewrite -leNgt -ImB; exact: B2.
    by rewrite -ImB.
  case: Z.ltb_spec; lia.
Qed.
Lemma trapz_sum (y x : list R) : size y = size x -> trapz y x = \sum_(0 <= i < (size x).-1) (seq.nth 0 x i.+1 - seq.nth 0 x i) * (seq.nth 0 y i + seq.nth 0 y i.+1) / 2%:R.
Proof.
  elim: y x => [|y0 y IH] [|x0 x] // E; first by rewrite big_geq. move: E => [E]. case: y IH E => [|y1 y] IH; case: x => [|x1 x] // E; first by rewrite /= big_geq.
  rewrite -[trapz _ _]/((x1 - x0) * (y0 + y1) / 2%:R + trapz (y1 :: y) (x1 :: x)) IH // [RHS]big_nat_recl //.
Qed.
Variable K : finType.
Lemma filling_window (cpi : R) (w1 w2 : list R) (gwk : K -> list C) : all (fun x => x <= 0) w1 -> all (fun x => 0 < x) w2 ->
  let A i := complex.Im ((\sum_(k : K) entry (gwk k) (Z.of_nat i)) / #|K|%:R) in
  get_filling_real_f cpi (w1 ++ w2) gwk = - 1 / cpi * (\sum_(0 <= i < (size w1).-1) (seq.nth 0 w1 i.+1 - seq.nth 0 w1 i) * (A i + A i.+1) / 2%:R) * 2%:R.
Proof.
  move=> H1 H2 A. rewrite /get_filling_real_f.
  have E : map (fun x => x <= 0) (w1 ++ w2) = nseq (size w1) true ++ nseq (size w2) false.
    rewrite -[List.app]/(@cat) -[map]/(@seq.map) map_cat. congr (_ ++ _).
    - elim: w1 H1 => //= x l IH /andP[-> /IH ->] //.
    - elim: w2 H2 => //= x l IH /andP[Hx /IH ->]. by rewrite leNgt Hx.
  rewrite E. set im := map _ _.
  have Li : size im = (size w1 + size w2)%nat by rewrite /im -[map]/(@seq.map) size_map; have := zlen_kmean (length (w1 ++ w2)) gwk; rewrite /zlen => /Nat2Z.inj; rewrite -[length]/(@size) => ->; rewrite size_cat.
  have M : forall s : list R, size s = (size w1 + size w2)%nat -> mask (nseq (size w1) true ++ nseq (size w2) false) s = seq.take (size w1) s.
    move=> s Hs. rewrite -{1}(cat_take_drop (size w1) s) mask_cat; last by rewrite size_nseq size_takel // Hs leq_addr.
    by rewrite mask_false cats0 mask_true // size_takel // Hs leq_addr.
  rewrite !M //; last by rewrite size_cat. rewrite take_size_cat // trapz_sum; last by rewrite size_takel // Li leq_addr.
  congr (_ * _ * _). apply: eq_big_nat => i /andP[_ Hi].
  have Hi1 : (i.+1 < size w1)%nat by case: (size w1) Hi.
  have V : forall j, (j < size w1)%nat -> seq.nth 0 (seq.take (size w1) im) j = A j.
    move=> j Hj. rewrite nth_take //.
    have Hz : zget im (Z.of_nat j) = Some (A j).
      rewrite /im zget_map zget_kmean //. split; first lia. rewrite -[length]/(@size) size_cat. move/ssrnat.ltP: Hj. rewrite -plusE. lia.
    by rewrite nthE; have := zget_eq_nth 0 Hz; rewrite Nat2Z.id.
  rewrite !V //. exact: ltnW.
Qed.
End T.
