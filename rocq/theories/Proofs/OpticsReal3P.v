(** Real-frequency optical conductivity: the interpolated conductivity, and a non-uniform mesh. *)
From mathcomp Require Import all_ssreflect all_algebra.
From mathcomp.real_closed Require Import complex.
From Coq Require Import ZArith Lia Sorted.
From Verif Require Import Base.PyBase Base.PyFacts Base.Arr Model.TwoPoint Model.Bubble Model.OpticsReal Spec.OpticsRealSpec Proofs.OpticsRealP Proofs.OpticsReal2P.
Import Order.TTheory GRing.Theory Num.Theory.
Set Implicit Arguments. Unset Strict Implicit. Unset Printing Implicit Defensive.
Local Open Scope ring_scope.
Local Open Scope complex_scope.

Section Sigma.
Variable R : rcfType.
Notation C := R[i].
Notation lt2 := (fun a b : R => a < b).
Lemma SS_app (l1 l2 : list R) : StronglySorted lt2 l1 -> StronglySorted lt2 l2 -> (forall a b, List.In a l1 -> List.In b l2 -> a < b) -> StronglySorted lt2 (l1 ++ l2).
Proof.
  elim: l1 => [|x l IH] //= H1 H2 H. inversion_clear H1 as [|x' l' HS HF]. constructor.
  - apply: IH => // a b Ha Hb. apply: H => //. by right.
  - apply List.Forall_app. split=> //. apply List.Forall_forall => b Hb. apply: H => //. by left.
Qed.
Lemma SS_negrev (l : list R) : StronglySorted lt2 l -> StronglySorted lt2 (List.map (fun x => - x) (List.rev l)).
Proof.
  elim: l => [|x l IH] H; first by constructor. inversion_clear H as [|x' l' HS HF]. rewrite /= List.map_app. apply: SS_app; first exact: IH.
  - repeat constructor.
  - move=> a b /List.in_map_iff [c [<- /(proj2 (List.in_rev _ _)) Hc]] [<-|//]. have := proj1 (List.Forall_forall _ _) HF _ Hc. by rewrite ltr_opp2.
Qed.
Lemma In_combine_map2 A B D (h : A -> B -> D) (l : list A) (m : list B) c x : List.In (c, x) (List.combine l m) -> List.In (x, h c x) (List.combine m (map2 h l m)).
Proof. elim: l m => [|a l IH] [|b m] //=. move=> [[-> ->]|H]; first by left. right. exact: IH. Qed.
Lemma combine_app A B (a1 a2 : list A) (b1 b2 : list B) : length a1 = length b1 -> List.combine (a1 ++ a2) (b1 ++ b2) = List.combine a1 b1 ++ List.combine a2 b2.
Proof. elim: a1 b1 => [|x a IH] [|y b] //= [E]. by rewrite IH. Qed.
Lemma length_map2 A B D (h : A -> B -> D) l m : length l = length m -> length (map2 h l m) = length m.
Proof. elim: l m => [|a l IH] [|b m] //= [E]. by rewrite IH. Qed.
Lemma sigma_interp interp (c : Z -> C) (x : Z -> R) m : interpolates interp -> (3 <= m)%Z -> (forall i, (1 <= i < m)%Z -> 0 < x i) -> (forall i j, (1 <= i < j)%Z -> (j < m)%Z -> x i < x j) ->
  exists s0, get_sigma_from_chijj_realf interp (List.map c (arange 1 m)) (List.map x (arange 1 m)) =
  (s0 :: List.map (fun i => complex.Im (c i) / x i) (arange 1 m), 0 :: List.map x (arange 1 m)).
Proof.
  move=> HI Hm H0 Hx. rewrite /get_sigma_from_chijj_realf.
  set w := List.map x (arange 1 m). set chi := List.map c (arange 1 m).
  set wf := _ ++ w. set ys := map2 _ _ wf.
  have Lw : length w = Z.to_nat (m - 1) by rewrite /w List.map_length /arange List.map_length List.seq_length.
  have Lc : length chi = Z.to_nat (m - 1) by rewrite /chi List.map_length /arange List.map_length List.seq_length.
  have Sw : StronglySorted lt2 w.
    rewrite /w. have H : (forall n a, Z.to_nat (m - a) = n -> (1 <= a)%Z -> StronglySorted lt2 (List.map x (arange a m))).
      elim=> [|n IH] a En Ha; first by rewrite arange_empty; [constructor|lia].
      rewrite arange_cons; last lia. rewrite /=. constructor; first by apply: IH; lia.
      apply List.Forall_forall => b /List.in_map_iff [j [<- /In_arange Hj]]. apply: Hx; lia.
    exact: (H _ 1%Z erefl).
  have Pw : forall b, List.In b w -> 0 < b by move=> b /List.in_map_iff [j [<- /In_arange Hj]]; apply: H0.
  exists (interp wf ys 0). rewrite /=. f_equal. f_equal. rewrite /w List.map_map. apply: List.map_ext_in => i Hi. apply: HI.
  - apply: SS_app => //; first exact: SS_negrev.
    move=> a b /List.in_map_iff [e [<- /(proj2 (List.in_rev _ _)) He]] Hb. apply: (@lt_trans _ _ 0); last exact: Pw. by rewrite oppr_lt0 Pw.
  - apply: length_map2. by rewrite /wf /chi /w !List.app_length !List.map_length !List.rev_length !List.map_length.
  - rewrite /wf List.app_length List.map_length List.rev_length Lw. lia.
  - have -> : complex.Im (c i) / x i = (fun a b => a / b) (complex.Im (c i)) (x i) by []. apply: In_combine_map2. rewrite /wf combine_app; last by rewrite /chi /w !List.map_length !List.rev_length !List.map_length.
    apply List.in_or_app. right. rewrite /chi /w List.map_map. move: Hi. elim: (arange 1 m) => [|y l IH] //= [->|H]; first by left. right. exact: IH.
Qed.
Lemma map2_app A B D (h : A -> B -> D) a1 a2 b1 b2 : length a1 = length b1 -> map2 h (a1 ++ a2) (b1 ++ b2) = map2 h a1 b1 ++ map2 h a2 b2.
Proof. elim: a1 b1 => [|x a IH] [|y b] //= [E]. by rewrite IH. Qed.
Lemma map2_maps T A B D (h : A -> B -> D) (f : T -> A) (g : T -> B) l : map2 h (List.map f l) (List.map g l) = List.map (fun t => h (f t) (g t)) l.
Proof. elim: l => [|a l IH] //=. by rewrite IH. Qed.
Lemma sigma_zero interp (c : Z -> C) (x : Z -> R) m : let sigma i := complex.Im (c i) / x i in
  List.hd 0 (get_sigma_from_chijj_realf interp (List.map c (arange 1 m)) (List.map x (arange 1 m))).1 =
  interp (List.map (fun i => - x i) (List.rev (arange 1 m)) ++ List.map x (arange 1 m)) (List.map sigma (List.rev (arange 1 m)) ++ List.map sigma (arange 1 m)) 0.
Proof.
  move=> sigma. move: (arange 1 m) => l. rewrite /get_sigma_from_chijj_realf /=. rewrite -!List.map_rev !List.map_map map2_app; last by rewrite !List.map_length. rewrite !map2_maps. congr (interp _ (_ ++ _) 0).
  apply: List.map_ext => i. rewrite /sigma. case: (c i) => a b /=. by rewrite mulNr invrN mulrN opprK.
Qed.
End Sigma.

Section NonUniform.
Variable R : rcfType.
Notation C := R[i].
Notation zr := (@zr R).
Variables (rexp : R -> R) (cpi beta : R).
(** the mesh -9, -4, -1, 0, 1, 4, 9 *)
Definition sqmesh (j : Z) : R := zr ((j - 3) * Z.abs (j - 3)).
Definition gstep (k : 'I_1 * 'I_1 * 'I_1) (x : R) : C := if x <= 3%:R then - 'i else 0.
Lemma nonuniform_value : 0 < cpi -> (forall x, 0 <= rexp x) ->
  exists c, vec_get_chijj_bubble_realf rexp cpi (List.map sqmesh (arange 0 7)) (fun k => List.map (fun j => gstep k (sqmesh j)) (arange 0 7)) (fun _ => 1) (fun _ => 1) beta 6%:R = Ok ([:: c], [:: 1]) /\
  c <> chijj_real_grid (fermi rexp beta) cpi sqmesh (fun _ => 1) (fun _ => 1) gstep 2 4 1.
Proof.
  move=> Hpi Hexp.
  have E := @realf_any_grid R 1 1 1 rexp cpi sqmesh (fun k j => gstep k (sqmesh j)) 3 2 (fun k => List.map (fun j => gstep k (sqmesh j)) (arange 0 7)) (fun _ => 1) (fun _ => 1) beta 6%:R (fun k => erefl).
  have z6 : 6%:R = zr 6 by []. have z3 : 3%:R = zr 3 by [].
  rewrite E; last 4 first.
  - lia.
  - exists 6%Z. split; first lia. rewrite z6. exact: zr_lt.
  - rewrite (List.map_map sqmesh). apply: argminr_unique => // j Hj; rewrite /sqmesh !zr_abs; [apply: zr_lt|apply: zr_le]; have : (j = 0 \/ j = 1 \/ j = 2 \/ j = 3 \/ j = 4 \/ j = 5 \/ j = 6)%Z by lia.
    + by move=> [E1|[E1|[E1|[E1|[E1|[E1|E1]]]]]]; subst j; lia.
    + by move=> [E1|[E1|[E1|[E1|[E1|[E1|E1]]]]]]; subst j; lia.
  - rewrite (List.map_map sqmesh). apply: argminr_unique => // j Hj; rewrite /sqmesh z6 -!zrB !zr_abs; [apply: zr_lt|apply: zr_le]; have : (j = 0 \/ j = 1 \/ j = 2 \/ j = 3 \/ j = 4 \/ j = 5 \/ j = 6)%Z by lia.
    + by move=> [E1|[E1|[E1|[E1|[E1|[E1|E1]]]]]]; subst j; lia.
    + by move=> [E1|[E1|[E1|[E1|[E1|[E1|E1]]]]]]; subst j; lia.
  have -> : arange 1 2 = [:: 1%Z] by []. rewrite [List.map _ _]/= [X in (_, X)]/=. eexists. split; first reflexivity.
  have N2 : (- 2%:R : C) != 0 by rewrite oppr_eq0 pnatr_eq0.
  have NK : (#|{: 'I_1 * 'I_1 * 'I_1}|%:R : C)^-1 != 0 by rewrite invr_eq0 pnatr_eq0 !card_prod !card_ord.
  rewrite /chijj_real_grid => /(mulfI N2) /(mulIf NK). 
  pose f j : C := (fermi rexp beta (sqmesh j) * spectral cpi (gstep (ord0, ord0, ord0) (sqmesh j)))%:C * (gstep (ord0, ord0, ord0) (sqmesh (j + 1)) + conjc (gstep (ord0, ord0, ord0) (sqmesh (j - 1)))).
  pose g j : C := (fermi rexp beta (sqmesh j) * spectral cpi (gstep (ord0, ord0, ord0) (sqmesh j)))%:C * (gstep (ord0, ord0, ord0) (sqmesh j + 1) + conjc (gstep (ord0, ord0, ord0) (sqmesh j - 1))).
  rewrite (eq_bigr (fun k => trapezoid sqmesh f 2 4)); last by move=> k _; rewrite !mul1r.
  rewrite [X in _ = X](eq_bigr (fun k => trapezoid sqmesh g 2 4)); last by move=> k _; rewrite !mul1r.
  rewrite !sumr_const !card_prod !card_ord !mulr1n /trapezoid. have -> : arange 2 4 = [:: 2; 3]%Z by []. rewrite !big_cons !big_nil !addr0.
  have s1 : sqmesh 1 = zr (-4) by []. have s2 : sqmesh 2 = zr (-1) by []. have s3 : sqmesh 3 = zr 0 by []. have s4 : sqmesh 4 = zr 1 by []. have s5 : sqmesh 5 = zr 4 by [].
  have st : forall n k, gstep k (zr n) = if (n <=? 3)%Z then - 'i else 0.
    move=> n k. rewrite /gstep z3. case: Z.leb_spec => H; first by rewrite zr_le. by rewrite leNgt (zr_lt R H).
  have one : 1 = zr 1 by [].
  have e2 : f 2%Z = g 2%Z by rewrite /f /g s2 one -zrD -zrB !st.
  have e3 : f 3%Z = g 3%Z by rewrite /f /g s3 one -zrD -zrB !st.
  rewrite e2 e3. have -> : (3 + 1 = 4)%Z by []. move/addrI. have H2 : (2%:R : C)^-1 != 0 by rewrite invr_eq0 pnatr_eq0. move/(mulIf H2).
  have Hd : (sqmesh 4 - sqmesh 3)%:C != 0 :> C by rewrite s4 s3 -zrB eq_complex /= oner_eq0.
  move/(mulfI Hd)/addrI. rewrite /f /g. have -> : sqmesh 4 + 1 = zr 2 by rewrite s4 one -zrD. have -> : sqmesh 4 - 1 = zr 0 by rewrite s4 one -zrB.
  have -> : (4 + 1 = 5)%Z by []. have -> : (4 - 1 = 3)%Z by []. rewrite s5 s4 s3 !st /=.
  have Hf : (fermi rexp beta (zr 1) * spectral cpi (- 'i))%:C != 0 :> C.
    rewrite eq_complex /= eqxx andbT mulf_neq0 //.
    - rewrite /fermi div1r invr_eq0. apply: lt0r_neq0. by rewrite ltr_paddl ?Hexp ?ltr01.
    - rewrite /spectral /= opprK div1r invr_eq0. exact: lt0r_neq0.
  move/(mulfI Hf)/addIr/eqP. by rewrite eq_complex /= oppr0 eqxx /= eq_sym oppr_eq0 oner_eq0.
Qed.
End NonUniform.
