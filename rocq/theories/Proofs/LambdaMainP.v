(** The lambda-correction theorems in the vocabulary of Spec/LambdaSpec.v. *)
From mathcomp Require Import all_ssreflect all_algebra.
From mathcomp.real_closed Require Import complex.
From Coq Require Import String.
From Verif Require Import Base.PyBase Model.Lambda Proofs.LambdaP Spec.LambdaSpec.
Import Order.Theory GRing.Theory Num.Theory.
Set Implicit Arguments. Unset Strict Implicit. Unset Printing Implicit Defensive.
Local Open Scope nat_scope.
Local Open Scope ring_scope.

Section Main.
Variable R : rcfType.
Notation C := R[i].
Local Notation cx := (real_complex R).

(** A real array stored as a complex one. *)
Definition to_complex (m : list (list R)) : list (list C) := cmat m.
Definition to_complex1 (l : list R) : list C := [seq cx x | x <- l].

Lemma use_lambda_cmat (m : list (list R)) (l : R) : use_lambda (cmat m) l = cmat (shift_inverse l m).
Proof. rewrite /use_lambda. apply: amap_cmat => x. by rewrite !div1r -fmorphV -rmorphD -fmorphV. Qed.
Lemma total_shift beta (m : list (list R)) l : total beta (shift_inverse l m) = G (wgt beta m) (invs m) l.
Proof.
  rewrite /total /G /wgt /invs /shift_inverse size_map mulrC big_map big_map. congr (_ * _).
  elim: m => [|r m IH]; first by rewrite !big_nil. by rewrite big_cons /= big_cat /= IH big_map.
Qed.
Lemma total_flat beta (m : list (list R)) : total beta m = (\sum_(x <- flatten m) x) / (seq.size m)%:R / beta.
Proof.
  rewrite /total invfM -mulrA (mulrC beta^-1). congr (_ * _).
  elim: m => [|r m IH]; first by rewrite !big_nil. by rewrite big_cons /= big_cat /= IH.
Qed.
Lemma phys_start nw (m : list (list R)) : physical nw m ->
  exists ls, [/\ get_lambda_start nw (cmat m) = Ok ls, - ls \in invs m & forall d, d \in invs m -> - ls <= d].
Proof. case=> h1 h2 h3 h4 h5. apply: lambda_start_ok => // r hr x hx. rewrite -divn2. exact: h5. Qed.
Lemma shift_pos (m : list (list R)) (ls l : R) : (forall d, d \in invs m -> - ls <= d) -> ls < l -> all_positive (shift_inverse l m).
Proof.
  move=> h hl r' /mapP[r hr ->] y /mapP[x hx ->]. rewrite invr_gt0.
  have hd : x^-1 \in invs m by apply: map_f; apply/flattenP; exists r.
  apply: (@le_lt_trans _ _ (x^-1 + ls)); last by rewrite ltr_add2l.
  by rewrite -ler_subl_addr sub0r h.
Qed.

Lemma single_ok nw (m : list (list R)) (ls beta t : R) maxiter (eps delta : R) :
  physical nw m -> get_lambda_start nw (cmat m) = Ok ls -> 0 < beta -> 0 < delta ->
  eps * delta * (beta * (seq.size m)%:R) <= 2%:R^-1 ->
  let r := lambda_correction_single_full beta ls (cmat m) (cx t) maxiter eps delta in
  [/\ ls < r.1, all_positive (shift_inverse r.1 m) &
      r.2 -> 0 <= total beta (shift_inverse r.1 m) - t < eps].
Proof.
  move=> hp hls hb hd hsm. have [ls' [h1 h2 h3]] := phys_start hp. move: h1; rewrite hls => -[e]; subst ls'.
  have hm : m != [::] by case: hp.
  rewrite /lambda_correction_single_full lam_loopE total_shift /=.
  have hsm' : eps * delta / wgt beta m <= 2%:R^-1 by rewrite /wgt invrK.
  have [h4 h5] := rloop_safe (t := t) (wgt_gt0 hb hm) h2 h3 maxiter hsm' hd (lexx _) hd (or_introl erefl).
  split=> //. exact: shift_pos h3 h4.
Qed.
Lemma single_converges nw (m : list (list R)) (ls beta t eps delta : R) : (forall y : R, exists n : nat, y < n%:R) ->
  physical nw m -> get_lambda_start nw (cmat m) = Ok ls -> 0 < beta -> 0 < delta -> 0 < t -> 0 < eps ->
  exists N, forall maxiter, (N <= maxiter)%nat ->
    (lambda_correction_single_full beta ls (cmat m) (cx t) maxiter eps delta).2.
Proof.
  move=> ha hp hls hb hd ht he. have [ls' [h1 h2 h3]] := phys_start hp. move: h1; rewrite hls => -[e]; subst ls'.
  have hm : m != [::] by case: hp.
  have [N hN] := rloop_converges (wgt_gt0 hb hm) h2 h3 ht he ha hd. exists N => n hn.
  rewrite /lambda_correction_single_full lam_loopE. exact: hN.
Qed.
Lemma sum_rule_unique nw (m : list (list R)) (ls beta l1 l2 : R) :
  physical nw m -> get_lambda_start nw (cmat m) = Ok ls -> 0 < beta -> ls < l1 -> ls < l2 ->
  total beta (shift_inverse l1 m) = total beta (shift_inverse l2 m) -> l1 = l2.
Proof.
  move=> hp hls hb h1 h2. have [ls' [h3 h4 h5]] := phys_start hp. move: h3; rewrite hls => -[e]; subst ls'.
  have hm : m != [::] by case: hp. have hw := wgt_gt0 hb hm. rewrite !total_shift => e.
  have hlt a b : ls < a -> a < b -> G (wgt beta m) (invs m) b < G (wgt beta m) (invs m) a.
    move=> ha hab. have := @G_decr _ _ _ _ hw h4 h5 (a - ls) (b - ls).
    rewrite subr_gt0 ltr_add2r => /(_ ha hab). by rewrite addrC subrK addrC subrK.
  case: (ltgtP l1 l2) => // hl.
  - by move: (hlt _ _ h1 hl); rewrite e ltxx.
  - by move: (hlt _ _ h2 hl); rewrite e ltxx.
Qed.

Lemma loc_sum_cx (beta : R) l : loc_sum beta (to_complex1 l) = cx (local_total beta l).
Proof. by rewrite /loc_sum /to_complex1 row_sum_cx div1r -fmorphV -rmorphM /local_total mulrC. Qed.
Lemma sp_target (beta : R) (cd cm : list R) (md : list (list R)) : seq.size cd = seq.size cm ->
  vadd (to_complex1 cm) (to_complex1 cd) = Ok [seq x.1 + x.2 | x <- zip (to_complex1 cm) (to_complex1 cd)] /\
  1 / cx beta * row_sum [seq x.1 + x.2 | x <- zip (to_complex1 cm) (to_complex1 cd)] - 1 / cx beta * mean_of_sums (cmat md)
  = cx (local_total beta cm + local_total beta cd - total beta md).
Proof.
  move=> hs. split; first by rewrite /vadd !size_map hs eqxx.
  have -> : row_sum [seq x.1 + x.2 | x <- zip (to_complex1 cm) (to_complex1 cd)]
      = cx (\sum_(x <- cm) x + \sum_(x <- cd) x).
    rewrite /row_sum /to_complex1. elim: cm cd hs => [|a cm IH] [|b cd] //= hs; first by rewrite !big_nil rmorphD rmorph0 addr0.
    case: hs => hs. rewrite !big_cons IH //= -!rmorphD. congr (cx _). by rewrite !addrA (addrAC a).
  rewrite mean_of_sums_cx div1r -fmorphV -!rmorphM -rmorphB. congr (cx _).
  rewrite total_flat /local_total mulrDr !(mulrC beta^-1). done.
Qed.

Lemma correction_spch maxiter (eps delta : R) nw (md mm : list (list R)) (beta : R) (cd cm : list R) :
  physical nw md -> physical nw mm -> 0 < beta -> 0 < delta ->
  eps * delta * (beta * (seq.size md)%:R) <= 2%:R^-1 -> eps * delta * (beta * (seq.size mm)%:R) <= 2%:R^-1 ->
  exists ld lm,
    lambda_correction_gen maxiter eps delta nw (cmat md) (cmat mm) beta (to_complex1 cd) (to_complex1 cm) "spch"
      = Ok (cmat (shift_inverse ld md), cmat (shift_inverse lm mm), ld, lm) /\
    all_positive (shift_inverse ld md) /\ all_positive (shift_inverse lm mm).
Proof.
  move=> hd hm hb hdl h1 h2. rewrite /lambda_correction_gen /=.
  have [sd [ed _ _]] := phys_start hd. have [sm [em _ _]] := phys_start hm. rewrite ed em /=.
  rewrite !loc_sum_cx !use_lambda_cmat.
  have [_ p1 _] := single_ok (local_total beta cd) maxiter hd ed hb hdl h1.
  have [_ p2 _] := single_ok (local_total beta cm) maxiter hm em hb hdl h2.
  by eexists; eexists; split; first reflexivity.
Qed.
Lemma correction_spch_converges (eps delta : R) nw (md mm : list (list R)) (beta : R) (cd cm : list R) : (forall y : R, exists n : nat, y < n%:R) ->
  physical nw md -> physical nw mm -> 0 < beta -> 0 < delta -> 0 < eps ->
  eps * delta * (beta * (seq.size md)%:R) <= 2%:R^-1 -> eps * delta * (beta * (seq.size mm)%:R) <= 2%:R^-1 ->
  0 < local_total beta cd -> 0 < local_total beta cm ->
  exists N, forall maxiter, (N <= maxiter)%nat -> exists ld lm,
    [/\ lambda_correction_gen maxiter eps delta nw (cmat md) (cmat mm) beta (to_complex1 cd) (to_complex1 cm) "spch"
        = Ok (cmat (shift_inverse ld md), cmat (shift_inverse lm mm), ld, lm),
        0 <= total beta (shift_inverse ld md) - local_total beta cd < eps &
        0 <= total beta (shift_inverse lm mm) - local_total beta cm < eps].
Proof.
  move=> ha hd hm hb hdl he h1 h2 t1 t2.
  have [sd [ed _ _]] := phys_start hd. have [sm [em _ _]] := phys_start hm.
  have [N1 c1] := single_converges ha hd ed hb hdl t1 he.
  have [N2 c2] := single_converges ha hm em hb hdl t2 he.
  exists (maxn N1 N2) => n. rewrite geq_max => /andP[n1 n2]. rewrite /lambda_correction_gen /= ed em /=.
  rewrite !loc_sum_cx !use_lambda_cmat.
  have [_ _ p1] := single_ok (local_total beta cd) n hd ed hb hdl h1.
  have [_ _ p2] := single_ok (local_total beta cm) n hm em hb hdl h2.
  do 2 eexists; split; [reflexivity|exact: p1 (c1 n n1)|exact: p2 (c2 n n2)].
Qed.
Lemma correction_sp maxiter (eps delta : R) nw (md mm : list (list R)) (beta : R) (cd cm : list R) :
  physical nw mm -> 0 < beta -> 0 < delta -> seq.size cd = seq.size cm ->
  eps * delta * (beta * (seq.size mm)%:R) <= 2%:R^-1 ->
  exists lm,
    lambda_correction_gen maxiter eps delta nw (cmat md) (cmat mm) beta (to_complex1 cd) (to_complex1 cm) "sp"
      = Ok (cmat md, cmat (shift_inverse lm mm), 0, lm) /\ all_positive (shift_inverse lm mm).
Proof.
  move=> hm hb hdl hs h2. rewrite /lambda_correction_gen /=.
  have [sm [em _ _]] := phys_start hm. rewrite em /=. have [e1 e2] := sp_target beta md hs. rewrite e1 /= e2 use_lambda_cmat.
  have [_ p2 _] := single_ok (local_total beta cm + local_total beta cd - total beta md) maxiter hm em hb hdl h2.
  by eexists; split; first reflexivity.
Qed.
Lemma correction_sp_converges (eps delta : R) nw (md mm : list (list R)) (beta : R) (cd cm : list R) : (forall y : R, exists n : nat, y < n%:R) ->
  physical nw mm -> 0 < beta -> 0 < delta -> 0 < eps -> seq.size cd = seq.size cm ->
  eps * delta * (beta * (seq.size mm)%:R) <= 2%:R^-1 ->
  total beta md < local_total beta cd + local_total beta cm ->
  exists N, forall maxiter, (N <= maxiter)%nat -> exists lm,
    lambda_correction_gen maxiter eps delta nw (cmat md) (cmat mm) beta (to_complex1 cd) (to_complex1 cm) "sp"
      = Ok (cmat md, cmat (shift_inverse lm mm), 0, lm) /\
    0 <= (total beta md + total beta (shift_inverse lm mm)) - (local_total beta cd + local_total beta cm) < eps.
Proof.
  move=> ha hm hb hdl he hs h2 ht.
  have [sm [em _ _]] := phys_start hm.
  have ht' : 0 < local_total beta cm + local_total beta cd - total beta md by rewrite subr_gt0 addrC.
  have [N c] := single_converges ha hm em hb hdl ht' he.
  exists N => n hn. rewrite /lambda_correction_gen /= em /=. have [e1 e2] := sp_target beta md hs. rewrite e1 /= e2 use_lambda_cmat.
  have [_ _ p] := single_ok (local_total beta cm + local_total beta cd - total beta md) n hm em hb hdl h2.
  eexists; split; first reflexivity. have := p (c n hn).
  set l := (lambda_correction_single _ _ _ _ _ _ _). rewrite -/l.
  have e3 : total beta (shift_inverse l mm) - (local_total beta cm + local_total beta cd - total beta md)
     = total beta md + total beta (shift_inverse l mm) - (local_total beta cd + local_total beta cm).
    by rewrite opprB addrA (addrC (total beta (shift_inverse l mm))) (addrC (local_total beta cm)).
  by rewrite -e3.
Qed.

(** exhaustion: one q point, one frequency, chi = 1 *)
Lemma exhaust n (eps delta : R) : 0 < eps -> 0 < delta ->
  exists t, let r := lambda_correction_single_full 1 (-1) (cmat [:: [:: 1]]) (cx t) n eps delta in
    r.2 = false /\ eps <= `|total 1 (shift_inverse r.1 [:: [:: 1]]) - t|.
Proof.
  move=> he hd. pose T k : R := 2%:R ^+ k / delta + eps. 
  have h : forall k dl, 0 < dl -> 2%:R ^+ k / dl + eps <= T n ->
     let r := rloop (wgt 1 [:: [:: 1]]) (invs [:: [:: 1]]) (-1) (T n) eps k dl (-1 + dl) in
     r.2 = false /\ eps <= `|G (wgt 1 [:: [:: 1 : R]]) (invs [:: [:: 1]]) r.1 - T n|.
    have hG dl : 0 < dl -> G (wgt 1 [:: [:: 1 : R]]) (invs [:: [:: 1]]) (-1 + dl) = dl^-1.
      by move=> _; rewrite /G /wgt /invs /= big_seq1 mul1r invr1 mul1r addrA subrr add0r.
    have hG2 dl : 0 < dl -> G2 (wgt 1 [:: [:: 1 : R]]) (invs [:: [:: 1]]) (-1 + dl) = dl^-1 ^+ 2.
      by move=> _; rewrite /G2 /wgt /invs /= big_seq1 mul1r invr1 mul1r addrA subrr add0r.
    have hbig k dl : 0 < dl -> 2%:R ^+ k / dl + eps <= T n -> eps <= T n - dl^-1.
      move=> hdl hk. rewrite ler_subr_addl. apply: le_trans hk. rewrite ler_add2r.
      rewrite -[X in X <= _]mul1r. apply: ler_wpmul2r; first by rewrite invr_ge0 ltW.
      by rewrite exprn_ege1 // ler1n.
    move=> k; elim: k => [|k IH] dl hdl hk; cbn [rloop].
      split=> //. rewrite hG // distrC. apply: le_trans (ler_norm _). exact: (hbig 0%nat).
    have hb := hbig _ _ hdl hk. rewrite hG // hG2 //.
    have hn : dl^-1 - T n < 0 by rewrite subr_lt0 -subr_gt0; exact: lt_le_trans hb.
    rewrite ltr0_norm // opprB ltNge hb /= gtr_addl.
    rewrite ltr_pdivr_mulr ?exprn_gt0 ?invr_gt0 // mul0r hn. apply: IH.
    - by rewrite divr_gt0 // ltr0n.
    - by rewrite invf_div mulrA -exprSr.
  exists (T n). have := h n delta hd (lexx _). by rewrite /lambda_correction_single_full lam_loopE total_shift.
Qed.
End Main.
