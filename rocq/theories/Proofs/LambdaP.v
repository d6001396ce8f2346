(** Lemmas for the lambda correction: reduction to the reals, Newton on a convex
    decreasing function, loop invariant, convergence. *)
From mathcomp Require Import all_ssreflect all_algebra.
From mathcomp.real_closed Require Import complex.
From Verif Require Import Base.PyBase Base.FieldTac Model.Lambda.
Import Order.Theory GRing.Theory Num.Theory.
Set Implicit Arguments. Unset Strict Implicit. Unset Printing Implicit Defensive.
Local Open Scope nat_scope.
Local Open Scope ring_scope.

(** ** Newton on  w * sum 1/(d+l) - t *)
Section Newton.
Variable R : realFieldType.
Add Field Ff : (@Kft R).
Ltac frng := to_K R; ring. Ltac ffld := to_K R; field; of_K.
Implicit Types (ds : list R) (w t l s x : R).
Definition G w ds l : R := w * \sum_(d <- ds) (d + l)^-1.
Definition G2 w ds l : R := w * \sum_(d <- ds) (d + l)^-1 ^+ 2.

Lemma taylor (a s : R) : a != 0 -> a + s != 0 ->
  (a + s)^-1 = a^-1 - s * a^-1 ^+ 2 + s ^+ 2 * (a^-1 ^+ 2 * (a + s)^-1).
Proof. move=> h1 h2. ffld. by split; apply/eqP. Qed.

Lemma sum_ge (ds : list R) (h : R -> R) d0 : d0 \in ds -> (forall d, d \in ds -> 0 <= h d) ->
  h d0 <= \sum_(d <- ds) h d.
Proof.
  elim: ds => [|d ds IH] //. rewrite inE big_cons => /orP[/eqP->|hin] hp.
  - rewrite ler_addl big_seq; apply: sumr_ge0 => i hi; apply: hp; by rewrite inE hi orbT.
  - apply: (le_trans (IH hin _)); first by move=> e he; apply: hp; rewrite inE he orbT.
    by rewrite ler_addr; apply: hp; rewrite inE eqxx.
Qed.

Section Fix.
Variables (w : R) (ds : list R) (ls : R).
Hypothesis hw : 0 < w.
Hypothesis hmin : - ls \in ds.
Hypothesis hall : forall d, d \in ds -> - ls <= d.

Lemma den_ge x d : d \in ds -> x <= d + (ls + x).
Proof. move=> hd. by rewrite addrA ler_addr -ler_subl_addr sub0r hall. Qed.
Lemma den_gt0 x d : 0 < x -> d \in ds -> 0 < d + (ls + x).
Proof. move=> hx hd. exact: lt_le_trans hx (den_ge _ hd). Qed.
Lemma G_gt0 x : 0 < x -> 0 < G w ds (ls + x).
Proof.
  move=> hx. rewrite /G pmulr_rgt0 //. apply: (@lt_le_trans _ _ ((- ls + (ls + x))^-1)).
  - by rewrite invr_gt0 den_gt0.
  - apply: (@sum_ge ds (fun d => (d + (ls + x))^-1)) => // d hd. by rewrite invr_ge0 ltW // den_gt0.
Qed.
Lemma G2_lb x : 0 < x -> w / x ^+ 2 <= G2 w ds (ls + x).
Proof.
  move=> hx. rewrite /G2 ler_pmul2l //.
  have -> : (x ^+ 2)^-1 = (- ls + (ls + x))^-1 ^+ 2 by rewrite addrA addNr add0r exprVn.
  apply: (@sum_ge ds (fun d => (d + (ls + x))^-1 ^+ 2)) => // d hd. exact: sqr_ge0.
Qed.
Lemma G2_gt0 x : 0 < x -> 0 < G2 w ds (ls + x).
Proof. move=> hx. apply: lt_le_trans (G2_lb hx). by rewrite divr_gt0 // exprn_gt0. Qed.
Lemma G_lb x : 0 < x -> w / x <= G w ds (ls + x).
Proof.
  move=> hx. rewrite /G ler_pmul2l //.
  have -> : x^-1 = (- ls + (ls + x))^-1 by rewrite addrA addNr add0r.
  apply: (@sum_ge ds (fun d => (d + (ls + x))^-1)) => // d hd. by rewrite invr_ge0 ltW // den_gt0.
Qed.
Lemma G_ub x : 0 < x -> G w ds (ls + x) <= w * ((seq.size ds)%:R / x).
Proof.
  move=> hx. rewrite /G ler_pmul2l //.
  have -> : (seq.size ds)%:R / x = \sum_(d <- ds) x^-1.
    by rewrite big_const_seq count_predT iter_addr addr0 mulr_natl.
  rewrite big_seq [X in _ <= X]big_seq. apply: ler_sum => d hd.
  by rewrite lef_pinv ?posrE ?den_gt0 // den_ge.
Qed.
Lemma G_decr x y : 0 < x -> x < y -> G w ds (ls + y) < G w ds (ls + x).
Proof.
  move=> hx hxy. have hy := lt_trans hx hxy. rewrite /G ltr_pmul2l //.
  have hd : forall d, d \in ds -> (d + (ls + y))^-1 < (d + (ls + x))^-1.
    move=> d hd. by rewrite ltf_pinv ?posrE ?den_gt0 // ltr_add2l ltr_add2l.
  move: hd hmin. elim: ds => [|d l IH] //. move=> hd _. rewrite !big_cons.
  have h1 : (d + (ls + y))^-1 < (d + (ls + x))^-1 by apply: hd; rewrite inE eqxx.
  apply: ltr_le_add => //. rewrite big_seq [X in _ <= X]big_seq. apply: ler_sum => e he.
  apply: ltW; apply: hd; by rewrite inE he orbT.
Qed.

(** exact remainder of a Newton step *)
Lemma newton x t s : 0 < x -> - x < s -> s = (G w ds (ls + x) - t) / G2 w ds (ls + x) ->
  0 <= G w ds (ls + x + s) - t <= (G w ds (ls + x) - t) * (s / (x + s)).
Proof.
  move=> hx hs es. have hxs : 0 < x + s by rewrite -ltr_subl_addl sub0r.
  have hG2 := G2_gt0 hx.
  have ef : G w ds (ls + x) - t = s * G2 w ds (ls + x) by rewrite es divfK // gt_eqF.
  have e : G w ds (ls + x + s) - t
         = s ^+ 2 * (w * \sum_(d <- ds) ((d + (ls + x))^-1 ^+ 2 * (d + (ls + x) + s)^-1)).
    have -> : G w ds (ls + x + s) = w * \sum_(d <- ds) ((d + (ls + x))^-1 - s * (d + (ls + x))^-1 ^+ 2
        + s ^+ 2 * ((d + (ls + x))^-1 ^+ 2 * (d + (ls + x) + s)^-1)).
      rewrite /G; congr (_ * _). apply: eq_big_seq => d hd. rewrite !addrA -addrA -2!(addrA d).
      rewrite (addrA ls x s) (addrA d (ls + x) s). apply: taylor.
      - by rewrite gt_eqF // den_gt0.
      - rewrite gt_eqF //. rewrite -addrA -(addrA ls). exact: den_gt0.
    rewrite big_split sumrB /= -!mulr_sumr.
    move: ef; rewrite /G /G2. set A := \sum_(d <- ds) _. set B := \sum_(d <- ds) _. set D := \sum_(d <- ds) _.
    move=> ef. have -> : t = w * A - s * (w * B) by rewrite -ef opprB addrC subrK.
    frng.
  rewrite e. have hw0 := ltW hw. apply/andP; split.
  - apply: mulr_ge0; first exact: sqr_ge0. apply: mulr_ge0 => //.
    rewrite big_seq; apply: sumr_ge0 => d hd. apply: mulr_ge0; first exact: sqr_ge0.
    rewrite invr_ge0 ltW // -addrA -(addrA ls). exact: den_gt0.
  - rewrite ef. have -> : s * G2 w ds (ls + x) * (s / (x + s)) = s ^+ 2 * (G2 w ds (ls + x) / (x + s)).
      ffld. by apply/eqP; rewrite gt_eqF.
    apply: ler_wpmul2l; first exact: sqr_ge0.
    rewrite /G2 -mulrA. apply: ler_wpmul2l => //. rewrite mulr_suml.
    rewrite big_seq [X in _ <= X]big_seq. apply: ler_sum => d hd.
    apply: ler_wpmul2l; first exact: sqr_ge0.
    have h0 : 0 < d + (ls + x) + s by rewrite -addrA -(addrA ls); exact: den_gt0.
    rewrite lef_pinv ?posrE //. rewrite -addrA -(addrA ls). exact: den_ge.
Qed.

(** a step to the left stays above the pole when |f| is small *)
Lemma step_small x t eps : 0 < x -> `|G w ds (ls + x) - t| < eps ->
  `|(G w ds (ls + x) - t) / G2 w ds (ls + x)| <= x * (eps * x / w).
Proof.
  move=> hx hf. have hG2 := G2_gt0 hx.
  rewrite normrM normfV (gtr0_norm hG2) ler_pdivr_mulr //.
  apply: le_trans (ltW hf) _.
  have h0 : 0 < eps by apply: le_lt_trans hf.
  have -> : eps = x * (eps * x / w) * (w / x ^+ 2).
    ffld. by split; apply/eqP; rewrite gt_eqF.
  rewrite [X in _ <= X * _](_ : _ = x * (eps * x / w)); last first.
    ffld. by split; apply/eqP; rewrite gt_eqF.
  apply: ler_wpmul2l (G2_lb hx).
  apply: mulr_ge0; first exact: ltW. apply: divr_ge0; last exact: ltW.
  by apply: mulr_ge0; apply: ltW.
Qed.

(** a step to the right is at most size-many times the distance to the pole *)
Lemma step_ub x t : 0 < x -> 0 <= t -> 0 <= G w ds (ls + x) - t ->
  0 <= (G w ds (ls + x) - t) / G2 w ds (ls + x) <= (seq.size ds)%:R * x.
Proof.
  move=> hx ht hf. have hG2 := G2_gt0 hx. apply/andP; split; first by apply: divr_ge0 => //; exact: ltW.
  rewrite ler_pdivr_mulr //. apply: (@le_trans _ _ (G w ds (ls + x))); first by rewrite ler_subl_addr ler_addl.
  apply: (le_trans (G_ub hx)).
  have -> : w * ((seq.size ds)%:R / x) = (seq.size ds)%:R * x * (w / x ^+ 2).
    move: ((seq.size ds)%:R : R) => n. ffld. by apply/eqP; rewrite gt_eqF.
  apply: ler_wpmul2l (G2_lb hx). apply: mulr_ge0; [exact: ler0n|exact: ltW].
Qed.
End Fix.
End Newton.

(** ** The loop on real data *)
Section Loop.
Variable R : realFieldType.
Variables (w : R) (ds : list R) (ls t eps : R).
Hypothesis hw : 0 < w.
Hypothesis hmin : - ls \in ds.
Hypothesis hall : forall d, d \in ds -> - ls <= d.
Notation g := (G w ds).
Notation g2 := (G2 w ds).

Fixpoint rloop (n : nat) (delta l : R) : R * bool :=
  match n with
  | O => (l, false)
  | S n' =>
      let l1 := l + (g l - t) / g2 l in
      if `|g l - t| < eps then (l1, true)
      else if l1 < l then rloop n' (delta / 2%:R) (ls + delta / 2%:R) else rloop n' delta l1
  end.

Lemma half_gt0 (d : R) : 0 < d -> 0 < d / 2%:R.
Proof. move=> h. by rewrite divr_gt0 // ltr0n. Qed.
Lemma half_le (d : R) : 0 < d -> d / 2%:R <= d.
Proof. move=> h. rewrite ler_pdivr_mulr ?ltr0n // ler_pmulr // ler1n //. Qed.

Lemma rloop_safe d0 n : eps * d0 / w <= 2%:R^-1 ->
  forall delta x, 0 < delta -> delta <= d0 -> 0 < x -> (x = delta \/ 0 <= g (ls + x) - t) ->
  let r := rloop n delta (ls + x) in
  ls < r.1 /\ (r.2 -> 0 <= g r.1 - t < eps).
Proof.
  move=> hsm; elim: n => [|n IH] delta x hdl hdd hx hor /=.
    by split=> //; rewrite ltr_addl.
  set s := (g (ls + x) - t) / g2 (ls + x).
  have hG2 := G2_gt0 hw hmin hx.
  case: ifP => [hf|/negbT]; last first.
    move=> hf. case: ifP => [hlt|/negbT].
    - apply: IH => //; first exact: half_gt0.
      + exact: le_trans (half_le hdl) hdd.
      + exact: half_gt0.
      + by left.
    - rewrite -leNgt ler_addl => hs. rewrite -addrA. apply: IH => //.
      + exact: ltr_paddr.
      + right. have hs' : - x < s by apply: lt_le_trans hs; rewrite oppr_lt0.
        have := newton hw hmin hall hx hs' (erefl s). rewrite -addrA. by case/andP.
  move=> /=. case: (leP 0 s) => hs.
  - have hs' : - x < s by apply: lt_le_trans hs; rewrite oppr_lt0.
    have hf0 : 0 <= g (ls + x) - t.
      by move: hs; rewrite /s pmulr_lge0 ?invr_gt0.
    have hxs : 0 < x + s by exact: ltr_paddr.
    split; first by rewrite -addrA ltr_addl.
    move=> _. have /andP[h1 h2] := newton hw hmin hall hx hs' (erefl s). rewrite h1 /=.
    apply: (le_lt_trans h2). apply: (@le_lt_trans _ _ (g (ls + x) - t)).
    + apply: ler_pimulr => //. rewrite ler_pdivr_mulr // mul1r ler_addr. exact: ltW.
    + by rewrite -(ger0_norm hf0).
  - have hfn : g (ls + x) - t < 0.
      rewrite ltNge; apply/negP => h. move: hs; rewrite ltNge => /negP; apply. by apply: divr_ge0 => //; exact: ltW.
    have ex : x = delta by case: hor => // h; move: hfn; rewrite ltNge h.
    have he : 0 < eps by apply: le_lt_trans hf; exact: normr_ge0.
    have hs2 : `|s| <= x / 2%:R.
      apply: le_trans (step_small hw hmin hx hf) _. apply: ler_wpmul2l; first exact: ltW.
      apply: le_trans hsm. rewrite ler_pdivr_mulr // divfK ?gt_eqF //. apply: ler_wpmul2l; first exact: ltW.
      by rewrite ex.
    have hns : `|s| = - s by rewrite ltr0_norm.
    have hlt : x / 2%:R < x by rewrite ltr_pdivr_mulr ?ltr0n // ltr_pmulr // ltr1n.
    have hs' : - x < s by rewrite ltr_oppl -hns; exact: le_lt_trans hs2 hlt.
    have hxs : 0 < x + s by rewrite -ltr_subl_addl sub0r.
    split; first by rewrite -addrA ltr_addl.
    move=> _. have /andP[h1 h2] := newton hw hmin hall hx hs' (erefl s). rewrite h1 /=.
    apply: (le_lt_trans h2). apply: (@le_lt_trans _ _ (- (g (ls + x) - t))); last by rewrite -(ltr0_norm hfn).
    rewrite -mulrNN. apply: ler_pimulr; first by rewrite oppr_ge0 ltW.
    rewrite -mulNr ler_pdivr_mulr // mul1r -hns.
    have -> : x + s = x - `|s| by rewrite hns opprK.
    rewrite ler_subr_addr -mulr2n -mulr_natr -ler_pdivl_mulr ?ltr0n //.
Qed.

(** ** Convergence *)
Hypothesis ht : 0 < t.
Hypothesis heps : 0 < eps.
Notation nn := ((seq.size ds)%:R : R).
Lemma rloop_right k : forall delta x, 0 < x -> 0 <= g (ls + x) - t ->
  (nn / (nn + 1)) ^+ k * (g (ls + x) - t) < eps -> forall n, (k < n)%nat -> (rloop n delta (ls + x)).2.
Proof.
  have hnn : 0 <= nn by exact: ler0n.
  have hn1 : 0 < nn + 1 by apply: ltr_paddl => //; exact: ltr01.
  elim: k => [|k IH] delta x hx hf hk n hn; case: n hn => [|n] // hn /=.
  - by rewrite ger0_norm // -[X in X < _]mul1r -(expr0 (nn / (nn + 1))) hk.
  - case: ifP => // /negbT hne. set s := (g (ls + x) - t) / g2 (ls + x).
    have /andP[hs0 hsu] := step_ub hw hmin hall hx (ltW ht) hf. rewrite -/s in hs0 hsu.
    rewrite ltNge ler_addl hs0 /= -addrA.
    have hs' : - x < s by apply: lt_le_trans hs0; rewrite oppr_lt0.
    have hxs : 0 < x + s by exact: ltr_paddr.
    have /andP[h1 h2] := newton hw hmin hall hx hs' (erefl s). rewrite -addrA in h1 h2.
    apply: IH => //. apply: le_lt_trans hk. rewrite exprSr -mulrA.
    apply: ler_wpmul2l; first by apply: exprn_ge0; apply: divr_ge0 => //; exact: ltW.
    apply: (le_trans h2). rewrite mulrC. apply: ler_wpmul2r => //.
    rewrite ler_pdivr_mulr // mulrAC ler_pdivl_mulr // mulrDr mulr1 mulrDr.
    rewrite addrC ler_add // (mulrC s) //.
Qed.

Hypothesis harch : forall y : R, exists n : nat, y < n%:R.
Lemma bern (y : R) k : 0 <= y -> 1 + k%:R * y <= (1 + y) ^+ k.
Proof.
  move=> hy; elim: k => [|k IH]; first by rewrite mul0r addr0 expr0.
  rewrite exprSr. apply: (@le_trans _ _ ((1 + k%:R * y) * (1 + y))).
  - have -> : k.+1%:R = k%:R + 1 :> R by rewrite -addn1 natrD.
    rewrite mulrDl mul1r mulrDr mulr1 addrA ler_add2l [X in _ <= X]mulrDl mul1r ler_addl.
    by rewrite mulr_ge0 // mulr_ge0 // ler0n.
  - by apply: ler_wpmul2r => //; apply: addr_ge0 => //; exact: ler01.
Qed.
Lemma geom (F0 : R) : 0 <= F0 -> exists k, (nn / (nn + 1)) ^+ k * F0 < eps.
Proof.
  move=> hF. have hnn : 0 < nn.
    rewrite ltr0n. by case: ds hmin.
  have [k hk] := harch (F0 * nn / eps). exists k.
  have hq : nn / (nn + 1) = (1 + nn^-1)^-1.
    rewrite -invf_div mulrDl divff ?gt_eqF // div1r //.
  rewrite hq exprVn mulrC ltr_pdivr_mulr; last by rewrite exprn_gt0 // addr_gt0 ?invr_gt0 // ltr01.
  have hi : 0 <= nn^-1 by rewrite invr_ge0 ltW.
  apply: lt_le_trans (ler_wpmul2l (ltW heps) (bern k hi)).
  rewrite mulrDr mulr1 mulrA. apply: ltr_spaddl => //.
  rewrite ler_pdivl_mulr //. apply: ltW. by move: hk; rewrite ltr_pdivr_mulr // (mulrC eps).
Qed.
Lemma rloop_start J : forall delta, 0 < delta -> delta <= 2%:R ^+ J * (w / t) ->
  exists N, forall n, (N <= n)%nat -> (rloop n delta (ls + delta)).2.
Proof.
  have right : forall delta, 0 < delta -> 0 <= g (ls + delta) - t ->
      exists N, forall n, (N <= n)%nat -> (rloop n delta (ls + delta)).2.
    move=> delta hd hf. have [k hk] := geom hf. exists k.+1 => n hn. exact: (rloop_right delta hd hf hk).
  elim: J => [|J IH] delta hd hJ.
  - apply: right => //. rewrite subr_ge0. apply: le_trans (G_lb hw hmin hall hd).
    rewrite ler_pdivl_mulr // mulrC -ler_pdivl_mulr //. by rewrite expr0 mul1r in hJ.
  - case: (leP 0 (g (ls + delta) - t)) => hf; first exact: right.
    have h2 : 0 < delta / 2%:R by exact: half_gt0.
    have [N hN] : exists N, forall n, (N <= n)%nat -> (rloop n (delta / 2%:R) (ls + delta / 2%:R)).2.
      apply: IH => //. by rewrite ler_pdivr_mulr ?ltr0n // mulrAC -exprSr.
    exists N.+1 => -[|n] // hn /=. case: ifP => // _.
    rewrite gtr_addl ltr_pdivr_mulr ?(G2_gt0 hw hmin hd) // mul0r hf. exact: hN.
Qed.
Lemma rloop_converges delta : 0 < delta ->
  exists N, forall n, (N <= n)%nat -> (rloop n delta (ls + delta)).2.
Proof.
  move=> hd. have [J hJ] := harch (delta * t / w). apply: (rloop_start (J := J)) => //.
  rewrite mulrA ler_pdivl_mulr // -ler_pdivr_mulr //. apply: ltW; apply: lt_le_trans hJ _.
  by rewrite -natrX ler_nat ltnW // ltn_expl.
Qed.
End Loop.

(** ** Reduction of the complex model to real data *)
Section Reduce.
Variable R : rcfType.
Notation C := R[i].
Local Notation cx := (real_complex R).
Definition cmat (m : list (list R)) : list (list C) := [seq [seq cx x | x <- r] | r <- m].
Definition flat (m : list (list R)) : list R := flatten m.
Definition invs (m : list (list R)) : list R := [seq x^-1 | x <- flatten m].

Lemma amap_cmat (h : C -> C) (k : R -> R) m : (forall x, h (cx x) = cx (k x)) ->
  amap h (cmat m) = cmat [seq [seq k x | x <- r] | r <- m].
Proof.
  move=> e. rewrite /amap /cmat -!map_comp. apply: eq_map => r /=.
  rewrite -!map_comp. apply: eq_map => x /=. exact: e.
Qed.
Lemma row_sum_cx r : row_sum [seq cx x | x <- r] = cx (\sum_(x <- r) x).
Proof. by rewrite /row_sum big_map rmorph_sum. Qed.
Lemma mean_cx (l : list R) : np_mean [seq cx x | x <- l] = cx ((\sum_(x <- l) x) / (seq.size l)%:R).
Proof. by rewrite /np_mean big_map size_map rmorphM fmorphV rmorph_nat rmorph_sum. Qed.
Lemma mean_of_sums_cx m :
  mean_of_sums (cmat m) = cx ((\sum_(x <- flatten m) x) / (seq.size m)%:R).
Proof.
  rewrite /mean_of_sums /cmat -map_comp.
  rewrite (eq_map (_ : _ =1 (fun r => cx (\sum_(x <- r) x)))); last by move=> r /=; exact: row_sum_cx.
  rewrite (map_comp cx (fun r => \sum_(x <- r) x)) mean_cx size_map big_map. congr (cx (_ / _)).
  by elim: m => [|r m IH]; rewrite /= ?big_nil // big_cons big_cat IH.
Qed.
Lemma flatten_map (h : R -> R) m : flatten [seq [seq h x | x <- r] | r <- m] = [seq h x | x <- flatten m].
Proof. by rewrite map_flatten. Qed.

Definition wgt (beta : R) (m : list (list R)) : R := (beta * (seq.size m)%:R)^-1.
Lemma f_lamE beta m t l :
  f_lam beta (cmat m) (cx t) l = cx (G (wgt beta m) (invs m) l - t).
Proof.
  rewrite /f_lam (amap_cmat (k := fun x => (x^-1 + l)^-1)); last first.
    by move=> x; rewrite !div1r -fmorphV -rmorphD -fmorphV.
  rewrite mean_of_sums_cx size_map flatten_map big_map div1r -fmorphV -rmorphM -rmorphB. congr (cx (_ - _)).
  rewrite /G /wgt invfM big_map mulrA (mulrC _ (_%:R^-1)) mulrA (mulrC beta^-1). by rewrite mulrC mulrA mulrC.
Qed.
Lemma fp_lamE beta m l :
  fp_lam beta (cmat m) l = cx (- G2 (wgt beta m) (invs m) l).
Proof.
  rewrite /fp_lam (amap_cmat (k := fun x => (x^-1 + l)^-1 ^+ 2)); last first.
    by move=> x; rewrite !div1r -fmorphV -rmorphD -fmorphV -rmorphX.
  rewrite mean_of_sums_cx size_map flatten_map big_map mulN1r -fmorphV -rmorphN -rmorphM. congr (cx _).
  rewrite /G2 /wgt invfM big_map mulNr. congr (- _).
  rewrite mulrA (mulrC _ (_%:R^-1)) mulrA (mulrC beta^-1). by rewrite mulrC mulrA mulrC.
Qed.
Lemma lam_loopE beta m t ls eps n : forall delta l,
  lam_loop beta (cmat m) (cx t) ls eps n delta l l = rloop (wgt beta m) (invs m) ls t eps n delta l.
Proof.
  elim: n => [|n IH] delta l //=. rewrite f_lamE fp_lamE.
  have -> : complex.Re (cx (G (wgt beta m) (invs m) l - t)) = G (wgt beta m) (invs m) l - t by [].
  have -> : l - complex.Re (cx (G (wgt beta m) (invs m) l - t) / cx (- G2 (wgt beta m) (invs m) l))
          = l + (G (wgt beta m) (invs m) l - t) / G2 (wgt beta m) (invs m) l.
    by rewrite -fmorphV -rmorphM /= invrN mulrN opprK.
  by rewrite !IH.
Qed.

(** the start value *)
Lemma foldl_min (x : R) l : (foldl Num.min x l \in x :: l) /\ (forall y, y \in x :: l -> foldl Num.min x l <= y).
Proof.
  elim: l x => [|y l IH] x /=.
  - split; first by rewrite inE. by move=> z; rewrite inE => /eqP ->.
  - have [h1 h2] := IH (Num.min x y). split.
    + move: h1; rewrite !inE => /orP[/eqP->|->]; last by rewrite !orbT.
      rewrite minElt. case: ifP; by rewrite eqxx ?orbT.
    + move=> z; rewrite !inE => /orP[/eqP->|/orP[/eqP->|hz]].
      * apply: (@le_trans _ _ (Num.min x y)); first by apply: h2; rewrite inE eqxx. by rewrite le_minl lexx.
      * apply: (@le_trans _ _ (Num.min x y)); first by apply: h2; rewrite inE eqxx. by rewrite le_minl lexx orbT.
      * by apply: h2; rewrite inE hz orbT.
Qed.
Lemma lambda_start_ok nw m : m != [::] -> (0 < nw)%nat ->
  (forall r, r \in m -> seq.size r = nw) ->
  (forall r, r \in m -> forall x, x \in r -> 0 < x) ->
  (forall r, r \in m -> forall x, x \in r -> x <= seq.nth 0 r nw./2) ->
  exists ls, [/\ get_lambda_start nw (cmat m) = Ok ls, - ls \in invs m &
                 forall d, d \in invs m -> - ls <= d].
Proof.
  move=> hm hnw hsz hpos hmax. have hlt : (nw./2 < nw)%nat by rewrite -divn2 ltn_Pdiv.
  rewrite /get_lambda_start.
  have -> : [seq 1 / complex.Re (seq.nth 0 r nw./2) | r <- cmat m] = [seq (seq.nth 0 r nw./2)^-1 | r <- m].
    rewrite /cmat -map_comp. apply/eq_in_map => r hr /=. rewrite (nth_map 0) ?hsz //= div1r //.
  case: m hm hsz hpos hmax => [|r0 m] // _ hsz hpos hmax. rewrite /np_min /=.
  set l := [seq _ | r <- m]. have [h1 h2] := foldl_min (seq.nth 0 r0 nw./2)^-1 l.
  have el : (seq.nth 0 r0 nw./2)^-1 :: l = [seq (seq.nth 0 r nw./2)^-1 | r <- r0 :: m] by [].
  rewrite el in h1 h2.
  eexists; split; first reflexivity; rewrite opprK.
  - move: h1 => /mapP[r hr ->]. apply: map_f. apply/flattenP; exists r => //. by rewrite mem_nth // hsz.
  - move=> d /mapP[x /flattenP[r hr hx] ->]. apply: (@le_trans _ _ (seq.nth 0 r nw./2)^-1).
    + apply: h2. by apply/mapP; exists r.
    + have h0 := hpos r hr x hx. rewrite lef_pinv ?posrE //; first exact: hmax.
      apply: (hpos r hr). by rewrite mem_nth // hsz.
Qed.
Lemma wgt_gt0 beta (m : list (list R)) : 0 < beta -> m != [::] -> 0 < wgt beta m.
Proof. move=> hb hm. rewrite /wgt invr_gt0 mulr_gt0 // ltr0n. by case: m hm. Qed.
End Reduce.
