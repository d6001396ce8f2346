(** Filling and real-frequency results about Model/TwoPoint.v. *)
From mathcomp Require Import all_ssreflect all_algebra.
From mathcomp.real_closed Require Import complex.
From Coq Require Import ZArith Lia.
From Verif Require Import Base.PyBase Base.PyFacts Base.FieldTac Model.Matsubara Model.TwoPoint Spec.TwoPointSpec Proofs.TwoPointP Proofs.TwoPointMainP Proofs.TwoPointFillP.
Import Order.TTheory GRing.Theory Num.Theory.
Set Implicit Arguments. Unset Strict Implicit. Unset Printing Implicit Defensive.
Local Open Scope ring_scope.
Local Open Scope complex_scope.

Section P.
Variable R : rcfType.
Notation C := R[i].
Notation CF := (ComplexField.complex_fieldType R).
Add Field KFc : (Kft CF).
Ltac crng := to_K constr:(CF); ring.

Let toC := ComplexField.real_complex_rmorphism R.
Lemma RC_add (a b : R) : (a + b)%:C = a%:C + b%:C. Proof. exact: (rmorphD toC). Qed.
Lemma RC_sub (a b : R) : (a - b)%:C = a%:C - b%:C. Proof. exact: (rmorphB toC). Qed.
Lemma RC_nat n : (n%:R : R)%:C = n%:R. Proof. exact: (rmorph_nat toC). Qed.
Lemma RC_inv (a : R) : (a^-1)%:C = (a%:C)^-1. Proof. exact: (fmorphV toC). Qed.
Lemma big_zero (l : list R) : (forall i a, zget l i = Some a -> a = 0) -> \sum_(x <- l) x = 0.
Proof.
  elim: l => [|x l IH] H; first by rewrite big_nil.
  rewrite big_cons IH; last first.
  { move=> i a Ha. apply: (H (i + 1)%Z). rewrite zget_cons. case: (Z.eqb_spec (i + 1) 0) => E; [have := @zget_some_range _ _ _ _ Ha; lia|by replace (i + 1 - 1)%Z with i by lia]. }
  by rewrite addr0; apply: (H 0%Z); exact: zget_cons_0.
Qed.

Section Fill.
Variables (rexp : R -> R) (K : finType).
Variables (ivl : list C) (hk : K -> R) (siwk : K -> list C) (beta smom0 : R).
Hypothesis HK : (0 < #|K|)%nat.
Hypothesis HL : forall k, zlen (siwk k) = zlen ivl.
Lemma gloc_get hl mu i z : zget ivl i = Some z ->
  zget (get_gloc ivl hk siwk mu) i = Some ((\sum_(k : K) 1 / (z + mu%:C - (hk k)%:C - entry (siwk k) i)) / #|K|%:R)
  /\ zget (get_g_model mu ivl hl smom0) i = Some (1 / (z + mu%:C - hl%:C - smom0%:C)).
Proof.
  move=> Hz. have Hr := @zget_some_range _ _ _ _ Hz. split; last by rewrite /get_g_model zget_map Hz.
  rewrite /get_gloc zget_kmean; [|by rewrite -/(zlen ivl)]. do 2 f_equal. apply: eq_bigr => k _.
  apply: (@zget_eq_nth _ _ i). rewrite zget_map zget_combine Hz zget_entry ?HL //.
Qed.
Lemma fill_of_diff hl mu : (forall i z, zget ivl i = Some z ->
    complex.Re ((\sum_(k : K) 1 / (z + mu%:C - (hk k)%:C - entry (siwk k) i)) / #|K|%:R) = complex.Re (1 / (z + mu%:C - hl%:C - smom0%:C))) ->
  get_fill rexp ivl hk siwk beta smom0 hl mu = (2%:R * rho_atomic rexp beta (smom0 + hl - mu), rho_atomic rexp beta (smom0 + hl - mu)).
Proof.
  move=> H. rewrite /get_fill. set gl := get_gloc _ _ _ _. set gm := get_g_model _ _ _ _.
  have -> : \sum_(x <- combine gl gm) (complex.Re x.1 - complex.Re x.2) = 0.
  { have -> : \sum_(x <- combine gl gm) (complex.Re x.1 - complex.Re x.2) = \sum_(y <- map (fun x : C * C => complex.Re x.1 - complex.Re x.2) (combine gl gm)) y by rewrite big_map.
    apply: big_zero => i a Ha. have := @zget_some_range _ _ _ _ Ha. rewrite zlen_map zlen_combine => Hr.
    have Hl : zlen gm = zlen ivl by rewrite /gm /get_g_model zlen_map.
    have [z Hz] := @zget_in_range _ ivl i ltac:(lia). have [E1 E2] := gloc_get hl mu Hz.
    move: Ha. rewrite zget_map zget_combine E1 E2 => -[<-]. have E3 := H i z Hz. rewrite -[RHS](subrr (complex.Re (1 / (z + mu%:C - hl%:C - smom0%:C)))). by congr (_ - _). }
  by rewrite mul0r addr0.
Qed.
Lemma card_ne0 : (#|K|%:R : C) != 0. Proof. rewrite pnatr_eq0 -lt0n. exact: HK. Qed.
(** atomic limit *)
Lemma fill_atomic h mu : (forall k, hk k = h) -> (forall k i x, zget (siwk k) i = Some x -> x = smom0%:C) ->
  get_fill rexp ivl hk siwk beta smom0 h mu = (2%:R * rho_atomic rexp beta (smom0 + h - mu), rho_atomic rexp beta (smom0 + h - mu)).
Proof.
  move=> Hh Hs. apply: fill_of_diff => i z Hz. congr (complex.Re _).
  have Hr := @zget_some_range _ _ _ _ Hz.
  rewrite (eq_bigr (fun _ : K => 1 / (z + mu%:C - h%:C - smom0%:C))); last first.
  { move=> k _. rewrite Hh. congr (1 / (_ - _)). apply: (Hs k i). apply: zget_entry. by rewrite HL. }
  rewrite sumr_const -mulr_natr mulfK //. exact: card_ne0.
Qed.
(** particle-hole symmetry *)
Lemma Re_sum_zero (f : K -> C) (p : K -> K) : involutive p -> (forall k, f (p k) = - conjc (f k)) -> complex.Re ((\sum_(k : K) f k) / #|K|%:R) = 0.
Proof.
  move=> Hp Hf.
  have HS : \sum_(k : K) f k = - conjc (\sum_(k : K) f k).
  { rewrite {1}(reindex p) /=; last by exists p => k _; exact: Hp.
    rewrite [in RHS](rmorph_sum (RMorphism (@conjc_is_rmorphism R))) -sumrN. by apply: eq_bigr => k _; rewrite Hf. }
  have HR : complex.Re (\sum_(k : K) f k) = 0.
  { set S := \sum_(k : K) f k in HS *. case: S HS => a b [Ha _]. change (a = 0). have H2 : a *+ 2 == 0 by rewrite mulr2n {1}Ha addNr. by move: H2; rewrite mulrn_eq0 => /eqP. }
  have -> : (#|K|%:R : C)^-1 = ((#|K|%:R : R)^-1)%:C. by rewrite RC_inv RC_nat.
  by rewrite mulrC Re_realM HR mulr0.
Qed.
Lemma fill_half hl (p : K -> K) : rexp 0 = 1 -> involutive p ->
  (forall i z, zget ivl i = Some z -> complex.Re z = 0) ->
  (forall k, hk (p k) - hl = - (hk k - hl)) ->
  (forall k i, (0 <= i < zlen ivl)%Z -> entry (siwk (p k)) i - smom0%:C = - conjc (entry (siwk k) i - smom0%:C)) ->
  get_fill rexp ivl hk siwk beta smom0 hl (hl + smom0) = (1, 2%:R^-1).
Proof.
  move=> He Hp Hi Hh Hs. rewrite (@fill_of_diff hl (hl + smom0)).
  - rewrite /rho_atomic (_ : smom0 + hl - (hl + smom0) = 0); last by rewrite [smom0 + hl]addrC subrr.
    rewrite mulr0 ltr0n /= He div1r. have -> : (1 + 1 : R) = 2%:R by rewrite mulr2n. by rewrite divff // pnatr_eq0.
  - move=> i z Hz. have Hr := @zget_some_range _ _ _ _ Hz.
    have Hz0 : conjc z = - z. { move: (Hi _ _ Hz). case: z {Hz} => a b /= ->. apply/eqP. by rewrite eq_complex /= oppr0 !eqxx. }
    rewrite (@Re_sum_zero (fun k => 1 / (z + (hl + smom0)%:C - (hk k)%:C - entry (siwk k) i)) p) //.
    + have -> : z + (hl + smom0)%:C - hl%:C - smom0%:C = z. { rewrite RC_add. crng. }
      rewrite div1r Re_inv (Hi _ _ Hz). by rewrite mul0r.
    + move=> k. rewrite conj_div conjc1 -[in RHS]mulrN -invrN. congr (1 / _).
      rewrite !conjB conjD !conjc_real Hz0. have := Hs k i Hr. rewrite conjB conjc_real => E.
      have E' : entry (siwk (p k)) i = smom0%:C - (conjc (entry (siwk k) i) - smom0%:C) by rewrite -E addrC subrK.
      have Eh : hk (p k) = hl - (hk k - hl) by rewrite -Hh addrC subrK.
      rewrite E' Eh. rewrite !RC_sub RC_add. crng.
Qed.
(** the fallback of the atomic occupation *)
Lemma rho_error (x : R) : 20%:R <= beta * x -> 0 < rexp (beta * x) -> rexp (beta * x) * rexp (- (beta * x)) = 1 ->
  rho_atomic rexp beta x = rexp (- (beta * x)) /\ 0 < rho_atomic rexp beta x - 1 / (1 + rexp (beta * x)) <= rexp (- (beta * x)) ^+ 2.
Proof.
  move=> H1 H2 H3. have E : rho_atomic rexp beta x = rexp (- (beta * x)) by rewrite /rho_atomic ltNge H1.
  rewrite E. split=> //. set e := rexp (beta * x) in H2 H3 *. have He : rexp (- (beta * x)) = e^-1. { apply: (mulfI (lt0r_neq0 H2)). by rewrite H3 divff ?lt0r_neq0. }
  have Hp : 0 < 1 + e by rewrite addr_gt0 ?ltr01.
  have Hd : e^-1 - 1 / (1 + e) = (e * (1 + e))^-1.
  { rewrite div1r invfM. have -> : e^-1 - (1 + e)^-1 = e^-1 * ((1 + e) / (1 + e)) - (e^-1 * e) / (1 + e) by rewrite divff ?lt0r_neq0 // mulr1 mulVf ?lt0r_neq0 // mul1r.
    by rewrite !mulrA -mulrBl -mulrBr addrK mulr1. }
  rewrite He Hd invr_gt0 mulr_gt0 //=. rewrite exprVn expr2 lef_pinv ?posrE ?mulr_gt0 //.
  by rewrite ler_wpmul2l ?(ltW H2) // ler_addr ler01.
Qed.
(** chemical potential *)
Lemma mu_of_root newton n mu : newton (root_fun rexp n ivl hk siwk beta smom0 (mean_r hk)) 0 = Some mu ->
  root_fun rexp n ivl hk siwk beta smom0 (mean_r hk) mu = 0 ->
  gf_mu_n rexp newton None (Some n) ivl hk siwk beta smom0 = Ok (mu, n) /\ gf_mu_n rexp newton (Some mu) None ivl hk siwk beta smom0 = Ok (mu, n).
Proof. move=> H /eqP. rewrite /root_fun subr_eq0 => /eqP E. by rewrite /gf_mu_n /update_mu H E. Qed.
Lemma mu_failed newton n : newton (root_fun rexp n ivl hk siwk beta smom0 (mean_r hk)) 0 = None ->
  forall mu, gf_mu_n rexp newton mu (Some n) ivl hk siwk beta smom0 = Ok (0, n).
Proof. move=> H mu. by rewrite /gf_mu_n /update_mu H. Qed.
End Fill.

(** ** real frequencies *)
Section RealF.
Variable K : finType.
Lemma gwk_im (w : list R) (swk : list C) (d ek mu : R) : 0 < d -> (forall i x, zget swk i = Some x -> complex.Im x <= 0) ->
  forall i g, zget (get_gwk_row w swk d ek mu) i = Some g -> exists wi s, zget w i = Some wi /\ zget swk i = Some s /\
    g * (wi%:C + mu%:C - ek%:C - s + Complex 0 d) = 1 /\ complex.Im g < 0.
Proof.
  move=> Hd Hs i g. rewrite /get_gwk_row zget_map zget_combine. case E1: (zget w i) => [wi|] //. case E2: (zget swk i) => [s|] // [<-].
  exists wi, s. do 2 split=> //. set den := _ - (_ - _).
  have Hden : den = wi%:C + mu%:C - ek%:C - s + Complex 0 d by rewrite /den opprB addrA addrAC.
  have Hi : 0 < complex.Im den.
  { rewrite Hden ImD !ImB ImD. change (0 < 0 + 0 - 0 - complex.Im s + d). rewrite addr0 subr0 sub0r ltr_spaddr //. by rewrite oppr_ge0; apply: Hs E2. }
  rewrite -Hden. split; [by rewrite div1r mulVf // neq0_im|].
  rewrite div1r Im_inv oppr_lt0 divr_gt0 // ltr_spaddr ?exprn_gt0 ?sqr_ge0 //.
Qed.
Lemma awk_pos (cpi : R) (w : list R) (swk : list C) (d ek mu : R) : 0 < cpi -> 0 < d -> (forall i x, zget swk i = Some x -> complex.Im x <= 0) ->
  forall i a, zget (awk cpi (get_gwk_row w swk d ek mu)) i = Some a -> 0 < a.
Proof.
  move=> Hc Hd Hs i a. rewrite /awk zget_map. case E: (zget _ i) => [g|] // [<-].
  have [wi [s [_ [_ [_ H]]]]] := gwk_im Hd Hs E. by rewrite divr_gt0 // oppr_gt0.
Qed.
Lemma addr_le0' (a b : R) : b <= 0 -> a <= 0 -> a + b <= 0.
Proof. by move=> Hb Ha; rewrite -[0 in X in _ <= X]addr0 ler_add. Qed.
Lemma trapz_le0 (y x : list R) : all (fun a => a <= 0) y -> sorted <=%R x -> trapz y x <= 0.
Proof.
  elim: y x => [|y0 y IH]; first by case=> [|? [|? ?]]. case=> [|x0 x]; first by case: y {IH}.
  case: y IH => [|y1 y] IH; first by case: x. case: x => [|x1 x] // Hy Hx.
  rewrite -[trapz _ _]/((x1 - x0) * (y0 + y1) / 2%:R + trapz (y1 :: y) (x1 :: x)).
  have /andP[H0 H1] := Hy. have /andP[H2 _] := H1. have /andP[H3 H4] := Hx.
  rewrite -[0]addr0 ler_add //; last exact: IH.
  rewrite mulr_le0_ge0 ?invr_ge0 ?ler0n // mulr_ge0_le0 ?subr_ge0 // -[0]addr0 ler_add //.
Qed.
Lemma filling_ge0 (cpi : R) (w : list R) (gwk : K -> list C) : 0 < cpi -> sorted <=%R w ->
  (forall k i g, zget (gwk k) i = Some g -> complex.Im g <= 0) -> 0 <= get_filling_real_f cpi w gwk.
Proof.
  move=> Hc Hw Hg. rewrite /get_filling_real_f. rewrite mulr_ge0 ?ler0n // mulr_le0 //.
  - by rewrite mulNr mul1r oppr_le0 invr_ge0 ltW.
  - apply: trapz_le0; last by apply: sorted_mask => //; exact: le_trans.
    apply/allP => a /mem_mask /(nthP 0) [j Hj Ha].
    rewrite nthE in Ha. set l := map _ _ in Hj Ha. have Hl : zlen l = zlen w by rewrite /l zlen_map zlen_kmean.
    have Hj' : (0 <= Z.of_nat j < zlen w)%Z. { move/ssrnat.ltP: Hj. rewrite -Hl /zlen. change (size l) with (length l). lia. }
    have E : zget l (Z.of_nat j) = Some a by rewrite (@zget_nth _ l _ 0) ?Hl // Nat2Z.id Ha.
    move: E. rewrite /l zget_map zget_kmean // => -[<-].
    have -> : (#|K|%:R : C)^-1 = ((#|K|%:R : R)^-1)%:C by rewrite RC_inv RC_nat.
    rewrite mulrC Im_realM mulr_ge0_le0 ?invr_ge0 ?ler0n //.
    have HS : forall r : list K, complex.Im (\sum_(k <- r) entry (gwk k) (Z.of_nat j)) <= 0.
    { elim=> [|k r IH]; first by rewrite big_nil. rewrite big_cons ImD. refine (addr_le0' IH _).
      case: (Z.ltb_spec (Z.of_nat j) (zlen (gwk k))) => Hk.
      - apply: (Hg k (Z.of_nat j)). apply: zget_entry. lia.
      - rewrite /entry List.nth_overflow //. rewrite /zlen in Hk. lia. }
    exact: HS.
Qed.
End RealF.
End P.
