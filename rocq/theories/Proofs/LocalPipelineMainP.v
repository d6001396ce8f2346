(** The complete local part of a run (C95). *)
From mathcomp Require Import all_ssreflect all_algebra.
From mathcomp.real_closed Require Import complex.
From Coq Require Import String ZArith Lia.
From Verif Require Import Base.PyBase Base.PyFacts Base.FieldTac Base.Arr Model.Matsubara Model.LocalFourPoint Model.LocalSDE Model.TwoPoint Model.Bubble Model.LocalPipeline.
From Verif Require Import Spec.BseSpec Spec.SdeSpec Spec.TwoPointSpec Spec.BubbleSpec Spec.LocalPipelineSpec.
From Verif Require Import Proofs.LocalFourPointP Proofs.LocalSDEP Proofs.LocalG2P Proofs.LocalSDE2P Proofs.BubbleP Proofs.LocalPipelineP.
Set Implicit Arguments. Unset Strict Implicit. Unset Printing Implicit Defensive.
Import GRing.Theory Num.Theory.
Local Open Scope ring_scope.
Local Open Scope complex_scope.

Section P.
Variable R : rcfType.
Notation C := R[i].
Add Field Fgm : (@Kft (ComplexField.complex_fieldType R)).
Variables (nc ns : nat) (beta u n : R) (nw N : Z) (G : Z -> C).
Variables (gd gm cd cm : Z -> 'M[C]_(nc.*2)) (chid chim Fd Fm : Z -> 'M[C]_((nc + ns).*2)) (g2d g2m : list (list (list C))).
Hypotheses (hb : beta != 0) (hc : (0 < nc)%nat) (hw : (0 <= nw)%Z) (hN : (Z.of_nat nc + Z.of_nat ns + nw <= N)%Z)
  (hG : conj_symmetric G) (hnz : forall v, (- N <= v < N)%Z -> G v != 0).
Hypothesis Hd : forall w, (- nw <= w <= nw)%Z -> solves beta u%:C (bubble_row (nc + ns) beta G w) (gd w) (cd w) (chid w) (Fd w).
Hypothesis Hm : forall w, (- nw <= w <= nw)%Z -> solves beta (- u%:C) (bubble_row (nc + ns) beta G w) (gm w) (cm w) (chim w) (Fm w).
Hypotheses (h2d : is_g2 true beta nw G cd g2d) (h2m : is_g2 false beta nw G cm g2m).
Let wn := Matsubara.wn nw 0 false.
Let run := @local_sde_from_g2 R nc ns g2d g2m (frow N G) beta u n wn.

Lemma fer_frow M (f : Z -> C) v : (- M <= v < M)%Z -> fer (frow M f) v = f v.
Proof. move=> h. rewrite /fer /val zlen_frow; last lia. rewrite Z.mul_comm Z.div_mul // zget_frow; last lia. change (f (M + v - M)%Z = f v). f_equal. lia. Qed.
Lemma gchi_ok (dens : bool) channel core g2 : channel = (if dens then "dens" else "magn")%string -> is_g2 dens beta nw G core g2 ->
  exists r, gchir_from_g2 channel beta%:C wn g2 (frow N G) = Ok r /\ zlen r = (2 * nw + 1)%Z /\
   forall w (i j : 'I_(nc.*2)), (- nw <= w <= nw)%Z -> get3 r (nw + w) (Z.of_nat i) (Z.of_nat j) = Some (core w i j).
Proof.
  move=> hch [hs hv]. have hnc := hc. have hl : zlen wn = (2 * nw + 1)%Z by rewrite zlen_wn.
  have hncz : (0 < Z.of_nat nc)%Z by move/ltP: hc; lia.
  have k1 : (0 < zlen wn)%Z by rewrite hl; lia. have k2 : (0 < Z.of_nat nc <= N)%Z by lia.
  have k3 : zlen (frow N G) = (2 * N)%Z by apply: zlen_frow; lia. have k4 : shape3 g2 (zlen wn) (2 * Z.of_nat nc) (2 * Z.of_nat nc) by rewrite hl.
  have [r [er [sr vr]]] := @gchir_from_g2P _ channel beta%:C wn g2 (frow N G) N (Z.of_nat nc) k1 k2 k3 k4.
  rewrite er. exists r. split=> //. rewrite hl in sr. split; first by case: sr.
  move=> w i j hw'. have /ltP hi := ltn_ord i. have /ltP hj := ltn_ord j. have hd := dblZ nc.
  have -> : Z.of_nat i = (Z.of_nat nc + fq i)%Z by rewrite /fq; lia. have -> : Z.of_nat j = (Z.of_nat nc + fq j)%Z by rewrite /fq; lia.
  have hfi : (- Z.of_nat nc <= fq i < Z.of_nat nc)%Z by rewrite /fq; lia. have hfj : (- Z.of_nat nc <= fq j < Z.of_nat nc)%Z by rewrite /fq; lia.
  rewrite (val3_get sr); try lia. rewrite (vr _ w) //; last by rewrite /wn wn_brow zget_brow; [congr Some; rewrite /id; lia|lia].
  rewrite !fer_frow; try lia.
  have -> : val3 g2 (nw + w) (Z.of_nat nc + fq i) (Z.of_nat nc + fq j) = core w i j / beta%:C + (if dens && (w =? 0)%Z then 2%:R * G (fq i) * G (fq j) else 0).
    rewrite /val3. have -> : (Z.of_nat nc + fq i = Z.of_nat i)%Z by rewrite /fq; lia. have -> : (Z.of_nat nc + fq j = Z.of_nat j)%Z by rewrite /fq; lia.
    by rewrite hv.
  have hb' : (beta%:C : C) != 0 := hbC hb. congr Some. rewrite hch. case: dens {hch hv vr} => /=; [case: (w =? 0)%Z|]; to_K (ComplexField.complex_fieldType R); field; of_K; exact/eqP.
Qed.
Lemma gen_ok : bubble_generator wn = Ok tt.
Proof.
  rewrite /bubble_generator. have -> : List.map Z.opp (List.rev wn) = wn.
    rewrite /wn wn_brow. apply: zget_ext; first by rewrite zlen_map zlen_rev. move=> i. rewrite zlen_map zlen_rev zlen_brow // => hi.
    rewrite zget_map zget_rev zlen_brow // !zget_brow; try lia. cbn [option_map]. f_equal. rewrite /id. lia.
  elim: wn => [|a l IH] //. by rewrite Z.eqb_refl.
Qed.
Lemma ur_dens : get_ur u%:C "dens" = Ok u%:C. Proof. by rewrite -[get_ur _ _]/(Ok (u%:C * 1)) mulr1. Qed.
Lemma ur_magn : get_ur u%:C "magn" = Ok (- u%:C). Proof. by rewrite -[get_ur _ _]/(Ok (u%:C * - 1)) mulrN1. Qed.

Let chi0 := bubble_row (nc + ns) beta G.
Let chi0c := bubble_row nc beta G.
Definition all_regular := forall w, (- nw <= w <= nw)%Z -> regular beta u%:C (chi0 w) (chi0c w) (gd w) (cd w) /\ regular beta (- u%:C) (chi0 w) (chi0c w) (gm w) (cm w).
Let b2 := (beta%:C ^+ 2)^-1 : C.

Lemma sum_wn (f : Z -> C) : \sum_(j <- range (zlen wn)) f j = \sum_(w <- arange (- nw) (nw + 1)) f (nw + w)%Z.
Proof. rewrite /wn zlen_wn // -(big_lmap (fun x => nw + x)%Z f) arange_map_add. congr (\sum_(j <- arange _ _) _); lia. Qed.
Lemma shape_rows (d : list 'rV[C]_(nc.*2)) : zlen d = (2 * nw + 1)%Z -> shape2 (List.map (@rv_list R _) d) (zlen wn) (2 * Z.of_nat nc).
Proof.
  move=> hl. apply: shape2_of_rows; first by rewrite zlen_map hl zlen_wn. move=> i row. rewrite zget_map. case: (zget d i) => [v|]; cbn [option_map]; last by []. move=> [<-].
  have := zlen_rv2l v. rewrite dblZ. by [].
Qed.

(** the self-energy *)
Lemma siw_ok (dd dm : list 'rV[C]_(nc.*2) * list C) :
  zlen dd.1 = (2 * nw + 1)%Z -> zlen dd.2 = (2 * nw + 1)%Z -> zlen dm.1 = (2 * nw + 1)%Z -> zlen dm.2 = (2 * nw + 1)%Z ->
  (forall w, (- nw <= w <= nw)%Z -> exists v c, zget dd.1 (nw + w) = Some v /\ zget dd.2 (nw + w) = Some c /\ chan_facts beta u%:C G chid w v c) ->
  (forall w, (- nw <= w <= nw)%Z -> exists v c, zget dm.1 (nw + w) = Some v /\ zget dm.2 (nw + w) = Some c /\ chan_facts beta (- u%:C) G chim w v c) ->
  exists s, schwinger_dyson_full beta%:C u%:C wn (List.map (@rv_list R _) dd.1) (List.map (@rv_list R _) dm.1) dd.2 dm.2 (frow N G) n%:C (Z.of_nat ns) = Ok s /\
   zlen s = (2 * (Z.of_nat nc + Z.of_nat ns))%Z /\
   forall I : 'I_((nc + ns).*2), zget s (Z.of_nat I) = Some (equation_of_motion beta u n nw G Fd Fm I).
Proof.
  move=> l1 l2 l3 l4 fd fm. have hl : zlen wn = (2 * nw + 1)%Z by rewrite zlen_wn.
  have k1 : (0 < zlen wn)%Z by rewrite hl; lia.
  have k3 : zlen (frow N G) = (2 * N)%Z by apply: zlen_frow; lia.
  have k5 : forall w, List.In w wn -> (Z.of_nat nc + Z.of_nat ns + Z.abs w <= N)%Z.
    move=> w. rewrite /wn wn_brow => /List.in_map_iff [x [<- /In_arange hx]]. rewrite /id. lia.
  have [s [es [ls vs]]] := @sde_full_value _ beta%:C u%:C wn (frow N G) N (List.map (@rv_list R _) dd.1) (List.map (@rv_list R _) dm.1) dd.2 dm.2 (Z.of_nat nc) (Z.of_nat ns) n%:C
    k1 k3 (Zle_0_nat _) (Zle_0_nat _) (shape_rows l1) (shape_rows l3) (etrans l2 (esym hl)) (etrans l4 (esym hl)) k5.
  exists s. split=> //. split=> // I. have /ltP hI := ltn_ord I. have hd := dblZ (nc + ns). have ha := addZ nc ns.
  have hfq : (- (Z.of_nat nc + Z.of_nat ns) <= fq I < Z.of_nat nc + Z.of_nat ns)%Z by rewrite /fq; lia.
  have := vs _ hfq. rewrite (ferE _ ls). have -> : (Z.of_nat nc + Z.of_nat ns + fq I = Z.of_nat I)%Z by rewrite /fq; lia.
  rewrite (@zget_val _ s); last lia. move=> ->. congr Some. rewrite /equation_of_motion -addrA. congr (_ + _).
  have hb' : (beta%:C : C) != 0 := hbC hb.
  have h2' : (2%:R : C) != 0 by rewrite pnatr_eq0.
  pose kern F w := b2 * (\sum_J F w I J * chi0 w 0 J) * G (fq I - w)%Z.
  have hwz w : (- nw <= w <= nw)%Z -> odflt 0%Z (zget wn (nw + w)) = w.
    move=> hw'. rewrite /wn wn_brow zget_brow; last lia. change (nw + w - nw = w)%Z. lia.
  have hfg w : (- nw <= w <= nw)%Z -> fer (frow N G) (fq I - w) = G (fq I - w)%Z by move=> hw'; apply: fer_frow; lia.
  have ed : sd_sum beta%:C wn (fun j => 1 - (1 - u%:C * val dd.2 j) * vrg_cont (List.map (@rv_list R _) dd.1) (Z.of_nat nc) j (fq I)) (frow N G) (fq I)
          = beta%:C^-1 * \sum_(w <- arange (- nw) (nw + 1)) kern Fd w.
    rewrite /sd_sum sum_wn. congr (_ * _). apply: big_ext_in => w /In_arange hw0. have hw' : (- nw <= w <= nw)%Z by lia.
    have [v [c [ev [ec hf]]]] := fd w hw'. rewrite hwz // hfg // (vrg_cont_ext hnz Hd _ hw' ev) {1}/val ec. congr (_ * _).
    exact: (kernel_ok hb hN hnz Hd I hw' hf).
  have em : sd_sum beta%:C wn (fun j => 1 - (1 + u%:C * val dm.2 j) * vrg_cont (List.map (@rv_list R _) dm.1) (Z.of_nat nc) j (fq I)) (frow N G) (fq I)
          = beta%:C^-1 * \sum_(w <- arange (- nw) (nw + 1)) kern Fm w.
    rewrite /sd_sum sum_wn. congr (_ * _). apply: big_ext_in => w /In_arange hw0. have hw' : (- nw <= w <= nw)%Z by lia.
    have [v [c [ev [ec hf]]]] := fm w hw'. rewrite hwz // hfg // (vrg_cont_ext hnz Hm _ hw' ev) {1}/val ec. congr (_ * _).
    rewrite -(kernel_ok hb hN hnz Hm I hw' hf). by rewrite mulNr opprK.
  rewrite ed em. rewrite !mulr_sumr -sumrB -sumrN. apply: big_ext_in => w /In_arange hw0.
  have -> : \sum_v' (Fd w I v' - Fm w I v') / 2%:R * G (fq v') * G (fq v' - w)%Z * G (fq I - w)%Z =
            ((\sum_J Fd w I J * chi0 w 0 J) - (\sum_J Fm w I J * chi0 w 0 J)) * (- (2%:R * beta%:C)^-1 * G (fq I - w)%Z).
    rewrite -sumrB mulr_suml. apply: eq_bigr => J _. rewrite /chi0 mxE. set a := G _. set b := G _. set c := G _. 
    to_K (ComplexField.complex_fieldType R); field; of_K; split; exact/eqP.
  rewrite /kern /b2. set A := \sum_J _. set B := \sum_J _. set c := G _.
  to_K (ComplexField.complex_fieldType R); field; of_K; split; exact/eqP.
Qed.

Definition outputs (r : local_result R nc) : Prop :=
  [/\ lr_gamma_dens r = brow nw (fun w => b2 *: gd w), lr_gamma_magn r = brow nw (fun w => b2 *: gm w),
      lr_chi_dens r = brow nw (fun w => phys beta%:C (chid w)) & lr_chi_magn r = brow nw (fun w => phys beta%:C (chim w))] /\
  [/\ zlen (lr_vrg_dens r) = (2 * nw + 1)%Z, zlen (lr_vrg_magn r) = (2 * nw + 1)%Z,
      (forall w, (- nw <= w <= nw)%Z -> exists v, zget (lr_vrg_dens r) (nw + w) = Some v /\ three_leg beta%:C u%:C (chi0 w) (chid w) (vrg_ext v)) &
      (forall w, (- nw <= w <= nw)%Z -> exists v, zget (lr_vrg_magn r) (nw + w) = Some v /\ three_leg beta%:C (- u%:C) (chi0 w) (chim w) (vrg_ext v))] /\
  lr_siw r = [seq equation_of_motion beta u n nw G Fd Fm I | I <- enum 'I_((nc + ns).*2)].

Lemma chi_list (chi : Z -> 'M[C]_((nc + ns).*2)) ur (d : list 'rV[C]_(nc.*2) * list C) : zlen d.2 = (2 * nw + 1)%Z ->
  (forall w, (- nw <= w <= nw)%Z -> exists v c, zget d.1 (nw + w) = Some v /\ zget d.2 (nw + w) = Some c /\ chan_facts beta ur G chi w v c) ->
  d.2 = brow nw (fun w => phys beta%:C (chi w)).
Proof.
  move=> hl h. apply: zget_ext; first by rewrite hl zlen_brow. rewrite hl => i hi. rewrite zget_brow; last lia.
  have [|v [c [_ [ec [e _]]]]] := h (i - nw)%Z; first lia. rewrite -e -ec. f_equal. lia.
Qed.

Lemma pipeline : (all_regular -> exists r, run = Ok r /\ outputs r) /\ (~ all_regular -> run = Raise LinAlgError).
Proof.
  have [xd [exd [lxd vxd]]] := @gchi_ok true "dens"%string cd g2d erefl h2d. have [xm [exm [lxm vxm]]] := @gchi_ok false "magn"%string cm g2m erefl h2m.
  have [gdo gde] := gamma_outcome hb hw hN hnz ur_dens Hd lxd vxd. have [gmo gme] := gamma_outcome hb hw hN hnz ur_magn Hm lxm vxm.
  have [vdo vde] := vrg_outcome hb hw hN hG hnz ur_dens Hd. have [vmo vme] := vrg_outcome hb hw hN hG hnz ur_magn Hm.
  rewrite /run /local_sde_from_g2 exd exm. cbn [bind]. rewrite gen_ok. cbn [bind].
  change "minus"%string with (name Minus). rewrite (@vec_gchi0_shortcut R N G beta (Z.of_nat nc + Z.of_nat ns) nw Minus) //; try lia. cbn [bind].
  case Egd: (LocalPipeline.gamob2_from_gchir_urange _ _ _ _ _ _ xd _) => [rd|e]; last first.
  { cbn [bind]. split=> [ha|_]; last by congr Raise; exact: gde Egd. exfalso. have [|x hx] := (proj2 gdo); last by rewrite Egd in hx. by move=> w /ha [/reg_halves []]. }
  have erd := gamma_ok hb hw hN hnz ur_dens Hd lxd vxd Egd. subst rd. cbn [bind].
  case Egm: (LocalPipeline.gamob2_from_gchir_urange _ _ _ _ _ _ xm _) => [rm|e]; last first.
  { cbn [bind]. split=> [ha|_]; last by congr Raise; exact: gme Egm. exfalso. have [|x hx] := (proj2 gmo); last by rewrite Egm in hx. by move=> w /ha [_ /reg_halves []]. }
  have erm := gamma_ok hb hw hN hnz ur_magn Hm lxm vxm Egm. subst rm. cbn [bind].
  case Evd: (get_vrg_and_chir_urange _ "dens" _ _ _ _ _) => [rd|e]; last first.
  { cbn [bind]. split=> [ha|_]; last by congr Raise; exact: vde Evd. exfalso. have [|x hx] := (proj2 vdo); last by rewrite Evd in hx. by move=> w /ha [/reg_halves []]. }
  cbn [bind]. case Evm: (get_vrg_and_chir_urange _ "magn" _ _ _ _ _) => [rm|e]; last first.
  { cbn [bind]. split=> [ha|_]; last by congr Raise; exact: vme Evm. exfalso. have [|x hx] := (proj2 vmo); last by rewrite Evm in hx. by move=> w /ha [_ /reg_halves []]. }
  cbn [bind]. have [l1 [l2 fd]] := vrg_ok hb hw hN hG hnz ur_dens Hd Evd. have [l3 [l4 fm]] := vrg_ok hb hw hN hG hnz ur_magn Hm Evm.
  have [s [es [ls vs]]] := siw_ok l1 l2 l3 l4 fd fm. rewrite es. cbn [bind]. split=> [_|hna].
  - eexists. split; first reflexivity. split; [|split]; cbn [lr_gamma_dens lr_gamma_magn lr_chi_dens lr_chi_magn lr_vrg_dens lr_vrg_magn lr_siw].
    + split=> //; [exact: chi_list l2 fd|exact: chi_list l4 fm].
    + split=> //.
      * move=> w hw'. have [v [c [ev [_ [_ h3]]]]] := fd w hw'. by exists v.
      * move=> w hw'. have [v [c [ev [_ [_ h3]]]]] := fm w hw'. by exists v.
    + apply: zget_ext; first by rewrite ls zlen_seq size_map size_enum_ord dblZ addZ. move=> i. rewrite ls => hi.
      have [|I ->] := @Zord ((nc + ns).*2) i; first by rewrite dblZ addZ. by rewrite vs zget_enum.
  - exfalso. apply: hna => w hw'. split.
    + have [a b] := proj1 gdo (ex_intro _ _ Egd) w hw'. exact: (conj a (conj b (proj1 vdo (ex_intro _ _ Evd) w hw'))).
    + have [a b] := proj1 gmo (ex_intro _ _ Egm) w hw'. exact: (conj a (conj b (proj1 vmo (ex_intro _ _ Evm) w hw'))).
Qed.
End P.
