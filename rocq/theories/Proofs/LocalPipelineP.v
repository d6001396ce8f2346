(** Proofs about the local pipeline (C95). *)
From mathcomp Require Import all_ssreflect all_algebra.
From mathcomp.real_closed Require Import complex.
From Coq Require Import String ZArith Lia.
From Verif Require Import Base.PyBase Base.PyFacts Base.FieldTac Base.Arr Model.Matsubara Model.LocalFourPoint Model.LocalSDE Model.TwoPoint Model.Bubble Model.LocalPipeline.
From Verif Require Import Spec.BseSpec Spec.SdeSpec Spec.TwoPointSpec Spec.BubbleSpec Spec.LocalPipelineSpec.
From Verif Require Import Proofs.LocalFourPointP Proofs.LocalSDEP Proofs.LocalG2P Proofs.LocalSDE2P Proofs.BubbleP.
Set Implicit Arguments. Unset Strict Implicit. Unset Printing Implicit Defensive.
Import GRing.Theory Num.Theory.
Local Open Scope ring_scope.
Local Open Scope complex_scope.

Section P.
Variable R : rcfType.
Notation C := R[i].
Add Field Fgp : (@Kft (ComplexField.complex_fieldType R)).

Lemma nth_zget A (l : list A) i d a : zget l (Z.of_nat i) = Some a -> List.nth i l d = a.
Proof.
  move=> h. have hr := zget_some_range _ _ h. have := @zget_nth _ l (Z.of_nat i) d hr. rewrite h Nat2Z.id. by case.
Qed.
Lemma l2rv_frow n (f : Z -> C) : l2rv (n.*2) (frow (Z.of_nat n) f) = \row_i f (fq i).
Proof.
  apply/matrixP => a i. rewrite !mxE. apply: nth_zget. rewrite zget_frow //. have /ltP := ltn_ord i. have := dblZ n. lia.
Qed.
Lemma l2mx_of n (l : list (list C)) (M : 'M[C]_n) : (forall i j : 'I_n, get2 l (Z.of_nat i) (Z.of_nat j) = Some (M i j)) -> l2mx n l = M.
Proof.
  move=> h. apply/matrixP => i j. rewrite mxE. have := h i j. rewrite /get2. case E: (zget l (Z.of_nat i)) => [r|] //= e.
  by rewrite (nth_zget _ E) (nth_zget _ e).
Qed.
Lemma bubble_rowE n beta (G : Z -> C) w : \row_(i < n.*2) bub beta G Minus w (fq i) = bubble_row n beta G w.
Proof. apply/matrixP => a i. rewrite !mxE /bub /= Z.add_0_r. do 2 congr (_ * _). Qed.
Lemma sum_fq n (f : Z -> C) : TwoPoint.lsum (frow (Z.of_nat n) f) = \sum_(i < n.*2) f (fq i).
Proof.
  have e : frow (Z.of_nat n) f = List.map (fun k => f (k - Z.of_nat n)%Z) (range (Z.of_nat n.*2)).
    apply: zget_ext; first by rewrite zlen_frow; last lia; rewrite zlen_map zlen_arange; have := dblZ n; lia.
    move=> i. rewrite zlen_frow; last lia. move=> hi. rewrite zget_frow // zget_map zget_arange /=; last by have := dblZ n; lia. by [].
  rewrite /TwoPoint.lsum e big_lmap sum_range_ord. by [].
Qed.
Lemma core_bubble nc ns beta (G : Z -> C) w : core_part (bubble_row (nc + ns) beta G w) (bubble_row nc beta G w).
Proof.
  move=> i I hi. rewrite !mxE. have e : fq I = fq i by rewrite /fq hi !addZ; lia. by rewrite e.
Qed.

Lemma py_get_brow A n (f : Z -> A) w : (- n <= w <= n)%Z -> py_get (brow n f) (n + w) = Ok (f w).
Proof. move=> h. apply: py_get_nonneg; first lia. rewrite zget_brow; last lia. do 2 f_equal. lia. Qed.

Section Chan.
Variables (nc ns : nat) (beta u : R) (ur : C) (nw N : Z) (G : Z -> C) (channel : string).
Variables (gam core : Z -> 'M[C]_(nc.*2)) (chi F : Z -> 'M[C]_((nc + ns).*2)).
Hypotheses (hb : beta != 0) (hc : (0 < nc)%nat) (hw : (0 <= nw)%Z) (hN : (Z.of_nat nc + Z.of_nat ns + nw <= N)%Z)
  (hG : conj_symmetric G) (hnz : forall v, (- N <= v < N)%Z -> G v != 0).
Hypothesis hur : get_ur u%:C channel = Ok ur.
Hypothesis H : forall w, (- nw <= w <= nw)%Z -> solves beta ur (bubble_row (nc + ns) beta G w) (gam w) (core w) (chi w) (F w).
Let wn := Matsubara.wn nw 0 false.
Let b2 := (beta%:C ^+ 2)^-1 : C.
Lemma hbC : (beta%:C : C) != 0. Proof. by rewrite eq_complex /= negb_and hb. Qed.
Lemma zlen_wn : zlen wn = (2 * nw + 1)%Z. Proof. by rewrite /wn wn_brow zlen_brow. Qed.
Lemma range_get i : (0 <= i <= 2 * nw)%Z -> zget (range (zlen wn)) i = Some i.
Proof. move=> h. rewrite zlen_wn zget_arange; [by []|lia]. Qed.
Lemma pad_scale (g : 'M[C]_(nc.*2)) Gam : u_padded g ur Gam -> u_padded (b2 *: g) (ur / beta%:C ^+ 2) (b2 *: Gam : 'M[C]_((nc + ns).*2)).
Proof. move=> [h1 h2]. split=> [i j I J hi hj|I J hI]; rewrite !mxE; [by rewrite (h1 _ _ _ _ hi hj)|by rewrite (h2 _ _ hI) mulrC]. Qed.
Lemma bub_nz w : (- nw <= w <= nw)%Z -> forall i, bubble_row (nc + ns) beta G w 0 i != 0.
Proof.
  move=> h i. rewrite mxE !mulf_neq0 ?oppr_eq0 ?hbC //; apply: hnz; rewrite /fq; have /ltP := ltn_ord i; have := dblZ (nc + ns); rewrite !addZ; lia.
Qed.

(** the vertex *)
Lemma gamma_ok (gchi : list (list (list C))) r :
  zlen gchi = (2 * nw + 1)%Z -> (forall w (i j : 'I_(nc.*2)), (- nw <= w <= nw)%Z -> get3 gchi (nw + w) (Z.of_nat i) (Z.of_nat j) = Some (core w i j)) ->
  @gamob2_from_gchir_urange R nc ns channel beta u wn gchi (brow nw (fun w => frow (Z.of_nat nc + Z.of_nat ns) (bub beta G Minus w))) = Ok r ->
  r = brow nw (fun w => b2 *: gam w).
Proof.
  move=> hl hg. rewrite /gamob2_from_gchir_urange hur /= /per_wn => /mapM_zget [lr vr].
  apply: zget_ext; first by rewrite lr zlen_arange zlen_wn zlen_brow //; lia.
  move=> i. rewrite lr zlen_arange zlen_wn => hi. have hi' : (0 <= i <= 2 * nw)%Z by lia.
  have [b [-> ]] := vr i i (range_get hi'). rewrite zget_brow //.
  have hw' : (- nw <= i - nw <= nw)%Z by lia.
  have [g eg] : exists g, zget gchi i = Some g by apply: zget_in_range; lia.
  rewrite (py_get_nonneg _ _ eg); last lia. rewrite (@py_get_nonneg _ _ i (frow (Z.of_nat nc + Z.of_nat ns) (bub beta G Minus (i - nw)%Z))) /=; [|lia|by rewrite zget_brow].
  rewrite -addZ l2rv_frow bubble_rowE.
  have -> : l2mx (nc.*2) g = core (i - nw)%Z.
    apply: l2mx_of => a c. have := hg (i - nw)%Z a c hw'. rewrite /get3. have -> : (nw + (i - nw) = i)%Z by lia. by rewrite eg.
  have [[Gam [hp hB]] [hF [hcb _]]] := H hw'. move=> h. congr Some. exact: (gamob2_urange_recovers (bub_nz hw') (pad_scale hp) hB hcb h).
Qed.

(** susceptibility and three-leg vertex *)
Definition chan_facts (w : Z) (v : 'rV[C]_(nc.*2)) (c : C) : Prop :=
  c = phys beta%:C (chi w) /\ three_leg beta%:C ur (bubble_row (nc + ns) beta G w) (chi w) (vrg_ext v).
Lemma vrg_ok d : @get_vrg_and_chir_urange R nc ns channel beta u wn (brow nw (fun w => b2 *: gam w)) (frow N G) = Ok d ->
  zlen d.1 = (2 * nw + 1)%Z /\ zlen d.2 = (2 * nw + 1)%Z /\
  forall w, (- nw <= w <= nw)%Z -> exists v c, zget d.1 (nw + w) = Some v /\ zget d.2 (nw + w) = Some c /\ chan_facts w v c.
Proof.
  rewrite /get_vrg_and_chir_urange hur. cbn [bind]. change "minus"%string with (name Minus).
  rewrite (@vec_chi0_sum_shortcut R N G beta (Z.of_nat nc) nw Minus) //; try lia.
  rewrite (@vec_chi0_sum_shortcut R N G beta (Z.of_nat nc + Z.of_nat ns) nw Minus) //; try lia.
  rewrite (@vec_gchi0_shortcut R N G beta (Z.of_nat nc) nw Minus) //; try lia. cbn [bind].
  case E: (mapM _ _) => [r|]; cbn [bind]; last by []. move=> [<-]. cbn [fst snd]. have [lr vr] := mapM_zget _ _ E. rewrite !zlen_map lr zlen_arange zlen_wn.
  do 2 (split; first lia).
  move=> w hw'. have hi : (0 <= nw + w <= 2 * nw)%Z by lia. have [[v c] [er ]] := vr _ _ (range_get hi).
  exists v, c. rewrite !zget_map er /=. split=> //; split=> //. move: b.
  rewrite !py_get_brow //. cbn [bind].
  rewrite -addZ /contract_legs !sum_fq l2rv_frow bubble_rowE.
  have [[Gam [hp hB]] [hF [hcb hph]]] := H hw'. rewrite /get_vrg_and_chir_urange_w.
  case EX: (gchi_aux_core_from_gammar_w _ _ _ _) => [X|] //= [<- <-]. split.
  - rewrite -[RHS](chi_phys_urangeP hbC (bub_nz hw') (pad_scale hp) hB (@core_bubble nc ns beta G w) EX hph).
    congr (chi_phys_urange_w _ _ _ _); rewrite div1r; congr (_ * _); apply: eq_bigr => i _; by rewrite mxE /bub /= Z.add_0_r.
  - exact: (vrg_three_leg hbC (bub_nz hw') (pad_scale hp) hB (@core_bubble nc ns beta G w) EX true).
Qed.

(** the kernel of the Schwinger-Dyson equation *)
Lemma kernel_ok w v c (I : 'I_((nc + ns).*2)) : (- nw <= w <= nw)%Z -> chan_facts w v c ->
  1 - (1 - ur * c) * vrg_ext v I = b2 * \sum_J F w I J * bubble_row (nc + ns) beta G w 0 J.
Proof.
  move=> hw' [-> h3]. have [_ [hF _]] := H hw'. have h0 := bub_nz hw' I.
  have := h3 I. under eq_bigr do rewrite hF. rewrite sumrB.
  have -> : \sum_j (if I == j then bubble_row (nc + ns) beta G w 0 I else 0) = bubble_row (nc + ns) beta G w 0 I.
    rewrite (bigD1 I) //= eqxx big1 ?addr0 // => x. by rewrite eq_sym => /negbTE ->.
  have -> : \sum_i bubble_row (nc + ns) beta G w 0 I * (b2 *: F w) I i * bubble_row (nc + ns) beta G w 0 i =
            bubble_row (nc + ns) beta G w 0 I * (b2 * \sum_J F w I J * bubble_row (nc + ns) beta G w 0 J).
    rewrite mulr_sumr mulr_sumr. apply: eq_bigr => J _. by rewrite mxsclE !mulrA.
  set T := b2 * _. set x := bubble_row _ _ _ _ _ _ in h0 *. set q := phys _ _. set g := vrg_ext _ _ => e.
  apply: (mulfI h0). have -> : x * T = x - x * g * (1 - ur * q) by rewrite -e; to_K (ComplexField.complex_fieldType R); ring.
  to_K (ComplexField.complex_fieldType R). ring.
Qed.
Lemma vrg_cont_ext (d : list 'rV[C]_(nc.*2)) w v (I : 'I_((nc + ns).*2)) : (- nw <= w <= nw)%Z -> zget d (nw + w) = Some v ->
  vrg_cont (List.map (@rv_list R _) d) (Z.of_nat nc) (nw + w) (fq I) = vrg_ext v I.
Proof.
  move=> hw' ev. rewrite /vrg_cont /vrg_ext. case E: (core_idx I) => [i|].
  - have hv : fq I = fq i by rewrite (core_idx_some E) /fq /= !addZ; lia. have /ltP hi := ltn_ord i. have hd := dblZ nc.
    have -> : (- Z.of_nat nc <=? fq I)%Z && (fq I <? Z.of_nat nc)%Z = true by rewrite hv /fq; apply/andP; split; [apply/Z.leb_spec0|apply/Z.ltb_spec0]; lia.
    rewrite /val2 /get2 zget_map ev /= hv. have -> : (Z.of_nat nc + fq i = Z.of_nat i)%Z by rewrite /fq; lia.
    by rewrite (zget_rv2l v i).
  - have -> // : (- Z.of_nat nc <=? fq I)%Z && (fq I <? Z.of_nat nc)%Z = false.
    have := in_coreP I. rewrite E /in_core /= => /negbT. rewrite negb_and -!ltnNge ltnS => /orP hh. have hd := dblZ nc. have hd2 := addZ ns nc.*2.
    rewrite /fq addZ. case: hh => /leP hh; apply/negbTE; rewrite negb_and; apply/orP; [left; apply/Z.leb_spec0; lia|right; apply/Z.ltb_spec0; lia].
Qed.

(** when the inversions succeed *)
Let chi0 := bubble_row (nc + ns) beta G.
Let chi0c := bubble_row nc beta G.
Lemma bubc_nz w : (- nw <= w <= nw)%Z -> forall i, chi0c w 0 i != 0.
Proof. move=> h i. rewrite (@core_bubble nc ns beta G w i (core_ord ns i)); [exact: bub_nz|by apply/core_ofP]. Qed.
Lemma add_scalarE n (A : 'M[C]_n) c : add_scalar A c = A + const_mx c. Proof. by []. Qed.
Lemma wn_step w (g : 'M[C]_(nc.*2)) : (- nw <= w <= nw)%Z ->
  (exists r, gamob2_from_gchir_urange_wn beta%:C ur g (chi0 w) = Ok r) <->
  (exists T Tc, bethe_salpeter (chi0 w) (const_mx (ur / beta%:C ^+ 2)) T /\ core_block T Tc /\ exists S, Tc *m S = 1%:M) /\ (exists S, g *m S = 1%:M).
Proof.
  move=> hw'. have h0 := bub_nz hw'. rewrite /gamob2_from_gchir_urange_wn -expr2 add_scalarE. split.
  - case=> r. case E1: (np_inv _) => [T|] //=. case E2: (np_inv (cut_v_mx T)) => [S|] //=. case E3: (np_inv g) => [h|] //= _. split.
    + exists T, (cut_v_mx T). split; [|split].
      * apply/bseP => //. exact/np_invP.
      * exact/core_blockP.
      * exists S. exact/np_invP.
    + exists h. exact/np_invP.
  - move=> [[T [Tc [hB [/core_blockP hcb [S /np_invP hS]]]]] [h /np_invP hh]]. have /np_invP -> := (proj1 (bseP _ _ h0) hB). cbn [bind].
    rewrite -hcb hS hh /=. by eexists.
Qed.
Lemma vrg_step w : (- nw <= w <= nw)%Z ->
  (exists X, gchi_aux_core_from_gammar_w beta%:C ur (b2 *: gam w) (chi0c w) = Ok X) <-> exists X, bethe_salpeter (chi0c w) ((beta%:C ^+ 2)^-1 *: (gam w - const_mx ur)) X.
Proof.
  move=> hw'. rewrite /gchi_aux_core_from_gammar_w add_scalarE.
  have -> : np_diag (rinv (chi0c w)) + b2 *: gam w + const_mx (- (ur / beta%:C ^+ 2)) = np_diag (rinv (chi0c w)) + (beta%:C ^+ 2)^-1 *: (gam w - const_mx ur).
    rewrite -addrA. congr (_ + _). apply/matrixP => i j. rewrite !mxE mulrBr. congr (_ - _). by rewrite mulrC.
  split=> -[X hX]; exists X.
  - apply/bseP; [exact: bubc_nz|exact/np_invP].
  - apply/np_invP. apply/bseP => //. exact: bubc_nz.
Qed.
Let reg := fun w => regular beta ur (chi0 w) (chi0c w) (gam w) (core w).
Lemma np_inv_err n (A : 'M[C]_n) e : np_inv A = Raise e -> e = LinAlgError.
Proof. by rewrite /np_inv; case: ifP => // _ [<-]. Qed.
Lemma urange_wn_err g w e : gamob2_from_gchir_urange_wn beta%:C ur g (chi0 w) = Raise e -> e = LinAlgError.
Proof.
  rewrite /gamob2_from_gchir_urange_wn. case E1: (np_inv _) => [T|e1] /=; last by move=> [<-]; exact: np_inv_err E1.
  case E2: (np_inv (cut_v_mx T)) => [S|e1] /=; last by move=> [<-]; exact: np_inv_err E2.
  case E3: (np_inv g) => [h|e1] //=; by move=> [<-]; exact: np_inv_err E3.
Qed.
Definition half1 w := (exists T Tc, bethe_salpeter (chi0 w) (const_mx (ur / beta%:C ^+ 2)) T /\ core_block T Tc /\ exists S, Tc *m S = 1%:M) /\ (exists S, core w *m S = 1%:M).
Definition half2 w := exists X, bethe_salpeter (chi0c w) ((beta%:C ^+ 2)^-1 *: (gam w - const_mx ur)) X.
Lemma reg_halves w : reg w <-> half1 w /\ half2 w.
Proof. rewrite /reg /regular /half1 /half2. tauto. Qed.
Lemma mapM_in_err A B (f : A -> res B) l e (P : exn -> Prop) : (forall x e', List.In x l -> f x = Raise e' -> P e') -> mapM f l = Raise e -> P e.
Proof.
  elim: l => //= x l IH h. case E: (f x) => [y|e'] /=; last by move=> [<-]; apply: h E; left.
  case E2: (mapM f l) => [r|e'] //= [ee]. apply: IH; last by rewrite E2 ee. move=> z e2 hz; apply: h. by right.
Qed.
Lemma in_range i : List.In i (range (zlen wn)) <-> (0 <= i <= 2 * nw)%Z.
Proof. rewrite In_arange zlen_wn. lia. Qed.
Lemma gamma_row (gchi : list (list (list C))) i :
  zlen gchi = (2 * nw + 1)%Z -> (forall w (i j : 'I_(nc.*2)), (- nw <= w <= nw)%Z -> get3 gchi (nw + w) (Z.of_nat i) (Z.of_nat j) = Some (core w i j)) ->
  (0 <= i <= 2 * nw)%Z ->
  (let! a := py_get gchi i in let! b := py_get (brow nw (fun w => frow (Z.of_nat nc + Z.of_nat ns) (bub beta G Minus w))) i in
   gamob2_from_gchir_urange_wn beta%:C ur (l2mx (nc.*2) a) (l2rv ((nc + ns).*2) b)) =
  gamob2_from_gchir_urange_wn beta%:C ur (core (i - nw)%Z) (chi0 (i - nw)%Z).
Proof.
  move=> hl hg hi. have hw' : (- nw <= i - nw <= nw)%Z by lia.
  have [g eg] : exists g, zget gchi i = Some g by apply: zget_in_range; lia.
  rewrite (py_get_nonneg _ _ eg); last lia. rewrite (@py_get_nonneg _ _ i (frow (Z.of_nat nc + Z.of_nat ns) (bub beta G Minus (i - nw)%Z))); [|lia|by rewrite zget_brow].
  cbn [bind]. rewrite -addZ l2rv_frow bubble_rowE. congr gamob2_from_gchir_urange_wn.
  apply: l2mx_of => a c. have := hg (i - nw)%Z a c hw'. rewrite /get3. have -> : (nw + (i - nw) = i)%Z by lia. by rewrite eg.
Qed.
Lemma gamma_outcome (gchi : list (list (list C))) :
  zlen gchi = (2 * nw + 1)%Z -> (forall w (i j : 'I_(nc.*2)), (- nw <= w <= nw)%Z -> get3 gchi (nw + w) (Z.of_nat i) (Z.of_nat j) = Some (core w i j)) ->
  let run := @gamob2_from_gchir_urange R nc ns channel beta u wn gchi (brow nw (fun w => frow (Z.of_nat nc + Z.of_nat ns) (bub beta G Minus w))) in
  ((exists r, run = Ok r) <-> forall w, (- nw <= w <= nw)%Z -> half1 w) /\ forall e, run = Raise e -> e = LinAlgError.
Proof.
  move=> hl hg run. rewrite /run /gamob2_from_gchir_urange hur. cbn [bind]. rewrite /per_wn. split; [split|].
  - move=> [r /mapM_zget [_ vr]] w hw'. have hi : (0 <= nw + w <= 2 * nw)%Z by lia. have [b [_ hb']] := vr _ _ (range_get hi).
    rewrite (gamma_row hl hg hi) in hb'. have e : (nw + w - nw = w)%Z by lia. rewrite e in hb'. apply/(wn_step _ hw'). by exists b.
  - move=> h. apply: mapM_build => i /in_range hi. rewrite (gamma_row hl hg hi). apply/wn_step; first lia. apply: h. lia.
  - move=> e. apply: (@mapM_in_err _ _ _ _ _ (fun e => e = LinAlgError)) => i e' /in_range hi. rewrite (gamma_row hl hg hi). exact: urange_wn_err.
Qed.
Lemma vrg_outcome :
  let run := @get_vrg_and_chir_urange R nc ns channel beta u wn (brow nw (fun w => b2 *: gam w)) (frow N G) in
  ((exists r, run = Ok r) <-> forall w, (- nw <= w <= nw)%Z -> half2 w) /\ forall e, run = Raise e -> e = LinAlgError.
Proof.
  move=> run. rewrite /run /get_vrg_and_chir_urange hur. cbn [bind]. change "minus"%string with (name Minus).
  rewrite (@vec_chi0_sum_shortcut R N G beta (Z.of_nat nc) nw Minus) //; try lia.
  rewrite (@vec_chi0_sum_shortcut R N G beta (Z.of_nat nc + Z.of_nat ns) nw Minus) //; try lia.
  rewrite (@vec_gchi0_shortcut R N G beta (Z.of_nat nc) nw Minus) //; try lia. cbn [bind].
  set f := (fun i : Z => _).
  have hf w : (- nw <= w <= nw)%Z -> exists cc cu, f (nw + w)%Z = get_vrg_and_chir_urange_w beta%:C ur (b2 *: gam w) cc cu (chi0c w) true.
    move=> hw'. rewrite /f !py_get_brow //. cbn [bind]. rewrite l2rv_frow bubble_rowE. by do 2 eexists.
  have hf2 w : (- nw <= w <= nw)%Z -> (exists y, f (nw + w)%Z = Ok y) <-> half2 w.
    move=> hw'. have [cc [cu ->]] := hf w hw'. rewrite /get_vrg_and_chir_urange_w /half2. split.
    - case=> y. case E: (gchi_aux_core_from_gammar_w _ _ _ _) => [X|] // _. apply/vrg_step => //. by exists X.
    - move/(vrg_step hw') => [X ->]. cbn [bind]. by eexists.
  split; [split|].
  - move=> [r]. case E: (mapM _ _) => [x|] // _. have [_ vr] := mapM_zget _ _ E. move=> w hw'. have hi : (0 <= nw + w <= 2 * nw)%Z by lia.
    have [b [_ hb']] := vr _ _ (range_get hi). apply/hf2 => //. by exists b.
  - move=> h. have [|x ->] := @mapM_build _ _ f (range (zlen wn)).
      move=> i /in_range hi. have -> : i = (nw + (i - nw))%Z by lia. apply/hf2; [lia|]. apply: h. lia.
    cbn [bind]. by eexists.
  - move=> e. case E: (mapM _ _) => [x|e1] //= [<-]. apply: (@mapM_in_err _ _ _ _ _ (fun e => e = LinAlgError) _ E) => i e' /in_range hi. have -> : i = (nw + (i - nw))%Z by lia.
    have [|cc [cu ->]] := hf (i - nw)%Z; first lia. rewrite /get_vrg_and_chir_urange_w. case E2: (gchi_aux_core_from_gammar_w _ _ _ _) => [X|e2] //= [<-].
    exact: np_inv_err E2.
Qed.
End Chan.
End P.
