From mathcomp Require Import all_ssreflect all_algebra.
From Verif Require Import Base.PyBase Base.FieldTac Spec.BseSpec Model.LocalFourPoint.
Set Implicit Arguments. Unset Strict Implicit. Unset Printing Implicit Defensive.
Import GRing.Theory.
Local Open Scope ring_scope.

Section P.
Variable F : fieldType.
Add Field Ff : (@Kft F).
Ltac frng := to_K F; ring.
Ltac ffld := to_K F; field; of_K.
Implicit Types (beta ur u c : F).
Lemma mxaddE m n (A B : 'M[F]_(m, n)) i j : (A + B) i j = A i j + B i j. Proof. by rewrite mxE. Qed.
Lemma mxoppE m n (A : 'M[F]_(m, n)) i j : (- A) i j = - A i j. Proof. by rewrite mxE. Qed.
Lemma mxsubE m n (A B : 'M[F]_(m, n)) i j : (A - B) i j = A i j - B i j. Proof. by rewrite !mxE. Qed.
Lemma mxsclE m n c (A : 'M[F]_(m, n)) i j : (c *: A) i j = c * A i j. Proof. by rewrite mxE. Qed.
Lemma mxcstE m n c (i : 'I_m) (j : 'I_n) : (const_mx c : 'M[F]_(m, n)) i j = c. Proof. by rewrite mxE. Qed.
Lemma mxmulE m n p (A : 'M[F]_(m, n)) (B : 'M[F]_(n, p)) i j : (A *m B) i j = \sum_k A i k * B k j. Proof. by rewrite mxE. Qed.


Definition nz n (v : 'rV[F]_n) : Prop := forall i, v 0 i != 0.

Lemma np_invP n (A B : 'M[F]_n) : np_inv A = Ok B <-> A *m B = 1%:M.
Proof.
  rewrite /np_inv; split.
  - case: ifP => // hA [<-]. by rewrite mulmxV.
  - move=> h. have hA : A \in unitmx by case/mulmx1_unit: h. rewrite hA. congr Ok. by rewrite -[B](mulKmx hA) h mulmx1.
Qed.
Lemma mx1C n (A B : 'M[F]_n) : A *m B = 1%:M -> B *m A = 1%:M. Proof. exact: mulmx1C. Qed.

Lemma diagE n (v : 'rV[F]_n) i j : np_diag v i j = if i == j then v 0 i else 0.
Proof. by rewrite /np_diag mxE; case: eqP => [->|_]; rewrite ?mulr1n ?mulr0n. Qed.
Lemma diag_rinvE n (v : 'rV[F]_n) i j : np_diag (rinv v) i j = if i == j then (v 0 i)^-1 else 0.
Proof. by rewrite diagE /rinv mxE div1r. Qed.
Lemma diag_rinv n (v : 'rV[F]_n) : nz v -> np_diag v *m np_diag (rinv v) = 1%:M.
Proof.
  move=> h. rewrite /np_diag mulmx_diag. apply/matrixP=> i j. rewrite !mxE. case: eqP => [->|_]; rewrite ?mulr1n ?mulr0n //.
  by rewrite div1r divff.
Qed.
Lemma mul_diagE n (v : 'rV[F]_n) (A : 'M[F]_n) i j : (np_diag v *m A) i j = v 0 i * A i j.
Proof. by rewrite /np_diag mul_diag_mx mxE. Qed.
Lemma mul_diagRE n (v : 'rV[F]_n) (A : 'M[F]_n) i j : (A *m np_diag v) i j = A i j * v 0 j.
Proof. by rewrite /np_diag mul_mx_diag mxE. Qed.

Lemma bseP n (chi0 : 'rV[F]_n) gam chi : nz chi0 -> bethe_salpeter chi0 gam chi <-> (np_diag (rinv chi0) + gam) *m chi = 1%:M.
Proof.
  move=> h.
  have G : forall i j, ((np_diag (rinv chi0) + gam) *m chi) i j = (chi0 0 i)^-1 * chi i j + \sum_k gam i k * chi k j.
    by move=> i j; rewrite mulmxDl mxE mul_diagE [rinv _ _ _]mxE div1r [(gam *m chi) i j]mxE.
  split.
  - move=> H. apply/matrixP=> i j. rewrite G [in RHS]mxE H mulrBr mulrA mulVf ?h // mul1r subrK.
    by case: eqP => _; rewrite ?mulr0 // mulVf ?h.
  - move=> H i j. have := G i j. rewrite H mxE => E.
    have -> : chi i j = chi0 0 i * ((chi0 0 i)^-1 * chi i j) by rewrite mulrA divff ?h // mul1r.
    have -> : (chi0 0 i)^-1 * chi i j = (i == j)%:R - \sum_k gam i k * chi k j by rewrite E addrK.
    by rewrite mulrBr; case: eqP => _; rewrite ?mulr1 ?mulr0.
Qed.
(** the same equation from the right *)
Lemma bseP_r n (chi0 : 'rV[F]_n) gam chi : nz chi0 -> bethe_salpeter chi0 gam chi -> chi *m (np_diag (rinv chi0) + gam) = 1%:M.
Proof. by move=> h /(bseP _ _ h) /mx1C. Qed.

(** C21 *)
Lemma gchir_from_gamob2_bse n gam (chi0 : 'rV[F]_n) chi : nz chi0 ->
  gchir_from_gamob2_wn gam chi0 = Ok chi <-> bethe_salpeter chi0 gam chi.
Proof. by move=> h; rewrite /gchir_from_gamob2_wn np_invP; split => /(bseP _ _ h). Qed.
Lemma gamob2_from_gchir_bse n gam (chi0 : 'rV[F]_n) chi : nz chi0 ->
  gamob2_from_gchir_wn chi chi0 = Ok gam <-> bethe_salpeter chi0 gam chi.
Proof.
  move=> h; rewrite /gamob2_from_gchir_wn; split.
  - case E: (np_inv chi) => [i|] //= [<-]. move/np_invP: E => E. apply/bseP => //. by rewrite opprB addrC subrK; apply: mx1C.
  - move/(bseP _ _ h) => E. have /np_invP -> /= := mx1C E. congr Ok. by rewrite opprB [X in X - _]addrC addrK.
Qed.
Lemma bse_unique_gam n (chi0 : 'rV[F]_n) g1 g2 chi : nz chi0 -> bethe_salpeter chi0 g1 chi -> bethe_salpeter chi0 g2 chi -> g1 = g2.
Proof. move=> h /(gamob2_from_gchir_bse _ _ h) H /(gamob2_from_gchir_bse _ _ h). rewrite H. by case. Qed.
Lemma bse_unique_chi n (chi0 : 'rV[F]_n) gam x1 x2 : nz chi0 -> bethe_salpeter chi0 gam x1 -> bethe_salpeter chi0 gam x2 -> x1 = x2.
Proof. move=> h /(gchir_from_gamob2_bse _ _ h) H /(gchir_from_gamob2_bse _ _ h). rewrite H. by case. Qed.

(** C22 *)
Lemma full_vertexP n (chi0 : 'rV[F]_n) f chi : full_vertex chi0 f chi <-> chi = gchir_from_fob2_w f chi0.
Proof.
  split=> [H|-> i j]; last by rewrite /gchir_from_fob2_w 3!mxE mxE -diagE /np_diag mxE.
  apply/matrixP => i j. by rewrite H /gchir_from_fob2_w 3!mxE mxE -diagE /np_diag mxE.
Qed.
Lemma fob2_from_gchir_vertex n (chi0 : 'rV[F]_n) f chi : nz chi0 -> fob2_from_gchir_w chi chi0 = f <-> full_vertex chi0 f chi.
Proof.
  move=> h. rewrite /fob2_from_gchir_w. split.
  - move=> <- i j. rewrite mxE diag_rinvE 2!mxE. have hi := h i; have hj := h j. case: eqP => [e|ne].
    + subst j. by ffld; apply/eqP.
    + by ffld; split; apply/eqP.
  - move=> H. apply/matrixP=> i j. rewrite mxE diag_rinvE 2!mxE H. have hi := h i; have hj := h j. case: eqP => [e|ne].
    + subst j. by ffld; apply/eqP.
    + by ffld; split; apply/eqP.
Qed.
Lemma full_vertex_unique n (chi0 : 'rV[F]_n) f1 f2 chi : nz chi0 -> full_vertex chi0 f1 chi -> full_vertex chi0 f2 chi -> f1 = f2.
Proof. move=> h /(fob2_from_gchir_vertex _ _ h) <- /(fob2_from_gchir_vertex _ _ h) <-. by []. Qed.

(** ** core embedding *)
Section Emb.
Variables nc ns : nat.
Notation core := (nc.*2). Notation full := ((nc + ns).*2).
Lemma core_idx_ord (i : 'I_core) : core_idx (core_ord ns i) = Some i.
Proof. rewrite /core_idx /= leq_addl addnK. rewrite insubT //=. by move=> h; congr Some; apply: val_inj. Qed.
Lemma core_idx_some (I : 'I_full) (i : 'I_core) : core_idx I = Some i -> I = core_ord ns i.
Proof.
  rewrite /core_idx. case: ifP => // h. case: insubP => // k _ e [<-]. apply: val_inj => /=. by rewrite e subnK.
Qed.
Lemma core_ord_inj : injective (@core_ord nc ns).
Proof. move=> i j /(congr1 (@core_idx nc ns)). rewrite !core_idx_ord. by case. Qed.
Lemma core_ofP (i : 'I_core) (I : 'I_full) : core_of i I <-> I = core_ord ns i.
Proof. rewrite /core_of; split=> [h|->//]. by apply: val_inj. Qed.
Lemma in_coreP (I : 'I_full) : in_core I = isSome (core_idx I).
Proof.
  rewrite /in_core /core_idx. case: (leqP ns I) => h //=. rewrite -(ltn_subLR _ h). case: insubP => [k hk _|/negbTE] //=.
Qed.
Definition emb : 'M[F]_(full, core) := \matrix_(I, i) (I == core_ord ns i)%:R.
Lemma emb_sum (f : 'I_core -> F) I : \sum_i (I == core_ord ns i)%:R * f i = oapp f 0 (core_idx I).
Proof.
  case E: (core_idx I) => [a|] /=.
  - rewrite (core_idx_some E) (bigD1 a) //= eqxx mul1r big1 ?addr0 // => i hi.
    by rewrite (eqtype.inj_eq core_ord_inj) eq_sym (negbTE hi) mul0r.
  - rewrite big1 // => i _. case: eqP => [h|_]; last by rewrite mul0r. by rewrite h core_idx_ord in E.
Qed.
Lemma emb_mul m (D : 'M[F]_(core, m)) I j : (emb *m D) I j = oapp (fun i => D i j) 0 (core_idx I).
Proof. rewrite mxE -emb_sum. by apply: eq_bigr => i _; rewrite mxE. Qed.
Lemma mul_embT m (D : 'M[F]_(m, core)) i J : (D *m emb^T) i J = oapp (fun j => D i j) 0 (core_idx J).
Proof. rewrite mxE -emb_sum. by apply: eq_bigr => j _; rewrite !mxE mulrC. Qed.
Lemma embT_mul m (M : 'M[F]_(full, m)) i j : (emb^T *m M) i j = M (core_ord ns i) j.
Proof.
  rewrite mxE (bigD1 (core_ord ns i)) //= !mxE eqxx mul1r big1 ?addr0 // => k hk. by rewrite !mxE (negbTE hk) mul0r.
Qed.
Lemma mul_emb m (M : 'M[F]_(m, full)) i j : (M *m emb) i j = M i (core_ord ns j).
Proof.
  rewrite mxE (bigD1 (core_ord ns j)) //= !mxE eqxx mulr1 big1 ?addr0 // => k hk. by rewrite !mxE (negbTE hk) mulr0.
Qed.
Lemma cutE (M : 'M[F]_full) : cut_v_mx M = emb^T *m M *m emb.
Proof. apply/matrixP => i j. by rewrite mul_emb embT_mul mxE. Qed.
Lemma embTemb : emb^T *m emb = 1%:M.
Proof. apply/matrixP => i j. by rewrite embT_mul !mxE (eqtype.inj_eq core_ord_inj). Qed.
Lemma padE (gam : 'M[F]_core) c : append_v_vp_shell_mx ns gam c = emb *m (gam - const_mx c) *m emb^T + const_mx c.
Proof.
  apply/matrixP => I J. rewrite mxE [RHS]mxE mul_embT [const_mx c I J]mxE.
  case: (core_idx J) => [j|] /=; last by rewrite add0r; case: (core_idx I).
  rewrite emb_mul. case: (core_idx I) => [i|] /=; last by rewrite add0r. by rewrite !mxE subrK.
Qed.
Lemma u_paddedP (gam : 'M[F]_core) c G : u_padded gam c G <-> G = append_v_vp_shell_mx ns gam c.
Proof.
  split.
  - move=> [H1 H2]. apply/matrixP => I J. rewrite mxE. have := H2 I J. rewrite !in_coreP.
    case EI: (core_idx I) => [i|] /=; last by move=> ->.
    case EJ: (core_idx J) => [j|] /= H; last by rewrite H.
    apply: H1; apply/core_ofP; exact: core_idx_some.
  - move=> ->. split=> [i j I J /core_ofP -> /core_ofP ->|I J]; rewrite mxE ?core_idx_ord //.
    rewrite !in_coreP. by case: (core_idx I) => [i|] //=; case: (core_idx J).
Qed.
Lemma core_blockP (M : 'M[F]_full) m : core_block M m <-> m = cut_v_mx M.
Proof.
  split=> [H|->]; last by move=> i j I J /core_ofP -> /core_ofP ->; rewrite mxE.
  apply/matrixP => i j. by rewrite mxE (H i j (core_ord ns i) (core_ord ns j)).
Qed.
Lemma core_partP (V : 'rV[F]_full) v : core_part V v <-> v = cut_v_rv V.
Proof.
  split=> [H|->]; last by move=> i I /core_ofP ->; rewrite mxE.
  apply/rowP => i. by rewrite mxE (H i (core_ord ns i)).
Qed.

(** C22 with the U-padded vertex *)
Lemma fob2_urange_vertex beta ur (gam : 'M[F]_core) (chi0 : 'rV[F]_full) G chi f :
  nz chi0 -> u_padded gam (ur / beta ^+ 2) G -> bethe_salpeter chi0 G chi ->
  fob2_from_gamob2_urange_w beta ur gam chi0 = Ok f -> full_vertex chi0 f chi.
Proof.
  move=> h /u_paddedP -> /(bseP _ _ h). rewrite /fob2_from_gamob2_urange_w. set P := append_v_vp_shell_mx _ _ _.
  have -> : \matrix_(i, j) (P i j * chi0 0 i) = np_diag chi0 *m P by apply/matrixP => i j; rewrite mul_diagE mxE mulrC.
  move=> Hb. case E: (np_inv _) => [K|] //= [<-]. move/np_invP: E => E.
  have Hc : (1%:M + np_diag chi0 *m P) *m chi = np_diag chi0.
    by rewrite -{1}(diag_rinv h) -mulmxDr -mulmxA Hb mulmx1.
  have Hk : chi = K *m np_diag chi0 by rewrite -[chi]mul1mx -(mx1C E) -mulmxA Hc.
  move=> i j. have -> : chi0 0 i * (P *m K) i j * chi0 0 j = (np_diag chi0 *m (P *m K) *m np_diag chi0) i j by rewrite mul_diagRE mul_diagE.
  have Hd : np_diag chi0 - np_diag chi0 *m (P *m K) *m np_diag chi0 = K *m np_diag chi0.
    rewrite -{1}[np_diag chi0]mul1mx -mulmxBl; congr (_ *m _). by rewrite -E mulmxDl mul1mx mulmxA addrK.
  rewrite Hk -Hd mxE diagE. congr (_ + _). by rewrite mxE.
Qed.

(** C23 *)
Lemma core_dyson c (gam : 'M[F]_core) (chi0 : 'rV[F]_full) chi T :
  (np_diag (rinv chi0) + append_v_vp_shell_mx ns gam c) *m chi = 1%:M ->
  (np_diag (rinv chi0) + const_mx c) *m T = 1%:M ->
  cut_v_mx chi + cut_v_mx T *m (gam - const_mx c) *m cut_v_mx chi = cut_v_mx T.
Proof.
  move=> Hb E1. rewrite padE addrCA in Hb. set D := gam - const_mx c in Hb *. set W := np_diag (rinv chi0) + const_mx c in E1 Hb.
  have H1 : chi + T *m (emb *m D *m emb^T *m chi) = T.
    rewrite -{1}[chi]mul1mx -(mx1C E1) -mulmxA -mulmxDr [W *m chi + _]addrC -mulmxDl Hb. by rewrite mulmx1.
  have e : cut_v_mx T = emb^T *m (chi + T *m (emb *m D *m emb^T *m chi)) *m emb by rewrite H1 -cutE.
  by rewrite [in RHS]e [emb^T *m (_ + _)]mulmxDr [(_ + _) *m emb]mulmxDl !cutE !mulmxA.
Qed.
Lemma gamob2_urange_recovers beta ur (gam : 'M[F]_core) (chi0 : 'rV[F]_full) G chi core_chi r :
  nz chi0 -> u_padded gam (ur / beta ^+ 2) G -> bethe_salpeter chi0 G chi -> core_block chi core_chi ->
  gamob2_from_gchir_urange_wn beta ur core_chi chi0 = Ok r -> r = gam.
Proof.
  move=> h /u_paddedP -> /(bseP _ _ h) Hb /core_blockP ->. move: Hb. rewrite /gamob2_from_gchir_urange_wn /add_scalar -expr2. set c := ur / beta ^+ 2.
  case E1: (np_inv _) => [T|] //=. case E2: (np_inv _) => [ti|] //=. case E3: (np_inv _) => [ai|] //= Hb [<-].
  move/np_invP: E1 => E1. move/np_invP: E2 => E2. move/np_invP: E3 => E3.
  have H2 := core_dyson Hb E1. set D := gam - const_mx c in H2.
  set a := cut_v_mx chi in H2 E3. set t := cut_v_mx T in H2 E2.
  have H3 : ti + D = ai.
    rewrite -[ai]mul1mx -(mx1C E2) -{1}H2 -mulmxA. rewrite mulmxDl. rewrite E3. rewrite -[_ *m a *m ai]mulmxA E3 mulmx1.
    by rewrite mulmxDr mulmx1 [ti *m (t *m D)]mulmxA (mx1C E2) mul1mx.
  by rewrite -H3 [ti + D]addrC addrK /D subrK.
Qed.
Lemma gamob2_urange_sound beta ur (gchir : 'M[F]_core) (chi0 : 'rV[F]_full) gam G chi :
  nz chi0 -> gamob2_from_gchir_urange_wn beta ur gchir chi0 = Ok gam ->
  u_padded gam (ur / beta ^+ 2) G -> bethe_salpeter chi0 G chi -> core_block chi gchir.
Proof.
  move=> h. rewrite /gamob2_from_gchir_urange_wn /add_scalar -expr2. set c := ur / beta ^+ 2.
  case E1: (np_inv _) => [T|] //=. case E2: (np_inv _) => [ti|] //=. case E3: (np_inv _) => [ai|] //= [Hg] /u_paddedP -> /(bseP _ _ h) Hb.
  move/np_invP: E1 => E1. move/np_invP: E2 => E2. move/np_invP: E3 => E3. apply/core_blockP.
  have := core_dyson Hb E1. rewrite -Hg addrK. set a := cut_v_mx chi. set t := cut_v_mx T in E2 *.
  rewrite mulmxBr mulmxBl E2 mul1mx addrCA subrr addr0 => H2.
  have H3 : ai *m a = 1%:M by rewrite -[ai *m a]mul1mx -(mx1C E2) -!mulmxA [t *m (ai *m a)]mulmxA H2.
  by rewrite -[gchir]mulmx1 -H3 mulmxA E3 mul1mx.
Qed.

(** ** the auxiliary susceptibility: chi of the U-padded vertex by Sherman-Morrison *)
Definition ones n : 'cV[F]_n := const_mx 1.
Lemma rowsumE n (M : 'M[F]_n) i : (M *m ones n) i 0 = \sum_j M i j.
Proof. by rewrite mxE; apply: eq_bigr => j _; rewrite mxE mulr1. Qed.
Lemma colsumE n (M : 'M[F]_n) j : ((ones n)^T *m M) 0 j = \sum_i M i j.
Proof. by rewrite mxE; apply: eq_bigr => i _; rewrite !mxE mul1r. Qed.
Lemma totsumE n (M : 'M[F]_n) : ((ones n)^T *m M *m ones n) 0 0 = \sum_i \sum_j M i j.
Proof. rewrite -mulmxA mxE. by apply: eq_bigr => i _; rewrite rowsumE !mxE mul1r. Qed.
Lemma const_ones n c : (const_mx c : 'M[F]_n) = c *: (ones n *m (ones n)^T).
Proof. apply/matrixP => i j. by rewrite !mxE big_ord1 !mxE !mulr1. Qed.
Lemma sc11 (A : 'M[F]_1) n (B : 'M[F]_(1, n)) : A *m B = A 0 0 *: B.
Proof. by rewrite {1}[A]mx11_scalar mul_scalar_mx. Qed.
Lemma sc11r (A : 'M[F]_1) n (B : 'M[F]_(n, 1)) : B *m A = A 0 0 *: B.
Proof. by rewrite {1}[A]mx11_scalar mul_mx_scalar. Qed.

Lemma sherman n (M Y chi : 'M[F]_n) c : M *m Y = 1%:M -> (M + const_mx c) *m chi = 1%:M ->
  let S := \sum_i \sum_j Y i j in
  1 + c * S != 0 /\ forall i j, chi i j = Y i j - c / (1 + c * S) * (\sum_k Y i k) * (\sum_k Y k j).
Proof.
  move=> HY Hc S. rewrite const_ones in Hc. set e := ones n in Hc.
  set r := e^T *m chi.
  have H1 : chi = Y - c *: (Y *m e *m r).
    rewrite -[in LHS](mul1mx chi) -(mx1C HY). apply/eqP. rewrite eq_sym subr_eq. apply/eqP.
    rewrite -[Y in LHS]mulmx1 -Hc mulmxDl mulmxDr !mulmxA -scalemxAr -scalemxAl. by rewrite /r !mulmxA.
  have H2 : (1 + c * S) *: r = e^T *m Y.
    rewrite scalerDl scale1r /r {1}H1 mulmxBr -scalemxAr !mulmxA -[_ *m Y *m e *m e^T *m chi]mulmxA sc11 totsumE scalerA. by rewrite subrK.
  have nz1 : 1 + c * S != 0.
    apply/eqP => h0. have hz : e^T = 0 by rewrite -[e^T]mulmx1 -(mx1C HY) mulmxA -H2 h0 scale0r mul0mx.
    have S0 : S = 0 by rewrite /S -totsumE -/e hz !mul0mx mxE.
    by move: h0; rewrite S0 mulr0 addr0 => /eqP; rewrite oner_eq0.
  split=> // i j. have hr : r = (1 + c * S)^-1 *: (e^T *m Y) by rewrite -H2 scalerA mulVf // scale1r.
  rewrite H1 hr mxsubE mxsclE mxmulE big_ord1 rowsumE mxsclE colsumE. frng.
Qed.

(** the auxiliary matrix on the full box is block diagonal: X on the core, chi0 on the shell *)
Definition aux_full (X : 'M[F]_core) (chi0 : 'rV[F]_full) : 'M[F]_full :=
  \matrix_(I, J) match core_idx I, core_idx J with
    | Some i, Some j => X i j
    | None, None => if I == J then chi0 0 I else 0
    | _, _ => 0 end.
Lemma diag_emb (v : 'rV[F]_full) : np_diag v *m emb = emb *m np_diag (cut_v_rv v).
Proof.
  apply/matrixP => I j. rewrite /np_diag mul_diag_mx mul_mx_diag !mxE. case: eqP => [->|_]; rewrite ?mulr1 ?mul1r ?mulr0 ?mul0r //.
Qed.
Lemma rinv_cut (v : 'rV[F]_full) : rinv (cut_v_rv v) = cut_v_rv (rinv v).
Proof. by apply/rowP => i; rewrite !mxE. Qed.
Lemma aux_fullE X chi0 : aux_full X chi0 = emb *m (X - np_diag (cut_v_rv chi0)) *m emb^T + np_diag chi0.
Proof.
  apply/matrixP => I J. rewrite mxE [RHS]mxE mul_embT diagE.
  case EJ: (core_idx J) => [j|] /=.
  - rewrite emb_mul. case EI: (core_idx I) => [i|] /=.
    + rewrite mxsubE diagE (core_idx_some EI) (core_idx_some EJ) (eqtype.inj_eq core_ord_inj) [cut_v_rv _ _ _]mxE subrK //.
    + rewrite add0r. case: eqP => // h. by rewrite h EJ in EI.
  - rewrite add0r. case EI: (core_idx I) => [i|] //=. case: eqP => // h. by rewrite h EJ in EI.
Qed.
Lemma aux_full_inv c (gam : 'M[F]_core) (chi0 : 'rV[F]_full) X : nz chi0 ->
  (np_diag (rinv (cut_v_rv chi0)) + gam - const_mx c) *m X = 1%:M ->
  (np_diag (rinv chi0) + append_v_vp_shell_mx ns gam c - const_mx c) *m aux_full X chi0 = 1%:M.
Proof.
  move=> h HX. rewrite padE -addrA addrK. set D := gam - const_mx c. rewrite -addrA -/D in HX.
  rewrite aux_fullE. set d := np_diag (cut_v_rv chi0).
  have Ed : emb^T *m np_diag chi0 = d *m emb^T.
    apply: trmx_inj. rewrite !trmx_mul trmxK /d /np_diag !tr_diag_mx. exact: diag_emb.
  have Hd : np_diag (rinv (cut_v_rv chi0)) *m d = 1%:M.
    by apply: mx1C; apply: diag_rinv => i; rewrite mxE.
  clearbody D. set p := np_diag (rinv (cut_v_rv chi0)) in HX Hd. set P := np_diag (rinv chi0).
  have HP : P *m emb = emb *m p by rewrite /P /p rinv_cut diag_emb.
  have HPd : P *m np_diag chi0 = 1%:M by rewrite /P (mx1C (diag_rinv h)).
  have e0 : p *m (X - d) + D *m (X - d) + D *m d = 0.
    by rewrite -mulmxDl mulmxBr HX mulmxDl Hd opprD addrA subrr add0r addNr.
  transitivity (emb *m (p *m (X - d) + D *m (X - d) + D *m d) *m emb^T + (1%:M : 'M[F]_full)); last by rewrite e0 mulmx0 mul0mx add0r.
  move: (X - d) => Q {HX e0}. clearbody d p P.
  have e1 : emb^T *m (emb *m Q *m emb^T) = Q *m emb^T by rewrite !mulmxA embTemb mul1mx.
  rewrite mulmxDl 2!(mulmxDr _ (emb *m Q *m emb^T)) -(mulmxA (emb *m D)) e1 -(mulmxA (emb *m D)) Ed !mulmxA HP HPd.
  rewrite !mulmxDr !mulmxDl !mulmxA. move: (emb *m p *m Q *m emb^T) (emb *m D *m Q *m emb^T) (emb *m D *m d *m emb^T) => a b c'.
  by rewrite -!addrA; congr (_ + _); rewrite [in RHS]addrA [RHS]addrC.
Qed.
Lemma diag_rowsum n (v : 'rV[F]_n) i : \sum_j np_diag v i j = v 0 i.
Proof. by rewrite (bigD1 i) //= diagE eqxx big1 ?addr0 // => J; rewrite eq_sym diagE => /negbTE ->. Qed.
Lemma aux_sum (X : 'M[F]_core) (chi0 : 'rV[F]_full) I :
  \sum_J aux_full X chi0 I J = if core_idx I is Some i then \sum_j X i j else chi0 0 I.
Proof.
  rewrite -rowsumE aux_fullE mulmxDl mxaddE [X in _ + X]rowsumE diag_rowsum -!mulmxA emb_mul.
  case E: (core_idx I) => [i|] /=; last by rewrite add0r.
  have -> : emb^T *m ones full = ones core by apply/matrixP => a b; rewrite embT_mul !mxE.
  rewrite mulmxBl mxsubE !rowsumE diag_rowsum. by rewrite mxE (core_idx_some E) subrK.
Qed.
Lemma aux_tr (X : 'M[F]_core) (chi0 : 'rV[F]_full) : (aux_full X chi0)^T = aux_full X^T chi0.
Proof.
  apply/matrixP => I J. rewrite !mxE. case EI: (core_idx I); case EJ: (core_idx J); rewrite ?mxE //. rewrite eq_sym. case: eqP => [->|] //.
Qed.
Lemma aux_sum_col (X : 'M[F]_core) (chi0 : 'rV[F]_full) J :
  \sum_I aux_full X chi0 I J = if core_idx J is Some j then \sum_i X i j else chi0 0 J.
Proof.
  have := aux_sum X^T chi0 J. rewrite -aux_tr. under eq_bigr do rewrite mxE. move=> ->. case: (core_idx J) => // j. by apply: eq_bigr => k _; rewrite mxE.
Qed.
Lemma aux_tot (X : 'M[F]_core) (chi0 : 'rV[F]_full) :
  \sum_I \sum_J aux_full X chi0 I J = \sum_i \sum_j X i j + \sum_I chi0 0 I - \sum_i cut_v_rv chi0 0 i.
Proof.
  rewrite -totsumE aux_fullE mulmxDr mulmxDl mxaddE [X in _ + X]totsumE.
  under [X in _ + X = _]eq_bigr do rewrite diag_rowsum.
  have e : emb^T *m ones full = ones core by apply/matrixP => a b; rewrite embT_mul !mxE.
  have e' : (ones full)^T *m emb = (ones core)^T by rewrite -e trmx_mul trmxK.
  rewrite -!mulmxA e !mulmxA e' mulmxBr mulmxBl mxsubE !totsumE. under [X in _ - X]eq_bigr do rewrite diag_rowsum. frng.
Qed.

(** Everything about the susceptibility of the U-padded vertex in one lemma. *)
Section Urange.
Variables (beta ur : F) (gam : 'M[F]_core) (chi0 : 'rV[F]_full) (G chi : 'M[F]_full) (chi0c : 'rV[F]_core) (X : 'M[F]_core).
Hypotheses (hb : beta != 0) (h0 : nz chi0) (hG : u_padded gam (ur / beta ^+ 2) G) (hB : bethe_salpeter chi0 G chi)
  (hc : core_part chi0 chi0c) (hX : gchi_aux_core_from_gammar_w beta ur gam chi0c = Ok X).
Let c := ur / beta ^+ 2.
Let Y := aux_full X chi0.
Let A := (beta ^+ 2)^-1 * \sum_I \sum_J Y I J.
Lemma cut0 : chi0c = cut_v_rv chi0. Proof. exact/core_partP. Qed.
Lemma nzc : nz chi0c. Proof. by move=> i; rewrite cut0 mxE. Qed.
Lemma aux_tot_eq : A = contract_legs_4 beta X + (beta ^+ 2)^-1 * (\sum_I chi0 0 I) - (beta ^+ 2)^-1 * (\sum_i chi0c 0 i).
Proof. by rewrite /A aux_tot /contract_legs_4 -cut0 div1r; frng. Qed.
Lemma sm : 1 + ur * A != 0 /\ forall I J, chi I J = Y I J - c / (1 + ur * A) * (\sum_K Y I K) * (\sum_K Y K J).
Proof.
  have hY : (np_diag (rinv chi0) + append_v_vp_shell_mx ns gam c - const_mx c) *m Y = 1%:M.
    apply: aux_full_inv => //. move/np_invP: hX. rewrite /add_scalar -cut0 => <-. congr (_ *m _). congr (_ + _). by apply/matrixP => i j; rewrite !mxE.
  have hM : (np_diag (rinv chi0) + append_v_vp_shell_mx ns gam c - const_mx c + const_mx c) *m chi = 1%:M.
    rewrite subrK. move/u_paddedP: hG => <-. by apply/bseP.
  have := sherman hY hM. rewrite /=. have -> : c * (\sum_I \sum_J Y I J) = ur * A by rewrite /c /A; frng. by [].
Qed.
Lemma nzA : 1 + ur * A != 0. Proof. by case: sm. Qed.
Lemma smrow I : \sum_J chi I J = (\sum_K Y I K) / (1 + ur * A).
Proof.
  have nA := nzA. under eq_bigr do rewrite (proj2 sm). rewrite sumrB -mulr_sumr.
  have -> : \sum_j \sum_K Y K j = beta ^+ 2 * A by rewrite exchange_big /= /A mulrA divff ?mul1r // expf_neq0.
  rewrite /c. by ffld; split; apply/eqP.
Qed.
Lemma smcol J : \sum_I chi I J = (\sum_K Y K J) / (1 + ur * A).
Proof.
  have nA := nzA. under eq_bigr do rewrite (proj2 sm) mulrAC. rewrite sumrB -mulr_sumr.
  have -> : \sum_j \sum_K Y j K = beta ^+ 2 * A by rewrite /A mulrA divff ?mul1r // expf_neq0.
  rewrite /c. by ffld; split; apply/eqP.
Qed.
Lemma phys_urange : phys beta chi = A / (1 + ur * A).
Proof. rewrite /phys. under eq_bigr do rewrite smrow. by rewrite -mulr_suml mulrA. Qed.
Lemma phys_damp : 1 - ur * phys beta chi = (1 + ur * A)^-1.
Proof. rewrite phys_urange. have nA := nzA. by ffld; apply/eqP. Qed.
Lemma chi_phys_urangeP : phys beta chi != 0 ->
  chi_phys_urange_w ur (contract_legs_4 beta X) ((beta ^+ 2)^-1 * (\sum_i chi0c 0 i)) ((beta ^+ 2)^-1 * (\sum_I chi0 0 I)) = phys beta chi.
Proof.
  rewrite /chi_phys_urange_w -aux_tot_eq phys_urange mulf_eq0 negb_or => /andP[nA _]. have n1 := nzA.
  by ffld; split; apply/eqP.
Qed.
Definition vrg_ext (v : 'rV[F]_core) (I : 'I_full) : F := if core_idx I is Some i then v 0 i else 1.
Lemma vrg_three_leg last : (if last then @three_leg _ _ else @three_leg_left _ _) beta ur chi0 chi (vrg_ext (vrg_from_gchi_aux_w X chi0c last)).
Proof.
  have nc0 := nzc. have nA := nzA.
  case: last => I; rewrite ?smrow ?smcol phys_damp /vrg_ext /Y ?aux_sum ?aux_sum_col; case E: (core_idx I) => [i|] //=; rewrite ?mulr1 //;
    rewrite 2!mxE cut0 mxE -(core_idx_some E); have hi := h0 I; by rewrite div1r mulVKf.
Qed.
Lemma vrg_extP v : (forall i I, core_of i I -> vrg_ext v I = v 0 i) /\ (forall I, ~~ in_core I -> vrg_ext v I = 1).
Proof.
  split=> [i I /core_ofP ->|I]; first by rewrite /vrg_ext core_idx_ord.
  rewrite in_coreP /vrg_ext. by case: (core_idx I).
Qed.
(** C25 *)
Lemma fob2_vrg_core f : full_vertex chi0 f chi ->
  core_block f (fob2_from_vrg_and_chir_w beta ur X (vrg_from_gchi_aux_w X chi0c true) (vrg_from_gchi_aux_w X chi0c false) (phys beta chi) chi0c).
Proof.
  move/(fob2_from_gchir_vertex _ _ h0) => <- i j I J /core_ofP -> /core_ofP ->.
  rewrite /fob2_from_gchir_w mxsubE diag_rinvE mxE (eqtype.inj_eq core_ord_inj) /fob2_from_vrg_and_chir_w !mxE phys_damp (proj2 sm) -/Y.
  rewrite /Y !aux_sum !aux_sum_col !core_idx_ord. rewrite [aux_full _ _ _ _]mxE !core_idx_ord cut0 !mxE /c.
  have hi := h0 (core_ord ns i); have hj := h0 (core_ord ns j); have nA := nzA. 
  case: eqP => [<-|_]; rewrite ?mulr1n ?mulr0n; by ffld; repeat split; apply/eqP.
Qed.
End Urange.

Lemma sum_core_shell (f : 'I_full -> F) : \sum_I f I = \sum_i f (core_ord ns i) + \sum_(I | ~~ in_core I) f I.
Proof.
  rewrite (bigID (@in_core nc ns)) /=; congr (_ + _).
  rewrite (reindex_omap (@core_ord nc ns) (@core_idx nc ns)) /=.
  - by apply: eq_bigl => i; rewrite in_coreP core_idx_ord /= eqxx.
  - move=> I. rewrite in_coreP. case E: (core_idx I) => [i|] //= _. by rewrite (core_idx_some E).
Qed.

(** C51: the lambda route of get_lam_tilde / get_chir_tilde *)
Section Tilde.
Variables (beta u ur sign : F) (gam : 'M[F]_core) (chi0 : 'rV[F]_full) (G chi : 'M[F]_full) (chi0c : 'rV[F]_core) (cchi : 'M[F]_core) (chi0s : F).
Hypotheses (hb : beta != 0) (h0 : nz chi0) (hG : u_padded gam (ur / beta ^+ 2) G) (hB : bethe_salpeter chi0 G chi)
  (hc : core_part chi0 chi0c) (hcc : core_block chi cchi) (hs : sign * sign = 1) (hur : ur = sign * u)
  (hsh : chi0s = (beta ^+ 2)^-1 * (\sum_I chi0 0 I - \sum_i chi0c 0 i)) (hden : 1 - (u * chi0s) ^+ 2 != 0).
Let c := ur / beta ^+ 2.
Let c0 : chi0c = cut_v_rv chi0. Proof. exact/core_partP. Qed.
Let cc : cchi = cut_v_mx chi. Proof. exact/core_blockP. Qed.
Lemma shell_chi0 : \sum_(I | ~~ in_core I) chi0 0 I = beta ^+ 2 * chi0s.
Proof.
  rewrite hsh mulrA divff ?expf_neq0 // mul1r sum_core_shell c0. have -> : \sum_i cut_v_rv chi0 0 i = \sum_(i < core) chi0 0 (core_ord ns i) by apply: eq_bigr => i _; rewrite mxE.
  by rewrite addrC addKr.
Qed.
Lemma shell_col I J : ~~ in_core J -> chi I J = chi0 0 J * ((I == J)%:R - c * \sum_K chi I K).
Proof.
  move=> hJ. have := bseP_r h0 hB. move/matrixP => /(_ I J). rewrite mulmxDr mxaddE mul_diagRE [rinv _ _ _]mxE div1r mxmulE [in RHS]mxE.
  under eq_bigr do rewrite (proj2 hG) ?(negbTE hJ) ?andbF //. rewrite -mulr_suml -/c => <-. have hj := h0 J. by rewrite [c * _]mulrC addrK mulrC divfK.
Qed.
Lemma shell_row I J : ~~ in_core I -> chi I J = chi0 0 I * ((I == J)%:R - c * \sum_K chi K J).
Proof.
  move=> hI. rewrite hB. have -> : \sum_k G I k * chi k J = c * \sum_K chi K J.
    by rewrite mulr_sumr; apply: eq_bigr => K _; rewrite (proj2 hG) // (negbTE hI).
  rewrite mulrBr. by case: eqP => _; rewrite ?mulr1 ?mulr0.
Qed.
Lemma core_rowsum i : \sum_j cchi i j = (\sum_J chi (core_ord ns i) J) * (1 + ur * chi0s).
Proof.
  have -> : \sum_j cchi i j = \sum_j chi (core_ord ns i) (core_ord ns j) by rewrite cc; apply: eq_bigr => j _; rewrite mxE.
  have e := sum_core_shell (chi (core_ord ns i)). set R := \sum_J _ in e *.
  have e2 : \sum_(J | ~~ in_core J) chi (core_ord ns i) J = - (ur * chi0s) * R.
    transitivity (\sum_(J | ~~ in_core J) chi0 0 J * (- c * R)).
      apply: eq_bigr => J hJ. rewrite shell_col // -/R. case: eqP => [h|_]; last by rewrite sub0r mulNr.
      by move: hJ; rewrite -h in_coreP core_idx_ord.
    rewrite -mulr_suml shell_chi0 /c. by ffld; apply/eqP.
  have -> : \sum_j chi (core_ord ns i) (core_ord ns j) = R - \sum_(J | ~~ in_core J) chi (core_ord ns i) J by rewrite e addrK.
  rewrite e2. frng.
Qed.
Lemma phys_split : phys beta chi * (1 + ur * chi0s) = (beta ^+ 2)^-1 * (\sum_i \sum_J chi (core_ord ns i) J) + chi0s.
Proof.
  have e := sum_core_shell (fun I => \sum_J chi I J).
  have e2 : \sum_(I | ~~ in_core I) \sum_J chi I J = beta ^+ 2 * chi0s * (1 - ur * phys beta chi).
    rewrite -shell_chi0 mulr_suml. apply: eq_bigr => I hI. under eq_bigr do rewrite shell_row //.
    rewrite -mulr_sumr sumrB (bigD1 I) //= eqxx big1 ?addr0; last by move=> J; rewrite eq_sym => /negbTE ->.
    congr (_ * (_ - _)). by rewrite -mulr_sumr /phys [in RHS]exchange_big /c mulrA.
  set T := \sum_i \sum_J chi (core_ord ns i) J in e *. have hp : phys beta chi = (beta ^+ 2)^-1 * (T + beta ^+ 2 * chi0s * (1 - ur * phys beta chi)) by rewrite {1}/phys e e2.
  rewrite mulrDr mulr1 {1}hp. by ffld; apply/eqP.
Qed.
Let den1 : 1 + ur * chi0s != 0.
Proof.
  move: hden. have -> : 1 - (u * chi0s) ^+ 2 = (1 + ur * chi0s) * (1 - ur * chi0s).
    have -> : (u * chi0s) ^+ 2 = (sign * sign) * ((u * chi0s) * (u * chi0s)) by rewrite hs mul1r expr2. rewrite hur. frng.
  by rewrite mulf_eq0 negb_or => /andP[].
Qed.
Let lam := get_lam_tilde_w u ur (lam_from_chir_w sign cchi chi0c) chi0s.
Lemma lam_tildeP i I : core_of i I -> chi0 0 I * (1 + sign * lam 0 i) = \sum_J chi I J.
Proof.
  move/core_ofP => ->. rewrite /lam !mxE /get_lam_shell_w. under eq_bigr do rewrite mulrC. rewrite -mulr_sumr core_rowsum c0 mxE.
  set x := chi0 0 _. have hx : x != 0 by apply: h0. set R := \sum_J _.
  have -> : 1 + sign * ((- sign * (1 - 1 / x * (R * (1 + ur * chi0s))) - u * chi0s) / (1 + ur * chi0s)) =
            1 + (- (sign * sign) * (1 - 1 / x * (R * (1 + ur * chi0s))) - sign * u * chi0s) / (1 + ur * chi0s) by frng.
  rewrite hs -hur. by ffld; split; apply/eqP.
Qed.
Lemma chir_tildeP : get_chir_tilde_w beta sign lam (contract_legs_4 beta cchi) chi0s chi0c u = phys beta chi.
Proof.
  rewrite /get_chir_tilde_w /get_chir_shell_w /contract_legs_4. under eq_bigr do rewrite core_rowsum. rewrite -mulr_suml.
  have -> : \sum_i (lam 0 i + sign) * chi0c 0 i = sign * \sum_i \sum_J chi (core_ord ns i) J.
    rewrite mulr_sumr. apply: eq_bigr => i _. rewrite -(lam_tildeP (i := i)) // c0 [cut_v_rv _ _ _]mxE.
    have -> : forall x y, sign * (x * (1 + sign * y)) = x * (sign + (sign * sign) * y) by move=> x y; frng.
    rewrite hs. frng.
  have e := phys_split. set T := \sum_(i < core) _ in e *.
  have -> : phys beta chi = ((beta ^+ 2)^-1 * T + chi0s) / (1 + ur * chi0s) by rewrite -e mulfK.
  have hd := den1. have hd2 := hden.
  have e4 : (1 + ur * chi0s) * (1 - ur * chi0s) = 1 - (u * chi0s) ^+ 2.
    have -> : (u * chi0s) ^+ 2 = (sign * sign) * ((u * chi0s) * (u * chi0s)) by rewrite hs mul1r expr2. rewrite hur. frng.
  have e5 : forall q, - sign * u * q = - ur * q by move=> q; rewrite hur; frng.
  apply: (canLR (mulfK hd2)). rewrite -e4 e5.
  have -> : 1 - 2%:R * u * 1 / beta ^+ 2 * (sign * T) = 1 - 2%:R * ur / beta ^+ 2 * T by rewrite hur; frng.
  by ffld; split; apply/eqP.
Qed.
End Tilde.

(** C52 *)
Lemma aux_core_agree n beta ur (chi gam : 'M[F]_n) (chi0 : 'rV[F]_n) : nz chi0 -> bethe_salpeter chi0 gam chi ->
  gchi_aux_core_w beta ur chi = gchi_aux_core_from_gammar_w beta ur gam chi0.
Proof.
  move=> h /(bseP _ _ h) H. rewrite /gchi_aux_core_w /gchi_aux_core_from_gammar_w. have /np_invP -> := mx1C H. by [].
Qed.
Lemma aux_urange beta ur (gam : 'M[F]_core) (chi0 : 'rV[F]_full) chi0c X : nz chi0 -> core_part chi0 chi0c ->
  gchi_aux_core_from_gammar_w beta ur gam chi0c = Ok X ->
  exists Y, gchi_aux_core_from_gammar_urange_w beta ur gam chi0 = Ok Y /\ core_block Y X /\
    (forall I J, ~~ (in_core I && in_core J) -> Y I J = if I == J then chi0 0 I else 0).
Proof.
  move=> h /core_partP -> /np_invP hX. exists (aux_full X chi0).
  have cE : forall n x, add_scalar (n := n) x (- (ur / beta ^+ 2)) = x - const_mx (ur / beta ^+ 2).
    by move=> n x; apply/matrixP => i j; rewrite !mxE.
  rewrite cE in hX. split; [|split].
  - apply/np_invP. rewrite cE. exact: aux_full_inv.
  - move=> i j I J /core_ofP -> /core_ofP ->. by rewrite mxE !core_idx_ord.
  - move=> I J. rewrite !in_coreP mxE. case EI: (core_idx I) => [i|]; case EJ: (core_idx J) => [j|] //= _.
    + case: eqP => // e. by rewrite e EJ in EI.
    + case: eqP => // e. by rewrite e EJ in EI.
Qed.
(** C53 *)
Lemma vrg_lam_agree n beta ur sign (chi gam X : 'M[F]_n) (chi0 : 'rV[F]_n) : beta != 0 -> nz chi0 -> sign * sign = 1 ->
  bethe_salpeter chi0 gam chi -> gchi_aux_core_from_gammar_w beta ur gam chi0 = Ok X ->
  vrg_from_lam_w sign ur (lam_from_chir_w sign chi chi0) (contract_legs_4 beta chi) = vrg_from_gchi_aux_w X chi0 true.
Proof.
  move=> hb h hs hB /np_invP. have -> : add_scalar (np_diag (rinv chi0) + gam) (- (ur / beta ^+ 2)) = np_diag (rinv chi0) + gam - const_mx (ur / beta ^+ 2) by apply/matrixP => i j; rewrite !mxE.
  move=> hX. have hM : (np_diag (rinv chi0) + gam - const_mx (ur / beta ^+ 2) + const_mx (ur / beta ^+ 2)) *m chi = 1%:M by rewrite subrK; apply/bseP.
  have [n1 e] := sherman hX hM. set S := \sum_i \sum_j X i j in n1 e.
  have er : forall i, \sum_j chi i j = (\sum_j X i j) / (1 + ur / beta ^+ 2 * S).
    move=> i. under eq_bigr do rewrite e. rewrite sumrB -mulr_sumr.
    have -> : \sum_j \sum_k X k j = S by rewrite exchange_big. move: (ur / beta ^+ 2) n1 => cc n1'. by ffld; apply/eqP.
  apply/rowP => i. rewrite !mxE. under eq_bigr do rewrite mulrC. rewrite -mulr_sumr er /contract_legs_4. under [X in 1 - ur * (_ * X)]eq_bigr do rewrite er.
  rewrite -mulr_suml. have -> : \sum_(i0 < n) \sum_j X i0 j = S by [].
  have hi := h i. set t := \sum_(_ < _) _.
  have -> : 1 + sign * (- sign * (1 - 1 / chi0 0 i * (t / (1 + ur / beta ^+ 2 * S)))) = 1 - (sign * sign) * (1 - 1 / chi0 0 i * (t / (1 + ur / beta ^+ 2 * S))) by frng.
  rewrite hs. have e1 : 1 - ur * (1 / beta ^+ 2 * (S / (1 + ur / beta ^+ 2 * S))) = (1 + ur / beta ^+ 2 * S)^-1.
    rewrite mulrA div1r. by move: (ur / beta ^+ 2) n1 => cc n1'; ffld; apply/eqP.
  rewrite e1 invrK. by move: (ur / beta ^+ 2) n1 => cc n1'; ffld; split; apply/eqP.
Qed.
(** C26 *)
Lemma asympt_invariant n beta ur (gam : 'M[F]_n) c0c c0u c0s (chi0 : 'rV[F]_n) last v1 x1 v2 x2 :
  get_vrg_and_chir_urange_w beta ur gam c0c c0u chi0 last = Ok (v1, x1) ->
  get_vrg_and_chir_uasympt_w beta ur gam c0c c0u c0s chi0 last = Ok (v2, x2) -> 1 - ur * x2 != 0 ->
  x2 = x1 + c0s /\ (forall i, (1 - ur * x2) * v2 0 i = (1 - ur * x1) * v1 0 i) /\ (c0s = 0 -> v2 = v1).
Proof.
  rewrite /get_vrg_and_chir_urange_w /get_vrg_and_chir_uasympt_w. case: (gchi_aux_core_from_gammar_w _ _ _ _) => [X|] //= [<- <-] [<- <-].
  set x1' := chi_phys_urange_w _ _ _ _. rewrite /chi_phys_asympt_w => hne. split; first by frng.
  split.
  - move=> i. rewrite !mxE. move: hne. set x2' := x1' + _ - _ => hne. set q := 1 / _ * _. by ffld; apply/eqP.
  - move=> e. apply/rowP => i. rewrite !mxE. move: hne. rewrite e addr0 addrK => hne. set q := 1 / _ * _. by ffld; apply/eqP.
Qed.
End Emb.
End P.
