(** The lattice Bethe-Salpeter routines of Model/FourPoint.v, per momentum and transferred frequency. *)
From mathcomp Require Import all_ssreflect all_algebra.
From Coq Require Import String ZArith Lia.
From Verif Require Import Base.PyBase Base.PyFacts Base.FieldTac Base.Arr Spec.BseSpec Spec.SdeSpec Spec.BubbleSpec Spec.LatticeSdeSpec.
From Verif Require Import Model.LocalFourPoint Model.LocalSDE Model.FourPoint Proofs.LocalFourPointP Proofs.LocalSDEP Proofs.LatticeSdeP.
Set Implicit Arguments. Unset Strict Implicit. Unset Printing Implicit Defensive.
Import GRing.Theory.
Local Open Scope ring_scope.

Lemma mapM_mkseq A B (h : A -> res B) (g : nat -> A) (X : nat -> B) n : (forall i, (i < n)%nat -> h (g i) = Ok (X i)) -> mapM h (mkseq g n) = Ok (mkseq X n).
Proof.
  rewrite /mkseq. move=> H. have : forall i, i \in iota 0 n -> h (g i) = Ok (X i) by move=> i; rewrite mem_iota add0n => /andP[_]; exact: H.
  elim: (iota 0 n) {H} => //= a l IH H. rewrite H ?mem_head //= IH // => i Hi. apply: H. by rewrite seq.in_cons Hi orbT.
Qed.
Lemma mapM_mkseq_inv A B (d : B) (h : A -> res B) (g : nat -> A) n r : mapM h (mkseq g n) = Ok r -> exists X, r = mkseq X n /\ forall i, (i < n)%nat -> h (g i) = Ok (X i).
Proof.
  move=> E. exists (seq.nth d r).
  have : size r = n /\ forall i, (i < n)%nat -> h (g i) = Ok (seq.nth d r i).
  { have G : forall i, (i < n)%nat -> g i = seq.nth (g i) (mkseq g n) i by move=> i Hi; rewrite nth_mkseq.
    have : forall l r, mapM h l = Ok r -> size r = size l /\ forall i x, (i < size l)%nat -> h (seq.nth x l i) = Ok (seq.nth d r i).
    { elim=> [|a l IH] r0 /=; first by case=> <-. case Ea: (h a) => [b|] //=. case El: (mapM h l) => [rl|] //= [<-]. have [S V] := IH _ El. split; first by rewrite /= S.
      case=> [|i] x //= Hi. exact: V. }
    move=> L. have [S V] := L _ _ E. rewrite size_mkseq in S V. split=> // i Hi. rewrite (G i) //. exact: V. }
  case=> S V. split=> //. by rewrite -S mkseq_nth.
Qed.
Lemma enum_mkseq A (d : A) (g : nat -> A) n : enumerate (mkseq g n) = mkseq (fun i => (Z.of_nat i, g i)) n.
Proof.
  rewrite (enumerate_mkseq d) size_mkseq. apply: (@eq_from_nth _ (0%Z, d)); rewrite !size_mkseq // => i Hi. by rewrite !nth_mkseq.
Qed.
Lemma List_in_mkseq A (g : nat -> A) n a : List.In a (mkseq g n) -> exists i, (i < n)%nat /\ a = g i.
Proof.
  rewrite /mkseq => /List.in_map_iff [i [<- Hi]]. exists i. split=> //. have : i \in iota 0 n. { elim: (iota 0 n) Hi => //= b l IH [->|/IH H]; first by rewrite mem_head. by rewrite seq.in_cons H orbT. }
  by rewrite mem_iota.
Qed.
Section P.
Variable F : fieldType.
Add Field Ff : (@Kft F).
Ltac frng := to_K F; ring.
Ltac ffld := to_K F; field.

(** * Loops over q and w *)
Section Loop.
Variables (n nq nw : nat) (gam : nat -> 'M[F]_n) (x : nat -> nat -> 'rV[F]_n) (f : 'rV[F]_n -> 'M[F]_n -> res 'M[F]_n).
Lemma loop_rows i (X : nat -> 'M[F]_n) : (forall j, (j < nw)%nat -> f (x i j) (gam j) = Ok (X j)) -> loop_w (mkseq gam nw) f (mkseq (x i) nw) = Ok (mkseq X nw).
Proof.
  move=> H. rewrite /loop_w (@enum_mkseq _ 0). rewrite (@mapM_mkseq _ _ _ _ X) => [|j Hj] /=; last by rewrite (@py_get_nat _ _ 0) ?size_mkseq // nth_mkseq //= H.
  have -> : length (mkseq gam nw) = nw by exact: size_mkseq. have -> : length (mkseq (x i) nw) = nw by exact: size_mkseq. by rewrite subnn /= List.app_nil_r.
Qed.
Lemma loop_rows_inv i r : loop_w (mkseq gam nw) f (mkseq (x i) nw) = Ok r -> exists X, r = mkseq X nw /\ forall j, (j < nw)%nat -> f (x i j) (gam j) = Ok (X j).
Proof.
  rewrite /loop_w (@enum_mkseq _ 0). case E: (mapM _ _) => [r'|] //= [<-]. have [X [-> H]] := @mapM_mkseq_inv _ _ 0 _ _ _ _ E. exists X. split.
    have -> : length (mkseq gam nw) = nw by exact: size_mkseq. have -> : length (mkseq (x i) nw) = nw by exact: size_mkseq. by rewrite subnn /= List.app_nil_r.
  move=> j Hj. have := H j Hj. by rewrite /= (@py_get_nat _ _ 0) ?size_mkseq // nth_mkseq.
Qed.
Lemma loop_all (X : nat -> nat -> 'M[F]_n) : (forall i j, (i < nq)%nat -> (j < nw)%nat -> f (x i j) (gam j) = Ok (X i j)) ->
  mapM (loop_w (mkseq gam nw) f) (arr2 nq nw x) = Ok (arr2 nq nw X).
Proof. move=> H. apply: mapM_mkseq => i Hi. apply: loop_rows => j Hj. exact: H. Qed.
Lemma loop_all_inv r : mapM (loop_w (mkseq gam nw) f) (arr2 nq nw x) = Ok r ->
  exists X, r = arr2 nq nw X /\ forall i j, (i < nq)%nat -> (j < nw)%nat -> f (x i j) (gam j) = Ok (X i j).
Proof.
  move=> E. have [Y [-> H]] := @mapM_mkseq_inv _ _ [::] _ _ _ _ E. exists (fun i => seq.nth 0 (Y i)). split.
    apply: (@eq_from_nth _ [::]); rewrite !size_mkseq // => i Hi. rewrite !nth_mkseq //. have [X [-> _]] := loop_rows_inv (H i Hi). apply: (@eq_from_nth _ 0); rewrite !size_mkseq // => j Hj. by rewrite !nth_mkseq // nth_mkseq.
  move=> i j Hi Hj. have [X [-> HX]] := loop_rows_inv (H i Hi). by rewrite nth_mkseq // HX.
Qed.
End Loop.

(** * Susceptibility from the local vertex *)
Lemma gchir_q n (g : lnp F 'M[F]_n) nq nw gam (x : nat -> nat -> 'rV[F]_n) (chi : nat -> nat -> 'M[F]_n) : l_mat g = mkseq gam nw -> (forall i j, (i < nq)%nat -> (j < nw)%nat -> forall v, x i j 0 v != 0) ->
  (get_gchir_from_gamma_loc_q g (arr2 nq nw x) = Ok (arr2 nq nw chi) <-> forall i j, (i < nq)%nat -> (j < nw)%nat -> bethe_salpeter (x i j) (gam j) (chi i j)).
Proof.
  move=> Eg Hx. rewrite /get_gchir_from_gamma_loc_q Eg. split.
  - move=> /loop_all_inv [X [E H]] i j Hi Hj. have /gchir_from_gamob2_bse := H i j Hi Hj. move/(_ (Hx i j Hi Hj)). have -> // : chi i j = X i j.
    have E1 := congr1 (fun l => seq.nth 0 (seq.nth [::] l i) j) E. by rewrite /arr2 !nth_mkseq // !nth_mkseq in E1.
  - move=> H. apply: loop_all => i j Hi Hj. apply/gchir_from_gamob2_bse; [exact: Hx|exact: H].
Qed.
(** * The auxiliary matrix is invertible exactly when 1 - u_r chi is not zero *)
Lemma sherman_exists n (M chi : 'M[F]_n) c : M *m chi = 1%:M -> 1 - c * (\sum_i \sum_j chi i j) != 0 -> exists Y, (M - const_mx c) *m Y = 1%:M.
Proof.
  move=> HM Hs. set s := \sum_i _ in Hs. exists (chi + (c / (1 - c * s)) *: (chi *m ones F n *m ((ones F n)^T *m chi))).
  rewrite mulmxDr mulmxBl HM const_ones mulmxBl -!scalemxAr !mulmxA HM mul1mx -!scalemxAl -!mulmxA.
  have -> : (ones F n)^T *m (chi *m (ones F n *m ((ones F n)^T *m chi))) = s *: ((ones F n)^T *m chi).
    rewrite (mulmxA _ chi) (mulmxA _ (ones F n)) sc11. congr (_ *: _). exact: totsumE.
  rewrite -scalemxAr. set T := ones F n *m _. rewrite -addrA -[RHS]addr0. congr (_ + _).
  rewrite !scalerA -!scalerBl -!scaleNr -scalerDl. apply/eqP. rewrite scaler_eq0. apply/orP; left. apply/eqP.
  move: Hs. generalize s => t Ht. by ffld; apply/eqP.
Qed.
Lemma aux_core_exists nc ns (beta ur : F) (gam : 'M[F]_(nc.*2)) (chi0 : 'rV[F]_((nc + ns).*2)) G chi chi0c : beta != 0 -> (forall i, chi0 0 i != 0) ->
  u_padded gam (ur / beta ^+ 2) G -> bethe_salpeter chi0 G chi -> core_part chi0 chi0c ->
  (1 - ur * phys beta chi != 0 <-> exists X, gchi_aux_core_from_gammar_w beta ur gam chi0c = Ok X).
Proof.
  move=> hb h0 hG hB hc. split; last first.
  - move=> [X hX]. rewrite (phys_damp hb h0 hG hB hc hX) invr_eq0. exact: (nzA h0 hG hB hc hX).
  - move=> hp. set c := ur / beta ^+ 2. have hM : (np_diag (rinv chi0) + append_v_vp_shell_mx ns gam c) *m chi = 1%:M by move/u_paddedP: (hG) => <-; exact/bseP.
    have [|Y HY] := @sherman_exists _ _ _ c hM. { move: hp. by rewrite /phys /c mulrA. }
    exists (cut_v_mx Y). apply/np_invP. have c0 : chi0c = cut_v_rv chi0 by exact/core_partP.
    have -> : add_scalar (np_diag (rinv chi0c) + gam) (- (ur / beta ^+ 2)) = np_diag (cut_v_rv (rinv chi0)) + (gam - const_mx c).
      rewrite /add_scalar c0 rinv_cut -addrA. congr (_ + (_ + _)). apply/matrixP => i j. by rewrite !mxE.
    rewrite padE addrA addrK in HY. rewrite cutE !mulmxA mulmxDl.
    have -> : np_diag (cut_v_rv (rinv chi0)) *m (emb F nc ns)^T = (emb F nc ns)^T *m np_diag (rinv chi0).
      have := congr1 trmx (@diag_emb F nc ns (rinv chi0)). rewrite !trmx_mul /np_diag !tr_diag_mx. by move=> ->.
    have -> : (gam - const_mx c) *m (emb F nc ns)^T = (emb F nc ns)^T *m (emb F nc ns *m (gam - const_mx c) *m (emb F nc ns)^T) by rewrite !mulmxA embTemb mul1mx.
    by rewrite -mulmxDr -(mulmxA _ _ Y) HY mulmx1 embTemb.
Qed.
(** * Ladder susceptibility and three-leg vertex *)
Lemma map22_arr2 nq nw (f : F -> F -> F) a b : np_map22 f (arr2 nq nw a) (arr2 nq nw b) = Ok (arr2 nq nw (fun i j => f (a i j) (b i j))).
Proof.
  rewrite /np_map22 np2_mkseq /=. have -> : mkseq (fun i => np_map2 f (mkseq (a i) nw) (mkseq (b i) nw)) nq = mkseq (fun i => Ok (mkseq (fun j => f (a i j) (b i j)) nw)) nq by apply: eq_mkseq => i; rewrite np2_mkseq.
  exact: sequence_mkseq.
Qed.
Lemma map_arr2 A B (f : A -> B) nq nw (a : nat -> nat -> A) : List.map (List.map f) (arr2 nq nw a) = arr2 nq nw (fun i j => f (a i j)).
Proof.
  rewrite /arr2 (map_mkseq _ [::]) size_mkseq. apply: (@eq_from_nth _ [::]); rewrite !size_mkseq // => i Hi. rewrite !nth_mkseq // -[List.map]/(@seq.map) /mkseq -map_comp. by [].
Qed.
Section Ladder.
Variables (nc ns nq nw : nat) (g : lnp F 'M[F]_(nc.*2)) (ur : F) (gam : nat -> 'M[F]_(nc.*2)) (x : nat -> nat -> 'rV[F]_((nc + ns).*2)) (xc : nat -> nat -> 'rV[F]_(nc.*2)).
Variables (G : nat -> 'M[F]_((nc + ns).*2)) (chi : nat -> nat -> 'M[F]_((nc + ns).*2)) (cu cc : nat -> nat -> F).
Hypotheses (Eg : l_mat g = mkseq gam nw) (Hur : u_r g = Ok ur) (Hb : l_beta g != 0)
  (Hx : forall i j, (i < nq)%nat -> (j < nw)%nat -> forall v, x i j 0 v != 0)
  (Hc : forall i j, (i < nq)%nat -> (j < nw)%nat -> core_part (x i j) (xc i j))
  (HG : forall j, (j < nw)%nat -> u_padded (gam j) (ur / l_beta g ^+ 2) (G j))
  (HB : forall i j, (i < nq)%nat -> (j < nw)%nat -> bethe_salpeter (x i j) (G j) (chi i j))
  (Hp : forall i j, (i < nq)%nat -> (j < nw)%nat -> phys (l_beta g) (chi i j) != 0)
  (Hcu : forall i j, (i < nq)%nat -> (j < nw)%nat -> cu i j = (l_beta g ^+ 2)^-1 * \sum_v x i j 0 v)
  (Hcc : forall i j, (i < nq)%nat -> (j < nw)%nat -> cc i j = (l_beta g ^+ 2)^-1 * \sum_v xc i j 0 v).
Lemma construct_inv r : construct_vrg_and_chi_q_urange g (arr2 nq nw xc) (arr2 nq nw cu) (arr2 nq nw cc) (l_beta g) (l_u g) = Ok r ->
  exists X, (forall i j, (i < nq)%nat -> (j < nw)%nat -> gchi_aux_core_from_gammar_w (l_beta g) ur (gam j) (xc i j) = Ok (X i j)) /\
   r = (arr2 nq nw (fun i j => vrg_from_gchi_aux_w (X i j) (xc i j) true), arr2 nq nw (fun i j => phys (l_beta g) (chi i j))).
Proof.
  rewrite /construct_vrg_and_chi_q_urange /get_gchir_aux_from_gammar_q Eg Hur. cbn [bind].
  case E: (mapM _ _) => [aux|] //. have [X [-> HX]] := loop_all_inv E. rewrite [bind _ _]/= /chi_phys_from_chi_aux_q -/(u_r g) Hur. cbn [bind].
  rewrite /sum_vvp map_arr2 map22_arr2. cbn [bind]. rewrite map22_arr2. cbn [bind]. rewrite /map22 map_arr2. rewrite /vrg_from_gchi_aux_q /arr2 (@enum_mkseq _ [::]).
  rewrite (@mapM_mkseq _ _ _ _ (fun i => mkseq (fun j => vrg_from_gchi_aux_w (X i j) (xc i j) true) nw)); last first.
    move=> i Hi /=. rewrite (@enum_mkseq _ 0). apply: mapM_mkseq => j Hj /=. rewrite (@py_get2_arr2 _ nq nw xc) //=. f_equal. apply/rowP => v. by rewrite !mxE.
  cbn [bind] => -[<-]. exists X. split=> //. congr pair. apply: (@eq_from_nth _ [::]); rewrite !size_mkseq // => i Hi. rewrite !nth_mkseq //. apply: (@eq_from_nth _ 0); rewrite !size_mkseq // => j Hj. rewrite !nth_mkseq //.
  rewrite -(@chi_phys_urangeP F nc ns _ ur (gam j) (x i j) (G j) (chi i j) (xc i j) (X i j)) //; [|exact: Hx|exact: HG|exact: HB|exact: Hc|exact: HX|exact: Hp].
  by rewrite /chi_phys_urange_w /contract_legs_4 Hcu // Hcc.
Qed.
(** the routine succeeds exactly when 1 - u_r chi does not vanish, and its results are the susceptibility and the three-leg vertex *)
Lemma construct_ok : (forall i j, (i < nq)%nat -> (j < nw)%nat -> 1 - ur * phys (l_beta g) (chi i j) != 0) ->
  exists v, construct_vrg_and_chi_q_urange g (arr2 nq nw xc) (arr2 nq nw cu) (arr2 nq nw cc) (l_beta g) (l_u g) = Ok (arr2 nq nw v, arr2 nq nw (fun i j => phys (l_beta g) (chi i j))) /\
   forall i j, (i < nq)%nat -> (j < nw)%nat -> three_leg (l_beta g) ur (x i j) (chi i j) (vrg_ext (v i j)).
Proof.
  move=> Hn.
  have EX : forall i j, (i < nq)%nat -> (j < nw)%nat -> exists X, gchi_aux_core_from_gammar_w (l_beta g) ur (gam j) (xc i j) = Ok X.
    move=> i j Hi Hj. apply/(aux_core_exists Hb (Hx Hi Hj) (HG Hj) (HB Hi Hj) (Hc Hi Hj)). exact: Hn.
  pose X i j := if gchi_aux_core_from_gammar_w (l_beta g) ur (gam j) (xc i j) is Ok X then X else 0.
  have HX : forall i j, (i < nq)%nat -> (j < nw)%nat -> gchi_aux_core_from_gammar_w (l_beta g) ur (gam j) (xc i j) = Ok (X i j).
    move=> i j Hi Hj. rewrite /X. by have [Y ->] := EX i j Hi Hj.
  have [r Er] : exists r, construct_vrg_and_chi_q_urange g (arr2 nq nw xc) (arr2 nq nw cu) (arr2 nq nw cc) (l_beta g) (l_u g) = Ok r.
    rewrite /construct_vrg_and_chi_q_urange /get_gchir_aux_from_gammar_q Eg Hur. cbn [bind]. rewrite (@loop_all _ _ _ _ _ _ X) //. cbn [bind].
    rewrite /chi_phys_from_chi_aux_q -/(u_r g) Hur. cbn [bind]. rewrite /sum_vvp map_arr2 map22_arr2. cbn [bind]. rewrite map22_arr2. cbn [bind].
    rewrite /vrg_from_gchi_aux_q /arr2 (@enum_mkseq _ [::]).
    rewrite (@mapM_mkseq _ _ _ _ (fun i => mkseq (fun j => vrg_from_gchi_aux_w (X i j) (xc i j) true) nw)); last first.
      move=> i Hi /=. rewrite (@enum_mkseq _ 0). apply: mapM_mkseq => j Hj /=. rewrite (@py_get2_arr2 _ nq nw xc) //=. f_equal. apply/rowP => v. by rewrite !mxE.
    cbn [bind]. by eexists.
  have [X' [HX' Er']] := construct_inv Er. exists (fun i j => vrg_from_gchi_aux_w (X' i j) (xc i j) true). split; first by rewrite Er Er'.
  move=> i j Hi Hj. exact: (vrg_three_leg Hb (Hx Hi Hj) (HG Hj) (HB Hi Hj) (Hc Hi Hj) (HX' _ _ Hi Hj) true).
Qed.
Lemma construct_singular i j : (i < nq)%nat -> (j < nw)%nat -> 1 - ur * phys (l_beta g) (chi i j) = 0 ->
  construct_vrg_and_chi_q_urange g (arr2 nq nw xc) (arr2 nq nw cu) (arr2 nq nw cc) (l_beta g) (l_u g) = Raise LinAlgError.
Proof.
  move=> Hi Hj Hz.
  rewrite /construct_vrg_and_chi_q_urange /get_gchir_aux_from_gammar_q Eg Hur. cbn [bind].
  case E: (mapM _ _) => [aux|e].
    have [X [_ HX]] := loop_all_inv E. have := proj2 (aux_core_exists Hb (Hx Hi Hj) (HG Hj) (HB Hi Hj) (Hc Hi Hj)) (ex_intro _ _ (HX _ _ Hi Hj)). by rewrite Hz eqxx.
  suff -> : e = LinAlgError by []. move: E. have N : forall n (A : 'M[F]_n) e', np_inv A = Raise e' -> e' = LinAlgError by move=> n A e'; rewrite /np_inv; case: ifP => // _ [].
  have MR : forall A B (h : A -> res B) l, (forall a e', List.In a l -> h a = Raise e' -> e' = LinAlgError) -> forall e', mapM h l = Raise e' -> e' = LinAlgError.
    move=> A B h. elim=> [|a l IH] //= H e'. case Ea: (h a) => [b|e1] /=; last by move=> [<-]; apply: (H a e1 _ Ea); left.
    case El: (mapM h l) => [|e1] //= [<-]. apply: IH El => a' e2 Ha. apply: H. by right.
  move: e. apply: (MR) => row e1 Hin. have [k [Hk ->]] := List_in_mkseq Hin. rewrite /loop_w (@enum_mkseq _ 0). case El: (mapM _ _) => [|e2] //= [<-]. move: e2 El. apply: MR => a e3 Hin'. have [m [Hm ->]] := List_in_mkseq Hin'. rewrite /=.
  rewrite (@py_get_nat _ _ 0) ?size_mkseq // nth_mkseq //=. exact: N.
Qed.
End Ladder.
(** * The ladder vertex *)
Lemma aux_sym n (beta ur : F) (gam X : 'M[F]_n) x0 : gam^T = gam -> gchi_aux_core_from_gammar_w beta ur gam x0 = Ok X -> X^T = X.
Proof.
  move=> Hs /np_invP. set A := add_scalar _ _ => HX. have HA : A^T = A by rewrite /A /add_scalar !linearD /= Hs trmx_const /np_diag tr_diag_mx.
  have HX' := congr1 trmx HX. rewrite trmx_mul HA trmx1 in HX'. have H2 : X *m A = 1%:M by apply: mulmx1C.
  by rewrite -[LHS]mulmx1 -HX mulmxA HX' mul1mx.
Qed.
Lemma vrg_sym n (X : 'M[F]_n) x0 : X^T = X -> vrg_from_gchi_aux_w X x0 false = vrg_from_gchi_aux_w X x0 true.
Proof. move=> H. apply/rowP => i. rewrite !mxE. congr (_ * _). apply: eq_bigr => j _. by rewrite -{1}H mxE. Qed.
Lemma ladder_fob2 n (beta ur : F) (X : 'M[F]_n) v x x0 :
  fob2_from_vrg_and_chir_w beta ur X v v x x0 = (beta ^+ 2)^-1 *: (ladder_f1 X x0 beta + (1 - ur * x) *: ladder_f2 v ur).
Proof. rewrite /fob2_from_vrg_and_chir_w div1r. congr (_ *: (_ + _)). apply/matrixP => i j. rewrite !mxE. frng. Qed.
Section Vertex.
Variables (nc ns : nat) (beta ur : F) (gam : 'M[F]_(nc.*2)) (chi0 : 'rV[F]_((nc + ns).*2)) (G chi f : 'M[F]_((nc + ns).*2)) (chi0c : 'rV[F]_(nc.*2)) (X : 'M[F]_(nc.*2)).
Hypotheses (hb : beta != 0) (h0 : forall i, chi0 0 i != 0) (hG : u_padded gam (ur / beta ^+ 2) G) (hB : bethe_salpeter chi0 G chi) (hc : core_part chi0 chi0c)
  (hX : gchi_aux_core_from_gammar_w beta ur gam chi0c = Ok X) (hF : full_vertex chi0 f chi).
Lemma ladder_vertex_core : gam^T = gam ->
  core_block f ((beta ^+ 2)^-1 *: (ladder_f1 X chi0c beta + (1 - ur * phys beta chi) *: ladder_f2 (vrg_row chi0c X) ur)).
Proof.
  move=> Hs. have -> : vrg_row chi0c X = vrg_from_gchi_aux_w X chi0c true by apply/rowP => i; rewrite !mxE.
  rewrite -ladder_fob2 -{2}(vrg_sym chi0c (aux_sym Hs hX)). exact: (fob2_vrg_core hb h0 hG hB hc hX hF).
Qed.
End Vertex.
Lemma f_magn_eq n (f1 f2 : 'M[F]_n) u chi : f_magn_qw f1 f2 u chi = f1 + (1 - u * - 1 * chi) *: f2.
Proof. rewrite /f_magn_qw. congr (_ + _ *: _). frng. Qed.
Lemma f_dens_eq n (f1 f2 : 'M[F]_n) u chi : f_dens_qw f1 f2 u chi = f1 + (1 - u * 1 * chi) *: f2.
Proof. rewrite /f_dens_qw. congr (_ + _ *: _). frng. Qed.
(** * The double-counting kernel *)
Lemma fob2_exists nc ns (beta ur : F) (gam : 'M[F]_(nc.*2)) (chi0 : 'rV[F]_((nc + ns).*2)) G chi : (forall i, chi0 0 i != 0) -> u_padded gam (ur / beta ^+ 2) G ->
  bethe_salpeter chi0 G chi -> exists f, fob2_from_gamob2_urange_w beta ur gam chi0 = Ok f.
Proof.
  move=> h0 hG hB. rewrite /fob2_from_gamob2_urange_w. have -> : append_v_vp_shell_mx ns gam (ur / beta ^+ 2) = G by symmetry; exact/u_paddedP.
  set A := 1%:M + _. have HA : A = np_diag chi0 *m (np_diag (rinv chi0) + G).
    rewrite mulmxDr diag_rinv //. congr (_ + _). apply/matrixP => i j. by rewrite mul_diagE mxE mulrC.
  have HI : A *m (chi *m np_diag (rinv chi0)) = 1%:M.
    rewrite HA mulmxA -(mulmxA (np_diag chi0)). move/bseP: hB => -> //. by rewrite mulmx1 diag_rinv.
  have /np_invP -> := HI. by eexists.
Qed.
Definition dc_row n (ur : F) (x : 'rV[F]_n) (f : 'M[F]_n) : 'rV[F]_n := \row_a (ur * \sum_b x 0 b * f a b).
Lemma rv2l_np2 n (x y : 'rV[F]_n) : np_map2 (fun a b => a * b) (rv2l x) (rv2l y) = Ok (rv2l (\row_i (x 0 i * y 0 i))).
Proof.
  rewrite np_map2_eq ?zlen_rv2l //. f_equal. rewrite /rv2l. elim: (enum _) => //= a l <-. by rewrite mxE.
Qed.
Lemma lsum_rv2l n (x : 'rV[F]_n) : lsum (rv2l x) = \sum_i x 0 i.
Proof. rewrite /lsum /rv2l big_map big_enum. by []. Qed.
Lemma dc_rows n (ur : F) (y : 'rV[F]_n) (M : 'M[F]_n) :
  mapM (fun frow => let! t := np_map2 (fun x y => x * y) (rv2l y) frow in Ok (ur * lsum t)) (mx2l M) = Ok (rv2l (dc_row ur y M)).
Proof.
  have H a : (let! t := np_map2 (fun x y => x * y) (rv2l y) [seq M a b | b <- enum 'I_n] in Ok (ur * lsum t)) = Ok (dc_row ur y M 0 a).
    have -> : [seq M a b | b <- enum 'I_n] = rv2l (row a M) by rewrite /rv2l; apply: eq_map => b; rewrite mxE.
    rewrite rv2l_np2. cbn [bind]. rewrite lsum_rv2l /dc_row !mxE. do 2 f_equal. apply: eq_bigr => b _. by rewrite !mxE.
  rewrite /mx2l [rv2l (dc_row _ _ _)]/rv2l. elim: {2 3}(enum 'I_n) => [//|a l IH]. 
  rewrite !seq.map_cons. cbn [mapM]. rewrite H. cbn [bind]. by rewrite IH.
Qed.
Lemma kernel_dc_ok n nq nw (fo : lnp F (list (list F))) ur (f : nat -> 'M[F]_n) (x : nat -> nat -> 'rV[F]_n) : u_r fo = Ok ur -> l_mat fo = mkseq (fun j => mx2l (f j)) nw ->
  get_kernel_dc fo (arr2 nq nw (fun i j => rv2l (x i j))) = Ok (arr2 nq nw (fun i j => rv2l (dc_row ur (x i j) (f j)))).
Proof.
  move=> Hu Hm. apply: mapM_mkseq => i Hi. rewrite (@enum_mkseq _ [::]). apply: mapM_mkseq => j Hj /=. rewrite Hu. cbn [bind].
  rewrite Hm (@py_get_nat _ _ [::]) ?size_mkseq // nth_mkseq //. cbn [bind].
  rewrite dc_rows.
  cbn [bind]. by rewrite !zlen_rv2l Z.eqb_refl.
Qed.
End P.
