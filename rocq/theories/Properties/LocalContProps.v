(** C102: continuation of local Green's functions. *)
From Coq Require Import ZArith Reals List String Sorted Lra Lia.
From Verif Require Import Base.PyBase Base.PyFacts Model.MaxEnt Model.LocalCont Spec.LocalContSpec Proofs.LocalContP.
Import ListNotations.
Local Open Scope string_scope.
Local Open Scope list_scope.
Local Open Scope R_scope.

(** If the Green's function has enough frequencies, every blur width gets the problem that belongs to it; either all are solved, and for every width its
    file has the Green's function of its solution, or the first failing width raises its error and the files of the widths before it are there. *)
Theorem C102_widths : forall solve gf_kkt curve_fit show c mat name s,
  real_mesh (m_mesh c) -> (0 <= m_n_fit c <= zlen mat / 2)%Z -> distinct_texts show (m_bw_range c) -> (name = "dmft" \/ name = "dga") ->
  let s' := fst (max_ent_loc_bw_range solve gf_kkt curve_fit show c mat name s) in
  let done bw := exists q A x, asked c mat bw q /\ solve q = Ok (A, x) /\ s' (cont_file show name bw) = Some (CArr (gf_kkt (m_mesh c) A)) in
  match snd (max_ent_loc_bw_range solve gf_kkt curve_fit show c mat name s) with
  | Ok _ => forall bw, In bw (m_bw_range c) -> done bw
  | Raise e => exists l1 bw l2 q, m_bw_range c = l1 ++ bw :: l2 /\ asked c mat bw q /\ solve q = Raise e /\ forall b, In b l1 -> done b
  end.
Proof.
  intros solve gf_kkt curve_fit show c mat name s M N D Hn s' done.
  destruct (range_loop solve gf_kkt curve_fit show c mat name s) as (s1 & E1 & E2 & E3). pose proof (loop_spec solve gf_kkt show c mat name (m_bw_range c) s D) as L.
  assert (K : forall bw, known solve gf_kkt show c mat name (fst (bw_loop solve gf_kkt show c mat name (m_bw_range c) s)) bw -> done bw).
  { intros bw (m & x & Em & Es). unfold max_ent_loc in Em. destruct (problem_asked c mat bw M N) as (q & Eq & Aq). rewrite Eq in Em. cbn [bind] in Em.
    destruct (solve q) as [[A x']|e] eqn:Sq; [|discriminate]. cbn [bind fst snd] in Em. injection Em as <- <-. exists q, A, x'. split; [assumption|]. split; [assumption|].
    unfold s'. rewrite E1, E2; [assumption|]. intros H. now apply (opt_not_cont show name name bw Hn Hn). }
  destruct (snd (max_ent_loc_bw_range solve gf_kkt curve_fit show c mat name s)) as [b|e].
  - destruct E3 as (chis & Ec & _). rewrite Ec in L. destruct L as [L _]. intros bw I. apply K, L, I.
  - destruct E3 as [Ec _]. rewrite Ec in L. destruct L as (l1 & bw & l2 & Eb & Er & L). destruct (problem_asked c mat bw M N) as (q & Eq & Aq). exists l1, bw, l2, q. split; [assumption|]. split; [assumption|].
    split; [|intros b I; apply K, L, I]. unfold max_ent_loc in Er. rewrite Eq in Er. cbn [bind] in Er. destruct (solve q) as [[A x]|e']; [discriminate|]. cbn [bind] in Er. congruence.
Qed.
Print Assumptions C102_widths.

(** Nothing else in the folder changes, and the mesh is stored as soon as one width is solved. *)
Theorem C102_other_files : forall solve gf_kkt curve_fit show c mat name s k,
  k <> "w.npy" -> k <> opt_file name -> (forall bw, In bw (m_bw_range c) -> k <> cont_file show name bw) ->
  fst (max_ent_loc_bw_range solve gf_kkt curve_fit show c mat name s) k = s k.
Proof.
  intros solve gf_kkt curve_fit show c mat name s k Hw Ho Hk. destruct (range_loop solve gf_kkt curve_fit show c mat name s) as (s1 & E1 & E2 & _). rewrite E1, E2 by assumption. now apply loop_other.
Qed.
Print Assumptions C102_other_files.
Theorem C102_mesh_file : forall solve gf_kkt curve_fit show c mat name s,
  match snd (max_ent_loc_bw_range solve gf_kkt curve_fit show c mat name s) with Ok _ => m_bw_range c <> [] | Raise _ => False end ->
  fst (max_ent_loc_bw_range solve gf_kkt curve_fit show c mat name s) "w.npy" = Some (RArr (m_mesh c)).
Proof.
  intros solve gf_kkt curve_fit show c mat name s H. destruct (range_loop solve gf_kkt curve_fit show c mat name s) as (s1 & E1 & E2 & E3).
  destruct (snd (max_ent_loc_bw_range solve gf_kkt curve_fit show c mat name s)); [|contradiction]. destruct E3 as (chis & Ec & _). rewrite E1, E2 by discriminate. clear E1 E2.
  destruct (m_bw_range c) as [|bw bws]; [now destruct H|]. cbn [bw_loop] in *. destruct (max_ent_loc solve gf_kkt c mat bw) as [[m x]|e]; [|discriminate].
  pose proof (loop_mesh solve gf_kkt show c mat name bws (fput (fput s (name ++ "_cont_bw" ++ show bw ++ ".npy") (CArr m)) "w.npy" (RArr (m_mesh c))) (fput_same _ _ _)) as L.
  destruct (bw_loop solve gf_kkt show c mat name bws _). exact L.
Qed.
Print Assumptions C102_mesh_file.

(** The optimal width: where the fitted curve of log chi2 over log width, a + b / (1 + exp(-d (x - c))), has the value a + b / (1 + exp(fit position)); it is
    returned and stored.  If the fit fails the result is 0 and no width is stored. *)
Theorem C102_optimum : forall solve gf_kkt curve_fit show c mat name s b,
  (name = "dmft" \/ name = "dga") -> snd (max_ent_loc_bw_range solve gf_kkt curve_fit show c mat name s) = Ok b ->
  exists chis, List.length chis = List.length (m_bw_range c) /\
    (forall i bw x, nth_error (m_bw_range c) i = Some bw -> nth_error chis i = Some x -> exists m, max_ent_loc solve gf_kkt c mat bw = Ok (m, x)) /\
    match curve_fit (map ln (m_bw_range c)) (map ln chis) with
    | Ok (a0, b0, c0, d0) => (d0 <> 0 -> 0 < b /\ fitfun (ln b) a0 b0 c0 d0 = a0 + b0 / (1 + exp (m_fit_pos c))) /\
        fst (max_ent_loc_bw_range solve gf_kkt curve_fit show c mat name s) (opt_file name) = Some (CText b)
    | Raise _ => b = 0 /\ fst (max_ent_loc_bw_range solve gf_kkt curve_fit show c mat name s) (opt_file name) = s (opt_file name)
    end.
Proof.
  intros solve gf_kkt curve_fit show c mat name s b Hn Hb. destruct (range_loop solve gf_kkt curve_fit show c mat name s) as (s1 & E1 & E2 & E3). rewrite Hb in E3. destruct E3 as (chis & Ec & E3). exists chis.
  assert (G : forall bws s0 xs, snd (bw_loop solve gf_kkt show c mat name bws s0) = Ok xs -> List.length xs = List.length bws /\
    forall i bw x, nth_error bws i = Some bw -> nth_error xs i = Some x -> exists m, max_ent_loc solve gf_kkt c mat bw = Ok (m, x)).
  { clear. induction bws as [|bw bws IH]; intros s0 xs H; cbn [bw_loop] in H.
    - injection H as <-. split; [reflexivity|]. intros [|i] ? ? HH; discriminate.
    - destruct (max_ent_loc solve gf_kkt c mat bw) as [[m x]|e] eqn:E; [|discriminate]. set (s2 := fput (fput s0 _ _) _ _) in H. specialize (IH s2). destruct (bw_loop solve gf_kkt show c mat name bws s2) as [s3 [ys|e]]; cbn in H; [|discriminate].
      injection H as <-. destruct (IH ys eq_refl) as [L G]. split; [cbn; now rewrite L|]. intros [|i] bw' x' H1 H2; cbn in H1, H2; [injection H1 as <-; injection H2 as <-; eauto|eauto]. }
  destruct (G _ _ _ Ec) as [L G']. split; [assumption|]. split; [assumption|].
  destruct E3 as [(a0 & b0 & c0 & d0 & F & Eb & Es)|(e & F & Eb & Es)]; rewrite F.
  - split; [|rewrite E1; assumption]. intros Hd. subst b. split; [apply exp_pos|]. unfold fitfun. rewrite ln_exp. f_equal. f_equal. f_equal. f_equal. field. assumption.
  - split; [assumption|]. rewrite E1, Es. apply loop_other; [apply opt_not_w|]. intros bw _ H. now apply (opt_not_cont show name name bw Hn Hn).
Qed.
Print Assumptions C102_optimum.

(** The DMFT and the DGA Green's function are continued into one folder: the second leaves all results of the first. *)
Theorem C102_two_runs : forall solve gf_kkt curve_fit show c g1 g2 s k,
  (exists bw, k = cont_file show "dmft" bw) \/ k = opt_file "dmft" ->
  fst (local_run solve gf_kkt curve_fit show c g1 g2 s) k = fst (max_ent_loc_bw_range solve gf_kkt curve_fit show c g1 "dmft" s) k.
Proof.
  intros solve gf_kkt curve_fit show c g1 g2 s k Hk. unfold local_run. destruct (max_ent_loc_bw_range solve gf_kkt curve_fit show c g1 "dmft" s) as [s1 [b1|e1]]; [|reflexivity].
  assert (G : fst (max_ent_loc_bw_range solve gf_kkt curve_fit show c g2 "dga" s1) k = s1 k).
  { apply C102_other_files.
    - destruct Hk as [(bw & ->)| ->]; [apply cont_not_w|discriminate].
    - destruct Hk as [(bw & ->)| ->]; discriminate.
    - intros bw _. destruct Hk as [(bw' & ->)| ->]; discriminate. }
  destruct (max_ent_loc_bw_range solve gf_kkt curve_fit show c g2 "dga" s1) as [s2 [b2|e2]]; exact G.
Qed.
Print Assumptions C102_two_runs.

(** Finding: n_fit is not limited to the available frequencies (as it is in the momentum-dependent continuation, C90).  With fewer than n_fit positive
    frequencies the data do not belong to the frequencies; with a solver that checks this, the call raises and writes nothing. *)
Theorem C102_too_few_refuted : forall solve gf_kkt curve_fit show c mat name s,
  checks_sizes solve -> (0 <= m_n_fit c)%Z -> (zlen mat mod 2 = 0)%Z -> (zlen mat < 2 * m_n_fit c)%Z -> m_bw_range c <> [] ->
  exists e, max_ent_loc_bw_range solve gf_kkt curve_fit show c mat name s = (s, Raise e).
Proof.
  intros solve gf_kkt curve_fit show c mat name s Hs H0 Hm Hl Hr. unfold max_ent_loc_bw_range. destruct (m_bw_range c) as [|bw bws]; [now destruct Hr|]. cbn [bw_loop].
  unfold max_ent_loc, loc_problem. destruct (Z.ltb_spec (m_n_fit c) 0); [lia|]. cbn [bind].
  match goal with |- context [solve ?q] => destruct (Hs q) as [e He] end.
  - cbn [l_im_axis l_im_data]. unfold vn_pos. rewrite zlen_map, zlen_arange. intros H1. pose proof (zlen_nonneg mat) as Z0.
    assert (B : (zlen (slice mat (zlen mat / 2) (zlen mat / 2 + m_n_fit c)) <= zlen mat - zlen mat / 2)%Z).
    { rewrite zlen_slice. assert (0 <= zlen mat / 2)%Z by (apply Z.div_pos; lia). assert (zlen mat / 2 <= zlen mat)%Z by (apply Z.div_le_upper_bound; lia).
      rewrite (@clampi_id (zlen mat) (zlen mat / 2)) by lia. pose proof (clampi_range (zlen mat / 2 + m_n_fit c) Z0). lia. }
    assert (E : (zlen mat = 2 * (zlen mat / 2) + zlen mat mod 2)%Z) by (apply Z.div_mod; lia). lia.
  - rewrite He. cbn. eauto.
Qed.
Print Assumptions C102_too_few_refuted.
(** The default of n_fit grows with the inverse temperature: 3 beta + 10, rounded down. *)
Theorem C102_default_n_fit : forall t beta c, 0 < beta -> me_conf_init t beta [] None = Ok c -> IZR (m_n_fit c) <= 3 * beta + 10 < IZR (m_n_fit c) + 1.
Proof.
  intros t beta c Hb H. unfold me_conf_init in H. cbn -[maxent_config_mesh py_int] in H. destruct (maxent_config_mesh []) as [[w|v]|e]; cbn -[py_int] in H; try discriminate. injection H as <-. cbn [m_n_fit].
  pose proof (py_int_nonneg (beta * 3 + 10)). lra.
Qed.
Print Assumptions C102_default_n_fit.
(** Estimates: the number of frequencies is 4 beta t rounded down, within the given bounds; blur width times beta t is pi. *)
Theorem C102_estimates : forall c lo hi, 0 < m_beta c -> 0 < m_t c -> (lo <= hi)%Z ->
  (lo <= get_n_fit_opt c lo hi <= hi)%Z /\ (IZR lo <= 4 * m_beta c * m_t c <= IZR hi -> IZR (get_n_fit_opt c lo hi) <= 4 * m_beta c * m_t c < IZR (get_n_fit_opt c lo hi) + 1) /\
  get_bw_opt c * (m_beta c * m_t c) = PI.
Proof.
  intros c lo hi Hb Ht Hl. unfold get_n_fit_opt, get_bw_opt. split; [lia|]. split.
  - intros [H1 H2]. assert (P : 0 <= m_beta c * 4 * m_t c) by (apply Rmult_le_pos; [apply Rmult_le_pos|]; lra). pose proof (py_int_nonneg _ P) as [P1 P2].
    assert (E1 : (lo <= py_int (m_beta c * 4 * m_t c))%Z) by (apply Z.lt_succ_r; apply lt_IZR; rewrite succ_IZR; lra).
    assert (E2 : (py_int (m_beta c * 4 * m_t c) <= hi)%Z) by (apply le_IZR; lra).
    rewrite Z.max_r, Z.min_l by lia. lra.
  - field. split; lra.
Qed.
Print Assumptions C102_estimates.

(** Filling check: twice the trapezoidal integral of the spectral function over the negative frequencies of the mesh; for a non-negative spectral function
    between zero and twice the integral over the whole mesh. *)
Theorem C102_filling : forall neg pos g, StronglySorted Rlt (neg ++ pos) -> Forall (fun x => x < 0) neg -> Forall (fun x => 0 <= x) pos ->
  List.length g = List.length (neg ++ pos) -> Forall (fun z => snd z <= 0) g ->
  check_filling (neg ++ pos) g = 2 * trapz (map (fun z => - snd z / PI) (firstn (List.length neg) g)) neg /\
  0 <= check_filling (neg ++ pos) g <= 2 * trapz (map (fun z => - snd z / PI) g) (neg ++ pos).
Proof.
  intros neg pos g S Hn Hp L Hg. rewrite filling_neg by assumption. split; [reflexivity|].
  assert (P : 0 < PI) by apply PI_RGT_0.
  assert (F : Forall (fun v => 0 <= v) (map (fun z => - snd z / PI) g)).
  { apply Forall_map. eapply Forall_impl; [|exact Hg]. intros z Hz. cbn. apply Rmult_le_pos; [lra|]. left. now apply Rinv_0_lt_compat. }
  rewrite <- (firstn_skipn (List.length neg) g) in F at 1. rewrite map_app in F.
  assert (S1 : StronglySorted Rlt neg) by (clear -S; induction neg as [|x neg IH]; [constructor|]; inversion S as [|? ? H1 H2]; subst; constructor; [auto|]; apply Forall_app in H2; tauto).
  split.
  - apply Rmult_le_pos; [lra|]. apply trapz_nonneg; [|assumption]. apply Forall_app in F. tauto.
  - apply Rmult_le_compat_l; [lra|]. rewrite <- (firstn_skipn (List.length neg) g) at 2. rewrite map_app. apply trapz_app_le; [|assumption|assumption]. rewrite map_length, firstn_length, L, app_length. lia.
Qed.
Print Assumptions C102_filling.
(** Finding: the interval between the last negative frequency and zero is not counted: a flat spectral function with integral one on a mesh that is
    symmetric about zero gives 2 a (last - first negative frequency), less than half filling (one). *)
Theorem C102_filling_refuted : forall a w0 neg pos, let w := (w0 :: neg) ++ pos in
  StronglySorted Rlt w -> Forall (fun x => x < 0) (w0 :: neg) -> Forall (fun x => 0 <= x) pos -> pos <> [] -> last w 0 = - w0 -> 0 < a ->
  trapz (map (fun _ => a) w) w = 1 ->
  check_filling w (map (fun _ => (0, - (PI * a))) w) = 2 * a * (last (w0 :: neg) 0 - w0) /\ check_filling w (map (fun _ => (0, - (PI * a))) w) < 1.
Proof.
  intros a w0 neg pos w S Hn Hp Np Hl Ha Ht.
  assert (E : check_filling w (map (fun _ => (0, - (PI * a))) w) = 2 * a * (last (w0 :: neg) 0 - w0)).
  { unfold w. rewrite filling_neg by (try assumption; now rewrite map_length). rewrite map_app, firstn_app, map_length, Nat.sub_diag. cbn [firstn]. rewrite app_nil_r.
    rewrite (firstn_all2 (map _ (w0 :: neg))) by (rewrite map_length; lia). rewrite map_map. cbn [snd].
    rewrite (map_ext _ (fun _ => a)); [rewrite trapz_flat; ring|]. intros _. field. apply Rgt_not_eq, PI_RGT_0. }
  split; [assumption|]. rewrite E. unfold w in Ht. cbn [app] in Ht. rewrite trapz_flat in Ht.
  change (w0 :: neg ++ pos) with ((w0 :: neg) ++ pos) in Ht. fold w in Ht. rewrite Hl in Ht.
  assert (Ln : last (w0 :: neg) 0 < 0).
  { assert (I : In (last (w0 :: neg) 0) (w0 :: neg)) by (destruct (exists_last (l := w0 :: neg)) as (l & z & ->); [discriminate|rewrite last_last; apply in_app_iff; right; now left]). rewrite Forall_forall in Hn. now apply Hn. }
  assert (2 * a * last (w0 :: neg) 0 < 0) by (replace (2 * a * last (w0 :: neg) 0) with (- (2 * a * - last (w0 :: neg) 0)) by ring; assert (0 < 2 * a * - last (w0 :: neg) 0) by (apply Rmult_lt_0_compat; lra); lra).
  lra.
Qed.
Print Assumptions C102_filling_refuted.

(** * The hypotheses can be met *)
Definition ex_show (x : R) : string := if Req_EM_T x 0.1 then "0.1" else if Req_EM_T x 0.2 then "0.2" else "other".
Definition ex_conf : me_conf := MeConf 10 1 2 0.001 (VStr "chi2kink") (VBool true) [-1; 0; 1] [0.1; 0.2] 10.
Definition ex_mat : list C := [(1, 1); (2, 2); (3, -3); (4, -4)].
Definition ex_solve (q : loc_request) : res (list R * R) := if (zlen (l_im_axis q) =? zlen (l_im_data q))%Z then Ok (l_model q, l_blur_width q) else Raise ValueError.
Example C102_ex_hyps : real_mesh (m_mesh ex_conf) /\ (0 <= m_n_fit ex_conf <= zlen ex_mat / 2)%Z /\ distinct_texts ex_show (m_bw_range ex_conf) /\ checks_sizes ex_solve.
Proof.
  split; [|split; [|split]].
  - split; [|unfold zlen; cbn; lia]. unfold ex_conf. cbn. repeat constructor; lra.
  - unfold zlen, ex_mat. cbn. lia.
  - intros x y Hx Hy. unfold ex_conf in *. cbn in Hx, Hy. unfold ex_show. destruct Hx as [<-|[<-|[]]], Hy as [<-|[<-|[]]]; intros H; try reflexivity; repeat destruct (Req_EM_T _ _); try lra; discriminate.
  - intros q Hq. unfold ex_solve. apply Z.eqb_neq in Hq. rewrite Hq. eauto.
Qed.
(** both widths are solved, and without enough frequencies nothing is *)
Example C102_ex_run : exists b, snd (max_ent_loc_bw_range ex_solve (fun w A => map (fun x => (x, x)) A) (fun _ _ => Ok (0, 5, 2, 1)) ex_show ex_conf ex_mat "dmft" (fun _ => None)) = Ok b.
Proof. eexists. reflexivity. Qed.
Example C102_ex_flat : check_filling [-1; 0; 1] (map (fun _ => (0, - (PI * (1 / 2)))) [-1; 0; 1]) = 0.
Proof.
  destruct (C102_filling_refuted (1 / 2) (-1) [] [0; 1]) as [E _]; cbn; try lra; try discriminate.
  - repeat constructor; lra.
  - repeat constructor; lra.
  - repeat constructor; lra.
  - transitivity (2 * (1 / 2) * (last [-1] 0 - -1)); [exact E|cbn; lra].
Qed.
