(** Property C90: the MaxEnt controller (dga/analytic_continuation.py:203-361, config.py:324-360).  [solve] and [gf_kkt] stand for the library
    ana_cont; nothing is assumed about them except, where stated, the number of points they return. *)
From Coq Require Import ZArith Reals List String Lia Lra.
From Verif Require Import Base.PyBase Base.PyFacts Model.MpiAux Proofs.MpiAuxP Model.RealMesh Spec.RealMeshSpec Properties.RealMeshProps Model.MaxEnt Spec.MaxEntSpec Proofs.MaxEntP.
Import ListNotations.
Local Open Scope R_scope.

(** Only the two kernels are accepted. *)
Theorem C90_unsupported : forall beta kernel cfg kw, kernel <> "freq_fermionic"%string -> kernel <> "freq_bosonic"%string -> maxent_init beta kernel cfg kw = Raise AssertionError.
Proof.
  intros beta kernel cfg kw H1 H2. unfold maxent_init. replace (existsb _ _) with false; [reflexivity|]. symmetry. apply Bool.not_true_is_false. intros Q. apply existsb_exists in Q.
  destruct Q as (y & Hy & E). apply String.eqb_eq in E. subst y. cbn in Hy. intuition congruence.
Qed.
Print Assumptions C90_unsupported.
(** Settings: keyword arguments before the configuration before the defaults; with the bosonic kernel this is so for all names but bw and wmin. *)
Theorem C90_settings : forall beta kernel cfg kw c k v, maxent_init beta kernel cfg kw = Ok c ->
  takes [kw; match cfg with Some m => m | None => [] end; MAX_ENT_DEFAULT_SETTINGS] k v ->
  kernel = "freq_fermionic"%string \/ (k <> "bw" /\ k <> "wmin")%string -> attr (c_attr c) k = Ok v.
Proof.
  intros beta kernel cfg kw c k v E HT HK. apply init_unfold in E. destruct E as (_ & _ & E). fold (cfg_of cfg) in HT.
  assert (HB : lookup (base_attr beta kernel cfg kw) k = Some v).
  { apply takes_base. destruct HT as (b & d & a & E1 & H1 & H2). exists b, d, (a ++ [fixed beta kernel])%list. split; [|auto]. change (b ++ d :: a ++ [fixed beta kernel])%list with (b ++ (d :: a) ++ [fixed beta kernel])%list. rewrite app_assoc, <- E1. reflexivity. }
  unfold attr. destruct E as [[_ ->]|[Kb (bw & force & wmin & x & E)]]; [now rewrite HB|]. cbn zeta in E. destruct E as (_ & _ & _ & _ & ->).
  destruct HK as [HK|[N1 N2]]; [congruence|].
  assert (Q : forall d n z, k <> n -> lookup (update d [(n, z)]) k = lookup d k) by (intros d n z N; rewrite lookup_update; cbn; destruct (String.eqb_spec k n); [congruence|reflexivity]).
  destruct (Rlt_dec x 0); destruct (_ && _); rewrite ?Q by assumption; now rewrite HB.
Qed.
Print Assumptions C90_settings.
(** Bosonic kernel: no negative frequencies; blurring only on demand, then with the configured width. *)
Theorem C90_bosonic_rules : forall beta cfg kw c, maxent_init beta "freq_bosonic" cfg kw = Ok c ->
  let sources := [kw; match cfg with Some m => m | None => [] end; MAX_ENT_DEFAULT_SETTINGS; [("force_preblur", VBool false)]]%string in
  (exists v x, attr (c_attr c) "wmin" = Ok v /\ as_num v = Ok x /\ 0 <= x /\ (forall u y, takes sources "wmin" u -> as_num u = Ok y -> x = Rmax 0 y)) /\
  (forall f, takes sources "force_preblur" f -> truthy f = false -> use_preblur c = Ok false) /\
  (forall f b, takes sources "force_preblur" f -> truthy f = true -> takes sources "bw" b -> attr (c_attr c) "bw" = Ok b).
Proof.
  intros beta cfg kw c E sources. apply init_unfold in E. destruct E as (_ & _ & [[N _]|[_ (bw & force & wmin & x & E)]]); [congruence|]. cbn zeta in E. destruct E as (Eb & Ef & Ew & Ex & Ec).
  assert (HB : forall k v, k <> "kernel_mode"%string -> k <> "beta"%string -> k <> "do_cont"%string -> takes sources k v -> lookup (base_attr beta "freq_bosonic" cfg kw) k = Some v).
  { intros k v N1 N2 N3 (b & d & a & E1 & H1 & H2). assert (G : forall l : list dict, lookup (concat l) k = fold_right (fun e o => match lookup e k with Some v => Some v | None => o end) None l).
    { induction l as [|e l IH]; cbn [concat fold_right]; [reflexivity|]. now rewrite lookup_app, IH. }
    rewrite base_attr_eq. transitivity (lookup (concat sources) k).
    - unfold sources, cfg_of. cbn [concat]. rewrite app_nil_r. rewrite !lookup_app. destruct (lookup kw k); [reflexivity|]. destruct (lookup match cfg with Some m => m | None => [] end k); [reflexivity|].
      destruct (lookup MAX_ENT_DEFAULT_SETTINGS k); [reflexivity|]. cbn. destruct (String.eqb_spec k "kernel_mode"); [congruence|]. destruct (String.eqb_spec k "beta"); [congruence|]. destruct (String.eqb_spec k "do_cont"); [congruence|]. reflexivity.
    - rewrite E1, G. clear E1 G. induction b as [|e b IH]; cbn [app fold_right]; [now rewrite (gives_lookup _ _ _ H2)|]. inversion H1; subst. rewrite (silent_lookup e k) by assumption. now apply IH. }
  split; [|split].
  - destruct (Rlt_dec x 0) as [L|L].
    + exists (VNum 0), 0. rewrite Ec. unfold attr. rewrite lookup_update. cbn [lookup String.eqb Ascii.eqb Bool.eqb as_num]. split; [reflexivity|]. split; [reflexivity|]. split; [lra|]. intros u y Hu Eu. apply HB in Hu; [|discriminate|discriminate|discriminate]. assert (u = wmin) by congruence. subst u. assert (y = x) by congruence. subst y. rewrite Rmax_left; lra.
    + exists wmin, x. rewrite Ec. unfold attr. replace (lookup _ "wmin") with (Some wmin) by (destruct (_ && _); [rewrite lookup_update; cbn [lookup String.eqb Ascii.eqb Bool.eqb]|]; now rewrite Ew).
      split; [reflexivity|]. split; [exact Ex|]. split; [lra|]. intros u y Hu Eu. apply HB in Hu; [|discriminate|discriminate|discriminate]. assert (u = wmin) by congruence. subst u. assert (y = x) by congruence. subst y. rewrite Rmax_right; lra.
  - intros f Hf Tf. apply HB in Hf; [|discriminate|discriminate|discriminate]. assert (force = f) by congruence. subst f. unfold use_preblur, attr.
    replace (lookup (c_attr c) "bw") with (Some (if negb (is_zero bw) then VNum 0 else bw)).
    + cbn [bind]. f_equal. destruct (is_zero bw) eqn:Ez; cbn [negb]; [now rewrite Ez|]. unfold is_zero. cbn [as_num]. destruct (Req_EM_T 0 0); [reflexivity|lra].
    + rewrite Ec, Tf. destruct (Rlt_dec x 0); destruct (negb (is_zero bw)) eqn:Ez; cbn [negb andb]; rewrite ?lookup_update; cbn [lookup String.eqb Ascii.eqb Bool.eqb]; rewrite ?lookup_update; cbn [lookup String.eqb Ascii.eqb Bool.eqb]; now rewrite ?Eb.
  - intros f b Hf Tf Hb. apply HB in Hf; [|discriminate|discriminate|discriminate]. apply HB in Hb; [|discriminate|discriminate|discriminate]. assert (force = f) by congruence. subst f. unfold attr. rewrite Ec, Tf. rewrite andb_false_r.
    destruct (Rlt_dec x 0); rewrite ?lookup_update; cbn [lookup String.eqb Ascii.eqb Bool.eqb]; now rewrite Hb.
Qed.
Print Assumptions C90_bosonic_rules.
(** Blurring is used exactly if the blur width is not zero; an entry "use_preblur" in the settings has no effect. *)
Theorem C90_preblur : forall beta kernel cfg kw c bw x, maxent_init beta kernel cfg kw = Ok c -> attr (c_attr c) "bw" = Ok bw -> as_num bw = Ok x ->
  exists b, use_preblur c = Ok b /\ (b = true <-> x <> 0).
Proof.
  intros beta kernel cfg kw c bw x _ Hb Hx. unfold use_preblur. rewrite Hb. cbn [bind]. eexists. split; [reflexivity|]. unfold is_zero. rewrite Hx. destruct (Req_EM_T x 0); cbn; intuition congruence.
Qed.
Print Assumptions C90_preblur.
(** The mesh is the one of the final settings; with the defaults the fermionic mesh runs from -15 to 15, the bosonic one from 0 to 15. *)
Theorem C90_mesh : forall beta kernel, In kernel ["freq_fermionic"; "freq_bosonic"]%string ->
  exists c, maxent_init beta kernel None [] = Ok c /\ frequency_mesh (c_w c) 501 (if String.eqb kernel "freq_bosonic" then 0 else -15) 15 /\
    attr (c_attr c) "kernel_mode" = Ok (VStr kernel) /\ attr (c_attr c) "beta" = Ok (VNum beta).
Proof.
  intros beta kernel [<-|[<-|[]]].
  - unfold maxent_init. cbn [existsb String.eqb Ascii.eqb Bool.eqb SUPPORTED_KERNELS orb]. cbn [bind]. unfold set_w_mesh.
    cbn [attr lookup update app MAX_ENT_DEFAULT_SETTINGS String.eqb Ascii.eqb Bool.eqb bind as_str as_num as_int].
    destruct (C87_mesh "tan" (-15) 15 501 0.04 ltac:(cbn; tauto) ltac:(lia) ltac:(lra) ltac:(lra)) as (w & -> & F). cbn [bind]. eexists. split; [reflexivity|]. split; [exact F|]. split; reflexivity.
  - unfold maxent_init. cbn [existsb String.eqb Ascii.eqb Bool.eqb SUPPORTED_KERNELS orb].
    cbn [attr lookup update app MAX_ENT_DEFAULT_SETTINGS declared String.eqb Ascii.eqb Bool.eqb bind as_str as_num as_int truthy negb].
    replace (is_zero (VNum 0.01)) with false by (unfold is_zero; cbn [as_num]; destruct (Req_EM_T 0.01 0); [lra|reflexivity]). cbn [negb andb].
    cbn [attr lookup update app String.eqb Ascii.eqb Bool.eqb bind as_num]. destruct (Rlt_dec (-15) 0) as [_|N]; [|lra]. unfold set_w_mesh.
    cbn [attr lookup update app MAX_ENT_DEFAULT_SETTINGS String.eqb Ascii.eqb Bool.eqb bind as_str as_num as_int].
    destruct (C87_mesh "tan" 0 15 501 0.04 ltac:(cbn; tauto) ltac:(lia) ltac:(lra) ltac:(lra)) as (w & -> & F). cbn [bind]. eexists. split; [reflexivity|]. split; [exact F|]. split; reflexivity.
Qed.
Print Assumptions C90_mesh.
(** The data fitted: of a matrix over all frequencies the first min(n_fit, number available) non-negative ones, each with its own frequency. *)
Theorem C90_window_fermionic : forall c (mat : list C) n m beta, attr (c_attr c) "kernel_mode" = Ok (VStr "freq_fermionic") -> attr (c_attr c) "n_fit" = Ok (VInt n) -> attr (c_attr c) "beta" = Ok (VNum beta) ->
  (0 <= n)%Z -> zlen mat = (2 * m)%Z ->
  exists c' data freq, cut_matrix c mat = (c', Ok data) /\ get_im_freq c' = Ok freq /\ zlen data = Z.min n m /\ zlen freq = Z.min n m /\
    forall i, (0 <= i < Z.min n m)%Z -> zget data i = zget mat (m + i) /\ zget freq i = Some (fermionic_frequency beta i).
Proof.
  intros c mat n m beta HK HN HB H0 HL. pose proof (zlen_nonneg mat) as H1. assert (HD : (zlen mat / 2 = m)%Z) by (rewrite HL, Z.mul_comm, Z.div_mul; lia).
  unfold cut_matrix. rewrite HN. cbn [bind as_int]. rewrite HD.
  set (c' := if (m <? n)%Z then _ else _). assert (HA : forall k, k <> "n_fit"%string -> attr (c_attr c') k = attr (c_attr c) k).
  { intros k Hk. subst c'. destruct (m <? n)%Z; [|reflexivity]. unfold attr. cbn [c_attr]. rewrite lookup_update. cbn [lookup]. destruct (String.eqb_spec k "n_fit"); [congruence|reflexivity]. }
  assert (HM : (if (m <? n)%Z then m else n) = Z.min n m) by (destruct (Z.ltb_spec m n); lia).
  assert (HN' : attr (c_attr c') "n_fit" = Ok (VInt (Z.min n m))).
  { rewrite <- HM. subst c'. destruct (m <? n)%Z; [reflexivity|exact HN]. }
  rewrite HA, HK by discriminate. cbn [bind as_str String.eqb Ascii.eqb Bool.eqb]. rewrite HM.
  exists c', (slice mat m (m + Z.min n m)), (vn_pos beta (Z.min n m)). split; [reflexivity|]. split.
  { unfold get_im_freq, beta_of. rewrite !HA, HK, HB, HN' by discriminate. reflexivity. }
  split; [rewrite zlen_slice_in; lia|]. unfold vn_pos. split; [rewrite zlen_map, zlen_arange; lia|]. intros i Hi. split; [rewrite zget_slice_in by lia; reflexivity|].
  rewrite zget_map, zget_arange by lia. cbn [option_map]. rewrite Z.add_0_l. f_equal. unfold fermionic_frequency. unfold Rdiv. ring.
Qed.
Print Assumptions C90_window_fermionic.
Theorem C90_window_bosonic : forall c (mat : list C) n m beta, attr (c_attr c) "kernel_mode" = Ok (VStr "freq_bosonic") -> attr (c_attr c) "n_fit" = Ok (VInt n) -> attr (c_attr c) "beta" = Ok (VNum beta) ->
  (0 <= n)%Z -> (0 <= m)%Z -> zlen mat = (2 * m + 1)%Z ->
  exists c' data freq, cut_matrix c mat = (c', Ok data) /\ get_im_freq c' = Ok freq /\ zlen data = (Z.min n m + 1)%Z /\ zlen freq = (Z.min n m + 1)%Z /\
    forall i, (0 <= i <= Z.min n m)%Z -> zget data i = zget mat (m + i) /\ zget freq i = Some (bosonic_frequency beta i).
Proof.
  intros c mat n m beta HK HN HB H0 H1 HL. assert (HD : (zlen mat / 2 = m)%Z) by (rewrite HL; symmetry; apply (Z.div_unique _ 2 m 1); lia).
  unfold cut_matrix. rewrite HN. cbn [bind as_int]. rewrite HD.
  set (c' := if (m <? n)%Z then _ else _). assert (HA : forall k, k <> "n_fit"%string -> attr (c_attr c') k = attr (c_attr c) k).
  { intros k Hk. subst c'. destruct (m <? n)%Z; [|reflexivity]. unfold attr. cbn [c_attr]. rewrite lookup_update. cbn [lookup]. destruct (String.eqb_spec k "n_fit"); [congruence|reflexivity]. }
  assert (HM : (if (m <? n)%Z then m else n) = Z.min n m) by (destruct (Z.ltb_spec m n); lia).
  assert (HN' : attr (c_attr c') "n_fit" = Ok (VInt (Z.min n m))).
  { rewrite <- HM. subst c'. destruct (m <? n)%Z; [reflexivity|exact HN]. }
  rewrite HA, HK by discriminate. cbn [bind as_str String.eqb Ascii.eqb Bool.eqb]. rewrite HM.
  exists c', (slice mat m (m + Z.min n m + 1)), (wn_pos beta (Z.min n m)). split; [reflexivity|]. split.
  { unfold get_im_freq, beta_of. rewrite !HA, HK, HB, HN' by discriminate. reflexivity. }
  split; [rewrite zlen_slice_in; lia|]. unfold wn_pos. split; [rewrite zlen_map, zlen_arange; lia|]. intros i Hi. split; [rewrite zget_slice_in by lia; reflexivity|].
  rewrite zget_map, zget_arange by lia. cbn [option_map]. rewrite Z.add_0_l. f_equal. unfold bosonic_frequency. unfold Rdiv. ring.
Qed.
Print Assumptions C90_window_bosonic.
(** The default model is flat; its integral is one (fermionic) resp. the real part of the first entry of the matrix (bosonic). *)
Theorem C90_model : forall c (mat : list C) w0 w1, zget (c_w c) 0 = Some w0 -> zget (c_w c) (zlen (c_w c) - 1) = Some w1 -> w0 <> w1 ->
  (attr (c_attr c) "kernel_mode" = Ok (VStr "freq_fermionic") -> exists model, get_model c mat = Ok model /\ flat_with_integral model (c_w c) 1) /\
  (forall z, attr (c_attr c) "kernel_mode" = Ok (VStr "freq_bosonic") -> zget mat 0 = Some z -> exists model, get_model c mat = Ok model /\ flat_with_integral model (c_w c) (fst z)).
Proof.
  intros c mat w0 w1 E0 E1 N. unfold get_model. destruct (c_w c) as [|w w'] eqn:Ew; [discriminate|].
  assert (Hw : w = w0) by (unfold zget in E0; cbn in E0; congruence). subst w.
  pose proof (last_zget (w0 :: w') 0 w1 E1) as EL. pose proof (trapz_ones w0 w') as T. rewrite EL in T. rewrite T. split.
  - intros ->. cbn [bind as_str String.eqb Ascii.eqb Bool.eqb]. eexists. split; [reflexivity|]. split; [now rewrite !zlen_map|]. exists (1 / (w1 - w0)). split.
    + intros x Hx. rewrite map_map in Hx. apply in_map_iff in Hx. destruct Hx as (y & <- & _). reflexivity.
    + intros a b Ha Hb. assert (a = w0) by congruence. assert (b = w1) by congruence. subst. field. lra.
  - intros z -> Hz. cbn [bind as_str String.eqb Ascii.eqb Bool.eqb]. unfold py_get. cbn [Z.ltb Z.compare]. rewrite Hz. cbn [bind]. eexists. split; [reflexivity|]. split; [now rewrite !zlen_map|]. exists (fst z / (w1 - w0)). split.
    + intros x Hx. rewrite map_map in Hx. apply in_map_iff in Hx. destruct Hx as (y & <- & _). lra.
    + intros a b Ha Hb. assert (a = w0) by congruence. assert (b = w1) by congruence. subst. field. lra.
Qed.
Print Assumptions C90_model.
(** Finding: the bosonic model should have the weight of the value at zero frequency, which is entry m of the 2m+1 frequencies; it has the weight of the
    most negative frequency instead. *)
Theorem C90_bosonic_model_refuted : forall c (mat : list C) m zmin zzero w0 w1, zget (c_w c) 0 = Some w0 -> zget (c_w c) (zlen (c_w c) - 1) = Some w1 -> w0 <> w1 ->
  attr (c_attr c) "kernel_mode" = Ok (VStr "freq_bosonic") -> (1 <= m)%Z -> zlen mat = (2 * m + 1)%Z -> zget mat 0 = Some zmin -> zget mat m = Some zzero -> fst zmin <> fst zzero ->
  exists model, get_model c mat = Ok model /\ ~ flat_with_integral model (c_w c) (fst zzero).
Proof.
  intros c mat m zmin zzero w0 w1 E0 E1 N HK Hm HL H1 H2 HN. destruct (C90_model c mat w0 w1 E0 E1 N) as [_ H]. destruct (H zmin HK H1) as (model & E & L & a & Ha & Hi). exists model. split; [exact E|].
  intros (_ & b & Hb & Hj). apply HN. rewrite <- (Hi _ _ E0 E1), <- (Hj _ _ E0 E1). destruct model as [|x model].
  - rewrite zlen_nil in L. unfold zget in E0. destruct (c_w c); [discriminate|]. rewrite zlen_cons in L. pose proof (zlen_nonneg l). lia.
  - rewrite <- (Ha x), <- (Hb x); [reflexivity|now left|now left].
Qed.
Print Assumptions C90_bosonic_model_refuted.
(** Every matrix of a list (of equal sizes) is continued by itself: row j is what the untouched controller gives for matrix j, or zeros if that
    raises; a failure concerns its own row only. *)
Theorem C90_independent : forall solve gf_kkt c n mats j mat, (forall m, In m mats -> zlen m = n) -> zget mats j = Some mat ->
  zlen (cont_list solve gf_kkt c mats) = zlen mats /\
  zget (cont_list solve gf_kkt c mats) j = Some (match snd (cont_single_ind solve gf_kkt c mat) with Ok r => r | Raise _ => RRow (map (fun _ => 0) (c_w c)) end).
Proof.
  intros solve gf_kkt c n mats j mat H Hj. rewrite (cont_list_map solve gf_kkt c n mats H). rewrite zlen_map, zget_map, Hj. split; reflexivity.
Qed.
Print Assumptions C90_independent.
(** The number of MPI ranks does not matter, if no rank is idle and on every rank at least one continuation succeeds (or all fail, or the kernel is bosonic). *)
Theorem C90_ranks : forall solve gf_kkt c n p mat,
  (forall q A, solve q = Ok A -> zlen A = zlen (q_re_axis q)) -> (forall w A, zlen (gf_kkt w A) = zlen w) ->
  (1 <= p <= zlen mat)%Z -> (forall m, In m mat -> zlen m = n) ->
  let succeeds m := exists r, snd (cont_single_ind solve gf_kkt c m) = Ok r in
  (forall parts part, scatter (zlen mat) p mat = Ok parts -> In part parts -> exists m, In m part /\ succeeds m) \/ (forall m, In m mat -> ~ succeeds m) \/ attr (c_attr c) "kernel_mode" = Ok (VStr "freq_bosonic") ->
  mpi_ana_cont solve gf_kkt c (zlen mat) p mat = analytic_continuation solve gf_kkt c mat.
Proof.
  intros solve gf_kkt c n p mat HS HK Hp H succeeds Hcase.
  assert (HN : mat <> []) by (destruct mat; [rewrite zlen_nil in Hp; lia|discriminate]).
  assert (Hfail : forall m, ~ succeeds m -> is_cx solve gf_kkt c m = false).
  { intros m Hm. unfold is_cx, outcome. destruct (snd (cont_single_ind solve gf_kkt c m)) as [r|e] eqn:E; [exfalso; apply Hm; now exists r|reflexivity]. }
  assert (Hex : exists cx, forall parts part, scatter (zlen mat) p mat = Ok parts -> In part parts -> existsb (is_cx solve gf_kkt c) part = cx).
  { assert (Hallf : (forall m, In m mat -> is_cx solve gf_kkt c m = false) -> exists cx, forall parts part, scatter (zlen mat) p mat = Ok parts -> In part parts -> existsb (is_cx solve gf_kkt c) part = cx).
    { intros Hf. exists false. intros parts part E HP. apply Bool.not_true_is_false. intros Q. apply existsb_exists in Q. destruct Q as (m & Hm & Q). rewrite Hf in Q; [discriminate|].
      destruct (parts_props n p mat ltac:(lia) ltac:(lia) H) as (parts' & E' & _ & HC & _). assert (parts' = parts) by congruence. subst parts'. rewrite <- HC. apply in_concat. eauto. }
    destruct Hcase as [Hc|[Hc|Hc]].
    - unfold attr in Hc. destruct (lookup (c_attr c) "kernel_mode") as [kv|] eqn:Ek.
      + destruct (match kv with VStr k => String.eqb k "freq_fermionic" | _ => false end) eqn:Ekk.
        * exists true. intros parts part E HP. destruct (Hc parts part E HP) as (m & Hm & r & Er). apply existsb_exists. exists m. split; [exact Hm|]. unfold is_cx, outcome. rewrite Er.
          destruct (single_ok solve gf_kkt HS HK c m r Er) as (_ & k & Ek2 & [[_ R]|[K R]]); [exact R|]. exfalso. rewrite Ek in Ek2. injection Ek2 as ->. subst k. discriminate.
        * apply Hallf. intros m Hm. unfold is_cx, outcome. destruct (snd (cont_single_ind solve gf_kkt c m)) as [r|e] eqn:Er; [|reflexivity].
          destruct (single_ok solve gf_kkt HS HK c m r Er) as (_ & k & Ek2 & [[K R]|[K R]]); [|exact R]. exfalso. rewrite Ek in Ek2. injection Ek2 as ->. subst k. discriminate.
      + apply Hallf. intros m Hm. unfold is_cx, outcome. destruct (snd (cont_single_ind solve gf_kkt c m)) as [r|e] eqn:Er; [|reflexivity].
        destruct (single_ok solve gf_kkt HS HK c m r Er) as (_ & k & Ek2 & _). congruence.
    - apply Hallf. intros m Hm. apply Hfail. now apply Hc.
    - apply Hallf. intros m Hm. unfold is_cx, outcome. destruct (snd (cont_single_ind solve gf_kkt c m)) as [r|e] eqn:Er; [|reflexivity].
      destruct (single_ok solve gf_kkt HS HK c m r Er) as (_ & k & Ek2 & [[K R]|[K R]]); [|exact R]. unfold attr in Hc. rewrite Ek2 in Hc. injection Hc as ->. discriminate. }
  destruct Hex as (cx & Hcx). destruct (mpi_ok solve gf_kkt HS HK c n p mat cx ltac:(lia) ltac:(lia) H Hcx) as [-> E]. rewrite (ana_ok solve gf_kkt HS HK c n mat HN H). now rewrite E.
Qed.
Print Assumptions C90_ranks.
(** Finding: fermionic kernel; if on one rank every continuation fails (its rows are then real zeros) and on another one succeeds (complex rows), the
    gather is erroneous, although failures are meant to concern their own index only. *)
Theorem C90_failed_rank_finding : forall solve gf_kkt c n p mat parts part1 part2 m2 r2,
  (forall q A, solve q = Ok A -> zlen A = zlen (q_re_axis q)) -> (forall w A, zlen (gf_kkt w A) = zlen w) ->
  (1 <= p <= zlen mat)%Z -> (forall m, In m mat -> zlen m = n) -> attr (c_attr c) "kernel_mode" = Ok (VStr "freq_fermionic") ->
  scatter (zlen mat) p mat = Ok parts -> In part1 parts -> In part2 parts ->
  (forall m, In m part1 -> exists e, snd (cont_single_ind solve gf_kkt c m) = Raise e) -> In m2 part2 -> snd (cont_single_ind solve gf_kkt c m2) = Ok r2 ->
  mpi_ana_cont solve gf_kkt c (zlen mat) p mat = Raise RuntimeError /\ exists a, analytic_continuation solve gf_kkt c mat = Ok a.
Proof.
  intros solve gf_kkt c n p mat parts part1 part2 m2 r2 HS HK Hp H Hk E H1 H2 Hf Hm2 Hr2. split.
  - apply (mpi_mixed solve gf_kkt HS HK c n p mat parts part1 part2); try assumption; try lia.
    replace (existsb _ part1) with false.
    + replace (existsb _ part2) with true; [discriminate|]. symmetry. apply existsb_exists. exists m2. split; [exact Hm2|]. unfold is_cx, outcome. rewrite Hr2.
      destruct (single_ok solve gf_kkt HS HK c m2 r2 Hr2) as (_ & k & Ek2 & [[K R]|[K R]]); [exact R|]. unfold attr in Hk. rewrite Ek2 in Hk. injection Hk as ->. discriminate.
    + symmetry. apply Bool.not_true_is_false. intros Q. apply existsb_exists in Q. destruct Q as (m & Hm & Q). destruct (Hf m Hm) as (e & Ee). unfold is_cx, outcome in Q. rewrite Ee in Q. discriminate.
  - eexists. apply (ana_ok solve gf_kkt HS HK c n); [destruct mat; [rewrite zlen_nil in Hp; lia|discriminate]|exact H].
Qed.
Print Assumptions C90_failed_rank_finding.
(** Finding: with more ranks than matrices the root has no matrix and the gather raises. *)
Theorem C90_idle_root_finding : forall solve gf_kkt c p mat, (zlen mat < p)%Z -> (forall q A, solve q = Ok A -> zlen A = zlen (q_re_axis q)) -> (forall w A, zlen (gf_kkt w A) = zlen w) ->
  (exists n, forall m, In m mat -> zlen m = n) -> mpi_ana_cont solve gf_kkt c (zlen mat) p mat = Raise TypeError.
Proof.
  intros solve gf_kkt c p mat Hp HS HK (n & H). pose proof (zlen_nonneg mat) as H0. unfold mpi_ana_cont. rewrite scatter_eq by lia. cbn [bind].
  assert (E0 : zget (sizes (zlen mat) p) 0 = Some 0%Z).
  { rewrite sizes_get by lia. rewrite Z.div_small by lia. rewrite Z.mod_small by lia. destruct (Z.leb_spec (p - zlen mat) 0); [lia|reflexivity]. }
  destruct (sizes (zlen mat) p) as [|s0 s] eqn:Es; [discriminate|]. assert (s0 = 0%Z) by (unfold zget in E0; cbn in E0; congruence). subst s0.
  cbn [intervals map fst snd]. change (0 + 0)%Z with 0%Z. replace (slice mat 0 0) with (@nil (list C)) by (unfold slice; rewrite Z.sub_diag; reflexivity).
  set (rest := map _ _). cbn [mapM]. change (analytic_continuation solve gf_kkt c []) with (@Ok arr2 (Arr2 false [])). cbn [bind].
  rewrite (mapM_ok _ _ _ (fun part => match part with [] => Arr2 false [] | _ => Arr2 (existsb (is_cx solve gf_kkt c) part) (map (fun m => row_vals (outcome solve gf_kkt c m)) part) end)).
  - reflexivity.
  - intros part Hpart. destruct part as [|m part]; [reflexivity|]. apply (ana_ok solve gf_kkt HS HK c n); [discriminate|]. intros x Hx. apply H. subst rest. apply in_map_iff in Hpart. destruct Hpart as (ab & E & _). rewrite <- E in Hx.
    clear - Hx. unfold slice in Hx. rewrite <- (firstn_skipn (Z.to_nat (clampi (zlen mat) (fst ab))) mat). apply in_or_app. right.
    rewrite <- (firstn_skipn (Z.to_nat (clampi (zlen mat) (snd ab) - clampi (zlen mat) (fst ab))) (skipn _ mat)). apply in_or_app. now left.
Qed.
Print Assumptions C90_idle_root_finding.
(** Finding: the mesh for the continuation of local functions ignores the configuration: mesh_type, wmax, nwr and cut have no effect. *)
Theorem C90_local_mesh_finding : forall cfg cfg' : dict, silent cfg "mesh" -> silent cfg' "mesh" ->
  maxent_config_mesh cfg = maxent_config_mesh cfg' /\ exists w, maxent_config_mesh cfg = Ok (Mesh w) /\ frequency_mesh w 501 (-15) 15.
Proof.
  intros cfg cfg' H H'. unfold maxent_config_mesh. rewrite (silent_lookup cfg "mesh" H), (silent_lookup cfg' "mesh" H'). split; [reflexivity|].
  destruct (C87_mesh "tan" (-15) 15 501 0.04 ltac:(cbn; tauto) ltac:(lia) ltac:(lra) ltac:(lra)) as (w & E & F). change (- IZR 15) with (-15). rewrite E. cbn [bind]. exists w. split; [reflexivity|exact F].
Qed.
Print Assumptions C90_local_mesh_finding.
(** The hypotheses can be met: a solver that returns a flat spectrum but fails for data that start with a zero; two momenta, two ranks. *)
Definition demo_solve (q : request) : res (list R) :=
  match q_im_data q with z :: _ => if Req_EM_T (fst z) 0 then Raise LinAlgError else Ok (map (fun _ => 1) (q_re_axis q)) | [] => Raise ValueError end.
Definition demo_kkt (w A : list R) : list C := map (fun x => (x, 0)) w.
Example C90_case : exists c, maxent_init 10 "freq_fermionic" (Some [("n_fit", VInt 60); ("loc", VDict [])]%string) [("n_fit", VInt 2)]%string = Ok c /\
  attr (c_attr c) "n_fit" = Ok (VInt 2) /\
  let good := [(1, 0); (1, 0); (1, 0); (1, 0)] in let bad := [(0, 0); (0, 0); (0, 0); (0, 0)] in
  (exists r, snd (cont_single_ind demo_solve demo_kkt c good) = Ok r) /\ (exists e, snd (cont_single_ind demo_solve demo_kkt c bad) = Raise e) /\
  mpi_ana_cont demo_solve demo_kkt c 2 2 [good; good] = analytic_continuation demo_solve demo_kkt c [good; good] /\
  mpi_ana_cont demo_solve demo_kkt c 2 2 [bad; good] = Raise RuntimeError.
Proof.
  assert (HS : forall q A, demo_solve q = Ok A -> zlen A = zlen (q_re_axis q)).
  { intros q A. unfold demo_solve. destruct (q_im_data q) as [|z l]; [discriminate|]. destruct (Req_EM_T (fst z) 0); [discriminate|]. intros E. injection E as <-. now rewrite zlen_map. }
  assert (HK : forall w A, zlen (demo_kkt w A) = zlen w) by (intros; apply zlen_map).
  destruct (C87_mesh "tan" (-15) 15 501 0.04 ltac:(cbn; tauto) ltac:(lia) ltac:(lra) ltac:(lra)) as (w & E & F).
  set (d := ([("n_fit", VInt 2); ("n_fit", VInt 60); ("loc", VDict [])] ++ MAX_ENT_DEFAULT_SETTINGS ++ fixed 10 "freq_fermionic")%list%string).
  exists (Controller d w). split.
  { unfold maxent_init. cbn [existsb String.eqb Ascii.eqb Bool.eqb SUPPORTED_KERNELS orb bind]. unfold set_w_mesh.
    cbn [attr lookup update app MAX_ENT_DEFAULT_SETTINGS String.eqb Ascii.eqb Bool.eqb bind as_str as_num as_int]. rewrite E. reflexivity. }
  split; [reflexivity|]. intros good bad.
  assert (Hgood : exists r, snd (cont_single_ind demo_solve demo_kkt (Controller d w) good) = Ok r).
  { cbn. unfold demo_solve. cbn. change (Pos.to_nat 2) with 2%nat. cbn. destruct (Req_EM_T 1 0); [lra|]. cbn. eexists. reflexivity. }
  assert (Hbad : exists e, snd (cont_single_ind demo_solve demo_kkt (Controller d w) bad) = Raise e).
  { cbn. unfold demo_solve. cbn. change (Pos.to_nat 2) with 2%nat. cbn. destruct (Req_EM_T 0 0); [|lra]. cbn. eexists. reflexivity. }
  split; [exact Hgood|]. split; [exact Hbad|]. split.
  - apply (C90_ranks demo_solve demo_kkt (Controller d w) 4 2 [good; good] HS HK); [cbn; lia|intros m [<-|[<-|[]]]; reflexivity|]. left. intros parts part Ep HP.
    assert (Ep2 : scatter 2 2 [good; good] = Ok [[good]; [good]]) by reflexivity. assert (parts = [[good]; [good]]) by (pose proof (eq_trans (eq_sym Ep) Ep2) as Q; injection Q as ->; reflexivity). subst parts. exists good. split; [|exact Hgood]. destruct HP as [<-|[<-|[]]]; now left.
  - destruct Hgood as (r & Hr). apply (C90_failed_rank_finding demo_solve demo_kkt (Controller d w) 4 2 [bad; good] [[bad]; [good]] [bad] [good] good r HS HK);
      [cbn; lia|intros m [<-|[<-|[]]]; reflexivity|reflexivity|reflexivity|now left|right; now left|intros m [<-|[]]; exact Hbad|now left|exact Hr].
Qed.
