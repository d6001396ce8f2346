(** Property C98: the analytic-continuation run (dga/dga_max_ent.py).  [solve] and [gf_kkt] stand for the library ana_cont. *)
From Coq Require Import ZArith Reals List String Lia Lra.
From Verif Require Import Base.PyBase Base.PyFacts Base.Arr Spec.BZSpec Model.MpiAux Model.BrillouinZone Proofs.BrillouinZoneP Model.MaxEnt Proofs.MaxEntP Model.MaxEntRun Spec.MaxEntRunSpec
  Proofs.MaxEntRunP Proofs.MaxEntRunIndP Properties.MaxEntProps Properties.RealMeshProps.
Import ListNotations.
Local Open Scope R_scope.

(** the settings of the run, its grids and its data *)
Definition run_input (d : me_data) (nk nq : Z * Z * Z) (symk symq : list string) : Prop :=
  grid (d_kgrid d) nk symk /\ grid (d_qgrid d) nq symq /\ forall q n m, matsubara_data d q n = Ok m -> mesh_data m (grid_of nk nq q).
(** the number of frequencies fitted *)
Definition fits (c : controller) (n : Z) : Prop := (let! v := attr (c_attr c) "n_fit" in as_int v) = Ok n.

Lemma shift_0 v : shift_by 0 v = v.
Proof. unfold shift_by. rewrite <- (map_id v) at 2. apply map_ext. intros [a b]. cbn. now rewrite Rplus_0_r. Qed.
Definition sec solve gf_kkt d cfg p (q : quantity) :=
  me_section solve gf_kkt (d_beta d) (nk_irr (d_qgrid d)) p cfg (section_name q) (kernel q) (grid_of (d_kgrid d) (d_qgrid d) q)
    (match q with SelfEnergy => load_siw d | GreensFunction => fun _ => Ok (d_giw d) | ChiDensity => fun _ => d_chi_dens d | ChiMagnetic => fun _ => d_chi_magn d end)
    (match q with SelfEnergy => add_num (d_smom0 d) | _ => fun v => v end).
Lemma sections_eq solve gf_kkt d cfg p : me_sections solve gf_kkt d cfg p = map (fun q => (file_name q, sec solve gf_kkt d cfg p q)) all_quantities.
Proof. reflexivity. Qed.
Lemma load_data d q c m : (match q with SelfEnergy => load_siw d | GreensFunction => fun _ => Ok (d_giw d) | ChiDensity => fun _ => d_chi_dens d | ChiMagnetic => fun _ => d_chi_magn d end) c = Ok m ->
  exists n data, (q = SelfEnergy -> fits c n) /\ matsubara_data d q n = Ok data /\ m = map_mesh (shift_by (- constant_part d q)) data.
Proof.
  assert (Q : forall x : kmesh, map_mesh (shift_by (- 0)) x = x).
  { intros x. unfold map_mesh. rewrite <- (map_id x) at 2. apply map_ext. intros a. rewrite <- (map_id a) at 2. apply map_ext. intros b. rewrite <- (map_id b) at 2. apply map_ext. intros v. rewrite Ropp_0. apply shift_0. }
  destruct q; cbn.
  - unfold load_siw, fits. destruct (attr (c_attr c) "n_fit") as [v|]; [|discriminate]. cbn [bind]. destruct (as_int v) as [n|]; [|discriminate]. cbn [bind]. intros E. injection E as <-.
    exists n, (d_siw d n). split; [reflexivity|]. split; [reflexivity|]. reflexivity.
  - intros E. injection E as <-. exists 0%Z, (d_giw d). split; [discriminate|]. split; [reflexivity|]. now rewrite Q.
  - intros E. exists 0%Z, m. split; [discriminate|]. split; [exact E|]. now rewrite Q.
  - intros E. exists 0%Z, m. split; [discriminate|]. split; [exact E|]. now rewrite Q.
Qed.
Lemma mesh_data_shift r m n : mesh_data m n -> mesh_data (map_mesh (shift_by r) m) n.
Proof.
  destruct n as [[nx ny] nz]. intros [S (L & H)]. split; [now apply shape3_map|]. exists L. intros k v. rewrite at3_map. destruct (at3 m k) as [x|] eqn:E; [|discriminate]. cbn. intros Q. injection Q as <-. unfold shift_by. rewrite zlen_map. eauto.
Qed.
Lemma load_ok d nk nq symk symq q : run_input d nk nq symk symq -> forall c m,
  (match q with SelfEnergy => load_siw d | GreensFunction => fun _ => Ok (d_giw d) | ChiDensity => fun _ => d_chi_dens d | ChiMagnetic => fun _ => d_chi_magn d end) c = Ok m -> mesh_data m (grid_of nk nq q).
Proof. intros (_ & _ & HD) c m E. destruct (load_data d q c m E) as (n & data & _ & Ed & ->). apply mesh_data_shift. eauto. Qed.
Lemma grid_q d nk nq symk symq q : run_input d nk nq symk symq -> grid (grid_of (d_kgrid d) (d_qgrid d) q) (grid_of nk nq q) (grid_of symk symq q).
Proof. intros (G1 & G2 & _). destruct q; assumption. Qed.
Lemma q_pos d nk nq symk symq : run_input d nk nq symk symq -> (1 <= nk_irr (d_qgrid d))%Z.
Proof. intros (_ & G & _). destruct nq as [[a b] c]. exact (nk_irr_pos _ _ _ _ _ G). Qed.

(** What is saved, in a run that ends normally or with an error, on any number of ranks: the file of a requested quantity holds at every momentum the
    continued data of an equivalent momentum, the self-energy without its Hartree term, which is added back; the mesh is that of the settings. *)
Theorem C98_saved : forall solve gf_kkt d cfg p after nk nq symk symq, on_the_mesh solve gf_kkt -> run_input d nk nq symk symq -> (1 <= p)%Z ->
  forall file w m, In (file, (w, m)) (fst (max_ent_run solve gf_kkt d cfg p after)) ->
  exists q c n data, file = file_name q /\ requested d cfg q c /\ (q = SelfEnergy -> fits c n) /\ matsubara_data d q n = Ok data /\ w = c_w c /\
    forall k, mesh_point (grid_of nk nq q) k -> exists k0 x, mesh_point (grid_of nk nq q) k0 /\ equivalent (grid_of nk nq q) (grid_of symk symq q) k k0 /\ at3 data k0 = Some x /\
      at3 m k = Some (shift_by (constant_part d q) (continued solve gf_kkt c (shift_by (- constant_part d q) x))).
Proof.
  intros solve gf_kkt d cfg p after nk nq symk symq LIB RI Hp file w m H. unfold max_ent_run in H. apply run_in in H. rewrite sections_eq in H. apply in_map_iff in H. destruct H as (q & E & _). injection E as <- E.
  destruct (section_sound solve gf_kkt LIB _ _ _ _ _ _ _ _ _ _ _ _ _ (grid_q d nk nq symk symq q RI) Hp (q_pos d nk nq symk symq RI) (load_ok d nk nq symk symq q RI) E) as (kw & c & v & mm & E1 & E2 & E3 & E4 & E5 & Ew & _ & _ & _ & irr & full & _ & _ & _ & HK).
  destruct (load_data d q c mm E5) as (n & data & Hf & Ed & ->). exists q, c, n, data. split; [reflexivity|]. split; [now exists kw, v|]. split; [exact Hf|]. split; [exact Ed|]. split; [exact Ew|].
  intros k Hk. destruct (HK k Hk) as (k0 & x & H1 & H2 & H3 & H4). rewrite at3_map in H3. destruct (at3 data k0) as [y|] eqn:Ey; [|discriminate]. cbn in H3. injection H3 as <-.
  exists k0, y. split; [exact H1|]. split; [exact H2|]. split; [exact Ey|]. rewrite H4. f_equal. destruct q; cbn [constant_part]; [reflexivity| | |]; now rewrite shift_0.
Qed.
Print Assumptions C98_saved.
(** For data with the symmetries of the grid these are the data of the momentum itself. *)
Theorem C98_symmetric : forall solve gf_kkt d cfg p after nk nq symk symq, on_the_mesh solve gf_kkt -> run_input d nk nq symk symq -> (1 <= p)%Z ->
  (forall q n m, matsubara_data d q n = Ok m -> symmetric m (grid_of nk nq q) (grid_of symk symq q)) ->
  forall file w m, In (file, (w, m)) (fst (max_ent_run solve gf_kkt d cfg p after)) ->
  exists q c n data, file = file_name q /\ requested d cfg q c /\ (q = SelfEnergy -> fits c n) /\ matsubara_data d q n = Ok data /\ w = c_w c /\
    forall k, mesh_point (grid_of nk nq q) k -> exists x, at3 data k = Some x /\
      at3 m k = Some (shift_by (constant_part d q) (continued solve gf_kkt c (shift_by (- constant_part d q) x))).
Proof.
  intros solve gf_kkt d cfg p after nk nq symk symq LIB RI Hp HS file w m H. destruct (C98_saved solve gf_kkt d cfg p after nk nq symk symq LIB RI Hp file w m H) as (q & c & n & data & E1 & E2 & E3 & E4 & E5 & HK).
  exists q, c, n, data. split; [exact E1|]. split; [exact E2|]. split; [exact E3|]. split; [exact E4|]. split; [exact E5|]. intros k Hk. destruct (HK k Hk) as (k0 & x & _ & H2 & H3 & H4). exists x. split; [|exact H4].
  specialize (HS q n data E4). destruct (grid_of nk nq q) as [[nx ny] nz]. cbn in H2, HS. rewrite <- H3. eapply equiv_fun; eauto.
Qed.
Print Assumptions C98_symmetric.
(** The number of ranks does not matter for the results of runs that end normally. *)
Theorem C98_ranks : forall solve gf_kkt d cfg p p' after after' nk nq symk symq, on_the_mesh solve gf_kkt -> run_input d nk nq symk symq -> (1 <= p)%Z -> (1 <= p')%Z ->
  snd (max_ent_run solve gf_kkt d cfg p after) = None -> snd (max_ent_run solve gf_kkt d cfg p' after') = None ->
  fst (max_ent_run solve gf_kkt d cfg p after) = fst (max_ent_run solve gf_kkt d cfg p' after').
Proof.
  intros solve gf_kkt d cfg p p' after after' nk nq symk symq LIB RI Hp Hp' E E'. unfold max_ent_run in *. apply run_same; [exact E|exact E'|]. rewrite !sections_eq.
  assert (G : forall l, Forall2 (fun a b : string * res (option (list R * kmesh)) => fst a = fst b /\ (forall x y, snd a = Ok x -> snd b = Ok y -> x = y))
    (map (fun q => (file_name q, sec solve gf_kkt d cfg p q)) l) (map (fun q => (file_name q, sec solve gf_kkt d cfg p' q)) l)).
  { induction l as [|q l IH]; [constructor|]. constructor; [|exact IH]. cbn [fst snd]. split; [reflexivity|]. intros x y.
    exact (section_ranks solve gf_kkt LIB _ _ p p' _ _ _ _ _ _ _ _ x y (grid_q d nk nq symk symq q RI) Hp Hp' (q_pos d nk nq symk symq RI) (load_ok d nk nq symk symq q RI)). }
  apply G.
Qed.
Print Assumptions C98_ranks.
(** A run that ends normally has saved every requested quantity, and no other. *)
Theorem C98_all_requested : forall solve gf_kkt d cfg p after nk nq symk symq q, on_the_mesh solve gf_kkt -> run_input d nk nq symk symq -> (1 <= p)%Z ->
  snd (max_ent_run solve gf_kkt d cfg p after) = None ->
  ((exists c, requested d cfg q c) <-> exists x, In (file_name q, x) (fst (max_ent_run solve gf_kkt d cfg p after))).
Proof.
  intros solve gf_kkt d cfg p after nk nq symk symq q LIB RI Hp E. split.
  - intros (c & kw & v & E1 & E2 & E3 & E4). unfold max_ent_run in *. destruct (run_ok _ _ E (file_name q) (sec solve gf_kkt d cfg p q)) as (o & Eo & Ho).
    { rewrite sections_eq. apply in_map_iff. exists q. split; [reflexivity|]. destruct q; cbn; tauto. }
    destruct o as [x|]; [exists x; now apply Ho|]. exfalso. exact (section_not_none _ _ _ _ _ _ _ _ _ _ _ kw c v E1 E2 E3 E4 Eo).
  - intros ([w m] & H). destruct (C98_saved solve gf_kkt d cfg p after nk nq symk symq LIB RI Hp _ w m H) as (q' & c & _ & _ & Ef & HR & _). assert (q' = q) by (destruct q, q'; (reflexivity || discriminate Ef)). subst q'. now exists c.
Qed.
Print Assumptions C98_all_requested.
(** When a run ends normally: the grids have equally many irreducible momenta, there are not more ranks than these, and every section that is there is
    well-formed, has data and is either switched off or fermionic with all continuations succeeding (or all failing), or bosonic. *)
Theorem C98_completes : forall solve gf_kkt d cfg p nk nq symk symq, on_the_mesh solve gf_kkt -> run_input d nk nq symk symq ->
  nk_irr (d_kgrid d) = nk_irr (d_qgrid d) -> (1 <= p <= nk_irr (d_qgrid d))%Z ->
  (forall q, lookup cfg (section_name q) = None \/ exists kw c v, lookup cfg (section_name q) = Some (VDict kw) /\
     (forall k x, In (k, x) kw -> ~ In k ["self"; "beta"; "kernel_mode"; "comm"; "me_config"]%string) /\
     maxent_init (d_beta d) (kernel q) (Some cfg) kw = Ok c /\ attr (c_attr c) "do_cont" = Ok v /\ (truthy v = false \/
     exists n data, fits c n /\ matsubara_data d q n = Ok data /\
       let succeeds k := exists x r, at3 data k = Some x /\ snd (cont_single_ind solve gf_kkt c (shift_by (- constant_part d q) x)) = Ok r in
       (forall k, mesh_point (grid_of nk nq q) k -> succeeds k) \/ (forall k, ~ succeeds k) \/ (q = ChiDensity \/ q = ChiMagnetic) /\ attr (c_attr c) "kernel_mode" = Ok (VStr "freq_bosonic"))) ->
  snd (max_ent_run solve gf_kkt d cfg p (fun _ => None)) = None.
Proof.
  intros solve gf_kkt d cfg p nk nq symk symq LIB RI HN Hp H. unfold max_ent_run.
  assert (G : forall q, exists o, sec solve gf_kkt d cfg p q = Ok o).
  { intros q. destruct (H q) as [E|(kw & c & v & E1 & HNm & E2 & E3 & H4)]; [unfold sec, me_section; rewrite E; eexists; reflexivity|].
    assert (Q : section_kwargs (VDict kw) = Ok kw).
    { unfold section_kwargs. replace (existsb _ kw) with false; [reflexivity|]. symmetry. apply Bool.not_true_is_false. intros Q. apply existsb_exists in Q. destruct Q as ([k x] & Hin & Hk). apply existsb_exists in Hk. destruct Hk as (y & Hy & Ek). apply String.eqb_eq in Ek. cbn [fst] in Ek. subst y. exact (HNm k x Hin Hy). }
    destruct H4 as [Tv|(n & data & Hf & Ed & HS)]; [unfold sec, me_section; rewrite E1, Q; cbn [bind]; rewrite E2; cbn [bind]; rewrite E3; cbn [bind]; rewrite Tv; eexists; reflexivity|].
    destruct (truthy v) eqn:Tv; [|unfold sec, me_section; rewrite E1, Q; cbn [bind]; rewrite E2; cbn [bind]; rewrite E3; cbn [bind]; rewrite Tv; eexists; reflexivity].
    assert (EL : (match q with SelfEnergy => load_siw d | GreensFunction => fun _ => Ok (d_giw d) | ChiDensity => fun _ => d_chi_dens d | ChiMagnetic => fun _ => d_chi_magn d end) c = Ok (map_mesh (shift_by (- constant_part d q)) data)).
    { assert (Q0 : forall x : kmesh, map_mesh (shift_by (- 0)) x = x).
      { intros x. unfold map_mesh. rewrite <- (map_id x) at 2. apply map_ext. intros a. rewrite <- (map_id a) at 2. apply map_ext. intros b. rewrite <- (map_id b) at 2. apply map_ext. intros u. rewrite Ropp_0. apply shift_0. }
      destruct q; cbn in Ed |- *; [|injection Ed as <-; now rewrite Q0|rewrite Q0; exact Ed|rewrite Q0; exact Ed]. unfold load_siw. unfold fits in Hf. destruct (attr (c_attr c) "n_fit"); [|discriminate]. cbn [bind] in *. rewrite Hf. cbn [bind]. injection Ed as <-. reflexivity. }
    assert (HD : mesh_data data (grid_of nk nq q)) by (destruct RI as (_ & _ & RD); eauto).
    assert (EN : nk_irr (d_qgrid d) = nk_irr (grid_of (d_kgrid d) (d_qgrid d) q)) by (destruct q; cbn; congruence).
    unfold sec. rewrite EN. rewrite EN in Hp. edestruct (section_complete solve gf_kkt LIB (d_beta d) p cfg (section_name q) (kernel q)) as (x & Ex); [exact (grid_q d nk nq symk symq q RI)|exact Hp|exact (mesh_data_shift (- constant_part d q) data _ HD)|exact E1|exact Q|exact E2|exact E3|exact Tv|exact EL| |eexists; exact Ex].
    unfold succeeds. assert (HM : forall k x, at3 data k = Some x -> mesh_point (grid_of nk nq q) k).
    { intros k x Hk. destruct (grid_of nk nq q) as [[nx ny] nz]. destruct HD as [[S1 S2] _]. destruct k as [[a b] e]. cbn in Hk. unfold get3, get2 in Hk. destruct (zget data a) as [r|] eqn:Ea; [|discriminate]. cbn in Hk. destruct (zget r b) as [s|] eqn:Eb; [|discriminate]. cbn in Hk.
      destruct (S2 r (@zget_In _ _ _ _ Ea)) as [S3 S4]. pose proof (S4 s (@zget_In _ _ _ _ Eb)) as S5. assert (R : forall A (l : list A) i y, zget l i = Some y -> (0 <= i < zlen l)%Z).
      { intros A l i y Hi. destruct (Z.lt_ge_cases i 0); [unfold zget in Hi; destruct (Z.ltb_spec i 0); [discriminate|lia]|]. destruct (Z.lt_ge_cases i (zlen l)); [lia|]. rewrite zget_ge in Hi by assumption. discriminate. }
      pose proof (R _ _ _ _ Ea). pose proof (R _ _ _ _ Eb). pose proof (R _ _ _ _ Hk). cbn. lia. }
    cbn zeta in HS. destruct HS as [HS|[HS|[_ HS]]].
    - left. intros k x. rewrite at3_map. destruct (at3 data k) as [y|] eqn:Ey; [|discriminate]. cbn. intros E. injection E as <-. destruct (HS k (HM k y Ey)) as (x & r & E & Hr). assert (x = y) by congruence. subst x. now exists r.
    - right. left. intros k x. rewrite at3_map. destruct (at3 data k) as [y|] eqn:Ey; [|discriminate]. cbn. intros E. injection E as <-. intros (r & Hr). apply (HS k). now exists y, r.
    - right. right. exact HS. }
  rewrite sections_eq. generalize all_quantities. induction l as [|q l IH]; [reflexivity|]. cbn [map run_sections]. destruct (G q) as (o & ->). destruct o; [|exact IH]. destruct (run_sections _ _) as [fs e]. exact IH.
Qed.
Print Assumptions C98_completes.
(** What has been saved before an error stays: the files are the first ones of those of the run in which nothing fails after a save, in the order
    self-energy, Green's function, density, magnetic. *)
Theorem C98_prefix : forall solve gf_kkt d cfg p after,
  (exists rest, fst (max_ent_run solve gf_kkt d cfg p (fun _ => None)) = (fst (max_ent_run solve gf_kkt d cfg p after) ++ rest)%list) /\
  exists chosen : quantity -> bool, map fst (fst (max_ent_run solve gf_kkt d cfg p after)) = map file_name (filter chosen all_quantities).
Proof.
  intros solve gf_kkt d cfg p after. split; [apply run_prefix|]. unfold max_ent_run. rewrite sections_eq.
  assert (G : forall l, NoDup l -> exists chosen, map fst (fst (run_sections after (map (fun q => (file_name q, sec solve gf_kkt d cfg p q)) l))) = map file_name (filter chosen l)).
  { induction l as [|q l IH]; intros ND; [exists (fun _ => true); reflexivity|]. inversion ND; subst. destruct (IH H2) as (ch & E). cbn [map run_sections]. destruct (sec solve gf_kkt d cfg p q) as [[x|]|e].
    - destruct (after (file_name q)).
      + exists (fun q' => if (String.eqb (file_name q') (file_name q)) then true else false). cbn [filter map fst]. rewrite String.eqb_refl. cbn [map]. f_equal. assert (F : filter (fun q' => if String.eqb (file_name q') (file_name q) then true else false) l = []).
        { clear - H1. induction l as [|a l IH]; [reflexivity|]. cbn [filter]. destruct (String.eqb_spec (file_name a) (file_name q)) as [E|E]; [exfalso; apply H1; left; destruct a, q; (reflexivity || discriminate E)|]. apply IH. intros Q. apply H1. now right. }
        now rewrite F.
      + destruct (run_sections after _) as [fs e]. cbn [fst map] in *. exists (fun q' => if String.eqb (file_name q') (file_name q) then true else ch q'). cbn [filter]. rewrite String.eqb_refl. cbn [map]. f_equal. rewrite E. f_equal. apply filter_ext_in. intros a Ha.
        destruct (String.eqb_spec (file_name a) (file_name q)) as [Q|Q]; [exfalso; apply H1; destruct a, q; (exact Ha || discriminate Q)|reflexivity].
    - exists (fun q' => if String.eqb (file_name q') (file_name q) then false else ch q'). cbn [filter]. rewrite String.eqb_refl. rewrite E. f_equal. apply filter_ext_in. intros a Ha. destruct (String.eqb_spec (file_name a) (file_name q)) as [Q|Q]; [exfalso; apply H1; destruct a, q; (exact Ha || discriminate Q)|reflexivity].
    - exists (fun _ => false). cbn [fst map]. assert (F : filter (fun _ : quantity => false) (q :: l) = []) by (clear; induction (q :: l) as [|a l' IH]; [reflexivity|exact IH]). now rewrite F. }
  apply G. repeat constructor; cbn; intuition discriminate.
Qed.
Print Assumptions C98_prefix.
(** The settings of one section do not reach another one: configurations that differ in sections of other quantities give the same file. *)
Theorem C98_sections_independent : forall solve gf_kkt d cfg cfg' p q x,
  (forall k, (forall q', q' <> q -> k <> section_name q') -> k <> "loc"%string -> lookup cfg k = lookup cfg' k) ->
  snd (max_ent_run solve gf_kkt d cfg p (fun _ => None)) = None -> snd (max_ent_run solve gf_kkt d cfg' p (fun _ => None)) = None ->
  In (file_name q, x) (fst (max_ent_run solve gf_kkt d cfg p (fun _ => None))) -> In (file_name q, x) (fst (max_ent_run solve gf_kkt d cfg' p (fun _ => None))).
Proof.
  intros solve gf_kkt d cfg cfg' p q x H E E' Hin. unfold max_ent_run in *. apply run_in in Hin. rewrite sections_eq in Hin. apply in_map_iff in Hin. destruct Hin as (q' & Eq & _). injection Eq as Ef Es.
  assert (q' = q) by (destruct q, q'; (reflexivity || discriminate Ef)). subst q'.
  assert (Q : sec solve gf_kkt d cfg p q = sec solve gf_kkt d cfg' p q).
  { apply section_sim.
    - intros k N. apply H; [|intros ->; apply N; cbn; tauto]. intros q' _ ->. apply N. destruct q'; cbn; tauto.
    - apply H; [|destruct q; discriminate]. intros q' N Q. apply N. destruct q, q'; (reflexivity || discriminate Q).
    - intros c c' [_ S]. destruct q; try reflexivity. unfold load_siw. rewrite (agree_attr _ _ "n_fit" S); [reflexivity|]. notin. }
  destruct (run_ok _ _ E' (file_name q) (sec solve gf_kkt d cfg' p q)) as (o & Eo & Ho).
  { rewrite sections_eq. apply in_map_iff. exists q. split; [reflexivity|]. destruct q; cbn; tauto. }
  apply Ho. congruence.
Qed.
Print Assumptions C98_sections_independent.
(** Finding: the tasks are counted on the grid of the susceptibilities.  If it has another number of irreducible momenta than the grid of the self-energy,
    a run that is to continue the self-energy ends with an error and saves nothing at all. *)
Theorem C98_other_grid_refuted : forall solve gf_kkt d cfg p after nk nq symk symq c n, on_the_mesh solve gf_kkt -> run_input d nk nq symk symq -> (1 <= p)%Z ->
  requested d cfg SelfEnergy c -> fits c n -> nk_irr (d_kgrid d) <> nk_irr (d_qgrid d) ->
  exists e, max_ent_run solve gf_kkt d cfg p after = ([], Some e).
Proof.
  intros solve gf_kkt d cfg p after nk nq symk symq c n LIB RI Hp (kw & v & E1 & E2 & E3 & E4) Hf N. unfold max_ent_run. rewrite sections_eq. cbn [all_quantities map run_sections].
  destruct (section_mismatch solve gf_kkt LIB (d_beta d) (nk_irr (d_qgrid d)) p cfg "s_dga" "freq_fermionic" (d_kgrid d) nk symk (load_siw d) (add_num (d_smom0 d)) kw c v (map_mesh (add_num (- d_smom0 d)) (d_siw d n))) as (e & Ee).
  - apply RI.
  - exact Hp.
  - eapply q_pos; eauto.
  - apply (mesh_data_shift (- d_smom0 d)). destruct RI as (_ & _ & HD). exact (HD SelfEnergy n _ eq_refl).
  - congruence.
  - exact E1.
  - exact E2.
  - exact E3.
  - exact E4.
  - unfold load_siw. unfold fits in Hf. destruct (attr (c_attr c) "n_fit"); [|discriminate]. cbn [bind] in *. rewrite Hf. reflexivity.
  - exists e. unfold sec. cbn [section_name kernel grid_of]. now rewrite Ee.
Qed.
Print Assumptions C98_other_grid_refuted.
(** The hypotheses can be met: a 2x2x1 mesh with the symmetries of the square (three irreducible momenta), two ranks, the self-energy and one
    susceptibility; with a 1x1x1 mesh for the susceptibilities the second theorem applies. *)
Definition demo_mesh (nx ny : nat) (v : list C) : kmesh := repeat (repeat [v] ny) nx.
Definition demo_syms : list string := ["x-inv"; "y-inv"; "x-y-sym"]%string.
Definition demo_data (gk gq : kgrid) (nq : nat) : me_data :=
  {| d_beta := 10; d_kgrid := gk; d_qgrid := gq; d_siw := fun n => demo_mesh 2 2 (repeat (3, 0) (Z.to_nat (2 * n))); d_smom0 := 2; d_giw := demo_mesh 2 2 [(1, 0)];
     d_chi_dens := Raise FileNotFoundError; d_chi_magn := Ok (demo_mesh nq nq [(1, 0); (1, 0); (1, 0)]) |}.
Definition demo_cfg : dict := [("nwr", VInt 101); ("s_dga", VDict [("n_fit", VInt 2)]); ("chi_m", VDict []); ("g_dga", VDict [("do_cont", VBool false)])]%string.
Lemma demo_lib : on_the_mesh demo_solve demo_kkt.
Proof.
  split; [|intros; apply zlen_map]. intros q A. unfold demo_solve. destruct (q_im_data q) as [|z l]; [discriminate|]. destruct (Req_EM_T (fst z) 0); [discriminate|]. intros E. injection E as <-. now rewrite zlen_map.
Qed.
Lemma demo_mesh_ok nx ny v : mesh_data (demo_mesh nx ny v) (Z.of_nat nx, Z.of_nat ny, 1%Z).
Proof.
  split.
  - split; [unfold demo_mesh; now rewrite zlen_repeat|]. intros r Hr. apply repeat_spec in Hr. subst r. split; [now rewrite zlen_repeat|]. intros x Hx. apply repeat_spec in Hx. now subst x.
  - exists (zlen v). intros [[x y] z] u. cbn. unfold get3, get2, demo_mesh. destruct (zget (repeat (repeat [v] ny) nx) x) as [r|] eqn:E1; [|discriminate]. cbn. apply zget_In, repeat_spec in E1. subst r. destruct (zget (repeat [v] ny) y) as [r|] eqn:E2; [|discriminate]. cbn.
    apply zget_In, repeat_spec in E2. subst r. intros E3. apply zget_In in E3. destruct E3 as [<-|[]]. reflexivity.
Qed.
Lemma demo_input gk gq nq : (nq = 1 \/ nq = 2)%nat -> make_kgrid 2 2 1 demo_syms = Ok gk -> make_kgrid (Z.of_nat nq) (Z.of_nat nq) 1 demo_syms = Ok gq ->
  run_input (demo_data gk gq nq) (2, 2, 1)%Z (Z.of_nat nq, Z.of_nat nq, 1%Z) demo_syms demo_syms.
Proof.
  intros Hn Ek Eq. assert (K : Forall known demo_syms) by (repeat constructor; unfold known; cbn; tauto). split; [|split].
  - repeat split; try lia; assumption.
  - repeat split; try lia; assumption.
  - intros q n m. destruct q; cbn; intros E; try discriminate; injection E as <-; [apply (demo_mesh_ok 2 2)|apply (demo_mesh_ok 2 2)|apply (demo_mesh_ok nq nq)].
Qed.
Lemma demo_init kn kw : In (kn, kw) [("freq_fermionic", [("n_fit", VInt 2)]); ("freq_bosonic", []); ("freq_fermionic", [("do_cont", VBool false)])]%string ->
  exists c, maxent_init 10 kn (Some demo_cfg) kw = Ok c /\ attr (c_attr c) "kernel_mode" = Ok (VStr kn) /\ attr (c_attr c) "do_cont" = Ok (match kw with [(_, VBool b)] => VBool b | _ => VBool true end) /\
    fits c (match kw with [(_, VInt n)] => n | _ => 20%Z end) /\ (kn = "freq_fermionic"%string -> exists w, c = Controller (base_attr 10 kn (Some demo_cfg) kw) w).
Proof.
  intros H. cbn [In] in H. destruct H as [H|[H|[H|[]]]]; injection H as <- <-.
  - destruct (C87_mesh "tan" (-15) 15 101 0.04 ltac:(cbn; tauto) ltac:(lia) ltac:(lra) ltac:(lra)) as (w & E & _). exists (Controller (base_attr 10 "freq_fermionic" (Some demo_cfg) [("n_fit", VInt 2)]%string) w). repeat split; [|intros _; now exists w].
    unfold maxent_init. cbn [existsb String.eqb Ascii.eqb Bool.eqb SUPPORTED_KERNELS orb bind]. unfold set_w_mesh. cbn [attr lookup update app demo_cfg MAX_ENT_DEFAULT_SETTINGS String.eqb Ascii.eqb Bool.eqb bind as_str as_num as_int]. rewrite E. reflexivity.
  - destruct (C87_mesh "tan" 0 15 101 0.04 ltac:(cbn; tauto) ltac:(lia) ltac:(lra) ltac:(lra)) as (w & E & _).
    assert (Z : is_zero (VNum 0.01) = false) by (unfold is_zero; cbn [as_num]; destruct (Req_EM_T 0.01 0); [lra|reflexivity]).
    eexists. split; [|split; [|split; [|split]]].
    + unfold maxent_init. cbn [existsb String.eqb Ascii.eqb Bool.eqb SUPPORTED_KERNELS orb]. cbn [attr lookup update app demo_cfg MAX_ENT_DEFAULT_SETTINGS declared String.eqb Ascii.eqb Bool.eqb bind as_str as_num as_int truthy negb]. rewrite Z. cbn [negb andb].
      cbn [attr lookup update app String.eqb Ascii.eqb Bool.eqb bind as_num]. destruct (Rlt_dec (-15) 0) as [_|N]; [|lra]. unfold set_w_mesh.
      cbn [attr lookup update app String.eqb Ascii.eqb Bool.eqb bind as_str as_num as_int]. rewrite E. reflexivity.
    + reflexivity.
    + reflexivity.
    + reflexivity.
    + discriminate.
  - destruct (C87_mesh "tan" (-15) 15 101 0.04 ltac:(cbn; tauto) ltac:(lia) ltac:(lra) ltac:(lra)) as (w & E & _). exists (Controller (base_attr 10 "freq_fermionic" (Some demo_cfg) [("do_cont", VBool false)]%string) w). repeat split; [|intros _; now exists w].
    unfold maxent_init. cbn [existsb String.eqb Ascii.eqb Bool.eqb SUPPORTED_KERNELS orb bind]. unfold set_w_mesh. cbn [attr lookup update app demo_cfg MAX_ENT_DEFAULT_SETTINGS String.eqb Ascii.eqb Bool.eqb bind as_str as_num as_int]. rewrite E. reflexivity.
Qed.
Example C98_case : exists gk g1, make_kgrid 2 2 1 demo_syms = Ok gk /\ make_kgrid 1 1 1 demo_syms = Ok g1 /\ nk_irr gk = 3%Z /\ nk_irr g1 = 1%Z /\
  (let d := demo_data gk gk 2 in snd (max_ent_run demo_solve demo_kkt d demo_cfg 2 (fun _ => None)) = None /\
     (exists x, In (file_name SelfEnergy, x) (fst (max_ent_run demo_solve demo_kkt d demo_cfg 2 (fun _ => None)))) /\
     (exists x, In (file_name ChiMagnetic, x) (fst (max_ent_run demo_solve demo_kkt d demo_cfg 2 (fun _ => None))))) /\
  (let d := demo_data gk g1 1 in exists e, max_ent_run demo_solve demo_kkt d demo_cfg 1 (fun _ => None) = ([], Some e)).
Proof.
  destruct (make_kgrid 2 2 1 demo_syms) as [gk|] eqn:Ek; [|vm_compute in Ek; discriminate]. destruct (make_kgrid 1 1 1 demo_syms) as [g1|] eqn:E1; [|vm_compute in E1; discriminate].
  exists gk, g1. assert (Nk : nk_irr gk = 3%Z) by (vm_compute in Ek; injection Ek as <-; reflexivity). assert (N1 : nk_irr g1 = 1%Z) by (vm_compute in E1; injection E1 as <-; reflexivity).
  split; [reflexivity|]. split; [reflexivity|]. split; [exact Nk|]. split; [exact N1|].
  destruct (demo_init "freq_fermionic" [("n_fit", VInt 2)]%string ltac:(now left)) as (cs & Is & Ks & Ds & Fs & Ws). destruct (demo_init "freq_bosonic" [] ltac:(right; now left)) as (cm & Im & Km & Dm & Fm & _).
  destruct (demo_init "freq_fermionic" [("do_cont", VBool false)]%string ltac:(right; right; now left)) as (cg & Ig & Kg & Dg & Fg & _).
  split.
  - cbn zeta. assert (RI := demo_input gk gk 2 ltac:(auto) Ek Ek). set (d := demo_data gk gk 2) in *. assert (C : snd (max_ent_run demo_solve demo_kkt d demo_cfg 2 (fun _ => None)) = None).
    { apply (C98_completes demo_solve demo_kkt d demo_cfg 2 _ _ _ _ demo_lib RI); [reflexivity|cbn; lia|]. intros q. destruct q.
      - right. exists [("n_fit", VInt 2)]%string, cs, (VBool true). split; [reflexivity|]. split; [intros k x [H|[]]; injection H as <- <-; cbn; intuition discriminate|]. split; [exact Is|]. split; [exact Ds|]. right.
        exists 2%Z, (d_siw d 2). split; [exact Fs|]. split; [reflexivity|]. left. intros [[x y] z] (Hx & Hy & Hz). assert (z = 0%Z) by lia. subst z. exists (repeat (3, 0) 4).
        assert (exists r, snd (cont_single_ind demo_solve demo_kkt cs (shift_by (- 2) (repeat (3, 0) 4))) = Ok r) as (r & Hr).
        { destruct (Ws eq_refl) as (w & ->). cbn. unfold demo_solve. cbn. change (Pos.to_nat 2) with 2%nat. cbn. match goal with |- context[Req_EM_T ?a 0] => destruct (Req_EM_T a 0); [lra|] end. cbn. eexists. reflexivity. }
        exists r. split; [|exact Hr]. assert (x = 0 \/ x = 1)%Z as [-> | ->] by lia; assert (y = 0 \/ y = 1)%Z as [-> | ->] by lia; reflexivity.
      - right. exists [("do_cont", VBool false)]%string, cg, (VBool false). split; [reflexivity|]. split; [intros k x [H|[]]; injection H as <- <-; cbn; intuition discriminate|]. split; [exact Ig|]. split; [exact Dg|]. now left.
      - now left.
      - right. exists [], cm, (VBool true). split; [reflexivity|]. split; [intros k x []|]. split; [exact Im|]. split; [exact Dm|]. right. exists 20%Z. eexists. split; [exact Fm|]. split; [reflexivity|]. right. right. split; [now right|exact Km]. }
    split; [exact C|]. split.
    + apply (C98_all_requested demo_solve demo_kkt d demo_cfg 2 _ _ _ _ _ SelfEnergy demo_lib RI ltac:(lia) C). exists cs, [("n_fit", VInt 2)]%string, (VBool true). split; [reflexivity|]. split; [exact Is|]. split; [exact Ds|reflexivity].
    + apply (C98_all_requested demo_solve demo_kkt d demo_cfg 2 _ _ _ _ _ ChiMagnetic demo_lib RI ltac:(lia) C). exists cm, [], (VBool true). split; [reflexivity|]. split; [exact Im|]. split; [exact Dm|reflexivity].
  - cbn zeta. assert (RI := demo_input gk g1 1 ltac:(auto) Ek E1). apply (C98_other_grid_refuted demo_solve demo_kkt _ demo_cfg 1 _ _ _ _ _ cs 2 demo_lib RI ltac:(lia)).
    + exists [("n_fit", VInt 2)]%string, (VBool true). split; [reflexivity|]. split; [exact Is|]. split; [exact Ds|reflexivity].
    + exact Fs.
    + cbn. lia.
Qed.
