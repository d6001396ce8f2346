From Coq Require Import ZArith Reals List String Lia Lra.
From Verif Require Import Base.PyBase Base.PyFacts Model.MpiAux Proofs.MpiAuxP Model.RealMesh Spec.RealMeshSpec Model.MaxEnt Spec.MaxEntSpec.
Import ListNotations.
Local Open Scope R_scope.

Lemma lookup_app (d e : dict) k : lookup (d ++ e) k = match lookup d k with Some v => Some v | None => lookup e k end.
Proof. induction d as [|[k' v] d IH]; cbn; [reflexivity|]. destruct (String.eqb k k'); [reflexivity|exact IH]. Qed.
Lemma lookup_update d e k : lookup (update d e) k = match lookup e k with Some v => Some v | None => lookup d k end.
Proof. apply lookup_app. Qed.
Lemma silent_lookup (d : dict) k : silent d k -> lookup d k = None.
Proof.
  induction d as [|[k' v] d IH]; intros H; cbn; [reflexivity|]. destruct (String.eqb_spec k k') as [->|]; [exfalso; apply (H v); now left|].
  apply IH. intros x Hx. apply (H x). now right.
Qed.
Lemma gives_lookup (d : dict) k v : gives d k v -> lookup d k = Some v.
Proof. intros (pre & post & -> & H). rewrite lookup_app, (silent_lookup pre k H). cbn. now rewrite String.eqb_refl. Qed.
Lemma lookup_gives (d : dict) k v : lookup d k = Some v -> gives d k v.
Proof.
  induction d as [|[k' u] d IH]; cbn; [discriminate|]. destruct (String.eqb_spec k k') as [->|N].
  - intros E. injection E as ->. exists [], d. split; [reflexivity|]. intros x [].
  - intros E. destruct (IH E) as (pre & post & -> & H). exists ((k', u) :: pre), post. split; [reflexivity|]. intros x [Hx|Hx]; [congruence|exact (H x Hx)].
Qed.
Lemma lookup_none_silent (d : dict) k : lookup d k = None -> silent d k.
Proof.
  induction d as [|[k' u] d IH]; cbn; intros E x; [tauto|]. destruct (String.eqb_spec k k') as [->|N]; [discriminate|]. intros [Hx|Hx]; [congruence|exact (IH E x Hx)].
Qed.

(** the attributes before the bosonic rules *)
Definition base_attr (beta : R) (km : string) (cfg : option dict) (kw : dict) : dict :=
  let d := update (update declared [("beta", VNum beta)]%string) [("kernel_mode", VStr km)]%string in
  let d := update d MAX_ENT_DEFAULT_SETTINGS in
  let d := match cfg with Some m => update d m | None => d end in update d kw.
Definition cfg_of (cfg : option dict) : dict := match cfg with Some m => m | None => [] end.
Definition fixed (beta : R) (km : string) : dict := [("kernel_mode", VStr km); ("beta", VNum beta)]%string ++ declared.
Lemma base_attr_eq beta km cfg kw : base_attr beta km cfg kw = (kw ++ cfg_of cfg ++ MAX_ENT_DEFAULT_SETTINGS ++ fixed beta km)%list.
Proof. unfold base_attr, update, cfg_of, fixed. destruct cfg; cbn [app]; reflexivity. Qed.
Lemma takes_base beta km cfg kw k v : takes [kw; cfg_of cfg; MAX_ENT_DEFAULT_SETTINGS; fixed beta km] k v -> lookup (base_attr beta km cfg kw) k = Some v.
Proof.
  intros (before & d & after & E & HS & HG). rewrite base_attr_eq.
  assert (G : forall l : list dict, lookup (concat l) k = fold_right (fun e o => match lookup e k with Some v => Some v | None => o end) None l).
  { induction l as [|e l IH]; cbn [concat fold_right]; [reflexivity|]. now rewrite lookup_app, IH. }
  replace (kw ++ cfg_of cfg ++ MAX_ENT_DEFAULT_SETTINGS ++ fixed beta km)%list with (concat (before ++ d :: after)).
  - rewrite G. clear E G. induction before as [|e before IH]; cbn [app fold_right]; [now rewrite (gives_lookup _ _ _ HG)|].
    inversion HS as [|? ? H1 H2]; subst. rewrite (silent_lookup _ _ H1). exact (IH H2).
  - rewrite <- E. cbn [concat]. now rewrite app_nil_r.
Qed.
(** the initialisation *)
Lemma init_unfold beta km cfg kw c : maxent_init beta km cfg kw = Ok c ->
  In km SUPPORTED_KERNELS /\ set_w_mesh (c_attr c) = Ok (c_w c) /\
  ((km <> "freq_bosonic"%string /\ c_attr c = base_attr beta km cfg kw) \/
   (km = "freq_bosonic"%string /\ exists bw force wmin x, let d := base_attr beta km cfg kw in
     lookup d "bw" = Some bw /\ lookup d "force_preblur" = Some force /\ lookup d "wmin" = Some wmin /\ as_num wmin = Ok x /\
     let d1 := if negb (is_zero bw) && negb (truthy force) then update d [("bw", VNum 0)]%string else d in
     c_attr c = if Rlt_dec x 0 then update d1 [("wmin", VNum 0)]%string else d1)).
Proof.
  unfold maxent_init. destruct (existsb _ _) eqn:HE; [|discriminate]. fold (base_attr beta km cfg kw). intros E.
  split. { apply existsb_exists in HE. destruct HE as (y & Hy & E1). apply String.eqb_eq in E1. now subst. }
  destruct (String.eqb_spec km "freq_bosonic") as [K|K].
  - unfold attr in E. destruct (lookup (base_attr beta km cfg kw) "bw") as [bw|] eqn:Eb; [|discriminate]. cbn [bind] in E.
    destruct (lookup (base_attr beta km cfg kw) "force_preblur") as [force|] eqn:Ef; [|discriminate]. cbn [bind] in E.
    set (d1 := if negb (is_zero bw) && negb (truthy force) then _ else _) in E.
    assert (Ew : lookup d1 "wmin" = lookup (base_attr beta km cfg kw) "wmin") by (subst d1; destruct (_ && _); [rewrite lookup_update|]; reflexivity).
    rewrite Ew in E. destruct (lookup (base_attr beta km cfg kw) "wmin") as [wmin|] eqn:E3; [|discriminate]. cbn [bind] in E.
    destruct (as_num wmin) as [x|] eqn:Ex; [|discriminate]. cbn [bind] in E.
    destruct (set_w_mesh _) as [w|] eqn:Em; [|discriminate]. cbn [bind] in E. injection E as <-. cbn [c_attr c_w]. split; [exact Em|]. right. split; [exact K|].
    exists bw, force, wmin, x. cbn zeta. repeat split; trivial.
  - cbn [bind] in E. destruct (set_w_mesh _) as [w|] eqn:Em; [|discriminate]. cbn [bind] in E. injection E as <-. cbn [c_attr c_w]. split; [exact Em|]. left. auto.
Qed.
(** integral of a constant *)
Lemma trapz_ones (w0 : R) w : trapz (map (fun _ => 1) (w0 :: w)) (w0 :: w) = last (w0 :: w) 0 - w0.
Proof.
  revert w0; induction w as [|w1 w IH]; intros w0; [cbn; lra|].
  change (trapz (map (fun _ => 1) (w0 :: w1 :: w)) (w0 :: w1 :: w)) with ((w1 - w0) * (1 + 1) / 2 + trapz (map (fun _ => 1) (w1 :: w)) (w1 :: w)).
  rewrite IH. change (last (w0 :: w1 :: w) 0) with (last (w1 :: w) 0). lra.
Qed.
Lemma last_zget (w : list R) x w1 : zget w (zlen w - 1) = Some w1 -> last w x = w1.
Proof.
  revert w1. induction w as [|a w IH]; intros w1; [unfold zget; cbn; discriminate|]. destruct w as [|b w].
  - cbn. intros E. injection E as ->. reflexivity.
  - intros E. change (last (a :: b :: w) x) with (last (b :: w) x). apply IH. rewrite <- E. rewrite (zlen_cons a (b :: w)).
    assert (zlen (b :: w) >= 1)%Z by (rewrite zlen_cons; pose proof (zlen_nonneg w); lia). unfold zget. destruct (Z.ltb_spec (zlen (b :: w) - 1) 0); [lia|]. destruct (Z.ltb_spec (1 + zlen (b :: w) - 1) 0); [lia|].
    replace (Z.to_nat (1 + zlen (b :: w) - 1)) with (S (Z.to_nat (zlen (b :: w) - 1))) by lia. reflexivity.
Qed.

Section Cont.
Variable solve : request -> res (list R).
Variable gf_kkt : list R -> list R -> list C.
(** the row of one momentum *)
Definition outcome (c : controller) (mat : list C) : row :=
  match snd (cont_single_ind solve gf_kkt c mat) with Ok x => x | Raise _ => RRow (map (fun _ => 0) (c_w c)) end.
Lemma cut_w c mat : c_w (fst (cut_matrix c mat)) = c_w c.
Proof. unfold cut_matrix. destruct (bind _ _); [|reflexivity]. cbn [fst]. destruct (_ <? _)%Z; reflexivity. Qed.
Lemma single_state c mat : fst (cont_single_ind solve gf_kkt c mat) = fst (cut_matrix c mat).
Proof. unfold cont_single_ind. destruct (cut_matrix c mat) as [c' [l|e]]; reflexivity. Qed.
(** the controller after one matrix treats matrices of the same size as before *)
Lemma cut_again c mat mat' : zlen mat = zlen mat' -> cut_matrix (fst (cut_matrix c mat)) mat' = cut_matrix c mat'.
Proof.
  intros HL. unfold cut_matrix at 2. destruct (let! n := attr (c_attr c) "n_fit" in as_int n) as [n|e] eqn:En; [|reflexivity]. cbn [fst].
  destruct (Z.ltb_spec (zlen mat / 2) n) as [H|H]; [|reflexivity].
  unfold cut_matrix. rewrite En. cbn [c_attr]. unfold attr at 1. rewrite lookup_update. cbn [lookup String.eqb Ascii.eqb Bool.eqb bind as_int c_w]. rewrite <- HL.
  destruct (Z.ltb_spec (zlen mat / 2) (zlen mat / 2)) as [H2|H2]; [lia|]. destruct (Z.ltb_spec (zlen mat / 2) n) as [H3|H3]; [|lia]. reflexivity.
Qed.
Lemma single_again c mat mat' : zlen mat = zlen mat' -> cont_single_ind solve gf_kkt (fst (cut_matrix c mat)) mat' = cont_single_ind solve gf_kkt c mat'.
Proof. intros H. unfold cont_single_ind. now rewrite cut_again. Qed.
Lemma cont_list_map c n mats : (forall mat, In mat mats -> zlen mat = n) -> cont_list solve gf_kkt c mats = map (outcome c) mats.
Proof.
  revert c. induction mats as [|mat mats IH]; intros c H; [reflexivity|]. cbn [cont_list map]. destruct (cont_single_ind solve gf_kkt c mat) as [c' r] eqn:E.
  assert (Ec : c' = fst (cut_matrix c mat)) by (rewrite <- single_state, E; reflexivity).
  assert (Ew : c_w c' = c_w c) by (rewrite Ec; apply cut_w). f_equal.
  - unfold outcome. rewrite E. cbn [snd]. now rewrite Ew.
  - rewrite IH; [|intros m Hm; apply H; now right]. apply map_ext_in. intros m Hm. unfold outcome. rewrite Ew, Ec. rewrite single_again; [reflexivity|].
    rewrite (H mat), (H m); [reflexivity|now right|now left].
Qed.
(** type and length of a row *)
Hypothesis solve_size : forall q A, solve q = Ok A -> zlen A = zlen (q_re_axis q).
Hypothesis kkt_size : forall w A, zlen (gf_kkt w A) = zlen w.
Lemma single_ok c mat r : snd (cont_single_ind solve gf_kkt c mat) = Ok r -> zlen (row_vals r) = zlen (c_w c) /\
  exists k, lookup (c_attr c) "kernel_mode" = Some (VStr k) /\ ((k = "freq_fermionic"%string /\ row_complex r = true) \/ (k = "freq_bosonic"%string /\ row_complex r = false)).
Proof.
  unfold cont_single_ind. pose proof (cut_w c mat) as Ew.
  assert (Ek : lookup (c_attr (fst (cut_matrix c mat))) "kernel_mode" = lookup (c_attr c) "kernel_mode").
  { unfold cut_matrix. destruct (bind _ _); [|reflexivity]. cbn [fst]. destruct (_ <? _)%Z; [|reflexivity]. cbn [c_attr]. now rewrite lookup_update. }
  destruct (cut_matrix c mat) as [c' [mp|e]]; cbn [fst snd] in *; [|discriminate].
  destruct (get_im_freq c') as [ia|]; [|discriminate]. cbn [bind]. destruct (get_model c' mat) as [mo|]; [|discriminate]. cbn [bind].
  unfold attr. destruct (lookup (c_attr c') "err") as [e|]; [|discriminate]. cbn [bind]. destruct (as_num e) as [er|]; [|discriminate]. cbn [bind].
  rewrite Ek. destruct (lookup (c_attr c) "kernel_mode") as [kv|]; [|discriminate]. cbn [bind]. destruct kv as [| |k| | |]; cbn [as_str bind]; try discriminate.
  destruct (beta_of _) as [b|]; [|discriminate]. cbn [bind].
  destruct (lookup (c_attr c') "method"); [|discriminate]. cbn [bind]. destruct (lookup (c_attr c') "alpha_det_method"); [|discriminate]. cbn [bind].
  destruct (lookup (c_attr c') "optimizer"); [|discriminate]. cbn [bind]. destruct (use_preblur c'); [|discriminate]. cbn [bind].
  destruct (lookup (c_attr c') "bw"); [|discriminate]. cbn [bind]. destruct (lookup (c_attr c') "alpha_start"); [|discriminate]. cbn [bind].
  destruct (lookup (c_attr c') "alpha_end"); [|discriminate]. cbn [bind]. destruct (lookup (c_attr c') "alpha_div"); [|discriminate]. cbn [bind].
  destruct (lookup (c_attr c') "fit_position"); [|discriminate]. cbn [bind].
  destruct (solve _) as [A|] eqn:Es; [|discriminate]. cbn [bind]. apply solve_size in Es. cbn [q_re_axis] in Es.
  destruct (String.eqb_spec k "freq_fermionic") as [K|K].
  - intros E. injection E as <-. cbn [row_vals row_complex]. rewrite kkt_size, Ew. split; [reflexivity|]. exists k. auto.
  - destruct (String.eqb_spec k "freq_bosonic") as [K2|K2]; [|discriminate]. intros E. injection E as <-. cbn [row_vals row_complex]. rewrite !zlen_map, Es, Ew. split; [reflexivity|]. exists k. auto.
Qed.
Lemma outcome_size c mat : zlen (row_vals (outcome c mat)) = zlen (c_w c).
Proof. unfold outcome. destruct (snd (cont_single_ind solve gf_kkt c mat)) as [r|e] eqn:E; [exact (proj1 (single_ok _ _ _ E))|]. cbn [row_vals]. now rewrite !zlen_map. Qed.
(** arrays *)
Lemma np_array_ok rows L : rows <> [] -> (forall r, In r rows -> zlen (row_vals r) = L) -> np_array rows = Ok (Arr2 (existsb row_complex rows) (map row_vals rows)).
Proof.
  intros HN H. unfold np_array. destruct rows as [|r rows]; [congruence|]. cbn [map].
  replace (forallb _ _) with true; [reflexivity|]. symmetry. apply forallb_forall. intros u Hu. change (row_vals r :: map row_vals rows) with (map row_vals (r :: rows)) in Hu.
  apply in_map_iff in Hu. destruct Hu as (x & <- & Hx). apply Z.eqb_eq. rewrite (H x Hx), (H r); [reflexivity|now left].
Qed.
Definition is_cx (c : controller) (mat : list C) : bool := row_complex (outcome c mat).
Lemma ana_ok c n mats : mats <> [] -> (forall mat, In mat mats -> zlen mat = n) ->
  analytic_continuation solve gf_kkt c mats = Ok (Arr2 (existsb (is_cx c) mats) (map (fun mat => row_vals (outcome c mat)) mats)).
Proof.
  intros HN H. unfold analytic_continuation. rewrite (cont_list_map c n mats H). rewrite (np_array_ok _ (zlen (c_w c))).
  - f_equal. f_equal; [|now rewrite map_map]. clear. induction mats as [|m mats IH]; cbn; [reflexivity|]. now rewrite IH.
  - destruct mats; [congruence|discriminate].
  - intros r Hr. apply in_map_iff in Hr. destruct Hr as (m & <- & _). apply outcome_size.
Qed.
Lemma parts_props n p (mat : list (list C)) : (1 <= p)%Z -> (p <= zlen mat)%Z -> (forall m, In m mat -> zlen m = n) ->
  exists parts, scatter (zlen mat) p mat = Ok parts /\ zlen parts = p /\ concat parts = mat /\ (forall part, In part parts -> part <> [] /\ forall m, In m part -> zlen m = n) /\
    Forall2 (fun c b => zlen b = c) (sizes (zlen mat) p) parts.
Proof.
  intros Hp HL H. pose proof (zlen_nonneg mat) as H0. eexists. split; [apply scatter_eq; lia|].
  assert (HC : concat (map (fun ab => slice mat (fst ab) (snd ab)) (intervals 0 (sizes (zlen mat) p))) = mat).
  { rewrite concat_intervals; [|intros x; apply sizes_nonneg; lia|lia|rewrite zsum_sizes; lia]. rewrite zsum_sizes by lia. rewrite Z.add_0_l. now rewrite slice_full. }
  assert (F : Forall2 (fun c b => zlen b = c) (sizes (zlen mat) p) (map (fun ab => slice mat (fst ab) (snd ab)) (intervals 0 (sizes (zlen mat) p)))).
  { apply intervals_lengths; [intros x; apply sizes_nonneg; lia|lia|rewrite zsum_sizes; lia]. }
  split; [rewrite zlen_map, zlen_intervals, zlen_sizes; lia|]. split; [exact HC|]. split; [|exact F]. intros part Hpart. split.
  - intros ->. apply In_zget in Hpart. destruct Hpart as (r & Hr & Er).
    assert (HF : forall (s : list Z) (l : list (list (list C))), Forall2 (fun c b => zlen b = c) s l -> forall r, zget l r = Some [] -> zget s r = Some 0%Z).
    { clear. intros s l F. induction F as [|c b s l Hb F IH]; intros r Er; [unfold zget in *; destruct (r <? 0)%Z; [discriminate|destruct (Z.to_nat r); discriminate]|].
      destruct (Z.eq_dec r 0) as [->|N]; [cbn in *; injection Er as ->; now rewrite <- Hb|]. unfold zget in *. destruct (Z.ltb_spec r 0); [discriminate|].
      destruct (Z.to_nat r) as [|k] eqn:Ek; [lia|]. cbn in Er |- *. specialize (IH (Z.of_nat k)). unfold zget in IH. destruct (Z.ltb_spec (Z.of_nat k) 0); [lia|]. rewrite Nat2Z.id in IH. now apply IH. }
    apply (HF _ _ F) in Er. rewrite zlen_map, zlen_intervals, zlen_sizes in Hr by lia. rewrite sizes_get in Er by lia. injection Er as Er.
    assert (1 <= zlen mat / p)%Z by (apply Z.div_le_lower_bound; lia). destruct (_ <=? _)%Z; lia.
  - intros m Hm. apply H. rewrite <- HC. apply in_concat. eauto.
Qed.
Lemma mapM_ok A B (f : A -> res B) g l : (forall x, In x l -> f x = Ok (g x)) -> mapM f l = Ok (map g l).
Proof. induction l as [|a l IH]; intros H; [reflexivity|]. cbn [mapM map]. rewrite H; [|now left]. cbn [bind]. rewrite IH; [reflexivity|]. intros x Hx. apply H. now right. Qed.
Lemma mpi_ok c n p mat cx : (1 <= p)%Z -> (p <= zlen mat)%Z -> (forall m, In m mat -> zlen m = n) ->
  (forall parts part, scatter (zlen mat) p mat = Ok parts -> In part parts -> existsb (is_cx c) part = cx) ->
  mpi_ana_cont solve gf_kkt c (zlen mat) p mat = Ok (Arr2 cx (map (fun m => row_vals (outcome c m)) mat)) /\ existsb (is_cx c) mat = cx.
Proof.
  intros Hp HL H HX. destruct (parts_props n p mat Hp HL H) as (parts & E & Lp & HC & HP & F). specialize (HX parts). unfold mpi_ana_cont. rewrite E. cbn [bind].
  rewrite (mapM_ok _ _ _ (fun part => Arr2 cx (map (fun m => row_vals (outcome c m)) part))).
  2: { intros part Hpart. destruct (HP part Hpart) as [N1 N2]. rewrite (ana_ok c n part N1 N2). now rewrite (HX part E Hpart). }
  cbn [bind]. set (g := fun m => row_vals (outcome c m)) in *. unfold gather_arr. destruct parts as [|p0 parts]; [rewrite zlen_nil in Lp; lia|]. cbn [map a_rows].
  destruct (HP p0 (or_introl eq_refl)) as [N1 _]. destruct p0 as [|m0 p0]; [congruence|]. cbn [map]. cbn [a_complex a_rows].
  set (bufs := Arr2 cx (g m0 :: map g p0) :: map (fun part => Arr2 cx (map g part)) parts).
  assert (EB : bufs = map (fun part => Arr2 cx (map g part)) ((m0 :: p0) :: parts)) by reflexivity.
  replace (forallb _ bufs) with true.
  2: { symmetry. apply forallb_forall. intros b Hb. rewrite EB in Hb. apply in_map_iff in Hb. destruct Hb as (part & <- & Hpart). cbn [a_rows a_complex]. destruct (map g part) eqn:Em; [reflexivity|]. rewrite <- Em.
       rewrite Bool.eqb_reflx. cbn [andb]. apply forallb_forall. intros v Hv. apply in_map_iff in Hv. destruct Hv as (m & <- & _). apply Z.eqb_eq. unfold g. now rewrite !outcome_size. }
  change ((g m0 :: map g p0) :: map a_rows (map (fun part => Arr2 cx (map g part)) parts)) with (map a_rows (map (fun part => Arr2 cx (map g part)) ((m0 :: p0) :: parts))).
  rewrite map_map. cbn [a_rows]. rewrite gather_eq; [|apply zlen_nonneg|lia|].
  - rewrite <- concat_map, HC. cbn [bind]. assert (Q : mapM (fun o : option (list C) => match o with Some x => Ok x | None => Raise RuntimeError end) (map Some (map g mat)) = Ok (map g mat)).
    { clear. induction (map g mat) as [|a l IH]; [reflexivity|]. cbn [map mapM bind]. now rewrite IH. }
    rewrite Q. cbn [bind]. split; [reflexivity|]. rewrite <- HC. 
    destruct cx eqn:Ecx.
    + apply existsb_exists. pose proof (HX (m0 :: p0) E (or_introl eq_refl)) as Q1. apply existsb_exists in Q1. destruct Q1 as (x & Hx & Q1). exists x. split; [|exact Q1]. cbn [concat]. apply in_or_app. now left.
    + apply Bool.not_true_is_false. intros Q1. apply existsb_exists in Q1. destruct Q1 as (x & Hx & Q1). apply in_concat in Hx. destruct Hx as (part & Hpart & Hx).
      pose proof (HX part E Hpart) as Q2. assert (existsb (is_cx c) part = true) by (apply existsb_exists; eauto). congruence.
  - clear - F. induction F as [|x b s l Hb F IH]; cbn [map]; constructor; [now rewrite zlen_map|exact IH].
Qed.
Lemma mpi_mixed c n p mat parts part1 part2 : (1 <= p)%Z -> (p <= zlen mat)%Z -> (forall m, In m mat -> zlen m = n) ->
  scatter (zlen mat) p mat = Ok parts -> In part1 parts -> In part2 parts -> existsb (is_cx c) part1 <> existsb (is_cx c) part2 ->
  mpi_ana_cont solve gf_kkt c (zlen mat) p mat = Raise RuntimeError.
Proof.
  intros Hp HL H E' H1 H2 HX. destruct (parts_props n p mat Hp HL H) as (parts' & E & Lp & HC & HP & F). assert (parts' = parts) by congruence. subst parts'. unfold mpi_ana_cont. rewrite E. cbn [bind].
  rewrite (mapM_ok _ _ _ (fun part => Arr2 (existsb (is_cx c) part) (map (fun m => row_vals (outcome c m)) part))).
  2: { intros part Hpart. destruct (HP part Hpart) as [N1 N2]. exact (ana_ok c n part N1 N2). }
  cbn [bind]. set (g := fun m => row_vals (outcome c m)) in *. unfold gather_arr. destruct parts as [|p0 parts]; [rewrite zlen_nil in Lp; lia|]. cbn [map a_rows].
  destruct (HP p0 (or_introl eq_refl)) as [N1 _]. destruct p0 as [|m0 p0]; [congruence|]. cbn [map a_rows a_complex].
  match goal with |- context [forallb ?f ?l] => replace (forallb f l) with false; [reflexivity|]; set (bufs := l) end.
  assert (EB : bufs = map (fun part => Arr2 (existsb (is_cx c) part) (map g part)) ((m0 :: p0) :: parts)) by reflexivity.
  symmetry. apply Bool.not_true_is_false. intros Q. rewrite forallb_forall in Q.
  assert (K : forall part, In part ((m0 :: p0) :: parts) -> existsb (is_cx c) part = existsb (is_cx c) (m0 :: p0)).
  { intros part Hpart. specialize (Q (Arr2 (existsb (is_cx c) part) (map g part))). cbn [a_rows a_complex] in Q.
    assert (HI : In (Arr2 (existsb (is_cx c) part) (map g part)) bufs) by (rewrite EB; apply (in_map (fun part => Arr2 (existsb (is_cx c) part) (map g part))); exact Hpart). specialize (Q HI).
    destruct (HP part Hpart) as [N2 _]. destruct part as [|m1 part]; [congruence|]. cbn [map] in Q. apply andb_prop in Q. destruct Q as [Q _]. now apply Bool.eqb_prop in Q. }
  apply HX. now rewrite (K part1 H1), (K part2 H2).
Qed.
End Cont.
