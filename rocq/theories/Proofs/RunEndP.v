(** The end of a whole run (Model/RunFiles.v): the files that are left, and what happens with settings that do not fit together. *)
From Coq Require Import List String Bool Arith Lia.
From Verif Require Import Model.RunFiles Spec.RunFilesSpec Proofs.RunSyncP Proofs.RunFilesP.
Import ListNotations.
Local Open Scope string_scope.
Local Open Scope list_scope.
Local Open Scope nat_scope.

Section End_.
Variable fl : flags.
Variable n : nat.
Notation prog := (dga_prog fl n).
Notation reach := (run_of n no_files prog).

Lemma no_raise j r : reach j -> r < n -> (r = 0 -> fitting fl) -> ~ raises j r.
Proof. intros Hj Hr F. apply (safe_all n no_files prog owner (owned fl n) (colls fl) (fun r _ => same_colls fl n r) j r Hj Hr). now apply prog_good. Qed.
Lemma go_on j : reach j -> (forall r, r < n -> finished j r) \/ (exists j', step n j j') \/ (exists r, r < n /\ raises j r).
Proof. apply (progress n no_files prog owner (owned fl n) (colls fl) (fun r _ => same_colls fl n r)). Qed.

(** * Files left at the end *)
Definition saved (l : list action) : list string := flat_map (fun a => match a with Save (RunFile x) => [x] | _ => [] end) l.
Definition cleaned (l : list action) : list string := flat_map (fun a => match a with Clean (RunFile x) => [x] | _ => [] end) l.
Definition run_only (l : list action) : Prop := forall a, In a l -> match a with Create (RunFile _) | Put (RunFile _) _ => False | _ => True end.
Lemma saved_app a b : saved (a ++ b) = saved a ++ saved b. Proof. unfold saved. apply flat_map_app. Qed.
Lemma cleaned_app a b : cleaned (a ++ b) = cleaned a ++ cleaned b. Proof. unfold cleaned. apply flat_map_app. Qed.
Lemma saved_ranks name : saved (fetch_ranks n name) = []. Proof. unfold fetch_ranks. induction (seq 0 n); cbn; auto. Qed.
Lemma cleaned_ranks name : cleaned (fetch_ranks n name) = []. Proof. unfold fetch_ranks. induction (seq 0 n); cbn; auto. Qed.
Lemma saved_all : saved (prog 0) = written_files fl.
Proof.
  unfold dga_prog. rewrite !saved_app.
  assert (E1 : saved (prog_setup fl 0) = ["dmft_input.npy"; "wannier_hr.dat"; "dga_config.yaml"] ++ given (poly fl) ["PolyFits/Giwk_dmft_poly_cont_.npy"; "PolyFits/Siw_DMFT_polyfit.txt"] ++
    given (verbose fl) ["gamma_dens.npy"; "gamma_magn.npy"; "siw_sde_full.npy"; "chi_dens_loc.npy"; "chi_magn_loc.npy"]) by (unfold prog_setup, given, root, when; cbn [Nat.eqb]; flag; reflexivity).
  assert (E2 : saved (prog_ladder fl 0) = given (save_vrg fl) ["vrg_q_magn.npy"; "vrg_q_dens.npy"] ++ ["chi_dens_lam.npy"; "chi_magn_lam.npy"; "lambda.txt"; "UniformStaticSusceptibility.txt"])
    by (unfold prog_ladder, write_components, given, root, when; cbn [Nat.eqb]; flag; reflexivity).
  assert (E3 : saved (prog_vertices fl n 0) = given (do_pairing fl) ["Eliashberg/F_sing_pp.npy"; "Eliashberg/F_trip_pp.npy"] ++ given (do_vertex fl) ["Optics/F_cond.npy"] ++
    given (save_fq fl) ["F_dens.npy"; "F_magn.npy"] ++ ["oz_coeff.txt"]) by (unfold prog_vertices, given, root, when; cbn [Nat.eqb]; flag; rewrite ?saved_app, ?saved_ranks; reflexivity).
  assert (E4 : saved (prog_sde fl 0) = ["siwk_dga.npy"; "giwk_dga.npy"; "mu.txt"; "energies.txt"] ++ given (poly fl) ["PolyFits/Siwk_poly_cont_.npy"; "PolyFits/Giwk_dga_poly_cont_.npy"])
    by (unfold prog_sde, given, root, when; cbn [Nat.eqb]; flag; reflexivity).
  assert (E5 : saved (prog_eliash fl 0) = given (do_eliash fl) ["Eliashberg/eliashberg_config.yaml"; "Eliashberg/eliashberg.npy"; "Eliashberg/eigenvalues.txt"; "Eliashberg/eigenvalues_s.txt"])
    by (unfold prog_eliash, given, root, when; cbn [Nat.eqb]; flag; reflexivity).
  assert (E6 : saved (prog_optics fl 0) = given (optics_section fl) ["Optics/optics_config.yaml"] ++ given (do_bubble fl) ["Optics/chijj_bubble.npy"] ++ given (do_vertex fl) ["Optics/chijj_vert.npy"] ++
    given (optics_section fl && optics_me fl) ["Optics/sigma_bubble_cont.npy"; "Optics/sigma_full_cont.npy"; "Optics/w.npy"])
    by (unfold prog_optics, given, root, when; cbn [Nat.eqb]; destruct (optics_section fl), (optics_me fl); cbn [andb]; flag; reflexivity).
  rewrite E1, E2, E3, E4, E5, E6. change (saved barrier) with (@nil string). rewrite app_nil_r.
  unfold written_files.
  assert (E7 : saved (prog_max_ent fl 0) = given (me_section fl && me_loc fl) ["MaxEnt/dmft_cont.npy"; "MaxEnt/dga_cont.npy"] ++
  given (me_section fl && me_s fl) ["MaxEntSiwk/swk_dga_cont_fbz.npy"; "MaxEntSiwk/w.npy"; "MaxEntSiwk/gwk_dga_cont_fbz.npy"; "MaxEntSiwk/sigma_bub.npy"; "MaxEntSiwk/w_bub.npy"] ++
  given (me_section fl && me_g fl) ["MaxEntGiwk/gwk_dga_cont_fbz.npy"; "MaxEntGiwk/w.npy"] ++
  given (me_section fl && me_chi_d fl) ["MaxEntChiDens/chi_dens_cont_fbz.npy"; "MaxEntChiDens/w.npy"] ++
  given (me_section fl && me_chi_m fl) ["MaxEntChiMagn/chi_magn_cont_fbz.npy"; "MaxEntChiMagn/w.npy"]).
  { unfold prog_max_ent, when at 1. destruct (me_section fl); cbn [andb]; [|reflexivity]. rewrite !saved_app.
    change (saved (root 0 [fetch "dga_config.yaml"])) with (@nil string). change (saved [Sync CBcast]) with (@nil string). change (saved [fetch "dmft_input.npy"]) with (@nil string).
    change (saved (root 0 [fetch "siwk_dga.npy"])) with (@nil string). change (saved barrier) with (@nil string). rewrite !app_nil_l.
    assert (R : forall b o, saved (root 0 (when b (saves o))) = given b o).
    { intros b o. unfold root, when, given. cbn [Nat.eqb]. destruct b; [|reflexivity]. unfold saved, saves. induction o as [|y o IH]; [reflexivity|]. cbn. now f_equal. }
    assert (W : forall b l o, saved l = [] -> saved (when b (continue_k 0 l o)) = given b o).
    { intros b l o Hl. destruct b; [|reflexivity]. cbn [when given]. unfold continue_k. rewrite !saved_app. specialize (R true o). cbn [when given] in R. rewrite R.
      unfold root, when. cbn [Nat.eqb]. rewrite Hl. reflexivity. }
    rewrite !R, !W by reflexivity. destruct (me_loc fl); reflexivity. }
  rewrite E7. rewrite <- !app_assoc. cbn [app]. reflexivity.
Qed.
Lemma cleaned_all : cleaned (prog 0) = removed_files fl.
Proof.
  unfold dga_prog. rewrite !cleaned_app.
  replace (cleaned (prog_setup fl 0)) with (@nil string) by (unfold prog_setup, root, when; cbn [Nat.eqb]; flag; reflexivity).
  replace (cleaned (prog_ladder fl 0)) with (@nil string) by (unfold prog_ladder, write_components, root, when; cbn [Nat.eqb]; flag; reflexivity).
  replace (cleaned (prog_vertices fl n 0)) with (@nil string) by (unfold prog_vertices, root, when; cbn [Nat.eqb]; flag; rewrite ?cleaned_app, ?cleaned_ranks; reflexivity).
  replace (cleaned (prog_sde fl 0)) with (@nil string) by (unfold prog_sde, root, when; cbn [Nat.eqb]; flag; reflexivity).
  replace (cleaned (prog_max_ent fl 0)) with (@nil string).
  2:{ symmetry. destruct (cleaned (prog_max_ent fl 0)) as [|x l] eqn:E; [reflexivity|exfalso].
      assert (I : In x (cleaned (prog_max_ent fl 0))) by (rewrite E; now left). unfold cleaned in I. apply in_flat_map in I. destruct I as (a & Ia & Ix).
      pose proof (keeps_me fl x 0) as K. unfold keeps in K. assert (T : existsb (cleans (RunFile x)) (prog_max_ent fl 0) = true); [|congruence].
      apply existsb_exists. exists a. split; [assumption|]. destruct a as [ | | | | |[|y]| ]; cbn in Ix; try contradiction. destruct Ix as [->|[]]. cbn. apply String.eqb_refl. }
  unfold removed_files, prog_eliash, prog_optics, given, root, when. cbn [Nat.eqb].
  destruct (do_eliash fl), (keep_pairing fl), (optics_section fl), (optics_me fl), (keep_fq_optics fl), (do_bubble fl), (do_vertex fl); reflexivity.
Qed.
Lemma replay_kept x l c : run_only l -> ~ In x (cleaned l) -> (replay (RunFile x) c l <> None <-> c <> None \/ In x (saved l)).
Proof.
  revert c. induction l as [|a l IH]; intros c Hc Hn; [cbn; tauto|]. change (replay (RunFile x) c (a :: l)) with (replay (RunFile x) (eff (RunFile x) c a) l).
  change (a :: l) with ([a] ++ l) in *. rewrite saved_app. rewrite cleaned_app in Hn. rewrite IH; [|intros b I; apply Hc; cbn; now right|intros I; apply Hn, in_app_iff; now right].
  rewrite in_app_iff. assert (Ha := Hc a (or_introl eq_refl)). unfold eff. destruct a as [?|[?|y]|[?|y] g|[?|y]|f gs|[?|y]|]; cbn [writes file_eqb]; cbn in Ha; try contradiction; try (cbn; tauto).
  - cbn [saved flat_map app In]. destruct (String.eqb_spec y x) as [->|N]; [split; [tauto|left; discriminate]|tauto].
  - cbn [saved flat_map app In]. destruct (String.eqb_spec y x) as [->|N]; [|tauto]. exfalso. apply Hn. cbn. now left.
Qed.
Lemma run_only_prog : run_only (prog 0).
Proof.
  assert (A : forall a b, run_only a -> run_only b -> run_only (a ++ b)) by (intros a b Ha Hb x I; apply in_app_iff in I; destruct I as [I|I]; [exact (Ha x I)|exact (Hb x I)]).
  assert (W : forall b l, run_only l -> run_only (when b l)) by (intros [|] l H; [assumption|intros x []]).
  assert (R : forall l, run_only l -> run_only (root 0 l)) by (intros l H; exact H).
  assert (S : forall o, run_only (saves o)) by (intros o x I; unfold saves in I; apply in_map_iff in I; destruct I as (y & <- & _); exact I).
  assert (F : forall name, run_only (fetch_ranks n name)) by (intros o x I; unfold fetch_ranks in I; apply in_map_iff in I; destruct I as (y & <- & _); exact I).
  assert (C : forall l, forallb (fun a => match a with Create (RunFile _) | Put (RunFile _) _ => false | _ => true end) l = true -> run_only l).
  { intros l H x I. rewrite forallb_forall in H. specialize (H x I). destruct x as [|[|]|[|]| | | | ]; auto; discriminate. }
  unfold dga_prog, prog_setup, prog_ladder, write_components, prog_vertices, prog_sde, prog_eliash, prog_optics, prog_max_ent, continue_k, barrier, gather, scatter, allreduce.
  repeat lazymatch goal with
  | |- run_only (_ ++ _) => apply A
  | |- run_only (when _ _) => apply W
  | |- run_only (root _ _) => apply R
  | |- run_only (saves _) => apply S
  | |- run_only (fetch_ranks _ _) => apply F
  | |- run_only _ => apply C; reflexivity
  end.
Qed.
(** a removed file is not written again *)
Lemma replay_removed x c : In x (removed_files fl) -> replay (RunFile x) c (prog 0) = None.
Proof.
  intros H. rewrite prog_split. unfold pre_me. set (c0 := replay (RunFile x) c (pre_eliash fl n 0)).
  rewrite !replay_app. fold c0.
  unfold removed_files, given in H. apply in_app_iff in H. destruct H as [H|H].
  - destruct (do_eliash fl) eqn:E; [|contradiction]. destruct (keep_pairing fl) eqn:K; [contradiction|]. cbn in H.
    assert (U : forall l, untouched (RunFile x) l -> replay (RunFile x) None l = None) by (intros l Hl; now apply replay_untouched).
    assert (Z : replay (RunFile x) c0 (prog_eliash fl 0) = None) by (unfold prog_eliash, root, when; rewrite E, K; cbn [Nat.eqb negb]; destruct H as [<-|[<-|[]]]; reflexivity). rewrite Z.
    rewrite (U (prog_optics fl 0)), (U (prog_max_ent fl 0)); [reflexivity| |].
    + unfold prog_max_ent, continue_k, barrier, gather, scatter. destruct H as [<-|[<-|[]]]; repeat first [reflexivity | apply root_untouched | apply when_untouched | (apply untouched_app; split)].
    + unfold prog_optics, scatter, allreduce. destruct H as [<-|[<-|[]]]; repeat first [reflexivity | apply root_untouched | apply when_untouched | (apply untouched_app; split)].
  - destruct (optics_section fl && optics_me fl && negb (keep_fq_optics fl)) eqn:E; [|contradiction]. destruct H as [<-|[]].
    apply andb_true_iff in E. destruct E as [E E3]. apply andb_true_iff in E. destruct E as [E1 E2]. apply negb_true_iff in E3.
    assert (Z : forall c, replay (RunFile "Optics/F_cond.npy") c (prog_optics fl 0) = None).
    { intros c'. unfold prog_optics. rewrite E1, E2, E3. rewrite !replay_app. unfold root, when. cbn [Nat.eqb negb]. rewrite !replay_app. reflexivity. }
    rewrite Z. rewrite (replay_untouched _ (prog_max_ent fl 0)); [reflexivity|].
    unfold prog_max_ent, continue_k, barrier, gather, scatter. repeat first [reflexivity | apply root_untouched | apply when_untouched | (apply untouched_app; split)].
Qed.
Lemma final_run j x : reach j -> 0 < n -> finished j 0 -> (j_disk j (RunFile x) <> None <-> In x (written_files fl) /\ ~ In x (removed_files fl)).
Proof.
  intros Hj Hn Hf. rewrite (run_disk n no_files prog owner (owned fl n) j _ Hj). cbn [owner].
  pose proof (run_split n no_files prog j Hj 0) as S. unfold finished in Hf. rewrite Hf, app_nil_r in S. rewrite S. unfold no_files at 1.
  destruct (in_dec string_dec x (removed_files fl)) as [I|I].
  - rewrite replay_removed by assumption. tauto.
  - rewrite replay_kept; [|apply run_only_prog|now rewrite cleaned_all]. rewrite saved_all. tauto.
Qed.
Lemma idle j r : reach j -> n <= r -> j_done j r = [].
Proof.
  induction 1 as [|j j' Hj IH Hs]; intros H; [reflexivity|]. inversion Hs as [j1 p a l d Hp Ht _ _|j1 p c l Hp Ht _]; subst; cbn [advance j_done]; rewrite upd_other by lia; now apply IH.
Qed.
Lemma final_rank j r : reach j -> (r < n -> finished j r) ->
  match j_disk j (RankFile r) with None => ~ (r < n /\ keep_rank_files fl = true) | Some l => r < n /\ keep_rank_files fl = true /\ forall g, In g l <-> In g (rank_groups fl) end.
Proof.
  intros Hj Hf. rewrite (run_disk n no_files prog owner (owned fl n) j _ Hj). cbn [owner]. unfold no_files at 1.
  destruct (Nat.lt_ge_cases r n) as [L|L].
  - specialize (Hf L). pose proof (run_split n no_files prog j Hj r) as S. unfold finished in Hf. rewrite Hf, app_nil_r in S. rewrite S. rewrite prog_split. unfold pre_me, pre_eliash.
    rewrite !replay_app. rewrite <- (replay_app _ None). rewrite ladder_rank.
    rewrite (replay_untouched _ _ (vertices_rank fl n r r)).
    assert (Z : replay (RankFile r) (Some (groups_rev fl)) (prog_sde fl r) = if keep_rank_files fl then Some (groups_rev fl) else None).
    { unfold prog_sde, root, when. destruct (keep_rank_files fl), (r =? 0), (poly fl); cbn; unfold eff; cbn; rewrite ?Nat.eqb_refl; reflexivity. }
    rewrite Z. rewrite (replay_untouched _ _ (eliash_rank fl r r)), (replay_untouched _ _ (optics_rank fl r r)), (replay_untouched _ _ (me_rank fl r r)).
    rewrite (replay_untouched _ barrier) by reflexivity. destruct (keep_rank_files fl); [|intros [_ K]; discriminate]. split; [assumption|]. split; [reflexivity|]. intros g. apply in_groups.
  - rewrite (idle j r Hj L). cbn. intros [H _]. lia.
Qed.

(** * Settings that do not fit *)
Lemma done_fetch j r A a B : reach j -> j_done j r = A ++ a :: B -> is_sync a = false -> exists j1, reach j1 /\ j_done j1 r = A /\ perform (j_disk j1) a <> None.
Proof.
  intros Hj. revert A a B. induction Hj as [|j j' Hj IH Hs]; intros A a B H S; [destruct A; discriminate|].
  assert (G : forall p b l d, j_done (advance j p b l d) r = A ++ a :: B -> p <> r \/ b <> a \/ is_sync b = true \/ perform (j_disk j) b <> None -> exists j1, reach j1 /\ j_done j1 r = A /\ perform (j_disk j1) a <> None).
  { intros p b l d E D. cbn [advance j_done] in E. destruct (Nat.eq_dec r p) as [->|N].
    - rewrite upd_same in E. destruct (exists_last (l := a :: B)) as (B' & z & EB); [discriminate|]. rewrite EB, app_assoc in E. apply app_inj_tail in E. destruct E as [E ->].
      destruct B' as [|y B'].
      + injection EB as -> _. rewrite app_nil_r in E. exists j. split; [assumption|]. split; [assumption|]. destruct D as [D|[D|[D|D]]]; try congruence.
      + injection EB as <- ->. now apply (IH A a B').
    - rewrite upd_other in E by assumption. now apply (IH A a B). }
  inversion Hs as [j1 p b l d Hp Ht Hns Hd|j1 p c l Hp Ht _]; subst.
  - eapply G; [exact H|]. right; right; right. congruence.
  - eapply G; [exact H|]. right; right; left. reflexivity.
Qed.
(** root cannot get past the action that raises *)
Definition trap (A : list action) (a : action) : Prop := is_sync a = false /\ (a = Fail \/ exists f gs, a = Fetch f gs /\ owner f = 0 /\ replay f None A = None).
Lemma trap_done j A a B : reach j -> trap A a -> j_done j 0 <> A ++ a :: B.
Proof.
  intros Hj [S T] H. destruct (done_fetch j 0 A a B Hj H S) as (j1 & H1 & H2 & H3). destruct T as [->|(f & gs & -> & Ho & Hf)]; [now apply H3|].
  apply H3. cbn. rewrite (run_disk n no_files prog owner (owned fl n) j1 f H1), Ho, H2. unfold no_files. now rewrite Hf.
Qed.
Lemma optics_fail : optics_section fl = true -> do_bubble fl = false -> exists A B, prog_optics fl 0 = A ++ Fail :: B.
Proof.
  intros O Bu. unfold prog_optics. rewrite O, Bu. unfold root at 5, when at 6 7. cbn [Nat.eqb negb app]. rewrite !app_assoc. eexists. eexists. reflexivity.
Qed.
Lemma eliash_head : do_eliash fl = true -> exists B, prog_eliash fl 0 = saves ["Eliashberg/eliashberg_config.yaml"] ++ fetch "Eliashberg/F_sing_pp.npy" :: B.
Proof. intros E. unfold prog_eliash, root, when. rewrite E. eexists. reflexivity. Qed.
Lemma unfit_trap : ~ fitting fl -> exists A a B, prog 0 = (A ++ a :: B) ++ [Sync CBarrier] /\ trap A a.
Proof.
  intros NF. rewrite prog_split. unfold pre_me.
  destruct (do_eliash fl && negb (do_pairing fl)) eqn:EP.
  - apply andb_true_iff in EP. destruct EP as [E P]. apply negb_true_iff in P.
    exists (pre_eliash fl n 0 ++ saves ["Eliashberg/eliashberg_config.yaml"]), (fetch "Eliashberg/F_sing_pp.npy").
    destruct (eliash_head E) as (B & EB). exists (B ++ prog_optics fl 0 ++ prog_max_ent fl 0). split.
    + rewrite EB. unfold barrier. f_equal. rewrite <- !app_assoc. reflexivity.
    + split; [reflexivity|]. right. eexists; eexists. split; [reflexivity|]. split; [reflexivity|].
      rewrite replay_untouched; [reflexivity|].
      unfold pre_eliash, prog_setup, prog_ladder, write_components, prog_vertices, prog_sde, barrier, gather, scatter, allreduce. rewrite P.
      repeat first [apply fetch_untouched | reflexivity | apply root_untouched | apply when_untouched | (apply untouched_app; split)].
  - assert (OB : optics_section fl = true /\ do_bubble fl = false).
    { unfold fitting in NF. destruct (do_eliash fl), (do_pairing fl), (optics_section fl), (do_bubble fl); try discriminate; try (split; reflexivity); exfalso; apply NF; split; auto. }
    destruct OB as [O Bu]. destruct (optics_fail O Bu) as (A & B & E).
    exists ((pre_eliash fl n 0 ++ prog_eliash fl 0) ++ A), Fail, (B ++ prog_max_ent fl 0). split.
    + rewrite E. unfold barrier. f_equal. rewrite <- !app_assoc. reflexivity.
    + split; [reflexivity|now left].
Qed.
Lemma unfit_root j : reach j -> ~ fitting fl -> nsync (j_done j 0) < List.length (colls fl) - 1 \/ (nsync (j_done j 0) = List.length (colls fl) - 1 /\ ~ waiting j 0 /\ ~ finished j 0).
Proof.
  intros Hj NF. destruct (unfit_trap NF) as (A & a & B & E & T).
  assert (L : S (nsync (A ++ a :: B)) = List.length (colls fl)).
  { rewrite <- (same_colls fl n 0), E, syncs_app, app_length. unfold nsync. cbn [syncs flat_map app List.length]. lia. }
  pose proof (run_split n no_files prog j Hj 0) as S0. rewrite E in S0.
  (* what is done is a proper prefix *)
  destruct (Nat.le_gt_cases (List.length (j_done j 0)) (List.length A)) as [Le|Gt].
  - assert (P : exists t, A = j_done j 0 ++ t).
    { exists (skipn (List.length (j_done j 0)) A). rewrite <- (firstn_skipn (List.length (j_done j 0)) A) at 1. f_equal.
      assert (F : firstn (List.length (j_done j 0)) (j_done j 0 ++ j_todo j 0) = firstn (List.length (j_done j 0)) ((A ++ a :: B) ++ [Sync CBarrier])) by now rewrite S0.
      rewrite firstn_app, Nat.sub_diag, firstn_all, app_nil_r in F. rewrite <- app_assoc, firstn_app in F. replace (List.length (j_done j 0) - List.length A) with 0 in F by lia.
      cbn [firstn] in F. rewrite app_nil_r in F. now symmetry. }
    destruct P as [t ->]. rewrite <- !app_assoc in S0. apply app_inv_head in S0.
    destruct (Nat.eq_dec (nsync (j_done j 0)) (List.length (colls fl) - 1)) as [Eq|Ne].
    + right. split; [assumption|]. rewrite <- app_assoc, nsync_app in L. assert (Z : nsync (t ++ a :: B) = 0) by lia. rewrite nsync_app in Z.
      assert (Zt : nsync t = 0) by lia. split.
      * intros (c & l & W). rewrite W in S0. destruct t as [|x t]; cbn in S0; injection S0 as Hx _; subst; [destruct T as [T _]; discriminate|]. rewrite nsync_cons in Zt. cbn in Zt. lia.
      * intros F. unfold finished in F. rewrite F in S0. destruct t; discriminate.
    + left. rewrite <- app_assoc, nsync_app in L. lia.
  - exfalso. assert (P : exists t, j_done j 0 = A ++ a :: t).
    { assert (F : firstn (List.length A + 1) (j_done j 0 ++ j_todo j 0) = firstn (List.length A + 1) ((A ++ a :: B) ++ [Sync CBarrier])) by now rewrite S0.
      rewrite firstn_app in F. replace (List.length A + 1 - List.length (j_done j 0)) with 0 in F by lia. cbn [firstn] in F. rewrite app_nil_r, <- app_assoc, firstn_app_2 in F. cbn [app firstn] in F.
      exists (skipn (List.length A + 1) (j_done j 0)). rewrite <- (firstn_skipn (List.length A + 1) (j_done j 0)) at 1. rewrite F, <- app_assoc. reflexivity. }
    destruct P as [t P]. now apply (trap_done j A a t Hj T).
Qed.
Lemma unfit_never j r : reach j -> ~ fitting fl -> r < n -> ~ finished j r.
Proof.
  intros Hj NF Hr F. pose proof (unfit_root j Hj NF) as U. destruct (Nat.eq_dec r 0) as [->|N].
  - pose proof (run_split n no_files prog j Hj 0) as S. unfold finished in F. rewrite F, app_nil_r in S. destruct U as [U|(U & _ & U2)]; [|now apply U2].
    rewrite S in U. unfold nsync in U. rewrite same_colls in U. lia.
  - pose proof (run_split n no_files prog j Hj r) as S. unfold finished in F. rewrite F, app_nil_r in S.
    assert (Lc : exists l, colls fl = l ++ [CBarrier]) by (unfold colls; eexists; rewrite !app_assoc; reflexivity). destruct Lc as [l Lc].
    assert (R : reached j 0 (List.length l)).
    { apply (sync_inv n no_files prog (colls fl) (fun r _ => same_colls fl n r) j Hj r 0 (List.length l) CBarrier Hr).
      - lia.
      - unfold nsync. rewrite S, same_colls, Lc, app_length. cbn. lia.
      - rewrite Lc, nth_error_app2, Nat.sub_diag by lia. reflexivity.
      - reflexivity. }
    rewrite Lc, app_length in U. cbn [List.length] in U. destruct R as [R|(R & W)]; [lia|]. destruct U as [U|(_ & U & _)]; [lia|]. now apply U.
Qed.
Lemma unfit_stuck j : reach j -> ~ fitting fl -> 0 < n -> stuck n j -> raises j 0 /\ forall r, 0 < r < n -> waiting j r.
Proof.
  intros Hj NF Hn St. assert (R0 : raises j 0).
  { destruct (go_on j Hj) as [F|[(j' & S)|(r & Hr & R)]]; [exfalso; now apply (unfit_never j 0 Hj NF Hn), F|exfalso; now apply (St j')|].
    destruct (Nat.eq_dec r 0) as [->|N]; [assumption|]. exfalso. apply (no_raise j r Hj Hr); [intros; contradiction|assumption]. }
  split; [assumption|]. intros r [H0 Hr].
  destruct (j_todo j r) as [|a l] eqn:E; [exfalso; now apply (unfit_never j r Hj NF Hr)|].
  destruct (is_sync a) eqn:Sa; [destruct a; try discriminate; unfold waiting; eauto|]. exfalso.
  assert (Hns : forall c, a <> Sync c) by (intros c ->; discriminate).
  destruct (perform (j_disk j) a) as [d|] eqn:P.
  - apply (St _ (step_local n j r a l d Hr E Hns P)).
  - apply (no_raise j r Hj Hr); [lia|]. exists a, l. auto.
Qed.
End End_.

(** Every run can be continued until nothing can happen any more. *)
Lemma finish fl n k j : run_len n no_files (dga_prog fl n) k j -> fitting fl -> exists j', run_of n no_files (dga_prog fl n) j' /\ forall r, r < n -> finished j' r.
Proof.
  intros H F. remember (total_len n (dga_prog fl n) - k) as m eqn:Em. revert k j H Em. induction m as [|m IH]; intros k j H Em;
    destruct (run_len_count _ _ _ _ _ H) as [_ Hj]; destruct (go_on fl n j Hj) as [Fi|[(j' & Hs)|(r & Hr & R)]]; try (now exists j); try (exfalso; now apply (no_raise fl n j r Hj Hr)).
  - exfalso. pose proof (run_len_bound _ _ _ _ _ (len_S _ _ _ _ _ _ H Hs)). lia.
  - apply (IH (S k) j' (len_S _ _ _ _ _ _ H Hs)). lia.
Qed.
