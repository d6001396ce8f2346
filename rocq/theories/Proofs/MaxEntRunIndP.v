(** Settings a controller does not read do not matter. *)
From Coq Require Import ZArith Reals List String Lia Lra.
From Verif Require Import Base.PyBase Base.PyFacts Base.Arr Model.MpiAux Model.BrillouinZone Model.RealMesh Model.MaxEnt Proofs.MaxEntP Model.MaxEntRun.
Import ListNotations.
Local Open Scope R_scope.

Definition other_names : list string := ["s_dga"; "g_dga"; "chi_d"; "chi_m"; "loc"]%string.
Definition agree (d d' : dict) : Prop := forall k, ~ In k other_names -> lookup d k = lookup d' k.
Definition sim (c c' : controller) : Prop := c_w c = c_w c' /\ agree (c_attr c) (c_attr c').
Lemma agree_attr d d' k : agree d d' -> ~ In k other_names -> attr d k = attr d' k.
Proof. intros H N. unfold attr. now rewrite (H k N). Qed.
Lemma agree_update d d' e e' : agree d d' -> agree e e' -> agree (update d e) (update d' e').
Proof. intros H H' k N. rewrite !lookup_update. now rewrite (H k N), (H' k N). Qed.
Lemma agree_refl d : agree d d. Proof. intros k _. reflexivity. Qed.
Ltac notin := let H := fresh in intros H; cbn in H; repeat (destruct H as [H|H]; [discriminate|]); destruct H.
Ltac sw H := repeat match goal with |- context[attr ?d ?k] => lazymatch type of H with agree d _ => rewrite (agree_attr _ _ k H) by notin end end.

Lemma set_w_mesh_agree d d' : agree d d' -> set_w_mesh d = set_w_mesh d'.
Proof. intros H. unfold set_w_mesh. now sw H. Qed.
Lemma init_agree beta kn cfg cfg' kw : agree cfg cfg' ->
  match maxent_init beta kn (Some cfg) kw, maxent_init beta kn (Some cfg') kw with Ok c, Ok c' => sim c c' | Raise e, Raise e' => e = e' | _, _ => False end.
Proof.
  intros H. unfold maxent_init. destruct (existsb _ _); [|reflexivity]. cbn zeta.
  set (b := update (update (update declared _) _) MAX_ENT_DEFAULT_SETTINGS).
  assert (HA : agree (update (update b cfg) kw) (update (update b cfg') kw)) by (apply agree_update; [apply agree_update; [apply agree_refl|exact H]|apply agree_refl]).
  set (d := update (update b cfg) kw) in *. set (d' := update (update b cfg') kw) in *. clearbody d d'.
  destruct (String.eqb kn "freq_bosonic").
  - sw HA. destruct (attr d' "bw") as [bw|]; [|reflexivity]. cbn [bind]. destruct (attr d' "force_preblur") as [force|]; [|reflexivity]. cbn [bind]. set (cnd := negb (is_zero bw) && negb (truthy force)).
    assert (HA2 : agree (if cnd then update d [("bw"%string, VNum 0)] else d) (if cnd then update d' [("bw"%string, VNum 0)] else d')) by (destruct cnd; [apply agree_update; [exact HA|apply agree_refl]|exact HA]).
    set (e := if cnd then update d _ else d) in *. set (e' := if cnd then update d' _ else d') in *. clearbody e e'. sw HA2. destruct (attr e' "wmin") as [wm|]; [|reflexivity]. cbn [bind].
    destruct (as_num wm) as [x|]; [|reflexivity]. cbn [bind].
    assert (HA3 : agree (if Rlt_dec x 0 then update e [("wmin"%string, VNum 0)] else e) (if Rlt_dec x 0 then update e' [("wmin"%string, VNum 0)] else e')) by (destruct (Rlt_dec x 0); [apply agree_update; [exact HA2|apply agree_refl]|exact HA2]).
    set (f := if Rlt_dec x 0 then update e _ else e) in *. set (f' := if Rlt_dec x 0 then update e' _ else e') in *. clearbody f f'. rewrite (set_w_mesh_agree f f' HA3). destruct (set_w_mesh f'); cbn [bind]; [split; [reflexivity|exact HA3]|reflexivity].
  - cbn [bind]. rewrite (set_w_mesh_agree d d' HA). destruct (set_w_mesh d'); cbn [bind]; [split; [reflexivity|exact HA]|reflexivity].
Qed.

Section C.
Variables (solve : request -> res (list R)) (gf_kkt : list R -> list R -> list C).
Lemma cut_sim c c' mat : sim c c' -> sim (fst (cut_matrix c mat)) (fst (cut_matrix c' mat)) /\ snd (cut_matrix c mat) = snd (cut_matrix c' mat).
Proof.
  intros [Hw Ha]. unfold cut_matrix. sw Ha. destruct (let! n := attr (c_attr c') "n_fit" in as_int n) as [n|e]; [|split; [split; assumption|reflexivity]]. cbn [fst snd].
  destruct (_ <? _)%Z; cbn [fst snd].
  - assert (HA : agree (c_attr (Controller (update (c_attr c) [("n_fit"%string, VInt (zlen mat / 2))]) (c_w c))) (c_attr (Controller (update (c_attr c') [("n_fit"%string, VInt (zlen mat / 2))]) (c_w c')))) by (cbn [c_attr]; apply agree_update; [exact Ha|apply agree_refl]).
    split; [split; [exact Hw|exact HA]|]. rewrite (agree_attr _ _ "kernel_mode" HA) by notin. reflexivity.
  - split; [split; assumption|]. sw Ha. reflexivity.
Qed.
Lemma single_sim c c' mat : sim c c' -> sim (fst (cont_single_ind solve gf_kkt c mat)) (fst (cont_single_ind solve gf_kkt c' mat)) /\
  snd (cont_single_ind solve gf_kkt c mat) = snd (cont_single_ind solve gf_kkt c' mat).
Proof.
  intros H. destruct (cut_sim c c' mat H) as [S E]. unfold cont_single_ind. destruct (cut_matrix c mat) as [d r], (cut_matrix c' mat) as [d' r']. cbn [fst snd] in S, E. subst r'.
  destruct r as [mp|e]; cbn [fst snd]; (split; [exact S|]); [|reflexivity]. destruct S as [Sw Sa]. unfold get_im_freq, get_model, beta_of, use_preblur. rewrite Sw. sw Sa. reflexivity.
Qed.
Lemma cont_list_sim mats : forall c c', sim c c' -> cont_list solve gf_kkt c mats = cont_list solve gf_kkt c' mats.
Proof.
  induction mats as [|m mats IH]; intros c c' H; [reflexivity|]. cbn [cont_list]. destruct (single_sim c c' m H) as [S E]. destruct (cont_single_ind solve gf_kkt c m) as [d r], (cont_single_ind solve gf_kkt c' m) as [d' r'].
  cbn [fst snd] in S, E. subst r'. rewrite (IH d d' S). destruct S as [-> _]. reflexivity.
Qed.
Lemma mapM_ext A B (f g : A -> res B) l : (forall x, f x = g x) -> mapM f l = mapM g l.
Proof. intros H. induction l as [|a l IH]; [reflexivity|]. cbn [mapM]. now rewrite H, IH. Qed.
Lemma mpi_sim c c' nt p mat : sim c c' -> mpi_ana_cont solve gf_kkt c nt p mat = mpi_ana_cont solve gf_kkt c' nt p mat.
Proof.
  intros H. unfold mpi_ana_cont. destruct (scatter nt p mat); [|reflexivity]. cbn [bind]. rewrite (mapM_ext _ _ (analytic_continuation solve gf_kkt c) (analytic_continuation solve gf_kkt c')); [reflexivity|].
  intros x. unfold analytic_continuation. now rewrite (cont_list_sim x c c' H).
Qed.
Lemma section_sim beta nt p cfg cfg' name kn g load post : agree cfg cfg' -> lookup cfg name = lookup cfg' name -> (forall c c', sim c c' -> load c = load c') ->
  me_section solve gf_kkt beta nt p cfg name kn g load post = me_section solve gf_kkt beta nt p cfg' name kn g load post.
Proof.
  intros H E HL. unfold me_section. rewrite E. destruct (lookup cfg' name) as [v|]; [|reflexivity]. destruct (section_kwargs v) as [kw|]; [|reflexivity]. cbn [bind].
  pose proof (init_agree beta kn cfg cfg' kw H) as HI. destruct (maxent_init beta kn (Some cfg) kw) as [c|], (maxent_init beta kn (Some cfg') kw) as [c'|]; cbn [bind]; try contradiction; [|congruence].
  pose proof HI as [Hw Ha]. sw Ha. destruct (attr (c_attr c') "do_cont"); [|reflexivity]. cbn [bind]. destruct (truthy _); [|reflexivity]. rewrite (HL c c' HI). destruct (load c'); [|reflexivity]. cbn [bind].
  destruct (map_fbz2irrk _ _); [|reflexivity]. cbn [bind]. rewrite (mpi_sim c c' nt p _ HI). now rewrite Hw.
Qed.
End C.
