(** The set up of a run: every rank, every schedule. *)
From Coq Require Import String Ascii Arith.
From Verif Require Import Base.PyBase Model.Util Model.RunSetup Spec.RunSetupSpec Proofs.UtilP Proofs.RunPathP Proofs.RunJobP.
Set Implicit Arguments.
Local Open Scope string_scope.
Local Open Scope list_scope.
Local Open Scope nat_scope.

Section Chain.
Variables (R : Type) (L : list string) (J : fsys -> nat -> nat -> Prop) (Q0 QN : R -> Prop).
Notation okR := (@okR R L J Q0). Notation okN := (@okN R L J QN).
Lemma okR_done m f fs s b : J fs s b -> Q0 f -> s = 3 -> b = 2 -> okR m (Done f) fs s b.
Proof. destruct m; cbn; auto. Qed.
Lemma okR_exists m q k fs s b : J fs s b -> okR m (k (path_exists fs q)) fs s b -> okR (S m) (Exists q k) fs s b.
Proof. cbn; auto. Qed.
Lemma okR_mkdir m q k fs fs' s b : J fs s b -> mkdir fs q = inl fs' -> okR m k fs' s b -> okR (S m) (Mkdir q k) fs s b.
Proof. intros HJ E H. cbn. rewrite E. auto. Qed.
Lemma okR_send m v k fs s b : J fs s b -> nth_error L s = Some v -> okR m k fs (S s) b -> okR (S m) (BcastRoot v k) fs s b.
Proof. cbn; auto. Qed.
Lemma okR_barrier m k fs s b : J fs s b -> J fs s (S b) -> ((b = 0 /\ s = 0) \/ (b = 1 /\ s = 3)) -> okR m k fs s (S b) -> okR (S (S m)) (Barrier k) fs s b.
Proof. intros H1 H2 H3 H4. cbn. intuition lia. Qed.
Lemma okR_uniq_from m path k fs s b kk : J fs s b -> path_exists fs (cand path kk) = false -> okR m (k (cand path kk ++ "/")%string) fs s b ->
  forall d i, i + d = kk -> (forall x, i <= x < kk -> path_exists fs (cand path x) = true) ->
  okR (S d + m) (Uniq (fst (splitext path)) (snd (splitext path)) (cand path i) (S i) k) fs s b.
Proof.
  intros HJ Hf Hk. induction d as [|d IH]; intros i Hi Hx; cbn [Nat.add]; (split; [exact HJ|]).
  - replace i with kk by lia. rewrite Hf. exact Hk.
  - rewrite Hx by lia. change (candidate (fst (splitext path)) (snd (splitext path)) (S i)) with (cand path (S i)).
    apply IH; [lia|]. intros x Hx'. apply Hx. lia.
Qed.
Lemma okR_uniq m path k fs s b kk : J fs s b -> path_exists fs (cand path kk) = false -> (forall x, x < kk -> path_exists fs (cand path x) = true) ->
  okR m (k (cand path kk ++ "/")%string) fs s b -> okR (S kk + m) (uniquify_then path k) fs s b.
Proof. intros HJ Hf Hx Hk. unfold uniquify_then. change path with (cand path 0) at 3. apply okR_uniq_from with (kk := kk); auto. intros; apply Hx; lia. Qed.

Lemma okN_done m f k b : QN f -> k = 3 -> b = 2 -> okN m (Done f) k b.
Proof. destruct m; cbn; auto. Qed.
Lemma okN_exists u q k m b : (forall fs, K J m b fs -> okN u (k (path_exists fs q)) m b) -> okN (S u) (Exists q k) m b.
Proof. cbn; auto. Qed.
Lemma okN_recv u k m b : b = 1 -> m < 3 -> (forall v, nth_error L m = Some v -> okN u (k v) (S m) b) -> okN (S u) (BcastOther k) m b.
Proof. cbn; auto. Qed.
Lemma okN_uniq u f e q c k m b : (forall fs, K J m b fs ->
    okN u (if path_exists fs q then Uniq f e (candidate f e c) (S c) k else k (q ++ "/")%string) m b) -> okN (S u) (Uniq f e q c k) m b.
Proof. intros H. cbn. intros fs HK. specialize (H fs HK). destruct (path_exists fs q); exact H. Qed.
Lemma okN_barrier u k m b : ((b = 0 /\ m = 0) \/ (b = 1 /\ m = 3)) -> okN u k m (S b) -> okN (S (S u)) (Barrier k) m b.
Proof. intros H1 H2. cbn. intuition lia. Qed.
End Chain.

Lemma resolve_sub b t : b <> ""%string -> resolve ((b ++ "/") ++ t)%string = (is_abs b, comps_from "" b ++ comps_from "" t).
Proof. intros Hb. rewrite append_assoc. unfold resolve. rewrite is_abs_app by assumption. cbn [append]. now rewrite comps_app_slash. Qed.

Section Setup.
Variables (c : run_cfg) (fs0 : fsys).
Hypothesis Htree : tree fs0.
Hypothesis Hfin : finite_fs fs0.
Hypothesis Hin : path_exists fs0 (input_path c) = true.
Hypothesis Hlam : no_slash (lambda_corr c) = true.

Definition run_name : string :=
  ("LDGA_" ++ lambda_corr c ++ "_Nk" ++ str_of_nat (nk_tot c) ++ "_Nq" ++ str_of_nat (nq_tot c) ++ "_wc" ++ str_of_nat (niw_core c) ++
   "_vc" ++ str_of_nat (niv_core c) ++ "_vs" ++ str_of_nat (niv_shell c))%string.
Lemma base_eq : base_name c = (input_path c ++ String "/" run_name)%string.
Proof. reflexivity. Qed.
Lemma name_proper : proper run_name.
Proof.
  unfold run_name. split; [|split; discriminate].
  rewrite !no_slash_app, Hlam, !str_no_slash. reflexivity.
Qed.
Lemma ip_ne : input_path c <> ""%string.
Proof. intros H. rewrite H in Hin. discriminate. Qed.

(** the folder name chosen by rank 0 *)
Lemma least_free : exists kk, path_exists fs0 (cand (base_name c) kk) = false /\ forall x, x < kk -> path_exists fs0 (cand (base_name c) x) = true.
Proof.
  destruct (@finite_free fs0 (input_path c) run_name Hfin ip_ne name_proper) as [k Hk]. rewrite <- base_eq in Hk.
  assert (G : forall m, (exists kk, path_exists fs0 (cand (base_name c) kk) = false /\ forall x, x < kk -> path_exists fs0 (cand (base_name c) x) = true)
               \/ forall x, x < m -> path_exists fs0 (cand (base_name c) x) = true).
  { induction m as [|m [IH|IH]]; [right; intros; lia|now left|].
    destruct (path_exists fs0 (cand (base_name c) m)) eqn:E; [right|left; eauto]. intros x Hx.
    destruct (Nat.eq_dec x m) as [->|]; [assumption|apply IH; lia]. }
  destruct (G (S k)) as [H|H]; [assumption|]. rewrite H in Hk by lia. discriminate.
Qed.

Variable kk : nat.
Hypothesis Hfree : path_exists fs0 (cand (base_name c) kk) = false.
Hypothesis Hused : forall x, x < kk -> path_exists fs0 (cand (base_name c) x) = true.

Definition folder : string := cand (base_name c) kk.
Definition out : string := (folder ++ "/")%string.
Definition pb : place := resolve folder.
Definition child (x : string) : place := (is_abs folder, comps_from "" folder ++ [x]).

Lemma folder_ne : folder <> ""%string.
Proof. unfold folder. rewrite base_eq, cand_tried by apply name_proper. apply app_nonempty_l, ip_ne. Qed.
Lemma out_ne : out <> ""%string. Proof. apply app_nonempty_l, folder_ne. Qed.
Lemma pb_eq : pb = (is_abs (input_path c), comps_from "" (input_path c) ++ [tried run_name kk]).
Proof. unfold pb, folder. rewrite base_eq. apply resolve_tried; [apply ip_ne|apply name_proper]. Qed.
Lemma resolve_out : resolve out = pb. Proof. apply resolve_slash, folder_ne. Qed.
Lemma pb_fresh : fs0 pb = false.
Proof. unfold pb. rewrite <- path_exists_ne; [exact Hfree|apply folder_ne]. Qed.
Lemma pb_parent : fs0 (parent pb) = true.
Proof. rewrite pb_eq, parent_child. rewrite path_exists_ne in Hin by apply ip_ne. exact Hin. Qed.
Lemma child_parent x : parent (child x) = pb.
Proof. unfold child. rewrite parent_child. reflexivity. Qed.
Lemma child_fresh x : fs0 (child x) = false.
Proof. destruct (fs0 (child x)) eqn:E; [|reflexivity]. apply Htree in E. rewrite child_parent, pb_fresh in E. discriminate. Qed.
Lemma child_inj x y : child x = child y -> x = y.
Proof. unfold child. intros H. injection H as H. apply app_inj_tail in H. tauto. Qed.
Lemma child_ne_pb x : child x <> pb.
Proof. intros H. unfold child, pb, resolve in H. injection H as H. apply (f_equal (@List.length _)) in H. rewrite app_length in H. cbn in H. lia. Qed.

Definition made (q : place) : Prop := q = pb \/ q = child "Plots" \/ q = child "PolyFits" \/ q = child "Eliashberg" \/ q = child "Optics".
Definition J (fs : fsys) (s b : nat) : Prop :=
  (forall q, fs q = true -> fs0 q = true \/ (made q /\ (q = child "PolyFits" -> do_poly_fitting c = true))) /\
  (forall q, fs0 q = true -> fs q = true) /\
  (2 <= s -> fs pb = true /\ fs (child "Plots") = true /\ (do_poly_fitting c = true -> fs (child "PolyFits") = true)) /\
  (3 <= s -> fs (child "Eliashberg") = true) /\
  (2 <= b -> 3 <= s /\ fs (child "Optics") = true).
Definition LL : list string := [out; (out ++ "Eliashberg//")%string; (out ++ "Optics//")%string].
Definition poly_root : option string := if do_poly_fitting c then Some (out ++ "/PolyFits//")%string else None.
Definition Q0 (f : folders) : Prop :=
  f = {| f_out := out; f_plots := Some (out ++ "/Plots//")%string; f_poly := poly_root;
         f_eliash := (out ++ "Eliashberg//")%string; f_optics := (out ++ "Optics//")%string |}.
Definition QN (f : folders) : Prop :=
  exists poly, f = {| f_out := out; f_plots := None; f_poly := poly;
         f_eliash := (out ++ "Eliashberg//")%string; f_optics := (out ++ "Optics//")%string |} /\
    (poly = poly_root \/ (do_poly_fitting c = true /\ poly = Some (out ++ "/PolyFits/_1/")%string)).

Lemma app_slash_str (a t : string) : ((a ++ t) ++ "/")%string = (a ++ (t ++ "/"))%string.
Proof. apply append_assoc. Qed.
Lemma sub_path t x : comps_from "" t = [x] -> t <> ""%string -> resolve (out ++ t)%string = child x.
Proof. intros H Ht. unfold out. rewrite resolve_sub by apply folder_ne. rewrite H. reflexivity. Qed.
Lemma sub_ne t : (out ++ t)%string <> ""%string. Proof. apply app_nonempty_l, out_ne. Qed.
Lemma sub_exists fs t x : comps_from "" t = [x] -> t <> ""%string -> path_exists fs (out ++ t)%string = fs (child x).
Proof. intros H Ht. rewrite path_exists_ne by apply sub_ne. now rewrite (@sub_path t x). Qed.
Lemma out_exists fs : path_exists fs out = fs pb.
Proof. rewrite path_exists_ne by apply out_ne. now rewrite resolve_out. Qed.

(** the file system after each directory rank 0 makes *)
Definition fs1 := add_dir fs0 pb.
Definition fs2 := add_dir fs1 (child "Plots").
Definition fs3 := if do_poly_fitting c then add_dir fs2 (child "PolyFits") else fs2.
Definition fs4 := add_dir fs3 (child "Eliashberg").
Definition fs5 := add_dir fs4 (child "Optics").

Lemma child_neq x y : x <> y -> child x <> child y. Proof. intros H E. apply H, child_inj, E. Qed.
Ltac fsv := unfold fs5, fs4, fs3, fs2, fs1; try destruct (do_poly_fitting c);
  rewrite ?add_other by (first [apply child_neq; discriminate|apply not_eq_sym; apply child_ne_pb|apply child_ne_pb]);
  rewrite ?add_same; first [reflexivity|apply child_fresh|apply pb_fresh|idtac].
Lemma fs1_pb : fs1 pb = true. Proof. apply add_same. Qed.
Lemma fs1_plots : fs1 (child "Plots") = false. Proof. fsv. Qed.
Lemma fs2_pb : fs2 pb = true. Proof. fsv. Qed.
Lemma fs2_plots : fs2 (child "Plots") = true. Proof. fsv. Qed.
Lemma fs2_poly : fs2 (child "PolyFits") = false. Proof. fsv. Qed.
Lemma fs3_pb : fs3 pb = true. Proof. fsv. Qed.
Lemma fs3_plots : fs3 (child "Plots") = true. Proof. fsv. Qed.
Lemma fs3_poly : do_poly_fitting c = true -> fs3 (child "PolyFits") = true. Proof. intros H. unfold fs3. rewrite H. apply add_same. Qed.
Lemma fs3_el : fs3 (child "Eliashberg") = false. Proof. fsv. Qed.
Lemma fs4_el : fs4 (child "Eliashberg") = true. Proof. fsv. Qed.
Lemma fs4_op : fs4 (child "Optics") = false. Proof. fsv. Qed.
Lemma fs5_op : fs5 (child "Optics") = true. Proof. fsv. Qed.
Lemma fs4_up q : fs3 q = true -> fs4 q = true. Proof. apply add_mono. Qed.
Lemma fs5_up q : fs4 q = true -> fs5 q = true. Proof. apply add_mono. Qed.
Lemma add_inv fs p q : add_dir fs p q = true -> q = p \/ fs q = true.
Proof. unfold add_dir. intros H. apply orb_true_iff in H. destruct H as [H|H]; [left; symmetry; now apply place_eqb_eq|now right]. Qed.

Definition sub_of (fs : fsys) : Prop :=
  (forall q, fs q = true -> fs0 q = true \/ (made q /\ (q = child "PolyFits" -> do_poly_fitting c = true))) /\ (forall q, fs0 q = true -> fs q = true).
Lemma sub_0 : sub_of fs0. Proof. split; auto. Qed.
Lemma sub_add fs p : sub_of fs -> made p -> (p = child "PolyFits" -> do_poly_fitting c = true) -> sub_of (add_dir fs p).
Proof.
  intros [H1 H2] Hm Hp. split; [|intros q Hq; apply add_mono; auto]. intros q Hq. apply add_inv in Hq. destruct Hq as [->|Hq]; auto.
Qed.
Lemma sub_1 : sub_of fs1. Proof. apply sub_add; [apply sub_0|now left|]. intros H. exfalso. exact (child_ne_pb (eq_sym H)). Qed.
Lemma sub_2 : sub_of fs2.
Proof. apply sub_add; [apply sub_1|right; now left|]. intros H. exfalso. apply child_inj in H. discriminate. Qed.
Lemma sub_3 : sub_of fs3.
Proof. unfold fs3. destruct (do_poly_fitting c) eqn:E; [|apply sub_2]. apply sub_add; [apply sub_2|right; right; now left|auto]. Qed.
Lemma sub_4 : sub_of fs4.
Proof. apply sub_add; [apply sub_3|unfold made; tauto|]. intros H. exfalso. apply child_inj in H. discriminate. Qed.
Lemma sub_5 : sub_of fs5.
Proof. apply sub_add; [apply sub_4|unfold made; tauto|]. intros H. exfalso. apply child_inj in H. discriminate. Qed.

Lemma J_low fs s b : sub_of fs -> s < 2 -> b < 2 -> J fs s b.
Proof. intros [H1 H2] Hs Hb. split; [exact H1|]. split; [exact H2|]. split; [lia|]. split; lia. Qed.
Lemma J_3 fs b : sub_of fs -> fs pb = true -> fs (child "Plots") = true -> (do_poly_fitting c = true -> fs (child "PolyFits") = true) -> b < 2 -> J fs 2 b.
Proof. intros [H1 H2] H3 H4 H5 Hb. split; [exact H1|]. split; [exact H2|]. split; [auto|]. split; lia. Qed.
Lemma J_4 fs s b : sub_of fs -> fs pb = true -> fs (child "Plots") = true -> (do_poly_fitting c = true -> fs (child "PolyFits") = true) ->
  fs (child "Eliashberg") = true -> (s = 2 \/ s = 3) -> b < 2 -> J fs s b.
Proof. intros [H1 H2] H3 H4 H5 H6 Hs Hb. split; [exact H1|]. split; [exact H2|]. split; [auto|]. split; [auto|lia]. Qed.
Lemma J_5 b : J fs5 3 b.
Proof.
  destruct sub_5 as [H1 H2]. split; [exact H1|]. split; [exact H2|].
  split; [intros _; repeat split; [apply fs5_up, fs4_up, fs3_pb|apply fs5_up, fs4_up, fs3_plots|intros H; apply fs5_up, fs4_up, (fs3_poly H)]|].
  split; [intros _; apply fs5_up, fs4_el|intros _; split; [lia|apply fs5_op]].
Qed.

Notation okR := (@okR folders LL J Q0). Notation okN := (@okN folders LL J QN).

Lemma cand0 path : cand path 0 = path. Proof. reflexivity. Qed.
Lemma str_assoc3 (t : string) : ((out ++ t) ++ "/")%string = (out ++ (t ++ "/"))%string. Proof. apply append_assoc. Qed.

Lemma root_ok : okR (2 + (S kk + 40)) (create_folders c 0) fs0 0 0.
Proof.
  unfold create_folders. change (2 + (S kk + 40)) with (S (S (S kk + 40))).
  apply okR_barrier; [apply J_low; auto using sub_0|apply J_low; auto using sub_0|auto|].
  unfold set_output_path at 1. apply okR_uniq; [apply J_low; auto using sub_0|exact Hfree|exact Hused|].
  fold folder. fold out.
  apply okR_send; [apply J_low; auto using sub_0|reflexivity|].
  apply okR_exists; [apply J_low; auto using sub_0|]. rewrite out_exists, pb_fresh.
  eapply okR_mkdir; [apply J_low; auto using sub_0|apply mkdir_ok; [apply out_ne|rewrite resolve_out; apply pb_fresh|rewrite resolve_out; apply pb_parent]|].
  rewrite resolve_out. fold fs1.
  assert (J1 : J fs1 1 1) by (apply J_low; auto using sub_1).
  unfold create_plotting_folder. apply okR_exists; [exact J1|]. rewrite out_exists, fs1_pb.
  apply okR_uniq with (m := 35) (kk := 0); [exact J1|rewrite cand0, (@sub_exists _ "/Plots/" "Plots") by (reflexivity || discriminate); apply fs1_plots|intros; lia|].
  rewrite cand0, str_assoc3. cbn [append].
  apply okR_exists; [exact J1|]. rewrite (@sub_exists _ "/Plots//" "Plots") by (reflexivity || discriminate). rewrite fs1_plots.
  eapply okR_mkdir; [exact J1|apply mkdir_ok; [apply sub_ne|..]|]; rewrite ?(@sub_path "/Plots//" "Plots") by (reflexivity || discriminate).
  { apply fs1_plots. } { rewrite child_parent. apply fs1_pb. }
  fold fs2. assert (J2 : J fs2 1 1) by (apply J_low; auto using sub_2).
  assert (TAIL : forall u, okR (u + 20) (set_output_path (out ++ "Eliashberg/") (Some 0)
    (fun el => set_output_path (out ++ "Optics/") (Some 0) (fun op => Barrier (Exists out (fun ok => if ok
       then Done {| f_out := out; f_plots := Some (out ++ "/Plots//")%string; f_poly := poly_root; f_eliash := el; f_optics := op |} else Failed EAssert))))) fs3 1 1).
  { intros u. rewrite Nat.add_comm.
    assert (J3 : J fs3 1 1) by (apply J_low; auto using sub_3).
    assert (J3' : J fs3 2 1) by (apply J_3; auto using sub_3, fs3_pb, fs3_plots, fs3_poly).
    assert (J4 : J fs4 2 1) by (apply J_4; auto using sub_4, fs4_up, fs3_pb, fs3_plots, fs3_poly, fs4_el).
    assert (J4' : J fs4 3 1) by (apply J_4; auto using sub_4, fs4_up, fs3_pb, fs3_plots, fs3_poly, fs4_el).
    unfold set_output_path at 1. apply okR_uniq with (m := 19 + u) (kk := 0);
      [exact J3|rewrite cand0, (@sub_exists _ "Eliashberg/" "Eliashberg") by (reflexivity || discriminate); apply fs3_el|intros; lia|].
    rewrite cand0, str_assoc3. cbn [append].
    apply okR_send; [exact J3|reflexivity|].
    apply okR_exists; [exact J3'|]. rewrite (@sub_exists _ "Eliashberg//" "Eliashberg") by (reflexivity || discriminate). rewrite fs3_el.
    eapply okR_mkdir; [exact J3'|apply mkdir_ok; [apply sub_ne|..]|]; rewrite ?(@sub_path "Eliashberg//" "Eliashberg") by (reflexivity || discriminate).
    { apply fs3_el. } { rewrite child_parent. apply fs3_pb. }
    fold fs4.
    unfold set_output_path at 1. apply okR_uniq with (m := 15 + u) (kk := 0);
      [exact J4|rewrite cand0, (@sub_exists _ "Optics/" "Optics") by (reflexivity || discriminate); apply fs4_op|intros; lia|].
    rewrite cand0, str_assoc3. cbn [append].
    apply okR_send; [exact J4|reflexivity|].
    apply okR_exists; [exact J4'|]. rewrite (@sub_exists _ "Optics//" "Optics") by (reflexivity || discriminate). rewrite fs4_op.
    eapply okR_mkdir; [exact J4'|apply mkdir_ok; [apply sub_ne|..]|]; rewrite ?(@sub_path "Optics//" "Optics") by (reflexivity || discriminate).
    { apply fs4_op. } { rewrite child_parent. apply fs4_up, fs3_pb. }
    fold fs5.
    apply okR_barrier; [apply J_5|apply J_5|auto|].
    apply okR_exists; [apply J_5|]. rewrite out_exists, (fs5_up _ (fs4_up _ fs3_pb)).
    apply okR_done; [apply J_5|reflexivity|reflexivity|reflexivity]. }
  unfold create_poly_fit_folder. unfold poly_root, fs3 in TAIL. destruct (do_poly_fitting c) eqn:Ep.
  - apply okR_uniq with (m := 32) (kk := 0); [exact J2|rewrite cand0, (@sub_exists _ "/PolyFits/" "PolyFits") by (reflexivity || discriminate); apply fs2_poly|intros; lia|].
    rewrite cand0, str_assoc3. cbn [append].
    apply okR_exists; [exact J2|]. rewrite (@sub_exists _ "/PolyFits//" "PolyFits") by (reflexivity || discriminate). rewrite fs2_poly.
    eapply okR_mkdir; [exact J2|apply mkdir_ok; [apply sub_ne|..]|]; rewrite ?(@sub_path "/PolyFits//" "PolyFits") by (reflexivity || discriminate).
    { apply fs2_poly. } { rewrite child_parent. apply fs2_pb. }
    exact (TAIL 10).
  - exact (TAIL 13).
Qed.

Lemma K_sub m b fs : K J m b fs -> forall q, fs q = true -> fs0 q = true \/ made q.
Proof. intros (s & b0 & _ & _ & HJ & _) q Hq. destruct (HJ q Hq) as [H|[H _]]; auto. Qed.
Lemma K_pb m b fs : 2 <= m -> K J m b fs -> fs pb = true.
Proof. intros Hm (s & b0 & Hs & _ & _ & _ & HJ & _). apply HJ. lia. Qed.
Lemma poly1_absent m b fs : K J m b fs -> path_exists fs (candidate (out ++ "/PolyFits/") "" 1) = false.
Proof.
  intros HK. unfold candidate. rewrite (append_assoc out). cbn [append].
  change (str_of_nat 1 ++ "")%string with "1"%string. cbn [append].
  assert (E : resolve (out ++ "/PolyFits/_1")%string = (is_abs folder, comps_from "" folder ++ ["PolyFits"; "_1"])).
  { unfold out. rewrite resolve_sub by apply folder_ne. reflexivity. }
  rewrite path_exists_ne by apply sub_ne. rewrite E. destruct (fs _) eqn:F; [|reflexivity]. exfalso.
  destruct (K_sub HK _ F) as [H|H].
  - apply Htree in H. change ["PolyFits"; "_1"] with (["PolyFits"] ++ ["_1"]) in H. rewrite app_assoc, parent_child in H.
    change (is_abs folder, comps_from "" folder ++ ["PolyFits"]) with (child "PolyFits") in H. rewrite child_fresh in H. discriminate.
  - assert (Len : List.length (comps_from "" folder ++ ["PolyFits"; "_1"]) = S (S (List.length (comps_from "" folder)))) by (rewrite app_length; cbn; lia).
    destruct H as [H|[H|[H|[H|H]]]]; unfold pb, resolve, child in H; injection H as H; rewrite H in Len; rewrite ?app_length in Len; cbn in Len; lia.
Qed.

Lemma other_ok r : okN 30 (create_folders c (S r)) 0 0.
Proof.
  unfold create_folders. apply okN_barrier; [auto|].
  unfold set_output_path at 1. apply okN_recv; [reflexivity|lia|]. intros v Hv. injection Hv as <-.
  apply okN_exists. intros fs HK.
  match goal with |- okN _ (if _ then ?x else ?x) _ _ => replace (if path_exists fs out then x else x) with x by (destruct (path_exists fs out); reflexivity) end.
  clear fs HK. unfold create_plotting_folder.
  assert (TAIL : forall poly, poly = poly_root \/ (do_poly_fitting c = true /\ poly = Some (out ++ "/PolyFits/_1/")%string) ->
    forall u, okN (u + 20) (set_output_path (out ++ "Eliashberg/") (Some (S r))
    (fun el => set_output_path (out ++ "Optics/") (Some (S r)) (fun op => Barrier (Exists out (fun ok => if ok
       then Done {| f_out := out; f_plots := None; f_poly := poly; f_eliash := el; f_optics := op |} else Failed EAssert))))) 1 1).
  { intros poly Hpoly u. rewrite Nat.add_comm. cbn [Nat.add].
    unfold set_output_path at 1. apply okN_recv; [reflexivity|lia|]. intros v Hv. injection Hv as <-.
    apply okN_exists. intros fs HK.
    match goal with |- okN _ (if ?t then ?x else ?x) _ _ => replace (if t then x else x) with x by (destruct t; reflexivity) end. clear fs HK.
    unfold set_output_path at 1. apply okN_recv; [reflexivity|lia|]. intros v Hv. injection Hv as <-.
    apply okN_exists. intros fs HK.
    match goal with |- okN _ (if ?t then ?x else ?x) _ _ => replace (if t then x else x) with x by (destruct t; reflexivity) end. clear fs HK.
    apply okN_barrier; [auto|]. apply okN_exists. intros fs HK. rewrite out_exists, (@K_pb 3 2 fs) by (lia || assumption).
    apply okN_done; [|reflexivity|reflexivity]. exists poly. split; [reflexivity|assumption]. }
  unfold create_poly_fit_folder. unfold poly_root in TAIL. destruct (do_poly_fitting c) eqn:Ep.
  - assert (T2 : forall d, d = (out ++ "/PolyFits//")%string \/ d = (out ++ "/PolyFits/_1/")%string -> forall u, okN (S (u + 20))
       (Exists d (fun e => if e then set_output_path (out ++ "Eliashberg/") (Some (S r))
    (fun el => set_output_path (out ++ "Optics/") (Some (S r)) (fun op => Barrier (Exists out (fun ok => if ok
       then Done {| f_out := out; f_plots := None; f_poly := Some d; f_eliash := el; f_optics := op |} else Failed EAssert)))) else
       set_output_path (out ++ "Eliashberg/") (Some (S r))
    (fun el => set_output_path (out ++ "Optics/") (Some (S r)) (fun op => Barrier (Exists out (fun ok => if ok
       then Done {| f_out := out; f_plots := None; f_poly := Some d; f_eliash := el; f_optics := op |} else Failed EAssert)))))) 1 1).
    { intros d Hd u. apply okN_exists. intros fs HK.
      match goal with |- okN _ (if ?t then ?x else ?x) _ _ => replace (if t then x else x) with x by (destruct t; reflexivity) end.
      apply TAIL. destruct Hd as [-> | ->]; auto. }
    unfold uniquify_then.
    assert (ES : splitext (out ++ "/PolyFits/") = ((out ++ "/PolyFits/")%string, ""%string)).
    { replace (out ++ "/PolyFits/")%string with ((out ++ "/PolyFits") ++ "/")%string by (rewrite append_assoc; reflexivity). apply splitext_slash. }
    rewrite ES. cbn [fst snd].
    (* first test *)
    apply okN_uniq. intros fs HK. destruct (path_exists fs (out ++ "/PolyFits/")).
    + apply okN_uniq. intros fs' HK'. rewrite (poly1_absent HK'). unfold candidate. rewrite !append_assoc. cbn [append].
      exact (T2 _ (or_intror eq_refl) 3).
    + rewrite append_assoc. cbn [append]. exact (T2 _ (or_introl eq_refl) 4).
  - exact (TAIL None (or_introl eq_refl) 6).
Qed.

Definition fuel_of (r : nat) : nat := match r with O => 2 + (S kk + 40) | S _ => 30 end.
Lemma inv_start n : Inv n LL J Q0 QN fuel_of (start fs0 (create_folders c)).
Proof.
  constructor; cbn [start j_fs j_sent j_recv j_enter j_prog].
  - exact root_ok.
  - intros [|i] v H; discriminate.
  - intros [|r] Hr; [lia|]. split; [apply other_ok|lia].
  - intros; split; lia.
Qed.
End Setup.
