(** The statements of C96. *)
From Coq Require Import String Ascii Arith.
From Verif Require Import Base.PyBase Model.Util Model.RunSetup Spec.RunSetupSpec Proofs.UtilP Proofs.RunPathP Proofs.RunJobP Proofs.RunSetupP.
Set Implicit Arguments.
Local Open Scope string_scope.
Local Open Scope list_scope.
Local Open Scope nat_scope.

Lemma uniquify_cand ex path kk : ex (cand path kk) = false -> (forall x, x < kk -> ex (cand path x) = true) ->
  uniquify ex path (S kk) = Some (cand path kk ++ "/")%string.
Proof.
  intros Hf Hu. unfold uniquify. destruct (splitext path) as [f e] eqn:Es.
  assert (G : forall d i, i + d = kk -> uniquify_loop ex f e (cand path i) (S i) (S d) = Some (cand path kk ++ "/")%string).
  { induction d as [|d IH]; intros i Hi; cbn [uniquify_loop].
    - replace i with kk by lia. now rewrite Hf.
    - rewrite Hu by lia. replace (candidate f e (S i)) with (cand path (S i)) by (unfold cand; now rewrite Es).
      apply (IH (S i)). lia. }
  apply (G kk 0). lia.
Qed.

Section Main.
Variables (n : nat) (c : run_cfg) (fs0 : fsys).
Hypothesis n_pos : 0 < n.
Hypothesis Htree : tree fs0.
Hypothesis Hfin : finite_fs fs0.
Hypothesis Hin : path_exists fs0 (input_path c) = true.
Hypothesis Hlam : no_slash (lambda_corr c) = true.

Lemma sub_fresh kk t x : path_exists fs0 (cand (base_name c) kk) = false ->
  comps_from "" t = [x] -> t <> ""%string -> path_exists fs0 (out c kk ++ t) = false.
Proof. intros Hf Ht Ht'. rewrite (@sub_exists c fs0 Hin Hlam kk fs0 t x) by assumption. now apply child_fresh. Qed.

Lemma setup_main :
  exists out, (exists fuel, uniquify (path_exists fs0) (base_name c) fuel = Some out) /\
  (forall t, In t [""; "/Plots//"; "/PolyFits//"; "Eliashberg//"; "Optics//"] -> path_exists fs0 (out ++ t) = false) /\
  forall j, steps n (start fs0 (create_folders c)) j ->
    (forall r e, r < n -> j_prog j r <> Failed e) /\
    (forall r f, r < n -> j_prog j r = Done f ->
       f_out f = out /\ f_eliash f = (out ++ "Eliashberg//")%string /\ f_optics f = (out ++ "Optics//")%string /\
       path_exists (j_fs j) (f_out f) = true /\ path_exists (j_fs j) (f_eliash f) = true /\ path_exists (j_fs j) (f_optics f) = true /\
       (r = 0 -> f_plots f = Some (out ++ "/Plots//")%string /\ path_exists (j_fs j) (out ++ "/Plots//") = true /\
                 (if do_poly_fitting c
                  then f_poly f = Some (out ++ "/PolyFits//")%string /\ path_exists (j_fs j) (out ++ "/PolyFits//") = true
                  else f_poly f = None)) /\
       (r <> 0 -> f_plots f = None /\
                  (if do_poly_fitting c
                   then f_poly f = Some (out ++ "/PolyFits//")%string \/ f_poly f = Some (out ++ "/PolyFits/_1/")%string
                   else f_poly f = None))) /\
    (forall q, j_fs j q = true -> fs0 q = true \/
       In q (map resolve [out; out ++ "Plots"; out ++ "Eliashberg"; out ++ "Optics"]%string) \/ (do_poly_fitting c = true /\ q = resolve (out ++ "PolyFits"))) /\
    (forall q, fs0 q = true -> j_fs j q = true) /\
    ((forall r, r < n -> finished (j_prog j r)) \/ exists j', step n j j').
Proof.
  destruct (@least_free c fs0 Hfin Hin Hlam) as (kk & Hf & Hu).
  exists (out c kk). split; [exists (S kk); now apply uniquify_cand|].
  split.
  { intros t Ht. cbn in Ht. destruct Ht as [<-|[<-|[<-|[<-|[<-|[]]]]]].
    - rewrite app_empty_r. rewrite (@out_exists c fs0 Hin Hlam). now apply pb_fresh.
    - apply (@sub_fresh kk "/Plots//" "Plots"); [assumption|reflexivity|discriminate].
    - apply (@sub_fresh kk "/PolyFits//" "PolyFits"); [assumption|reflexivity|discriminate].
    - apply (@sub_fresh kk "Eliashberg//" "Eliashberg"); [assumption|reflexivity|discriminate].
    - apply (@sub_fresh kk "Optics//" "Optics"); [assumption|reflexivity|discriminate]. }
  intros j Hs.
  destruct (inv_steps n_pos (eq_refl : List.length (LL c kk) = 3) (@inv_start c fs0 Htree Hin Hlam kk Hf Hu n) Hs) as [F HI].
  pose proof (inv_J HI) as HJ. split; [|split; [|split; [|split]]].
  - intros r e Hr Hp. pose proof (rank_shape n_pos (eq_refl : List.length (LL c kk) = 3) HI Hr) as H. rewrite Hp in H. exact H.
  - intros r f Hr Hp. pose proof (rank_shape n_pos (eq_refl : List.length (LL c kk) = 3) HI Hr) as H. rewrite Hp in H. destruct H as [He HQ].
    assert (E0 : 2 <= j_enter j 0). { destruct HI as [_ _ _ HB]. rewrite <- He. apply HB; [assumption|assumption|now rewrite Hp]. }
    destruct HJ as (_ & _ & H2 & H3 & H5). destruct (H5 E0) as [Hs3 Hop]. specialize (H3 Hs3). destruct H2 as (Hpb & Hpl & Hpo); [lia|].
    assert (X : forall t x, comps_from "" t = [x] -> t <> ""%string -> j_fs j (child c kk x) = true -> path_exists (j_fs j) (out c kk ++ t) = true).
    { intros t x H1 H2 H4. rewrite (@sub_exists c fs0 Hin Hlam kk (j_fs j) t x) by assumption. exact H4. }
    destruct (r =? 0) eqn:Er.
    + apply Nat.eqb_eq in Er. unfold Q0 in HQ. subst f. cbn [f_out f_plots f_poly f_eliash f_optics].
      do 3 (split; [reflexivity|]). split; [rewrite (@out_exists c fs0 Hin Hlam); exact Hpb|].
      split; [apply (X "Eliashberg//" "Eliashberg"); [reflexivity|discriminate|assumption]|].
      split; [apply (X "Optics//" "Optics"); [reflexivity|discriminate|assumption]|].
      split; [|intros; contradiction]. intros _. split; [reflexivity|]. split; [apply (X "/Plots//" "Plots"); [reflexivity|discriminate|assumption]|].
      unfold poly_root. destruct (do_poly_fitting c); [|reflexivity]. split; [reflexivity|]. apply (X "/PolyFits//" "PolyFits"); [reflexivity|discriminate|auto].
    + apply Nat.eqb_neq in Er. destruct HQ as (poly & -> & Hpoly). cbn [f_out f_plots f_poly f_eliash f_optics].
      do 3 (split; [reflexivity|]). split; [rewrite (@out_exists c fs0 Hin Hlam); exact Hpb|].
      split; [apply (X "Eliashberg//" "Eliashberg"); [reflexivity|discriminate|assumption]|].
      split; [apply (X "Optics//" "Optics"); [reflexivity|discriminate|assumption]|].
      split; [intros; contradiction|]. intros _. split; [reflexivity|].
      unfold poly_root in Hpoly. destruct (do_poly_fitting c).
      * destruct Hpoly as [H|[_ H]]; auto.
      * destruct Hpoly as [H|[H _]]; [assumption|discriminate].
  - intros q Hq. destruct HJ as (H1 & _). destruct (H1 q Hq) as [H|[Hm Hp]]; [now left|].
    assert (Y : forall t x, comps_from "" t = [x] -> t <> ""%string -> resolve (out c kk ++ t)%string = child c kk x)
      by (intros t x A1 A2; now apply (@sub_path c fs0 Hin Hlam kk t x)).
    right. cbn [map]. rewrite (Y "Plots" "Plots"), (Y "Eliashberg" "Eliashberg"), (Y "Optics" "Optics"), (Y "PolyFits" "PolyFits") by (reflexivity || discriminate).
    rewrite (@resolve_out c fs0 Hin Hlam kk).
    destruct Hm as [->|[->|[->|[->| ->]]]]; cbn; auto 10.
  - intros q Hq. destruct HJ as (_ & H2 & _). now apply H2.
  - exact (inv_progress n_pos (eq_refl : List.length (LL c kk) = 3) HI).
Qed.

Lemma setup_terminates : exists bound, forall l j, run_len n l (start fs0 (create_folders c)) j -> l <= bound.
Proof.
  destruct (@least_free c fs0 Hfin Hin Hlam) as (kk & Hf & Hu).
  exists (total n (fuel_of kk)). intros l j Hl. destruct (inv_len n_pos (eq_refl : List.length (LL c kk) = 3) (@inv_start c fs0 Htree Hin Hlam kk Hf Hu n) Hl) as (F & _ & H). lia.
Qed.
End Main.

(** ** executing a schedule *)
Definition exec {R} (n : nat) (j : job R) (r : nat) : option (job R) :=
  if negb (r <? n) then None else
  let go (p : prog R) := {| j_fs := j_fs j; j_sent := j_sent j; j_recv := j_recv j; j_enter := j_enter j; j_prog := upd (j_prog j) r p |} in
  match j_prog j r with
  | Done _ | Failed _ => None
  | Exists p k => Some (go (k (path_exists (j_fs j) p)))
  | Mkdir p k => match mkdir (j_fs j) p with
                 | inl fs' => Some {| j_fs := fs'; j_sent := j_sent j; j_recv := j_recv j; j_enter := j_enter j; j_prog := upd (j_prog j) r k |}
                 | inr e => Some (go (Failed e))
                 end
  | Uniq f e p c k => Some (go (if path_exists (j_fs j) p then Uniq f e (candidate f e c) (S c) k else k (p ++ "/")%string))
  | BcastRoot v k => Some {| j_fs := j_fs j; j_sent := j_sent j ++ [v]; j_recv := j_recv j; j_enter := j_enter j; j_prog := upd (j_prog j) r k |}
  | BcastOther k => match nth_error (j_sent j) (j_recv j r) with
                    | Some v => Some {| j_fs := j_fs j; j_sent := j_sent j; j_recv := upd (j_recv j) r (S (j_recv j r)); j_enter := j_enter j;
                                        j_prog := upd (j_prog j) r (k v) |}
                    | None => None
                    end
  | Barrier k => Some {| j_fs := j_fs j; j_sent := j_sent j; j_recv := j_recv j; j_enter := upd (j_enter j) r (S (j_enter j r));
                         j_prog := upd (j_prog j) r (Waiting k) |}
  | Waiting k => if forallb (fun r' => j_enter j r <=? j_enter j r') (seq 0 n) then Some (go k) else None
  end.
Lemma exec_step {R} n (j j' : job R) r : exec n j r = Some j' -> step n j j'.
Proof.
  unfold exec. destruct (r <? n) eqn:Hr; [cbn [negb]|discriminate]. apply Nat.ltb_lt in Hr.
  destruct (j_prog j r) eqn:Hp; try discriminate.
  - intros H; injection H as <-. now apply step_exists.
  - pose proof (step_mkdir j Hr Hp) as Hs. destruct (mkdir (j_fs j) p); intros H; injection H as <-; exact Hs.
  - intros H; injection H as <-. now apply step_uniq.
  - intros H; injection H as <-. now apply step_send.
  - destruct (nth_error _ _) eqn:En; [|discriminate]. intros H; injection H as <-. now apply step_recv.
  - intros H; injection H as <-. now apply step_enter.
  - destruct (forallb _ _) eqn:Ef; [|discriminate]. intros H; injection H as <-. apply step_leave; [assumption|assumption|].
    intros r' Hr'. rewrite forallb_forall in Ef. apply Nat.leb_le, Ef, in_seq. lia.
Qed.
Fixpoint schedule {R} (n : nat) (l : list nat) (j : job R) : option (job R) :=
  match l with [] => Some j | r :: l' => match exec n j r with Some j' => schedule n l' j' | None => None end end.
Lemma steps_trans {R} n (a b d : job R) : steps n a b -> steps n b d -> steps n a d.
Proof. intros H1 H2. induction H2; [assumption|]. econstructor; [apply IHsteps; assumption|eassumption]. Qed.
Lemma schedule_steps {R} n l : forall (j j' : job R), schedule n l j = Some j' -> steps n j j'.
Proof.
  induction l as [|r l IH]; intros j j' H; cbn in H; [injection H as <-; constructor|].
  destruct (exec n j r) as [j1|] eqn:E; [|discriminate]. eapply steps_trans; [|apply (IH _ _ H)].
  econstructor; [constructor|]. now apply exec_step in E.
Qed.

(** ** dga_io.set_output_path *)
Section IO.
Variables (n : nat) (fs0 : fsys) (d name : string).
Hypothesis n_pos : 0 < n.
Hypothesis Hfin : finite_fs fs0.
Hypothesis Hd : path_exists fs0 d = true.
Hypothesis Hn : no_slash name = true /\ name <> ""%string /\ name <> "."%string.
Let base := (d ++ String "/" name)%string.
Let pr (r : nat) : prog string := io_set_output_path base (Some r) (fun p => Done p).

Definition io_root (kk : nat) (p : prog string) (fs : fsys) : Prop :=
  (fs = fs0 /\ (exists i, i <= kk /\ p = Uniq (fst (splitext base)) (snd (splitext base)) (cand base i) (S i)
      (fun p => Exists p (fun e => if e then Done p else Mkdir p (Done p))))) \/
  (fs = fs0 /\ p = Exists (cand base kk ++ "/")%string (fun e => if e then Done (cand base kk ++ "/")%string else Mkdir (cand base kk ++ "/")%string (Done (cand base kk ++ "/")%string))) \/
  (fs = fs0 /\ p = Mkdir (cand base kk ++ "/")%string (Done (cand base kk ++ "/")%string)) \/
  (fs = add_dir fs0 (resolve (cand base kk)) /\ p = Done (cand base kk ++ "/")%string).
Definition io_other (p : prog string) : Prop :=
  (exists i, p = Uniq (fst (splitext base)) (snd (splitext base)) (cand base i) (S i) (fun p => Exists p (fun e => if e then Done p else Done p))) \/
  (exists q, p = Exists q (fun e => if e then Done q else Done q)) \/ (exists q, p = Done q).

Lemma d_ne : d <> ""%string. Proof. intros H. rewrite H in Hd. discriminate. Qed.

Lemma io_inv kk : path_exists fs0 (cand base kk) = false -> (forall x, x < kk -> path_exists fs0 (cand base x) = true) ->
  forall j, steps n (start fs0 pr) j -> io_root kk (j_prog j 0) (j_fs j) /\ forall r, 0 < r < n -> io_other (j_prog j r).
Proof.
  intros Hf Hu. pose proof d_ne as Hdn. pose proof Hn as Hpr. change (proper name) in Hpr.
  assert (Hcn : cand base kk <> ""%string). { unfold base. rewrite cand_tried by apply Hpr. now apply app_nonempty_l. }
  assert (Hc2 : (cand base kk ++ "/")%string <> ""%string) by now apply app_nonempty_l.
  assert (Hres : resolve (cand base kk) = (is_abs d, comps_from "" d ++ [tried name kk])) by (apply resolve_tried; assumption).
  assert (Hab : fs0 (resolve (cand base kk)) = false) by (rewrite <- path_exists_ne; assumption).
  intros j Hs. remember (start fs0 pr) as j0 eqn:E0. induction Hs as [j|j1 j2 j3 H12 IH H23].
  - subst j. cbn. split; [left; split; [reflexivity|exists 0; split; [lia|reflexivity]]|].
    intros r Hr. left. exists 0. destruct r; [lia|reflexivity].
  - specialize (IH E0). destruct IH as [IR IO].
    destruct H23 as [j r p k Hr Hp|j r p k Hr Hp|j r f e p cc k Hr Hp|j r v k Hr Hp|j r k v Hr Hp Hne|j r k Hr Hp|j r k Hr Hp Hall].
    all: destruct (Nat.eq_dec r 0) as [->|Hr0]; [rewrite Hp in IR|pose proof (IO r ltac:(lia)) as Ho; rewrite Hp in Ho].
    all: try (exfalso; destruct IR as [[_ (i & _ & E)]|[[_ E]|[[_ E]|[_ E]]]]; discriminate E).
    all: try (exfalso; destruct Ho as [(i & E)|[(q & E)|(q & E)]]; discriminate E).
    + destruct IR as [[_ (i & _ & E)]|[[Ef E]|[[_ E]|[_ E]]]]; try discriminate E. injection E as -> ->.
      cbn [j_fs j_prog]. split; [|intros r Hr'; rewrite upd_other by lia; now apply IO]. rewrite upd_same.
      right; right; left. split; [assumption|]. rewrite Ef. rewrite path_exists_ne by assumption. rewrite resolve_slash by assumption. now rewrite Hab.
    + destruct Ho as [(i & E)|[(q & E)|(q & E)]]; try discriminate E. injection E as -> ->.
      cbn [j_fs j_prog]. split; [rewrite upd_other by lia; exact IR|]. intros r' Hr'.
      destruct (Nat.eq_dec r' r) as [->|]; [rewrite upd_same|rewrite upd_other by assumption; now apply IO].
      right; right. exists q. destruct (path_exists (j_fs j) q); reflexivity.
    + destruct IR as [[_ (i & _ & E)]|[[_ E]|[[Ef E]|[_ E]]]]; try discriminate E. injection E as -> ->.
      assert (Em : mkdir (j_fs j) (cand base kk ++ "/") = inl (add_dir (j_fs j) (resolve (cand base kk)))).
      { rewrite <- (resolve_slash Hcn). apply mkdir_ok; [assumption|..]; rewrite resolve_slash by assumption; rewrite Ef; [assumption|].
        rewrite Hres, parent_child. rewrite path_exists_ne in Hd by assumption. exact Hd. }
      rewrite Em. cbn [j_fs j_prog]. split; [|intros r Hr'; rewrite upd_other by lia; now apply IO]. rewrite upd_same.
      right; right; right. now rewrite Ef.
    + destruct IR as [[Ef (i & Hi & E)]|[[_ E]|[[_ E]|[_ E]]]]; try discriminate E. injection E as -> -> -> -> ->.
      cbn [j_fs j_prog]. split; [|intros r Hr'; rewrite upd_other by lia; now apply IO]. rewrite upd_same, Ef.
      destruct (Nat.eq_dec i kk) as [->|Hik].
      * rewrite Hf. right; left. split; [reflexivity|reflexivity].
      * rewrite Hu by lia. left. split; [reflexivity|]. exists (S i). split; [lia|reflexivity].
    + destruct Ho as [(i & E)|[(q & E)|(q & E)]]; try discriminate E. injection E as -> -> -> -> ->.
      cbn [j_fs j_prog]. split; [rewrite upd_other by lia; exact IR|]. intros r' Hr'.
      destruct (Nat.eq_dec r' r) as [->|]; [rewrite upd_same|rewrite upd_other by assumption; now apply IO].
      destruct (path_exists (j_fs j) (cand base i)).
      * left. exists (S i). reflexivity.
      * right; left. exists (cand base i ++ "/")%string. reflexivity.
Qed.

Lemma io_main : exists out, (exists fuel, uniquify (path_exists fs0) base fuel = Some out) /\ path_exists fs0 out = false /\
  forall j, steps n (start fs0 pr) j ->
    (forall r e, r < n -> j_prog j r <> Failed e) /\
    (forall p, j_prog j 0 = Done p -> p = out /\ path_exists (j_fs j) p = true).
Proof.
  pose proof d_ne as Hdn. pose proof Hn as Hpr. change (proper name) in Hpr.
  destruct (finite_free Hfin Hdn Hpr) as [k0 Hk0]. fold base in Hk0.
  assert (G : forall m, (exists kk, path_exists fs0 (cand base kk) = false /\ forall x, x < kk -> path_exists fs0 (cand base x) = true)
               \/ forall x, x < m -> path_exists fs0 (cand base x) = true).
  { induction m as [|m [IH|IH]]; [right; intros; lia|now left|].
    destruct (path_exists fs0 (cand base m)) eqn:E; [right|left; eauto]. intros x Hx.
    destruct (Nat.eq_dec x m) as [->|]; [assumption|apply IH; lia]. }
  destruct (G (S k0)) as [(kk & Hf & Hu)|H]; [|rewrite H in Hk0 by lia; discriminate].
  assert (Hcn : cand base kk <> ""%string). { unfold base. rewrite cand_tried by apply Hpr. now apply app_nonempty_l. }
  assert (Hc2 : (cand base kk ++ "/")%string <> ""%string) by now apply app_nonempty_l.
  exists (cand base kk ++ "/")%string. split; [exists (S kk); now apply uniquify_cand|].
  split; [rewrite path_exists_ne, resolve_slash, <- path_exists_ne by assumption; exact Hf|].
  intros j Hs. destruct (io_inv Hf Hu Hs) as [IR IO]. split.
  - intros r e Hr Hp. destruct (Nat.eq_dec r 0) as [->|Hr0].
    + rewrite Hp in IR. destruct IR as [[_ (i & _ & E)]|[[_ E]|[[_ E]|[_ E]]]]; discriminate E.
    + destruct (IO r ltac:(lia)) as [(i & E)|[(q & E)|(q & E)]]; rewrite Hp in E; discriminate E.
  - intros p Hp. rewrite Hp in IR. destruct IR as [[_ (i & _ & E)]|[[_ E]|[[_ E]|[Ef E]]]]; try discriminate E. injection E as ->.
    split; [reflexivity|]. rewrite Ef, path_exists_ne, resolve_slash by assumption. apply add_same.
Qed.
End IO.
