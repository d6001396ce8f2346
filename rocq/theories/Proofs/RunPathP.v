(** Facts about the paths of Model/RunSetup.v. *)
From Coq Require Import String Ascii Arith.
From Verif Require Import Base.PyBase Model.Util Model.RunSetup Spec.RunSetupSpec Proofs.UtilP Proofs.StrP.
Set Implicit Arguments.
Local Open Scope string_scope.
Local Open Scope list_scope.
Local Open Scope nat_scope.

Lemma no_slash_app a b : no_slash (a ++ b)%string = no_slash a && no_slash b.
Proof. induction a as [|c a IH]; cbn; [reflexivity|]. rewrite IH. now rewrite andb_assoc. Qed.
Lemma digits_no_slash s : all_digits s = true -> no_slash s = true.
Proof.
  induction s as [|c s IH]; cbn; [reflexivity|]. destruct (RankFiles.digit_val c) eqn:E; [|discriminate]. intros H. rewrite (IH H), andb_true_r.
  destruct (Ascii.eqb c "/") eqn:E2; [|reflexivity]. apply Ascii.eqb_eq in E2. subst c. discriminate E.
Qed.
Lemma str_no_slash n : no_slash (str_of_nat n) = true.
Proof. apply digits_no_slash, str_of_nat_digits. Qed.
Lemma app_empty_r s : (s ++ "")%string = s.
Proof. induction s; cbn; congruence. Qed.

(** comps_from on a slash *)
Lemma comps_app_slash s t : forall cur, comps_from cur (s ++ String "/" t)%string = comps_from cur s ++ comps_from "" t.
Proof.
  induction s as [|c s IH]; intros cur; cbn.
  - unfold push. destruct (_ || _); reflexivity.
  - destruct (Ascii.eqb c "/"); [|apply IH]. rewrite IH. unfold push. destruct (_ || _); reflexivity.
Qed.
Lemma comps_no_slash s : forall cur, no_slash s = true -> comps_from cur s = push (cur ++ s)%string [].
Proof.
  induction s as [|c s IH]; intros cur H; cbn in *.
  - now rewrite app_empty_r.
  - apply andb_true_iff in H. destruct H as [H1 H2]. apply negb_true_iff in H1. rewrite H1, (IH _ H2), append_assoc. reflexivity.
Qed.
Lemma is_abs_app s t : s <> ""%string -> is_abs (s ++ t)%string = is_abs s.
Proof. destruct s; [congruence|reflexivity]. Qed.

Definition proper (s : string) : Prop := no_slash s = true /\ s <> ""%string /\ s <> "."%string.
Lemma comps_proper s : proper s -> comps_from "" s = [s].
Proof.
  intros (H1 & H2 & H3). rewrite comps_no_slash by assumption. cbn. unfold push.
  apply String.eqb_neq in H2. apply String.eqb_neq in H3. now rewrite H2, H3.
Qed.
Lemma resolve_child b x : b <> ""%string -> proper x -> resolve (b ++ String "/" x)%string = (is_abs b, comps_from "" b ++ [x]).
Proof. intros Hb Hx. unfold resolve. rewrite is_abs_app by assumption. rewrite comps_app_slash, (comps_proper Hx). reflexivity. Qed.
Lemma resolve_slash b : b <> ""%string -> resolve (b ++ "/")%string = resolve b.
Proof. intros Hb. unfold resolve. rewrite is_abs_app by assumption. rewrite comps_app_slash. cbn. now rewrite app_nil_r. Qed.
Lemma app_nonempty_l b x : b <> ""%string -> (b ++ x)%string <> ""%string.
Proof. destruct b; [congruence|discriminate]. Qed.
Lemma app_nonempty_r b x : x <> ""%string -> (b ++ x)%string <> ""%string.
Proof. destruct b; [auto|discriminate]. Qed.
Lemma path_exists_ne fs s : s <> ""%string -> path_exists fs s = fs (resolve s).
Proof. intros H. unfold path_exists. apply String.eqb_neq in H. now rewrite H. Qed.

(** split_last *)
Lemma split_last_none (p : ascii -> bool) s : (forall c x y, s = (x ++ String c y)%string -> p c = false) -> split_last p s = None.
Proof.
  induction s as [|c s IH]; intros H; cbn; [reflexivity|]. rewrite IH.
  - rewrite (H c "" s)%string by reflexivity. reflexivity.
  - intros d x y ->. apply (H d (String c x) y). reflexivity.
Qed.
Lemma split_last_app (p : ascii -> bool) s t : forall r, split_last p t = Some r -> split_last p (s ++ t)%string = Some ((s ++ fst r)%string, snd r).
Proof. intros r H. induction s as [|c s IH]; cbn; [rewrite H; now destruct r|]. now rewrite IH. Qed.
Lemma no_slash_split s : no_slash s = true -> split_last (fun c => Ascii.eqb c "/") s = None.
Proof.
  intros H. apply split_last_none. intros c x y ->. rewrite no_slash_app in H. apply andb_true_iff in H. destruct H as [_ H].
  cbn in H. apply andb_true_iff in H. destruct H as [H _]. now apply negb_true_iff in H.
Qed.
Lemma splitext_dir d name : no_slash name = true ->
  splitext (d ++ String "/" name)%string = ((d ++ String "/" (fst (splitext_name name)))%string, snd (splitext_name name)).
Proof.
  intros H. unfold splitext.
  assert (E : split_last (fun c => Ascii.eqb c "/") (String "/" name) = Some (""%string, String "/" name)).
  { cbn. rewrite no_slash_split by assumption. reflexivity. }
  rewrite (split_last_app _ d _ E). cbn. rewrite app_empty_r. destruct (splitext_name name) as [a b]. reflexivity.
Qed.
Lemma split_last_concat p s : forall a b, split_last p s = Some (a, b) -> (a ++ b)%string = s.
Proof.
  induction s as [|c s IH]; cbn; intros a b H; [discriminate|]. destruct (split_last p s) as [[a' b']|].
  - injection H as <- <-. cbn. now rewrite (IH _ _ eq_refl).
  - destruct (p c); [|discriminate]. injection H as <- <-. reflexivity.
Qed.
Lemma splitext_name_concat s : (fst (splitext_name s) ++ snd (splitext_name s))%string = s.
Proof.
  unfold splitext_name. destruct (split_last _ s) as [[a b]|] eqn:E; [|cbn; apply app_empty_r].
  destruct (only_dots a); cbn; [apply app_empty_r|]. exact (split_last_concat _ _ E).
Qed.
Lemma splitext_slash d : splitext (d ++ "/")%string = ((d ++ "/")%string, ""%string).
Proof. rewrite (splitext_dir d "") by reflexivity. reflexivity. Qed.

(** the names uniquify tries for a path [d/name] *)
Definition tried (name : string) (k : nat) : string :=
  match k with O => name | S _ => (fst (splitext_name name) ++ "_" ++ str_of_nat k ++ snd (splitext_name name))%string end.
Lemma cand_tried d name k : no_slash name = true -> cand (d ++ String "/" name)%string k = (d ++ String "/" (tried name k))%string.
Proof.
  intros H. destruct k; [reflexivity|]. unfold cand, tried. rewrite splitext_dir by assumption. cbn [fst snd]. unfold candidate.
  now rewrite append_assoc.
Qed.
Lemma tried_proper name k : proper name -> proper (tried name k).
Proof.
  intros (H1 & H2 & H3). destruct k; [repeat split; assumption|]. unfold tried.
  pose proof (splitext_name_concat name) as E. set (a := fst _) in *. set (e := snd _) in *. rewrite <- E, no_slash_app in H1.
  apply andb_true_iff in H1. destruct H1 as [Ha He].
  split; [|split].
  - rewrite !no_slash_app, Ha, He, str_no_slash. reflexivity.
  - intros H. apply (f_equal String.length) in H. rewrite length_append in H. cbn in H. lia.
  - intros H. destruct a as [|c a]; cbn in H; [discriminate|]. injection H as _ H. destruct a; discriminate.
Qed.
Lemma tried_inj name a b : 1 <= a -> 1 <= b -> tried name a = tried name b -> a = b.
Proof.
  destruct a, b; try lia. intros _ _ H. unfold tried in H. apply append_inj_l in H. apply (append_inj_l "_") in H.
  apply append_inj_r in H. now apply str_of_nat_inj.
Qed.
Lemma resolve_tried d name k : d <> ""%string -> proper name ->
  resolve (cand (d ++ String "/" name)%string k) = (is_abs d, comps_from "" d ++ [tried name k]).
Proof. intros Hd Hn. rewrite cand_tried by apply Hn. apply resolve_child; [assumption|now apply tried_proper]. Qed.

(** on a finite file system a free name is found *)
Lemma finite_free (fs : fsys) d name : finite_fs fs -> d <> ""%string -> proper name ->
  exists k, path_exists fs (cand (d ++ String "/" name)%string k) = false.
Proof.
  intros [l Hl] Hd Hn.
  assert (D : forall n, (forall k, 1 <= k <= n -> path_exists fs (cand (d ++ String "/" name)%string k) = true) \/
                        exists k, path_exists fs (cand (d ++ String "/" name)%string k) = false).
  { induction n as [|n [IH|IH]]; [left; intros; lia| |now right].
    destruct (path_exists fs (cand (d ++ String "/" name)%string (S n))) eqn:E; [left|right; eauto].
    intros k Hk. destruct (Nat.eq_dec k (S n)) as [->|]; [assumption|apply IH; lia]. }
  destruct (D (S (List.length l))) as [H|H]; [exfalso|assumption].
  set (f := fun k => resolve (cand (d ++ String "/" name)%string k)).
  assert (HN : NoDup (map f (seq 1 (S (List.length l))))).
  { assert (G : forall m s, 1 <= s -> NoDup (map f (seq s m))).
    { induction m as [|m IH]; intros s Hs; cbn; constructor; [|apply IH; lia]. intros Hi. apply in_map_iff in Hi.
      destruct Hi as (k & E & Hk). apply in_seq in Hk. unfold f in E. rewrite !resolve_tried in E by assumption.
      injection E as E. apply app_inj_tail in E. destruct E as [_ E]. apply tried_inj in E; lia. }
    apply G. lia. }
  assert (HI : incl (map f (seq 1 (S (List.length l)))) l).
  { intros p Hp. apply in_map_iff in Hp. destruct Hp as (k & <- & Hk). apply in_seq in Hk. apply Hl. unfold f.
    rewrite <- path_exists_ne; [apply H; lia|]. rewrite cand_tried by apply Hn. now apply app_nonempty_l. }
  pose proof (NoDup_incl_length HN HI) as HL. rewrite map_length, seq_length in HL. lia.
Qed.

Lemma place_eqb_refl p : place_eqb p p = true.
Proof. unfold place_eqb. destruct p as [a l]. cbn [fst snd]. rewrite Bool.eqb_reflx. destruct (list_eq_dec string_dec l l); [reflexivity|congruence]. Qed.
Lemma place_eqb_eq p q : place_eqb p q = true -> p = q.
Proof.
  unfold place_eqb. destruct p as [a l], q as [b m]. cbn [fst snd]. intros H. apply andb_true_iff in H. destruct H as [H1 H2].
  apply Bool.eqb_prop in H1. destruct (list_eq_dec string_dec l m); [congruence|discriminate].
Qed.
Lemma place_eqb_neq p q : p <> q -> place_eqb p q = false.
Proof. intros H. destruct (place_eqb p q) eqn:E; [|reflexivity]. apply place_eqb_eq in E. contradiction. Qed.
Lemma add_same fs p : add_dir fs p p = true.
Proof. unfold add_dir. now rewrite place_eqb_refl. Qed.
Lemma add_mono fs p q : fs q = true -> add_dir fs p q = true.
Proof. unfold add_dir. intros ->. apply orb_true_r. Qed.
Lemma add_other fs p q : p <> q -> add_dir fs p q = fs q.
Proof. unfold add_dir. intros H. now rewrite place_eqb_neq. Qed.
Lemma parent_child a l x : parent (a, l ++ [x]) = (a, l).
Proof. unfold parent. cbn. now rewrite removelast_last. Qed.
Lemma mkdir_ok fs s : s <> ""%string -> fs (resolve s) = false -> fs (parent (resolve s)) = true -> mkdir fs s = inl (add_dir fs (resolve s)).
Proof. intros H1 H2 H3. unfold mkdir. apply String.eqb_neq in H1. now rewrite H1, H2, H3. Qed.
