(** Proofs about paths through the Brillouin zone as given and shown. *)
From Coq Require Import ZArith Reals List String Ascii Lra Lia.
From Verif Require Import Base.PyBase Base.PyFacts Model.Util Model.KPath Model.RankFiles Model.PathPlot Spec.KPathSpec Spec.PathPlotSpec Proofs.KPathP.
Import ListNotations.
Set Implicit Arguments.
Local Open Scope Z_scope.

(** ** names *)
Lemma split_nonempty d s : split_on d s <> [].
Proof. destruct s as [|c s]; cbn; [discriminate|]. destruct (Ascii.eqb c d); [discriminate|]. destruct (split_on d s); discriminate. Qed.
Lemma join_split d s : join d (split_on d s) = s.
Proof.
  induction s as [|c s IH]; [reflexivity|]. cbn [split_on].
  destruct (Ascii.eqb_spec c d) as [->|Hne].
  - pose proof (split_nonempty d s). destruct (split_on d s) as [|w ws] eqn:E; [congruence|]. cbn in *. now rewrite IH.
  - pose proof (split_nonempty d s). destruct (split_on d s) as [|w ws] eqn:E; [congruence|].
    destruct ws as [|w2 ws]; cbn in *; now rewrite IH.
Qed.
Lemma split_no_delim d s : ~ has_char d s -> split_on d s = [s].
Proof.
  induction s as [|c s IH]; intros H; [reflexivity|]. cbn [split_on]. unfold has_char in *. cbn in H.
  destruct (Ascii.eqb_spec c d) as [->|Hne]; [exfalso; apply H; now left|]. rewrite IH; [reflexivity|]. intros Hi. apply H. now right.
Qed.
Lemma split_app d a b : ~ has_char d a -> split_on d (a ++ String d b) = a :: split_on d b.
Proof.
  induction a as [|c a IH]; intros H; cbn [append split_on].
  - now rewrite Ascii.eqb_refl.
  - unfold has_char in *. cbn in H. destruct (Ascii.eqb_spec c d) as [->|Hne]; [exfalso; apply H; now left|].
    rewrite IH; [reflexivity|]. intros Hi. apply H. now right.
Qed.
Theorem split_join d names : names <> [] -> (forall n, In n names -> ~ has_char d n) -> split_on d (join d names) = names.
Proof.
  induction names as [|n names IH]; intros Hne H; [congruence|].
  destruct names as [|n2 names]; [cbn; apply split_no_delim, H; now left|].
  change (join d (n :: n2 :: names)) with (n ++ String d (join d (n2 :: names)))%string.
  rewrite split_app by (apply H; now left). f_equal. apply IH; [discriminate|]. intros m Hm. apply H. now right.
Qed.
Lemma split_words d s w : In w (split_on d s) -> ~ has_char d w.
Proof.
  revert w. induction s as [|c s IH]; intros w; cbn [split_on].
  - intros [<-|[]]. unfold has_char. cbn. tauto.
  - destruct (Ascii.eqb_spec c d) as [->|Hne].
    + intros [<-|Hw]; [unfold has_char; cbn; tauto|]. now apply IH.
    + pose proof (split_nonempty d s). destruct (split_on d s) as [|u us] eqn:E; [congruence|].
      intros [<-|Hw]; [|apply IH; now right]. unfold has_char. cbn. intros [He|Hi]; [congruence|]. apply (IH u); [now left|exact Hi].
Qed.

(** ** corners *)
Lemma lookup_named s p l : lookup known_points s = Some (p, l) <-> named_point s p l.
Proof.
  split.
  - unfold known_points. cbn [lookup].
    repeat (match goal with |- (if String.eqb ?a ?b then _ else _) = _ -> _ =>
      destruct (String.eqb_spec a b) as [<-|_]; [intros E; injection E as <- <-; constructor|] end). discriminate.
  - intros H. destruct H; reflexivity.
Qed.
Lemma lookup_unnamed s : lookup known_points s = None <-> ~ is_named s.
Proof.
  split.
  - intros E (p & l & H). apply lookup_named in H. congruence.
  - intros H. destruct (lookup known_points s) as [[p l]|] eqn:E; [|reflexivity]. exfalso. apply H. exists p, l. now apply lookup_named.
Qed.
Section F.
Variable float_of : string -> res R.
Lemma space_not_named s : has_char " " s -> ~ is_named s.
Proof. intros H (p & l & Hn). destruct Hn; unfold has_char in H; cbn in H; intuition discriminate. Qed.
Lemma join_has d a b l : has_char d (join d (a :: b :: l)).
Proof. unfold has_char. cbn [join]. induction a as [|c a IH]; cbn; [now left|]. right. exact IH. Qed.

Lemma corner_one s p :
  (match lookup known_points s with Some (p, _) => Ok p | None => let! l := get_k_point_from_string float_of s in assign_row3 l end) = Ok p
  <-> corner_means float_of s p.
Proof.
  split.
  - destruct (lookup known_points s) as [[q l]|] eqn:E.
    + intros H. injection H as <-. apply lookup_named in E. now apply cm_named with l.
    + apply lookup_unnamed in E. unfold get_k_point_from_string.
      pose proof (join_split " " s) as Hj. pose proof (split_words " " s) as Hw.
      destruct (split_on " " s) as [|s1 [|s2 [|s3 [|s4 ws]]]]; cbn [mapM].
      * discriminate.
      * destruct (float_of s1) as [a|] eqn:E1; cbn; [|discriminate]. intros H; injection H as <-. cbn in Hj. subst s1.
        apply cm_one; auto. apply Hw. now left.
      * destruct (float_of s1); cbn; [|discriminate]. destruct (float_of s2); cbn; discriminate.
      * destruct (float_of s1) as [a|] eqn:E1; cbn; [|discriminate]. destruct (float_of s2) as [b|] eqn:E2; cbn; [|discriminate].
        destruct (float_of s3) as [c|] eqn:E3; cbn; [|discriminate]. intros H; injection H as <-. rewrite <- Hj.
        apply cm_three; auto; apply Hw; cbn; auto.
      * destruct (float_of s1); cbn; [|discriminate]. destruct (float_of s2); cbn; [|discriminate].
        destruct (float_of s3); cbn; [|discriminate]. destruct (float_of s4); cbn; [|discriminate]. destruct (mapM float_of ws); cbn; discriminate.
  - intros H. destruct H as [s p l H | s1 s2 s3 a b c H1 H2 H3 E1 E2 E3 | s a Hn Hs E].
    + apply lookup_named in H. now rewrite H.
    + assert (Hn : ~ is_named (join " " [s1; s2; s3])) by (apply space_not_named, join_has).
      apply lookup_unnamed in Hn. rewrite Hn. unfold get_k_point_from_string. rewrite split_join; [|discriminate|].
      * cbn. now rewrite E1; cbn; rewrite E2; cbn; rewrite E3.
      * intros n [<-|[<-|[<-|[]]]]; assumption.
    + apply lookup_unnamed in Hn. rewrite Hn. unfold get_k_point_from_string. rewrite split_no_delim by assumption. cbn. now rewrite E.
Qed.
Theorem corners_iff names pts : corner_k_points float_of names = Ok pts <-> Forall2 (corner_means float_of) names pts.
Proof.
  unfold corner_k_points. revert pts. induction names as [|s names IH]; intros pts; cbn [mapM].
  - split; [intros E; injection E as <-; constructor|]. intros H; now inversion H.
  - split.
    + destruct (match lookup known_points s with Some (p, _) => _ | None => _ end) as [p|] eqn:E; cbn; [|discriminate].
      destruct (mapM _ names) as [ps|] eqn:E2; cbn; [|discriminate]. intros H; injection H as <-. constructor; [now apply corner_one|now apply IH].
    + intros H. inversion H as [|? p ? ps Hp Hps]; subst. apply corner_one in Hp. apply IH in Hps. rewrite Hp. unfold bind at 1. now rewrite Hps.
Qed.

(** ** the object *)
Lemma make_kpath_inv nk path d kp : make_kpath float_of nk path d = Ok kp ->
  kp_names kp = split_on d path /\ Forall2 (corner_means float_of) (kp_names kp) (kp_corners kp) /\ kp_nk kp = nk /\
  build_k_path (kp_corners kp) nk = (kp_pts kp, kp_nkp kp) /\ kp_nkp kp <> [] /\ get_kpath_val nk (kp_pts kp) = Ok (kp_val kp).
Proof.
  unfold make_kpath. destruct (corner_k_points float_of (split_on d path)) as [ckp|] eqn:E; cbn; [|discriminate].
  destruct (build_k_path ckp nk) as [kpts nkp] eqn:Eb. destruct nkp as [|n nkp0]; [discriminate|].
  destruct (get_kpath_val nk kpts) as [kv|] eqn:Ev; cbn; [|discriminate]. intros H; injection H as <-. cbn.
  repeat split; auto; try discriminate. now apply corners_iff.
Qed.
Lemma len_build ckp nk : length (snd (build_k_path ckp nk)) = pred (length ckp) /\ Forall (fun n => 0 <= n) (snd (build_k_path ckp nk)) /\
  zlen (fst (build_k_path ckp nk)) = zsum (snd (build_k_path ckp nk)).
Proof.
  induction ckp as [|a ckp IH]; [cbn; auto|]. destruct ckp as [|b ckp]; [cbn; auto|]. rewrite build_cons.
  pose proof (zlen_segment a b nk) as Hz. pose proof (segment_nkp_nonneg a b nk) as Hn.
  assert (Hs : snd (kpath_segment a b nk) = segment_nkp a b nk) by (unfold kpath_segment; destruct a as [[? ?] ?], b as [[? ?] ?], nk as [[? ?] ?]; reflexivity).
  destruct (kpath_segment a b nk) as [seg n]. destruct (build_k_path (b :: ckp) nk) as [p ns]. cbn [fst snd] in *. destruct IH as (I1 & I2 & I3). subst n.
  split; [cbn [length] in *; lia|]. split; [constructor; auto|]. rewrite zlen_app. cbn [zsum fold_right]. unfold zsum in I3. lia.
Qed.
Theorem negative_refused nk a b kp : (forall r, float_of "" <> Ok r) -> make_kpath float_of nk (a ++ String "-" (String "-" b)) "-" = Ok kp -> False.
Proof.
  intros Hf H. apply make_kpath_inv in H. destruct H as (Hn & Hc & _). rewrite Hn in Hc.
  assert (Hin : In EmptyString (split_on "-" (a ++ String "-" (String "-" b)))).
  { clear. induction a as [|c a IH]; cbn [append split_on]; [cbn; now left|].
    destruct (Ascii.eqb c "-"); [now right|]. 
    assert (HH : exists w w2 ws, split_on "-" (a ++ String "-" (String "-" b)) = w :: w2 :: ws /\ In EmptyString (w2 :: ws)).
    { clear IH. induction a as [|c' a IH]; cbn [append split_on].
      - exists EmptyString, EmptyString, (split_on "-" b). cbn. auto.
      - destruct IH as (w & w2 & ws & E & Hi). rewrite E. destruct (Ascii.eqb c' "-"); [exists EmptyString, w, (w2 :: ws); split; [reflexivity|now right]|].
        exists (String c' w), w2, ws. auto. }
    destruct HH as (w & w2 & ws & E & Hi). rewrite E. now right. }
  clear Hn. revert Hin Hc. generalize (split_on "-" (a ++ String "-" (String "-" b))) as l. generalize (kp_corners kp) as ps.
  induction ps as [|p ps IH]; intros l Hin Hc; inversion Hc as [|s q l' ps' Hs Hps]; subst; [destruct Hin|].
  destruct Hin as [->|Hin]; [|now apply (IH l')].
  inversion Hs as [? ? l'' Hnm|s1 s2 s3 ? ? ? H1 H2 H3 E1 E2 E3 Ej|? ? Hnn Hsp E]; subst.
  - inversion Hnm.
  - destruct s1; discriminate.
  - now apply (Hf _ E).
Qed.
Lemma labels_from_spec names : forall c j s, nth_error names j = Some s ->
  (forall p l, named_point s p l -> nth_error (labels_from c names) j = Some l) /\
  (~ is_named s -> nth_error (labels_from c names) j = Some (String "K" (str_of_nat (c + j)))).
Proof.
  induction names as [|n names IH]; intros c j s E; [destruct j; discriminate|]. destruct j as [|j].
  - cbn in E. injection E as ->. cbn [labels_from nth_error]. split.
    + intros p l Hn. apply lookup_named in Hn. now rewrite Hn.
    + intros Hn. apply lookup_unnamed in Hn. rewrite Hn. now rewrite Nat.add_0_r.
  - cbn [labels_from nth_error]. cbn in E. replace (c + S j)%nat with (S c + j)%nat by lia. now apply IH.
Qed.
Lemma labels_len names : forall c, length (labels_from c names) = length names.
Proof. induction names; intros c; cbn; auto. Qed.
End F.
