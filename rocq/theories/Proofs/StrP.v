(** Facts about the string functions of Model/RankFiles.v: formatting and re-reading integers, the order of names. *)
From Coq Require Import String Ascii Decimal DecimalNat DecimalString Sorting.Sorted Permutation.
From Verif Require Import Base.PyBase Base.PyFacts Model.Util Model.RankFiles Proofs.UtilP.
Set Implicit Arguments.
Local Open Scope string_scope.
Local Open Scope list_scope.
Local Open Scope Z_scope.

(** ** digits *)
Fixpoint all_digits (s : string) : bool :=
  match s with EmptyString => true | String c s' => match digit_val c with Some _ => all_digits s' | None => false end end.
Fixpoint no_digits (s : string) : bool :=
  match s with EmptyString => true | String c s' => match digit_val c with Some _ => false | None => no_digits s' end end.
Fixpoint dval (acc : Z) (s : string) : Z :=
  match s with EmptyString => acc | String c s' => match digit_val c with Some d => dval (10 * acc + d) s' | None => acc end end.

Lemma all_digits_app a b : all_digits (a ++ b)%string = all_digits a && all_digits b.
Proof. induction a as [|c a IH]; cbn; [reflexivity|]. destruct (digit_val c); [assumption|reflexivity]. Qed.
Lemma dval_app a b acc : all_digits a = true -> dval acc (a ++ b)%string = dval (dval acc a) b.
Proof. revert acc; induction a as [|c a IH]; cbn; intros acc H; [reflexivity|]. destruct (digit_val c); [now apply IH|discriminate]. Qed.

Lemma tail_add_eq a b : Nat.tail_add a b = (a + b)%nat.
Proof. revert b; induction a; cbn; intros b; [reflexivity|]. rewrite IHa. lia. Qed.
Lemma tail_addmul_eq r n m : Nat.tail_addmul r n m = (r + n * m)%nat.
Proof. revert r; induction n; cbn; intros r; [lia|]. rewrite IHn, tail_add_eq. lia. Qed.
Lemma tail_mul_eq n m : Nat.tail_mul n m = (n * m)%nat.
Proof. unfold Nat.tail_mul. now rewrite tail_addmul_eq. Qed.

Lemma string_of_uint_digits d : all_digits (NilEmpty.string_of_uint d) = true.
Proof. induction d; cbn; auto. Qed.
Lemma dval_uint d : forall acc, dval (Z.of_nat acc) (NilEmpty.string_of_uint d) = Z.of_nat (Nat.of_uint_acc d acc).
Proof.
  induction d; intros acc; cbn [NilEmpty.string_of_uint Nat.of_uint_acc]; [reflexivity|..];
  rewrite <- IHd, tail_mul_eq; cbn [dval];
  (match goal with |- match digit_val ?c with _ => _ end = _ => let v := eval vm_compute in (digit_val c) in change (digit_val c) with v end);
  cbv iota beta; f_equal; lia.
Qed.
Lemma str_of_nat_digits n : all_digits (str_of_nat n) = true.
Proof. unfold str_of_nat, NilZero.string_of_uint. destruct (Nat.to_uint n) eqn:E; rewrite <- ?E; try apply string_of_uint_digits. reflexivity. Qed.
Lemma str_of_nat_nonempty n : str_of_nat n <> EmptyString.
Proof. unfold str_of_nat, NilZero.string_of_uint. destruct (Nat.to_uint n); cbn; discriminate. Qed.
Lemma dval_str_of_nat n : dval 0 (str_of_nat n) = Z.of_nat n.
Proof.
  rewrite <- (Unsigned.of_to n) at 2. unfold str_of_nat, Nat.of_uint. rewrite <- dval_uint.
  unfold NilZero.string_of_uint. destruct (Nat.to_uint n) eqn:E; try reflexivity.
Qed.
Lemma zeros_digits n : all_digits (zeros n) = true. Proof. induction n; cbn; auto. Qed.
Lemma dval_zeros n : dval 0 (zeros n) = 0. Proof. induction n; cbn; auto. Qed.
Lemma pad0_digits w n : all_digits (pad0 w (str_of_nat n)) = true.
Proof. unfold pad0. rewrite all_digits_app, zeros_digits, str_of_nat_digits. reflexivity. Qed.
Lemma dval_pad0 w n : dval 0 (pad0 w (str_of_nat n)) = Z.of_nat n.
Proof. unfold pad0. rewrite dval_app by apply zeros_digits. rewrite dval_zeros. apply dval_str_of_nat. Qed.
Lemma pad0_nonempty w n : pad0 w (str_of_nat n) <> EmptyString.
Proof.
  intros H. apply (f_equal String.length) in H. unfold pad0 in H. rewrite length_append in H. cbn in H.
  apply (@str_of_nat_nonempty n). destruct (str_of_nat n); [reflexivity|cbn in H; lia].
Qed.

(** ** findall *)
Lemma findall_no_digits a b : no_digits a = true -> findall_from None (a ++ b)%string = findall_from None b.
Proof. induction a as [|c a IH]; cbn; intros H; [reflexivity|]. destruct (digit_val c); [discriminate|auto]. Qed.
Definition starts_nondigit (b : string) : Prop := match b with EmptyString => True | String c _ => digit_val c = None end.
Lemma findall_run a b v : all_digits a = true -> starts_nondigit b ->
  findall_from (Some v) (a ++ b)%string = dval v a :: findall_from None b.
Proof.
  revert v; induction a as [|c a IH]; cbn; intros v H Hb.
  - destruct b as [|c b]; cbn in *; [reflexivity|]. now rewrite Hb.
  - destruct (digit_val c); [apply IH; auto|discriminate].
Qed.
Lemma findall_digits a b : all_digits a = true -> a <> EmptyString -> starts_nondigit b ->
  findall_from None (a ++ b)%string = dval 0 a :: findall_from None b.
Proof.
  destruct a as [|c a]; [congruence|]. cbn. intros H _ Hb. destruct (digit_val c) as [d|]; [|discriminate].
  rewrite findall_run by assumption. reflexivity.
Qed.

Lemma append_nil s : (s ++ "" = s)%string. Proof. induction s; cbn; congruence. Qed.

Theorem findall_group prefix q w : no_digits prefix = true -> 0 <= q ->
  findall_int (group_name prefix q w) = [q; Z.abs w].
Proof.
  intros Hp Hq. unfold findall_int, group_name. rewrite findall_no_digits by assumption.
  rewrite findall_no_digits by reflexivity. unfold fmt0 at 1. destruct (Z.ltb_spec q 0); [lia|].
  rewrite findall_digits; [|apply pad0_digits|apply pad0_nonempty|reflexivity].
  rewrite dval_pad0. rewrite Z2Nat.id by lia. f_equal. rewrite findall_no_digits by reflexivity.
  unfold fmt0. destruct (Z.ltb_spec w 0).
  - cbn [findall_from digit_val]. change (digit_val "-") with (@None Z). cbn iota.
    rewrite <- (append_nil (pad0 _ _)). rewrite findall_digits; [|apply pad0_digits|apply pad0_nonempty|exact I].
    rewrite dval_pad0. cbn. f_equal. lia.
  - rewrite <- (append_nil (pad0 _ _)). rewrite findall_digits; [|apply pad0_digits|apply pad0_nonempty|exact I].
    rewrite dval_pad0. cbn. f_equal. lia.
Qed.

Lemma digits_cancel a b c d : all_digits a = true -> all_digits b = true -> starts_nondigit c -> starts_nondigit d ->
  (a ++ c = b ++ d)%string -> a = b /\ c = d.
Proof.
  revert b; induction a as [|x a IH]; intros [|y b] Ha Hb Hc Hd H; cbn in *.
  - auto.
  - subst c. cbn in Hc. rewrite Hc in Hb. discriminate.
  - subst d. cbn in Hd. rewrite Hd in Ha. discriminate.
  - injection H as -> H. destruct (digit_val y); [|discriminate]. destruct (IH b Ha Hb Hc Hd H). now subst.
Qed.
Lemma pad0_inj w a b : pad0 w (str_of_nat a) = pad0 w (str_of_nat b) -> a = b.
Proof. intros H. apply (f_equal (dval 0)) in H. rewrite !dval_pad0 in H. lia. Qed.
Lemma fmt0_inj w a b : fmt0 w a = fmt0 w b -> a = b.
Proof.
  unfold fmt0. destruct (Z.ltb_spec a 0), (Z.ltb_spec b 0); intros H1.
  - injection H1 as H1. apply pad0_inj in H1. lia.
  - pose proof (pad0_digits w (Z.to_nat b)) as D. rewrite <- H1 in D. discriminate.
  - pose proof (pad0_digits w (Z.to_nat a)) as D. rewrite H1 in D. discriminate.
  - apply pad0_inj in H1. lia.
Qed.
Lemma append_inj_l' a b c : (a ++ b = a ++ c)%string -> b = c.
Proof. induction a; cbn; intros H; [assumption|]. injection H; auto. Qed.
Lemma group_name_inj prefix q w q' w' : 0 <= q -> 0 <= q' ->
  group_name prefix q w = group_name prefix q' w' -> q = q' /\ w = w'.
Proof.
  unfold group_name. intros Hq Hq' H. apply append_inj_l' in H. apply append_inj_l' in H.
  unfold fmt0 at 1 3 in H. destruct (Z.ltb_spec q 0); [lia|]. destruct (Z.ltb_spec q' 0); [lia|].
  apply digits_cancel in H; [|apply pad0_digits|apply pad0_digits|reflexivity|reflexivity].
  destruct H as [Ha Hb]. apply pad0_inj in Ha. apply append_inj_l' in Hb. apply fmt0_inj in Hb. split; [lia|assumption].
Qed.
Lemma rank_fname_inj path name a b : 0 <= a -> 0 <= b -> rank_fname path name a = rank_fname path name b -> a = b.
Proof.
  unfold rank_fname. intros Ha Hb H. apply append_inj_l' in H. apply append_inj_l' in H. apply append_inj_l' in H.
  unfold fmt0 in H. destruct (Z.ltb_spec a 0); [lia|]. destruct (Z.ltb_spec b 0); [lia|].
  apply digits_cancel in H; [|apply pad0_digits|apply pad0_digits|reflexivity|reflexivity].
  destruct H as [H _]. apply pad0_inj in H. lia.
Qed.
Lemma prefix_app p s : String.prefix p (p ++ s)%string = true.
Proof. induction p as [|c p IH]; cbn; [destruct s; reflexivity|]. destruct (ascii_dec c c); [assumption|congruence]. Qed.

(** ** order of names *)
Lemma str_ltb_irrefl a : str_ltb a a = false.
Proof. induction a as [|c a IH]; cbn [str_ltb append]; [reflexivity|]. rewrite Nat.ltb_irrefl, IH. now rewrite andb_false_r. Qed.
Lemma str_ltb_trans a b c : str_ltb a b = true -> str_ltb b c = true -> str_ltb a c = true.
Proof.
  revert b c; induction a as [|x a IH]; intros [|y b] [|z c]; cbn [str_ltb append]; try discriminate; auto.
  intros H1 H2. apply orb_true_iff in H1, H2. apply orb_true_iff.
  destruct H1 as [H1|H1], H2 as [H2|H2].
  - left. apply Nat.ltb_lt in H1, H2. apply Nat.ltb_lt. lia.
  - apply andb_true_iff in H2. destruct H2 as [H2 _]. apply Ascii.eqb_eq in H2. subst. now left.
  - apply andb_true_iff in H1. destruct H1 as [H1 _]. apply Ascii.eqb_eq in H1. subst. now left.
  - apply andb_true_iff in H1, H2. destruct H1 as [H1 H1'], H2 as [H2 H2']. apply Ascii.eqb_eq in H1, H2. subst.
    right. rewrite Ascii.eqb_refl. cbn. eauto.
Qed.
Lemma str_ltb_total a b : str_ltb a b = false -> a <> b -> str_ltb b a = true.
Proof.
  revert b; induction a as [|x a IH]; intros [|y b]; cbn [str_ltb append]; try discriminate; try congruence; auto.
  intros H Hne. apply orb_false_iff in H. destruct H as [H1 H2]. apply Nat.ltb_ge in H1. apply orb_true_iff.
  destruct (Ascii.eqb_spec x y) as [->|N].
  - right. rewrite Ascii.eqb_refl. cbn in *. apply IH; [assumption|congruence].
  - left. apply Nat.ltb_lt. assert (nat_of_ascii x <> nat_of_ascii y); [|lia].
    intros E. apply N. rewrite <- (ascii_nat_embedding x), <- (ascii_nat_embedding y). now rewrite E.
Qed.
Lemma str_ltb_app p a b : str_ltb (p ++ a)%string (p ++ b)%string = str_ltb a b.
Proof. induction p as [|c p IH]; cbn [str_ltb append]; [reflexivity|]. rewrite Nat.ltb_irrefl, Ascii.eqb_refl. cbn. assumption. Qed.
Definition slt (a b : string) : Prop := str_ltb a b = true.

Lemma In_str_insert x y l : In y (str_insert x l) <-> y = x \/ In y l.
Proof.
  induction l as [|z l IH]; cbn; [intuition|]. destruct (str_ltb x z); [cbn; intuition|].
  destruct (String.eqb_spec x z); [subst; cbn; intuition|]. cbn. rewrite IH. intuition.
Qed.
Lemma sorted_str_insert x l : StronglySorted slt l -> StronglySorted slt (str_insert x l).
Proof.
  induction 1 as [|z l Hs IH Hf]; cbn; [repeat constructor|].
  destruct (str_ltb x z) eqn:E.
  - constructor; [now constructor|]. constructor; [exact E|]. rewrite Forall_forall in *. intros y Hy. eapply str_ltb_trans; eauto. exact (Hf y Hy).
  - destruct (String.eqb_spec x z); [now constructor|]. constructor; [assumption|].
    rewrite Forall_forall in *. intros y Hy. apply In_str_insert in Hy. destruct Hy as [->|Hy]; [|auto].
    now apply str_ltb_total.
Qed.
Lemma StronglySorted_filter A (R : A -> A -> Prop) p l : StronglySorted R l -> StronglySorted R (filter p l).
Proof.
  induction 1 as [|a l Hs IH Hf]; cbn; [constructor|]. destruct (p a); [|assumption]. constructor; [assumption|].
  rewrite Forall_forall in *. intros y Hy. apply filter_In in Hy. apply Hf. tauto.
Qed.
Lemma slt_NoDup l : StronglySorted slt l -> NoDup l.
Proof.
  induction 1 as [|a l Hs IH Hf]; constructor; auto. intros Hin. rewrite Forall_forall in Hf. specialize (Hf a Hin).
  unfold slt in Hf. rewrite str_ltb_irrefl in Hf. discriminate.
Qed.

(** a negative frequency sorts before its positive partner *)
Lemma starts_digit_pad0 w n : exists c s, pad0 w (str_of_nat n) = String c s /\ exists d, digit_val c = Some d.
Proof.
  destruct (pad0 w (str_of_nat n)) as [|c s] eqn:E; [exfalso; eapply pad0_nonempty; eauto|].
  exists c, s. split; [reflexivity|]. pose proof (pad0_digits w n) as D. rewrite E in D. cbn in D.
  destruct (digit_val c) eqn:F; [eauto|discriminate].
Qed.
Lemma digit_val_range c d : digit_val c = Some d -> (48 <= nat_of_ascii c)%nat.
Proof. unfold digit_val. destruct (_ && _) eqn:E; [|discriminate]. intros _. apply andb_true_iff in E. destruct E as [E _]. apply Z.leb_le in E. lia. Qed.
Lemma group_neg_before_pos prefix q w w' : w < 0 <= w' -> slt (group_name prefix q w) (group_name prefix q w').
Proof.
  intros Hw. unfold slt, group_name. rewrite !str_ltb_app. unfold fmt0.
  destruct (Z.ltb_spec w 0); [|lia]. destruct (Z.ltb_spec w' 0); [lia|].
  destruct (starts_digit_pad0 4 (Z.to_nat w')) as [c [s [-> [d Hd]]]]. cbn [str_ltb].
  apply orb_true_iff. left. apply Nat.ltb_lt. apply digit_val_range in Hd. change (nat_of_ascii "-") with 45%nat. lia.
Qed.
