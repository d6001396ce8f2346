From Coq Require Import String Ascii DecimalString DecimalNat Arith FinFun.
From Verif Require Import Base.PyBase Model.Util.
Set Implicit Arguments.
Local Open Scope string_scope.

Lemma str_of_nat_inj a b : str_of_nat a = str_of_nat b -> a = b.
Proof.
  unfold str_of_nat. intros H. apply Unsigned.to_uint_inj.
  assert (E : forall n, Nat.to_uint n <> Decimal.Nil).
  { intros n Hn. pose proof (f_equal Nat.of_uint Hn) as H0. rewrite Unsigned.of_to in H0. cbn in H0. subst n. discriminate Hn. }
  pose proof (NilZero.usu _ (E a)) as Ha. pose proof (NilZero.usu _ (E b)) as Hb. rewrite H in Ha. congruence.
Qed.
Lemma append_inj_l a b c : a ++ b = a ++ c -> b = c.
Proof. induction a as [|x a IH]; cbn; [auto|]. intros H; injection H as H. auto. Qed.
Lemma append_assoc a b c : (a ++ b) ++ c = a ++ (b ++ c).
Proof. induction a as [|x a IH]; cbn; [auto|]. now rewrite IH. Qed.
Lemma length_append a b : String.length (a ++ b) = (String.length a + String.length b)%nat.
Proof. induction a; cbn; auto. Qed.
Lemma append_inj_r a b c : a ++ c = b ++ c -> a = b.
Proof.
  revert b. induction a as [|x a IH]; intros [|y b]; cbn; auto.
  - intros H. exfalso. apply (f_equal String.length) in H. cbn in H. rewrite length_append in H. lia.
  - intros H. exfalso. apply (f_equal String.length) in H. cbn in H. rewrite length_append in H. lia.
  - intros H. injection H as -> H. f_equal. auto.
Qed.
Lemma candidate_inj f e a b : candidate f e a = candidate f e b -> a = b.
Proof.
  unfold candidate. intros H. apply append_inj_l in H. apply (append_inj_l "_") in H. apply append_inj_r in H. now apply str_of_nat_inj.
Qed.

(** candidate number k: 0 is the path itself *)
Definition cand (path : string) (k : nat) : string :=
  match k with O => path | S _ => candidate (fst (splitext path)) (snd (splitext path)) k end.

Lemma loop_spec ex f e path c fuel r :
  uniquify_loop ex f e path c fuel = Some r ->
  (ex path = false /\ r = path ++ "/") \/
  (ex path = true /\ exists k, (c <= k)%nat /\ r = candidate f e k ++ "/" /\ ex (candidate f e k) = false /\
     forall j, (c <= j < k)%nat -> ex (candidate f e j) = true).
Proof.
  revert path c. induction fuel as [|n IH]; intros path c H; [discriminate|]. cbn [uniquify_loop] in H.
  destruct (ex path) eqn:E; [|left; split; [reflexivity|congruence]]. right. split; [reflexivity|].
  destruct (IH _ _ H) as [[H1 H2]|(H1 & k & Hk & Hr & He & Hj)].
  - exists c. repeat split; [lia|assumption|assumption|intros; lia].
  - exists k. repeat split; [lia|assumption|assumption|]. intros j Hjk.
    destruct (Nat.eq_dec j c) as [->|]; [assumption|apply Hj; lia].
Qed.
Lemma uniquify_result ex path fuel r : uniquify ex path fuel = Some r ->
  exists k, r = cand path k ++ "/" /\ ex (cand path k) = false /\ forall j, (j < k)%nat -> ex (cand path j) = true.
Proof.
  unfold uniquify, cand. destruct (splitext path) as [f e]. cbn [fst snd]. intros H. destruct (loop_spec _ _ _ _ _ _ H) as [[H1 H2]|(H1 & k & Hk & Hr & He & Hj)].
  - exists 0%nat. repeat split; auto. intros; lia.
  - exists k. destruct k; [lia|]. repeat split; auto. intros [|j] Hjk; [assumption|apply Hj; lia].
Qed.
Lemma loop_total ex f e : forall fuel path c,
  (exists k, (k < fuel)%nat /\ (if (k =? 0)%nat then ex path else ex (candidate f e (c + k - 1))) = false) ->
  exists r, uniquify_loop ex f e path c fuel = Some r.
Proof.
  induction fuel as [|n IH]; intros path c (k & Hk & Hf); [lia|]. cbn [uniquify_loop].
  destruct (ex path) eqn:E; [|eauto]. apply IH. destruct k as [|k]; [cbn in Hf; congruence|].
  cbn [Nat.eqb] in Hf. exists k. split; [lia|]. destruct k as [|k]; cbn [Nat.eqb].
  - replace (c + 1 - 1)%nat with c in Hf by lia. assumption.
  - rewrite <- Hf. f_equal. f_equal. lia.
Qed.
Lemma pigeon (fs : list string) f e n : (forall k, (1 <= k <= n)%nat -> In (candidate f e k) fs) -> (n <= List.length fs)%nat.
Proof.
  intros H. set (l := map (candidate f e) (seq 1 n)).
  assert (HN : NoDup l).
  { apply FinFun.Injective_map_NoDup; [intros a b; apply candidate_inj|apply seq_NoDup]. }
  assert (HI : incl l fs).
  { intros x Hx. apply in_map_iff in Hx. destruct Hx as (k & <- & Hk). apply in_seq in Hk. apply H. lia. }
  pose proof (NoDup_incl_length HN HI) as HL. unfold l in HL. rewrite map_length, seq_length in HL. exact HL.
Qed.
Lemma uniquify_terminates (fs : list string) (ex : string -> bool) path :
  (forall s, ex s = true -> In s fs) -> exists r, uniquify ex path (S (S (List.length fs))) = Some r.
Proof.
  intros Hfs. unfold uniquify. destruct (splitext path) as [f e]. apply loop_total.
  set (N := List.length fs).
  assert (D : forall n, (forall k, (1 <= k <= n)%nat -> ex (candidate f e k) = true) \/ exists k, (1 <= k <= n)%nat /\ ex (candidate f e k) = false).
  { induction n as [|n [IH|(k & Hk & Hf)]].
    - left; intros; lia.
    - destruct (ex (candidate f e (S n))) eqn:E.
      + left. intros k Hk. destruct (Nat.eq_dec k (S n)) as [->|]; [assumption|apply IH; lia].
      + right. exists (S n). split; [lia|assumption].
    - right. exists k. split; [lia|assumption]. }
  destruct (D (S N)) as [H|(k & Hk & Hf)].
  - exfalso. assert (S N <= N)%nat; [|lia]. apply (@pigeon fs f e). intros k Hk. apply Hfs. auto.
  - exists k. split; [lia|]. destruct (Nat.eqb_spec k 0); [lia|]. rewrite <- Hf. do 2 f_equal. lia.
Qed.
Lemma loop_mono ex f e : forall fuel path c r k, uniquify_loop ex f e path c fuel = Some r -> uniquify_loop ex f e path c (fuel + k) = Some r.
Proof.
  induction fuel as [|n IH]; intros path c r k H; [discriminate|]. cbn [uniquify_loop Nat.add] in *. destruct (ex path); [apply IH; assumption|assumption].
Qed.
Lemma uniquify_mono ex path fuel r k : uniquify ex path fuel = Some r -> uniquify ex path (fuel + k) = Some r.
Proof. unfold uniquify. destruct (splitext path). apply loop_mono. Qed.

(** splitext splits *)
Lemma split_last_app p s a b : split_last p s = Some (a, b) -> a ++ b = s.
Proof.
  revert a b. induction s as [|c s IH]; intros a b; cbn [split_last]; [discriminate|].
  destruct (split_last p s) as [[a' b']|]; [|destruct (p c); [|discriminate]]; intros H; injection H as <- <-; cbn; [|reflexivity].
  f_equal. now apply IH.
Qed.
Lemma append_nil s : s ++ "" = s. Proof. induction s; cbn; congruence. Qed.
Lemma splitext_name_app s : fst (splitext_name s) ++ snd (splitext_name s) = s.
Proof.
  unfold splitext_name. destruct (split_last _ s) as [[a b]|] eqn:E; [|apply append_nil].
  destruct (only_dots a); [apply append_nil|]. cbn. now apply split_last_app in E.
Qed.
Lemma splitext_app s : fst (splitext s) ++ snd (splitext s) = s.
Proof.
  unfold splitext. destruct (split_last _ s) as [[d [|c f]]|] eqn:E; [apply append_nil| |apply splitext_name_app].
  destruct (splitext_name f) as [a b] eqn:Ef. cbn [fst snd]. rewrite append_assoc. cbn.
  pose proof (splitext_name_app f) as H. rewrite Ef in H. cbn in H. rewrite H. now apply split_last_app in E.
Qed.
Lemma uniquify_result_full existing path fuel r : uniquify existing path fuel = Some r ->
  let root := fst (splitext path) in let ext := snd (splitext path) in
  (root ++ ext = path) /\
  ((existing path = false /\ r = path ++ "/") \/
   (existing path = true /\ exists k, (1 <= k)%nat /\
      r = (root ++ "_" ++ str_of_nat k ++ ext) ++ "/" /\ existing (root ++ "_" ++ str_of_nat k ++ ext) = false /\
      forall j, (1 <= j < k)%nat -> existing (root ++ "_" ++ str_of_nat j ++ ext) = true)).
Proof.
  intros H. cbv zeta. split; [apply splitext_app|]. unfold uniquify in H. destruct (splitext path) as [f e]. cbn [fst snd].
  destruct (loop_spec _ _ _ _ _ _ H) as [?|(H1 & k & ?)]; [now left|right]. split; [assumption|]. exists k. assumption.
Qed.
