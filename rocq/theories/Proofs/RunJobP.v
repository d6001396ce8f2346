(** An invariant for the jobs of Model/RunSetup.v: rank 0 alone changes the file system and broadcasts. *)
From Coq Require Import String Ascii Arith.
From Verif Require Import Base.PyBase Model.Util Model.RunSetup Spec.RunSetupSpec.
Set Implicit Arguments.
Local Open Scope string_scope.
Local Open Scope list_scope.
Local Open Scope nat_scope.

Lemma upd_same {B} (f : nat -> B) i b : upd f i b i = b.
Proof. unfold upd. now rewrite Nat.eqb_refl. Qed.
Lemma upd_other {B} (f : nat -> B) i b k : k <> i -> upd f i b k = f k.
Proof. unfold upd. intros H. apply Nat.eqb_neq in H. now rewrite H. Qed.

Definition is_waiting {R} (p : prog R) : bool := match p with Waiting _ => true | _ => false end.

Section Job.
Variable R : Type.
Variable n : nat.
Variable L : list string.
Variable J : fsys -> nat -> nat -> Prop.
Variable Q0 QN : R -> Prop.
Hypothesis n_pos : 0 < n.
Hypothesis L3 : List.length L = 3.
(** what another rank knows after [m] broadcasts and [b] barriers *)
Definition K (m b : nat) (fs : fsys) : Prop := exists s b0, m <= s /\ b <= b0 /\ J fs s b0.

Fixpoint okR (fuel : nat) (p : prog R) (fs : fsys) (s b : nat) {struct fuel} : Prop :=
  J fs s b /\
  match p with
  | Done f => Q0 f /\ s = 3 /\ b = 2
  | Failed _ => False
  | BcastOther _ => False
  | _ =>
    match fuel with
    | O => False
    | S m =>
      match p with
      | Exists q k => okR m (k (path_exists fs q)) fs s b
      | Mkdir q k => match mkdir fs q with inl fs' => okR m k fs' s b | inr _ => False end
      | Uniq f e q c k => if path_exists fs q then okR m (Uniq f e (candidate f e c) (S c) k) fs s b else okR m (k (q ++ "/")%string) fs s b
      | BcastRoot v k => nth_error L s = Some v /\ okR m k fs (S s) b
      | Barrier k => ((b = 0 /\ s = 0) \/ (b = 1 /\ s = 3)) /\ okR m (Waiting k) fs s (S b)
      | Waiting k => ((b = 1 /\ s = 0) \/ (b = 2 /\ s = 3)) /\ okR m k fs s b
      | _ => False
      end
    end
  end.

Fixpoint okN (fuel : nat) (p : prog R) (m b : nat) {struct fuel} : Prop :=
  match p with
  | Done f => QN f /\ m = 3 /\ b = 2
  | Failed _ | Mkdir _ _ | BcastRoot _ _ => False
  | _ =>
    match fuel with
    | O => False
    | S u =>
      match p with
      | Exists q k => forall fs, K m b fs -> okN u (k (path_exists fs q)) m b
      | Uniq f e q c k => forall fs, K m b fs ->
          if path_exists fs q then okN u (Uniq f e (candidate f e c) (S c) k) m b else okN u (k (q ++ "/")%string) m b
      | BcastOther k => b = 1 /\ m < 3 /\ forall v, nth_error L m = Some v -> okN u (k v) (S m) b
      | Barrier k => ((b = 0 /\ m = 0) \/ (b = 1 /\ m = 3)) /\ okN u (Waiting k) m (S b)
      | Waiting k => ((b = 1 /\ m = 0) \/ (b = 2 /\ m = 3)) /\ okN u k m b
      | _ => False
      end
    end
  end.

Record Inv (F : nat -> nat) (j : job R) : Prop := {
  inv_root : okR (F 0) (j_prog j 0) (j_fs j) (List.length (j_sent j)) (j_enter j 0);
  inv_sent : forall i v, nth_error (j_sent j) i = Some v -> nth_error L i = Some v;
  inv_other : forall r, 0 < r < n -> okN (F r) (j_prog j r) (j_recv j r) (j_enter j r) /\ j_recv j r <= List.length (j_sent j);
  inv_bar : forall r r', r < n -> r' < n ->
    (is_waiting (j_prog j r) = false -> j_enter j r <= j_enter j r') /\ j_enter j r <= S (j_enter j r') }.

Definition total (F : nat -> nat) : nat := fold_right (fun r a => F r + a) 0 (seq 0 n).
Lemma total_upd F r x : r < n -> x < F r -> total (upd F r x) < total F.
Proof.
  intros Hr Hx. unfold total.
  assert (G : forall m a, (r < a \/ a + m <= r -> fold_right (fun i s => upd F r x i + s) 0 (seq a m) = fold_right (fun i s => F i + s) 0 (seq a m)) /\
    (a <= r < a + m -> fold_right (fun i s => upd F r x i + s) 0 (seq a m) < fold_right (fun i s => F i + s) 0 (seq a m))).
  { induction m as [|m IH]; intros a; split; intros H; cbn; try lia.
    - rewrite (proj1 (IH (S a))) by lia. rewrite upd_other by lia. reflexivity.
    - destruct (Nat.eq_dec a r) as [->|Hne].
      + rewrite (proj1 (IH (S r))) by lia. rewrite upd_same. lia.
      + rewrite upd_other by lia. pose proof (proj2 (IH (S a))). lia. }
  apply G. lia.
Qed.

Lemma okR_J fuel p fs s b : okR fuel p fs s b -> J fs s b.
Proof. destruct fuel; intros [H _]; exact H. Qed.

(** the invariant is kept and the bound decreases *)
Lemma inv_step F j j' : Inv F j -> step n j j' -> exists F', Inv F' j' /\ total F' < total F.
Proof.
  intros [IR IS IO IB] Hst. destruct Hst as [j r p k Hr Hp|j r p k Hr Hp|j r f e p c k Hr Hp|j r v k Hr Hp|j r k v Hr Hp Hn|j r k Hr Hp|j r k Hr Hp Hall].
  (* every case: rank r moves *)
  - destruct (Nat.eq_dec r 0) as [->|Hr0].
    + rewrite Hp in IR. destruct (F 0) as [|m] eqn:EF; [destruct IR as [_ []]|]. destruct IR as [HJ IR].
      exists (upd F 0 m). split; [constructor; cbn [j_fs j_sent j_recv j_enter j_prog]|apply total_upd; lia].
      * rewrite !upd_same. exact IR.
      * exact IS.
      * intros i Hi. rewrite !upd_other by lia. now apply IO.
      * intros a b Ha Hb. destruct (IB a b Ha Hb) as [H1 H2]. split; [|exact H2]. intros Hw. destruct (Nat.eq_dec a 0) as [->|Ha0].
        -- apply H1. now rewrite Hp.
        -- apply H1. rewrite upd_other in Hw by lia. exact Hw.
    + destruct (IO r) as [Ho Hrec]; [lia|]. rewrite Hp in Ho. destruct (F r) as [|m] eqn:EF; [destruct Ho|].
      exists (upd F r m). split; [constructor; cbn [j_fs j_sent j_recv j_enter j_prog]|apply total_upd; lia].
      * rewrite !upd_other by lia. exact IR.
      * exact IS.
      * intros i Hi. destruct (Nat.eq_dec i r) as [->|Hir]; [|rewrite !upd_other by lia; now apply IO]. rewrite !upd_same. split; [|assumption].
        apply Ho. exists (List.length (j_sent j)), (j_enter j 0). split; [assumption|]. split; [|exact (@okR_J _ _ _ _ _ IR)].
        apply (IB r 0); [assumption|assumption|now rewrite Hp].
      * intros a b Ha Hb. destruct (IB a b Ha Hb) as [H1 H2]. split; [|exact H2]. intros Hw. destruct (Nat.eq_dec a r) as [->|Ha0].
        -- apply H1. now rewrite Hp.
        -- apply H1. rewrite upd_other in Hw by lia. exact Hw.
  - destruct (Nat.eq_dec r 0) as [->|Hr0].
    + rewrite Hp in IR. destruct (F 0) as [|m] eqn:EF; [destruct IR as [_ []]|]. destruct IR as [HJ IR].
      destruct (mkdir (j_fs j) p) as [fs'|e] eqn:Emk; [|destruct IR].
      exists (upd F 0 m). split; [constructor; cbn [j_fs j_sent j_recv j_enter j_prog]|apply total_upd; lia].
      * rewrite !upd_same. exact IR.
      * exact IS.
      * intros i Hi. rewrite !upd_other by lia. now apply IO.
      * intros a b Ha Hb. destruct (IB a b Ha Hb) as [H1 H2]. split; [|exact H2]. intros Hw. destruct (Nat.eq_dec a 0) as [->|Ha0].
        -- apply H1. now rewrite Hp.
        -- apply H1. rewrite upd_other in Hw by lia. exact Hw.
    + destruct (IO r) as [Ho Hrec]; [lia|]. rewrite Hp in Ho. destruct (F r); destruct Ho.
  - destruct (Nat.eq_dec r 0) as [->|Hr0].
    + rewrite Hp in IR. destruct (F 0) as [|m] eqn:EF; [destruct IR as [_ []]|]. destruct IR as [HJ IR].
      exists (upd F 0 m). split; [constructor; cbn [j_fs j_sent j_recv j_enter j_prog]|apply total_upd; lia].
      * rewrite !upd_same. destruct (path_exists (j_fs j) p); exact IR.
      * exact IS.
      * intros i Hi. rewrite !upd_other by lia. now apply IO.
      * intros a b Ha Hb. destruct (IB a b Ha Hb) as [H1 H2]. split; [|exact H2]. intros Hw. destruct (Nat.eq_dec a 0) as [->|Ha0].
        -- apply H1. now rewrite Hp.
        -- apply H1. rewrite upd_other in Hw by lia. exact Hw.
    + destruct (IO r) as [Ho Hrec]; [lia|]. rewrite Hp in Ho. destruct (F r) as [|m] eqn:EF; [destruct Ho|].
      exists (upd F r m). split; [constructor; cbn [j_fs j_sent j_recv j_enter j_prog]|apply total_upd; lia].
      * rewrite !upd_other by lia. exact IR.
      * exact IS.
      * intros i Hi. destruct (Nat.eq_dec i r) as [->|Hir]; [|rewrite !upd_other by lia; now apply IO]. rewrite !upd_same. split; [|assumption].
        assert (HK : K (j_recv j r) (j_enter j r) (j_fs j)).
        { exists (List.length (j_sent j)), (j_enter j 0). split; [assumption|]. split; [|exact (@okR_J _ _ _ _ _ IR)].
          apply (IB r 0); [assumption|assumption|now rewrite Hp]. }
        specialize (Ho _ HK). destruct (path_exists (j_fs j) p); exact Ho.
      * intros a b Ha Hb. destruct (IB a b Ha Hb) as [H1 H2]. split; [|exact H2]. intros Hw. destruct (Nat.eq_dec a r) as [->|Ha0].
        -- apply H1. now rewrite Hp.
        -- apply H1. rewrite upd_other in Hw by lia. exact Hw.
  - destruct (Nat.eq_dec r 0) as [->|Hr0].
    + rewrite Hp in IR. destruct (F 0) as [|m] eqn:EF; [destruct IR as [_ []]|]. destruct IR as [HJ [HL IR]].
      exists (upd F 0 m). split; [constructor; cbn [j_fs j_sent j_recv j_enter j_prog]|apply total_upd; lia].
      * rewrite !upd_same, app_length. cbn. rewrite Nat.add_1_r. exact IR.
      * intros i w Hi. destruct (Nat.lt_ge_cases i (List.length (j_sent j))) as [Hlt|Hge].
        -- rewrite nth_error_app1 in Hi by assumption. now apply IS.
        -- rewrite nth_error_app2 in Hi by assumption. destruct (i - List.length (j_sent j)) as [|q] eqn:Eq; cbn in Hi.
           ++ replace i with (List.length (j_sent j)) by lia. injection Hi as <-. exact HL.
           ++ destruct q; discriminate.
      * intros i Hi. rewrite !upd_other by lia. destruct (IO i Hi) as [H1 H2]. split; [exact H1|]. rewrite app_length. lia.
      * intros a b Ha Hb. destruct (IB a b Ha Hb) as [H1 H2]. split; [|exact H2]. intros Hw. destruct (Nat.eq_dec a 0) as [->|Ha0].
        -- apply H1. now rewrite Hp.
        -- apply H1. rewrite upd_other in Hw by lia. exact Hw.
    + destruct (IO r) as [Ho Hrec]; [lia|]. rewrite Hp in Ho. destruct (F r); destruct Ho.
  - destruct (Nat.eq_dec r 0) as [->|Hr0].
    + rewrite Hp in IR. destruct (F 0); destruct IR as [_ []].
    + destruct (IO r) as [Ho Hrec]; [lia|]. rewrite Hp in Ho. destruct (F r) as [|m] eqn:EF; [destruct Ho|].
      destruct Ho as (Hb1 & Hm & Ho).
      exists (upd F r m). split; [constructor; cbn [j_fs j_sent j_recv j_enter j_prog]|apply total_upd; lia].
      * rewrite !upd_other by lia. exact IR.
      * exact IS.
      * intros i Hi. destruct (Nat.eq_dec i r) as [->|Hir]; [|rewrite !upd_other by lia; now apply IO]. rewrite !upd_same. split.
        -- apply Ho. now apply IS.
        -- assert (j_recv j r < List.length (j_sent j)) by (apply nth_error_Some; congruence). lia.
      * intros a b Ha Hb. destruct (IB a b Ha Hb) as [H1 H2]. split; [|exact H2]. intros Hw. destruct (Nat.eq_dec a r) as [->|Ha0].
        -- apply H1. now rewrite Hp.
        -- apply H1. rewrite upd_other in Hw by lia. exact Hw.
  - assert (HB : forall a b, a < n -> b < n ->
      (is_waiting (upd (j_prog j) r (Waiting k) a) = false -> upd (j_enter j) r (S (j_enter j r)) a <= upd (j_enter j) r (S (j_enter j r)) b) /\
      upd (j_enter j) r (S (j_enter j r)) a <= S (upd (j_enter j) r (S (j_enter j r)) b)).
    { intros a b Ha Hb. destruct (IB a b Ha Hb) as [H1 H2]. destruct (IB a r Ha Hr) as [H3 H4]. destruct (IB r b Hr Hb) as [H5 H6].
      rewrite Hp in H5. specialize (H5 eq_refl).
      destruct (Nat.eq_dec a r) as [->|Ha0]; destruct (Nat.eq_dec b r) as [->|Hb0];
        rewrite ?upd_same, ?upd_other by assumption; cbn; split; try discriminate; try lia; intros Hw.
      all: specialize (H1 Hw); lia. }
    destruct (Nat.eq_dec r 0) as [->|Hr0].
    + rewrite Hp in IR. destruct (F 0) as [|m] eqn:EF; [destruct IR as [_ []]|]. destruct IR as [HJ [Hsh IR]].
      exists (upd F 0 m). split; [constructor; cbn [j_fs j_sent j_recv j_enter j_prog]|apply total_upd; lia].
      * rewrite !upd_same. exact IR.
      * exact IS.
      * intros i Hi. rewrite !upd_other by lia. now apply IO.
      * exact HB.
    + destruct (IO r) as [Ho Hrec]; [lia|]. rewrite Hp in Ho. destruct (F r) as [|m] eqn:EF; [destruct Ho|].
      destruct Ho as [Hsh Ho].
      exists (upd F r m). split; [constructor; cbn [j_fs j_sent j_recv j_enter j_prog]|apply total_upd; lia].
      * rewrite !upd_other by lia. exact IR.
      * exact IS.
      * intros i Hi. destruct (Nat.eq_dec i r) as [->|Hir]; [|rewrite !upd_other by lia; now apply IO]. rewrite !upd_same. split; assumption.
      * exact HB.
  - assert (HB : forall a b, a < n -> b < n ->
      (is_waiting (upd (j_prog j) r k a) = false -> j_enter j a <= j_enter j b) /\ j_enter j a <= S (j_enter j b)).
    { intros a b Ha Hb. destruct (IB a b Ha Hb) as [H1 H2]. split; [|exact H2].
      destruct (Nat.eq_dec a r) as [->|Ha0]; [intros _; now apply Hall|]. rewrite upd_other by assumption. exact H1. }
    destruct (Nat.eq_dec r 0) as [->|Hr0].
    + rewrite Hp in IR. destruct (F 0) as [|m] eqn:EF; [destruct IR as [_ []]|]. destruct IR as [HJ [Hsh IR]].
      exists (upd F 0 m). split; [constructor; cbn [j_fs j_sent j_recv j_enter j_prog]|apply total_upd; lia].
      * rewrite !upd_same. exact IR.
      * exact IS.
      * intros i Hi. rewrite !upd_other by lia. now apply IO.
      * exact HB.
    + destruct (IO r) as [Ho Hrec]; [lia|]. rewrite Hp in Ho. destruct (F r) as [|m] eqn:EF; [destruct Ho|].
      destruct Ho as [Hsh Ho].
      exists (upd F r m). split; [constructor; cbn [j_fs j_sent j_recv j_enter j_prog]|apply total_upd; lia].
      * rewrite !upd_other by lia. exact IR.
      * exact IS.
      * intros i Hi. destruct (Nat.eq_dec i r) as [->|Hir]; [|rewrite !upd_other by lia; now apply IO]. rewrite !upd_same. split; assumption.
      * exact HB.
Qed.

(** who is where *)
Lemma rank_shape F j r : Inv F j -> r < n ->
  match j_prog j r with
  | Done f => j_enter j r = 2 /\ (if r =? 0 then Q0 f else QN f)
  | Failed _ => False
  | Waiting _ => j_enter j r = 1 \/ j_enter j r = 2
  | Barrier _ => True
  | BcastOther _ => r <> 0 /\ j_enter j r = 1 /\ j_recv j r < 3
  | _ => True
  end.
Proof.
  intros [IR IS IO IB] Hr. destruct (Nat.eq_dec r 0) as [->|Hr0].
  - destruct (j_prog j 0); destruct (F 0); cbn in IR; tauto.
  - destruct (IO r) as [Ho _]; [lia|]. destruct (j_prog j r); destruct (F r); cbn in Ho; try tauto.
    + replace (r =? 0) with false by (symmetry; now apply Nat.eqb_neq). tauto.
    + replace (r =? 0) with false by (symmetry; now apply Nat.eqb_neq). tauto.
Qed.

(** the rank's next step has no condition *)
Definition free (p : prog R) : bool := match p with Exists _ _ | Mkdir _ _ | Uniq _ _ _ _ _ | BcastRoot _ _ | Barrier _ => true | _ => false end.

Lemma min_waiting (j : job R) : forall l, (exists r, In r l /\ is_waiting (j_prog j r) = true) ->
  exists r, In r l /\ is_waiting (j_prog j r) = true /\ forall r', In r' l -> is_waiting (j_prog j r') = true -> j_enter j r <= j_enter j r'.
Proof.
  induction l as [|a l IH]; intros (r & Hr & Hw); [destruct Hr|].
  destruct (is_waiting (j_prog j a)) eqn:Ea.
  - destruct (existsb (fun x => is_waiting (j_prog j x)) l) eqn:El.
    + apply existsb_exists in El. destruct (IH El) as (m & Hm & Hmw & Hmin).
      destruct (Nat.le_ge_cases (j_enter j a) (j_enter j m)) as [Hle|Hge].
      * exists a. split; [now left|]. split; [assumption|]. intros r' [<-|Hr'] Hw'; [lia|]. specialize (Hmin _ Hr' Hw'). lia.
      * exists m. split; [now right|]. split; [assumption|]. intros r' [<-|Hr'] Hw'; [lia|]. now apply Hmin.
    + exists a. split; [now left|]. split; [assumption|]. intros r' [<-|Hr'] Hw'; [lia|].
      assert (existsb (fun x => is_waiting (j_prog j x)) l = true) by (apply existsb_exists; eauto). congruence.
  - destruct IH as (m & Hm & Hmw & Hmin).
    + destruct Hr as [<-|Hr]; [congruence|eauto].
    + exists m. split; [now right|]. split; [assumption|]. intros r' [<-|Hr'] Hw'; [congruence|]. now apply Hmin.
Qed.

Lemma inv_progress F j : Inv F j -> (forall r, r < n -> finished (j_prog j r)) \/ exists j', step n j j'.
Proof.
  intros HI. pose proof HI as [IR IS IO IB].
  (* either some rank can take an unconditional step *)
  assert (D : (exists r, r < n /\ free (j_prog j r) = true)
              \/ forall r, r < n -> free (j_prog j r) = false).
  { destruct (existsb (fun r => free (j_prog j r)) (seq 0 n)) eqn:E.
    - apply existsb_exists in E. destruct E as (r & Hr & E). apply in_seq in Hr. left. exists r. split; [lia|assumption].
    - right. intros r Hr. destruct (free (j_prog j r)) eqn:E2; [|reflexivity].
      rewrite <- E. symmetry. apply existsb_exists. exists r. split; [apply in_seq; lia|assumption]. }
  destruct D as [(r & Hr & E)|Hno].
  { right. destruct (j_prog j r) eqn:Hp; try discriminate E; eexists; [eapply step_exists|eapply step_mkdir|eapply step_uniq|eapply step_send|eapply step_enter]; eassumption. }
  (* a blocked receiver: rank 0 waits in the first barrier and can leave it *)
  assert (D : (exists r k, r < n /\ j_prog j r = BcastOther k) \/ forall r k, r < n -> j_prog j r <> BcastOther k).
  { destruct (existsb (fun r => match j_prog j r with BcastOther _ => true | _ => false end) (seq 0 n)) eqn:E.
    - apply existsb_exists in E. destruct E as (r & Hr & E). apply in_seq in Hr. left. exists r. destruct (j_prog j r); try discriminate E. eexists; split; [lia|reflexivity].
    - right. intros r k Hr Hp. assert (existsb (fun r => match j_prog j r with BcastOther _ => true | _ => false end) (seq 0 n) = true); [|congruence].
      apply existsb_exists. exists r. split; [apply in_seq; lia|now rewrite Hp]. }
  destruct D as [(r & k & Hr & Hp)|Hnb].
  { right. pose proof (rank_shape HI Hr) as Hs. rewrite Hp in Hs. destruct Hs as (Hr0 & He & Hm).
    destruct (nth_error (j_sent j) (j_recv j r)) as [v|] eqn:En; [eexists; eapply step_recv; eassumption|].
    apply nth_error_None in En.
    assert (H0 : match j_prog j 0 with Waiting k0 => j_enter j 0 = 1 | _ => False end).
    { pose proof (Hno 0 n_pos) as H0. pose proof IR as IR'. destruct (j_prog j 0); try discriminate H0; destruct (F 0); cbn in IR'; try tauto; try lia. }
    destruct (j_prog j 0) as [| | | | | | | |k0] eqn:Hp0; try (exfalso; exact H0).
    eexists. eapply (step_leave j (r := 0)); [exact n_pos|exact Hp0|]. intros r' Hr'. rewrite H0.
    pose proof (rank_shape HI Hr') as Hs'. pose proof (Hno r' Hr') as Hn'. destruct (j_prog j r'); try discriminate Hn'; try lia; destruct Hs'. }
  (* otherwise everybody is done or waits; the rank in the earliest barrier can leave *)
  destruct (existsb (fun r => is_waiting (j_prog j r)) (seq 0 n)) eqn:E.
  - right. apply existsb_exists in E. destruct (min_waiting j (seq 0 n) E) as (r & Hr & Hw & Hmin). apply in_seq in Hr.
    destruct (j_prog j r) as [| | | | | | | |k] eqn:Hp; try discriminate Hw. eexists. eapply (step_leave j (r := r)); [lia|exact Hp|].
    intros r' Hr'. pose proof (rank_shape HI Hr') as Hs'. pose proof (Hno r' Hr') as Hn'.
    assert (Hrr : r < n) by lia. pose proof (rank_shape HI Hrr) as Hs. rewrite Hp in Hs.
    destruct (j_prog j r') eqn:Hp'; try discriminate Hn'.
    + lia.
    + destruct Hs'.
    + exfalso. exact (Hnb r' _ Hr' Hp').
    + apply Hmin; [apply in_seq; lia|now rewrite Hp'].
  - left. intros r Hr. pose proof (rank_shape HI Hr) as Hs. pose proof (Hno r Hr) as Hn'. destruct (j_prog j r) eqn:Hp; try discriminate Hn'.
    + eexists; reflexivity.
    + destruct Hs.
    + exfalso. exact (Hnb r _ Hr Hp).
    + assert (existsb (fun r => is_waiting (j_prog j r)) (seq 0 n) = true); [|congruence]. apply existsb_exists. exists r.
      split; [apply in_seq; lia|now rewrite Hp].
Qed.

Lemma inv_steps F j j' : Inv F j -> steps n j j' -> exists F', Inv F' j'.
Proof. intros HI Hs. induction Hs as [|j1 j2 j3 H12 IH H23]; [eauto|]. destruct (IH HI) as [F' HF']. destruct (inv_step HF' H23) as (F'' & H & _). eauto. Qed.
Lemma inv_len F l j j' : Inv F j -> run_len n l j j' -> exists F', Inv F' j' /\ total F' + l <= total F.
Proof.
  intros HI Hs. induction Hs as [|l j1 j2 j3 H12 IH H23]; [exists F; split; [assumption|lia]|].
  destruct (IH HI) as (F' & HF' & Hl). destruct (inv_step HF' H23) as (F'' & H & Hlt). exists F''. split; [assumption|lia].
Qed.
Lemma inv_J F j : Inv F j -> J (j_fs j) (List.length (j_sent j)) (j_enter j 0).
Proof. intros [IR _ _ _]. exact (@okR_J _ _ _ _ _ IR). Qed.
End Job.
