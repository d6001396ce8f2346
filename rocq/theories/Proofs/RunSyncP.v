(** General facts about programs of ranks that share a disk (Model/RunFiles.v). *)
From Coq Require Import List String Bool Arith Lia.
From Verif Require Import Model.RunFiles Spec.RunFilesSpec.
Import ListNotations.
Local Open Scope nat_scope.

Lemma file_eqb_eq a b : file_eqb a b = true <-> a = b.
Proof.
  destruct a, b; cbn; try (split; congruence).
  - rewrite Nat.eqb_eq. split; congruence.
  - rewrite String.eqb_eq. split; congruence.
Qed.
Lemma file_eqb_refl a : file_eqb a a = true. Proof. now apply file_eqb_eq. Qed.
Lemma file_eqb_neq a b : a <> b -> file_eqb a b = false.
Proof. intros H. destruct (file_eqb a b) eqn:E; [|reflexivity]. apply file_eqb_eq in E. contradiction. Qed.
Lemma upd_same {B} (f : nat -> B) i b : upd f i b i = b. Proof. unfold upd. now rewrite Nat.eqb_refl. Qed.
Lemma upd_other {B} (f : nat -> B) i b q : q <> i -> upd f i b q = f q. Proof. intros H. unfold upd. apply Nat.eqb_neq in H. now rewrite H. Qed.

(** * Syncs *)
Definition nsync (l : list action) : nat := List.length (syncs l).
Lemma syncs_app a b : syncs (a ++ b) = syncs a ++ syncs b. Proof. unfold syncs. apply flat_map_app. Qed.
Lemma nsync_app a b : nsync (a ++ b) = nsync a + nsync b. Proof. unfold nsync. now rewrite syncs_app, app_length. Qed.
Definition is_sync (a : action) : bool := match a with Sync _ => true | _ => false end.
(** the part of a program before its [k]-th sync *)
Fixpoint upto (k : nat) (l : list action) : list action :=
  match l with
  | [] => []
  | a :: l' => if is_sync a then match k with O => [] | S k' => a :: upto k' l' end else a :: upto k l'
  end.
Lemma nsync_cons a l : nsync (a :: l) = (if is_sync a then 1 else 0) + nsync l. Proof. destruct a; reflexivity. Qed.
Lemma upto_ge l : forall k, nsync l <= k -> upto k l = l.
Proof.
  induction l as [|a l IH]; intros k H; [reflexivity|]. rewrite nsync_cons in H. cbn [upto]. destruct (is_sync a).
  - destruct k; [lia|]. now rewrite IH by lia.
  - now rewrite IH by lia.
Qed.
Lemma upto_app a b : forall k, upto (nsync a + k) (a ++ b) = a ++ upto k b.
Proof. induction a as [|x a IH]; intros k; [reflexivity|]. rewrite nsync_cons. cbn [upto app]. destruct (is_sync x); cbn [plus]; rewrite IH; reflexivity. Qed.
Lemma upto_app_lt a b : forall k, k < nsync a -> upto k (a ++ b) = upto k a.
Proof.
  induction a as [|x a IH]; intros k H; [unfold nsync in H; cbn in H; lia|]. rewrite nsync_cons in H. cbn [upto app]. destruct (is_sync x).
  - destruct k; [reflexivity|]. now rewrite IH by lia.
  - now rewrite IH by lia.
Qed.
Lemma upto_prefix l : forall k, exists t, l = upto k l ++ t.
Proof.
  induction l as [|a l IH]; intros k; [now exists []|]. cbn. destruct (is_sync a).
  - destruct k; [now exists (a :: l)|]. destruct (IH k) as [t Ht]. exists t. cbn. congruence.
  - destruct (IH k) as [t Ht]. exists t. cbn. congruence.
Qed.
(** a prefix that has seen [k] syncs and stands before the next one, or has seen more, contains the part before the [k]-th sync *)
Lemma upto_done done todo k : (k < nsync done \/ (nsync done = k /\ exists c l, todo = Sync c :: l)) -> exists t, done = upto k (done ++ todo) ++ t.
Proof.
  intros [H|[H (c & l & ->)]].
  - rewrite upto_app_lt by assumption. apply upto_prefix.
  - exists []. rewrite <- (Nat.add_0_r k), <- H, upto_app. cbn. now rewrite !app_nil_r.
Qed.
(** a prefix with at most [k] syncs is within the part before the [k]-th sync *)
Lemma done_upto done todo k : nsync done <= k -> exists t, upto k (done ++ todo) = done ++ t.
Proof. intros H. replace k with (nsync done + (k - nsync done)) by lia. rewrite upto_app. eauto. Qed.

(** * A file and its owner *)
Definition writes (f : file) (a : action) : bool :=
  match a with Create g | Put g _ | Save g | Clean g => file_eqb g f | _ => false end.
Definition eff (f : file) (c : option (list string)) (a : action) : option (list string) :=
  if writes f a then
    match a with
    | Create _ => match c with Some _ => c | None => Some [] end
    | Put _ g => match c with Some l => Some (g :: l) | None => None end
    | Save _ => Some []
    | Clean _ => None
    | _ => c
    end
  else c.
Definition replay (f : file) (c : option (list string)) (l : list action) : option (list string) := fold_left (eff f) l c.
Lemma replay_app f c a b : replay f c (a ++ b) = replay f (replay f c a) b. Proof. unfold replay. apply fold_left_app. Qed.
Definition untouched (f : file) (l : list action) : Prop := existsb (writes f) l = false.
Lemma untouched_app f a b : untouched f (a ++ b) <-> untouched f a /\ untouched f b.
Proof. unfold untouched. rewrite existsb_app, orb_false_iff. tauto. Qed.
Lemma replay_untouched f l : untouched f l -> forall c, replay f c l = c.
Proof.
  unfold untouched. induction l as [|a l IH]; intros H c; [reflexivity|]. cbn in *. apply orb_false_iff in H. destruct H as [H1 H2]. unfold eff at 2. rewrite H1. now apply IH.
Qed.
Lemma perform_eff d a d' f : perform d a = Some d' -> d' f = eff f (d f) a.
Proof.
  unfold eff. destruct a as [c|g|g x|g|g gs|g|]; cbn [perform writes]; intros H; try (injection H as <-); try reflexivity; try discriminate.
  - destruct (d g) eqn:E; destruct (file_eqb g f) eqn:F; try reflexivity.
    + apply file_eqb_eq in F. subst g. now rewrite E.
    + apply file_eqb_eq in F. subst g. rewrite E. unfold dset. now rewrite file_eqb_refl.
    + unfold dset. now rewrite F.
  - destruct (d g) eqn:E; [|discriminate]. destruct (mem x l); [discriminate|]. injection H as <-. unfold dset. destruct (file_eqb g f) eqn:F; [|reflexivity].
    apply file_eqb_eq in F. subst g. now rewrite E.
  - destruct (d g) as [l|]; [|discriminate]. destruct (forallb _ _); [|discriminate]. injection H as <-. reflexivity.
Qed.

(** * Runs *)
Section Gen.
Variable n : nat.
Variable d0 : disk.
Variable prog : nat -> list action.
Variable owner : file -> nat.
Hypothesis owned : forall r f, r < n -> r <> owner f -> untouched f (prog r).

Lemma run_split j : run_of n d0 prog j -> forall r, j_done j r ++ j_todo j r = prog r.
Proof.
  induction 1 as [|j j' _ IH Hs]; intros r; [reflexivity|]. inversion Hs as [j1 p a l d Hp Ht _ _|j1 p c l Hp Ht _]; subst; cbn.
  - destruct (Nat.eq_dec r p) as [->|Hr]; [rewrite !upd_same, <- app_assoc; cbn; rewrite <- Ht; apply IH|rewrite !upd_other by assumption; apply IH].
  - destruct (Nat.eq_dec r p) as [->|Hr]; [rewrite !upd_same, <- app_assoc; cbn; rewrite <- Ht; apply IH|rewrite !upd_other by assumption; apply IH].
Qed.
Lemma run_disk j f : run_of n d0 prog j -> j_disk j f = replay f (d0 f) (j_done j (owner f)).
Proof.
  intros H. induction H as [|j j' Hr IH Hs]; [reflexivity|].
  assert (G : forall p a l d, p < n -> j_todo j p = a :: l -> d f = eff f (j_disk j f) a -> d f = replay f (d0 f) (upd (j_done j) p (j_done j p ++ [a]) (owner f))).
  { intros p a l d Hp Ht Hd. destruct (Nat.eq_dec (owner f) p) as [E|E].
    - rewrite E, upd_same, replay_app, <- E, <- IH. cbn. exact Hd.
    - rewrite upd_other, <- IH by assumption. rewrite Hd. assert (U : untouched f (prog p)) by (apply owned; congruence).
      rewrite <- (run_split j Hr p), Ht in U. apply untouched_app in U. destruct U as [_ U]. unfold untouched in U. cbn in U. apply orb_false_iff in U. unfold eff. now rewrite (proj1 U). }
  inversion Hs as [j1 p a l d Hp Ht _ Hd|j1 p c l Hp Ht _]; subst; cbn [advance j_disk j_done].
  - apply (G p a l d); auto. now apply perform_eff.
  - apply (G p (Sync c) l (j_disk j)); auto.
Qed.
(** all ranks have the same MPI operations *)
Variable colls : list coll.
Hypothesis same_colls : forall r, r < n -> syncs (prog r) = colls.

Definition reached (j : job) (q k : nat) : Prop := k < nsync (j_done j q) \/ (nsync (j_done j q) = k /\ exists c l, j_todo j q = Sync c :: l).
Lemma entered_reached j q k : (exists c, nth_error (entered j q) k = Some c) -> reached j q k.
Proof.
  intros [c H]. unfold reached, entered, nsync in *. destruct (Nat.lt_ge_cases k (List.length (syncs (j_done j q)))) as [L|L]; [now left|]. right.
  rewrite nth_error_app2 in H by assumption. destruct (k - List.length (syncs (j_done j q))) as [|m] eqn:E.
  - destruct (j_todo j q) as [|[c'|?|? ?|?|? ?|?|] l]; try discriminate. split; [lia|]. eauto.
  - destruct (j_todo j q) as [|[c'|?|? ?|?|? ?|?|] l]; cbn in H; destruct m; discriminate.
Qed.
Lemma reached_entered j q k c : run_of n d0 prog j -> q < n -> reached j q k -> nth_error colls k = Some c -> nth_error (entered j q) k = Some c.
Proof.
  intros Hr Hq Hk Hc. pose proof (run_split j Hr q) as S. apply (f_equal syncs) in S. rewrite syncs_app, (same_colls q Hq) in S. rewrite <- S in Hc. unfold entered.
  destruct Hk as [Hk|(Hk & c' & l & Ht)]; unfold nsync in Hk.
  - rewrite nth_error_app1 in Hc |- * by assumption. exact Hc.
  - rewrite nth_error_app2 in Hc |- * by lia. replace (k - _) with 0 in * by lia. rewrite Ht in *. exact Hc.
Qed.
Lemma nsync_snoc l a : nsync (l ++ [a]) = nsync l + (if is_sync a then 1 else 0).
Proof. rewrite nsync_app. destruct a; reflexivity. Qed.
Lemma step_reached j j' q k : step n j j' -> reached j q k -> reached j' q k.
Proof.
  intros Hs Hq.
  assert (G : forall p a l d, j_todo j p = a :: l -> reached (advance j p a l d) q k).
  { intros p a l d Ht. unfold reached, advance in *. cbn [j_done j_todo]. destruct (Nat.eq_dec q p) as [->|E].
    - rewrite !upd_same, nsync_snoc. destruct Hq as [Hq|[Hq (c & l' & Hq')]]; [left; lia|]. left. rewrite Hq' in Ht. injection Ht as <- <-. cbn. lia.
    - rewrite !upd_other by assumption. exact Hq. }
  inversion Hs as [j1 p a l d Hp Ht _ Hd|j1 p c l Hp Ht _]; subst; eauto.
Qed.
(** who has left its [k]-th operation knows that the ranks it waits for have entered theirs *)
Lemma sync_inv j : run_of n d0 prog j -> forall p q k c, p < n -> q < n -> k < nsync (j_done j p) -> nth_error colls k = Some c -> waits c p q = true -> reached j q k.
Proof.
  induction 1 as [|j j' Hr IH Hs]; intros p q k c Hp Hq Hk Hc Hw; [cbn in Hk; unfold nsync in Hk; cbn in Hk; lia|].
  assert (Old : k < nsync (j_done j p) -> reached j' q k) by (intros L; apply (step_reached j j' q k Hs); exact (IH p q k c Hp Hq L Hc Hw)).
  assert (New : nsync (j_done j p) <= k -> exists l, j_todo j p = Sync c :: l /\ nsync (j_done j p) = k /\ reached j q k); [|
    destruct (Nat.lt_ge_cases k (nsync (j_done j p))) as [L|L]; [now apply Old|];
    destruct (New L) as (l & _ & _ & R); now apply (step_reached j j' q k Hs)].
  intros L. inversion Hs as [j1 p1 a l d Hp1 Ht Hns Hd|j1 p1 c1 l Hp1 Ht Hw1]; subst; cbn [advance j_done] in Hk.
  - exfalso. destruct (Nat.eq_dec p p1) as [->|E].
    + rewrite upd_same, nsync_snoc in Hk. destruct a; cbn in Hk; try lia. now apply (Hns c0).
    + rewrite upd_other in Hk by assumption. lia.
  - destruct (Nat.eq_dec p p1) as [->|E].
    + rewrite upd_same, nsync_snoc in Hk. cbn in Hk. assert (Ek : nsync (j_done j p1) = k) by lia.
      assert (Ec : c1 = c).
      { pose proof (run_split j Hr p1) as S. apply (f_equal syncs) in S. rewrite syncs_app, (same_colls p1 Hp1), Ht in S. rewrite <- S in Hc.
        rewrite nth_error_app2 in Hc by (unfold nsync in Ek; lia). replace (k - _) with 0 in Hc by (unfold nsync in Ek; lia). cbn in Hc. congruence. }
      subst c1. exists l. split; [assumption|]. split; [assumption|]. apply entered_reached. exists c. rewrite <- Ek. now apply Hw1.
    + rewrite upd_other in Hk by assumption. lia.
Qed.
Lemma reached_upto j q k : run_of n d0 prog j -> reached j q k -> exists t, j_done j q = upto k (prog q) ++ t.
Proof. intros Hr H. rewrite <- (run_split j Hr q). now apply upto_done. Qed.

(** Progress: unless all ranks have ended or one raises, something can happen. *)
Lemma min_rank (g : nat -> nat) m : 0 < m -> exists p, p < m /\ forall q, q < m -> g p <= g q.
Proof.
  induction m as [|m IH]; [lia|]. intros _. destruct (Nat.eq_dec m 0) as [->|Hm].
  - exists 0. split; [lia|]. intros q Hq. replace q with 0 by lia. lia.
  - destruct IH as (p & Hp & H); [lia|]. destruct (Nat.le_gt_cases (g p) (g m)).
    + exists p. split; [lia|]. intros q Hq. destruct (Nat.eq_dec q m) as [->|]; [assumption|apply H; lia].
    + exists m. split; [lia|]. intros q Hq. destruct (Nat.eq_dec q m) as [->|]; [lia|]. specialize (H q). lia.
Qed.
Lemma progress j : run_of n d0 prog j -> (forall r, r < n -> finished j r) \/ (exists j', step n j j') \/ (exists r, r < n /\ raises j r).
Proof.
  intros Hr. destruct (Nat.eq_dec n 0) as [->|Hn]; [left; intros; lia|].
  (* a rank with a local action next *)
  assert (D : (exists r a l, r < n /\ j_todo j r = a :: l /\ is_sync a = false) \/ (forall r, r < n -> j_todo j r = [] \/ exists c l, j_todo j r = Sync c :: l)).
  { clear. induction n as [|m IH]; [right; lia|]. destruct IH as [(r & a & l & H & H2)|IH]; [left; exists r, a, l; split; [lia|assumption]|].
    destruct (j_todo j m) as [|a l] eqn:E.
    - right. intros r Hr. destruct (Nat.eq_dec r m) as [->|]; [now left|apply IH; lia].
    - destruct (is_sync a) eqn:S; [|left; exists m, a, l; auto]. right. intros r Hr. destruct (Nat.eq_dec r m) as [->|]; [|apply IH; lia]. right. destruct a; try discriminate. eauto. }
  destruct D as [(r & a & l & Hrn & Ht & Hs)|D].
  - right. destruct (perform (j_disk j) a) as [d|] eqn:P.
    + left. eexists. apply (step_local n j r a l d); auto. intros c ->. discriminate.
    + right. exists r. split; [assumption|]. exists a, l. repeat split; auto. intros c ->. discriminate.
  - destruct (min_rank (fun r => nsync (j_done j r)) n ltac:(lia)) as (p & Hp & Hmin). destruct (D p Hp) as [Hf|(c & l & Ht)].
    + left. intros q Hq. destruct (D q Hq) as [Hf'|(c & l & Ht)]; [assumption|]. exfalso. specialize (Hmin q Hq).
      pose proof (run_split j Hr p) as S1. rewrite Hf, app_nil_r in S1. apply (f_equal syncs) in S1. rewrite (same_colls p Hp) in S1.
      pose proof (run_split j Hr q) as S2. rewrite Ht in S2. apply (f_equal syncs) in S2. rewrite (same_colls q Hq), syncs_app in S2. cbn in S2.
      apply (f_equal (@List.length coll)) in S1, S2. rewrite app_length in S2. cbn in S2. unfold nsync in Hmin. lia.
    + right; left. eexists. apply (step_sync n j p c l Hp Ht). intros q Hq _. apply reached_entered; [assumption|assumption| |].
      * specialize (Hmin q Hq). unfold reached. unfold nsync in *. destruct (Nat.eq_dec (List.length (syncs (j_done j p))) (List.length (syncs (j_done j q)))) as [E|E]; [|left; lia].
        right. split; [lia|]. destruct (D q Hq) as [Hf|]; [|assumption]. exfalso.
        pose proof (run_split j Hr q) as S1. rewrite Hf, app_nil_r in S1. apply (f_equal syncs) in S1. rewrite (same_colls q Hq) in S1.
        pose proof (run_split j Hr p) as S2. rewrite Ht in S2. apply (f_equal syncs) in S2. rewrite (same_colls p Hp), syncs_app in S2. cbn in S2.
        apply (f_equal (@List.length coll)) in S1, S2. rewrite app_length in S2. cbn in S2. lia.
      * pose proof (run_split j Hr p) as S2. rewrite Ht in S2. apply (f_equal syncs) in S2. rewrite (same_colls p Hp), syncs_app in S2. rewrite <- S2.
        rewrite nth_error_app2 by lia. rewrite Nat.sub_diag. reflexivity.
Qed.

(** * Safety from the texts of the programs *)
(** [good p pre a]: in the program of rank [p], the action [a] after the actions [pre] does not raise.  The file is that of the rank itself, or of rank
    [q], which has written it before the [k1]-th operation that [p] has left, and does not touch it until the [k2]-th, which it cannot leave yet. *)
Definition enough (gs : list string) (c : option (list string)) : Prop := exists l, c = Some l /\ forallb (fun g => mem g l) gs = true.
Definition good (p : nat) (pre : list action) (a : action) : Prop :=
  match a with
  | Fail => False
  | Put f g => owner f = p /\ exists l, replay f (d0 f) pre = Some l /\ mem g l = false
  | Fetch f gs => (owner f = p /\ enough gs (replay f (d0 f) pre)) \/
      (owner f <> p /\ owner f < n /\ exists k1 c1 M, k1 < nsync pre /\ nth_error colls k1 = Some c1 /\ waits c1 p (owner f) = true /\
        (exists k2, upto k2 (prog (owner f)) = upto k1 (prog (owner f)) ++ M /\
           (nsync (prog (owner f)) <= k2 \/ exists c2, nsync pre <= k2 /\ nth_error colls k2 = Some c2 /\ waits c2 (owner f) p = true)) /\ untouched f M /\
        enough gs (replay f (d0 f) (upto k1 (prog (owner f)))))
  | _ => True
  end.
Lemma good_safe j p a l : run_of n d0 prog j -> p < n -> j_todo j p = a :: l -> is_sync a = false -> good p (j_done j p) a -> exists d, perform (j_disk j) a = Some d.
Proof.
  intros Hr Hp Ht Hs Hg. destruct a as [c|f|f g|f|f gs|f|]; cbn [perform]; eauto; cbn [good] in Hg.
  - destruct Hg as (Ho & l' & Hl & Hm). rewrite (run_disk j f Hr), Ho, Hl, Hm. eauto.
  - assert (G : enough gs (j_disk j f)).
    { rewrite (run_disk j f Hr). destruct Hg as [[Ho Hg]|(Ho & Hon & k1 & c1 & M & H1 & H2 & H3 & (k2 & Hk2 & Hk) & HM & He)].
      - now rewrite Ho.
      - pose proof (sync_inv j Hr p (owner f) k1 c1 Hp Hon H1 H2 H3) as R1. destruct (reached_upto j (owner f) k1 Hr R1) as [t1 T1].
        assert (L : nsync (j_done j (owner f)) <= k2).
        { destruct Hk as [Hk|(c2 & Hk3 & Hk4 & Hk5)].
          - rewrite <- (run_split j Hr (owner f)), nsync_app in Hk. lia.
          - destruct (Nat.le_gt_cases (nsync (j_done j (owner f))) k2) as [|G]; [assumption|]. exfalso.
            pose proof (sync_inv j Hr (owner f) p k2 c2 Hon Hp G Hk4 Hk5) as R2. destruct R2 as [R2|(R2 & c & l' & Hx)]; [lia|]. rewrite Hx in Ht. discriminate. }
        destruct (done_upto (j_done j (owner f)) (j_todo j (owner f)) k2 L) as [t2 T2]. rewrite (run_split j Hr), Hk2 in T2.
        assert (U : untouched f t1).
        { rewrite T1, <- app_assoc in T2. apply app_inv_head in T2. rewrite T2 in HM. apply untouched_app in HM. tauto. }
        rewrite T1, replay_app, (replay_untouched f t1 U). exact He. }
    destruct G as (l' & -> & ->). eauto.
  - contradiction.
Qed.
(** all actions of [l], a part of the program of [p] after [pre], are good *)
Definition all_good (p : nat) (pre l : list action) : Prop := forall A a B, l = A ++ a :: B -> is_sync a = false -> good p (pre ++ A) a.
Lemma all_good_nil p pre : all_good p pre []. Proof. intros A a B H; destruct A; discriminate. Qed.
Lemma all_good_cons p pre a l : (is_sync a = false -> good p pre a) -> all_good p (pre ++ [a]) l -> all_good p pre (a :: l).
Proof.
  intros H1 H2 A b B E S; destruct A as [|x A]; cbn in E; injection E as E1 E; subst.
  - rewrite app_nil_r. auto.
  - specialize (H2 A b B eq_refl S). now rewrite <- app_assoc in H2.
Qed.
Lemma all_good_app p pre a b : all_good p pre a -> all_good p (pre ++ a) b -> all_good p pre (a ++ b).
Proof.
  revert pre. induction a as [|x a IH]; intros pre H1 H2; cbn.
  - now rewrite app_nil_r in H2.
  - apply all_good_cons.
    + intros S. specialize (H1 [] x a eq_refl S). now rewrite app_nil_r in H1.
    + apply IH.
      * intros A y B E S. specialize (H1 (x :: A) y B). cbn in H1. rewrite E in H1. specialize (H1 eq_refl S). now rewrite <- app_assoc.
      * now rewrite <- app_assoc.
Qed.
Lemma all_good_when p pre (b : bool) l : (b = true -> all_good p pre l) -> all_good p pre (when b l).
Proof. destruct b; intros H; [now apply H|apply all_good_nil]. Qed.
Lemma all_good_saves p pre names : all_good p pre (saves names).
Proof.
  intros A a B H _. assert (I : In a (saves names)) by (rewrite H; apply in_app_iff; right; now left). unfold saves in I. apply in_map_iff in I. destruct I as (x & <- & _). exact I.
Qed.
Lemma safe_all j p : run_of n d0 prog j -> p < n -> all_good p [] (prog p) -> ~ raises j p.
Proof.
  intros Hr Hp Hg (a & l & Ht & Hns & Hf). assert (S : is_sync a = false) by (destruct a; try reflexivity; now destruct (Hns c)).
  destruct (good_safe j p a l Hr Hp Ht S) as [d Hd]; [|congruence]. apply (Hg (j_done j p) a l); [|assumption]. rewrite <- Ht. symmetry. now apply run_split.
Qed.
End Gen.

(** * Number of steps *)
Lemma list_sum_cons x l : list_sum (x :: l) = x + list_sum l. Proof. reflexivity. Qed.
Lemma list_sum_upd (f g : nat -> nat) p m : p < m -> (forall q, q <> p -> g q = f q) -> g p = S (f p) -> list_sum (map g (seq 0 m)) = S (list_sum (map f (seq 0 m))).
Proof.
  intros Hp Ho Hs.
  assert (G : forall l, NoDup l -> (In p l -> list_sum (map g l) = S (list_sum (map f l))) /\ (~ In p l -> list_sum (map g l) = list_sum (map f l))).
  { induction l as [|x l IH]; intros ND; [split; [intros []|reflexivity]|]. inversion ND; subst. specialize (IH H2). cbn [map]. rewrite !list_sum_cons. split.
    - intros [->|I].
      + rewrite (proj2 IH H1), Hs. lia.
      + rewrite (proj1 IH I), Ho by (intros ->; contradiction). lia.
    - intros N. cbn [In] in N. rewrite (proj2 IH) by tauto. rewrite Ho by (intros ->; tauto). reflexivity. }
  apply G; [apply seq_NoDup|apply in_seq; lia].
Qed.
Lemma run_len_count n d prog k j : run_len n d prog k j -> k = list_sum (map (fun r => List.length (j_done j r)) (seq 0 n)) /\ run_of n d prog j.
Proof.
  induction 1 as [|k j j' _ [IH Hr] Hs].
  - split; [|constructor]. cbn. clear. induction (seq 0 n); cbn; auto.
  - split; [|econstructor; eassumption]. rewrite IH. symmetry.
    assert (G : forall p a l d', p < n -> list_sum (map (fun r => List.length (j_done (advance j p a l d') r)) (seq 0 n)) = S (list_sum (map (fun r => List.length (j_done j r)) (seq 0 n)))).
    { intros p a l d' Hp. apply (list_sum_upd (fun r => List.length (j_done j r)) (fun r => List.length (j_done (advance j p a l d') r)) p n Hp).
      - intros q Hq. cbn. now rewrite upd_other.
      - cbn. rewrite upd_same, app_length. cbn. lia. }
    inversion Hs; subst; now apply G.
Qed.
Lemma list_sum_le (f g : nat -> nat) l : (forall x, In x l -> f x <= g x) -> list_sum (map f l) <= list_sum (map g l).
Proof. induction l as [|x l IH]; intros H; cbn [map]; [lia|]. rewrite !list_sum_cons. specialize (IH (fun y I => H y (or_intror I))). specialize (H x (or_introl eq_refl)). lia. Qed.
Lemma run_len_bound n d prog k j : run_len n d prog k j -> k <= total_len n prog.
Proof.
  intros H. destruct (run_len_count n d prog k j H) as [-> Hr]. unfold total_len. apply list_sum_le. intros r _. rewrite <- (run_split n d prog j Hr r), app_length. lia.
Qed.
