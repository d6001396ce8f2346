(** What the rank files contain after all ranks have finished, for every schedule. *)
From Coq Require Import String Ascii Sorting.Sorted.
From Verif Require Import Base.PyBase Base.PyFacts Base.Arr Model.Util Model.Matsubara Model.MpiAux Model.RankFiles
  Proofs.UtilP Proofs.MpiAuxP Proofs.MatsubaraP Proofs.StrP Proofs.MaskP.
Set Implicit Arguments.
Local Open Scope string_scope.
Local Open Scope list_scope.
Local Open Scope Z_scope.

(** ** lists *)
Lemma NoDup_app' A (l m : list A) : NoDup l -> NoDup m -> (forall x, In x l -> ~ In x m) -> NoDup (l ++ m).
Proof.
  induction 1 as [|a l Ha Hl IH]; cbn; intros Hm Hd; [assumption|]. constructor.
  - rewrite in_app_iff. intros [H|H]; [auto|]. eapply Hd; eauto.
  - apply IH; auto.
Qed.
Lemma NoDup_flat_map A B (f : A -> list B) l : NoDup l -> (forall x, In x l -> NoDup (f x)) ->
  (forall x y k, In x l -> In y l -> In k (f x) -> In k (f y) -> x = y) -> NoDup (flat_map f l).
Proof.
  induction 1 as [|a l Ha Hl IH]; cbn; intros Hf Hd; [constructor|].
  apply NoDup_app'; [apply Hf; now left|apply IH; eauto|].
  intros k Hk Hk'. apply in_flat_map in Hk'. destruct Hk' as [y [Hy Hk']].
  assert (a = y) by (eapply Hd; eauto). now subst.
Qed.
Lemma flat_map_enum_snd A B (h : A -> list B) l : flat_map (fun iq => h (snd iq)) (enumerate l) = flat_map h l.
Proof.
  unfold enumerate.
  assert (L : length (range (zlen l)) = length l).
  { pose proof (zlen_arange 0 (zlen l)) as H. unfold range, zlen in *. lia. }
  revert L. generalize (range (zlen l)) as ix. induction l as [|a l IH]; intros [|i ix] L; cbn in *; try discriminate; [reflexivity|].
  f_equal. apply IH. congruence.
Qed.
Lemma concatM_pure B C (f : B -> res (list C)) (g : B -> list C) l : (forall x, In x l -> f x = Ok (g x)) -> concatM f l = Ok (flat_map g l).
Proof. intros H. unfold concatM. rewrite (@mapM_total _ _ f g) by assumption. cbn. now rewrite flat_map_concat_map. Qed.
Lemma foldM_app A S (f : S -> A -> res S) l m s : foldM f (l ++ m) s = let! s' := foldM f l s in foldM f m s'.
Proof. revert s; induction l as [|a l IH]; intros s; cbn; [reflexivity|]. destruct (f s a); cbn; auto. Qed.

Section P.
Variable A : Type.
Notation h5file := (h5file A).
Notation op := (op A).

(** ** one file *)
Lemma key_eqb_eq a b : key_eqb a b = true <-> a = b.
Proof.
  destruct a as [a1 a2], b as [b1 b2]. unfold key_eqb. cbn. rewrite andb_true_iff, !String.eqb_eq. split; [intros [-> ->]; reflexivity|intros E; injection E; auto].
Qed.
Lemma key_eqb_refl a : key_eqb a a = true. Proof. now apply key_eqb_eq. Qed.
Lemma key_eqb_neq a b : a <> b -> key_eqb a b = false.
Proof. intros H. destruct (key_eqb a b) eqn:E; [|reflexivity]. apply key_eqb_eq in E. contradiction. Qed.

Definition op_key (o : op) := match o with Put k _ => k | PutIfAbsent k _ => k end.
Definition op_val (o : op) := match o with Put _ v => v | PutIfAbsent _ v => v end.
Definition op_put (o : op) := match o with Put k _ => [k] | PutIfAbsent _ _ => [] end.
Definition op_cond (o : op) := match o with Put _ _ => [] | PutIfAbsent k _ => [k] end.
Fixpoint assoc (ops : list op) (k : string * string) : option (dset A) :=
  match ops with [] => None | o :: ops' => if key_eqb k (op_key o) then Some (op_val o) else assoc ops' k end.

Lemma h5_get_app (f g : h5file) k : h5_get (f ++ g) k = match h5_get f k with Some v => Some v | None => h5_get g k end.
Proof. induction f as [|[k' v] f IH]; cbn; [reflexivity|]. destruct (key_eqb k k'); auto. Qed.

Lemma run_ops_spec (ops : list op) : forall f,
  NoDup (flat_map op_put ops) -> (forall k, In k (flat_map op_put ops) -> h5_get f k = None) ->
  (forall k, In k (flat_map op_cond ops) -> ~ In k (flat_map op_put ops)) ->
  exists f', run_ops ops f = Ok f' /\ forall k, h5_get f' k = match h5_get f k with Some v => Some v | None => assoc ops k end.
Proof.
  unfold run_ops. induction ops as [|o ops IH]; intros f Hn Hf Hc; cbn [foldM].
  - exists f. split; [reflexivity|]. intros k. destruct (h5_get f k); reflexivity.
  - destruct o as [k0 v|k0 v]; cbn [run_op flat_map op_put op_cond app] in *.
    + unfold h5_put. rewrite Hf by (now left). cbn [bind].
      inversion Hn as [|? ? Hk Hn']; subst.
      destruct (IH (f ++ [(k0, v)])) as [f' [E G]].
      * assumption.
      * intros k Hin. rewrite h5_get_app, Hf by (now right). cbn. rewrite key_eqb_neq; [reflexivity|]. intros ->. contradiction.
      * intros k Hin Hin'. eapply Hc; eauto. now right.
      * exists f'. split; [assumption|]. intros k. rewrite G, h5_get_app. cbn. destruct (h5_get f k); [reflexivity|]. destruct (key_eqb k k0); reflexivity.
    + destruct (h5_get f k0) as [d|] eqn:E0; cbn [bind].
      * destruct (IH f) as [f' [E G]]; auto. { intros k Hin. apply Hc. now right. }
        exists f'. split; [assumption|]. intros k. rewrite G. cbn. destruct (h5_get f k) eqn:Ek; [reflexivity|].
        rewrite key_eqb_neq; [reflexivity|]. intros ->. congruence.
      * unfold h5_put. rewrite E0. cbn [bind]. destruct (IH (f ++ [(k0, v)])) as [f' [E G]].
        -- assumption.
        -- intros k Hin. rewrite h5_get_app, Hf by assumption. cbn. rewrite key_eqb_neq; [reflexivity|]. intros ->. eapply Hc; eauto. now left.
        -- intros k Hin. apply Hc. now right.
        -- exists f'. split; [assumption|]. intros k. rewrite G, h5_get_app. cbn. destruct (h5_get f k); [reflexivity|]. destruct (key_eqb k k0); reflexivity.
Qed.

Lemma assoc_In ops k v : (exists o, In o ops /\ op_key o = k) -> (forall o, In o ops -> op_key o = k -> op_val o = v) -> assoc ops k = Some v.
Proof.
  induction ops as [|o ops IH]; intros [o' [Hin Hk]] Hv; [destruct Hin|]. cbn.
  destruct (key_eqb k (op_key o)) eqn:E.
  - apply key_eqb_eq in E. f_equal. apply Hv; [now left|auto].
  - apply IH; [|intros; apply Hv; auto; now right]. destruct Hin as [->|Hin]; [rewrite Hk, key_eqb_refl in E; discriminate|eauto].
Qed.
Lemma assoc_inv ops k v : assoc ops k = Some v -> exists o, In o ops /\ op_key o = k.
Proof.
  induction ops as [|o ops IH]; cbn; [discriminate|]. destruct (key_eqb k (op_key o)) eqn:E.
  - intros _. exists o. split; [now left|]. symmetry. now apply key_eqb_eq.
  - intros H. destruct (IH H) as [o' [H1 H2]]. eauto.
Qed.
Lemma h5_get_In (f : h5file) k : h5_get f k <> None <-> exists v, In (k, v) f.
Proof.
  induction f as [|[k' v] f IH]; cbn; [split; [congruence|intros [v []]]|].
  destruct (key_eqb k k') eqn:E.
  - apply key_eqb_eq in E. subst. split; [eauto|congruence].
  - rewrite IH. split; [intros [w H]; eauto|]. intros [w [H|H]]; [injection H as -> ->; rewrite key_eqb_refl in E; discriminate|eauto].
Qed.
Lemma In_h5_keys (f : h5file) g : In g (h5_keys f) <-> exists d, h5_get f (g, d) <> None.
Proof.
  transitivity (exists d v, In ((g, d), v) f).
  - unfold h5_keys. induction f as [|[[g' d'] v'] f IH]; cbn [fold_right]; [cbn; split; [tauto|intros [d [v []]]]|].
    cbn [fst]. rewrite In_str_insert, IH. split.
    + intros [->|[d [v H]]]; [exists d', v'; now left|exists d, v; now right].
    + intros [d [v [H|H]]]; [injection H as -> -> ->; now left|right; eauto].
  - split; intros [d H]; exists d.
    + now apply h5_get_In.
    + now apply h5_get_In in H.
Qed.
Lemma h5_keys_sorted (f : h5file) : StronglySorted slt (h5_keys f).
Proof. unfold h5_keys. induction f as [|kv f IH]; cbn [fold_right]; [constructor|]. now apply sorted_str_insert. Qed.

(** ** every schedule of the ranks leads to the same files *)
Section Job.
Variables (path name : string) (mpi_size : Z) (todo : Z -> list op) (fs0 : fsys A).
Hypothesis Hfs : forall r, 0 <= r < mpi_size -> fs0 (rank_fname path name r) = Some [].
Variable target : Z -> h5file.
Hypothesis Htarget : forall r, 0 <= r < mpi_size -> run_ops (todo r) [] = Ok (target r).
Hypothesis Hidle : forall r, ~ 0 <= r < mpi_size -> todo r = [].

Definition inv (s : job A) : Prop :=
  (forall r, 0 <= r < mpi_size -> exists f, j_fs s (rank_fname path name r) = Some f /\ run_ops (j_todo s r) f = Ok (target r)) /\
  (forall r, ~ 0 <= r < mpi_size -> j_todo s r = []) /\
  (forall n, (forall r, 0 <= r < mpi_size -> n <> rank_fname path name r) -> j_fs s n = fs0 n).
Lemma inv_init : inv {| j_fs := fs0; j_todo := todo |}.
Proof.
  split; [|split]; cbn [j_fs j_todo]; auto. intros r Hr. exists []. split; auto.
Qed.
Lemma inv_step s r : inv s -> exists s', job_step path name r s = Ok s' /\ inv s' /\
  (j_todo s r <> [] -> length (j_todo s r) = S (length (j_todo s' r))) /\ (forall r', r' <> r -> j_todo s' r' = j_todo s r').
Proof.
  intros [H1 [H2 H3]]. unfold job_step. destruct (j_todo s r) as [|o rest] eqn:E.
  - exists s. split; [reflexivity|]. split; [now split|]. split; [congruence|auto].
  - assert (Hr : 0 <= r < mpi_size).
    { destruct (Z_le_dec 0 r), (Z_lt_dec r mpi_size); try lia; rewrite H2 in E by lia; discriminate. }
    destruct (H1 r Hr) as [f [Ef Er]]. rewrite Ef. rewrite E in Er. unfold run_ops in Er. cbn [foldM] in Er.
    destruct (run_op f o) as [f'|e]; [|discriminate]. cbn [bind] in *. eexists; split; [reflexivity|]. split; [split; [|split]|split].
    + intros r' Hr'. cbn [j_fs j_todo]. unfold fs_set. destruct (Z.eqb_spec r' r) as [->|N].
      * rewrite String.eqb_refl. exists f'. auto.
      * destruct (String.eqb_spec (rank_fname path name r') (rank_fname path name r)) as [Eq|Nq].
        -- apply rank_fname_inj in Eq; lia.
        -- apply H1; auto.
    + intros r' Hr'. cbn. destruct (Z.eqb_spec r' r); [subst; lia|auto].
    + intros n Hn. cbn. unfold fs_set. destruct (String.eqb_spec n (rank_fname path name r)) as [->|N]; [exfalso; apply (Hn r Hr); reflexivity|auto].
    + intros _. cbn. now rewrite Z.eqb_refl.
    + intros r' Hr'. cbn. destruct (Z.eqb_spec r' r); [lia|reflexivity].
Qed.
(** no step of any schedule fails *)
Lemma job_run_inv sched : forall s, inv s -> exists s', job_run path name sched s = Ok s' /\ inv s'.
Proof.
  unfold job_run. induction sched as [|r sched IH]; intros s Hs; cbn [foldM]; [eauto|].
  destruct (inv_step r Hs) as [s1 [-> [H1 _]]]. cbn [bind]. auto.
Qed.
Definition finished (s : job A) : Prop := forall r, 0 <= r < mpi_size -> j_todo s r = [].
Lemma job_finished sched s' : job_run path name sched {| j_fs := fs0; j_todo := todo |} = Ok s' -> finished s' ->
  (forall r, 0 <= r < mpi_size -> j_fs s' (rank_fname path name r) = Some (target r)) /\
  (forall n, (forall r, 0 <= r < mpi_size -> n <> rank_fname path name r) -> j_fs s' n = fs0 n).
Proof.
  intros Hrun Hfin. destruct (job_run_inv sched inv_init) as [s2 [E [H1 [_ H3]]]].
  assert (s2 = s') by congruence. subst s2. split; [|assumption]. intros r Hr. destruct (H1 r Hr) as [f [Ef Er]].
  rewrite (Hfin r Hr) in Er. cbn in Er. congruence.
Qed.
(** a rank that gets enough turns finishes *)
Lemma job_progress sched : forall s s', inv s -> job_run path name sched s = Ok s' ->
  forall r, (length (j_todo s r) <= count_occ Z.eq_dec sched r)%nat -> j_todo s' r = [].
Proof.
  unfold job_run. induction sched as [|r0 sched IH]; intros s s' Hs Hrun r Hc; cbn [foldM] in Hrun.
  - injection Hrun as <-. cbn in Hc. destruct (j_todo s r); [reflexivity|cbn in Hc; lia].
  - destruct (inv_step r0 Hs) as [s1 [E1 [H1 [Hl Ho]]]]. rewrite E1 in Hrun. cbn [bind] in Hrun.
    apply (IH s1 s' H1 Hrun). cbn [count_occ] in Hc. destruct (Z.eq_dec r0 r) as [->|N].
    + destruct (j_todo s r) eqn:E.
      * assert (E' : j_todo s1 r = []). { unfold job_step in E1. rewrite E in E1. congruence. } rewrite E'. cbn. lia.
      * assert (length (o :: l) = S (length (j_todo s1 r))) by (apply Hl; discriminate). lia.
    + rewrite Ho by auto. exact Hc.
Qed.
End Job.
End P.
