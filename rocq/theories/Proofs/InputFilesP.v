(** C93: reading the two-particle input. *)
From Coq Require Import String Lia.
From Verif Require Import Base.PyBase Base.PyFacts Base.Arr Model.Util Model.Matsubara Model.MpiAux Model.RankFiles Model.InputFiles Spec.InputSpec Proofs.StrP.
Set Implicit Arguments.
Local Open Scope Z_scope.

Lemma str_len_app a b : String.length (a ++ b)%string = (String.length a + String.length b)%nat.
Proof. induction a; cbn; congruence. Qed.
Lemma append_inj_r a b s : (a ++ s = b ++ s)%string -> a = b.
Proof.
  revert b; induction a as [|c a IH]; intros [|c' b] H; cbn in H; [reflexivity| | |].
  - exfalso. apply (f_equal String.length) in H. cbn in H. rewrite str_len_app in H. lia.
  - exfalso. apply (f_equal String.length) in H. cbn in H. rewrite str_len_app in H. lia.
  - injection H as -> H. f_equal. now apply IH.
Qed.
Lemma dset_inj ineq ch sb a b : dset ineq ch sb a = dset ineq ch sb b -> a = b.
Proof. unfold dset. intros H. do 5 apply append_inj_l' in H. apply append_inj_r in H. now apply fmt0_inj in H. Qed.
(** the names of different atoms, channels, positions and band groups differ *)
Lemma dset_inj_all i j c e s t a b : 0 <= i -> 0 <= j -> 0 <= a -> 0 <= b -> (c = "dens" \/ c = "magn")%string -> (e = "dens" \/ e = "magn")%string ->
  dset i c s a = dset j e t b -> i = j /\ c = e /\ s = t /\ a = b.
Proof.
  unfold dset. intros Hi Hj Ha Hb Hc He H. apply append_inj_l' in H.
  assert (D : forall w x y u v, 0 <= x -> 0 <= y -> (fmt0 w x ++ ("/" ++ u) = fmt0 w y ++ ("/" ++ v))%string -> x = y /\ u = v).
  { intros w x y u v Hx Hy E. unfold fmt0 in E. destruct (Z.ltb_spec x 0); [lia|]. destruct (Z.ltb_spec y 0); [lia|].
    apply digits_cancel in E; try apply pad0_digits; try exact I; try reflexivity. destruct E as [E1 E2]. apply pad0_inj in E1. split; [lia|]. cbn in E2. congruence. }
  apply D in H as [-> H]; try assumption.
  assert (G : c = e /\ (fmt0 5 a ++ ("/" ++ (fmt0 5 s ++ "/value")) = fmt0 5 b ++ ("/" ++ (fmt0 5 t ++ "/value")))%string).
  { destruct Hc as [-> | ->], He as [-> | ->]; cbn in H; injection H as H; split; congruence || (cbn; exact H). }
  destruct G as [-> G]. apply D in G as [-> G]; try assumption. apply append_inj_r in G. apply fmt0_inj in G. auto.
Qed.

Section P.
Variable A : Type.
Implicit Types (f : h5 A).
Lemma get_stored f p : stored f p <-> exists d, h5_get f p = Ok d.
Proof.
  unfold stored. induction f as [|[q d] f IH]; cbn.
  - split; [contradiction|]. intros [d H]. discriminate.
  - destruct (String.eqb_spec p q) as [->|Hn]; [split; eauto|]. rewrite <- IH. split; [intros [H|H]; [congruence|assumption]|auto].
Qed.
Lemma get_missing f p : ~ stored f p <-> h5_get f p = Raise KeyError.
Proof.
  unfold stored. induction f as [|[q d] f IH]; cbn; [tauto|]. destruct (String.eqb_spec p q) as [->|Hn].
  - split; [intros H; elim H; now left|discriminate].
  - rewrite <- IH. split; intros H E; apply H; [right; assumption|destruct E; [congruence|assumption]].
Qed.
Lemma in_stored f p : h5_in f p = true <-> stored f p.
Proof.
  unfold h5_in, stored. rewrite existsb_exists, in_map_iff. split.
  - intros [[q d] [H E]]. apply String.eqb_eq in E. cbn in E. subst. exists (q, d). auto.
  - intros [[q d] [E H]]. cbn in E. subst. exists (p, d). split; [assumption|]. apply String.eqb_refl.
Qed.
Lemma stored_dec f p : {stored f p} + {~ stored f p}.
Proof. destruct (h5_in f p) eqn:E; [left; now apply in_stored|right]. intros H. apply in_stored in H. congruence. Qed.
(** there is a first missing position, not larger than the number of datasets *)
Lemma first_missing f ineq ch sb : exists n, 0 <= n <= zlen f /\ (forall w, 0 <= w < n -> stored f (dset ineq ch sb w)) /\ ~ stored f (dset ineq ch sb n).
Proof.
  assert (B : ~ forall w, 0 <= w <= zlen f -> stored f (dset ineq ch sb w)).
  { intros H. assert (I : incl (map (dset ineq ch sb) (range (zlen f + 1))) (map fst f)).
    { intros p Hp. apply in_map_iff in Hp as [w [<- Hw]]. apply In_arange in Hw. apply H. lia. }
    apply NoDup_incl_length in I.
    - rewrite !map_length in I. pose proof (zlen_arange 0 (zlen f + 1)) as L. unfold range in I. unfold zlen in L, I. pose proof (zlen_nonneg f) as P. unfold zlen in P. lia.
    - assert (G : forall l, NoDup l -> NoDup (map (dset ineq ch sb) l)).
      { induction l; intros N; cbn; constructor; inversion N; subst; [|auto]. intros E. apply in_map_iff in E as [x [Ex Hx]]. apply dset_inj in Ex. now subst. }
      apply G. unfold range, arange. apply FinFun.Injective_map_NoDup; [intros x y E; lia|]. apply seq_NoDup. }
  assert (G : forall k, (forall w, 0 <= w < Z.of_nat k -> stored f (dset ineq ch sb w)) \/
                        exists n, 0 <= n < Z.of_nat k /\ (forall w, 0 <= w < n -> stored f (dset ineq ch sb w)) /\ ~ stored f (dset ineq ch sb n)).
  { induction k as [|k [IH|IH]].
    - left. intros w Hw. lia.
    - destruct (stored_dec f (dset ineq ch sb (Z.of_nat k))) as [S|S].
      + left. intros w Hw. destruct (Z.eq_dec w (Z.of_nat k)); [now subst|]. apply IH. lia.
      + right. exists (Z.of_nat k). split; [lia|]. split; [exact IH|exact S].
    - right. destruct IH as [n [H1 H2]]. exists n. split; [lia|exact H2]. }
  pose proof (zlen_nonneg f). destruct (G (Z.to_nat (zlen f + 1))) as [H1|[n [H1 H2]]].
  - exfalso. apply B. intros w Hw. apply H1. lia.
  - exists n. split; [lia|exact H2].
Qed.
Lemma loop_spec f ineq ch sb n (d : Z -> list (list A)) : (forall w, 0 <= w < n -> h5_get f (dset ineq ch sb w) = Ok (d w)) -> ~ stored f (dset ineq ch sb n) ->
  forall fuel wn acc, 0 <= wn <= n -> (Z.to_nat (n - wn) < fuel)%nat ->
  read_loop f ineq (Some ch) sb fuel wn acc = Some (acc ++ map (fun w => tr (d w)) (arange wn n))%list.
Proof.
  intros H1 H2. induction fuel as [|fuel IH]; intros wn acc Hw Hf; [lia|]. cbn [read_loop]. unfold g2_read. cbn [g2_path bind].
  fold (dset ineq ch sb wn). destruct (Z.eq_dec wn n) as [->|Hn].
  - apply get_missing in H2. rewrite H2. cbn. unfold arange. replace (Z.to_nat (n - n)) with 0%nat by lia. cbn. now rewrite app_nil_r.
  - rewrite H1 by lia. cbn. rewrite IH by lia. rewrite <- app_assoc. f_equal. f_equal. cbn.
    assert (E : arange wn n = wn :: arange (wn + 1) n).
    { unfold arange. replace (Z.to_nat (n - wn)) with (S (Z.to_nat (n - (wn + 1)))) by lia. cbn [seq map]. f_equal; [lia|]. rewrite <- seq_shift, map_map. apply map_ext. intros. lia. }
    rewrite E. reflexivity.
Qed.
Lemma count_spec f ineq ch sb n : (forall w, 0 <= w < n -> stored f (dset ineq ch sb w)) -> ~ stored f (dset ineq ch sb n) ->
  forall fuel wn, 0 <= wn <= n -> (Z.to_nat (n - wn) < fuel)%nat -> count_loop f ineq ch sb fuel wn = Some n.
Proof.
  intros H1 H2. induction fuel as [|fuel IH]; intros wn Hw Hf; [lia|]. cbn [count_loop g2_path]. fold (dset ineq ch sb wn).
  destruct (Z.eq_dec wn n) as [->|Hn].
  - destruct (h5_in f (dset ineq ch sb n)) eqn:E; [|reflexivity]. apply in_stored in E. contradiction.
  - rewrite (proj2 (in_stored f _) (H1 wn ltac:(lia))). apply IH; lia.
Qed.
Lemma n_bound f ineq ch sb n : (forall w, 0 <= w < n -> stored f (dset ineq ch sb w)) -> n <= zlen f.
Proof.
  intros H. destruct (@first_missing f ineq ch sb) as [k [B [C D]]]. destruct (Z.le_gt_cases n (zlen f)); [assumption|].
  exfalso. apply D. apply H. lia.
Qed.
Lemma tr_get (d : list (list A)) m i j : shape2 d m m -> 0 <= i < m -> 0 <= j < m -> get2 (tr d) i j = get2 d j i.
Proof.
  intros S Hi Hj. unfold tr. assert (E : cols d = m). { destruct S as [L R]. destruct d as [|r d]; [cbn in L; unfold zlen in L; cbn in L; lia|]. cbn. apply R. now left. }
  rewrite E. eapply get2_transpose; eauto.
Qed.
Lemma cols_sq (d : list (list A)) m : shape2 d m m -> cols d = m.
Proof. intros [L R]. destruct d as [|r d]; [exact L|]. apply R. now left. Qed.
Lemma tr_shape (d : list (list A)) m : shape2 d m m -> shape2 (tr d) m m.
Proof. intros S. unfold tr. rewrite (cols_sq S). apply transpose_shape; [|assumption]. destruct S as [L _]. rewrite <- L. apply zlen_nonneg. Qed.
Lemma tr_tr (d : list (list A)) m : shape2 d m m -> tr (tr d) = d.
Proof.
  intros S. apply (@shape2_ext _ _ _ m m); [apply tr_shape, tr_shape, S|exact S|]. intros i j Hi Hj.
  rewrite (@tr_get _ m) by (try apply tr_shape; assumption). now rewrite (@tr_get _ m) by assumption.
Qed.
Lemma array3_ok (l : list (list (list A))) m : (forall d, In d l -> shape2 d m m) -> np_array_3 l = Ok l.
Proof.
  intros H. destruct l as [|a t]; [reflexivity|]. cbn. assert (E : forallb (same_shape a) t = true).
  { apply forallb_forall. intros x Hx. unfold same_shape. rewrite (cols_sq (H a (or_introl eq_refl))), (cols_sq (H x (or_intror Hx))).
    rewrite (proj1 (H a (or_introl eq_refl))), (proj1 (H x (or_intror Hx))). now rewrite !Z.eqb_refl. }
  now rewrite E.
Qed.
Lemma full_spec f ineq ch sb n m d : 0 <= n -> holds f ineq ch sb n m d ->
  read_g2_full f ineq (Some ch) sb = Some (Ok (map (fun w => tr (d w)) (range n))) /\ get_niw f ineq (Some ch) sb = Some (Ok (n / 2)).
Proof.
  intros Hn [H1 H2]. assert (S : forall w, 0 <= w < n -> stored f (dset ineq ch sb w)) by (intros w Hw; apply get_stored; eexists; apply H1, Hw).
  pose proof (@n_bound f ineq ch sb n S) as B. unfold zlen in B. split.
  - unfold read_g2_full. rewrite (@loop_spec f ineq ch sb n d) by (try assumption; try lia; intros; apply H1; assumption). cbn [app]. f_equal.
    apply array3_ok with m. intros x Hx. apply in_map_iff in Hx as [w [<- Hw]]. apply In_arange in Hw. apply tr_shape, H1, Hw.
  - unfold get_niw. rewrite (@count_spec f ineq ch sb n) by (assumption || lia). reflexivity.
Qed.
Lemma zget_range n i : 0 <= i < n -> zget (range n) i = Some i.
Proof. intros H. unfold range. rewrite zget_arange by lia. f_equal. Qed.
Lemma full_get m d n w v vp : (forall w, 0 <= w < n -> shape2 (d w : list (list A)) m m) -> 0 <= w < n -> 0 <= v < m -> 0 <= vp < m ->
  get3 (map (fun w => tr (d w)) (range n)) w v vp = get2 (d w) vp v.
Proof. intros S Hw Hv Hp. unfold get3. rewrite zget_map, zget_range by assumption. cbn. apply tr_get with m; auto. Qed.
Lemma g2_read_ok f ineq ch sb w d : h5_get f (dset ineq ch sb w) = Ok d -> g2_read f ineq (Some ch) w sb = Ok (tr d).
Proof. intros H. unfold g2_read. cbn [g2_path bind]. fold (dset ineq ch sb w). now rewrite H. Qed.
Lemma g2_read_missing f ineq ch sb w : ~ stored f (dset ineq ch sb w) -> g2_read f ineq (Some ch) w sb = Raise KeyError.
Proof. intros H. unfold g2_read. cbn [g2_path bind]. fold (dset ineq ch sb w). apply get_missing in H. now rewrite H. Qed.
Lemma mapM_map X Y (h : X -> res Y) (g : X -> Y) l : (forall x, In x l -> h x = Ok (g x)) -> mapM h l = Ok (map g l).
Proof. induction l as [|x l IH]; intros H; cbn; [reflexivity|]. rewrite H by (now left). cbn. rewrite IH by (intros; apply H; now right). reflexivity. Qed.
Lemma bcast2_same n (d : list (list A)) : shape2 d n n -> bcast2 n d = Ok d.
Proof.
  intros [L R]. unfold bcast2. rewrite (@mapM_map _ _ _ (fun x => x)).
  - rewrite map_id. cbn. unfold bcast. now rewrite L, Z.eqb_refl.
  - intros x Hx. unfold bcast. now rewrite (R x Hx), Z.eqb_refl.
Qed.
End P.
