(** Specification-side view of nested lists: shapes and mathematical lookup. *)
From Verif Require Import Base.PyBase Base.PyFacts.
Set Implicit Arguments.

Definition obind {A B} (o : option A) (f : A -> option B) : option B :=
  match o with Some a => f a | None => None end.
Definition get2 {A} (m : list (list A)) (i j : Z) : option A := obind (zget m i) (fun r => zget r j).
Definition get3 {A} (m : list (list (list A))) (i j k : Z) : option A := obind (zget m i) (fun r => get2 r j k).

(** [shape m = (a,b)] etc. *)
Definition shape2 {A} (m : list (list A)) (a b : Z) : Prop :=
  zlen m = a /\ forall r, In r m -> zlen r = b.
Definition shape3 {A} (m : list (list (list A))) (a b c : Z) : Prop :=
  zlen m = a /\ forall r, In r m -> shape2 r b c.

Lemma get2_range A (m : list (list A)) a b i j : shape2 m a b -> 0 <= i < a -> 0 <= j < b -> exists x, get2 m i j = Some x.
Proof.
  intros [Hl Hr] Hi Hj. destruct (@zget_in_range _ m i) as [r E]; [lia|].
  unfold get2. rewrite E. cbn. apply zget_in_range. rewrite (Hr r (zget_In _ _ E)). lia.
Qed.
Lemma get3_range A (m : list (list (list A))) a b c i j k : shape3 m a b c -> 0 <= i < a -> 0 <= j < b -> 0 <= k < c -> exists x, get3 m i j k = Some x.
Proof.
  intros [Hl Hr] Hi Hj Hk. destruct (@zget_in_range _ m i) as [r E]; [lia|].
  unfold get3. rewrite E. cbn. apply (@get2_range A r b c); auto. apply Hr. eapply zget_In; eauto.
Qed.

Lemma get2_inv A (m : list (list A)) a b i j x : shape2 m a b -> get2 m i j = Some x -> 0 <= i < a /\ 0 <= j < b.
Proof.
  intros [Hl Hr] H. unfold get2 in H. destruct (zget m i) as [r|] eqn:E; [|discriminate]. cbn in H.
  pose proof (zget_some_range _ _ E). pose proof (zget_some_range _ _ H). rewrite (Hr r (zget_In _ _ E)) in *. lia.
Qed.

Lemma shape2_ext A (m m' : list (list A)) a b : shape2 m a b -> shape2 m' a b ->
  (forall i j, 0 <= i < a -> 0 <= j < b -> get2 m i j = get2 m' i j) -> m = m'.
Proof.
  intros [Hl Hr] [Hl' Hr'] H. apply zget_ext; [lia|]. intros i Hi.
  destruct (@zget_in_range _ m i ltac:(lia)) as [r E]. destruct (@zget_in_range _ m' i ltac:(lia)) as [r' E'].
  rewrite E, E'. f_equal. pose proof (Hr r (zget_In _ _ E)) as L. pose proof (Hr' r' (zget_In _ _ E')) as L'.
  apply zget_ext; [lia|]. intros j Hj. specialize (H i j ltac:(lia) ltac:(lia)). unfold get2 in H. rewrite E, E' in H. exact H.
Qed.

Lemma shape2_map A B (f : A -> B) m a b : shape2 m a b -> shape2 (map (map f) m) a b.
Proof.
  intros [Hl Hr]. split; [now rewrite zlen_map|]. intros r Hin. apply in_map_iff in Hin. destruct Hin as [r' [<- Hin]].
  rewrite zlen_map. auto.
Qed.

(** shape of a mapM-generated square *)
Lemma mapM2_get A B C (f : A -> B -> res C) (la : list A) (lb : list B) r :
  mapM (fun x => mapM (fun y => f x y) lb) la = Ok r ->
  shape2 r (zlen la) (zlen lb) /\
  forall i j x y, zget la i = Some x -> zget lb j = Some y -> exists c, get2 r i j = Some c /\ f x y = Ok c.
Proof.
  intros H. destruct (mapM_zget _ _ H) as [Hl Hg]. split; [split; [assumption|]|].
  - intros row Hin. apply In_zget in Hin. destruct Hin as [i [Hi Hgi]].
    destruct (@zget_in_range _ la i) as [x Hx]; [lia|]. destruct (Hg i x Hx) as [b [Hb Hf]].
    assert (b = row) by congruence. subst. apply mapM_zget in Hf. tauto.
  - intros i j x y Hx Hy. destruct (Hg i x Hx) as [row [Hrow Hf]]. apply mapM_zget in Hf. destruct Hf as [_ Hf].
    destruct (Hf j y Hy) as [c [Hc Hfc]]. exists c. split; [|assumption]. unfold get2. now rewrite Hrow.
Qed.

(** transpose *)
Lemma zget_col A (l : list (list A)) n m j i : shape2 l n m -> 0 <= j < m -> 0 <= i < n -> zget (col j l) i = get2 l i j.
Proof.
  intros [Hl Hr] Hj. revert n i Hl; induction l as [|r l IH]; intros n i Hl Hi.
  - rewrite zlen_nil in Hl. lia.
  - unfold col in *. cbn [flat_map]. rewrite zlen_cons in Hl.
    destruct (@zget_in_range _ r j) as [x Hx]; [rewrite (Hr r (or_introl eq_refl)); lia|].
    rewrite Hx. cbn [app]. unfold get2. rewrite !zget_cons. destruct (Z.eqb_spec i 0).
    + cbn. now rewrite Hx.
    + rewrite (IH (fun r' H => Hr r' (or_intror H)) (n - 1)); [reflexivity|lia|lia].
Qed.
Lemma zlen_col A (l : list (list A)) n m j : shape2 l n m -> 0 <= j < m -> zlen (col j l) = n.
Proof.
  intros [Hl Hr] Hj. revert n Hl; induction l as [|r l IH]; intros n Hl.
  - exact Hl.
  - unfold col in *. cbn [flat_map]. rewrite zlen_cons in Hl.
    destruct (@zget_in_range _ r j) as [x Hx]; [rewrite (Hr r (or_introl eq_refl)); lia|].
    rewrite Hx. cbn [app]. rewrite zlen_cons. rewrite (IH (fun r' H => Hr r' (or_intror H)) (n - 1)); lia.
Qed.
Lemma transpose_shape A (l : list (list A)) n m : 0 <= m -> shape2 l n m -> shape2 (transpose m l) m n.
Proof.
  intros Hm Hs. unfold transpose, range. split; [rewrite zlen_map, zlen_arange; lia|].
  intros r Hin. apply in_map_iff in Hin. destruct Hin as [j [<- Hj]]. apply In_arange in Hj.
  eapply zlen_col; eauto.
Qed.
Lemma get2_transpose A (l : list (list A)) n m i j : shape2 l n m -> 0 <= i < m -> 0 <= j < n ->
  get2 (transpose m l) i j = get2 l j i.
Proof.
  intros Hs Hi Hj. unfold transpose, range. unfold get2 at 1. rewrite zget_map, zget_arange by lia. cbn.
  replace (0 + i) with i by lia. eapply zget_col; eauto.
Qed.
(** Boolean versions, used to check shapes of literals by computation. *)
Definition shape2b {A} (m : list (list A)) (a b : Z) : bool := (zlen m =? a) && forallb (fun r => zlen r =? b) m.
Definition shape3b {A} (m : list (list (list A))) (a b c : Z) : bool := (zlen m =? a) && forallb (fun r => shape2b r b c) m.
Lemma shape2b_ok A (m : list (list A)) a b : shape2b m a b = true -> shape2 m a b.
Proof.
  unfold shape2b. intros H. apply andb_true_iff in H. destruct H as [H1 H2]. apply Z.eqb_eq in H1. rewrite forallb_forall in H2.
  split; [assumption|]. intros r Hr. apply Z.eqb_eq. now apply H2.
Qed.
Lemma shape3b_ok A (m : list (list (list A))) a b c : shape3b m a b c = true -> shape3 m a b c.
Proof.
  unfold shape3b. intros H. apply andb_true_iff in H. destruct H as [H1 H2]. apply Z.eqb_eq in H1. rewrite forallb_forall in H2.
  split; [assumption|]. intros r Hr. apply shape2b_ok. now apply H2.
Qed.
