(** Proofs about Model/SwkAnalysis.v: entries, the Green function and the filling. *)
From Coq Require Import ZArith Reals List Lia Lra Sorted.
From Verif Require Import Base.PyBase Base.Arr Base.PyFacts Base.RSum Model.BrillouinZone Model.KPath Model.MaxEnt Model.RealMesh Model.ShownK Model.SwkAnalysis.
From Verif Require Import Spec.ShownKSpec Spec.SwkSpec Proofs.ShownKP Proofs.LocalContP.
Import ListNotations.
Set Implicit Arguments.
Local Open Scope R_scope.

(** Entries of mapped arrays *)
Lemma get3_map A B (f : A -> B) m i j l : get3 (map (map (map f)) m) i j l = option_map f (get3 m i j l).
Proof.
  unfold get3, get2. rewrite zget_map. destruct (zget m i) as [r|]; [|reflexivity]. cbn. rewrite zget_map. destruct (zget r j) as [s|]; [|reflexivity].
  cbn. apply zget_map.
Qed.
Lemma get4_map A B (f : A -> B) (m : arr4 A) i j l t : get4 (map4 f m) i j l t = option_map f (get4 m i j l t).
Proof. unfold get4, map4. rewrite get3_map. destruct (get3 m i j l); [|reflexivity]. apply zget_map. Qed.
Lemma shape3_map A B (f : A -> B) m a b c : shape3 m a b c -> shape3 (map (map (map f)) m) a b c.
Proof.
  intros [L H]. split; [now rewrite zlen_map|]. intros r I. apply in_map_iff in I. destruct I as (r' & <- & I). apply shape2_map. auto.
Qed.
Lemma shape4_map A B (f : A -> B) (m : arr4 A) a b c d : shape4 m a b c d -> shape4 (map4 f m) a b c d.
Proof.
  intros [S H]. split; [now apply shape3_map|]. intros i j l s E. unfold map4 in E. rewrite get3_map in E. destruct (get3 m i j l) as [s'|] eqn:E'; [|discriminate].
  inversion E. rewrite zlen_map. eauto.
Qed.
Lemma samples4_map A B (f : A -> B) g n1 n2 n3 w (m : arr4 A) : samples4 g n1 n2 n3 w m -> samples4 (fun x y z v => f (g x y z v)) n1 n2 n3 w (map4 f m).
Proof. intros [S V]. split; [now apply shape4_map|]. intros i j l t x Hi Hj Hl Hx. rewrite get4_map, (V i j l t x) by assumption. reflexivity. Qed.
Lemma get3_inv A (m : list (list (list A))) a b c i j l x : shape3 m a b c -> get3 m i j l = Some x -> (0 <= i < a)%Z /\ (0 <= j < b)%Z /\ (0 <= l < c)%Z.
Proof.
  intros [L H] E. unfold get3 in E. destruct (zget m i) as [r|] eqn:Er; [|discriminate]. cbn in E. pose proof (zget_some_range _ _ Er).
  pose proof (get2_inv _ _ (H r (zget_In _ _ Er)) E). lia.
Qed.
Lemma get4_inv A (m : arr4 A) a b c d i j l t x : shape4 m a b c d -> get4 m i j l t = Some x -> ((0 <= i < a) /\ (0 <= j < b) /\ (0 <= l < c) /\ (0 <= t < d))%Z.
Proof.
  intros [S H] E. unfold get4 in E. destruct (get3 m i j l) as [s|] eqn:Es; [|discriminate]. cbn in E. pose proof (get3_inv _ _ _ S Es).
  pose proof (zget_some_range _ _ E). rewrite (H _ _ _ _ Es) in *. tauto.
Qed.
Lemma get4_range A (m : arr4 A) a b c d i j l t : shape4 m a b c d -> (0 <= i < a)%Z -> (0 <= j < b)%Z -> (0 <= l < c)%Z -> (0 <= t < d)%Z -> exists x, get4 m i j l t = Some x.
Proof.
  intros [S H] Hi Hj Hl Ht. destruct (@get3_range _ m a b c i j l S Hi Hj Hl) as [s E]. unfold get4. rewrite E. cbn. apply zget_in_range. rewrite (H _ _ _ _ E). assumption.
Qed.

(** The cut-off *)
Lemma cut_entries c S i j l t s : 0 < c -> get4 S i j l t = Some s ->
  exists s', get4 (cut_small c S) i j l t = Some s' /\ fst s' = fst s /\ c <= Rabs (snd s') /\ (c <= Rabs (snd s) -> s' = s) /\ (Rabs (snd s) < c -> snd s' = - c) /\ (snd s <= 0 -> snd s' <= - c).
Proof.
  intros Hc E. exists (cut_entry c s). unfold cut_small. rewrite get4_map, E. split; [reflexivity|]. unfold cut_entry. destruct (Rlt_dec (Rabs (snd s)) c) as [L|L]; cbn.
  - split; [reflexivity|]. split; [rewrite Rabs_Ropp, Rabs_right; lra|]. split; [lra|]. split; [reflexivity|lra].
  - split; [reflexivity|]. split; [lra|]. split; [reflexivity|]. split; [intros; contradiction|]. intros H. rewrite Rabs_left1 in L by assumption. lra.
Qed.
Lemma cut_damped c S : 0 < c -> causal S -> damped c (cut_small c S).
Proof.
  intros Hc H i j l t s E. unfold cut_small in E. rewrite get4_map in E. unfold C in *. destruct (get4 S i j l t) as [s0|] eqn:E0; [|discriminate].
  destruct (@cut_entries c S i j l t s0 Hc E0) as (s' & E' & _ & _ & _ & _ & D). unfold cut_small in E'. rewrite get4_map in E'. unfold C in *. rewrite E0 in E'. rewrite E' in E. inversion E. subst. apply D. eapply H; eauto.
Qed.

(** Complex inverse *)
Lemma cinv_inverse z : z <> (0, 0) -> inverse_of (cinv z) z.
Proof.
  destruct z as [a b]. intros H. unfold inverse_of, cinv. cbn. assert (a * a + b * b <> 0).
  { intros E. apply H. destruct (Rplus_sqr_eq_0 a b E) as [-> ->]. reflexivity. }
  split; field; assumption.
Qed.
Lemma inverse_unique z g g' : inverse_of g z -> inverse_of g' z -> g = g'.
Proof.
  destruct z as [a b], g as [x y], g' as [x' y']. unfold inverse_of. cbn. intros [H1 H2] [H3 H4]. f_equal.
  - transitivity (x * (x' * a - y' * b) - y * (x' * b + y' * a)); [rewrite H3, H4; ring|].
    transitivity (x' * (x * a - y * b) - y' * (x * b + y * a)); [ring|rewrite H1, H2; ring].
  - transitivity (y * (x' * a - y' * b) + x * (x' * b + y' * a)); [rewrite H3, H4; ring|].
    transitivity (y' * (x * a - y * b) + x' * (x * b + y * a)); [ring|rewrite H1, H2; ring].
Qed.
Lemma cinv_cinv z : z <> (0, 0) -> cinv (cinv z) = z.
Proof.
  intros H. destruct (cinv_inverse H) as [H1 H2]. assert (N : cinv z <> (0, 0)). { intros E. rewrite E in H1. cbn in H1. lra. }
  apply (inverse_unique (cinv_inverse N)). unfold inverse_of. split; lra.
Qed.
Lemma cinv_lorentz mu e s x : - 1 / PI * snd (cinv (denom mu e s x)) = lorentz mu e s x.
Proof. unfold cinv, denom, lorentz. cbn. replace (- snd s * - snd s) with (snd s * snd s) by ring. rewrite !Rmult_1_r. rewrite Ropp_involutive. unfold Rdiv. ring. Qed.

(** Entries of the Green function *)
Lemma forallb_map2_len A B C (f : A -> B -> C) a b : zlen a = zlen b -> zlen (map2 f a b) = zlen a.
Proof. intros H. rewrite zlen_map2. lia. Qed.
Lemma forallb3 A (p : A -> bool) m a b c : shape3 m a b c -> forallb (forallb (forallb p)) m = true <-> (forall i j l s, get3 m i j l = Some s -> p s = true).
Proof.
  intros S. split.
  - intros H i j l s E. unfold get3 in E. destruct (zget m i) as [r|] eqn:Er; [|discriminate]. cbn in E. unfold get2 in E. destruct (zget r j) as [q|] eqn:Eq; [|discriminate]. cbn in E.
    rewrite forallb_forall in H. specialize (H r (zget_In _ _ Er)). rewrite forallb_forall in H. specialize (H q (zget_In _ _ Eq)). rewrite forallb_forall in H. apply H. eapply zget_In; eauto.
  - intros H. apply forallb_forall. intros r Ir. apply In_zget in Ir. destruct Ir as (i & _ & Er). apply forallb_forall. intros q Iq. apply In_zget in Iq. destruct Iq as (j & _ & Eq).
    apply forallb_forall. intros s Is. apply In_zget in Is. destruct Is as (l & _ & Es). apply (H i j l). unfold get3, get2. rewrite Er. cbn. rewrite Eq. exact Es.
Qed.
Lemma dims A (m : list (list (list A))) a b c : shape3 m a b c -> (0 < a)%Z -> (0 < b)%Z -> zlen m = a /\ dim1 m = b /\ dim2 m = c.
Proof.
  intros [L H] Ha Hb. destruct m as [|r m]; [rewrite zlen_nil in L; lia|]. destruct (H r (or_introl eq_refl)) as [Lr Hr]. split; [assumption|].
  destruct r as [|s r]; [rewrite zlen_nil in Lr; lia|]. cbn. split; [assumption|]. apply Hr. now left.
Qed.
Lemma agree_true S w ek a b c : shape3 ek a b c -> shape4 S a b c (zlen w) -> (0 < a)%Z -> (0 < b)%Z -> shapes_agree S w ek = true.
Proof.
  intros H1 [H2 H3] Ha Hb. unfold shapes_agree. destruct (dims H1 Ha Hb) as (-> & -> & ->). rewrite (shape3b_true H2), (shape3b_true H1). cbn [andb].
  apply (forallb3 _ H2). intros i j l s E. apply Z.eqb_eq. eauto.
Qed.
Lemma agree_inv S w ek : shapes_agree S w ek = true -> exists a b c, shape3 ek a b c /\ shape4 S a b c (zlen w).
Proof.
  unfold shapes_agree. intros H. apply andb_prop in H. destruct H as [H H3]. apply andb_prop in H. destruct H as [H1 H2].
  exists (zlen ek), (dim1 ek), (dim2 ek). apply shape3b_conv in H1. apply shape3b_conv in H2. split; [assumption|]. split; [assumption|]. intros i j l s E.
  apply Z.eqb_eq. apply (proj1 (forallb3 _ H1) H3 _ _ _ _ E).
Qed.
Lemma map2_3 A B D (f : A -> B -> D) m m' a b c : shape3 m a b c -> shape3 m' a b c ->
  shape3 (map2 (map2 (map2 f)) m m') a b c /\ forall i j l, get3 (map2 (map2 (map2 f)) m m') i j l = match get3 m i j l, get3 m' i j l with Some x, Some y => Some (f x y) | _, _ => None end.
Proof.
  intros [L H] [L' H']. split.
  - split; [rewrite zlen_map2; lia|]. intros r I. apply In_zget in I. destruct I as (i & Hi & E). rewrite zget_map2 in E. destruct (zget m i) as [x|] eqn:Ex; [|discriminate]. destruct (zget m' i) as [y|] eqn:Ey; [|discriminate].
    inversion E. destruct (H x (zget_In _ _ Ex)) as [Lx Hx]. destruct (H' y (zget_In _ _ Ey)) as [Ly Hy]. split; [rewrite zlen_map2; lia|].
    intros q I. apply In_zget in I. destruct I as (j & Hj & Eq). rewrite zget_map2 in Eq. destruct (zget x j) as [u|] eqn:Eu; [|discriminate]. destruct (zget y j) as [v|] eqn:Ev; [|discriminate]. inversion Eq.
    rewrite zlen_map2. rewrite (Hx u (zget_In _ _ Eu)), (Hy v (zget_In _ _ Ev)). lia.
  - intros i j l. unfold get3, get2. rewrite zget_map2. destruct (zget m i) as [x|] eqn:Ex; [|reflexivity]. destruct (zget m' i) as [y|] eqn:Ey; cbn.
    + rewrite zget_map2. destruct (zget x j) as [u|]; [|reflexivity]. destruct (zget y j) as [v|]; cbn; [apply zget_map2|]. destruct (zget u l); reflexivity.
    + destruct (zget x j) as [u|]; [|reflexivity]. cbn. destruct (zget u l); reflexivity.
Qed.
Lemma giwk_ok mu S w ek a b c : shape3 ek a b c -> shape4 S a b c (zlen w) -> (0 < a)%Z -> (0 < b)%Z ->
  exists G, get_giwk mu S w ek = Ok G /\ shape4 G a b c (zlen w) /\
    forall i j l t e s x, get3 ek i j l = Some e -> get4 S i j l t = Some s -> zget w t = Some x -> get4 G i j l t = Some (cinv (denom mu e s x)).
Proof.
  intros H1 H2 Ha Hb. unfold get_giwk. rewrite (@agree_true S w ek a b c H1 H2 Ha Hb). cbn [negb]. eexists. split; [reflexivity|]. destruct H2 as [H2 H3].
  destruct (map2_3 (fun e s => map2 (fun x sg => cinv (x + mu - e - fst sg, - snd sg)) w s) H1 H2) as [Sh Gt]. split.
  - split; [assumption|]. intros i j l s E. rewrite Gt in E. destruct (get3 ek i j l) as [e|]; [|discriminate].
    match type of E with match ?o with _ => _ end = _ => destruct o as [sg|] eqn:Es; [|discriminate] end. inversion E.
    rewrite zlen_map2. pose proof (H3 _ _ _ _ Es) as Q. unfold C in *. lia.
  - intros i j l t e s x Ee Es Ex. unfold get4 in *. rewrite Gt, Ee.
    match goal with |- obind (match ?o with _ => _ end) _ = _ => change (obind o (fun s => zget s t) = Some s) in Es; destruct o as [sg|]; [|discriminate] end.
    cbn in *. rewrite zget_map2, Ex. rewrite Es. reflexivity.
Qed.

(** Means over the momenta *)
Definition lsum (l : list R) : R := fold_right Rplus 0 l.
Lemma lsum_app a b : lsum (a ++ b) = lsum a + lsum b.
Proof. unfold lsum. rewrite fold_right_app. induction a as [|x a IH]; cbn; [lra|]. rewrite IH. lra. Qed.
Lemma lsum_concat (A : Type) (f : A -> R) ls : lsum (map f (concat ls)) = lsum (map (fun l => lsum (map f l)) ls).
Proof. induction ls as [|l ls IH]; cbn; [reflexivity|]. rewrite map_app, lsum_app, IH. reflexivity. Qed.
Lemma rsum_ext n f g : (forall i, (i < n)%nat -> f i = g i) -> rsum n f = rsum n g.
Proof. induction n as [|n IH]; intros H; [reflexivity|]. cbn. rewrite IH, H; auto. Qed.
Lemma rsum_first n f : rsum (S n) f = f 0%nat + rsum n (fun i => f (S i)).
Proof. induction n as [|n IH]; [cbn; lra|]. change (rsum (S (S n)) f) with (rsum (S n) f + f (S n)). rewrite IH. cbn. lra. Qed.
Lemma lsum_zsumf (A : Type) (F : A -> R) l : forall h, (forall i a, zget l i = Some a -> F a = h i) -> lsum (map F l) = zsumf (zlen l) h.
Proof.
  induction l as [|x l IH]; intros h H; [reflexivity|]. unfold zsumf. rewrite zlen_cons. pose proof (zlen_nonneg l). replace (Z.to_nat (1 + zlen l)) with (S (Z.to_nat (zlen l))) by lia.
  rewrite rsum_first. cbn [map]. unfold lsum. cbn [fold_right]. fold (lsum (map F l)). f_equal; [apply H; reflexivity|].
  rewrite (IH (fun i => h (1 + i)%Z)).
  - unfold zsumf. apply rsum_ext. intros i _. f_equal. lia.
  - intros i a E. apply H. rewrite zget_cons. pose proof (zget_some_range _ _ E). destruct (Z.eqb_spec (1 + i) 0); [lia|]. now replace (1 + i - 1)%Z with i by lia.
Qed.
Lemma vadd_fold nw ks : (forall s, In s ks -> zlen s = Z.of_nat nw) ->
  zlen (fold_right vadd (repeat 0 nw) ks) = Z.of_nat nw /\
  forall t, (0 <= t < Z.of_nat nw)%Z -> zget (fold_right vadd (repeat 0 nw) ks) t = Some (lsum (map (fun s => nth (Z.to_nat t) s 0) ks)).
Proof.
  induction ks as [|s ks IH]; intros H.
  - cbn. split; [now rewrite zlen_repeat|]. intros t Ht. now apply zget_repeat.
  - destruct (IH (fun s I => H s (or_intror I))) as [IL IG]. pose proof (H s (or_introl eq_refl)) as Ls. cbn [fold_right]. unfold vadd at 1 3. split; [rewrite zlen_map2; lia|].
    intros t Ht. rewrite zget_map2, IG by assumption. rewrite (@zget_nth _ s t 0) by lia. reflexivity.
Qed.
Lemma zlen_concat (A : Type) (ls : list (list A)) n : (forall l, In l ls -> zlen l = n) -> zlen (concat ls) = (zlen ls * n)%Z.
Proof. induction ls as [|l ls IH]; intros H; [reflexivity|]. cbn [concat]. rewrite zlen_app, zlen_cons, IH, (H l (or_introl eq_refl)) by (intros; apply H; now right). lia. Qed.
Lemma in_ks (m : arr4 R) a b c d s : shape4 m a b c d -> In s (concat (concat m)) -> zlen s = d.
Proof.
  intros [_ H] I. apply in_concat in I. destruct I as (q & Iq & Is). apply in_concat in Iq. destruct Iq as (r & Ir & Iq).
  apply In_zget in Ir. destruct Ir as (i & _ & Er). apply In_zget in Iq. destruct Iq as (j & _ & Eq). apply In_zget in Is. destruct Is as (l & _ & Es).
  apply (H i j l). unfold get3, get2. rewrite Er. cbn. rewrite Eq. exact Es.
Qed.
Lemma mean_k_get (f : R -> R -> R -> R -> R) n1 n2 n3 w m : samples4 f n1 n2 n3 w m ->
  zlen (mean_k (zlen w) m) = zlen w /\ forall t x, zget w t = Some x -> zget (mean_k (zlen w) m) t = Some (bz_mean n1 n2 n3 (fun kx ky kz => f kx ky kz x)).
Proof.
  intros [Sh V]. pose proof (zlen_nonneg w) as Lw. unfold mean_k. destruct (@vadd_fold (Z.to_nat (zlen w)) (concat (concat m))) as [FL FG].
  { intros s I. rewrite Z2Nat.id by assumption. exact (@in_ks m n1 n2 n3 (zlen w) s Sh I). }
  split; [rewrite zlen_map, FL; lia|]. intros t x Ex. pose proof (zget_some_range _ _ Ex) as Rt. rewrite zget_map, FG by lia. cbn [option_map]. f_equal. unfold bz_mean.
  destruct Sh as [[L1 H1] H4]. f_equal.
  - rewrite lsum_concat, lsum_concat. rewrite (@lsum_zsumf _ _ m (fun i => zsumf n2 (fun j => zsumf n3 (fun l => f (mom n1 i) (mom n2 j) (mom n3 l) x)))).
    + now rewrite L1.
    + intros i r Er. destruct (H1 r (zget_In _ _ Er)) as [L2 H2]. rewrite <- L2. apply lsum_zsumf. intros j q Eq. pose proof (H2 q (zget_In _ _ Eq)) as L3. rewrite <- L3. apply lsum_zsumf. intros l s Es.
      pose proof (zget_some_range _ _ Er). pose proof (zget_some_range _ _ Eq). pose proof (zget_some_range _ _ Es).
      assert (E3 : get3 m i j l = Some s) by (unfold get3, get2; rewrite Er; cbn; rewrite Eq; exact Es).
      pose proof (V i j l t x ltac:(lia) ltac:(lia) ltac:(lia) Ex) as E4. unfold get4 in E4. rewrite E3 in E4. cbn in E4. rewrite (@zget_nth _ s t 0) in E4 by (rewrite (H4 _ _ _ _ E3); lia). rewrite ?L3, ?L2. now inversion E4.
  - f_equal. rewrite (@zlen_concat _ (concat m) n3).
    + rewrite (@zlen_concat _ m n2); [rewrite L1; ring|]. intros r I. apply (H1 r I).
    + intros q I. apply in_concat in I. destruct I as (r & Ir & Iq). apply (H1 r Ir). assumption.
Qed.

(** The trapezoid rule on the occupied frequencies *)
Lemma occupied_self w : occupied w w = not_positive w.
Proof. induction w as [|x w IH]; [reflexivity|]. cbn. destruct (Rle_dec x 0); [now rewrite IH|assumption]. Qed.
Lemma occupied_values w (h : R -> R) : forall l : list R, zlen l = zlen w -> (forall t x, zget w t = Some x -> zget l t = Some (h x)) -> occupied w (l : list R) = map h (not_positive w).
Proof.
  induction w as [|x w IH]; intros l L H; [now destruct l|]. destruct l as [|a l]; [rewrite zlen_nil, zlen_cons in L; pose proof (zlen_nonneg w); lia|].
  rewrite !zlen_cons in L. assert (E : occupied w l = map h (not_positive w)).
  { apply IH; [lia|]. intros t y Ey. pose proof (zget_some_range _ _ Ey). specialize (H (1 + t)%Z y). rewrite !zget_cons in H. destruct (Z.eqb_spec (1 + t) 0); [lia|]. replace (1 + t - 1)%Z with t in H by lia. auto. }
  assert (Ea : a = h x). { specialize (H 0%Z x eq_refl). now inversion H. }
  cbn. destruct (Rle_dec x 0); [cbn; now rewrite E, Ea|exact E].
Qed.
Lemma trapz_function h x : trapz (map h x) x = trapezoid h x.
Proof. induction x as [|x0 [|x1 x] IH]; [reflexivity|reflexivity|]. cbn [map trapz trapezoid] in *. rewrite IH. unfold Rdiv. ring. Qed.
Lemma trapezoid_ext h h' x : (forall y, In y x -> h y = h' y) -> trapezoid h x = trapezoid h' x.
Proof.
  induction x as [|x0 [|x1 x] IH]; intros H; [reflexivity|reflexivity|].
  change ((x1 - x0) * ((h x0 + h x1) / 2) + trapezoid h (x1 :: x) = (x1 - x0) * ((h' x0 + h' x1) / 2) + trapezoid h' (x1 :: x)).
  rewrite IH by (intros y I; apply H; now right). rewrite (H x0) by (now left). rewrite (H x1) by (right; now left). reflexivity.
Qed.
Lemma filling_samples (g : R -> R -> R -> R -> C) n1 n2 n3 w G : samples4 g n1 n2 n3 w G ->
  get_filling w G = trapezoid (fun x => bz_mean n1 n2 n3 (fun kx ky kz => - 1 / PI * snd (g kx ky kz x))) (not_positive w).
Proof.
  intros S. pose proof (samples4_map (fun g => - 1 / PI * snd g) S) as SA. destruct (mean_k_get SA) as [L V]. unfold get_filling. rewrite occupied_self.
  rewrite (@occupied_values w (fun x => bz_mean n1 n2 n3 (fun kx ky kz => - 1 / PI * snd (g kx ky kz x)))) by assumption. apply trapz_function.
Qed.
