From Coq Require Import String.
From Verif Require Import Base.PyBase Base.PyFacts Base.Arr Spec.BZSpec Model.BrillouinZone.
From Coq Require Import ZifyBool ZifyNat.
Set Implicit Arguments.
Local Open Scope Z_scope.
Ltac Zify.zify_post_hook ::= Z.div_mod_to_equations.


(** ** one-axis inversion *)
Lemma inv_axis_spec A (l : list A) : 0 < zlen l ->
  exists r, inv_axis l = Ok r /\ zlen r = zlen l /\
    forall i, 0 <= i < zlen l -> zget r i = zget l (if i <=? zlen l / 2 then i else zlen l - i).
Proof.
  intros Hn. unfold inv_axis. set (n := zlen l) in *. cbv zeta.
  destruct (@assign_slice_ok _ l (n / 2 + 1) n (rev (slice l 1 (n / 2 + n mod 2)))) as (r & Er & Lr & Gr).
  - fold n. lia.
  - fold n. destruct (Z.eq_dec n 1) as [E|E]; [|lia]. rewrite E. cbn. lia.
  - fold n. lia.
  - fold n. rewrite zlen_rev, zlen_slice_in; fold n; lia.
  - exists r. split; [assumption|]. split; [assumption|]. intros i Hi. rewrite Gr by (fold n; lia).
    destruct (Z.leb_spec i (n / 2)).
    + destruct (Z.leb_spec (n / 2 + 1) i); [lia|]. reflexivity.
    + destruct (Z.leb_spec (n / 2 + 1) i), (Z.ltb_spec i n); try lia. cbn [andb].
      rewrite zget_rev, zlen_slice_in by (fold n; lia). rewrite zget_slice_in by (fold n; lia). f_equal. lia.
Qed.

Definition dims {A} (m : list (list (list A))) nx ny nz := shape3 m nx ny nz.

Lemma zget_shape3 A (m : list (list (list A))) nx ny nz x r : shape3 m nx ny nz -> zget m x = Some r -> shape2 r ny nz.
Proof. intros [_ H] E. apply H. eapply zget_In; eauto. Qed.
Lemma zget_shape2 A (m : list (list A)) ny nz y r : shape2 m ny nz -> zget m y = Some r -> zlen r = nz.
Proof. intros [_ H] E. apply H. eapply zget_In; eauto. Qed.

(** a mesh built row by row *)
Lemma mapM_rows A B (f : A -> res B) l (P : A -> B -> Prop) :
  (forall r, In r l -> exists r', f r = Ok r' /\ P r r') ->
  exists out, mapM f l = Ok out /\ zlen out = zlen l /\
    forall i, 0 <= i < zlen l -> exists r r', zget l i = Some r /\ zget out i = Some r' /\ P r r'.
Proof.
  intros H. destruct (mapM_build f l) as [out E]; [intros x Hx; destruct (H x Hx) as (y & Hy & _); eauto|].
  exists out. split; [assumption|]. destruct (mapM_zget _ _ E) as [L G]. split; [assumption|].
  intros i Hi. destruct (@zget_in_range _ l i Hi) as [r Hr]. destruct (G i r Hr) as (r' & Hr' & Hf).
  exists r, r'. split; [assumption|]. split; [assumption|]. destruct (H r (zget_In _ _ Hr)) as (y & Hy & HP). congruence.
Qed.

Definition refl (n i : Z) : Z := if i <=? n / 2 then i else n - i.
Lemma refl_range n i : 0 <= i < n -> 0 <= refl n i < n. Proof. unfold refl. destruct (Z.leb_spec i (n / 2)); lia. Qed.
Lemma refl_or n i : 0 <= i < n -> refl n i = i \/ refl n i = (- i) mod n.
Proof.
  intros H. unfold refl. destruct (Z.leb_spec i (n / 2)); [now left|right].
  rewrite <- (Z.mod_unique (- i) n (-1) (n - i)); lia.
Qed.
Lemma neg_mod n i : 0 <= i < n -> (- i) mod n = if i =? 0 then 0 else n - i.
Proof.
  intros H. destruct (Z.eqb_spec i 0) as [->|]; [now rewrite Z.mod_0_l by lia|].
  symmetry. apply Z.mod_unique with (q := -1); lia.
Qed.
Lemma refl_neg n i : 0 <= i < n -> refl n ((- i) mod n) = refl n i.
Proof. intros H. rewrite neg_mod by lia. unfold refl. destruct (Z.eqb_spec i 0) as [->|]; [reflexivity|].
  destruct (Z.leb_spec (n - i) (n / 2)), (Z.leb_spec i (n / 2)); lia. Qed.

Lemma inv_sym_0 A (m : list (list (list A))) nx ny nz : 0 < nx -> shape3 m nx ny nz ->
  exists r, inv_sym m 0 = Ok r /\ shape3 r nx ny nz /\
    forall x y z, 0 <= x < nx -> get3 r x y z = get3 m (refl nx x) y z.
Proof.
  intros Hx [Hl Hr]. unfold inv_sym. cbn [Z.eqb]. destruct (@inv_axis_spec _ m ltac:(lia)) as (r & Er & Lr & Gr).
  exists r. split; [assumption|]. rewrite Hl in *. split.
  - split; [assumption|]. intros row Hin. apply In_zget in Hin. destruct Hin as (i & Hi & Hg). rewrite Gr in Hg by lia.
    apply Hr. eapply zget_In; eauto.
  - intros x y z H. unfold get3. now rewrite Gr by lia.
Qed.
Lemma inv_rows A (m : list (list A)) ny nz : 0 < ny -> shape2 m ny nz ->
  exists r, inv_axis m = Ok r /\ shape2 r ny nz /\ forall y z, 0 <= y < ny -> get2 r y z = get2 m (refl ny y) z.
Proof.
  intros Hx [Hl Hr]. destruct (@inv_axis_spec _ m ltac:(lia)) as (r & Er & Lr & Gr).
  exists r. split; [assumption|]. rewrite Hl in *. split.
  - split; [assumption|]. intros row Hin. apply In_zget in Hin. destruct Hin as (i & Hi & Hg). rewrite Gr in Hg by lia.
    apply Hr. eapply zget_In; eauto.
  - intros y z H. unfold get2. now rewrite Gr by lia.
Qed.
Lemma mapM_mesh A (f : list (list A) -> res (list (list A))) (m : list (list (list A))) nx ny nz (g : Z -> Z -> Z * Z) :
  shape3 m nx ny nz ->
  (forall r, shape2 r ny nz -> exists r', f r = Ok r' /\ shape2 r' ny nz /\
     forall y z, 0 <= y < ny -> 0 <= z < nz -> get2 r' y z = get2 r (fst (g y z)) (snd (g y z))) ->
  exists r, mapM f m = Ok r /\ shape3 r nx ny nz /\
    forall x y z, 0 <= x < nx -> 0 <= y < ny -> 0 <= z < nz -> get3 r x y z = get3 m x (fst (g y z)) (snd (g y z)).
Proof.
  intros [Hl Hr] Hf.
  destruct (@mapM_rows _ _ f m (fun r r' => shape2 r' ny nz /\
     forall y z, 0 <= y < ny -> 0 <= z < nz -> get2 r' y z = get2 r (fst (g y z)) (snd (g y z)))) as (out & Eo & Lo & Go).
  { intros r Hin. apply Hf. auto. }
  exists out. split; [assumption|]. rewrite Hl in *. split.
  - split; [assumption|]. intros row Hin. apply In_zget in Hin. destruct Hin as (i & Hi & Hg). rewrite Lo in Hi.
    destruct (Go i Hi) as (r & r' & E1 & E2 & HP & _). congruence.
  - intros x y z H1 H2 H3. unfold get3. destruct (Go x H1) as (r & r' & E1 & E2 & _ & HP). rewrite E1, E2. cbn. now apply HP.
Qed.
Lemma inv_sym_1 A (m : list (list (list A))) nx ny nz : 0 < ny -> shape3 m nx ny nz ->
  exists r, inv_sym m 1 = Ok r /\ shape3 r nx ny nz /\
    forall x y z, 0 <= x < nx -> 0 <= y < ny -> 0 <= z < nz -> get3 r x y z = get3 m x (refl ny y) z.
Proof.
  intros Hy Hs. unfold inv_sym. change (1 =? 0) with false. change (1 =? 1) with true. cbv iota.
  apply (@mapM_mesh _ inv_axis m nx ny nz (fun y z => (refl ny y, z)) Hs).
  intros r Hr. destruct (inv_rows Hy Hr) as (r' & ? & ? & H). exists r'. split; [assumption|]. split; [assumption|]. intros y z Hy' Hz'. cbn. auto.
Qed.
Lemma inv_sym_2 A (m : list (list (list A))) nx ny nz : 0 < nz -> shape3 m nx ny nz ->
  exists r, inv_sym m 2 = Ok r /\ shape3 r nx ny nz /\
    forall x y z, 0 <= x < nx -> 0 <= y < ny -> 0 <= z < nz -> get3 r x y z = get3 m x y (refl nz z).
Proof.
  intros Hz Hs. unfold inv_sym. change (2 =? 0) with false. change (2 =? 1) with false. change (2 =? 2) with true. cbv iota.
  apply (@mapM_mesh _ (mapM inv_axis) m nx ny nz (fun y z => (y, refl nz z)) Hs).
  intros r [Hl Hr].
  destruct (@mapM_rows _ _ inv_axis r (fun s s' => zlen s' = nz /\ forall z, 0 <= z < nz -> zget s' z = zget s (refl nz z))) as (out & Eo & Lo & Go).
  { intros s Hin. destruct (@inv_axis_spec _ s) as (s' & E & L & G); [rewrite (Hr s Hin); lia|]. exists s'. split; [assumption|].
    rewrite (Hr s Hin) in *. split; [assumption|]. exact G. }
  exists out. split; [assumption|]. rewrite Hl in *. split.
  - split; [assumption|]. intros row Hin. apply In_zget in Hin. destruct Hin as (i & Hi & Hg). rewrite Lo in Hi.
    destruct (Go i Hi) as (s & s' & E1 & E2 & HP & _). congruence.
  - intros y z H2 H3. cbn [fst snd]. unfold get2. destruct (Go y H2) as (s & s' & E1 & E2 & _ & HP). rewrite E1, E2. cbn. now apply HP.
Qed.

(** ** x-y exchange *)
Definition mino (a b : option Z) : option Z := match a, b with Some x, Some y => Some (Z.min x y) | _, _ => None end.
Lemma x_y_sym_square m n nz : 0 < n -> shape3 m n n nz ->
  exists r, x_y_sym m = Ok r /\ shape3 r n n nz /\
    forall x y z, 0 <= x < n -> 0 <= y < n -> 0 <= z < nz -> get3 r x y z = mino (get3 m x y z) (get3 m y x z).
Proof.
  intros Hn Hs. pose proof Hs as [Hl Hr].
  assert (Hd : dim1 m = n). { unfold dim1. destruct m as [|r m]; [rewrite zlen_nil in Hl; lia|]. apply (Hr r (or_introl eq_refl)). }
  unfold x_y_sym. rewrite Hl, Hd, Z.eqb_refl. eexists. split; [reflexivity|].
  assert (S2 : shape2 m n n) by (split; [assumption|]; intros r Hin; apply Hr; assumption).
  pose proof (@transpose_shape _ m n n ltac:(lia) S2) as [Tl Tr].
  assert (G1 : forall x, 0 <= x < n -> zget (map2 (map2 (map2 Z.min)) m (transpose n m)) x =
      match zget m x, zget (transpose n m) x with Some a, Some b => Some (map2 (map2 Z.min) a b) | _, _ => None end).
  { intros x Hx. now rewrite zget_map2. }
  assert (GT : forall x y, 0 <= x < n -> 0 <= y < n -> get2 (transpose n m) x y = get2 m y x).
  { intros x y Hx Hy. apply (@get2_transpose _ m n n); assumption. }
  assert (HZ : forall x, 0 <= x < n -> exists a b, zget m x = Some a /\ zget (transpose n m) x = Some b /\ shape2 a n nz /\ shape2 b n nz).
  { intros x Hx. destruct (@zget_in_range _ m x ltac:(lia)) as [a Ha]. destruct (@zget_in_range _ (transpose n m) x ltac:(lia)) as [b Hb].
    exists a, b. repeat split; auto; try (apply (Hr a (zget_In _ _ Ha))); try (apply (Tr b (zget_In _ _ Hb))).
    intros s Hin. apply In_zget in Hin. destruct Hin as (y & Hy & Hg). rewrite (Tr b (zget_In _ _ Hb)) in Hy.
    pose proof (GT x y Hx Hy) as E. unfold get2 in E. rewrite Hb in E. cbn in E. rewrite Hg in E.
    destruct (zget m y) as [c|] eqn:Ec; [|discriminate]. cbn in E. symmetry in E.
    destruct (Hr c (zget_In _ _ Ec)) as [_ Hc]. apply Hc. eapply zget_In; eauto. }
  split.
  - split; [rewrite zlen_map2; lia|]. intros r Hin. apply In_zget in Hin. destruct Hin as (x & Hx & Hg).
    rewrite zlen_map2 in Hx. rewrite G1 in Hg by lia. destruct (HZ x ltac:(lia)) as (a & b & Ha & Hb & [La Ra] & [Lb Rb]).
    rewrite Ha, Hb in Hg. injection Hg as <-. split; [rewrite zlen_map2; lia|].
    intros s Hin. apply In_zget in Hin. destruct Hin as (y & Hy & Hg). rewrite zlen_map2 in Hy. rewrite zget_map2 in Hg.
    destruct (zget a y) as [p|] eqn:Ep; [|discriminate]. destruct (zget b y) as [q|] eqn:Eq; [|discriminate]. injection Hg as <-.
    rewrite zlen_map2, (Ra p (zget_In _ _ Ep)), (Rb q (zget_In _ _ Eq)). lia.
  - intros x y z Hx Hy Hz. unfold get3 at 1. rewrite G1 by lia. destruct (HZ x ltac:(lia)) as (a & b & Ha & Hb & [La Ra] & [Lb Rb]).
    pose proof (GT x y Hx Hy) as E. unfold get2 in E. rewrite Hb in E. cbn [obind] in E.
    rewrite Ha, Hb. cbn [obind]. unfold get2. rewrite zget_map2.
    destruct (@zget_in_range _ a y ltac:(lia)) as [p Hp]. destruct (@zget_in_range _ b y ltac:(lia)) as [q Hq]. rewrite Hp, Hq. cbn [obind].
    rewrite zget_map2. unfold get3 at 1, get2 at 1. rewrite Ha. cbn [obind]. rewrite Hp. cbn [obind].
    rewrite Hq in E. unfold get3, get2. destruct (zget m y) as [c|]; [|discriminate]. cbn [obind] in *. rewrite <- E. cbn [obind].
    unfold mino. reflexivity.
Qed.
Lemma x_y_sym_rect m nx ny nz : 0 < nx -> nx <> ny -> shape3 m nx ny nz -> x_y_sym m = Ok m.
Proof.
  intros Hx Hne [Hl Hr]. unfold x_y_sym.
  assert (Hd : dim1 m = ny). { unfold dim1. destruct m as [|r m]; [rewrite zlen_nil in Hl; lia|]. apply (Hr r (or_introl eq_refl)). }
  rewrite Hl, Hd. destruct (Z.eqb_spec nx ny); [lia|reflexivity].
Qed.

(** ** simultaneous inversion *)
Definition reflxy (nx ny x y : Z) : Z * Z := if (nx / 2 <? x) && (0 <? y) then (nx - x, ny - y) else (x, y).
Lemma x_y_inv_spec A (m : list (list (list A))) nx ny nz : 0 < nx -> 0 < ny -> shape3 m nx ny nz ->
  exists r, x_y_inv m = Ok r /\ shape3 r nx ny nz /\
    forall x y z, 0 <= x < nx -> 0 <= y < ny -> get3 r x y z = get3 m (fst (reflxy nx ny x y)) (snd (reflxy nx ny x y)) z.
Proof.
  intros Hx Hy [Hl Hr]. unfold x_y_inv. rewrite Hl. cbv zeta.
  rewrite zlen_rev, !zlen_slice_in by lia. destruct (Z.eqb_spec (nx - (nx / 2 + 1)) (nx / 2 + nx mod 2 - 1)); [|lia].
  set (target := slice m (nx / 2 + 1) nx). set (source := rev (slice m 1 (nx / 2 + nx mod 2))).
  assert (Lt : zlen target = nx - (nx / 2 + 1)) by (unfold target; rewrite zlen_slice_in; lia).
  assert (Ls : zlen source = nx - (nx / 2 + 1)) by (unfold source; rewrite zlen_rev, zlen_slice_in; lia).
  assert (Gt : forall i, 0 <= i < nx - (nx / 2 + 1) -> zget target i = zget m (nx / 2 + 1 + i)).
  { intros i Hi. unfold target. rewrite zget_slice_in by lia. reflexivity. }
  assert (Gs : forall i, 0 <= i < nx - (nx / 2 + 1) -> zget source i = zget m (nx - (nx / 2 + 1 + i))).
  { intros i Hi. unfold source. rewrite zget_rev, zlen_slice_in by lia. rewrite zget_slice_in by lia. f_equal. lia. }
  destruct (@mapM_rows _ _ (fun ts : list (list A) * list (list A) => assign_slice (fst ts) 1 (zlen (fst ts)) (rev (slice (snd ts) 1 (zlen (snd ts))))) (combine target source)
     (fun ts r => shape2 r ny nz /\ forall y z, 0 <= y < ny -> get2 r y z = if 0 <? y then get2 (snd ts) (ny - y) z else get2 (fst ts) y z)) as (rows & Er & Lr & Gr).
  { intros [t s] Hin. cbn [fst snd]. apply In_zget in Hin. destruct Hin as (i & Hi & Hg). rewrite zlen_combine, Lt, Ls in Hi.
    rewrite zget_combine, Gt, Gs in Hg by lia.
    destruct (zget m (nx / 2 + 1 + i)) as [t'|] eqn:E1; [|discriminate]. destruct (zget m (nx - (nx / 2 + 1 + i))) as [s'|] eqn:E2; [|discriminate].
    injection Hg as -> ->. destruct (Hr t (zget_In _ _ E1)) as [Lt' Rt]. destruct (Hr s (zget_In _ _ E2)) as [Ls' Rs].
    destruct (@assign_slice_ok _ t 1 (zlen t) (rev (slice s 1 (zlen s)))) as (r & Ea & La & Ga); [lia|lia|lia|rewrite zlen_rev, zlen_slice_in; lia|].
    exists r. split; [assumption|]. split.
    - split; [lia|]. intros w Hin. apply In_zget in Hin. destruct Hin as (y & Hyy & Hg). rewrite Ga in Hg by lia.
      destruct ((1 <=? y) && (y <? zlen t)) eqn:Eb.
      + rewrite zget_rev, zlen_slice_in in Hg by lia. rewrite zget_slice_in in Hg by lia. apply Rs. eapply zget_In; eauto.
      + apply Rt. eapply zget_In; eauto.
    - intros y z Hyy. unfold get2. rewrite Ga by lia. destruct (Z.ltb_spec 0 y).
      + destruct (Z.leb_spec 1 y), (Z.ltb_spec y (zlen t)); try lia. cbn [andb].
        rewrite zget_rev, zlen_slice_in by lia. rewrite zget_slice_in by lia. do 2 f_equal. lia.
      + destruct (Z.leb_spec 1 y); [lia|]. reflexivity. }
  rewrite Er. cbn [bind]. rewrite zlen_combine, Lt, Ls in Lr.
  destruct (@assign_slice_ok _ m (nx / 2 + 1) nx rows) as (r & Ea & La & Ga); [lia|lia|lia|lia|].
  exists r. split; [assumption|].
  assert (Grow : forall i, 0 <= i < nx - (nx / 2 + 1) -> exists t s rr, zget m (nx / 2 + 1 + i) = Some t /\ zget m (nx - (nx / 2 + 1 + i)) = Some s /\
       zget rows i = Some rr /\ shape2 rr ny nz /\ forall y z, 0 <= y < ny -> get2 rr y z = if 0 <? y then get2 s (ny - y) z else get2 t y z).
  { intros i Hi. destruct (Gr i) as ([t s] & rr & E1 & E2 & HP); [rewrite zlen_combine; lia|]. rewrite zget_combine, Gt, Gs in E1 by lia.
    destruct (zget m (nx / 2 + 1 + i)) as [t'|] eqn:F1; [|discriminate]. destruct (zget m (nx - (nx / 2 + 1 + i))) as [s'|] eqn:F2; [|discriminate].
    injection E1 as -> ->. exists t, s, rr. repeat split; auto; apply HP. }
  split.
  - split; [lia|]. intros w Hin. apply In_zget in Hin. destruct Hin as (x & Hxx & Hg). rewrite Ga in Hg by lia.
    destruct ((nx / 2 + 1 <=? x) && (x <? nx)) eqn:Eb.
    + destruct (Grow (x - (nx / 2 + 1)) ltac:(lia)) as (t & s & rr & _ & _ & E & HP & _). congruence.
    + apply Hr. eapply zget_In; eauto.
  - intros x y z Hxx Hyy. unfold get3 at 1. rewrite Ga by lia. unfold reflxy.
    destruct (Z.ltb_spec (nx / 2) x).
    + destruct (Z.leb_spec (nx / 2 + 1) x), (Z.ltb_spec x nx); try lia. cbn [andb].
      destruct (Grow (x - (nx / 2 + 1)) ltac:(lia)) as (t & s & rr & E1 & E2 & E & _ & HP). rewrite E. cbn [obind]. rewrite HP by lia.
      replace (nx / 2 + 1 + (x - (nx / 2 + 1))) with x in * by lia.
      destruct (Z.ltb_spec 0 y); cbn [fst snd]; unfold get3; [now rewrite E2|now rewrite E1].
    + destruct (Z.leb_spec (nx / 2 + 1) x); [lia|]. cbn [andb fst snd]. reflexivity.
Qed.

(** ** flattening *)
Lemma zget_concat A (m : list (list A)) a b i j : shape2 m a b -> 0 <= i < a -> 0 <= j < b -> zget (concat m) (i * b + j) = get2 m i j.
Proof.
  intros [Hl Hr]. revert a i Hl. induction m as [|r m IH]; intros a i Hl Hi Hj; [rewrite zlen_nil in Hl; lia|].
  cbn [concat]. rewrite zlen_cons in Hl. pose proof (Hr r (or_introl eq_refl)) as Lr. rewrite zget_app, Lr.
  unfold get2. rewrite zget_cons. destruct (Z.eqb_spec i 0) as [->|Hi0].
  - destruct (Z.ltb_spec (0 * b + j) b); [|lia]. cbn. f_equal.
  - destruct (Z.ltb_spec (i * b + j) b); [nia|].
    replace (i * b + j - b) with ((i - 1) * b + j) by lia. rewrite (IH (fun r' H => Hr r' (or_intror H)) (a - 1)) by lia. reflexivity.
Qed.
Lemma zlen_concat A (m : list (list A)) a b : shape2 m a b -> zlen (concat m) = a * b.
Proof.
  intros [Hl Hr]. revert a Hl. induction m as [|r m IH]; intros a Hl; [rewrite zlen_nil in *; lia|].
  cbn [concat]. rewrite zlen_cons in Hl. rewrite zlen_app, (Hr r (or_introl eq_refl)), (IH (fun r' H => Hr r' (or_intror H)) (a - 1)) by lia. lia.
Qed.
Lemma shape3_flat A (m : list (list (list A))) nx ny nz : shape3 m nx ny nz -> shape2 (map (@concat A) m) nx (ny * nz).
Proof.
  intros [Hl Hr]. split; [now rewrite zlen_map|]. intros r Hin. apply in_map_iff in Hin. destruct Hin as (s & <- & Hin).
  apply zlen_concat. auto.
Qed.
Lemma zlen_flatten3 A (m : list (list (list A))) nx ny nz : shape3 m nx ny nz -> zlen (flatten3 m) = nx * ny * nz.
Proof. intros H. unfold flatten3. rewrite (zlen_concat (shape3_flat H)). lia. Qed.
Lemma zget_flatten3 A (m : list (list (list A))) nx ny nz k : shape3 m nx ny nz -> on_mesh nx ny nz k ->
  zget (flatten3 m) (lin ny nz k) = at3 m k.
Proof.
  intros H. destruct k as [[x y] z]. intros (Hx & Hy & Hz). unfold flatten3, lin, at3.
  replace ((x * ny + y) * nz + z) with (x * (ny * nz) + (y * nz + z)) by lia.
  rewrite (@zget_concat _ _ _ _ x (y * nz + z) (shape3_flat H)) by nia.
  unfold get2, get3. rewrite zget_map. destruct (zget m x) as [r|] eqn:E; [|reflexivity]. cbn [option_map obind].
  apply (@zget_concat _ r ny nz); try lia. destruct H as [_ H]. apply H. eapply zget_In; eauto.
Qed.
Lemma lin_range nx ny nz k : on_mesh nx ny nz k -> 0 <= lin ny nz k < nx * ny * nz.
Proof. destruct k as [[x y] z]. intros (Hx & Hy & Hz). unfold lin.
  assert (H1 : 0 <= x * ny + y <= nx * ny - 1) by nia.
  assert (H2 : (x * ny + y) * nz <= (nx * ny - 1) * nz) by (apply Z.mul_le_mono_nonneg_r; lia).
  assert (H3 : 0 <= (x * ny + y) * nz) by (apply Z.mul_nonneg_nonneg; lia). lia.
Qed.
Lemma lin_surj nx ny nz i : 0 < ny -> 0 < nz -> 0 <= i < nx * ny * nz -> exists k, on_mesh nx ny nz k /\ lin ny nz k = i.
Proof.
  intros Hy Hz Hi. exists (i / nz / ny, (i / nz) mod ny, i mod nz). unfold on_mesh, lin.
  pose proof (Z.div_mod i nz ltac:(lia)). pose proof (Z.mod_pos_bound i nz ltac:(lia)).
  pose proof (Z.div_mod (i / nz) ny ltac:(lia)). pose proof (Z.mod_pos_bound (i / nz) ny ltac:(lia)).
  assert (0 <= i / nz) by (apply Z.div_pos; lia). assert (i / nz < nx * ny) by (apply Z.div_lt_upper_bound; lia).
  assert (0 <= i / nz / ny) by (apply Z.div_pos; lia). assert (i / nz / ny < nx) by (apply Z.div_lt_upper_bound; lia).
  split; [lia|]. nia.
Qed.
Lemma lin_inj nx ny nz k k' : on_mesh nx ny nz k -> on_mesh nx ny nz k' -> lin ny nz k = lin ny nz k' -> k = k'.
Proof.
  destruct k as [[x y] z], k' as [[x' y'] z']. intros (Hx & Hy & Hz) (Hx' & Hy' & Hz') H. unfold lin in H.
  assert (E1 : x * ny + y = x' * ny + y' /\ z = z') by (apply (Z.div_mod_unique nz); lia).
  destruct E1 as [E1 ->]. assert (E2 : x = x' /\ y = y') by (apply (Z.div_mod_unique ny); lia). destruct E2 as [-> ->]. reflexivity.
Qed.
Lemma mesh_ext A (m m' : list (list (list A))) nx ny nz : shape3 m nx ny nz -> shape3 m' nx ny nz ->
  (forall k, on_mesh nx ny nz k -> at3 m k = at3 m' k) -> m = m'.
Proof.
  intros [Hl Hr] [Hl' Hr'] H. apply zget_ext; [lia|]. intros x Hx.
  destruct (@zget_in_range _ m x ltac:(lia)) as [r Er]. destruct (@zget_in_range _ m' x ltac:(lia)) as [r' Er']. rewrite Er, Er'. f_equal.
  apply (@shape2_ext _ r r' ny nz); [apply Hr; eapply zget_In; eauto|apply Hr'; eapply zget_In; eauto|].
  intros y z Hy Hz. specialize (H (x, y, z)). unfold at3, get3, on_mesh in H. rewrite Er, Er' in H. cbn [obind] in H. apply H. lia.
Qed.
Lemma reshape3_spec A nx ny nz (l : list A) : 0 < nx -> 0 < ny -> 0 < nz -> zlen l = nx * ny * nz ->
  exists m, reshape3 nx ny nz l = Ok m /\ shape3 m nx ny nz /\ forall k, on_mesh nx ny nz k -> at3 m k = zget l (lin ny nz k).
Proof.
  intros Hx Hy Hz Hl. unfold reshape3. rewrite Hl, Z.eqb_refl. eexists. split; [reflexivity|].
  assert (Lr : forall n, 0 < n -> zlen (range n) = n) by (intros; unfold range; rewrite zlen_arange; lia).
  assert (Gr : forall n i, 0 <= i < n -> zget (range n) i = Some i) by (intros; unfold range; rewrite zget_arange by lia; f_equal; lia).
  split.
  - split; [rewrite zlen_map, Lr; lia|]. intros r Hin. apply in_map_iff in Hin. destruct Hin as (x & <- & Hin). apply In_arange in Hin.
    split; [rewrite zlen_map, Lr; lia|]. intros s Hs. apply in_map_iff in Hs. destruct Hs as (y & <- & Hy'). apply In_arange in Hy'.
    pose proof (@lin_range nx ny nz (x, y, 0)) as B0. pose proof (@lin_range nx ny nz (x, y, nz - 1)) as B1. unfold lin, on_mesh in B0, B1.
    rewrite zlen_slice_in; lia.
  - intros [[x y] z] (H1 & H2 & H3). unfold at3, get3, get2, lin. rewrite zget_map, Gr by lia. cbn [option_map obind].
    rewrite zget_map, Gr by lia. cbn [option_map obind].
    pose proof (@lin_range nx ny nz (x, y, 0)) as B0. pose proof (@lin_range nx ny nz (x, y, nz - 1)) as B1. unfold lin, on_mesh in B0, B1.
    rewrite zget_slice_in by lia. reflexivity.
Qed.
Lemma flatten_reshape A nx ny nz (l : list A) m : 0 < nx -> 0 < ny -> 0 < nz -> reshape3 nx ny nz l = Ok m -> flatten3 m = l.
Proof.
  intros Hx Hy Hz H. assert (Hl : zlen l = nx * ny * nz) by (unfold reshape3 in H; destruct (Z.eqb_spec (zlen l) (nx * ny * nz)); [assumption|discriminate]).
  destruct (reshape3_spec l Hx Hy Hz Hl) as (m' & E & S & G). rewrite E in H. injection H as <-.
  apply zget_ext; [rewrite (zlen_flatten3 S); lia|]. rewrite (zlen_flatten3 S). intros i Hi.
  destruct (@lin_surj nx ny nz i ltac:(lia) ltac:(lia) Hi) as (k & Hk & <-). rewrite (zget_flatten3 _ S Hk). now apply G.
Qed.
Lemma reshape_flatten A nx ny nz (m : list (list (list A))) : 0 < nx -> 0 < ny -> 0 < nz -> shape3 m nx ny nz ->
  reshape3 nx ny nz (flatten3 m) = Ok m.
Proof.
  intros Hx Hy Hz S. destruct (reshape3_spec (flatten3 m) Hx Hy Hz (zlen_flatten3 S)) as (m' & E & S' & G). rewrite E. f_equal.
  apply (mesh_ext S' S). intros k Hk. rewrite G by assumption. now apply (zget_flatten3 _ S).
Qed.

(** ** one symmetry step *)
Lemma point_op_mesh nx ny nz sym k : on_mesh nx ny nz k -> on_mesh nx ny nz (point_op nx ny nz sym k).
Proof.
  destruct k as [[x y] z]. intros (Hx & Hy & Hz). unfold point_op.
  pose proof (Z.mod_pos_bound (- x) nx). pose proof (Z.mod_pos_bound (- y) ny). pose proof (Z.mod_pos_bound (- z) nz).
  destruct (String.eqb sym "x-inv"); [unfold on_mesh; lia|]. destruct (String.eqb sym "y-inv"); [unfold on_mesh; lia|].
  destruct (String.eqb sym "z-inv"); [unfold on_mesh; lia|].
  destruct (String.eqb sym "x-y-sym"); [destruct (Z.eqb_spec nx ny); unfold on_mesh; lia|].
  destruct (String.eqb sym "x-y-inv"); unfold on_mesh; lia.
Qed.
Lemma at3_some A (m : list (list (list A))) nx ny nz k : shape3 m nx ny nz -> on_mesh nx ny nz k -> exists a, at3 m k = Some a.
Proof. intros S. destruct k as [[x y] z]. intros (H1 & H2 & H3). apply (get3_range S); lia. Qed.

Lemma step_spec m nx ny nz sym : 0 < nx -> 0 < ny -> 0 < nz -> shape3 m nx ny nz -> known sym ->
  exists m', apply_symmetry m sym = Ok m' /\ shape3 m' nx ny nz /\
    forall k, on_mesh nx ny nz k -> at3 m' k = at3 m k \/ at3 m' k = at3 m (point_op nx ny nz sym k).
Proof.
  intros Hx Hy Hz S Hk. unfold known in Hk. cbn in Hk.
  destruct Hk as [<-|[<-|[<-|[<-|[<-|[]]]]]]; unfold apply_symmetry; cbn [negb existsb String.eqb Ascii.eqb KNOWN_SYMMETRIES orb Bool.eqb].
  - destruct (inv_sym_0 Hx S) as (r & E & Sr & G). exists r. split; [assumption|]. split; [assumption|].
    intros [[x y] z] (H1 & H2 & H3). unfold at3, point_op. cbn [String.eqb Ascii.eqb Bool.eqb]. rewrite G by lia.
    destruct (refl_or H1) as [-> | ->]; auto.
  - destruct (inv_sym_1 Hy S) as (r & E & Sr & G). exists r. split; [assumption|]. split; [assumption|].
    intros [[x y] z] (H1 & H2 & H3). unfold at3, point_op. cbn [String.eqb Ascii.eqb Bool.eqb]. rewrite G by lia.
    destruct (refl_or H2) as [-> | ->]; auto.
  - destruct (inv_sym_2 Hz S) as (r & E & Sr & G). exists r. split; [assumption|]. split; [assumption|].
    intros [[x y] z] (H1 & H2 & H3). unfold at3, point_op. cbn [String.eqb Ascii.eqb Bool.eqb]. rewrite G by lia.
    destruct (refl_or H3) as [-> | ->]; auto.
  - destruct (Z.eq_dec nx ny) as [<-|Hne].
    + destruct (x_y_sym_square Hx S) as (r & E & Sr & G). exists r. split; [assumption|]. split; [assumption|].
      intros [[x y] z] (H1 & H2 & H3). unfold at3, point_op. cbn [String.eqb Ascii.eqb Bool.eqb]. rewrite Z.eqb_refl. rewrite G by lia.
      destruct (@get3_range _ m nx nx nz x y z S ltac:(lia) ltac:(lia) ltac:(lia)) as [a Ea].
      destruct (@get3_range _ m nx nx nz y x z S ltac:(lia) ltac:(lia) ltac:(lia)) as [b Eb]. rewrite Ea, Eb. cbn.
      destruct (Z.min_dec a b) as [-> | ->]; auto.
    + exists m. split; [now apply (x_y_sym_rect Hx Hne S)|]. split; [assumption|]. intros; now left.
  - destruct (x_y_inv_spec Hx Hy S) as (r & E & Sr & G). exists r. split; [assumption|]. split; [assumption|].
    intros [[x y] z] (H1 & H2 & H3). unfold at3, point_op. cbn [String.eqb Ascii.eqb Bool.eqb]. rewrite G by lia. unfold reflxy.
    destruct ((nx / 2 <? x) && (0 <? y)) eqn:Eb; [right|now left]. cbn [fst snd].
    rewrite !neg_mod by lia. destruct (Z.eqb_spec x 0), (Z.eqb_spec y 0); try lia; reflexivity.
Qed.

(** ** the label invariant *)
Definition labels_ok nx ny nz syms (m : list (list (list Z))) : Prop :=
  forall k, on_mesh nx ny nz k -> exists k', on_mesh nx ny nz k' /\ equiv nx ny nz syms k k' /\ at3 m k = Some (lin ny nz k').
Lemma fold_labels nx ny nz syms : 0 < nx -> 0 < ny -> 0 < nz -> forall todo m,
  (forall s, In s todo -> In s syms) -> Forall known todo -> shape3 m nx ny nz -> labels_ok nx ny nz syms m ->
  exists m', apply_symmetries m todo = Ok m' /\ shape3 m' nx ny nz /\ labels_ok nx ny nz syms m'.
Proof.
  intros Hx Hy Hz. unfold apply_symmetries. induction todo as [|s todo IH]; intros m Hin Hk S L; cbn [foldM]; [eauto|].
  inversion Hk; subst. destruct (@step_spec m nx ny nz s Hx Hy Hz S ltac:(assumption)) as (m1 & E & S1 & G). rewrite E. cbn [bind].
  apply IH; auto; [intros; apply Hin; now right|]. intros k Hkm. destruct (G k Hkm) as [E1|E1]; rewrite E1; [now apply L|].
  destruct (L _ (point_op_mesh nx ny nz s k Hkm)) as (k' & Hk' & He & Ha). exists k'. split; [assumption|]. split; [|assumption].
  eapply eq_trans_pt; [apply eq_op; [|exact Hkm]|exact He]. apply Hin. now left.
Qed.
Lemma make_kgrid_spec nx ny nz syms : 0 < nx -> 0 < ny -> 0 < nz -> Forall known syms ->
  exists g, make_kgrid nx ny nz syms = Ok g /\ nkx g = nx /\ nky g = ny /\ nkz g = nz /\
    shape3 (fbz2irrk g) nx ny nz /\ labels_ok nx ny nz syms (fbz2irrk g) /\
    irrk_ind g = uq_index (np_unique (flatten3 (fbz2irrk g))) /\ irrk_inv g = uq_inverse (np_unique (flatten3 (fbz2irrk g))) /\
    irrk_count g = uq_counts (np_unique (flatten3 (fbz2irrk g))).
Proof.
  intros Hx Hy Hz Hk. unfold make_kgrid.
  destruct (@reshape3_spec _ nx ny nz (arange 0 (nx * ny * nz)) Hx Hy Hz ltac:(rewrite zlen_arange; nia)) as (m0 & E0 & S0 & G0).
  rewrite E0. cbn [bind].
  destruct (@fold_labels nx ny nz syms Hx Hy Hz syms m0) as (m & E & S & L); auto.
  { intros k Hkm. exists k. split; [assumption|]. split; [constructor|]. rewrite G0 by assumption.
    pose proof (@lin_range nx ny nz k Hkm). rewrite zget_arange by lia. f_equal; lia. }
  rewrite E. cbn [bind]. eexists. split; [reflexivity|]. cbn [fbz2irrk nkx nky nkz irrk_ind irrk_inv irrk_count]. do 3 (split; [reflexivity|]). split; [exact S|]. split; [exact L|]. repeat split; reflexivity.
Qed.

(** ** np.unique *)
Section Unique.
Variable L : list Z.
Let u := uniq L.
Lemma uq_ind_get j v : zget u j = Some v -> zget (uq_index (np_unique L)) j = Some (first_index v L).
Proof. intros H. cbn. rewrite zget_map. fold u. now rewrite H. Qed.
Lemma uq_inv_get i x : zget L i = Some x -> zget (uq_inverse (np_unique L)) i = Some (first_index x u) /\ zget u (first_index x u) = Some x /\ 0 <= first_index x u < zlen u.
Proof.
  intros H. cbn. rewrite zget_map, H. split; [reflexivity|]. assert (Hin : In x u) by (apply In_uniq; eapply zget_In; eauto).
  destruct (first_index_In _ _ Hin). split; assumption.
Qed.
Lemma zlen_uq_ind : zlen (uq_index (np_unique L)) = zlen u. Proof. cbn. now rewrite zlen_map. Qed.
Lemma zlen_uq_inv : zlen (uq_inverse (np_unique L)) = zlen L. Proof. cbn. now rewrite zlen_map. Qed.
Lemma zlen_uq_counts : zlen (uq_counts (np_unique L)) = zlen u. Proof. cbn. now rewrite zlen_map. Qed.
Lemma ind_range j i : zget (uq_index (np_unique L)) j = Some i -> 0 <= i < zlen L /\ exists v, zget u j = Some v /\ zget L i = Some v.
Proof.
  cbn. rewrite zget_map. fold u. destruct (zget u j) as [v|] eqn:E; [|discriminate]. cbn. intros H; injection H as <-.
  assert (Hin : In v L) by (apply In_uniq; fold u; eapply zget_In; eauto). destruct (first_index_In _ _ Hin). eauto.
Qed.
Lemma inv_of_ind j i : zget (uq_index (np_unique L)) j = Some i -> zget (uq_inverse (np_unique L)) i = Some j.
Proof.
  intros H. destruct (ind_range _ H) as (Hi & v & Hv & HL). destruct (uq_inv_get _ HL) as (H1 & _). rewrite H1. f_equal.
  apply first_index_NoDup; [apply NoDup_uniq|assumption].
Qed.
End Unique.

Lemma take_get A (l : list A) idx r : take l idx = Ok r -> zlen r = zlen idx /\ forall j i, zget idx j = Some i -> 0 <= i -> zget r j = zget l i.
Proof.
  unfold take. intros H. destruct (mapM_zget _ _ H) as [Hl Hg]. split; [assumption|]. intros j i Hj Hi.
  destruct (Hg j i Hj) as (b & Hb & Hp). rewrite Hb. unfold py_get in Hp. destruct (Z.ltb_spec i 0); [lia|].
  destruct (zget l i); [congruence|discriminate].
Qed.
Lemma take_total A (l : list A) idx : (forall i, In i idx -> 0 <= i < zlen l) -> exists r, take l idx = Ok r.
Proof. intros H. apply mapM_build. intros i Hi. destruct (@py_get_total _ l i (H i Hi)) as (a & Ha & _). eauto. Qed.

(** ** representatives *)
Lemma rep_equiv nx ny nz syms g : 0 < nx -> 0 < ny -> 0 < nz -> Forall known syms -> make_kgrid nx ny nz syms = Ok g ->
  forall k, on_mesh nx ny nz k -> exists j k0, zget (irrk_inv g) (lin ny nz k) = Some j /\ 0 <= j < nk_irr g /\
     zget (irrk_ind g) j = Some (lin ny nz k0) /\ on_mesh nx ny nz k0 /\ equiv nx ny nz syms k k0.
Proof.
  intros Hx Hy Hz Hk E k Hkm. destruct (make_kgrid_spec Hx Hy Hz Hk) as (g' & E' & Ex & Ey & Ez & S & Lab & Ei & Ev & _).
  rewrite E in E'. injection E' as <-. unfold nk_irr. rewrite Ei, Ev. set (L := flatten3 (fbz2irrk g)) in *.
  destruct (Lab k Hkm) as (k' & Hk' & He & Ha). rewrite <- (zget_flatten3 _ S Hkm) in Ha. fold L in Ha.
  destruct (uq_inv_get _ _ Ha) as (H1 & H2 & H3). exists (first_index (lin ny nz k') (uniq L)).
  assert (Hi : zget (uq_index (np_unique L)) (first_index (lin ny nz k') (uniq L)) = Some (first_index (lin ny nz k') L)) by (apply uq_ind_get; assumption).
  destruct (ind_range _ _ Hi) as (Hr & v & Hv & HL). assert (v = lin ny nz k') by congruence. subst v.
  assert (Hlen : zlen L = nx * ny * nz) by (apply zlen_flatten3; assumption).
  destruct (@lin_surj nx ny nz (first_index (lin ny nz k') L) Hy Hz ltac:(lia)) as (k0 & Hk0 & El).
  exists k0. split; [assumption|]. split; [rewrite zlen_uq_ind; assumption|]. split; [now rewrite El|]. split; [assumption|].
  destruct (Lab k0 Hk0) as (k'' & Hk'' & He'' & Ha''). rewrite <- (zget_flatten3 _ S Hk0) in Ha''. fold L in Ha''. rewrite El, HL in Ha''.
  injection Ha'' as Ea. assert (k' = k'') by (eapply lin_inj; eauto). subst k''.
  eapply eq_trans_pt; [exact He|]. now apply eq_sym_pt.
Qed.
Lemma equiv_fun A (f : list (list (list A))) nx ny nz syms :
  (forall s k, In s syms -> on_mesh nx ny nz k -> at3 f (point_op nx ny nz s k) = at3 f k) ->
  forall k k', equiv nx ny nz syms k k' -> at3 f k = at3 f k'.
Proof. intros H k k' E. induction E; [reflexivity|symmetry; now apply H|congruence|congruence]. Qed.

Lemma zlen_inv nx ny nz syms g : 0 < nx -> 0 < ny -> 0 < nz -> Forall known syms -> make_kgrid nx ny nz syms = Ok g -> zlen (irrk_inv g) = nx * ny * nz.
Proof.
  intros Hx Hy Hz Hk E. destruct (make_kgrid_spec Hx Hy Hz Hk) as (g' & E' & Ex & Ey & Ez & S & Lab & Ei & Ev & _).
  rewrite E in E'. injection E' as <-. rewrite Ev, zlen_uq_inv. apply (zlen_flatten3 S).
Qed.
Lemma ind_on_mesh nx ny nz syms g : 0 < nx -> 0 < ny -> 0 < nz -> Forall known syms -> make_kgrid nx ny nz syms = Ok g ->
  forall j i, zget (irrk_ind g) j = Some i -> 0 <= i < nx * ny * nz /\ zget (irrk_inv g) i = Some j.
Proof.
  intros Hx Hy Hz Hk E j i. destruct (make_kgrid_spec Hx Hy Hz Hk) as (g' & E' & Ex & Ey & Ez & S & Lab & Ei & Ev & _).
  rewrite E in E'. injection E' as <-. rewrite Ei, Ev. intros H. destruct (ind_range _ _ H) as (Hr & _).
  rewrite (zlen_flatten3 S) in Hr. split; [assumption|]. now apply inv_of_ind.
Qed.
Lemma grid_dims nx ny nz syms g : 0 < nx -> 0 < ny -> 0 < nz -> Forall known syms -> make_kgrid nx ny nz syms = Ok g -> nkx g = nx /\ nky g = ny /\ nkz g = nz.
Proof.
  intros Hx Hy Hz Hk E. destruct (make_kgrid_spec Hx Hy Hz Hk) as (g' & E' & Ex & Ey & Ez & _).
  rewrite E in E'. injection E' as <-. auto.
Qed.

Lemma unfold_spec A nx ny nz syms g (irr : list A) : 0 < nx -> 0 < ny -> 0 < nz -> Forall known syms -> make_kgrid nx ny nz syms = Ok g ->
  zlen irr = nk_irr g ->
  exists f, map_irrk2fbz g irr = Ok f /\ shape3 f nx ny nz /\
    forall k j, on_mesh nx ny nz k -> zget (irrk_inv g) (lin ny nz k) = Some j -> at3 f k = zget irr j.
Proof.
  intros Hx Hy Hz Hk E Hl. destruct (grid_dims Hx Hy Hz Hk E) as (Ex & Ey & Ez). unfold map_irrk2fbz. rewrite Ex, Ey, Ez.
  pose proof (zlen_inv Hx Hy Hz Hk E) as Li.
  assert (Hj : forall i, In i (irrk_inv g) -> 0 <= i < zlen irr).
  { intros j Hin. apply In_zget in Hin. destruct Hin as (i & Hi & Hg). rewrite Li in Hi.
    destruct (@lin_surj nx ny nz i Hy Hz Hi) as (k & Hkm & <-).
    destruct (rep_equiv Hx Hy Hz Hk E k Hkm) as (j' & k0 & H1 & H2 & _). rewrite Hl. congruence. }
  destruct (@take_total _ irr (irrk_inv g) Hj) as (l & El). rewrite El. cbn [bind]. destruct (take_get _ _ El) as [Ll Gl].
  destruct (@reshape3_spec _ nx ny nz l Hx Hy Hz ltac:(lia)) as (f & Ef & Sf & Gf). exists f. split; [assumption|]. split; [assumption|].
  intros k j Hkm Hjk. rewrite Gf by assumption. apply Gl; [assumption|]. apply (Hj j). eapply zget_In; eauto.
Qed.

Theorem fold_unfold A nx ny nz syms g (f : list (list (list A))) : 0 < nx -> 0 < ny -> 0 < nz -> Forall known syms ->
  make_kgrid nx ny nz syms = Ok g -> shape3 f nx ny nz ->
  (forall s k, In s syms -> on_mesh nx ny nz k -> at3 f (point_op nx ny nz s k) = at3 f k) ->
  exists irr, map_fbz2irrk g f = Ok irr /\ zlen irr = nk_irr g /\ map_irrk2fbz g irr = Ok f.
Proof.
  intros Hx Hy Hz Hk E Sf Hinv. unfold map_fbz2irrk.
  destruct (@take_total _ (flatten3 f) (irrk_ind g)) as (irr & Ei).
  { intros i Hin. apply In_zget in Hin. destruct Hin as (j & Hj & Hg). rewrite (zlen_flatten3 Sf). apply (ind_on_mesh Hx Hy Hz Hk E j Hg). }
  exists irr. split; [assumption|]. destruct (take_get _ _ Ei) as [Li Gi]. split; [assumption|].
  destruct (unfold_spec irr Hx Hy Hz Hk E Li) as (f' & Ef & Sf' & Gf). rewrite Ef. f_equal.
  apply (mesh_ext Sf' Sf). intros k Hkm. destruct (rep_equiv Hx Hy Hz Hk E k Hkm) as (j & k0 & H1 & H2 & H3 & H4 & H5).
  rewrite (Gf k j Hkm H1). destruct (lin_range nx ny nz k0 H4) as [B _]. rewrite (Gi j _ H3 B), (zget_flatten3 _ Sf H4). symmetry.
  eapply equiv_fun; eauto.
Qed.
Theorem unfold_fold A nx ny nz syms g (irr : list A) : 0 < nx -> 0 < ny -> 0 < nz -> Forall known syms ->
  make_kgrid nx ny nz syms = Ok g -> zlen irr = nk_irr g ->
  exists f, map_irrk2fbz g irr = Ok f /\ shape3 f nx ny nz /\ map_fbz2irrk g f = Ok irr.
Proof.
  intros Hx Hy Hz Hk E Hl. destruct (unfold_spec irr Hx Hy Hz Hk E Hl) as (f & Ef & Sf & Gf). exists f. split; [assumption|]. split; [assumption|].
  unfold map_fbz2irrk. destruct (@take_total _ (flatten3 f) (irrk_ind g)) as (irr' & Ei).
  { intros i Hin. apply In_zget in Hin. destruct Hin as (j & Hj & Hg). rewrite (zlen_flatten3 Sf). apply (ind_on_mesh Hx Hy Hz Hk E j Hg). }
  rewrite Ei. f_equal. destruct (take_get _ _ Ei) as [Li Gi]. apply zget_ext; [unfold nk_irr in Hl; lia|].
  intros j Hj. destruct (@zget_in_range _ (irrk_ind g) j ltac:(lia)) as (i & Hi).
  destruct (ind_on_mesh Hx Hy Hz Hk E j Hi) as [Hr Hv]. rewrite (Gi j i Hi) by lia.
  destruct (@lin_surj nx ny nz i Hy Hz Hr) as (k & Hkm & <-). rewrite (zget_flatten3 _ Sf Hkm). now apply Gf.
Qed.

(** ** completeness of the labels for the predefined lists *)
Lemma refl_idem n i : 0 <= i < n -> refl n (refl n i) = refl n i.
Proof. intros H. unfold refl. destruct (Z.leb_spec i (n / 2)); destruct (Z.leb_spec (n - i) (n / 2)); try reflexivity; try lia; destruct (Z.leb_spec i (n / 2)); lia. Qed.
Definition has (s : string) (l : list string) : bool := existsb (String.eqb s) l.
Definition rb (b : bool) n i := if b then refl n i else i.
Definition inv_point nx ny nz (l : list string) (k : point) : point :=
  let '(x, y, z) := k in (rb (has "x-inv" l) nx x, rb (has "y-inv" l) ny y, rb (has "z-inv" l) nz z).
Lemma inversion_labels_gen nx ny nz : 0 < nx -> 0 < ny -> 0 < nz -> forall todo m bx by_ bz,
  Forall inversion_name todo -> shape3 m nx ny nz ->
  (forall x y z, on_mesh nx ny nz (x,y,z) -> at3 m (x,y,z) = Some (lin ny nz (rb bx nx x, rb by_ ny y, rb bz nz z))) ->
  exists m', apply_symmetries m todo = Ok m' /\ shape3 m' nx ny nz /\
   (forall x y z, on_mesh nx ny nz (x,y,z) -> at3 m' (x,y,z) =
      Some (lin ny nz (rb (bx || has "x-inv" todo) nx x, rb (by_ || has "y-inv" todo) ny y, rb (bz || has "z-inv" todo) nz z))).
Proof.
  intros Hx Hy Hz. unfold apply_symmetries. induction todo as [|s todo IH]; intros m bx by_ bz Hf S G; cbn [foldM].
  - exists m. cbn. rewrite !orb_false_r. auto.
  - inversion Hf as [|? ? Hs Hf']; subst. unfold inversion_name in Hs. cbn in Hs. destruct Hs as [<-|[<-|[<-|[]]]];
    unfold apply_symmetry; cbn [negb existsb String.eqb Ascii.eqb KNOWN_SYMMETRIES orb Bool.eqb].
    + destruct (inv_sym_0 Hx S) as (r & E & Sr & Gr). rewrite E. cbn [bind].
      destruct (IH r true by_ bz Hf' Sr) as (m' & E' & S' & G').
      { intros x y z (H1 & H2 & H3). unfold at3. rewrite Gr by lia. pose proof (refl_range H1).
        specialize (G (refl nx x) y z). unfold at3 in G. rewrite G by (unfold on_mesh; lia). unfold rb. destruct bx; [now rewrite refl_idem by lia|reflexivity]. }
      exists m'. split; [assumption|]. split; [assumption|]. intros x y z H. rewrite G' by assumption. unfold has. cbn [existsb String.eqb Ascii.eqb Bool.eqb orb]. now rewrite orb_true_r.
    + destruct (inv_sym_1 Hy S) as (r & E & Sr & Gr). rewrite E. cbn [bind].
      destruct (IH r bx true bz Hf' Sr) as (m' & E' & S' & G').
      { intros x y z (H1 & H2 & H3). unfold at3. rewrite Gr by lia. pose proof (refl_range H2).
        specialize (G x (refl ny y) z). unfold at3 in G. rewrite G by (unfold on_mesh; lia). unfold rb. destruct by_; [now rewrite refl_idem by lia|reflexivity]. }
      exists m'. split; [assumption|]. split; [assumption|]. intros x y z H. rewrite G' by assumption. unfold has. cbn [existsb String.eqb Ascii.eqb Bool.eqb orb]. now rewrite orb_true_r.
    + destruct (inv_sym_2 Hz S) as (r & E & Sr & Gr). rewrite E. cbn [bind].
      destruct (IH r bx by_ true Hf' Sr) as (m' & E' & S' & G').
      { intros x y z (H1 & H2 & H3). unfold at3. rewrite Gr by lia. pose proof (refl_range H3).
        specialize (G x y (refl nz z)). unfold at3 in G. rewrite G by (unfold on_mesh; lia). unfold rb. destruct bz; [now rewrite refl_idem by lia|reflexivity]. }
      exists m'. split; [assumption|]. split; [assumption|]. intros x y z H. rewrite G' by assumption. unfold has. cbn [existsb String.eqb Ascii.eqb Bool.eqb orb]. now rewrite orb_true_r.
Qed.
Lemma foldM_app S A (f : S -> A -> res S) l1 l2 s s1 : foldM f l1 s = Ok s1 -> foldM f (l1 ++ l2) s = foldM f l2 s1.
Proof.
  revert s. induction l1 as [|x l1 IH]; intros s; cbn [foldM app]; [intros H; now injection H as ->|].
  destruct (f s x); cbn [bind]; [apply IH|discriminate].
Qed.

(** a list the labels of which are complete: inversions, then optionally the exchange, which needs
    the x and y inversions to occur together *)
Lemma has_In s l : has s l = true <-> In s l.
Proof.
  unfold has. rewrite existsb_exists. split; [intros (x & Hx & E); apply String.eqb_eq in E; now subst|].
  intros H. exists s. split; [assumption|apply String.eqb_refl].
Qed.
Lemma standard_known syms : standard_list syms -> Forall known syms.
Proof.
  intros (invs & Hi & H). assert (Hk : Forall known invs).
  { eapply Forall_impl; [|exact Hi]. intros s Hs. unfold inversion_name in Hs. unfold known. cbn in *. tauto. }
  destruct H as [->|[-> _]]; [assumption|]. apply Forall_app. split; [assumption|]. constructor; [unfold known; cbn; tauto|constructor].
Qed.
Lemma rb_neg b n i : 0 <= i < n -> b = true -> rb b n ((- i) mod n) = rb b n i.
Proof. intros H ->. unfold rb. now apply refl_neg. Qed.

Lemma labels_invariant nx ny nz syms g : 0 < nx -> 0 < ny -> 0 < nz -> standard_list syms -> make_kgrid nx ny nz syms = Ok g ->
  forall s k, In s syms -> on_mesh nx ny nz k -> at3 (fbz2irrk g) (point_op nx ny nz s k) = at3 (fbz2irrk g) k.
Proof.
  intros Hx Hy Hz (invs & Hi & Hs) E. unfold make_kgrid in E.
  destruct (@reshape3_spec _ nx ny nz (arange 0 (nx * ny * nz)) Hx Hy Hz ltac:(rewrite zlen_arange; nia)) as (m0 & E0 & S0 & G0).
  rewrite E0 in E. cbn [bind] in E.
  destruct (@inversion_labels_gen nx ny nz Hx Hy Hz invs m0 false false false Hi S0) as (m1 & E1 & S1 & G1).
  { intros x y z H. rewrite G0 by assumption. pose proof (lin_range _ _ _ _ H). rewrite zget_arange by lia. f_equal; lia. }
  cbn [orb] in G1.
  assert (Hinv : forall s k, In s invs -> on_mesh nx ny nz k -> at3 m1 (point_op nx ny nz s k) = at3 m1 k).
  { intros s [[x y] z] Hin Hm. pose proof (point_op_mesh nx ny nz s (x,y,z) Hm) as Hm'. destruct Hm as (H1 & H2 & H3).
    rewrite Forall_forall in Hi. pose proof (Hi s Hin) as Hn. unfold inversion_name in Hn. cbn in Hn.
    apply has_In in Hin. destruct Hn as [<-|[<-|[<-|[]]]]; unfold point_op in *; cbn [String.eqb Ascii.eqb Bool.eqb] in *;
      rewrite !G1 by (assumption || (unfold on_mesh; lia)); rewrite rb_neg by assumption; reflexivity. }
  destruct Hs as [->|[-> Hxy]].
  - rewrite E1 in E. cbn [bind] in E. injection E as <-. cbn [fbz2irrk]. exact Hinv.
  - unfold apply_symmetries in *. rewrite (@foldM_app _ _ _ _ _ _ _ E1) in E. cbn [foldM] in E.
    unfold apply_symmetry in E. cbn [negb existsb String.eqb Ascii.eqb KNOWN_SYMMETRIES orb Bool.eqb] in E.
    destruct (Z.eq_dec nx ny) as [<-|Hne].
    + destruct (x_y_sym_square Hx S1) as (r & Er & Sr & Gr). rewrite Er in E. cbn [bind] in E. injection E as <-. cbn [fbz2irrk].
      set (b := has "x-inv" invs) in *.
      assert (Hb : has "y-inv" invs = b).
      { unfold b. destruct (has "x-inv" invs) eqn:Eb.
        - apply has_In. apply Hxy. now apply has_In.
        - destruct (has "y-inv" invs) eqn:Ec; [|reflexivity]. apply has_In in Ec. apply Hxy in Ec. apply has_In in Ec. congruence. }
      rewrite Hb in G1.
      assert (G : forall x y z, on_mesh nx nx nz (x, y, z) -> at3 r (x, y, z) = Some (Z.min (lin nx nz (rb b nx x, rb b nx y, rb (has "z-inv" invs) nz z)) (lin nx nz (rb b nx y, rb b nx x, rb (has "z-inv" invs) nz z)))).
      { intros x y z (H1 & H2 & H3). unfold at3. rewrite Gr by lia. pose proof (G1 x y z ltac:(unfold on_mesh; lia)) as A1. pose proof (G1 y x z ltac:(unfold on_mesh; lia)) as A2.
        unfold at3 in A1, A2. now rewrite A1, A2. }
      intros s [[x y] z] Hin Hm. pose proof (point_op_mesh nx nx nz s (x,y,z) Hm) as Hm'. pose proof Hm as (H1 & H2 & H3). apply in_app_or in Hin.
      destruct Hin as [Hin|[<-|[]]].
      * rewrite Forall_forall in Hi. pose proof (Hi s Hin) as Hn. unfold inversion_name in Hn. cbn in Hn.
        destruct Hn as [<-|[<-|[<-|[]]]]; unfold point_op in *; cbn [String.eqb Ascii.eqb Bool.eqb] in *;
        rewrite !G by assumption; apply has_In in Hin; rewrite rb_neg; try assumption; reflexivity || (try (unfold b; assumption)); congruence.
      * unfold point_op in *. cbn [String.eqb Ascii.eqb Bool.eqb] in *. rewrite Z.eqb_refl in *. rewrite !G by assumption. f_equal. apply Z.min_comm.
    + rewrite (x_y_sym_rect Hx Hne S1) in E. cbn [bind] in E. injection E as <-. cbn [fbz2irrk].
      intros s k Hin Hm. apply in_app_or in Hin. destruct Hin as [Hin|[<-|[]]]; [now apply Hinv|].
      destruct k as [[x y] z]. unfold point_op. cbn [String.eqb Ascii.eqb Bool.eqb]. destruct (Z.eqb_spec nx ny); [lia|reflexivity].
Qed.

Theorem unfold_invariant A nx ny nz syms g (irr : list A) f : 0 < nx -> 0 < ny -> 0 < nz -> standard_list syms ->
  make_kgrid nx ny nz syms = Ok g -> zlen irr = nk_irr g -> map_irrk2fbz g irr = Ok f ->
  forall s k, In s syms -> on_mesh nx ny nz k -> at3 f (point_op nx ny nz s k) = at3 f k.
Proof.
  intros Hx Hy Hz Hst E Hl Ef s k Hin Hm. pose proof (standard_known Hst) as Hk.
  pose proof (labels_invariant Hx Hy Hz Hst E s k Hin Hm) as HL. pose proof (point_op_mesh nx ny nz s k Hm) as Hm'.
  destruct (unfold_spec irr Hx Hy Hz Hk E Hl) as (f' & Ef' & Sf' & Gf). rewrite Ef in Ef'. injection Ef' as <-.
  destruct (make_kgrid_spec Hx Hy Hz Hk) as (g' & E' & _ & _ & _ & S & Lab & Ei & Ev & _). rewrite E in E'. injection E' as <-.
  rewrite <- (zget_flatten3 _ S Hm'), <- (zget_flatten3 _ S Hm) in HL.
  destruct (Lab k Hm) as (k' & _ & _ & Ha). rewrite <- (zget_flatten3 _ S Hm) in Ha. rewrite Ha in HL.
  destruct (uq_inv_get _ _ Ha) as (I1 & _). destruct (uq_inv_get _ _ HL) as (I2 & _). rewrite <- Ev in I1, I2.
  rewrite (Gf _ _ Hm I1), (Gf _ _ Hm' I2). reflexivity.
Qed.

(** ** means *)
Section Means.
Context {A : Type} (zero : A) (add : A -> A -> A) (scale : Z -> A -> A).
Hypothesis addA : forall a b c, add a (add b c) = add (add a b) c.
Hypothesis addC : forall a b, add a b = add b a.
Hypothesis add0 : forall a, add zero a = a.
Notation gsum := (gsum zero add). Notation nmul := (nmul zero add).
Lemma gsum_cons a l : gsum (a :: l) = add a (gsum l). Proof. reflexivity. Qed.
Lemma gsum_add X (f g : X -> A) l : gsum (map (fun x => add (f x) (g x)) l) = add (gsum (map f l)) (gsum (map g l)).
Proof.
  induction l as [|x l IH]; [cbn; now rewrite add0|]. cbn [map]. rewrite !gsum_cons, IH. rewrite <- !addA. f_equal. rewrite !addA. f_equal. apply addC.
Qed.
Lemma gsum_zero X (l : list X) : gsum (map (fun _ => zero) l) = zero.
Proof. induction l as [|x l IH]; [reflexivity|]. cbn [map]. rewrite gsum_cons, IH. apply add0. Qed.
Lemma gsum_delta (x : Z) (a : A) u : NoDup u -> In x u -> gsum (map (fun v => if v =? x then a else zero) u) = a.
Proof.
  induction u as [|v u IH]; intros HN Hin; [destruct Hin|]. inversion HN; subst. cbn [map]. rewrite gsum_cons. destruct (Z.eqb_spec v x) as [->|Hne].
  - replace (gsum (map (fun v => if v =? x then a else zero) u)) with zero; [rewrite addC; apply add0|].
    transitivity (gsum (map (fun _ => zero) u)); [symmetry; apply gsum_zero|]. f_equal. apply map_ext_in. intros w Hw. destruct (Z.eqb_spec w x); [congruence|reflexivity].
  - destruct Hin as [?|Hin]; [congruence|]. rewrite add0. apply IH; assumption.
Qed.
Lemma gsum_count (h : Z -> A) L u : NoDup u -> (forall x, In x L -> In x u) ->
  gsum (map h L) = gsum (map (fun v => nmul (Z.to_nat (count v L)) (h v)) u).
Proof.
  intros HN. induction L as [|x L IH]; intros Hin.
  - cbn. symmetry. apply gsum_zero.
  - cbn [map]. rewrite gsum_cons, IH by (intros; apply Hin; now right).
    transitivity (add (gsum (map (fun v => if v =? x then h x else zero) u)) (gsum (map (fun v => nmul (Z.to_nat (count v L)) (h v)) u))).
    + f_equal. symmetry. apply gsum_delta; [assumption|apply Hin; now left].
    + rewrite <- gsum_add. f_equal. apply map_ext. intros v. unfold count. cbn [filter]. destruct (Z.eqb_spec v x) as [->|Hne].
      * rewrite zlen_cons. replace (Z.to_nat (1 + _)) with (S (Z.to_nat (zlen (filter (fun y => x =? y) L)))) by (pose proof (zlen_nonneg (filter (fun y => x =? y) L)); lia). reflexivity.
      * apply add0.
Qed.
Theorem k_mean_irrk_mesh nx ny nz syms g (irr : list A) : 0 < nx -> 0 < ny -> 0 < nz -> Forall known syms ->
  make_kgrid nx ny nz syms = Ok g -> zlen irr = nk_irr g ->
  exists f, map_irrk2fbz g irr = Ok f /\ k_mean_irrk zero add scale g irr = Ok (k_mean_mesh zero add scale g f).
Proof.
  intros Hx Hy Hz Hk E Hl. destruct (grid_dims Hx Hy Hz Hk E) as (Ex & Ey & Ez).
  destruct (unfold_spec irr Hx Hy Hz Hk E Hl) as (f & Ef & Sf & Gf). exists f. split; [assumption|].
  destruct (make_kgrid_spec Hx Hy Hz Hk) as (g' & E' & _ & _ & _ & S & Lab & Ei & Ev & Ec). rewrite E in E'. injection E' as <-.
  set (L := flatten3 (fbz2irrk g)) in *. set (u := uniq L) in *.
  unfold k_mean_irrk. rewrite Hl. unfold nk_irr. rewrite Ei, Ec, zlen_uq_ind, zlen_uq_counts, Z.eqb_refl.
  unfold k_mean_mesh. do 2 f_equal.
  set (h := fun v => match zget irr (first_index v u) with Some a => a | None => zero end).
  assert (Lu : zlen irr = zlen u) by (rewrite Hl; unfold nk_irr; rewrite Ei; apply zlen_uq_ind).
  assert (Hf : flatten3 f = map h L).
  { apply zget_ext; [rewrite zlen_map, (zlen_flatten3 Sf); symmetry; apply (zlen_flatten3 S)|]. rewrite (zlen_flatten3 Sf). intros i Hi.
    destruct (@lin_surj nx ny nz i Hy Hz Hi) as (k & Hkm & <-). rewrite (zget_flatten3 _ Sf Hkm), zget_map.
    destruct (Lab k Hkm) as (k' & _ & _ & Ha). rewrite <- (zget_flatten3 _ S Hkm) in Ha. fold L in Ha. rewrite Ha. cbn [option_map].
    destruct (uq_inv_get _ _ Ha) as (I1 & I2 & I3). fold u in I1, I2, I3. rewrite <- Ev in I1. rewrite (Gf _ _ Hkm I1). unfold h.
    destruct (@zget_in_range _ irr (first_index (lin ny nz k') u) ltac:(lia)) as [a Hav]. rewrite Hav. reflexivity. }
  rewrite Hf. rewrite (gsum_count h L (NoDup_uniq L) (fun x H => proj2 (In_uniq x L) H)). fold u. f_equal.
  apply zget_ext; [cbn; rewrite zlen_map2, !zlen_map; fold u; lia|].
  intros j Hj. cbn [np_unique uq_counts] in *. fold u in Hj |- *. rewrite zlen_map2, zlen_map in Hj.
  rewrite zget_map2, !zget_map. destruct (@zget_in_range _ irr j ltac:(lia)) as [a Hav]. destruct (@zget_in_range _ u j ltac:(lia)) as [v Hv].
  rewrite Hav, Hv. cbn [option_map]. do 2 f_equal. unfold h.
  rewrite (@first_index_NoDup v u j (NoDup_uniq L) Hv), Hav. reflexivity.
Qed.
End Means.
Lemma zsum_gsum l : zsum l = gsum 0 Z.add l. Proof. reflexivity. Qed.
Lemma nmul_one n : nmul 0 Z.add n 1 = Z.of_nat n.
Proof. induction n as [|n IH]; [reflexivity|]. cbn [nmul]. rewrite IH. lia. Qed.
Theorem counts_sum nx ny nz syms g : 0 < nx -> 0 < ny -> 0 < nz -> Forall known syms ->
  make_kgrid nx ny nz syms = Ok g -> zsum (irrk_count g) = nk_tot g /\ (forall c, In c (irrk_count g) -> 0 < c) /\ zlen (irrk_count g) = nk_irr g.
Proof.
  intros Hx Hy Hz Hk E. destruct (grid_dims Hx Hy Hz Hk E) as (Ex & Ey & Ez).
  destruct (make_kgrid_spec Hx Hy Hz Hk) as (g' & E' & _ & _ & _ & S & Lab & Ei & Ev & Ec). rewrite E in E'. injection E' as <-.
  unfold nk_tot, nk_irr. rewrite Ex, Ey, Ez, Ec, Ei, zlen_uq_counts, zlen_uq_ind. set (L := flatten3 (fbz2irrk g)) in *. split; [|split; [|reflexivity]].
  - rewrite zsum_gsum. cbn [np_unique uq_counts].
    pose proof (@gsum_count Z 0 Z.add (fun _ x => x) Z.add_assoc Z.add_comm Z.add_0_l (fun _ => 1) L (uniq L) (NoDup_uniq L) (fun x H => proj2 (In_uniq x L) H)) as H.
    rewrite <- (zlen_flatten3 S). fold L. transitivity (gsum 0 Z.add (map (fun _ => 1) L)).
    + rewrite H. f_equal. apply map_ext. intros v. rewrite nmul_one. unfold count. pose proof (zlen_nonneg (filter (fun y => v =? y) L)). lia.
    + clear. induction L as [|x L IH]; [reflexivity|]. rewrite zlen_cons. cbn [map gsum fold_right]. change (1 + gsum 0 Z.add (map (fun _ : Z => 1) L) = 1 + zlen L). lia.
  - intros c Hin. cbn [np_unique uq_counts] in Hin. apply in_map_iff in Hin. destruct Hin as (v & <- & Hv). apply (proj1 (In_uniq v L)) in Hv.
    unfold count. assert (Hf : In v (filter (fun y => v =? y) L)) by (apply filter_In; split; [assumption|apply Z.eqb_refl]).
    destruct (filter (fun y => v =? y) L) as [|w l]; [destruct Hf|]. rewrite zlen_cons. pose proof (zlen_nonneg l). lia.
Qed.

(** ** q lists *)
Lemma q_list_get nx ny nz k : on_mesh nx ny nz k -> zget (kmesh_ind_list nx ny nz) (lin ny nz k) = Some k.
Proof.
  destruct k as [[x y] z]. intros (Hx & Hy & Hz).
  set (m := map (fun x => map (fun y => map (fun z => (x, y, z)) (range nz)) (range ny)) (range nx)).
  assert (Lr : forall n, 0 < n -> zlen (range n) = n) by (intros; unfold range; rewrite zlen_arange; lia).
  assert (Gr : forall n i, 0 <= i < n -> zget (range n) i = Some i) by (intros; unfold range; rewrite zget_arange by lia; f_equal; lia).
  assert (S : shape3 m nx ny nz).
  { unfold m. split; [rewrite zlen_map, Lr; lia|]. intros r Hr. apply in_map_iff in Hr. destruct Hr as (? & <- & _).
    split; [rewrite zlen_map, Lr; lia|]. intros s Hs. apply in_map_iff in Hs. destruct Hs as (? & <- & _). rewrite zlen_map, Lr; lia. }
  replace (kmesh_ind_list nx ny nz) with (flatten3 m).
  - rewrite (zget_flatten3 (x, y, z) S) by (unfold on_mesh; lia). unfold at3, get3, get2, m. rewrite zget_map, Gr by lia. cbn [option_map obind].
    rewrite zget_map, Gr by lia. cbn [option_map obind]. now rewrite zget_map, Gr by lia.
  - unfold flatten3, m, kmesh_ind_list. rewrite map_map. rewrite flat_map_concat_map. f_equal. apply map_ext. intros. now rewrite flat_map_concat_map.
Qed.
Lemma zlen_q_list nx ny nz : 0 < nx -> 0 < ny -> 0 < nz -> zlen (kmesh_ind_list nx ny nz) = nx * ny * nz.
Proof.
  intros. unfold kmesh_ind_list. rewrite flat_map_concat_map.
  assert (Lr : forall n, 0 < n -> zlen (range n) = n) by (intros; unfold range; rewrite zlen_arange; lia).
  rewrite (@zlen_concat _ _ nx (ny * nz)); [lia|]. split; [rewrite zlen_map; now apply Lr|]. intros r Hr. apply in_map_iff in Hr. destruct Hr as (x & <- & _).
  rewrite flat_map_concat_map. rewrite (@zlen_concat _ _ ny nz); [lia|]. split; [rewrite zlen_map; now apply Lr|]. intros s Hs. apply in_map_iff in Hs. destruct Hs as (y & <- & _).
  rewrite zlen_map. now apply Lr.
Qed.
Theorem q_lists nx ny nz syms g : 0 < nx -> 0 < ny -> 0 < nz -> Forall known syms -> make_kgrid nx ny nz syms = Ok g ->
  zlen (get_q_list g) = nk_tot g /\ (forall k, on_mesh nx ny nz k -> zget (get_q_list g) (lin ny nz k) = Some k) /\
  exists irrq, get_irrq_list g = Ok irrq /\ zlen irrq = nk_irr g /\
    (forall j q, zget irrq j = Some q -> on_mesh nx ny nz q /\ zget (irrk_inv g) (lin ny nz q) = Some j) /\
    (forall k, on_mesh nx ny nz k -> exists j q, zget (irrk_inv g) (lin ny nz k) = Some j /\ zget irrq j = Some q /\ equiv nx ny nz syms k q).
Proof.
  intros Hx Hy Hz Hk E. destruct (grid_dims Hx Hy Hz Hk E) as (Ex & Ey & Ez). unfold get_irrq_list, get_q_list, nk_tot. rewrite Ex, Ey, Ez.
  split; [now apply zlen_q_list|]. split; [apply q_list_get|].
  destruct (@take_total _ (kmesh_ind_list nx ny nz) (irrk_ind g)) as (irrq & Ei).
  { intros i Hin. apply In_zget in Hin. destruct Hin as (j & Hj & Hg). rewrite zlen_q_list by assumption. apply (ind_on_mesh Hx Hy Hz Hk E j Hg). }
  exists irrq. split; [assumption|]. destruct (take_get _ _ Ei) as [Li Gi]. split; [assumption|]. split.
  - intros j q Hq. pose proof (zget_some_range _ _ Hq) as Hr. destruct (@zget_in_range _ (irrk_ind g) j ltac:(lia)) as (i & Hi).
    destruct (ind_on_mesh Hx Hy Hz Hk E j Hi) as [Hb Hv]. destruct (@lin_surj nx ny nz i Hy Hz Hb) as (k & Hkm & <-).
    rewrite (Gi j _ Hi), q_list_get in Hq by (assumption || lia). injection Hq as <-. auto.
  - intros k Hkm. destruct (rep_equiv Hx Hy Hz Hk E k Hkm) as (j & k0 & H1 & H2 & H3 & H4 & H5). exists j, k0. split; [assumption|]. split; [|assumption].
    destruct (lin_range nx ny nz k0 H4) as [B _]. rewrite (Gi j _ H3 B). now apply q_list_get.
Qed.

(** ** shifts *)
Lemma shift_shape A (m : list (list (list A))) nx ny nz qx qy qz : shape3 m nx ny nz -> shape3 (shift_mat_by_ind m qx qy qz) nx ny nz.
Proof.
  intros [Hl Hr]. unfold shift_mat_by_ind. split; [rewrite zlen_map, zlen_roll; assumption|].
  assert (HI : forall B (l : list B) s x, In x (roll l s) -> In x l).
  { intros B l s x Hin. apply In_zget in Hin. destruct Hin as (i & Hi & Hg). rewrite zlen_roll in Hi. rewrite zget_roll in Hg by assumption. eapply zget_In; eauto. }
  intros r Hin. apply in_map_iff in Hin. destruct Hin as (r0 & <- & Hin). apply HI in Hin. destruct (Hr r0 Hin) as [Hl2 Hr2].
  split; [rewrite zlen_map, zlen_roll; assumption|]. intros s Hs. apply in_map_iff in Hs. destruct Hs as (s0 & <- & Hs). apply HI in Hs.
  rewrite zlen_roll. auto.
Qed.
Theorem shift_get A (m : list (list (list A))) nx ny nz qx qy qz : shape3 m nx ny nz ->
  forall x y z, on_mesh nx ny nz (x, y, z) ->
  at3 (shift_mat_by_ind m qx qy qz) (x, y, z) = at3 m ((x - qx) mod nx, (y - qy) mod ny, (z - qz) mod nz).
Proof.
  intros [Hl Hr] x y z (Hx & Hy & Hz). unfold shift_mat_by_ind, at3, get3, get2. rewrite zget_map, zget_roll by lia. rewrite Hl.
  destruct (zget m ((x - qx) mod nx)) as [r|] eqn:E; [|reflexivity]. cbn [option_map obind]. destruct (Hr r (zget_In _ _ E)) as [Hl2 Hr2].
  rewrite zget_map, zget_roll by lia. rewrite Hl2. destruct (zget r ((y - qy) mod ny)) as [s|] eqn:E2; [|reflexivity]. cbn [option_map obind].
  rewrite zget_roll by (rewrite (Hr2 s (zget_In _ _ E2)); lia). now rewrite (Hr2 s (zget_In _ _ E2)).
Qed.
Theorem shift_compose A (m : list (list (list A))) nx ny nz a b c a' b' c' : shape3 m nx ny nz ->
  shift_mat_by_ind (shift_mat_by_ind m a b c) a' b' c' = shift_mat_by_ind m (a + a') (b + b') (c + c').
Proof.
  intros S. pose proof (shift_shape a b c S) as S1. pose proof (shift_shape a' b' c' S1) as S2. pose proof (shift_shape (a + a') (b + b') (c + c') S) as S3.
  apply (mesh_ext S2 S3). intros [[x y] z] Hm. rewrite (@shift_get _ _ _ _ _ a' b' c' S1) by assumption. pose proof Hm as (H1 & H2 & H3).
  rewrite (@shift_get _ _ _ _ _ a b c S) by (unfold on_mesh; repeat split; apply Z.mod_pos_bound; lia).
  rewrite (@shift_get _ _ _ _ _ (a + a') (b + b') (c + c') S) by assumption.
  rewrite !Zminus_mod_idemp_l. do 2 f_equal; [f_equal|]; f_equal; lia.
Qed.
Theorem shift_period A (m : list (list (list A))) nx ny nz i j l : 0 < nx -> 0 < ny -> 0 < nz -> shape3 m nx ny nz ->
  shift_mat_by_ind m (i * nx) (j * ny) (l * nz) = m.
Proof.
  intros Hx Hy Hz S. apply (mesh_ext (shift_shape _ _ _ S) S). intros [[x y] z] Hm. rewrite (@shift_get _ _ _ _ _ _ _ _ S) by assumption. destruct Hm as (H1 & H2 & H3).
  f_equal. assert (G : forall n a q, 0 < n -> 0 <= a < n -> (a - q * n) mod n = a).
  { intros n a q Hn Ha. replace (a - q * n) with (a + (- q) * n) by lia. rewrite Z.mod_add by lia. now apply Z.mod_small. }
  now rewrite !G by assumption.
Qed.
Theorem shift_pi_get A (m : list (list (list A))) nx ny nz : shape3 m nx ny nz ->
  forall x y z, on_mesh nx ny nz (x, y, z) ->
  at3 (shift_mat_by_pi m) (x, y, z) = at3 m ((x - nx / 2) mod nx, (y - ny / 2) mod ny, (z - nz / 2) mod nz).
Proof.
  intros [Hl Hr] x y z (Hx & Hy & Hz). unfold shift_mat_by_pi, at3, get3, get2. rewrite !zget_map, zget_roll by lia. rewrite Hl.
  destruct (zget m ((x - nx / 2) mod nx)) as [r|] eqn:E; [|reflexivity]. cbn [option_map obind]. destruct (Hr r (zget_In _ _ E)) as [Hl2 Hr2].
  rewrite !zget_map, zget_roll by lia. rewrite Hl2. destruct (zget r ((y - ny / 2) mod ny)) as [s|] eqn:E2; [|reflexivity]. cbn [option_map obind].
  rewrite zget_roll by (rewrite (Hr2 s (zget_In _ _ E2)); lia). now rewrite (Hr2 s (zget_In _ _ E2)).
Qed.
Lemma shift_pi_is_ind A (m : list (list (list A))) nx ny nz : shape3 m nx ny nz -> shift_mat_by_pi m = shift_mat_by_ind m (nx / 2) (ny / 2) (nz / 2).
Proof.
  intros S. assert (S' : shape3 (shift_mat_by_pi m) nx ny nz).
  { destruct S as [Hl Hr]. assert (HI : forall B (l : list B) s x, In x (roll l s) -> In x l).
    { intros B l s x Hin. apply In_zget in Hin. destruct Hin as (i & Hi & Hg). rewrite zlen_roll in Hi. rewrite zget_roll in Hg by assumption. eapply zget_In; eauto. }
    unfold shift_mat_by_pi. split; [rewrite !zlen_map, zlen_roll; assumption|]. rewrite map_map. intros r Hin. apply in_map_iff in Hin. destruct Hin as (r0 & <- & Hin).
    apply HI in Hin. destruct (Hr r0 Hin) as [Hl2 Hr2]. split; [rewrite zlen_map, zlen_roll; assumption|]. intros s Hs. apply in_map_iff in Hs. destruct Hs as (s0 & <- & Hs).
    apply HI in Hs. rewrite zlen_roll. auto. }
  apply (mesh_ext S' (shift_shape _ _ _ S)). intros [[x y] z] Hm. rewrite (shift_pi_get S) by assumption. now rewrite (shift_get _ _ _ S).
Qed.
(** two half-zone shifts give the identity on even meshes *)
Theorem shift_pi_twice A (m : list (list (list A))) nx ny nz : 0 < nx -> 0 < ny -> 0 < nz -> nx mod 2 = 0 -> ny mod 2 = 0 -> nz mod 2 = 0 -> shape3 m nx ny nz ->
  shift_mat_by_pi (shift_mat_by_pi m) = m.
Proof.
  intros Hx Hy Hz Ex Ey Ez S. rewrite (shift_pi_is_ind S). rewrite (shift_pi_is_ind (shift_shape _ _ _ S)). rewrite (shift_compose _ _ _ _ _ _ S).
  transitivity (shift_mat_by_ind m (1 * nx) (1 * ny) (1 * nz)); [f_equal; lia|]. now apply shift_period.
Qed.

(** ** symmetrize_irrk *)
Theorem symmetrize_irrk_raises nx ny nz syms g rest : 0 < nx -> 0 < ny -> 0 < nz -> Forall known syms -> make_kgrid nx ny nz syms = Ok g ->
  symmetrize_irrk g rest = Raise IndexError.
Proof.
  intros Hx Hy Hz Hk E. assert (Hi : exists i l, irrk_ind g = i :: l).
  { destruct (rep_equiv Hx Hy Hz Hk E (0,0,0)) as (j & _ & _ & Hj & _); [unfold on_mesh; lia|]. unfold nk_irr in Hj.
    destruct (irrk_ind g) as [|i l]; [rewrite zlen_nil in Hj; lia|eauto]. }
  destruct Hi as (i & l & Hi). unfold symmetrize_irrk. rewrite Hi. reflexivity.
Qed.

(** ** quadrant masks: each point is switched off in exactly one mask *)
Theorem masks_partition nk i j : 0 <= i < nk -> 0 <= j < nk ->
  exists a b c d, map (fun m => get2 m i j) (get_bz_masks nk) = [Some a; Some b; Some c; Some d] /\ a + b + c + d = 3 /\
    (forall v, In v [a;b;c;d] -> v = 0 \/ v = 1).
Proof.
  intros Hi Hj. unfold get_bz_masks. cbn [map].
  assert (G : forall f, get2 (mask_fill nk f) i j = Some (if f i j then 0 else 1)).
  { intros f. unfold get2, mask_fill, range. rewrite zget_map, zget_arange by lia. cbn [option_map obind]. rewrite zget_map, zget_arange by lia. cbn [option_map].
    replace (0 + i) with i by lia. now replace (0 + j) with j by lia. }
  rewrite !G. do 4 eexists. split; [reflexivity|].
  destruct (Z.leb_spec (nk / 2) i), (Z.leb_spec (nk / 2) j), (Z.ltb_spec i (nk / 2)), (Z.ltb_spec j (nk / 2)); try lia; cbn [andb];
  (split; [reflexivity|]; intros v [<-|[<-|[<-|[<-|[]]]]]; auto).
Qed.

(** 'x-y-inv' leaves points of the planes x = 0 and x = nx/2 unmerged *)
Theorem x_y_inv_incomplete nx ny nz : 0 < nx -> 3 <= ny -> 0 < nz ->
  exists g (irr : list Z) f, make_kgrid nx ny nz ["x-y-inv"%string] = Ok g /\ zlen irr = nk_irr g /\ map_irrk2fbz g irr = Ok f /\
    at3 f (point_op nx ny nz "x-y-inv"%string (0, 1, 0)) <> at3 f (0, 1, 0).
Proof.
  intros Hx Hy Hz. assert (Hk : Forall known ["x-y-inv"%string]) by (repeat constructor; unfold known; cbn; auto 8).
  assert (Hy0 : 0 < ny) by lia. destruct (make_kgrid_spec Hx Hy0 Hz Hk) as (g & E & Ex & Ey & Ez & S & Lab & Ei & Ev & _).
  set (irr := arange 0 (nk_irr g)). assert (Hl : zlen irr = nk_irr g) by (unfold irr, nk_irr; rewrite zlen_arange; unfold zlen; lia).
  destruct (unfold_spec irr Hx Hy0 Hz Hk E Hl) as (f & Ef & Sf & Gf). exists g, irr, f. repeat (split; [assumption|]).
  assert (Hp : point_op nx ny nz "x-y-inv"%string (0, 1, 0) = (0, ny - 1, 0)).
  { unfold point_op. cbn [String.eqb Ascii.eqb Bool.eqb]. change (-0) with 0. rewrite Z.mod_0_l by lia. rewrite neg_mod by lia. reflexivity. }
  rewrite Hp. assert (M1 : on_mesh nx ny nz (0, 1, 0)) by (unfold on_mesh; lia). assert (M2 : on_mesh nx ny nz (0, ny - 1, 0)) by (unfold on_mesh; lia).
  assert (HL : forall y, 0 <= y < ny -> at3 (fbz2irrk g) (0, y, 0) = Some (Z.mul y nz)).
  { intros y Hyy. pose proof E as E'. unfold make_kgrid in E'.
    destruct (@reshape3_spec _ nx ny nz (arange 0 (nx * ny * nz)) Hx Hy0 Hz ltac:(rewrite zlen_arange; nia)) as (m0 & E0 & S0 & G0).
    rewrite E0 in E'. cbn [bind] in E'. destruct (x_y_inv_spec Hx Hy0 S0) as (r & Er & Sr & Gr).
    change (apply_symmetries m0 ["x-y-inv"%string]) with (let! m := x_y_inv m0 in Ok m) in E'. rewrite Er in E'. cbn [bind] in E'. injection E' as <-.
    cbn [fbz2irrk at3]. rewrite Gr by lia. unfold reflxy. assert (Hlt : (nx / 2 <? 0) = false) by (apply Z.ltb_ge; apply Z.div_pos; lia).
    rewrite Hlt. cbn [andb fst snd]. assert (M : on_mesh nx ny nz (0, y, 0)) by (unfold on_mesh; lia).
    specialize (G0 _ M). cbn [at3] in G0. rewrite G0. pose proof (lin_range nx ny nz (0, y, 0) M) as HR. cbn [lin] in *. rewrite zget_arange by lia. f_equal; lia. }
  set (L := flatten3 (fbz2irrk g)) in *.
  pose proof (zget_flatten3 _ S M1) as Z1. rewrite HL in Z1 by lia. pose proof (zget_flatten3 _ S M2) as Z2. rewrite HL in Z2 by lia.
  fold L in Z1, Z2. destruct (uq_inv_get _ _ Z1) as (I1 & J1 & R1). destruct (uq_inv_get _ _ Z2) as (I2 & J2 & R2). rewrite <- Ev in I1, I2.
  rewrite (Gf _ _ M1 I1), (Gf _ _ M2 I2).
  assert (Hu : zlen (uniq L) = nk_irr g) by (unfold nk_irr; rewrite Ei, zlen_uq_ind; reflexivity).
  unfold irr. rewrite !zget_arange by lia. intros H. assert (Hj : forall a b : Z, Some (0 + a) = Some (0 + b) -> a = b) by (intros a b Hab; assert (0 + a = 0 + b) by congruence; lia). apply Hj in H.
  rewrite H in J2. rewrite J1 in J2. assert (J3 : 1 * nz = (ny - 1) * nz) by congruence. nia.
Qed.

Lemma unknown_raises nx ny nz syms s rest : 0 < nx -> 0 < ny -> 0 < nz -> Forall known syms -> ~ known s ->
  make_kgrid nx ny nz (syms ++ s :: rest) = Raise AssertionError.
Proof.
  intros Hx Hy Hz Hk Hs. unfold make_kgrid.
  destruct (@reshape3_spec _ nx ny nz (arange 0 (nx * ny * nz)) Hx Hy Hz ltac:(rewrite zlen_arange; nia)) as (m0 & E0 & S0 & G0).
  rewrite E0. cbn [bind]. enough (H : apply_symmetries m0 (syms ++ s :: rest) = Raise AssertionError) by now rewrite H.
  clear E0 G0. unfold apply_symmetries. revert m0 S0. induction syms as [|t syms IH]; intros m S; cbn [app foldM].
  - unfold apply_symmetry. destruct (existsb (String.eqb s) KNOWN_SYMMETRIES) eqn:E; [|reflexivity]. exfalso. apply Hs.
    apply existsb_exists in E. destruct E as (x & Hin & Ex). apply String.eqb_eq in Ex. subst. exact Hin.
  - inversion Hk; subst. destruct (@step_spec m nx ny nz t Hx Hy Hz S ltac:(assumption)) as (m1 & E & S1 & _). rewrite E. cbn [bind]. now apply IH.
Qed.
