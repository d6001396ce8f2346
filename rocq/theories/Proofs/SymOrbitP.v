From Verif Require Import Base.PyBase Base.PyFacts Model.Symmetrize Spec.SymSpec Proofs.SymIndexP.
From Coq Require Import ZArith List Lia.
Import ListNotations.
Open Scope Z_scope.
Set Implicit Arguments.

Lemma hz (a b c d x : Z) i : zget [a; b; c; d] i = Some x ->
  (i = 0 /\ x = a) \/ (i = 1 /\ x = b) \/ (i = 2 /\ x = c) \/ (i = 3 /\ x = d).
Proof.
  unfold zget; destruct (Z.ltb_spec i 0); [discriminate|].
  destruct (Z.to_nat i) as [|[|[|[|n]]]] eqn:e; cbn [nth_error]; intros hh;
    [left|right; left|right; right; left|right; right; right|destruct n; discriminate];
    injection hh as <-; split; auto; lia.
Qed.

Lemma iff_swap (a b c d : Z) : (a = b <-> c = d) -> (b = a <-> d = c).
Proof. intros [h1 h2]; split; intros e; symmetry; auto. Qed.
Ltac inlist hc := cbn [In] in hc; repeat (destruct hc as [hc|hc]); try contradiction; subst; auto.
Ltac conj_split := repeat match goal with |- _ /\ _ => split end.
Ltac refl_iff := repeat match goal with h : ?a = ?a <-> ?c = ?d |- _ => assert (c = d) by (apply (proj1 h); reflexivity); clear h end.
Ltac patt := refl_iff; first [assumption | congruence | split; intros; congruence | tauto | split; tauto].

Section Orbit.
Variables (Nb : Z) (sy : list (list Z)).
Hypothesis good : good_sym Nb sy.

Lemma sy_get x : 0 <= x < Nb ->
  exists l, zget sy x = Some l /\ py_get sy x = Ok l /\ NoDup l /\
            (forall y, In (y + 1) l <-> listed sy x y).
Proof.
  intros hx. assert (hl := gs_len good).
  destruct (zget sy x) as [l|] eqn:e.
  - exists l; split; [auto|split; [|split]].
    + unfold py_get; destruct (Z.ltb_spec x 0); [lia|]; rewrite e; auto.
    + exact (gs_nodup good _ e).
    + intros y; split; [intros h; exists l; auto|].
      intros (l' & h1 & h2); congruence.
  - exfalso. destruct (gs_refl good hx) as (l & h & _); congruence.
Qed.

Lemma related4 b1 b2 b3 b4 b' :
  related sy [b1; b2; b3; b4] b' <->
  exists c1 c2 c3 c4, b' = [c1; c2; c3; c4] /\
    listed sy b1 c1 /\ listed sy b2 c2 /\ listed sy b3 c3 /\ listed sy b4 c4 /\
    (b1 = b2 <-> c1 = c2) /\ (b1 = b3 <-> c1 = c3) /\ (b1 = b4 <-> c1 = c4) /\
    (b2 = b3 <-> c2 = c3) /\ (b2 = b4 <-> c2 = c4) /\ (b3 = b4 <-> c3 = c4).
Proof.
  split.
  - intros (hl & h1 & h2).
    destruct b' as [|c1 [|c2 [|c3 [|c4 [|? ?]]]]]; try discriminate hl.
    exists c1, c2, c3, c4; split; [reflexivity|].
    repeat match goal with |- _ /\ _ => split end.
    + apply (h1 0); reflexivity.
    + apply (h1 1); reflexivity.
    + apply (h1 2); reflexivity.
    + apply (h1 3); reflexivity.
    + apply (h2 0 1); reflexivity.
    + apply (h2 0 2); reflexivity.
    + apply (h2 0 3); reflexivity.
    + apply (h2 1 2); reflexivity.
    + apply (h2 1 3); reflexivity.
    + apply (h2 2 3); reflexivity.
  - intros (c1 & c2 & c3 & c4 & -> & l1 & l2 & l3 & l4 & h12 & h13 & h14 & h23 & h24 & h34).
    split; [reflexivity|].
    split.
    + intros i x x' e1 e2; apply hz in e1; apply hz in e2.
      destruct e1 as [(-> & ->)|[(-> & ->)|[(-> & ->)|(-> & ->)]]];
      destruct e2 as [(? & ->)|[(? & ->)|[(? & ->)|(? & ->)]]]; try discriminate; auto.
    + intros i j x x' y y' e1 e2 e3 e4.
      apply hz in e1; apply hz in e2; apply hz in e3; apply hz in e4.
      destruct e1 as [(-> & ->)|[(-> & ->)|[(-> & ->)|(-> & ->)]]];
      destruct e2 as [(? & ->)|[(? & ->)|[(? & ->)|(? & ->)]]]; try discriminate;
      destruct e3 as [(-> & ->)|[(-> & ->)|[(-> & ->)|(-> & ->)]]];
      destruct e4 as [(? & ->)|[(? & ->)|[(? & ->)|(? & ->)]]]; try discriminate;
      first [assumption | apply iff_swap; assumption | split; reflexivity].
Qed.

Lemma in_pairs_ne li lj mk q :
  In q (pairs_ne li lj mk) <->
  exists i j, In (i + 1) li /\ In (j + 1) lj /\ i <> j /\ q = mk i j.
Proof.
  unfold pairs_ne; rewrite in_flat_map; split.
  - intros (i & hi & hq); apply in_flat_map in hq; destruct hq as (j & hj & hq).
    destruct (Z.eqb_spec (i - 1) (j - 1)); [destruct hq|].
    destruct hq as [<-|[]]; exists (i - 1), (j - 1).
    replace (i - 1 + 1) with i by lia; replace (j - 1 + 1) with j by lia; auto.
  - intros (i & j & hi & hj & hne & ->); exists (i + 1); split; auto.
    apply in_flat_map; exists (j + 1); split; auto.
    destruct (Z.eqb_spec (i + 1 - 1) (j + 1 - 1)); [lia|].
    left; f_equal; lia.
Qed.

Lemma NoDup_flat_map A B (f : A -> list B) (l : list A) :
  NoDup l -> (forall x, In x l -> NoDup (f x)) ->
  (forall x y b, In x l -> In y l -> In b (f x) -> In b (f y) -> x = y) ->
  NoDup (flat_map f l).
Proof.
  induction 1 as [|x l hx hnd IH]; intros h1 h2; cbn [flat_map]; [constructor|].
  assert (hap : forall (l1 l2 : list B), NoDup l1 -> NoDup l2 -> (forall b, In b l1 -> ~ In b l2) -> NoDup (l1 ++ l2)).
  { induction 1 as [|a l1 ha _ IH1]; intros n2 hd; cbn [app]; [auto|].
    constructor; [|apply IH1; auto; intros b hb; apply hd; right; auto].
    rewrite in_app_iff; intros [h|h]; [auto|]. apply (hd a); [left; auto|auto]. }
  apply hap.
  - apply h1; left; auto.
  - apply IH; [intros; apply h1; right; auto|].
    intros; apply (h2 x0 y b); try right; auto.
  - intros b hb hb'; apply in_flat_map in hb'; destruct hb' as (y & hy & hby).
    rewrite (h2 x y b) in hx; auto; [left; auto|right; auto].
Qed.

Lemma NoDup_pairs_ne li lj mk :
  NoDup li -> NoDup lj -> (forall i j i' j', mk i j = mk i' j' -> i = i' /\ j = j') ->
  NoDup (pairs_ne li lj mk).
Proof.
  intros h1 h2 hinj; unfold pairs_ne; apply NoDup_flat_map; auto.
  - intros i _; apply NoDup_flat_map; auto.
    + intros j _; destruct (_ =? _); repeat constructor; intros [].
    + intros j j' b _ _; destruct (i - 1 =? j - 1), (i - 1 =? j' - 1); cbn [In]; try tauto.
      intros [<-|[]] [e|[]]. apply hinj in e; lia.
  - intros i i' b _ _ hb hb'; apply in_flat_map in hb; apply in_flat_map in hb'.
    destruct hb as (j & _ & hb), hb' as (j' & _ & hb').
    destruct (i - 1 =? j - 1), (i' - 1 =? j' - 1); cbn [In] in *; try tauto.
    destruct hb as [<-|[]], hb' as [e|[]]. apply hinj in e; lia.
Qed.

Lemma len1 A (l : list A) a : zlen l = 1 -> In a l -> l = [a].
Proof.
  unfold zlen; destruct l as [|x [|y l]]; cbn [length]; try lia.
  intros _ [->|[]]; auto.
Qed.

Lemma listed_eq_len1 x l y : 0 <= x < Nb -> zget sy x = Some l -> zlen l = 1 -> listed sy x y -> y = x.
Proof.
  intros hx hl h1 (l' & e & hy). rewrite hl in e; injection e as <-.
  destruct (gs_refl good hx) as (l' & e & hr). rewrite hl in e; injection e as <-.
  rewrite (len1 _ _ h1 hr) in hy. destruct hy as [h|[]]; lia.
Qed.

Lemma related_refl4 b1 b2 b3 b4 : digits_below Nb [b1;b2;b3;b4] -> related sy [b1;b2;b3;b4] [b1;b2;b3;b4].
Proof.
  intros hd; apply related4; exists b1, b2, b3, b4; split; [auto|].
  repeat match goal with |- _ /\ _ => split end; try tauto; apply (gs_refl good), hd; cbn; auto.
Qed.

(** The band groups a group is distributed over form exactly its orbit. *)
Lemma sym_bands_orbit b :
  digits_below Nb b -> kanamori_bands b ->
  exists O, sym_bands sy b = Ok O /\ NoDup O /\ (forall b', In b' O <-> related sy b b').
Proof.
  intros hd (i & j & hk).
  assert (hi : 0 <= i < Nb) by (apply hd; destruct hk as [->|[->| ->]]; cbn; auto).
  assert (hj : 0 <= j < Nb) by (apply hd; destruct hk as [->|[->| ->]]; cbn; auto).
  destruct (sy_get hi) as (li & zi & pi & ni & ini).
  destruct (sy_get hj) as (lj & zj & pj & nj & inj).
  assert (hsing : forall b1 b2 b3 b4 : Z, digits_below Nb [b1;b2;b3;b4] ->
     (forall c, In c [b1;b2;b3;b4] -> forall y, listed sy c y -> y = c) ->
     NoDup [[b1;b2;b3;b4]] /\ (forall b', In b' [[b1;b2;b3;b4]] <-> related sy [b1;b2;b3;b4] b')).
  { intros b1 b2 b3 b4 hb hu; split; [repeat constructor; intros []|].
    intros b'; split.
    - intros [<-|[]]; apply related_refl4; auto.
    - rewrite related4; intros (c1 & c2 & c3 & c4 & -> & l1 & l2 & l3 & l4 & _).
      left. rewrite (hu b1 ltac:(cbn; auto) _ l1), (hu b2 ltac:(cbn; auto) _ l2), (hu b3 ltac:(cbn; auto) _ l3), (hu b4 ltac:(cbn; auto) _ l4); reflexivity. }
  destruct (Z.eq_dec i j) as [->|hne].
  - assert (b = [j; j; j; j]) as -> by (destruct hk as [->|[->| ->]]; auto).
    unfold sym_bands; rewrite !pj; cbn [bind]; rewrite !Z.eqb_refl; cbn [andb].
    destruct (Z.eqb_spec (zlen lj) 1) as [h1|h1]; cbn [andb].
    + exists [[j; j; j; j]]; split; [reflexivity|]; apply hsing; auto.
      intros c hc; assert (c = j) as -> by inlist hc; intros y; apply (listed_eq_len1 hj zj h1).
    + exists (map (fun i => [i - 1; i - 1; i - 1; i - 1]) lj); split; [reflexivity|split].
      * apply FinFun.Injective_map_NoDup; auto. intros x y e; injection e; lia.
      * intros b'; rewrite in_map_iff, related4; split.
        -- intros (x & <- & hx); exists (x - 1), (x - 1), (x - 1), (x - 1); split; [auto|].
           assert (listed sy j (x - 1)) by (apply inj; replace (x - 1 + 1) with x by lia; auto).
           conj_split; patt.
        -- intros (c1 & c2 & c3 & c4 & -> & l1 & _ & _ & _ & h).
           exists (c1 + 1); split; [|apply inj; auto].
           replace (c1 + 1 - 1) with c1 by lia; destruct h as (h12 & h13 & h14 & _).
           rewrite <- (proj1 h12 eq_refl), <- (proj1 h13 eq_refl), <- (proj1 h14 eq_refl); reflexivity.
  - assert (e1 : i =? j = false) by (apply Z.eqb_neq; auto).
    assert (e2 : j =? i = false) by (apply Z.eqb_neq; auto).
    destruct hk as [->|[->| ->]]; unfold sym_bands; rewrite ?pi, ?pj; cbn [bind];
      rewrite !Z.eqb_refl, ?e1, ?e2; cbn [andb negb].
    + destruct (Z.eqb_spec (zlen li) 1) as [h1|h1]; cbn [andb];
      [destruct (Z.eqb_spec (zlen lj) 1) as [h2|h2]; cbn [andb]|].
      * eexists; split; [reflexivity|]; apply hsing; auto.
        intros c hc; assert (c = i \/ c = j) as [-> | ->] by inlist hc; intros y;
             [apply (listed_eq_len1 hi zi h1)|apply (listed_eq_len1 hj zj h2)].
      * eexists; split; [reflexivity|split];
        [apply NoDup_pairs_ne; auto; intros ? ? ? ? e; injection e; auto|];
        intros b'; rewrite in_pairs_ne, related4; split;
        [ intros (x & y & hx & hy & hxy & ->); exists x, x, y, y; split; [auto|];
          apply ini in hx; apply inj in hy; conj_split; patt
        | intros (c1 & c2 & c3 & c4 & -> & l1 & l2 & l3 & l4 & h12 & h13 & h14 & h23 & h24 & h34);
          exists c1, c3; rewrite ini, inj; conj_split; patt ].
      * eexists; split; [reflexivity|split];
        [apply NoDup_pairs_ne; auto; intros ? ? ? ? e; injection e; auto|];
        intros b'; rewrite in_pairs_ne, related4; split;
        [ intros (x & y & hx & hy & hxy & ->); exists x, x, y, y; split; [auto|];
          apply ini in hx; apply inj in hy; conj_split; patt
        | intros (c1 & c2 & c3 & c4 & -> & l1 & l2 & l3 & l4 & h12 & h13 & h14 & h23 & h24 & h34);
          exists c1, c3; rewrite ini, inj; conj_split; patt ].
    + destruct (Z.eqb_spec (zlen li) 1) as [h1|h1]; cbn [andb];
      [destruct (Z.eqb_spec (zlen lj) 1) as [h2|h2]; cbn [andb]|].
      * eexists; split; [reflexivity|]; apply hsing; auto.
        intros c hc; assert (c = i \/ c = j) as [-> | ->] by inlist hc; intros y;
             [apply (listed_eq_len1 hi zi h1)|apply (listed_eq_len1 hj zj h2)].
      * eexists; split; [reflexivity|split];
        [apply NoDup_pairs_ne; auto; intros ? ? ? ? e; injection e; auto|];
        intros b'; rewrite in_pairs_ne, related4; split;
        [ intros (x & y & hx & hy & hxy & ->); exists x, y, x, y; split; [auto|];
          apply ini in hx; apply inj in hy; conj_split; patt
        | intros (c1 & c2 & c3 & c4 & -> & l1 & l2 & l3 & l4 & h12 & h13 & h14 & h23 & h24 & h34);
          exists c1, c2; rewrite ini, inj; conj_split; patt ].
      * eexists; split; [reflexivity|split];
        [apply NoDup_pairs_ne; auto; intros ? ? ? ? e; injection e; auto|];
        intros b'; rewrite in_pairs_ne, related4; split;
        [ intros (x & y & hx & hy & hxy & ->); exists x, y, x, y; split; [auto|];
          apply ini in hx; apply inj in hy; conj_split; patt
        | intros (c1 & c2 & c3 & c4 & -> & l1 & l2 & l3 & l4 & h12 & h13 & h14 & h23 & h24 & h34);
          exists c1, c2; rewrite ini, inj; conj_split; patt ].
    + destruct (Z.eqb_spec (zlen li) 1) as [h1|h1]; cbn [andb];
      [destruct (Z.eqb_spec (zlen lj) 1) as [h2|h2]; cbn [andb]|].
      * eexists; split; [reflexivity|]; apply hsing; auto.
        intros c hc; assert (c = i \/ c = j) as [-> | ->] by inlist hc; intros y;
             [apply (listed_eq_len1 hi zi h1)|apply (listed_eq_len1 hj zj h2)].
      * eexists; split; [reflexivity|split];
        [apply NoDup_pairs_ne; auto; intros ? ? ? ? e; injection e; auto|];
        intros b'; rewrite in_pairs_ne, related4; split;
        [ intros (x & y & hx & hy & hxy & ->); exists x, y, y, x; split; [auto|];
          apply ini in hx; apply inj in hy; conj_split; patt
        | intros (c1 & c2 & c3 & c4 & -> & l1 & l2 & l3 & l4 & h12 & h13 & h14 & h23 & h24 & h34);
          exists c1, c2; rewrite ini, inj; conj_split; patt ].
      * eexists; split; [reflexivity|split];
        [apply NoDup_pairs_ne; auto; intros ? ? ? ? e; injection e; auto|];
        intros b'; rewrite in_pairs_ne, related4; split;
        [ intros (x & y & hx & hy & hxy & ->); exists x, y, y, x; split; [auto|];
          apply ini in hx; apply inj in hy; conj_split; patt
        | intros (c1 & c2 & c3 & c4 & -> & l1 & l2 & l3 & l4 & h12 & h13 & h14 & h23 & h24 & h34);
          exists c1, c2; rewrite ini, inj; conj_split; patt ].
Qed.

Lemma related_sym b b' : related sy b b' -> related sy b' b.
Proof.
  intros (hl & h1 & h2); split; [auto|split].
  - intros i x x' e1 e2; apply (gs_sym good); eapply h1; eauto.
  - intros i j x x' y y' e1 e2 e3 e4; symmetry; eapply h2; eauto.
Qed.
Lemma zget_same_len A B (l : list A) (l' : list B) i x :
  length l' = length l -> zget l i = Some x -> exists x', zget l' i = Some x'.
Proof.
  unfold zget; destruct (i <? 0); [discriminate|]; intros hl h.
  destruct (nth_error l' (Z.to_nat i)) eqn:e; [eauto|].
  apply nth_error_None in e. assert (nth_error l (Z.to_nat i) <> None) by congruence.
  apply nth_error_Some in H; lia.
Qed.
Lemma related_trans b b' b'' : related sy b b' -> related sy b' b'' -> related sy b b''.
Proof.
  intros (hl & h1 & h2) (hl' & h1' & h2'); split; [congruence|split].
  - intros i x x'' e1 e3. destruct (zget_same_len _ _ _ hl e1) as (x' & e2).
    eapply (gs_trans good); eauto.
  - intros i j x x'' y y'' e1 e2 e3 e4.
    destruct (zget_same_len _ _ _ hl e1) as (x' & e1'); destruct (zget_same_len _ _ _ hl e3) as (y' & e3').
    rewrite (h2 i j x x' y y'), (h2' i j x' x'' y' y''); eauto; reflexivity.
Qed.
Lemma related_below b b' : related sy b b' -> digits_below Nb b'.
Proof.
  intros (hl & h1 & h2) d hd. apply In_nth_error in hd; destruct hd as (n & hn).
  assert (e : zget b' (Z.of_nat n) = Some d).
  { unfold zget; destruct (Z.ltb_spec (Z.of_nat n) 0); [lia|]; rewrite Nat2Z.id; auto. }
  destruct (zget_same_len _ _ _ (eq_sym hl) e) as (x & ex).
  eapply (gs_rng good); eapply h1; eauto.
Qed.
End Orbit.

(** check_sym accepts exactly the tables whose rows agree as sets along the
    listed bands. *)
Lemma set_eqb_spec a b : set_eqb a b = true <-> (forall x, In x a <-> In x b).
Proof.
  unfold set_eqb; rewrite Bool.andb_true_iff, !forallb_forall; split.
  - intros (h1 & h2) x; split; intros hx.
    + apply h1, existsb_exists in hx; destruct hx as (y & hy & e); apply Z.eqb_eq in e; subst; auto.
    + apply h2, existsb_exists in hx; destruct hx as (y & hy & e); apply Z.eqb_eq in e; subst; auto.
  - intros h; split; intros x hx; apply existsb_exists; exists x; split; try apply Z.eqb_refl; apply h; auto.
Qed.
Lemma good_sym_check Nb sy : 0 <= Nb -> good_sym Nb sy -> check_sym Nb sy = Ok true.
Proof.
  intros hN good; unfold check_sym.
  assert (h : forall l, (forall i, In i l -> 0 <= i < Nb) ->
    foldM (fun ok i => let! si := py_get sy i in
       foldM (fun ok j => let! sj := py_get sy (j - 1) in Ok (ok && set_eqb si sj)) si ok) l true = Ok true).
  { induction l as [|i l IH]; intros hl; [reflexivity|]. cbn [foldM].
    destruct (sy_get good (hl i (or_introl eq_refl))) as (li & zi & pi & ni & ini).
    rewrite pi; cbn [bind].
    assert (h2 : forall l', incl l' li ->
      foldM (fun ok j => let! sj := py_get sy (j - 1) in Ok (ok && set_eqb li sj)) l' true = Ok true).
    { induction l' as [|j l' IH']; intros hi; [reflexivity|]; cbn [foldM].
      assert (hj : listed sy i (j - 1)).
      { apply ini; replace (j - 1 + 1) with j by lia; apply hi; left; auto. }
      destruct (sy_get good (gs_rng good hj)) as (lj & zj & pj & nj & inj).
      rewrite pj; cbn [bind].
      assert (e : set_eqb li lj = true).
      { apply set_eqb_spec; intros x; replace x with (x - 1 + 1) by lia; rewrite ini, inj; split; intros hx.
        - eapply (gs_trans good); [apply (gs_sym good); exact hj|exact hx].
        - eapply (gs_trans good); [exact hj|exact hx]. }
      rewrite e; cbn [andb]; apply IH'; intros x hx; apply hi; right; auto. }
    rewrite (h2 li (incl_refl _)); cbn [bind]; apply IH; intros; apply hl; right; auto. }
  apply h; intros i hi. unfold range, arange in hi; apply in_map_iff in hi.
  destruct hi as (n & <- & hn); apply in_seq in hn; lia.
Qed.
