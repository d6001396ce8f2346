(** Proofs about data shown over momenta. *)
From Coq Require Import ZArith Reals List Lra Lia.
From Verif Require Import Base.PyBase Base.PyFacts Base.Arr Model.BrillouinZone Model.KPath Model.MaxEnt Model.LocalCont Model.ShownK Spec.ShownKSpec Proofs.KPathP.
Import ListNotations.
Set Implicit Arguments.
Local Open Scope Z_scope.

Lemma mom_axis n i : mom n i = k_axis_val n i.
Proof. reflexivity. Qed.
Lemma zget_k_shift n i : 0 <= i < n -> zget (k_shift n) i = Some (mom n i - PI)%R.
Proof. intros H. unfold k_shift. now rewrite zget_map, zget_k_axis by assumption. Qed.
Lemma mom_add n i k : 0 < n -> mom n (i + k * n) = (mom n i + 2 * PI * IZR k)%R.
Proof. intros H. assert (N : (IZR n <> 0)%R) by (apply not_0_IZR; lia). unfold mom. rewrite plus_IZR, mult_IZR. field. assumption. Qed.
Lemma period_int (B : Type) (g : R -> B) : (forall x, g (x + 2 * PI)%R = g x) -> forall k x, g (x + 2 * PI * IZR k)%R = g x.
Proof.
  intros H k. pattern k. apply Z.peano_ind.
  - intros x. f_equal. ring.
  - intros m IH x. rewrite <- (IH x), <- (H (x + 2 * PI * IZR m)%R). f_equal. unfold Z.succ. rewrite plus_IZR. ring.
  - intros m IH x. rewrite <- (IH x), <- (H (x + 2 * PI * IZR (Z.pred m))%R). f_equal. unfold Z.pred. rewrite plus_IZR. ring.
Qed.
(** momentum of the entry that is rolled to place i *)
Definition half_step (n : Z) : R := if Z.even n then 0%R else (PI / IZR n)%R.
Lemma rolled_mom n i : 0 < n -> exists k, mom n ((i - n / 2) mod n) = (mom n i - PI + half_step n + 2 * PI * IZR k)%R.
Proof.
  intros H. assert (N : (IZR n <> 0)%R) by (apply not_0_IZR; lia). exists (- ((i - n / 2) / n)). rewrite Z.mod_eq by lia.
  replace (i - n / 2 - n * ((i - n / 2) / n)) with ((i - n / 2) + (- ((i - n / 2) / n)) * n) by ring. rewrite mom_add by assumption.
  f_equal. unfold mom, half_step. pose proof (Z.div_mod n 2 ltac:(lia)) as D. rewrite Zmod_even in D. rewrite minus_IZR. set (h := n / 2) in *.
  destruct (Z.even n).
  - assert (E : (IZR n = 2 * IZR h)%R) by (rewrite D, plus_IZR, mult_IZR; lra). rewrite E in *. field. intros Z0. apply N. rewrite Z0. ring.
  - assert (E : (IZR h = (IZR n - 1) / 2)%R) by (rewrite D, plus_IZR, mult_IZR; lra). rewrite E. field. assumption.
Qed.
Lemma shift_shape A (mat : list (list A)) n1 n2 nk : shape2 mat n1 n2 -> shape2 (shift_xy_by_pi mat nk) n1 n2.
Proof.
  intros [L R]. unfold shift_xy_by_pi. destruct (match nk with Some n => n | None => (zlen mat, dim1 mat) end) as [a b].
  split; [now rewrite zlen_map, zlen_roll|]. intros r I. apply in_map_iff in I. destruct I as (r' & <- & I). rewrite zlen_roll. apply R.
  apply In_zget in I. destruct I as (i & Hi & Hg). rewrite zlen_roll in Hi. rewrite zget_roll in Hg by lia. eapply zget_In; eauto.
Qed.
Lemma dim1_shape A (m : list (list A)) n1 n2 : shape2 m n1 n2 -> 0 < n1 -> dim1 m = n2.
Proof. intros [L R] H. destruct m as [|r m]; [rewrite zlen_nil in L; lia|]. cbn. apply R. now left. Qed.
Lemma shift_get A (mat : list (list A)) n1 n2 nk i j : shape2 mat n1 n2 -> nk = None \/ nk = Some (n1, n2) -> 0 <= i < n1 -> 0 <= j < n2 ->
  get2 (shift_xy_by_pi mat nk) i j = get2 mat ((i - n1 / 2) mod n1) ((j - n2 / 2) mod n2).
Proof.
  intros S Hn Hi Hj. assert (E : match nk with Some n => n | None => (zlen mat, dim1 mat) end = (n1, n2)).
  { destruct Hn as [->| ->]; [|reflexivity]. f_equal; [apply S|]. apply (@dim1_shape _ mat n1 n2 S). lia. }
  unfold shift_xy_by_pi. rewrite E. destruct S as [L R]. unfold get2. rewrite zget_map, zget_roll by lia. rewrite L.
  assert (M : 0 <= (i - n1 / 2) mod n1 < n1) by (apply Z.mod_pos_bound; lia).
  destruct (@zget_in_range _ mat ((i - n1 / 2) mod n1)) as [r Er]; [lia|]. rewrite Er. cbn. rewrite zget_roll by (rewrite (R r (zget_In _ _ Er)); lia). now rewrite (R r (zget_In _ _ Er)).
Qed.
Lemma shift_val A (f : R -> R -> A) n1 n2 mat nk i j : periodic2 f -> samples2 f n1 n2 mat -> nk = None \/ nk = Some (n1, n2) -> 0 <= i < n1 -> 0 <= j < n2 ->
  get2 (shift_xy_by_pi mat nk) i j = Some (f (mom n1 i - PI + half_step n1) (mom n2 j - PI + half_step n2))%R.
Proof.
  intros P [S V] Hn Hi Hj. rewrite (shift_get S Hn Hi Hj), V by (apply Z.mod_pos_bound; lia).
  destruct (rolled_mom i (n := n1) ltac:(lia)) as [k1 E1]. destruct (rolled_mom j (n := n2) ltac:(lia)) as [k2 E2]. rewrite E1, E2. f_equal.
  rewrite (period_int (fun x => f x _)) by (intros x; apply P). now rewrite (period_int (fun y => f _ y)) by (intros y; apply P).
Qed.

(** * planes *)
Lemma nearest_found n q : 0 < n -> let k := argmin (map (fun k => Rabs (k - q)) (k_axis n)) in 0 <= k < n /\ nearest_mom n q (mom n k).
Proof.
  intros H k. destruct (find_q_nearest q H) as [H1 H2]. change (find_q_ind_1 n q) with k in *. split; [assumption|]. split; [eauto|]. intros j Hj. exact (H2 j Hj).
Qed.
Lemma nearest_exact n i k : 0 <= i < n -> nearest_mom n (mom n i) k -> k = mom n i.
Proof. intros H [_ N]. specialize (N i H). rewrite (Rminus_diag_eq (mom n i) (mom n i)), Rabs_R0 in N by reflexivity. pose proof (Rabs_pos (k - mom n i)). assert (E : Rabs (k - mom n i) = 0%R) by lra. destruct (Req_dec (k - mom n i) 0) as [Z0|Z0]; [lra|]. apply Rabs_no_R0 in Z0. contradiction. Qed.
Lemma shape3b_true A (m : list (list (list A))) a b c : shape3 m a b c -> shape3b m a b c = true.
Proof.
  intros [L R]. unfold shape3b. apply andb_true_iff. split; [now apply Z.eqb_eq|]. apply forallb_forall. intros r I. destruct (R r I) as [L2 R2]. unfold shape2b. apply andb_true_iff. split; [now apply Z.eqb_eq|].
  apply forallb_forall. intros s Is. apply Z.eqb_eq. auto.
Qed.
Lemma shape3b_conv A (m : list (list (list A))) a b c : shape3b m a b c = true -> shape3 m a b c.
Proof.
  unfold shape3b. intros H. apply andb_true_iff in H. destruct H as [H1 H2]. apply Z.eqb_eq in H1. rewrite forallb_forall in H2. split; [assumption|]. intros r I. apply shape2b_ok. auto.
Qed.
Lemma mapM_py_get A (m : list (list A)) n1 n2 k : shape2 m n1 n2 -> 0 <= k < n2 ->
  exists r, mapM (fun r => py_get r k) m = Ok r /\ zlen r = n1 /\ forall i, 0 <= i < n1 -> zget r i = get2 m i k.
Proof.
  intros [L R] Hk. revert n1 L. induction m as [|x m IH]; intros n1 L.
  - exists []. split; [reflexivity|]. split; [assumption|]. intros i Hi. rewrite zlen_nil in L. lia.
  - destruct (IH (fun r H => R r (or_intror H)) (zlen m) eq_refl) as (r & E & Lr & G). destruct (@zget_in_range _ x k) as [a Ea]; [rewrite (R x (or_introl eq_refl)); lia|].
    exists (a :: r). cbn [mapM]. rewrite (py_get_nonneg x (i := k)) with (a := a) by (assumption || lia). cbn [bind]. rewrite E. cbn [bind]. split; [reflexivity|].
    rewrite zlen_cons in *. split; [lia|]. intros i Hi. unfold get2. rewrite !zget_cons. destruct (Z.eqb_spec i 0); [cbn; now rewrite Ea|]. rewrite G by lia. reflexivity.
Qed.
Lemma mapM_mapM_get A (m : list (list (list A))) n1 n2 n3 k : shape3 m n1 n2 n3 -> 0 <= k < n3 ->
  exists r, mapM (mapM (fun s => py_get s k)) m = Ok r /\ shape2 r n1 n2 /\ forall i j, 0 <= i < n1 -> 0 <= j < n2 -> get2 r i j = get3 m i j k.
Proof.
  intros [L R] Hk. revert n1 L. induction m as [|x m IH]; intros n1 L.
  - exists []. split; [reflexivity|]. split; [split; [assumption|intros r []]|]. intros i j Hi. rewrite zlen_nil in L. lia.
  - destruct (IH (fun r H => R r (or_intror H)) (zlen m) eq_refl) as (r & E & [Lr Sr] & G). destruct (mapM_py_get (R x (or_introl eq_refl)) Hk) as (c & Ec & Lc & Gc).
    exists (c :: r). cbn [mapM]. rewrite Ec. cbn [bind]. rewrite E. cbn [bind]. split; [reflexivity|]. rewrite zlen_cons in *.
    split; [split; [rewrite zlen_cons; lia|intros y [<-|I]; auto]|]. intros i j Hi Hj. unfold get2, get3. rewrite !zget_cons. destruct (Z.eqb_spec i 0); [cbn; now apply Gc|]. apply G; lia.
Qed.
Lemma mapM_rows A (m : list (list (list A))) n1 n2 n3 k : shape3 m n1 n2 n3 -> 0 <= k < n2 ->
  exists r, mapM (fun s => py_get s k) m = Ok r /\ shape2 r n1 n3 /\ forall i l, 0 <= i < n1 -> 0 <= l < n3 -> get2 r i l = get3 m i k l.
Proof.
  intros [L R] Hk. revert n1 L. induction m as [|x m IH]; intros n1 L.
  - exists []. split; [reflexivity|]. split; [split; [assumption|intros r []]|]. intros i j Hi. rewrite zlen_nil in L. lia.
  - destruct (IH (fun r H => R r (or_intror H)) (zlen m) eq_refl) as (r & E & [Lr Sr] & G). destruct (R x (or_introl eq_refl)) as [Lx Rx]. destruct (@zget_in_range _ x k) as [a Ea]; [lia|].
    exists (a :: r). cbn [mapM]. rewrite (py_get_nonneg x (i := k)) with (a := a) by (assumption || lia). cbn [bind]. rewrite E. cbn [bind]. split; [reflexivity|]. rewrite zlen_cons in *.
    split; [split; [rewrite zlen_cons; lia|intros y [<-|I]; [apply Rx; eapply zget_In; eauto|auto]]|]. intros i l Hi Hl. unfold get2, get3. rewrite !zget_cons. destruct (Z.eqb_spec i 0); [cbn; unfold get2; now rewrite Ea|]. apply G; lia.
Qed.
Lemma slice_all A (f : R -> R -> R -> A) n1 n2 n3 mat q : 0 < n1 -> 0 < n2 -> 0 < n3 -> samples3 f n1 n2 n3 mat ->
  (exists k p, nearest_mom n1 q k /\ get_k_slice (n1, n2, n3) mat 0 q = Ok p /\ samples2 (fun y z => f k y z) n2 n3 p) /\
  (exists k p, nearest_mom n2 q k /\ get_k_slice (n1, n2, n3) mat 1 q = Ok p /\ samples2 (fun x z => f x k z) n1 n3 p) /\
  (exists k p, nearest_mom n3 q k /\ get_k_slice (n1, n2, n3) mat 2 q = Ok p /\ samples2 (fun x y => f x y k) n1 n2 p).
Proof.
  intros H1 H2 H3 [S V]. unfold get_k_slice. rewrite (shape3b_true S). cbn [negb andb Z.leb Z.ltb Z.eqb Z.compare Pos.compare Pos.compare_cont Pos.eqb]. split; [|split].
  - destruct (nearest_found q H1) as [K N]. set (k := argmin _) in *. destruct S as [L R]. destruct (@zget_in_range _ mat k) as [r Er]; [lia|].
    exists (mom n1 k), r. split; [assumption|]. split; [apply py_get_nonneg; [lia|assumption]|]. split; [apply R; eapply zget_In; eauto|].
    intros i j Hi Hj. rewrite <- V by assumption. unfold get3. now rewrite Er.
  - destruct (nearest_found q H2) as [K N]. set (k := argmin _) in *. destruct (mapM_rows S K) as (r & E & Sr & G). exists (mom n2 k), r. split; [assumption|]. split; [assumption|]. split; [assumption|].
    intros i j Hi Hj. rewrite G by assumption. now apply V.
  - destruct (nearest_found q H3) as [K N]. set (k := argmin _) in *. destruct (mapM_mapM_get S K) as (r & E & Sr & G). exists (mom n3 k), r. split; [assumption|]. split; [assumption|]. split; [assumption|].
    intros i j Hi Hj. rewrite G by assumption. now apply V.
Qed.
Lemma nearest_negative n q k : 0 < n -> (q <= 0)%R -> nearest_mom n q k -> k = 0%R.
Proof.
  intros H Hq [(i & Hi & ->) N]. specialize (N 0 ltac:(lia)). assert (N0 : (0 < IZR n)%R) by (apply IZR_lt; lia). assert (I0 : (0 <= IZR i)%R) by (apply IZR_le; lia).
  assert (M0 : mom n 0 = 0%R) by (unfold mom; field; lra). assert (Mi : (0 <= mom n i)%R).
  { unfold mom. apply Rmult_le_pos; [|left; now apply Rinv_0_lt_compat]. apply Rmult_le_pos; [pose proof PI_RGT_0; lra|assumption]. }
  rewrite M0 in N. rewrite !Rabs_right in N by lra. lra.
Qed.

(** * zero lines *)
Lemma py_int_edge i t : 0 <= i -> (0 <= t < 1)%R -> py_int (IZR i + t) = i.
Proof.
  intros Hi Ht. assert (0 <= IZR i)%R by (apply IZR_le; lia). unfold py_int. destruct (Rle_dec 0 (IZR i + t)); [|lra].
  pose proof (base_Int_part (IZR i + t)) as [B1 B2]. set (p := Int_part (IZR i + t)) in *. assert (p < i + 1) by (apply lt_IZR; rewrite plus_IZR; lra). assert (i < p + 1) by (apply lt_IZR; rewrite plus_IZR; lra). lia.
Qed.
Lemma py_int_nat i : 0 <= i -> py_int (IZR i) = i.
Proof. intros H. rewrite <- (Rplus_0_r (IZR i)). apply py_int_edge; [assumption|lra]. Qed.
Lemma np_round_edge i t : 0 <= i -> (0 <= t <= 1)%R -> np_round (IZR i + t) = i \/ np_round (IZR i + t) = i + 1.
Proof. intros Hi Ht. assert (i <= np_round (IZR i + t) <= i + 1) by (apply np_round_bounds; rewrite plus_IZR; lra). lia. Qed.
Lemma edge_product t a b : (0 <= t < 1)%R -> ((1 - t) * a + t * b = 0)%R -> (a * b <= 0)%R.
Proof.
  intros Ht E. assert (P : ((1 - t) * (a * b) <= 0)%R).
  { replace ((1 - t) * (a * b))%R with (((1 - t) * a) * b)%R by ring. replace ((1 - t) * a)%R with (- (t * b))%R by lra. replace (- (t * b) * b)%R with (- (t * (b * b)))%R by ring.
    assert (0 <= t * (b * b))%R by (apply Rmult_le_pos; [lra|apply Rle_0_sqr]). lra. }
  destruct (Rle_dec (a * b) 0) as [|N]; [assumption|]. assert (0 < (1 - t) * (a * b))%R by (apply Rmult_lt_0_compat; lra). lra.
Qed.
Lemma trunc_sign (v : Z -> Z -> option R) x y : (forall i j a, v i j = Some a -> 0 <= i /\ 0 <= j) -> zero_on_edge v x y -> sign_change_up v (py_int x) (py_int y).
Proof.
  intros Hv (i & j & t & a & b & Ht & Va & E & [(Vb & -> & ->)|(Vb & -> & ->)]); destruct (Hv _ _ _ Va) as [Hi Hj].
  - rewrite (py_int_nat Hj). destruct (Req_dec t 1) as [->|T].
    + replace (IZR i + 1)%R with (IZR (i + 1)) by (rewrite plus_IZR; ring). rewrite py_int_nat by lia. exists b. split; [assumption|]. left. lra.
    + rewrite py_int_edge by (lia || lra). exists a. split; [assumption|]. right. exists b. split; [now left|]. apply (@edge_product t); lra.
  - rewrite (py_int_nat Hi). destruct (Req_dec t 1) as [->|T].
    + replace (IZR j + 1)%R with (IZR (j + 1)) by (rewrite plus_IZR; ring). rewrite py_int_nat by lia. exists b. split; [assumption|]. left. lra.
    + rewrite py_int_edge by (lia || lra). exists a. split; [assumption|]. right. exists b. split; [now right|]. apply (@edge_product t); lra.
Qed.
Lemma np_round_nat i : np_round (IZR i) = i.
Proof. apply np_round_int. Qed.
Lemma round_sign (v : Z -> Z -> option R) x y : (forall i j a, v i j = Some a -> 0 <= i /\ 0 <= j) -> zero_on_edge v x y -> sign_change v (np_round x) (np_round y).
Proof.
  intros Hv (i & j & t & a & b & Ht & Va & E & [(Vb & -> & ->)|(Vb & -> & ->)]); destruct (Hv _ _ _ Va) as [Hi Hj].
  - rewrite np_round_nat. assert (P : t <> 1%R -> (a * b <= 0)%R) by (intros; apply (@edge_product t); lra). destruct (np_round_edge Hi Ht) as [->| ->].
    + destruct (Req_dec t 1) as [->|T]; [exists a; split; [assumption|]; right; exists b; split; [now left|]; replace b with 0%R by lra; lra|].
      exists a. split; [assumption|]. right. exists b. split; [now left|]. auto.
    + exists b. split; [assumption|]. destruct (Req_dec t 1) as [->|T]; [left; lra|]. right. exists a. replace (i + 1 - 1) with i by lia. split; [tauto|]. rewrite Rmult_comm. auto.
  - rewrite np_round_nat. assert (P : t <> 1%R -> (a * b <= 0)%R) by (intros; apply (@edge_product t); lra). destruct (np_round_edge Hj Ht) as [->| ->].
    + destruct (Req_dec t 1) as [->|T]; [exists a; split; [assumption|]; right; exists b; split; [tauto|]; replace b with 0%R by lra; lra|].
      exists a. split; [assumption|]. right. exists b. split; [tauto|]. auto.
    + exists b. split; [assumption|]. destruct (Req_dec t 1) as [->|T]; [left; lra|]. right. exists a. replace (j + 1 - 1) with j by lia. split; [tauto|]. rewrite Rmult_comm. auto.
Qed.
Definition re_at (mat : list (list C)) (i j : Z) : option R := option_map fst (get2 mat i j).
Lemma turned mat n1 n2 : shape2 mat n1 n2 -> 0 < n1 -> 0 < n2 ->
  shape2 (map (map fst) (transpose (dim1 mat) mat)) n2 n1 /\ forall i j, get2 (map (map fst) (transpose (dim1 mat) mat)) j i = re_at mat i j.
Proof.
  intros S H1 H2. rewrite (dim1_shape S H1). assert (T : shape2 (transpose n2 mat) n2 n1) by (apply transpose_shape; [lia|assumption]).
  assert (TM : shape2 (map (map fst) (transpose n2 mat)) n2 n1) by now apply shape2_map. split; [assumption|].
  intros i j. assert (E : get2 (map (map fst) (transpose n2 mat)) j i = option_map fst (get2 (transpose n2 mat) j i)).
  { unfold get2. rewrite zget_map. destruct (zget (transpose n2 mat) j); [|reflexivity]. cbn. now rewrite zget_map. }
  rewrite E. unfold re_at. destruct (get2 mat i j) as [a|] eqn:Ea.
  - destruct (get2_inv _ _ S Ea). rewrite (get2_transpose S) by lia. reflexivity.
  - destruct (get2 (transpose n2 mat) j i) as [b|] eqn:Eb; [|etransitivity; [|symmetry; exact (f_equal (option_map fst) Ea)]; reflexivity]. destruct (get2_inv _ _ T Eb). rewrite (get2_transpose S) in Eb by lia. congruence.
Qed.
Lemma zero_line_ext v v' l : (forall i j, v i j = v' i j) -> is_zero_line v l -> is_zero_line v' l.
Proof.
  intros E [H1 H2]. split.
  - intros x y I. destruct (H1 x y I) as (i & j & t & a & b & Ht & Va & Ee & C). exists i, j, t, a, b. rewrite <- !E. tauto.
  - intros i j a b. rewrite <- !E. apply H2.
Qed.
Lemma find_zeros_ok contour mat n1 n2 : draws_zero_lines contour -> shape2 mat n1 n2 -> 2 <= n1 -> 2 <= n2 ->
  exists l, find_zeros contour mat = Ok (map (fun v => (py_int (fst v), py_int (snd v))) l) /\ is_zero_line (re_at mat) l.
Proof.
  intros D S H1 H2. destruct (turned S) as [T G]; [lia|lia|]. unfold find_zeros, plt_contour. unfold C in *. set (z := map (map fst) (transpose (dim1 mat) mat)) in *.
  destruct T as [L R]. rewrite L. rewrite (dim1_shape (conj L R)) by lia. destruct (Z.ltb_spec n2 2); [lia|]. destruct (Z.ltb_spec n1 2); [lia|]. cbn [orb bind].
  exists (concat (contour z)). split; [reflexivity|]. apply (@zero_line_ext (fun x y => get2 z y x)); [intros i j; apply G|]. now apply (D z n2 n1).
Qed.
Lemma re_at_range mat n1 n2 : shape2 mat n1 n2 -> forall i j a, re_at mat i j = Some a -> (0 <= i < n1) /\ (0 <= j < n2).
Proof. intros S i j a H. unfold re_at in H. destruct (get2 mat i j) eqn:E; [|discriminate]. apply (get2_inv _ _ S E). Qed.
Lemma quadrant_shape A (g : list (list A)) n1 n2 : shape2 g n1 n2 -> 0 <= n1 -> 0 <= n2 ->
  shape2 (map (fun r => slice r 0 (n2 / 2)) (slice g 0 (n1 / 2))) (n1 / 2) (n2 / 2) /\
  forall i j, 0 <= i < n1 / 2 -> 0 <= j < n2 / 2 -> get2 (map (fun r => slice r 0 (n2 / 2)) (slice g 0 (n1 / 2))) i j = get2 g i j.
Proof.
  intros [L R] H1 H2. assert (B1 : 0 <= n1 / 2 <= n1) by (split; [apply Z.div_pos; lia|apply Z.div_le_upper_bound; lia]).
  assert (B2 : 0 <= n2 / 2 <= n2) by (split; [apply Z.div_pos; lia|apply Z.div_le_upper_bound; lia]).
  assert (Rs : forall r, In r (slice g 0 (n1 / 2)) -> zlen r = n2).
  { intros r I. apply R. apply In_zget in I. destruct I as (i & Hi & Hg). rewrite zlen_slice_in in Hi by lia. rewrite zget_slice_in in Hg by lia. eapply zget_In; eauto. }
  split.
  - split; [rewrite zlen_map, zlen_slice_in; lia|]. intros r I. apply in_map_iff in I. destruct I as (r' & <- & I). rewrite zlen_slice_in; [lia|lia|rewrite (Rs r' I); lia].
  - intros i j Hi Hj. unfold get2. rewrite zget_map, zget_slice_in by lia. rewrite Z.add_0_l. destruct (zget g i) as [r|] eqn:E; [|reflexivity]. cbn.
    rewrite zget_slice_in; [now rewrite Z.add_0_l|lia| |lia]. rewrite (R r (zget_In _ _ E)). lia.
Qed.
