(** C103: data shown over momenta: shifts by pi, planes, zero lines. *)
From Coq Require Import ZArith Reals List Lra Lia.
From Verif Require Import Base.PyBase Base.PyFacts Base.Arr Model.BrillouinZone Model.KPath Model.MaxEnt Model.LocalCont Model.ShownK Spec.ShownKSpec Proofs.KPathP Proofs.ShownKP.
Import ListNotations.
Local Open Scope Z_scope.

(** On grids with even numbers of momenta the shifted array has, at every point of the shifted axes, the value of the function at that momentum. *)
Theorem C103_shift_even : forall A (f : R -> R -> A) n1 n2 mat nk i j, periodic2 f -> samples2 f n1 n2 mat -> Z.even n1 = true -> Z.even n2 = true ->
  nk = None \/ nk = Some (n1, n2) -> 0 <= i < n1 -> 0 <= j < n2 ->
  exists kx ky, zget (k_shift n1) i = Some kx /\ zget (k_shift n2) j = Some ky /\ get2 (shift_xy_by_pi mat nk) i j = Some (f kx ky).
Proof.
  intros A f n1 n2 mat nk i j P S E1 E2 Hn Hi Hj. exists (mom n1 i - PI)%R, (mom n2 j - PI)%R. rewrite !zget_k_shift by assumption. split; [reflexivity|]. split; [reflexivity|].
  rewrite (@shift_val A f n1 n2 mat nk i j P S Hn Hi Hj). unfold half_step. rewrite E1, E2. now rewrite !Rplus_0_r.
Qed.
Print Assumptions C103_shift_even.
(** The shifted axis runs from -pi in steps of 2 pi / n. *)
Theorem C103_axes : forall n i, 0 <= i < n -> zlen (k_shift n) = n /\ zget (k_shift n) i = Some (- PI + 2 * PI * IZR i / IZR n)%R.
Proof.
  intros n i H. split; [unfold k_shift; rewrite zlen_map, zlen_k_axis; lia|]. rewrite zget_k_shift by assumption. f_equal. unfold mom. ring.
Qed.
Print Assumptions C103_axes.
Theorem C103_extent : forall n1 n2, 0 < n1 -> 0 < n2 ->
  get_extent n1 n2 = Ok [0; 2 * PI * IZR (n1 - 1) / IZR n1; 0; 2 * PI * IZR (n2 - 1) / IZR n2]%R /\
  exists a b c d, get_extent_pi_shift n1 n2 = Ok [a; b; c; d] /\ zget (k_shift n1) 0 = Some a /\ zget (k_shift n1) (n1 - 1) = Some b /\ zget (k_shift n2) 0 = Some c /\ zget (k_shift n2) (n2 - 1) = Some d.
Proof.
  intros n1 n2 H1 H2. assert (L : forall n, 0 < n -> py_get (k_axis n) (-1) = Ok (mom n (n - 1)) /\ py_get (k_axis n) 0 = Ok 0%R).
  { intros n H. split.
    - unfold py_get. cbn [Z.ltb Z.compare]. rewrite zlen_k_axis by lia. replace (-1 + n) with (n - 1) by lia. now rewrite zget_k_axis by lia.
    - erewrite py_get_nonneg; [reflexivity|lia|]. rewrite zget_k_axis by lia. f_equal. unfold k_axis_val. field. apply not_0_IZR. lia. }
  destruct (L n1 H1) as [A1 A2]. destruct (L n2 H2) as [B1 B2].
  assert (E : get_extent n1 n2 = Ok [0; 2 * PI * IZR (n1 - 1) / IZR n1; 0; 2 * PI * IZR (n2 - 1) / IZR n2]%R) by (unfold get_extent; rewrite A1, A2, B1, B2; reflexivity).
  split; [assumption|]. unfold get_extent_pi_shift. rewrite E. cbn [bind map]. do 4 eexists. split; [reflexivity|]. rewrite !zget_k_shift by lia.
  repeat split; f_equal; unfold mom; field; apply not_0_IZR; lia.
Qed.
Print Assumptions C103_extent.
(** Finding: with an odd number of momenta pi is not on the grid; the shown value belongs to a momentum half a step away. *)
Theorem C103_shift_odd_refuted : forall n1 n2, 0 < n1 -> 0 < n2 -> Z.odd n1 = true ->
  (forall A (f : R -> R -> A) mat nk i j, periodic2 f -> samples2 f n1 n2 mat -> Z.even n2 = true -> nk = None \/ nk = Some (n1, n2) -> 0 <= i < n1 -> 0 <= j < n2 ->
     exists kx ky, zget (k_shift n1) i = Some kx /\ zget (k_shift n2) j = Some ky /\ get2 (shift_xy_by_pi mat nk) i j = Some (f (kx + PI / IZR n1)%R ky)) /\
  exists (f : R -> R -> R) mat, periodic2 f /\ samples2 f n1 n2 mat /\
    exists kx ky, zget (k_shift n1) 0 = Some kx /\ zget (k_shift n2) 0 = Some ky /\ get2 (shift_xy_by_pi mat None) 0 0 <> Some (f kx ky).
Proof.
  intros n1 n2 H1 H2 Ho. assert (Ev : Z.even n1 = false) by (rewrite <- Z.negb_odd, Ho; reflexivity). split.
  - intros A f mat nk i j P S E2 Hn Hi Hj. exists (mom n1 i - PI)%R, (mom n2 j - PI)%R. rewrite !zget_k_shift by assumption. split; [reflexivity|]. split; [reflexivity|].
    rewrite (@shift_val A f n1 n2 mat nk i j P S Hn Hi Hj). unfold half_step. rewrite Ev, E2. now rewrite Rplus_0_r.
  - set (f := fun x _ : R => cos x). set (mat := map (fun i => map (fun j => f (mom n1 i) (mom n2 j)) (arange 0 n2)) (arange 0 n1)).
    assert (P : periodic2 f).
    { intros x y. split; [|reflexivity]. unfold f. rewrite cos_plus, cos_2PI, sin_2PI. ring. }
    assert (S : samples2 f n1 n2 mat).
    { split; [split|].
      - unfold mat. rewrite zlen_map, zlen_arange. lia.
      - intros r I. unfold mat in I. apply in_map_iff in I. destruct I as (i & <- & _). rewrite zlen_map, zlen_arange. lia.
      - intros i j Hi Hj. unfold mat, get2. rewrite zget_map, zget_arange by lia. cbn. now rewrite zget_map, zget_arange by lia. }
    exists f, mat. split; [assumption|]. split; [assumption|]. exists (mom n1 0 - PI)%R, (mom n2 0 - PI)%R. rewrite !zget_k_shift by lia. split; [reflexivity|]. split; [reflexivity|].
    rewrite (@shift_val R f n1 n2 mat None 0 0 P S) by (tauto || lia). unfold half_step. rewrite Ev. unfold f.
    assert (N : (1 <= IZR n1)%R) by (apply IZR_le; lia). assert (Pp := PI_RGT_0).
    assert (M0 : mom n1 0 = 0%R) by (unfold mom; field; lra). rewrite M0. intros E. injection E as E.
    replace (0 - PI + PI / IZR n1)%R with (- (PI - PI / IZR n1))%R in E by ring. replace (0 - PI)%R with (- PI)%R in E by ring. rewrite !cos_neg, cos_PI in E.
    assert (Q : (0 < PI / IZR n1 <= PI)%R).
    { split; [apply Rmult_lt_0_compat; [assumption|apply Rinv_0_lt_compat; lra]|]. apply (Rmult_le_reg_r (IZR n1)); [lra|]. replace (PI / IZR n1 * IZR n1)%R with PI by (field; lra). rewrite <- (Rmult_1_r PI) at 1. apply Rmult_le_compat_l; lra. }
    assert (cos PI < cos (PI - PI / IZR n1))%R by (apply cos_decreasing_1; lra). rewrite cos_PI in *. lra.
Qed.
Print Assumptions C103_shift_odd_refuted.

(** A plane of constant momentum is the plane of the mesh momentum nearest to the given one, for each of the three directions. *)
Theorem C103_plane : forall A (f : R -> R -> R -> A) n1 n2 n3 mat q, 0 < n1 -> 0 < n2 -> 0 < n3 -> samples3 f n1 n2 n3 mat ->
  (exists k p, nearest_mom n1 q k /\ get_k_slice (n1, n2, n3) mat 0 q = Ok p /\ samples2 (fun y z => f k y z) n2 n3 p) /\
  (exists k p, nearest_mom n2 q k /\ get_k_slice (n1, n2, n3) mat 1 q = Ok p /\ samples2 (fun x z => f x k z) n1 n3 p) /\
  (exists k p, nearest_mom n3 q k /\ get_k_slice (n1, n2, n3) mat 2 q = Ok p /\ samples2 (fun x y => f x y k) n1 n2 p).
Proof. intros. now apply slice_all. Qed.
Print Assumptions C103_plane.
(** ... which is the given momentum if that is on the mesh. *)
Theorem C103_plane_on_mesh : forall n i k, 0 <= i < n -> nearest_mom n (mom n i) k -> k = mom n i.
Proof. intros n i k. apply nearest_exact. Qed.
Print Assumptions C103_plane_on_mesh.
Theorem C103_plane_refused : forall A nk (mat : list (list (list A))) d q, (let '(n1, n2, n3) := nk in ~ shape3 mat n1 n2 n3) \/ d < 0 \/ 3 <= d -> get_k_slice nk mat d q = Raise AssertionError.
Proof.
  intros A [[n1 n2] n3] mat d q H. unfold get_k_slice. destruct (Z.leb_spec 0 d); [|reflexivity]. destruct (Z.ltb_spec d 3); [|reflexivity]. cbn [negb andb].
  destruct (shape3b mat n1 n2 n3) eqn:S; [|reflexivity]. destruct H as [H|H]; [|lia]. exfalso. apply H. now apply shape3b_conv.
Qed.
Print Assumptions C103_plane_refused.
(** Finding: momenta are compared on the line, not on the zone: for every negative momentum the plane is that of momentum zero, although e.g. minus one step
    is equivalent to the last mesh momentum. *)
Theorem C103_plane_negative_refuted : forall A (f : R -> R -> R -> A) n1 n2 n3 mat q, 0 < n1 -> 0 < n2 -> 0 < n3 -> samples3 f n1 n2 n3 mat -> (q <= 0)%R ->
  (exists p, get_k_slice (n1, n2, n3) mat 0 q = Ok p /\ samples2 (f 0%R) n2 n3 p) /\ (- (2 * PI / IZR n1) + 2 * PI = mom n1 (n1 - 1))%R.
Proof.
  intros A f n1 n2 n3 mat q H1 H2 H3 S Hq. split.
  - destruct (slice_all q H1 H2 H3 S) as [(k & p & N & E & V) _]. rewrite (nearest_negative H1 Hq N) in V. eauto.
  - unfold mom. rewrite minus_IZR. field. apply not_0_IZR. lia.
Qed.
Print Assumptions C103_plane_negative_refuted.
(** Finding: a plane of the shifted Green's function is searched with the unshifted axis: along x (and y) it is the plane at the momentum plus pi.  Along z,
    which is not shifted, it is the plane at the nearest momentum. *)
Theorem C103_plane_shifted_finding : forall (f : R -> R -> R -> C) n1 n2 n3 g i, 0 < n1 -> 0 < n2 -> 0 < n3 -> samples3 f n1 n2 n3 g ->
  (forall x y z, f (x + 2 * PI)%R y z = f x y z /\ f x (y + 2 * PI)%R z = f x y z) -> Z.even n1 = true -> Z.even n2 = true -> 0 <= i < n1 ->
  (exists p, get_k_slice (n1, n2, n3) (gwk g true) 0 (mom n1 i) = Ok p /\ samples2 (fun y z => f (mom n1 i + PI) (y + PI) z)%R n2 n3 p) /\
  (forall q, exists k p, nearest_mom n3 q k /\ get_k_slice (n1, n2, n3) (gwk g true) 2 q = Ok p /\ samples2 (fun x y => f (x + PI) (y + PI) k)%R n1 n2 p).
Proof.
  intros f n1 n2 n3 g i H1 H2 H3 [S V] P E1 E2 Hi.
  assert (S' : samples3 (fun x y z => f (x + PI) (y + PI) z)%R n1 n2 n3 (gwk g true)).
  { assert (Sh : shape2 g n1 n2) by (destruct S as [L R]; split; [assumption|]; intros r I; apply (R r I)). unfold gwk. split.
    - destruct (shift_shape None Sh) as [L2 R2]. split; [assumption|]. intros r I. split; [now apply R2|]. intros s Is. apply In_zget in I. destruct I as (a & Ha & Ea). apply In_zget in Is. destruct Is as (b & Hb & Eb).
      assert (zlen r = n2) by (apply R2; eapply zget_In; eauto).
      assert (G : get2 (shift_xy_by_pi g None) a b = Some s) by (unfold get2; now rewrite Ea). rewrite (@shift_get _ g n1 n2) in G by (assumption || tauto || lia).
      unfold get2 in G. destruct (zget g ((a - n1 / 2) mod n1)) as [r'|] eqn:Er; [|discriminate]. cbn in G. destruct S as [_ R]. destruct (R r' (zget_In _ _ Er)) as [_ R']. apply R'. eapply zget_In; eauto.
    - intros a b l Ha Hb Hl. unfold get3. assert (G : get2 (shift_xy_by_pi g None) a b = get2 g ((a - n1 / 2) mod n1) ((b - n2 / 2) mod n2)) by (apply shift_get; [assumption|tauto|assumption|assumption]).
      assert (G3 : forall (m : list (list (list C))) a b, obind (zget m a) (fun r => get2 r b l) = obind (get2 m a b) (fun s => zget s l)).
      { intros m a' b'. unfold get2. destruct (zget m a'); reflexivity. }
      rewrite G3, G, <- G3. change (get3 g ((a - n1 / 2) mod n1) ((b - n2 / 2) mod n2) l = Some (f (mom n1 a + PI) (mom n2 b + PI) (mom n3 l))%R).
      rewrite V by (assumption || (apply Z.mod_pos_bound; lia)). destruct (@rolled_mom n1 a H1) as [k1 M1]. destruct (@rolled_mom n2 b H2) as [k2 M2]. rewrite M1, M2. unfold half_step. rewrite E1, E2, !Rplus_0_r. f_equal.
      rewrite (period_int (fun x => f x _ _)) by (intros x; apply P). rewrite (period_int (fun y => f _ y _)) by (intros y; apply P).
      rewrite <- (proj1 (P (mom n1 a - PI)%R _ _)). rewrite <- (proj2 (P _ (mom n2 b - PI)%R _)). f_equal; ring. }
  split.
  - destruct (slice_all (mom n1 i) H1 H2 H3 S') as [(k & p & N & E & Vp) _]. apply nearest_exact in N; [|assumption]. subst k. eauto.
  - intros q. destruct (slice_all q H1 H2 H3 S') as (_ & _ & k & p & N & E & Vp). eauto.
Qed.
Print Assumptions C103_plane_shifted_finding.

(** Zero crossings: every point that is found has the value zero or a sign change to its next neighbour in x or y, and every sign change between neighbours
    is found at its lower end. *)
Theorem C103_zeros : forall contour (mat : list (list C)) n1 n2, draws_zero_lines contour -> shape2 mat n1 n2 -> 2 <= n1 -> 2 <= n2 ->
  let re i j := option_map fst (get2 mat i j) in
  exists l, find_zeros contour mat = Ok l /\ (forall i j, In (i, j) l -> 0 <= i < n1 /\ 0 <= j < n2 /\ sign_change_up re i j) /\
    (forall i j a b, re i j = Some a -> re (i + 1) j = Some b \/ re i (j + 1) = Some b -> (a * b < 0)%R -> In (i, j) l).
Proof.
  intros contour mat n1 n2 D S H1 H2 re. destruct (find_zeros_ok D S H1 H2) as (l & E & [Z1 Z2]). exists (map (fun v => (py_int (fst v), py_int (snd v))) l). split; [assumption|].
  assert (Rg := re_at_range S). split.
  - intros i j I. apply in_map_iff in I. destruct I as ((x & y) & Exy & I). injection Exy as <- <-. cbn [fst snd].
    assert (U : sign_change_up re (py_int x) (py_int y)) by (apply trunc_sign; [intros i j a Ha; destruct (Rg i j a Ha); lia|apply Z1; assumption]).
    destruct U as (a & Ua & U). destruct (Rg _ _ _ Ua). split; [assumption|]. split; [assumption|]. exists a. tauto.
  - intros i j a b Ra Rb Hab. destruct (Rg _ _ _ Ra) as [Hi Hj]. destruct (Z2 i j a b Ra Hab) as [Q1 Q2]. apply in_map_iff. destruct Rb as [Rb|Rb].
    + destruct (Q1 Rb) as (t & Ht & I). exists (IZR i + t, IZR j)%R. split; [|assumption]. cbn [fst snd]. rewrite py_int_edge by (lia || lra). now rewrite py_int_nat by lia.
    + destruct (Q2 Rb) as (t & Ht & I). exists (IZR i, IZR j + t)%R. split; [|assumption]. cbn [fst snd]. rewrite (py_int_edge (i := j)) by (lia || lra). now rewrite py_int_nat by lia.
Qed.
Print Assumptions C103_zeros.
(** Without a change of sign nothing is found (and no error raised). *)
Theorem C103_no_zeros : forall contour (mat : list (list C)) n1 n2, draws_zero_lines contour -> shape2 mat n1 n2 -> 2 <= n1 -> 2 <= n2 ->
  (forall i j z, get2 mat i j = Some z -> (0 < fst z)%R) -> find_zeros contour mat = Ok [].
Proof.
  intros contour mat n1 n2 D S H1 H2 P. destruct (C103_zeros contour mat n1 n2 D S H1 H2) as (l & E & Q & _). rewrite E. destruct l as [|[i j] l]; [reflexivity|].
  destruct (Q i j (or_introl eq_refl)) as (_ & _ & a & Ra & H). assert (Pos : forall i j x, option_map fst (get2 mat i j) = Some x -> (0 < x)%R).
  { intros i' j' x Hx. destruct (get2 mat i' j') as [z|] eqn:Ez; [|discriminate]. injection Hx as <-. now apply (P i' j'). }
  pose proof (Pos _ _ _ Ra). destruct H as [->|(b & [Rb|Rb] & Hb)]; [lra| |]; pose proof (Pos _ _ _ Rb); assert (0 < a * b)%R by (apply Rmult_lt_0_compat; assumption); lra.
Qed.
Print Assumptions C103_no_zeros.
(** Finding: a change of sign between the last and the first momentum, which are neighbours on the zone, is not found. *)
Theorem C103_zeros_boundary_refuted : forall contour (mat : list (list C)) n1 n2, draws_zero_lines contour -> shape2 mat n1 n2 -> 3 <= n1 -> 2 <= n2 ->
  (forall i j, 0 <= i < n1 -> 0 <= j < n2 -> exists z, get2 mat i j = Some z /\ fst z = if i =? n1 - 1 then (-1)%R else 1%R) ->
  exists l, find_zeros contour mat = Ok l /\ forall i j, In (i, j) l -> i = n1 - 2.
Proof.
  intros contour mat n1 n2 D S H1 H2 P. destruct (C103_zeros contour mat n1 n2 D S ltac:(lia) H2) as (l & E & Q & _). exists l. split; [assumption|]. intros i j I.
  destruct (Q i j I) as (Hi & Hj & a & Ra & H).
  assert (V : forall i j x, option_map fst (get2 mat i j) = Some x -> 0 <= i < n1 /\ x = if i =? n1 - 1 then (-1)%R else 1%R).
  { intros i' j' x Hx. destruct (get2 mat i' j') as [z|] eqn:Ez; [|discriminate]. injection Hx as <-. destruct (get2_inv _ _ S Ez). destruct (P i' j') as (z' & Ez' & Fz); [assumption|assumption|]. split; [assumption|congruence]. }
  destruct (V _ _ _ Ra) as [_ Ea]. destruct H as [H|(b & [Rb|Rb] & Hb)].
  - destruct (i =? n1 - 1); lra.
  - destruct (V _ _ _ Rb) as [Hb1 Eb]. destruct (Z.eqb_spec i (n1 - 1)); [lia|]. destruct (Z.eqb_spec (i + 1) (n1 - 1)); [lia|]. subst a b. lra.
  - destruct (V _ _ _ Rb) as [_ Eb]. subst a b. destruct (i =? n1 - 1); lra.
Qed.
Print Assumptions C103_zeros_boundary_refuted.

(** The zero contour of a plane: two arrays of the same length; the first counts the columns of the data, i.e. the second momentum; every point is next to
    a change of sign. *)
Theorem C103_contour : forall contour data n1 n2 xs ys, draws_zero_lines contour -> shape2 data n1 n2 -> get_zero_contour contour data = Ok (xs, ys) ->
  zlen xs = zlen ys /\ forall m x y, zget xs m = Some x -> zget ys m = Some y -> 0 <= x < n2 /\ 0 <= y < n1 /\ sign_change (fun x y => get2 data y x) x y.
Proof.
  intros contour data n1 n2 xs ys D S H. unfold get_zero_contour, plt_contour in H. destruct S as [L R]. destruct (Z.ltb_spec (zlen data) 2); [discriminate|]. rewrite (@dim1_shape _ data n1 n2 (conj L R)) in H by lia.
  destruct (Z.ltb_spec n2 2); [discriminate|]. cbn [orb bind] in H. pose proof (D data n1 n2 (conj L R) ltac:(lia) ltac:(lia)) as [Z1 _].
  assert (E : xs = map (fun v => np_round (fst v)) (concat (contour data)) /\ ys = map (fun v => np_round (snd v)) (concat (contour data))) by (destruct (contour data); [discriminate|]; injection H as <- <-; split; reflexivity).
  destruct E as [-> ->]. split; [now rewrite !zlen_map|]. intros m x y Hx Hy. rewrite zget_map in Hx, Hy. destruct (zget (concat (contour data)) m) as [[u w]|] eqn:Em; [|discriminate]. cbn in Hx, Hy. injection Hx as <-. injection Hy as <-.
  assert (Rg : forall i j a, get2 data j i = Some a -> (0 <= i < n2) /\ (0 <= j < n1)) by (intros i j a Ha; destruct (get2_inv _ _ (conj L R) Ha); tauto).
  assert (U : sign_change (fun x y => get2 data y x) (np_round u) (np_round w)) by (apply round_sign; [intros i j a Ha; destruct (Rg i j a Ha); lia|apply Z1; eapply zget_In; eauto]).
  destruct U as (a & Ua & U). destruct (Rg _ _ _ Ua). split; [assumption|]. split; [assumption|]. exists a. tauto.
Qed.
Print Assumptions C103_contour.
(** Finding: without any path the call raises (an unbound variable). *)
Theorem C103_no_contour_refuted : forall contour data n1 n2, shape2 data n1 n2 -> 2 <= n1 -> 2 <= n2 -> contour data = [] -> get_zero_contour contour data = Raise RuntimeError.
Proof.
  intros contour data n1 n2 [L R] H1 H2 E. unfold get_zero_contour, plt_contour. rewrite (@dim1_shape _ data n1 n2 (conj L R)) by lia. rewrite L.
  destruct (Z.ltb_spec n1 2); [lia|]. destruct (Z.ltb_spec n2 2); [lia|]. cbn [orb bind]. now rewrite E.
Qed.
Print Assumptions C103_no_contour_refuted.

(** The check of the Green's function on the root does not raise, with or without Fermi surface, if both directions have at least four momenta; the points
    it marks are momenta of the first quadrant (below pi) with a change of sign; and it marks points if the sign changes. *)
Theorem C103_checks : forall contour (g : list (list C)) n1 n2, draws_zero_lines contour -> shape2 g n1 n2 -> 4 <= n1 -> 4 <= n2 ->
  let re i j := option_map fst (get2 g i j) in
  exists pts ind, default_giwk_checks contour n1 n2 g = Ok (pts, ind) /\
    (forall l kx ky, pts = Some l -> In (kx, ky) l -> exists i j, 0 <= i < n1 / 2 /\ 0 <= j < n2 / 2 /\ kx = mom n1 i /\ ky = mom n2 j /\ (0 <= kx < PI)%R /\ (0 <= ky < PI)%R /\ sign_change_up re i j) /\
    (forall l i j, ind = Some l -> In (i, j) l -> 0 <= i < n1 / 2 /\ 0 <= j < n2 / 2 /\ sign_change_up re i j) /\
    (forall i j a b, 0 <= i -> 0 <= j -> i + 1 < n1 / 2 -> j < n2 / 2 -> re i j = Some a -> re (i + 1) j = Some b -> (a * b < 0)%R -> pts <> None).
Proof.
  intros contour g n1 n2 D S H1 H2 re. destruct (quadrant_shape S) as [Sq Gq]; [lia|lia|]. unfold default_giwk_checks. cbn zeta.
  set (quad := map (fun r => slice r 0 (n2 / 2)) (slice g 0 (n1 / 2))) in *.
  assert (B1 : 2 <= n1 / 2) by (apply Z.div_le_lower_bound; lia). assert (B2 : 2 <= n2 / 2) by (apply Z.div_le_lower_bound; lia).
  destruct (C103_zeros contour quad (n1 / 2) (n2 / 2) D Sq B1 B2) as (l & E & Q1 & Q2). rewrite E. cbn [bind].
  assert (Half : forall p, In p (slice l 0 (zlen l / 2)) -> In p l).
  { intros p I. apply In_zget in I. destruct I as (m & Hm & Em). pose proof (zlen_nonneg l). assert (0 <= zlen l / 2 <= zlen l) by (split; [apply Z.div_pos; lia|apply Z.div_le_upper_bound; lia]).
    rewrite zlen_slice_in in Hm by lia. rewrite zget_slice_in in Em by lia. eapply zget_In; eauto. }
  set (half := slice l 0 (zlen l / 2)) in *.
  assert (Mul : 2 * (n1 / 2) <= n1 /\ 2 * (n2 / 2) <= n2) by (split; apply Z.mul_div_le; lia).
  assert (Bd : forall i j, In (i, j) half -> (0 <= i < n1 / 2) /\ (0 <= j < n2 / 2) /\ sign_change_up re i j).
  { intros i j I. destruct (Q1 i j (Half _ I)) as (Hi & Hj & a & Ra & C). split; [assumption|]. split; [assumption|].
    assert (Up : forall i j x, option_map fst (get2 quad i j) = Some x -> re i j = Some x).
    { intros i' j' x Hx. destruct (get2 quad i' j') as [z|] eqn:Ez; [|discriminate]. destruct (get2_inv _ _ Sq Ez). unfold re. rewrite <- Gq by assumption. now rewrite Ez. }
    exists a. split; [now apply Up|]. destruct C as [C|(b & [Rb|Rb] & C)]; [now left|right; exists b; split; [left; now apply Up|assumption]|right; exists b; split; [right; now apply Up|assumption]]. }
  assert (Tk : forall n (idx : list Z), (forall i, In i idx -> 0 <= i < n) -> take (k_axis n) idx = Ok (map (mom n) idx)) by (intros n idx Hi; now apply take_axis).
  rewrite (Tk n1 (map fst half)) by (intros i I; apply in_map_iff in I; destruct I as ([i' j'] & <- & I); destruct (Bd _ _ I) as (? & ? & _); cbn; lia).
  rewrite (Tk n2 (map snd half)) by (intros i I; apply in_map_iff in I; destruct I as ([i' j'] & <- & I); destruct (Bd _ _ I) as (? & ? & _); cbn; lia). cbn [bind].
  assert (Cmb : forall h : list (Z * Z), combine (map (mom n1) (map fst h)) (map (mom n2) (map snd h)) = map (fun p => (mom n1 (fst p), mom n2 (snd p))) h) by (induction h as [|p h IH]; [reflexivity|]; cbn; now rewrite IH).
  rewrite Cmb.
  assert (Lt : forall n i, 0 < n -> 2 * (n / 2) <= n -> 0 <= i < n / 2 -> (0 <= mom n i < PI)%R).
  { intros n i Hn Hm Hi. assert (N : (0 < IZR n)%R) by (apply IZR_lt; lia). assert (I0 : (0 <= IZR i)%R) by (apply IZR_le; lia). assert (I1 : (2 * IZR i < IZR n)%R) by (rewrite <- mult_IZR; apply IZR_lt; lia). assert (P := PI_RGT_0). unfold mom. split.
    - apply Rmult_le_pos; [|left; now apply Rinv_0_lt_compat]. apply Rmult_le_pos; [lra|assumption].
    - apply (Rmult_lt_reg_r (IZR n)); [assumption|]. replace (2 * PI * IZR i / IZR n * IZR n)%R with (PI * (2 * IZR i))%R by (field; lra). apply Rmult_lt_compat_l; lra. }
  exists (match l with [] => None | _ => Some (map (fun p => (mom n1 (fst p), mom n2 (snd p))) half) end), (match half with [] => None | _ => Some half end).
  split; [destruct l; reflexivity|]. split; [|split].
  - intros l' kx ky El I. assert (I' : In (kx, ky) (map (fun p => (mom n1 (fst p), mom n2 (snd p))) half)) by (destruct l; [discriminate|]; injection El as <-; assumption).
    apply in_map_iff in I'. destruct I' as ((i & j) & Ek & I'). injection Ek as <- <-. destruct (Bd _ _ I') as (Hi & Hj & U). exists i, j. cbn [fst snd].
    split; [assumption|]. split; [assumption|]. split; [reflexivity|]. split; [reflexivity|]. split; [apply Lt; lia|]. split; [apply Lt; lia|assumption].
  - intros l' i j El I. assert (I' : In (i, j) half) by (destruct half; [discriminate|]; injection El as <-; assumption). now apply Bd.
  - intros i j a b Hi Hj Hi1 Hj1 Ra Rb Hab. assert (I : In (i, j) l); [|destruct l; [destruct I|discriminate]]. apply (Q2 i j a b); [|left|assumption]; rewrite Gq by lia; assumption.
Qed.
Print Assumptions C103_checks.
(** Finding: with fewer than four momenta in a direction it raises, before the Green's function is saved. *)
Theorem C103_checks_small_refuted : forall contour (g : list (list C)) n1 n2, shape2 g n1 n2 -> 0 <= n1 -> 0 <= n2 -> n1 < 4 \/ n2 < 4 -> default_giwk_checks contour n1 n2 g = Raise TypeError.
Proof.
  intros contour g n1 n2 S H1 H2 H. destruct (quadrant_shape S) as [Sq _]; [lia|lia|]. unfold default_giwk_checks. cbn zeta. set (quad := map (fun r => slice r 0 (n2 / 2)) (slice g 0 (n1 / 2))) in *.
  assert (E : find_zeros contour quad = Raise TypeError); [|now rewrite E].
  assert (Hh : n1 / 2 < 2 \/ n2 / 2 < 2) by (destruct H; [left|right]; apply Z.div_lt_upper_bound; lia).
  unfold find_zeros, plt_contour. unfold C in *. clearbody quad. destruct (Z.eq_dec (n1 / 2) 0) as [Z0|Z0].
  - destruct Sq as [L R]. destruct quad; [reflexivity|]. rewrite zlen_cons in L. pose proof (zlen_nonneg quad). lia.
  - assert (P : 0 < n1 / 2) by (destruct Sq as [L R]; pose proof (zlen_nonneg quad); lia). rewrite (dim1_shape Sq P).
    rewrite zlen_map. assert (B2 : 0 <= n2 / 2) by (apply Z.div_pos; lia). pose proof (transpose_shape B2 Sq) as T. destruct (Z.ltb_spec (zlen (transpose (n2 / 2) quad)) 2) as [|Hz]; [reflexivity|].
    rewrite (proj1 T) in Hz. rewrite (@dim1_shape _ (map (map fst) (transpose (n2 / 2) quad)) (n2 / 2) (n1 / 2)) by (try lia; now apply shape2_map).
    destruct (Z.ltb_spec (n1 / 2) 2); [reflexivity|lia].
Qed.
Print Assumptions C103_checks_small_refuted.
(** Only the first half of the crossings is shown. *)
Theorem C103_checks_half : forall contour (g : list (list C)) n1 n2 l pts ind, find_zeros contour (map (fun r => slice r 0 (n2 / 2)) (slice g 0 (n1 / 2))) = Ok l ->
  default_giwk_checks contour n1 n2 g = Ok (pts, ind) -> match ind with Some h => h = firstn (Z.to_nat (zlen l / 2)) l | None => zlen l < 2 end.
Proof.
  intros contour g n1 n2 l pts ind E H. unfold default_giwk_checks in H. rewrite E in H. cbn [bind] in H. injection H as _ <-.
  pose proof (zlen_nonneg l). assert (B : 0 <= zlen l / 2 <= zlen l) by (split; [apply Z.div_pos; lia|apply Z.div_le_upper_bound; lia]).
  assert (F : slice l 0 (zlen l / 2) = firstn (Z.to_nat (zlen l / 2)) l) by (unfold slice; rewrite !clampi_id by lia; rewrite Z.sub_0_r; reflexivity).
  assert (Z : zlen (slice l 0 (zlen l / 2)) = zlen l / 2) by (rewrite zlen_slice_in; lia).
  destruct (slice l 0 (zlen l / 2)); [|assumption]. rewrite zlen_nil in Z. pose proof (Z.div_mod (zlen l) 2 ltac:(lia)). pose proof (Z.mod_pos_bound (zlen l) 2 ltac:(lia)). lia.
Qed.
Print Assumptions C103_checks_half.
(** [add_q_to_kgrid] subtracts the momentum from the axes. *)
Theorem C103_add_q : forall n1 n2 n3 qx qy qz, exists ax ay az, add_q_to_kgrid (n1, n2, n3) [qx; qy; qz] = Ok [ax; ay; az] /\
  forall i, (0 <= i < n1 -> zget ax i = Some (mom n1 i - qx)%R) /\ (0 <= i < n2 -> zget ay i = Some (mom n2 i - qy)%R) /\ (0 <= i < n3 -> zget az i = Some (mom n3 i - qz)%R).
Proof.
  intros n1 n2 n3 qx qy qz. do 3 eexists. split; [reflexivity|]. intros i. repeat split; intros H; rewrite zget_map, zget_k_axis by assumption; reflexivity.
Qed.
Print Assumptions C103_add_q.

(** * The hypotheses can be met *)
Definition ex_edge (p : R -> R * R) (a : R) (o : option R) : list (R * R) :=
  match o with Some b => if Rlt_dec (a * b) 0 then [p (a / (a - b))%R] else [] | None => [] end.
Definition ex_point (z : list (list R)) (i j : Z) : list (R * R) :=
  match get2 z j i with
  | Some a => ex_edge (fun t => (IZR i + t, IZR j)%R) a (get2 z j (i + 1)) ++ ex_edge (fun t => (IZR i, IZR j + t)%R) a (get2 z (j + 1) i)
  | None => []
  end.
Definition ex_contour (z : list (list R)) : list (list (R * R)) := [flat_map (fun j => flat_map (fun i => ex_point z i j) (arange 0 (dim1 z))) (arange 0 (zlen z))].
Lemma ex_cut a b : (a * b < 0)%R -> (0 < a / (a - b) < 1)%R /\ ((1 - a / (a - b)) * a + a / (a - b) * b = 0)%R.
Proof.
  intros H. assert (N : (a - b <> 0)%R) by (intros E; replace b with a in H by lra; pose proof (Rle_0_sqr a); unfold Rsqr in *; lra).
  assert (A : (a <> 0)%R) by (intros ->; lra). assert (Q : (a / (a - b) = a * a / (a * a - a * b))%R) by (field; split; [intros E; apply N; apply (Rmult_eq_reg_l a); [lra|assumption]|assumption]).
  assert (P : (0 < a * a)%R) by (apply Rsqr_pos_lt in A; exact A). split; [|field; assumption]. rewrite Q. split.
  - apply Rmult_lt_0_compat; [assumption|]. apply Rinv_0_lt_compat. lra.
  - apply (Rmult_lt_reg_r (a * a - a * b)); [lra|]. replace (a * a / (a * a - a * b) * (a * a - a * b))%R with (a * a)%R by (field; lra). lra.
Qed.
Example C103_ex_contour : draws_zero_lines ex_contour.
Proof.
  intros z n m S Hn Hm. unfold ex_contour. cbn [concat]. rewrite app_nil_r. rewrite (@dim1_shape _ z n m S) by lia. rewrite (proj1 S). split.
  - intros x y I. apply in_flat_map in I. destruct I as (j & _ & I). apply in_flat_map in I. destruct I as (i & _ & I). unfold ex_point in I. destruct (get2 z j i) as [a|] eqn:Ea; [|destruct I].
    apply in_app_iff in I. unfold ex_edge in I. destruct I as [I|I].
    + destruct (get2 z j (i + 1)) as [b|] eqn:Eb; [|destruct I]. destruct (Rlt_dec (a * b) 0) as [Hab|]; [|destruct I]. destruct I as [I|[]]. injection I as <- <-. destruct (ex_cut a b Hab) as [T1 T2].
      exists i, j, (a / (a - b))%R, a, b. split; [lra|]. split; [assumption|]. split; [assumption|]. left. auto.
    + destruct (get2 z (j + 1) i) as [b|] eqn:Eb; [|destruct I]. destruct (Rlt_dec (a * b) 0) as [Hab|]; [|destruct I]. destruct I as [I|[]]. injection I as <- <-. destruct (ex_cut a b Hab) as [T1 T2].
      exists i, j, (a / (a - b))%R, a, b. split; [lra|]. split; [assumption|]. split; [assumption|]. right. auto.
  - intros i j a b Ea Hab. destruct (get2_inv _ _ S Ea) as [Hj Hi]. destruct (ex_cut a b Hab) as [T1 _]. split; intros Eb; exists (a / (a - b))%R; (split; [assumption|]); apply in_flat_map; exists j;
      (split; [apply In_arange; lia|]); apply in_flat_map; exists i; (split; [apply In_arange; lia|]); unfold ex_point; rewrite Ea, Eb; apply in_app_iff; [left|right]; unfold ex_edge; (destruct (Rlt_dec (a * b) 0); [now left|contradiction]).
Qed.
Definition ex_g : list (list C) := map (fun i => map (fun _ => (if i =? 0 then 1 else -1, 2)%R) (arange 0 4)) (arange 0 4).
(** points are marked where the sign changes between the first two momenta *)
Example C103_ex_checks : exists l ind, default_giwk_checks ex_contour 4 4 ex_g = Ok (Some l, ind).
Proof.
  assert (S : shape2 ex_g 4 4) by (apply shape2b_ok; reflexivity).
  destruct (C103_checks ex_contour ex_g 4 4 C103_ex_contour S ltac:(lia) ltac:(lia)) as (pts & ind & E & _ & _ & H).
  assert (N : pts <> None) by (apply (H 0 0 1%R (-1)%R); try reflexivity; lra || (cbn; lia)). destruct pts as [l|]; [|contradiction]. eauto.
Qed.
Example C103_ex_shift : exists mat, samples2 (fun x y => (sin x, cos y)) 4 6 mat /\ periodic2 (fun x y => (sin x, cos y)).
Proof.
  exists (map (fun i => map (fun j => (sin (mom 4 i), cos (mom 6 j))) (arange 0 6)) (arange 0 4)). split.
  - split; [apply shape2b_ok; reflexivity|]. intros i j Hi Hj. unfold get2. rewrite zget_map, zget_arange by lia. cbn [option_map obind]. rewrite zget_map, zget_arange by lia. cbn [option_map]. now rewrite !Z.add_0_l.
  - intros x y. rewrite sin_plus, cos_plus, cos_2PI, sin_2PI. split; f_equal; ring.
Qed.
