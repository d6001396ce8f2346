(** Property C89: polynomial fits on the Matsubara axis (dga/analytic_continuation.py:40-78, dga/dga_io.py:163-180).
    numpy's least-squares fit is any function that fits data on a polynomial exactly; C89_least_squares shows that least squares does. *)
From mathcomp Require Import all_ssreflect all_algebra.
From mathcomp.real_closed Require Import complex.
From Coq Require Import ZArith Lia String.
From Verif Require Import Base.PyBase Base.PyFacts Base.Arr Spec.BZSpec Model.BrillouinZone Model.MatsubaraFit Spec.MatsubaraFitSpec Proofs.BrillouinZoneP Proofs.PolyFitMeshP Proofs.MatsubaraFitP.
Import Order.TTheory GRing.Theory Num.Theory.
Set Implicit Arguments. Unset Strict Implicit. Unset Printing Implicit Defensive.
Local Open Scope ring_scope.

Theorem C89_least_squares : forall (R : rcfType) (fit : list R -> list R -> Z -> {poly R}), least_squares fit -> fits_exactly fit.
Proof. exact lsq_exact. Qed.
Print Assumptions C89_least_squares.
(** Whatever the data, the quasiparticle weight returned lies in (0, 1]. *)
Theorem C89_range : forall (R : rcfType) fit (wn : list R) siw order n_fit gamma bandshift z,
  get_gamma_bandshift_z fit wn siw order n_fit = Ok (gamma, bandshift, z) -> 0 < z <= 1.
Proof.
  move=> R fit wn siw order n gamma bandshift z. rewrite /get_gamma_bandshift_z. case: poly_extrap_0 => [g|//]. cbn [bind]. case: poly_extrap_0 => [b|//]. cbn [bind]. case: np_div => [q|//]. cbn [bind].
  case: poly_extrap_0 => [s|//]. cbn [bind]. move=> E. have <- : quasiparticle_weight (1 / (1 - s)) = z by rewrite -clamp_qw; exact: (f_equal (fun r => match r with Ok t => t.2 | _ => z end) E). exact: qw_range.
Qed.
Print Assumptions C89_range.
(** A result exists whenever there is one frequency per value and at least one fitted point; it depends only on the first n_fit points. *)
Theorem C89_total_and_window : forall (R : rcfType) fit (wn wn' : list R) siw siw' order n_fit, (0 <= order)%Z -> (1 <= n_fit)%Z -> (1 <= zlen wn)%Z -> zlen wn = zlen siw ->
  (exists r, get_gamma_bandshift_z fit wn siw order n_fit = Ok r) /\
  (zlen wn' = zlen siw' -> slice wn 0 n_fit = slice wn' 0 n_fit -> slice siw 0 n_fit = slice siw' 0 n_fit ->
   get_gamma_bandshift_z fit wn siw order n_fit = get_gamma_bandshift_z fit wn' siw' order n_fit).
Proof.
  move=> R fit wn wn' siw siw' order n Ho Hn H1 HL. have L : (1 <= zlen (slice wn 0 n))%Z by rewrite zlen_slice /clampi /=; case: Z.ltb_spec; lia. split.
  - rewrite gamma_val //. by eexists.
  - move=> HL' Ew Es. rewrite !gamma_val -?Ew //. have Q : forall (f : R[i] -> R -> R) (w : list R) (s : list R[i]), slice (map2 f s w) 0 n = map2 f (slice s 0 n) (slice w 0 n) -> True by [].
    rewrite /im_part /re_part !slice_map Es. have M : forall (s : list R[i]) (w : list R), zlen w = zlen s ->
       slice (map2 (fun x y => x / y) (List.map (fun z : R[i] => complex.Im z) s) w) 0 n = map2 (fun x y => x / y) (List.map (fun z : R[i] => complex.Im z) (slice s 0 n)) (slice w 0 n).
      move=> s w E. rewrite /slice zlen_map2 zlen_map E Z.min_id. have -> : clampi (zlen s) 0 = 0%Z by rewrite clampi_id //; have := zlen_nonneg s; lia. rewrite !List.skipn_O. move: (Z.to_nat _) => m.
      elim: m s w {E} => [|m IH] [|a s] [|b w] //=. by rewrite IH.
    by rewrite !M // Es Ew.
Qed.
Print Assumptions C89_total_and_window.
(** If the fitted values of the real (imaginary) part lie on a polynomial of degree at most [order], and more than [order] points are fitted, the band
    shift (minus the scattering rate) is the value of that polynomial at zero; if Im S(v)/v lies on one, z = 1/(1 - its value at zero), confined to (0,1]. *)
Theorem C89_exact : forall (R : rcfType) fit (wn : list R) siw order n_fit (p : {poly R}) gamma bandshift z, fits_exactly fit ->
  (0 <= order)%Z -> (order + 1 <= n_fit)%Z -> (n_fit <= zlen wn)%Z -> zlen wn = zlen siw -> List.NoDup wn -> degree_le p order ->
  get_gamma_bandshift_z fit wn siw order n_fit = Ok (gamma, bandshift, z) ->
  ((forall i v s, (0 <= i < n_fit)%Z -> zget wn i = Some v -> zget siw i = Some s -> complex.Re s = p.[v]) -> bandshift = p.[0]) /\
  ((forall i v s, (0 <= i < n_fit)%Z -> zget wn i = Some v -> zget siw i = Some s -> complex.Im s = p.[v]) -> gamma = - p.[0]) /\
  ((forall i v s, (0 <= i < n_fit)%Z -> zget wn i = Some v -> zget siw i = Some s -> v != 0 /\ complex.Im s = v * p.[v]) -> z = quasiparticle_weight (1 / (1 - p.[0]))).
Proof.
  move=> R fit wn siw order n p gamma bandshift z HF Ho Hn HL HE HN HD. have L1 : zlen (slice wn 0 n) = n by rewrite zlen_slice_in; lia.
  have Sl := slice_NoDup HN (conj (Z.le_trans 0 (order + 1) n ltac:(lia) Hn) HL).
  rewrite gamma_val //; last lia. move=> E. split; [|split].
  - move=> H. have <- : (fit (slice wn 0 n) (slice (re_part siw) 0 n) order).[0] = bandshift by congruence.
    rewrite (@slice_data _ fit wn (re_part siw) p n ltac:(lia) HL); [by rewrite HF // L1|by rewrite zlen_map|]. move=> i a b Hi Ha. rewrite zget_map. case Es: (zget siw i) => [s|] //= Hb. have <- : complex.Re s = b by congruence. exact: H Hi Ha Es.
  - move=> H. have <- : - (fit (slice wn 0 n) (slice (im_part siw) 0 n) order).[0] = gamma by congruence.
    rewrite (@slice_data _ fit wn (im_part siw) p n ltac:(lia) HL); [by rewrite HF // L1|by rewrite zlen_map|]. move=> i a b Hi Ha. rewrite zget_map. case Es: (zget siw i) => [s|] //= Hb. have <- : complex.Im s = b by congruence. exact: H Hi Ha Es.
  - move=> H. have <- : quasiparticle_weight (1 / (1 - (fit (slice wn 0 n) (slice (map2 (fun x y => x / y) (im_part siw) wn) 0 n) order).[0])) = z by congruence.
    rewrite (@slice_data _ fit wn (map2 (fun x y => x / y) (im_part siw) wn) p n ltac:(lia) HL); [by rewrite HF // L1|by rewrite zlen_map2 zlen_map HE Z.min_id|]. move=> i a b Hi Ha. rewrite zget_map2 zget_map Ha. case Es: (zget siw i) => [s|] //= Hb. have <- : complex.Im s / a = b by exact: (f_equal (odflt b) Hb).
    have [N ->] := H _ _ _ Hi Ha Es. by rewrite mulrC mulKf.
Qed.
Print Assumptions C89_exact.
(** Finding: with a finite scattering rate the weight is wrong.  For Im S(v) = -gamma - a v the weight is 1/(1+a); fitted through order+1 points the
    function returns 1/(1 + a + gamma sum_i 1/v_i), which is smaller. *)
Theorem C89_weight_refuted : forall (R : rcfType) fit (wn : list R) siw order gamma0 a gamma bandshift z, fits_exactly fit ->
  (0 <= order)%Z -> (order + 1 <= zlen wn)%Z -> zlen wn = zlen siw -> List.NoDup wn -> (forall v, List.In v wn -> 0 < v) ->
  (forall i v s, zget wn i = Some v -> zget siw i = Some s -> complex.Im s = - gamma0 - a * v) -> 0 < gamma0 -> 0 <= a ->
  get_gamma_bandshift_z fit wn siw order (order + 1) = Ok (gamma, bandshift, z) ->
  z = 1 / (1 + a + gamma0 * \sum_(v <- slice wn 0 (order + 1)) v^-1) /\ z < 1 / (1 + a).
Proof.
  move=> R fit wn siw order g0 a gamma bandshift z HF Ho HL HE HN Hpos Him Hg Ha.
  have L1 : zlen (slice wn 0 (order + 1)) = (order + 1)%Z by rewrite zlen_slice_in; lia. have Sl := slice_NoDup HN (conj (Z.add_nonneg_nonneg _ 1 Ho ltac:(lia)) HL).
  pose p : {poly R} := (- a)%:P + (- g0) *: inv_q (List.map (fun y => y^-1) (slice wn 0 (order + 1))).
  have Hin : forall v, List.In v (slice wn 0 (order + 1)) -> List.In v wn by move=> v; rewrite /slice !clampi_id; [exact: In_firstn|lia|exact: (conj (Z.add_nonneg_nonneg _ 1 Ho ltac:(lia)) HL)].
  have p0 : p.[0] = - a - g0 * \sum_(v <- slice wn 0 (order + 1)) v^-1 by rewrite /p hornerD hornerC hornerZ inv_q0 big_map mulNr.
  have S0 : 0 < \sum_(v <- slice wn 0 (order + 1)) v^-1.
    move: L1 Hin. case: (slice wn 0 (order + 1)) => [|v l]; first by rewrite zlen_nil; lia. move=> _ Hin. rewrite big_cons. apply: ltr_paddr; last by rewrite invr_gt0; apply: Hpos; apply: Hin; left.
    have : forall v, List.In v l -> 0 < v by move=> w Hw; apply: Hpos; apply: Hin; right. elim: l {Hin} => [|w l IH] Hw; first by rewrite big_nil. rewrite big_cons addr_ge0 ?IH //; last by move=> u Hu; apply: Hw; right. by rewrite invr_ge0 ltW // Hw //; left.
  have Hp : degree_le p order.
    have /ssrnat.leP Q := inv_q_size (List.map (fun y => y^-1) (slice wn 0 (order + 1))). have Q' : (size (inv_q (List.map (fun y => y^-1) (slice wn 0 (order + 1)))) <= Z.to_nat (order + 1))%coq_nat.
      apply: PeanoNat.Nat.le_trans Q _. rewrite -[size _]/(List.length _) List.map_length. have -> : List.length (slice wn 0 (order + 1)) = Z.to_nat (order + 1) by exact: (etrans (esym (Nat2Z.id _)) (f_equal Z.to_nat L1)). exact: PeanoNat.Nat.le_refl.
    have : (size p <= Z.to_nat (order + 1))%coq_nat.
      apply/ssrnat.leP. apply: leq_trans (size_add _ _) _. rewrite geq_max. apply/andP. split; last by apply: leq_trans (size_scale_leq _ _) _; apply/ssrnat.leP.
      apply: leq_trans (size_polyC_leq1 _) _. apply/ssrnat.leP. lia.
    rewrite /degree_le. lia.
  move=> E. have [_ [_ Hz]] := @C89_exact R fit wn siw order (order + 1) p gamma bandshift z HF Ho ltac:(lia) HL HE HN Hp E.
  have Ez : z = quasiparticle_weight (1 / (1 - p.[0])).
    apply: Hz => i v s Hi Hv Hs. have v0 : v != 0 by apply: lt0r_neq0; apply: Hpos; apply: zget_In Hv. split; first exact: v0. rewrite (Him _ _ _ Hv Hs) /p hornerD hornerC hornerZ inv_q_at //.
    - by rewrite mulrDr mulrN [v * a]mulrC mulNr mulrN [g0 / v]mulrC mulVKf // addrC.
    - apply: (@zget_In _ _ i). rewrite zget_slice_in ?Z.add_0_l //; try lia; exact: HL.
  set S := \sum_(v <- _) _ in p0 S0 *. have E1 : 1 - p.[0] = 1 + a + g0 * S by rewrite p0 opprD !opprK addrA. have g1 : 0 < g0 * S by exact: mulr_gt0.
  have D1 : 0 < 1 + a by apply: ltr_paddr; [exact: Ha|exact: ltr01]. have D2 : 1 + a < 1 + a + g0 * S by rewrite ltr_addl. have D3 := lt_trans D1 D2.
  have z1 : z = 1 / (1 + a + g0 * S).
    rewrite Ez E1 /quasiparticle_weight div1r invr_gt0 D3 /= invf_le1 // . by have -> : 1 <= 1 + a + g0 * S by apply: le_trans (ltW D2); rewrite ler_addl.
  split; first exact: z1. rewrite z1 !div1r. by rewrite ltf_pinv ?posrE.
Qed.
Print Assumptions C89_weight_refuted.
(** Fits at a list of indices: entry by entry, in the order band shift, scattering rate, weight; each from its own row. *)
Theorem C89_on_indices : forall (R : rcfType) fit (rows : list (list R[i])) idx v n_fit order re im z, extract_coeff_on_ind fit rows idx v n_fit order = Ok (re, im, z) ->
  zlen re = zlen idx /\ zlen im = zlen idx /\ zlen z = zlen idx /\
  forall j k, zget idx j = Some k -> exists row g b w, py_get rows k = Ok row /\ get_gamma_bandshift_z fit v row order n_fit = Ok (g, b, w) /\ zget re j = Some b /\ zget im j = Some g /\ zget z j = Some w.
Proof.
  move=> R fit rows idx v n order re im z. rewrite /extract_coeff_on_ind. case El: mapM => [l|//]. cbn [bind] => E. have [L H] := mapM_zget _ _ El.
  have [<- [<- <-]] : List.map (fun t : R * R * R => t.1.1) l = re /\ List.map (fun t : R * R * R => t.1.2) l = im /\ List.map (fun t : R * R * R => t.2) l = z by split; [congruence|split; congruence].
  rewrite !zlen_map L. do 3 (split; first by []). move=> j k Hj. have [t [Ht]] := H j k Hj. case Er: py_get => [row|//]. cbn [bind]. rewrite /extract_coefficient_imaxis. case Eg: get_gamma_bandshift_z => [[[g b] w]|//]. cbn [bind] => Et.
  exists row, g, b, w. rewrite !zget_map Ht. have -> : t = (b, g, w) by congruence. by [].
Qed.
Print Assumptions C89_on_indices.
(** Fits of a function with the symmetries of the grid: at every momentum of the full zone the fit of the function at that momentum (positive frequencies). *)
Theorem C89_poly_fit : forall (R : rcfType) (cpi : R) fit nx ny nz syms g (mat : list (list (list (list R[i])))) m beta n_fit order,
  (0 < nx)%Z -> (0 < ny)%Z -> (0 < nz)%Z -> List.Forall known syms -> make_kgrid nx ny nz syms = Ok g -> shape3 mat nx ny nz ->
  (forall s k, List.In s syms -> on_mesh nx ny nz k -> at3 mat (point_op nx ny nz s k) = at3 mat k) ->
  (forall row, List.In row (flatten3 mat) -> zlen row = (2 * m)%Z) -> (2 <= m)%Z -> (nx * ny * nz <> 1)%Z -> (0 <= order)%Z -> (1 <= n_fit)%Z ->
  exists re im z, poly_fit cpi fit g mat (2 * m) beta n_fit order = Ok (re, im, z) /\
  forall k row, on_mesh nx ny nz k -> at3 mat k = Some row -> exists gamma shift w,
    get_gamma_bandshift_z fit (vn_pos cpi beta m) (slice row m (2 * m)) order n_fit = Ok (gamma, shift, w) /\
    at3 re k = Some shift /\ at3 im k = Some gamma /\ at3 z k = Some w.
Proof.
  move=> R cpi fit nx ny nz syms g mat m beta n order Hx Hy Hz Hk Hg Hs Hsym Hrow Hm HN Ho Hn.
  pose h (row : list R[i]) := slice row m (zlen row). pose mat' := map3 h mat. pose E (row : list R[i]) := extract_coefficient_imaxis fit row (vn_pos cpi beta m) n order.
  have Lv : zlen (vn_pos cpi beta m) = m by rewrite zlen_map zlen_arange; lia.
  have Tot : forall row, zlen row = (2 * m)%Z -> exists r, get_gamma_bandshift_z fit (vn_pos cpi beta m) (h row) order n = Ok r.
    move=> row Hr. apply: (proj1 (@C89_total_and_window R fit _ [::] (h row) [::] order n Ho Hn _ _)); rewrite Lv; first lia. by rewrite /h zlen_slice_in; lia.
  pose T (row : list R[i]) : R * R * R := match E row with Ok t => t | Raise _ => (0, 0, 0) end.
  have HE : forall row, List.In row (flatten3 mat') -> E row = Ok (T row).
    move=> row. rewrite /mat' flatten3_map List.in_map_iff => [] [r0 [<- Hr]]. rewrite /T /E /extract_coefficient_imaxis. have [[[a b] c] ->] := Tot r0 (Hrow _ Hr). by [].
  have [irr [E1 U]] := @fit_mesh _ _ E T nx ny nz syms g mat' Hx Hy Hz Hk Hg (shape3_map h Hs) (fun s k H1 H2 => etrans (at3_map h mat _) (etrans (congr1 (option_map h) (Hsym s k H1 H2)) (esym (at3_map h mat k)))) HE.
  rewrite /poly_fit. have -> : (2 * m / 2 = m)%Z by rewrite Z.mul_comm Z.div_mul. rewrite -/h zlen_map (zlen_flatten3 Hs). have -> : (nx * ny * nz =? 1)%Z = false by exact/Z.eqb_neq. have -> : (2 * m - m =? 1)%Z = false by apply/Z.eqb_neq; lia.
  cbn [orb]. rewrite /extract_coeff_on_ind -(flatten3_map h mat) -/mat'. rewrite /E in E1. rewrite E1. cbn [bind]. rewrite !U. cbn [bind]. eexists _, _, _. split; first reflexivity.
  move=> k row Hk' Er. have Hin : List.In row (flatten3 mat) by apply: (@zget_In _ _ (lin ny nz k)); rewrite (zget_flatten3 _ Hs Hk').
  have [[[a b] c] Eg] := Tot row (Hrow _ Hin). exists a, b, c. rewrite /mat' !at3_map Er /=. split; first by rewrite /h (Hrow _ Hin) in Eg.
  have -> : T (h row) = (b, a, c) by rewrite /T /E /extract_coefficient_imaxis Eg. by [].
Qed.
Print Assumptions C89_poly_fit.
(** Finding: on a grid with a single momentum (or with a single positive frequency) it raises, because the axis of length one is squeezed away. *)
Theorem C89_single_momentum_finding : forall (R : rcfType) (cpi : R) fit g (mat : list (list (list (list R[i])))) nv beta n_fit order,
  zlen (flatten3 mat) = 1%Z \/ (nv - nv / 2 = 1)%Z -> poly_fit cpi fit g mat nv beta n_fit order = Raise IndexError.
Proof. move=> R cpi fit g mat nv beta n order H. rewrite /poly_fit zlen_map. case: H => ->; by rewrite ?Z.eqb_refl ?orbT. Qed.
Print Assumptions C89_single_momentum_finding.
(** Value and slope at zero of data on a polynomial. *)
Theorem C89_value_and_slope : forall (R : rcfType) fit (x y : list R) (p : {poly R}) order n_fit, fits_exactly fit ->
  (0 <= order)%Z -> (order + 1 <= n_fit)%Z -> (n_fit <= zlen x)%Z -> zlen x = zlen y -> List.NoDup x -> degree_le p order ->
  (forall i a b, (0 <= i < n_fit)%Z -> zget x i = Some a -> zget y i = Some b -> b = p.[a]) ->
  poly_extrap_0 fit x y order n_fit = Ok p.[0] /\ poly_der_extrap_0 fit x y order n_fit = Ok p`_1.
Proof. move=> R fit x y p order n HF H1 H2 H3 H4 H5 H6 H7. have [E ->] := extrap_exact HF H1 H2 H3 H4 H5 H6 H7. split; first exact: E. by rewrite horner_coef0 coef_deriv mulr1n. Qed.
Print Assumptions C89_value_and_slope.
(** Errors: negative order, more values than frequencies. *)
Theorem C89_errors : forall (R : rcfType) fit (wn : list R) siw order n_fit,
  ((order < 0)%Z -> get_gamma_bandshift_z fit wn siw order n_fit = Raise ValueError) /\
  ((0 <= order)%Z -> wn = [::] -> get_gamma_bandshift_z fit wn siw order n_fit = Raise TypeError).
Proof.
  move=> R fit wn siw order n. rewrite /get_gamma_bandshift_z /poly_extrap_0 /np_polyfit. split.
  - move=> H. by have -> : (order <? 0)%Z = true by apply/Z.ltb_lt.
  - move=> H ->. have -> : (order <? 0)%Z = false by apply/Z.ltb_ge. by have -> : slice [::] 0 n = ([::] : list R) by rewrite /slice List.skipn_nil List.firstn_nil.
Qed.
Print Assumptions C89_errors.
(** An exact fit exists (interpolation through the first points), and the defaults n_fit = 4, order = 3 fall under the finding. *)
Example C89_case : forall R : rcfType, exists fit : list R -> list R -> Z -> {poly R}, fits_exactly fit /\
  let wn := [:: 1; 2%:R; 3%:R; 4%:R] in let siw := List.map (fun v => (0 +i* (- 1 - v))%C) wn in
  exists g b z, get_gamma_bandshift_z fit wn siw 3 4 = Ok (g, b, z) /\ z < 1 / 2%:R.
Proof.
  move=> R. exists (@newton_fit R). split; first exact: newton_fits. move=> wn siw.
  have [[[[g b] z] E] _] := @C89_total_and_window R (@newton_fit R) wn [::] siw [::] 3 4 ltac:(lia) ltac:(lia) ltac:(by []) ltac:(by []). exists g, b, z. split; first exact: E.
  have P : forall k v, List.In v (List.map (fun i => (i.+1)%:R : R) (seq.iota 0 k)) -> 0 < v by move=> k v /List.in_map_iff [i [<- _]]; exact: ltr0Sn.
  have NN : forall i j : nat, (i.+1)%:R = (j.+1)%:R :> R -> i = j by move=> i j /eqP; rewrite eqr_nat => /eqP [].
  have ND : List.NoDup wn.
    have -> : wn = List.map (fun i => (i.+1)%:R : R) [:: 0; 1; 2; 3]%nat by []. apply: FinFun.Injective_map_NoDup; first exact: NN. by repeat constructor => /=; intuition.
  have [_ H] := @C89_weight_refuted R (@newton_fit R) wn siw 3 1 1 g b z (@newton_fits R) ltac:(lia) ltac:(by []) ltac:(by []) ND (P 4%nat)
    ltac:(move=> i v s; rewrite /siw zget_map => -> /=; case=> <- /=; by rewrite mul1r) ltr01 ler01 E.
  by rewrite mulr2n.
Qed.
