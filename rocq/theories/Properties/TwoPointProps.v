(** C33, C66-C70: self-energies and Green's functions (two_point.py). *)
From mathcomp Require Import all_ssreflect all_algebra.
From mathcomp.real_closed Require Import complex.
From Coq Require Import String ZArith Lia.
From Verif Require Import Base.PyBase Base.PyFacts Model.Matsubara Model.TwoPoint Spec.TwoPointSpec.
From Verif Require Import Proofs.TwoPointP Proofs.TwoPointMainP Proofs.TwoPointFillP Proofs.TwoPointRealP Proofs.TwoPointCoreP.
Import Order.TTheory GRing.Theory Num.Theory.
Set Implicit Arguments. Unset Strict Implicit. Unset Printing Implicit Defensive.
Local Open Scope ring_scope.
Local Open Scope complex_scope.

Section Props.
Variable R : rcfType.
Notation C := R[i].

(** The fermionic frequencies are the odd multiples of pb = pi/beta, increasing in steps of two. *)
Theorem C66_frequencies (pb : R) : nu pb 0 = pb /\ (forall v, nu pb (- v - 1) = - nu pb v) /\
  (forall v, (0 <= v)%Z -> nu pb v = (Z.to_nat (2 * v + 1)%Z)%:R * pb).
Proof.
  split; [by rewrite /nu /zR mul1r|]. split; [exact: nu_opp|]. move=> v Hv. by rewrite /nu zR_nneg; [|lia].
Qed.
Print Assumptions C66_frequencies.

(** ** C66: a self-energy has one value at every frequency *)
(** Whatever number of frequencies is asked for, get_siw returns that window of one
    and the same function: the stored data inside the core, the tail
    smom0 - smom1/(i nu) outside, conjugate at negative frequencies. *)
Theorem C66_get_siw (KS : finType) (s : selfenergy R KS) k :
  (forall k, zlen (se_sigma s k) = Z.of_nat (se_niv s)) -> (0 <= se_core s <= Z.of_nat (se_niv s))%Z ->
  let sigma v := if inside (se_core s) v then complete (entry (se_sigma s k)) v else tail_fun (nu (se_pb s)) (se_smom0 s) (se_smom1 s) v in
  conj_symmetric sigma /\
  (forall niv, (0 <= niv)%Z -> on_grid (get_siw s niv k) niv sigma) /\
  on_grid (get_siw s (-1) k) (Z.of_nat (se_niv s)) sigma /\
  on_grid (sigma_core s k) (se_core s) sigma /\
  forall n, (0 <= n)%Z -> on_grid (get_sigma_full s n k) (se_core s + n) sigma.
Proof.
  move=> HL HC /=. have Hs : se_ok s by [].
  split; [exact: se_value_sym|]. split; [by move=> niv Hn; exact: get_siw_ok|].
  split; [rewrite get_siw_default; apply: get_siw_ok => //; lia|]. split; [exact: sigma_core_ok|].
  by move=> n Hn; exact: get_sigma_full_ok.
Qed.
Print Assumptions C66_get_siw.
(** Full-range data: the constructor keeps it (with an explicit core). *)
Theorem C66_constructor (KS : finType) (sigma : KS -> list C) (n : nat) pb s0 s1 err c (f : KS -> Z -> C) :
  (forall k, on_grid (sigma k) (Z.of_nat n) (f k)) -> (forall k, conj_symmetric (f k)) -> (0 <= c <= Z.of_nat n)%Z ->
  let s := make_selfenergy sigma (Nat.add n n) pb false (Some s0) (Some s1) err (Some c) in
  forall k niv, (0 <= niv)%Z -> on_grid (get_siw s niv k) niv (fun v => if inside c v then f k v else tail_fun (nu pb) s0 s1 v).
Proof.
  move=> Hf Hsym Hc s k niv Hn. have [Hok [Hpb [Hcore [Hniv [M0 [M1 Hent]]]]]] := @make_full_ok R KS sigma n pb (Some s0) (Some s1) err c f Hf Hc.
  apply: on_grid_eq; [exact: get_siw_ok|]. move=> v Hv. rewrite /se_value Hcore Hpb (M0 _ erefl) (M1 _ erefl).
  case Ei: (inside c v) => //. have /andP[/Z.leb_le A /Z.ltb_lt B] := Ei. rewrite /complete. case: (Z.leb_spec 0 v) => D.
  - apply: Hent. lia.
  - rewrite Hent; [|lia]. rewrite -Hsym. by f_equal; lia.
Qed.
Print Assumptions C66_constructor.
(** The fit of the moments is exact on an exact tail, for any momentum dependence that averages out. *)
Theorem C66_fit_exact (K : finType) (siwk : K -> list C) (n : nat) (pb s0 s1 : R) : 0 < pb -> (4 <= n)%nat ->
  (forall v, (Z.of_nat n - Z.max 4 (Z.of_nat n / 5) <= v < Z.of_nat n)%Z -> (\sum_(k : K) entry (siwk k) v) / #|K|%:R = tail_fun (nu pb) s0 s1 v) ->
  fit_smom (map (iv pb) (vn (Z.of_nat n) 0 true)) n siwk = (s0, s1).
Proof. exact: fit_exact. Qed.
Print Assumptions C66_fit_exact.
(** The estimated core is between 20 and the number of stored frequencies (if there are more than 20). *)
Theorem C66_estimate_range (K : finType) (sigma : K -> list C) n pb s0 s1 err :
  (20 <= estimate_niv_core sigma n pb s0 s1 err <= Z.max 20 (Z.of_nat n - 1))%Z.
Proof. split; [exact: estimate_ge|exact: estimate_le]. Qed.
Print Assumptions C66_estimate_range.
(** The estimate is the first frequency at which both parts, one after the other, have come within the error of the tail. *)
Theorem C66_estimate_value (K : finType) (sigma : K -> list C) n pb s0 s1 err (a b : Z) : (0 <= a < Z.of_nat n)%Z -> (0 <= b < Z.of_nat n)%Z ->
  let d v := (\sum_(k : K) entry (sigma k) v) / #|K|%:R - tail_fun (nu pb) s0 s1 v in
  `|complex.Re (d a)| < err -> (forall v, (0 <= v < a)%Z -> err <= `|complex.Re (d v)|) ->
  `|complex.Im (d b)| < err -> (forall v, (0 <= v < b)%Z -> err <= `|complex.Im (d v)|) ->
  estimate_niv_core sigma n pb s0 s1 err = Z.max 20 (Z.max a b).
Proof. exact: estimate_first. Qed.
Print Assumptions C66_estimate_value.
(** Finding: data that nowhere agrees with the tail gives the smallest core, not the
    largest, so that all data beyond index 20 is discarded for the tail. *)
Theorem C66_estimate_finding (K : finType) (sigma : K -> list C) n pb s0 s1 err :
  (forall v, (0 <= v < Z.of_nat n)%Z ->
     let d := (\sum_(k : K) entry (sigma k) v) / #|K|%:R - tail_fun (nu pb) s0 s1 v in err <= `|complex.Re d| /\ err <= `|complex.Im d|) ->
  estimate_niv_core sigma n pb s0 s1 err = 20%Z.
Proof. exact: estimate_never. Qed.
Print Assumptions C66_estimate_finding.
(** Refuted without the hypothesis on the core: fewer stored frequencies than the core
    (always so below 20 with the default core) give arrays of the wrong length, and
    the Green's function raises ValueError. *)
Theorem C66_short_data_refuted (K KS : finType) (bc : K -> KS) (s : selfenergy R KS) :
  (forall k, zlen (se_sigma s k) = Z.of_nat (se_niv s)) -> (Z.of_nat (se_niv s) < se_core s)%Z ->
  (forall k m, (se_core s < m)%Z -> zlen (get_siw s m k) = (2 * (m - (se_core s - Z.of_nat (se_niv s))))%Z /\ zlen (get_siw s m k) <> (2 * m)%Z) /\
  forall ek mu k niv, g_full bc s ek mu niv k = Raise ValueError.
Proof.
  move=> HL Hsh. split.
  - move=> k m Hm. rewrite (short_siw HL Hsh k Hm). split=> //. lia.
  - move=> ek mu k niv. by rewrite /g_full (short_core bc HL Hsh).
Qed.
Print Assumptions C66_short_data_refuted.
Theorem C66_default_core_short_refuted (K KS : finType) (bc : K -> KS) (sigma : KS -> list C) (n : nat) pb err :
  (n < 20)%nat -> (forall k, length (sigma k) = n) ->
  forall ek mu k niv, g_full bc (make_selfenergy sigma n pb true None None err None) ek mu niv k = Raise ValueError.
Proof.
  move=> Hn HL ek mu k niv. set s := make_selfenergy _ _ _ _ _ _ _ _.
  have H := @C66_short_data_refuted K KS bc s. apply: (proj2 (H _ _)).
  - move=> k'. by rewrite /s /= /zlen HL.
  - have := @estimate_ge R KS sigma n pb (fit_smom (map (iv pb) (vn (Z.of_nat n) 0 true)) n sigma).1 (fit_smom (map (iv pb) (vn (Z.of_nat n) 0 true)) n sigma).2 err.
    rewrite -[se_core s]/(estimate_niv_core _ _ _ _ _ _) -[se_niv s]/n.
    move/ssrnat.ltP: Hn. lia.
Qed.
Print Assumptions C66_default_core_short_refuted.
(** Hartree term and second moment *)
Theorem C66_moments (u n : R) : get_smom0 u n = u * (n / 2%:R) /\ get_smom1 u n = - (u ^+ 2 * get_sum_chiupup n) /\
  (0 <= n <= 2%:R -> get_smom1 u n <= 0).
Proof.
  have E : get_smom1 u n = - (u ^+ 2 * get_sum_chiupup n) by rewrite /get_smom1 /get_sum_chiupup !mulNr !mulrA.
  split; [by rewrite /get_smom0 mulrA|]. split=> // /andP[H0 H2]. rewrite E oppr_le0 mulr_ge0 ?sqr_ge0 //.
  rewrite /get_sum_chiupup. have Hh : 0 <= n / 2%:R by rewrite divr_ge0 ?ler0n.
  by rewrite mulr_ge0 // subr_ge0 ler_pdivr_mulr ?ltr0n // mul1r.
Qed.
Print Assumptions C66_moments.

(** ** C33: stitching *)
(** DGA values in the core, DMFT values (momentum 0, broadcast) in the shell, the DMFT tail beyond; every
    window of the result shows exactly these values, each frequency once. *)
Theorem C33_stitching (K KS : finType) (siwk : K -> list C) (n : nat) (dmft : selfenergy R KS) (k0 : KS) (shell : Z) err (f : K -> Z -> C) niv k :
  (forall k, on_grid (siwk k) (Z.of_nat n) (f k)) -> (forall k, conj_symmetric (f k)) ->
  (forall k, zlen (se_sigma dmft k) = Z.of_nat (se_niv dmft)) -> (0 <= se_core dmft <= Z.of_nat (se_niv dmft))%Z -> (0 <= shell)%Z -> (0 <= niv)%Z ->
  let s := create_dga_siwk_with_dmft_as_asympt siwk (Nat.add n n) dmft k0 shell err in
  on_grid (get_siw s niv k) niv (fun v =>
    if inside (Z.of_nat n) v then f k v
    else if inside (Z.of_nat n + shell) v then
      (if inside (se_core dmft) v then complete (entry (se_sigma dmft k0)) v else tail_fun (nu (se_pb dmft)) (se_smom0 dmft) (se_smom1 dmft) v)
    else tail_fun (nu (se_pb dmft)) (se_smom0 dmft) (se_smom1 dmft) v).
Proof. move=> H1 H2 H3 H4 H5 H6. exact: (proj2 (@stitch_ok R K KS siwk n dmft k0 shell err f niv k H1 H2 (conj H3 H4) H5 H6)). Qed.
Print Assumptions C33_stitching.
(** If the window reaches the DMFT core, the result is DMFT everywhere outside the DGA core. *)
Theorem C33_dmft_outside (K KS : finType) (siwk : K -> list C) (n : nat) (dmft : selfenergy R KS) (k0 : KS) (shell : Z) err (f : K -> Z -> C) niv k :
  (forall k, on_grid (siwk k) (Z.of_nat n) (f k)) -> (forall k, conj_symmetric (f k)) ->
  (forall k, zlen (se_sigma dmft k) = Z.of_nat (se_niv dmft)) -> (0 <= se_core dmft <= Z.of_nat (se_niv dmft))%Z -> (0 <= shell)%Z -> (0 <= niv)%Z ->
  (se_core dmft <= Z.of_nat n + shell)%Z ->
  let s := create_dga_siwk_with_dmft_as_asympt siwk (Nat.add n n) dmft k0 shell err in
  forall v, (- niv <= v < niv)%Z -> ~ (- Z.of_nat n <= v < Z.of_nat n)%Z -> zget (get_siw s niv k) (niv + v) = zget (get_siw dmft niv k0) (niv + v).
Proof.
  move=> H1 H2 H3 H4 H5 H6 H7 s v Hv Ho. have [_ V] := @C33_stitching K KS siwk n dmft k0 shell err f niv k H1 H2 H3 H4 H5 H6.
  have [_ W] := @get_siw_ok R KS dmft niv k0 (conj H3 H4) H6. rewrite V // W //. f_equal. rewrite /se_value.
  rewrite insideF; [|lia]. case E1: (inside (Z.of_nat n + shell) v) => //. rewrite insideF //.
  move/negbT: E1. rewrite /inside negb_and => /orP [] /negP H; [have : ~ (- (Z.of_nat n + shell) <= v)%Z by move/Z.leb_le; exact: H|have : ~ (v < Z.of_nat n + shell)%Z by move/Z.ltb_lt; exact: H]; lia.
Qed.
Print Assumptions C33_dmft_outside.
(** Finding: otherwise DMFT data between the window and the DMFT core is replaced by the tail. *)
Theorem C33_dmft_data_lost (K KS : finType) (siwk : K -> list C) (n : nat) (dmft : selfenergy R KS) (k0 : KS) (shell : Z) err (f : K -> Z -> C) niv k :
  (forall k, on_grid (siwk k) (Z.of_nat n) (f k)) -> (forall k, conj_symmetric (f k)) ->
  (forall k, zlen (se_sigma dmft k) = Z.of_nat (se_niv dmft)) -> (0 <= se_core dmft <= Z.of_nat (se_niv dmft))%Z -> (0 <= shell)%Z -> (0 <= niv)%Z ->
  let s := create_dga_siwk_with_dmft_as_asympt siwk (Nat.add n n) dmft k0 shell err in
  forall v, (Z.of_nat n + shell <= v < se_core dmft)%Z -> (v < niv)%Z ->
  zget (get_siw s niv k) (niv + v) = Some (tail_fun (nu (se_pb dmft)) (se_smom0 dmft) (se_smom1 dmft) v) /\
  zget (get_siw dmft niv k0) (niv + v) = Some (entry (se_sigma dmft k0) v).
Proof.
  move=> H1 H2 H3 H4 H5 H6 s v Hv Ho. have [_ V] := @C33_stitching K KS siwk n dmft k0 shell err f niv k H1 H2 H3 H4 H5 H6.
  have [_ W] := @get_siw_ok R KS dmft niv k0 (conj H3 H4) H6. rewrite V ?W; [|lia|lia]. rewrite !insideF; [|lia|lia]. split=> //.
  rewrite /se_value insideT; [|lia]. rewrite /complete. by case: (Z.leb_spec 0 v) => //; lia.
Qed.
Print Assumptions C33_dmft_data_lost.

(** ** C67: the Green's function *)
Section GF.
Variables (K KS : finType) (bc : K -> KS) (s : selfenergy R KS) (ek : K -> R) (mu : R).
Hypothesis HL : forall k, zlen (se_sigma s k) = Z.of_nat (se_niv s).
Hypothesis HC : (0 <= se_core s <= Z.of_nat (se_niv s))%Z.
(** It is built without error on core + shell frequencies and holds one conjugation-symmetric function,
    whatever the shell, which at momentum 0 of the frequency axis gives the Fermi-surface map. *)
Theorem C67_greens_function k : exists G : Z -> C, conj_symmetric G /\
  (forall n, (0 <= n)%Z -> exists g, g_full bc s ek mu n k = Ok g /\ on_grid g (se_core s + n) G) /\
  (forall n sig, (0 <= n)%Z -> on_grid (get_siw s (se_core s + n) (bc k)) (se_core s + n) sig ->
     forall v, (- (se_core s + n) <= v < se_core s + n)%Z -> G v = 1 / (Complex 0 (nu (se_pb s) v) + mu%:C - (ek k)%:C - sig v)) /\
  (forall cpi n, (0 <= n)%Z -> (0 < se_core s + n)%Z -> fs bc cpi s ek mu n k = Ok (- complex.Im (G 0%Z) / cpi)).
Proof.
  have Hs : se_ok s by []. exists (g_value bc s ek mu k). split; [exact: g_value_sym|]. split; [by move=> n Hn; exact: g_full_ok|]. split.
  - move=> n sig Hn [_ Hsig] v Hv. rewrite /g_value. have [_ W] := @get_siw_ok R KS s (se_core s + n)%Z (bc k) Hs ltac:(lia).
    have := Hsig v Hv. by rewrite W // => -[<-].
  - move=> cpi n Hn Hp. exact: fs_ok.
Qed.
Print Assumptions C67_greens_function.
(** Causal data (Im Sigma <= 0 at positive frequencies, smom1 <= 0) never divides by zero: Dyson's equation holds
    at every momentum and frequency, Im G < 0 and |G|^2 <= 1/nu^2 at positive frequencies. *)
Theorem C67_causal (niv : Z) k : 0 < se_pb s -> se_smom1 s <= 0 ->
  (forall k v, (0 <= v < se_core s)%Z -> complex.Im (entry (se_sigma s k) v) <= 0) -> (0 <= niv)%Z ->
  exists g, g_full bc s ek mu niv k = Ok g /\ forall v, (- (se_core s + niv) <= v < se_core s + niv)%Z ->
  exists G S, zget g (se_core s + niv + v) = Some G /\ zget (get_siw s (se_core s + niv) (bc k)) (se_core s + niv + v) = Some S /\
    G * (Complex 0 (nu (se_pb s) v) + mu%:C - (ek k)%:C - S) = 1 /\
    ((0 <= v)%Z -> complex.Im G < 0 /\ complex.Re G ^+ 2 + complex.Im G ^+ 2 <= (nu (se_pb s) v ^+ 2)^-1).
Proof.
  move=> Hp Hm Hc Hn. have Hs : se_ok s by []. have [g [E [_ V]]] := g_full_ok bc ek mu k Hs Hn. exists g. split=> // v Hv.
  have [_ W] := @get_siw_ok R KS s (se_core s + niv)%Z (bc k) Hs ltac:(lia).
  exists (g_value bc s ek mu k v), (se_value s (bc k) v). rewrite V // W //. split=> //. split=> //. split; [exact: g_dyson|].
  move=> H0. split; [exact: g_causal|exact: g_bound].
Qed.
Print Assumptions C67_causal.

(** ** C70: energies *)
Theorem C70_energies (beta : R) (niv : Z) (g : K -> list C) : (0 <= niv)%Z -> (forall k, g_full bc s ek mu niv k = Ok (g k)) ->
  let N := (se_core s + niv)%Z in let sig k := entry (get_siw s N (bc k)) in let G k := entry (g k) in
  complex.Im (e_kin_c beta ek g (Z.to_nat (2 * N))) = 0 /\ complex.Im (e_pot_c bc beta s niv g (Z.to_nat (2 * N))) = 0 /\
  e_kin_c beta ek g (Z.to_nat (2 * N)) =
    1 / beta%:C * (\sum_(0 <= i < Z.to_nat (2 * N)) (\sum_(k : K) (ek k)%:C * G k (Z.of_nat i)) / #|K|%:R) /\
  e_pot_c bc beta s niv g (Z.to_nat (2 * N)) =
    1 / beta%:C * (\sum_(0 <= i < Z.to_nat (2 * N)) (\sum_(k : K) (sig k (Z.of_nat i) - (se_smom0 s)%:C) * G k (Z.of_nat i)) / #|K|%:R).
Proof.
  move=> Hn Hg N sig G. have Hs : se_ok s by [].
  have [E1 I1] := e_kin_value beta Hs Hn Hg. have [E2 I2] := e_pot_value beta Hs Hn Hg.
  split=> //. split=> //. rewrite /N E1 E2 /freq_sum.
  have HG : forall k i, (0 <= i < 2 * N)%Z -> G k i = g_value bc s ek mu k (i - N)%Z.
  { move=> k i Hi. have [_ V] := g_grid Hs Hn Hg k. apply: (zget_eq_nth 0). rewrite -V; [|rewrite -/N; lia]. by f_equal; rewrite /N; lia. }
  have HSg : forall k i, (0 <= i < 2 * N)%Z -> sig k i = se_value s (bc k) (i - N)%Z.
  { move=> k i Hi. have [_ V] := @get_siw_ok R KS s N (bc k) Hs ltac:(rewrite /N; lia). apply: (zget_eq_nth 0). rewrite -V; [|lia]. by f_equal; lia. }
  by split; congr (_ * _); apply: eq_big_nat => i /andP[_ /ssrnat.ltP Hi]; congr (_ / _); apply: eq_bigr => k _; rewrite ?HSg ?HG //; lia.
Qed.
Print Assumptions C70_energies.
(** The Hartree term of the potential energy is U n^2/4. *)
Theorem C70_hartree (beta u n : R) (niv : Z) (g : K -> list C) m : se_smom0 s = u * n / 2%:R ->
  e_pot bc beta s niv g m n = complex.Re (e_pot_c bc beta s niv g m) + u * n ^+ 2 / 4%:R.
Proof.
  move=> E. rewrite /e_pot E. congr (_ + _). have -> : (4%:R : R) = 2%:R * 2%:R by rewrite -natrM. rewrite invfM expr2 !mulrA.
  by rewrite -!mulrA; congr (_ * (_ * _)); rewrite mulrCA.
Qed.
Print Assumptions C70_hartree.
End GF.

(** ** C68: filling and chemical potential *)
Section Fill.
Variables (rexp : R -> R) (K : finType) (ivl : list C) (hk : K -> R) (siwk : K -> list C) (beta smom0 : R).
Hypothesis HK : (0 < #|K|)%nat.
Hypothesis HL : forall k, zlen (siwk k) = zlen ivl.
(** In the atomic limit the filling is the Fermi function for any number of frequencies. *)
Theorem C68_atomic_limit h mu : (forall k, hk k = h) -> (forall k i x, zget (siwk k) i = Some x -> x = smom0%:C) -> beta * (smom0 + h - mu) < 20%:R ->
  get_fill rexp ivl hk siwk beta smom0 h mu = (2%:R * (1 / (1 + rexp (beta * (smom0 + h - mu)))), 1 / (1 + rexp (beta * (smom0 + h - mu)))).
Proof. move=> H1 H2 H3. rewrite (fill_atomic rexp beta HK HL mu H1 H2). by rewrite /rho_atomic H3. Qed.
Print Assumptions C68_atomic_limit.
(** Beyond 20 the occupation of the atom is replaced by exp(-x): too large by at most exp(-2x). *)
Theorem C68_fallback (x : R) : 20%:R <= beta * x -> 0 < rexp (beta * x) -> rexp (beta * x) * rexp (- (beta * x)) = 1 ->
  0 < rho_atomic rexp beta x - 1 / (1 + rexp (beta * x)) <= rexp (- (beta * x)) ^+ 2.
Proof. move=> H1 H2 H3. exact: (proj2 (rho_error H1 H2 H3)). Qed.
Print Assumptions C68_fallback.
(** Particle-hole symmetry (p: k -> k + Q, say) fixes the filling to one, for any number of frequencies. *)
Theorem C68_half_filling hl (p : K -> K) : rexp 0 = 1 -> involutive p ->
  (forall i z, zget ivl i = Some z -> complex.Re z = 0) ->
  (forall k, hk (p k) - hl = - (hk k - hl)) ->
  (forall k i, (0 <= i < zlen ivl)%Z -> entry (siwk (p k)) i - smom0%:C = - conjc (entry (siwk k) i - smom0%:C)) ->
  get_fill rexp ivl hk siwk beta smom0 hl (hl + smom0) = (1, 2%:R^-1).
Proof. exact: fill_half. Qed.
Print Assumptions C68_half_filling.
(** A chemical potential found as a root reproduces the filling. *)
Theorem C68_mu_roundtrip newton n mu : newton (root_fun rexp n ivl hk siwk beta smom0 (mean_r hk)) 0 = Some mu ->
  root_fun rexp n ivl hk siwk beta smom0 (mean_r hk) mu = 0 ->
  gf_mu_n rexp newton None (Some n) ivl hk siwk beta smom0 = Ok (mu, n) /\ gf_mu_n rexp newton (Some mu) None ivl hk siwk beta smom0 = Ok (mu, n).
Proof. exact: mu_of_root. Qed.
Print Assumptions C68_mu_roundtrip.
(** Finding: a failed search is silent: mu = 0 is used and the target reported as the filling; a given mu is ignored
    when n is given. *)
Theorem C68_failed_search newton n : newton (root_fun rexp n ivl hk siwk beta smom0 (mean_r hk)) 0 = None ->
  forall mu, gf_mu_n rexp newton mu (Some n) ivl hk siwk beta smom0 = Ok (0, n).
Proof. exact: mu_failed. Qed.
Print Assumptions C68_failed_search.
(** update_mu itself: a root found from the start value reproduces the filling, a failed search returns the start value. *)
Theorem C68_update_mu newton mu0 n :
  (forall mu, newton (root_fun rexp n ivl hk siwk beta smom0 (mean_r hk)) mu0 = Some mu -> update_mu rexp newton mu0 n ivl hk siwk beta smom0 = mu) /\
  (newton (root_fun rexp n ivl hk siwk beta smom0 (mean_r hk)) mu0 = None -> update_mu rexp newton mu0 n ivl hk siwk beta smom0 = mu0).
Proof. by rewrite /update_mu; split=> [mu|] ->. Qed.
Print Assumptions C68_update_mu.
End Fill.
(** so that the reported pair (mu, n) need not be consistent *)
Theorem C68_reported_filling_refuted (rexp : R -> R) (beta : R) : rexp 0 = 1 ->
  exists (ivl : list C) (hk : bool -> R) (siwk : bool -> list C) newton, forall n : R, n <> 1 ->
  exists mu, gf_mu_n rexp newton None (Some n) ivl hk siwk beta 0 = Ok (mu, n) /\ gf_mu_n rexp newton (Some mu) None ivl hk siwk beta 0 = Ok (mu, 1).
Proof.
  move=> He. exists [:: iv 1 (-1); iv 1 0], (fun b => if b then 1 else -1), (fun _ => [:: 0; 0]), (fun _ _ => None) => n _. exists 0. split=> //.
  rewrite /gf_mu_n. have Hm : mean_r (fun b : bool => if b then 1 else -1 : R) = 0 by rewrite /mean_r big_bool /= subrr mul0r.
  rewrite Hm. have := @fill_half R rexp [finType of bool] [:: iv 1 (-1); iv 1 0] (fun b => if b then 1 else -1) (fun _ => [:: 0; 0]) beta 0.
  move=> /(_ (fun _ => erefl) 0 negb He negbK) H. do 2 f_equal. rewrite addr0 in H. rewrite H //.
  - move=> i z Hz. have := @zget_In _ _ _ _ Hz. by move=> [<-|[<-|[]]].
  - by case; rewrite !subr0 ?opprK.
  - move=> k i Hi. have -> : entry [:: 0; 0] i = 0 :> C. { rewrite /entry. by case: (Z.to_nat i) => [|[|[|m]]]. }
    by rewrite subrr conjc0 oppr0.
Qed.
Print Assumptions C68_reported_filling_refuted.

(** ** C69: real frequencies *)
Theorem C69_spectral_function (cpi : R) (w : list R) (swk : list C) (d ek mu : R) : 0 < cpi -> 0 < d ->
  (forall i x, zget swk i = Some x -> complex.Im x <= 0) ->
  (forall i g, zget (get_gwk_row w swk d ek mu) i = Some g ->
     exists wi s, zget w i = Some wi /\ zget swk i = Some s /\ g * (wi%:C + mu%:C - ek%:C - s + Complex 0 d) = 1) /\
  (forall i a, zget (awk cpi (get_gwk_row w swk d ek mu)) i = Some a -> 0 < a).
Proof.
  move=> H1 H2 H3. split; [|exact: awk_pos]. move=> i g Hg. have [wi [s [A [B [D _]]]]] := gwk_im H2 H3 Hg. by exists wi, s.
Qed.
Print Assumptions C69_spectral_function.
Theorem C69_filling (K : finType) (cpi : R) (w : list R) (swk : K -> list C) (d : R) (ek : K -> R) mu : 0 < cpi -> 0 < d -> sorted <=%R w ->
  (forall k i x, zget (swk k) i = Some x -> complex.Im x <= 0) ->
  0 <= get_filling_real_f cpi w (fun k => get_gwk_row w (swk k) d (ek k) mu).
Proof.
  move=> H1 H2 H3 H4. apply: filling_ge0 => // k i g Hg. have [? [? [_ [_ [_ H]]]]] := gwk_im H2 (H4 k) Hg. exact: ltW.
Qed.
Print Assumptions C69_filling.
(** ... and it is -2/pi times the trapezoidal integral of Im G, averaged over the momenta, over the frequencies up to zero. *)
Theorem C69_filling_window (K : finType) (cpi : R) (w1 w2 : list R) (gwk : K -> list C) : all (fun x => x <= 0) w1 -> all (fun x => 0 < x) w2 ->
  let A i := complex.Im ((\sum_(k : K) entry (gwk k) (Z.of_nat i)) / #|K|%:R) in
  get_filling_real_f cpi (w1 ++ w2) gwk = - 1 / cpi * (\sum_(0 <= i < (size w1).-1) (seq.nth 0 w1 i.+1 - seq.nth 0 w1 i) * (A i + A i.+1) / 2%:R) * 2%:R.
Proof. exact: filling_window. Qed.
Print Assumptions C69_filling_window.
(** Finding: the success of the minimisation is not looked at; any point is reported with the target filling. *)
Theorem C69_reported_filling (K : finType) (cpi : R) minimize mu n (w : list R) (swk : K -> list C) (d : R) (ek : K -> R) :
  rf_mu_n minimize cpi mu (Some n) w swk d ek = Ok (minimize (opt_func cpi n w swk d ek) 0, n) /\
  (opt_func cpi n w swk d ek (minimize (opt_func cpi n w swk d ek) 0) = 0 ->
   rf_mu_n minimize cpi (Some (minimize (opt_func cpi n w swk d ek) 0)) None w swk d ek = Ok (minimize (opt_func cpi n w swk d ek) 0, n)).
Proof.
  split=> //. move=> H. rewrite /rf_mu_n. do 2 f_equal. move/eqP: H. by rewrite {1}/opt_func sqrf_eq0 subr_eq0 => /eqP.
Qed.
Print Assumptions C69_reported_filling.

(** ** the hypotheses are met *)
Definition ex_se : selfenergy R [finType of bool] :=
  SelfEnergy (fun b : bool => repeat (if b then Complex 1 (-1) else Complex 3%:R (-2%:R)) 30) 30 1 1 (-1) 25.
Example C66_ex : (forall k, zlen (se_sigma ex_se k) = Z.of_nat (se_niv ex_se)) /\ (0 <= se_core ex_se <= Z.of_nat (se_niv ex_se))%Z /\
  0 < se_pb ex_se /\ se_smom1 ex_se <= 0 /\ (forall k v, (0 <= v < se_core ex_se)%Z -> complex.Im (entry (se_sigma ex_se k) v) <= 0).
Proof.
  split; [by move=> k; case: k|]. split; [by split; apply/Z.leb_le|]. split; [exact: ltr01|]. split; [by rewrite /= oppr_le0 ler01|].
  move=> k v Hv. have := @zget_repeat C (if k then Complex 1 (-1) else Complex 3%:R (-2%:R)) 30 v. move/(_ ltac:(simpl in Hv; lia)) => E.
  have E2 : entry (se_sigma ex_se k) v = (if k then Complex 1 (-1) else Complex 3%:R (-2%:R)) := zget_eq_nth 0 E. rewrite E2. by case: k {E E2} => /=; rewrite oppr_le0 ?ler01 ?ler0n.
Qed.
End Props.
