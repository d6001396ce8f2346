(** C21-C27, C51-C55: local two-particle quantities (local_four_point.py), exact arithmetic over any field.

    Reading guide: Spec/BseSpec.v has the textbook relations (Bethe-Salpeter equation, full vertex, three-leg vertex,
    core/full box), Spec/SdeSpec.v reads nested lists by frequency.  [chi0] is the bubble at one transferred frequency
    (row vector), [gam] stands for Gamma/beta^2 and [f] for F/beta^2, the scaling the code stores. *)
From mathcomp Require Import all_ssreflect all_algebra.
From Coq Require Import String.
From Verif Require Import Base.PyBase Base.Arr Spec.BseSpec Spec.SdeSpec Model.LocalFourPoint Model.LocalSDE
  Proofs.LocalFourPointP Proofs.LocalSDEP Proofs.LocalG2P Proofs.LocalSDE2P Proofs.LocalObjP.
Set Implicit Arguments. Unset Strict Implicit. Unset Printing Implicit Defensive.
Import GRing.Theory.
Local Open Scope ring_scope.

(** ** C21 *)
Theorem C21_chi_solves_bse : forall (F : fieldType) n gam (chi0 : 'rV[F]_n) chi, (forall i, chi0 0 i != 0) ->
  gchir_from_gamob2_wn gam chi0 = Ok chi <-> bethe_salpeter chi0 gam chi.
Proof. exact gchir_from_gamob2_bse. Qed.
Print Assumptions C21_chi_solves_bse.
Theorem C21_gamma_solves_bse : forall (F : fieldType) n gam (chi0 : 'rV[F]_n) chi, (forall i, chi0 0 i != 0) ->
  gamob2_from_gchir_wn chi chi0 = Ok gam <-> bethe_salpeter chi0 gam chi.
Proof. exact gamob2_from_gchir_bse. Qed.
Print Assumptions C21_gamma_solves_bse.
Theorem C21_roundtrip_gamma : forall (F : fieldType) n (g h : lnp F 'M[F]_n) (chi0 : list 'rV[F]_n),
  zlen (l_mat g) = zlen (l_wn g) -> (forall v, List.In v chi0 -> forall i, v 0 i != 0) ->
  gamob2_from_gchir g chi0 = Ok h -> gchir_from_gamob2 h chi0 = Ok g.
Proof. exact roundtrip_gam. Qed.
Print Assumptions C21_roundtrip_gamma.
Theorem C21_roundtrip_chi : forall (F : fieldType) n (g h : lnp F 'M[F]_n) (chi0 : list 'rV[F]_n),
  zlen (l_mat g) = zlen (l_wn g) -> (forall v, List.In v chi0 -> forall i, v 0 i != 0) ->
  gchir_from_gamob2 g chi0 = Ok h -> gamob2_from_gchir h chi0 = Ok g.
Proof. exact roundtrip_chi. Qed.
Print Assumptions C21_roundtrip_chi.

(** ** C22 *)
Theorem C22_roundtrip : forall (F : fieldType) n (g : lnp F 'M[F]_n) (chi0 : list 'rV[F]_n),
  zlen (l_mat g) = zlen chi0 -> (forall v, List.In v chi0 -> forall i, v 0 i != 0) ->
  (exists h, fob2_from_gchir g chi0 = Ok h /\ gchir_from_fob2 h chi0 = Ok g) /\
  (exists h, gchir_from_fob2 g chi0 = Ok h /\ fob2_from_gchir h chi0 = Ok g).
Proof. exact roundtrip_fob2. Qed.
Print Assumptions C22_roundtrip.
Theorem C22_is_full_vertex : forall (F : fieldType) n (chi0 : 'rV[F]_n) f chi, (forall i, chi0 0 i != 0) ->
  fob2_from_gchir_w chi chi0 = f <-> full_vertex chi0 f chi.
Proof. exact fob2_from_gchir_vertex. Qed.
Print Assumptions C22_is_full_vertex.
Theorem C22_vertex_from_gamma : forall (F : fieldType) nc ns beta ur (gam : 'M[F]_(nc.*2)) (chi0 : 'rV[F]_((nc + ns).*2)) G chi f,
  (forall i, chi0 0 i != 0) -> u_padded gam (ur / beta ^+ 2) G -> bethe_salpeter chi0 G chi ->
  fob2_from_gamob2_urange_w beta ur gam chi0 = Ok f -> full_vertex chi0 f chi.
Proof. exact fob2_urange_vertex. Qed.
Print Assumptions C22_vertex_from_gamma.

(** ** C23 *)
Theorem C23_recovers_core_vertex : forall (F : fieldType) nc ns beta ur (gam : 'M[F]_(nc.*2)) (chi0 : 'rV[F]_((nc + ns).*2)) G chi core_chi r,
  (forall i, chi0 0 i != 0) -> u_padded gam (ur / beta ^+ 2) G -> bethe_salpeter chi0 G chi -> core_block chi core_chi ->
  gamob2_from_gchir_urange_wn beta ur core_chi chi0 = Ok r -> r = gam.
Proof. exact gamob2_urange_recovers. Qed.
Print Assumptions C23_recovers_core_vertex.
Theorem C23_reproduces_core_chi : forall (F : fieldType) nc ns beta ur (gchir : 'M[F]_(nc.*2)) (chi0 : 'rV[F]_((nc + ns).*2)) gam G chi,
  (forall i, chi0 0 i != 0) -> gamob2_from_gchir_urange_wn beta ur gchir chi0 = Ok gam ->
  u_padded gam (ur / beta ^+ 2) G -> bethe_salpeter chi0 G chi -> core_block chi gchir.
Proof. exact gamob2_urange_sound. Qed.
Print Assumptions C23_reproduces_core_chi.

(** ** C24 *)
Theorem C24_physical_susceptibility : forall (F : fieldType) nc ns (beta ur : F) (gam : 'M[F]_(nc.*2)) (chi0 : 'rV[F]_((nc + ns).*2)) G chi chi0c X,
  beta != 0 -> (forall i, chi0 0 i != 0) -> u_padded gam (ur / beta ^+ 2) G -> bethe_salpeter chi0 G chi -> core_part chi0 chi0c ->
  gchi_aux_core_from_gammar_w beta ur gam chi0c = Ok X -> phys beta chi != 0 ->
  chi_phys_urange_w ur (contract_legs_4 beta X) ((beta ^+ 2)^-1 * \sum_i chi0c 0 i) ((beta ^+ 2)^-1 * \sum_I chi0 0 I) = phys beta chi.
Proof. exact chi_phys_urangeP. Qed.
Print Assumptions C24_physical_susceptibility.
Theorem C24_three_leg_vertex : forall (F : fieldType) nc ns (beta ur : F) (gam : 'M[F]_(nc.*2)) (chi0 : 'rV[F]_((nc + ns).*2)) G chi chi0c X,
  beta != 0 -> (forall i, chi0 0 i != 0) -> u_padded gam (ur / beta ^+ 2) G -> bethe_salpeter chi0 G chi -> core_part chi0 chi0c ->
  gchi_aux_core_from_gammar_w beta ur gam chi0c = Ok X -> forall last : bool,
  exists g : 'I_((nc + ns).*2) -> F,
    (forall i I, core_of i I -> g I = vrg_from_gchi_aux_w X chi0c last 0 i) /\ (forall I, ~~ in_core I -> g I = 1) /\
    (if last then three_leg beta ur chi0 chi g else three_leg_left beta ur chi0 chi g).
Proof.
  move=> F nc ns beta ur gam chi0 G chi chi0c X hb h0 hG hB hc hX last. exists (vrg_ext (vrg_from_gchi_aux_w X chi0c last)).
  have [h1 h2] := vrg_extP ns (vrg_from_gchi_aux_w X chi0c last). split=> //; split=> //. by case: last h1 h2 => _ _; [exact: (vrg_three_leg hb h0 hG hB hc hX true)|exact: (vrg_three_leg hb h0 hG hB hc hX false)].
Qed.
Print Assumptions C24_three_leg_vertex.

(** ** C25 *)
Theorem C25_vertex_reconstruction : forall (F : fieldType) nc ns (beta ur : F) (gam : 'M[F]_(nc.*2)) (chi0 : 'rV[F]_((nc + ns).*2)) G chi chi0c X f,
  beta != 0 -> (forall i, chi0 0 i != 0) -> u_padded gam (ur / beta ^+ 2) G -> bethe_salpeter chi0 G chi -> core_part chi0 chi0c ->
  gchi_aux_core_from_gammar_w beta ur gam chi0c = Ok X -> full_vertex chi0 f chi ->
  core_block f (fob2_from_vrg_and_chir_w beta ur X (vrg_from_gchi_aux_w X chi0c true) (vrg_from_gchi_aux_w X chi0c false) (phys beta chi) chi0c).
Proof. move=> F nc ns beta ur gam chi0 G chi chi0c X f hb h0 hG hB hc hX hf. exact: (fob2_vrg_core hb h0 hG hB hc hX hf). Qed.
Print Assumptions C25_vertex_reconstruction.
Theorem C25_f_dc_same_legs : forall (F : fieldType) n beta ur (vrg : 'rV[F]_n) X x chi0, beta != 0 ->
  get_f_dc_asympt_w beta ur vrg X x chi0 = beta ^+ 2 *: fob2_from_vrg_and_chir_w beta ur X vrg vrg x chi0.
Proof. exact f_dc_fob2. Qed.
Print Assumptions C25_f_dc_same_legs.

(** ** C26 *)
Theorem C26_asymptotic_correction : forall (F : fieldType) n (beta ur : F) (gam : 'M[F]_n) c0c c0u c0s (chi0 : 'rV[F]_n) last v1 x1 v2 x2,
  get_vrg_and_chir_urange_w beta ur gam c0c c0u chi0 last = Ok (v1, x1) ->
  get_vrg_and_chir_uasympt_w beta ur gam c0c c0u c0s chi0 last = Ok (v2, x2) -> 1 - ur * x2 != 0 ->
  x2 = x1 + c0s /\ (forall i, (1 - ur * x2) * v2 0 i = (1 - ur * x1) * v1 0 i) /\ (c0s = 0 -> v2 = v1).
Proof. exact asympt_invariant. Qed.
Print Assumptions C26_asymptotic_correction.

(** ** C27.  [val3 m j a b] reads m[j][a][b]; [fer giw v] is G at fermionic index v. *)
Theorem C27_gchir_from_g2 : forall (F : fieldType) channel (beta : F) wn (g2 : list (list (list F))) giw ng n,
  (0 < zlen wn)%Z -> (0 < n <= ng)%Z -> zlen giw = (2 * ng)%Z -> shape3 g2 (zlen wn) (2 * n) (2 * n) ->
  exists r, gchir_from_g2 channel beta wn g2 giw = Ok r /\ shape3 r (zlen wn) (2 * n) (2 * n) /\
   forall j w v v', zget wn j = Some w -> (- n <= v < n)%Z -> (- n <= v' < n)%Z ->
    val3 r j (n + v) (n + v') = if String.eqb channel "dens" && (w =? 0)%Z then beta * (val3 g2 j (n + v) (n + v') - 2%:R * (fer giw v * fer giw v')) else beta * val3 g2 j (n + v) (n + v').
Proof. exact gchir_from_g2P. Qed.
Print Assumptions C27_gchir_from_g2.
Theorem C27_roundtrip_g2 : forall (F : fieldType) channel (beta : F) wn (g2 : list (list (list F))) giw ng n,
  beta != 0 -> (0 < zlen wn)%Z -> (0 < n <= ng)%Z -> zlen giw = (2 * ng)%Z -> shape3 g2 (zlen wn) (2 * n) (2 * n) ->
  exists chi, gchir_from_g2 channel beta wn g2 giw = Ok chi /\ g2_from_chir channel beta wn chi giw = Ok g2.
Proof. exact g2_roundtrip. Qed.
Print Assumptions C27_roundtrip_g2.
Theorem C27_roundtrip_chi : forall (F : fieldType) channel (beta : F) wn (chi : list (list (list F))) giw ng n,
  beta != 0 -> (0 < zlen wn)%Z -> (0 < n <= ng)%Z -> zlen giw = (2 * ng)%Z -> shape3 chi (zlen wn) (2 * n) (2 * n) ->
  exists g2, g2_from_chir channel beta wn chi giw = Ok g2 /\ gchir_from_g2 channel beta wn g2 giw = Ok chi.
Proof. exact chir_roundtrip. Qed.
Print Assumptions C27_roundtrip_chi.
(** finding: for a two-particle box exactly one frequency larger than the Green's function (n = ng+1) the product array has
    a single entry, which numpy then broadcasts over the whole box without an error *)
Theorem C27_too_short_g_finding : forall (F : fieldType) (giw : list F) ng, (0 < ng)%Z -> zlen giw = (2 * ng)%Z ->
  get_ggv giw (ng + 1) = [:: [:: fer giw (ng - 1) * fer giw (ng - 1)]].
Proof. exact ggv_broadcast. Qed.
Print Assumptions C27_too_short_g_finding.
Theorem C27_symmetrize_v_vp : forall (F : fieldType) n (m : list (list F)), (0 <= n)%Z -> shape2 m n n ->
  exists r, symmetrize_v_vp n m = Ok r /\ shape2 r n n /\
   forall i j, (0 <= i < n)%Z -> (0 <= j < n)%Z -> val2 r i j = 1 / 2%:R * (val2 m i j + val2 m j i).
Proof. exact symmP. Qed.
Print Assumptions C27_symmetrize_v_vp.

(** ** C51: shell corrections of lambda and chi are exact for a U-padded vertex *)
Theorem C51_lam_tilde : forall (F : fieldType) nc ns (beta u ur sign : F) (gam : 'M[F]_(nc.*2)) (chi0 : 'rV[F]_((nc + ns).*2)) G chi chi0c cchi chi0s,
  beta != 0 -> (forall i, chi0 0 i != 0) -> u_padded gam (ur / beta ^+ 2) G -> bethe_salpeter chi0 G chi -> core_part chi0 chi0c -> core_block chi cchi ->
  sign * sign = 1 -> ur = sign * u -> chi0s = (beta ^+ 2)^-1 * (\sum_I chi0 0 I - \sum_i chi0c 0 i) -> 1 - (u * chi0s) ^+ 2 != 0 ->
  forall i I, core_of i I -> chi0 0 I * (1 + sign * get_lam_tilde_w u ur (lam_from_chir_w sign cchi chi0c) chi0s 0 i) = \sum_J chi I J.
Proof. move=> F nc ns beta u ur sign gam chi0 G chi chi0c cchi chi0s hb h0 hG hB hc hcc hs hur hsh hden i I. exact: (lam_tildeP hb h0 hG hB hc hcc hs hur hsh hden). Qed.
Print Assumptions C51_lam_tilde.
Theorem C51_chir_tilde : forall (F : fieldType) nc ns (beta u ur sign : F) (gam : 'M[F]_(nc.*2)) (chi0 : 'rV[F]_((nc + ns).*2)) G chi chi0c cchi chi0s,
  beta != 0 -> (forall i, chi0 0 i != 0) -> u_padded gam (ur / beta ^+ 2) G -> bethe_salpeter chi0 G chi -> core_part chi0 chi0c -> core_block chi cchi ->
  sign * sign = 1 -> ur = sign * u -> chi0s = (beta ^+ 2)^-1 * (\sum_I chi0 0 I - \sum_i chi0c 0 i) -> 1 - (u * chi0s) ^+ 2 != 0 ->
  get_chir_tilde_w beta sign (get_lam_tilde_w u ur (lam_from_chir_w sign cchi chi0c) chi0s) (contract_legs_4 beta cchi) chi0s chi0c u = phys beta chi.
Proof. move=> F nc ns beta u ur sign gam chi0 G chi chi0c cchi chi0s hb h0 hG hB hc hcc hs hur hsh hden. exact: (chir_tildeP hb h0 hG hB hc hcc hs hur hsh hden). Qed.
Print Assumptions C51_chir_tilde.

(** ** C52: the auxiliary susceptibility *)
Theorem C52_from_chi_or_gamma : forall (F : fieldType) n (beta ur : F) (chi gam : 'M[F]_n) (chi0 : 'rV[F]_n),
  (forall i, chi0 0 i != 0) -> bethe_salpeter chi0 gam chi -> gchi_aux_core_w beta ur chi = gchi_aux_core_from_gammar_w beta ur gam chi0.
Proof. exact aux_core_agree. Qed.
Print Assumptions C52_from_chi_or_gamma.
Theorem C52_urange_is_core_plus_bubble : forall (F : fieldType) nc ns (beta ur : F) (gam : 'M[F]_(nc.*2)) (chi0 : 'rV[F]_((nc + ns).*2)) chi0c X,
  (forall i, chi0 0 i != 0) -> core_part chi0 chi0c -> gchi_aux_core_from_gammar_w beta ur gam chi0c = Ok X ->
  exists Y, gchi_aux_core_from_gammar_urange_w beta ur gam chi0 = Ok Y /\ core_block Y X /\
    (forall I J, ~~ (in_core I && in_core J) -> Y I J = if I == J then chi0 0 I else 0).
Proof. exact aux_urange. Qed.
Print Assumptions C52_urange_is_core_plus_bubble.

(** ** C53: both routes to the three-leg vertex agree *)
Theorem C53_vrg_from_lambda_or_aux : forall (F : fieldType) n (beta ur sign : F) (chi gam X : 'M[F]_n) (chi0 : 'rV[F]_n),
  beta != 0 -> (forall i, chi0 0 i != 0) -> sign * sign = 1 -> bethe_salpeter chi0 gam chi -> gchi_aux_core_from_gammar_w beta ur gam chi0 = Ok X ->
  vrg_from_lam_w sign ur (lam_from_chir_w sign chi chi0) (contract_legs_4 beta chi) = vrg_from_gchi_aux_w X chi0 true.
Proof. exact vrg_lam_agree. Qed.
Print Assumptions C53_vrg_from_lambda_or_aux.

(** ** C54: local Schwinger-Dyson equation *)
Theorem C54_from_vrg : forall (F : fieldType) (beta ur : F) wn giw ng, (0 < zlen wn)%Z -> zlen giw = (2 * ng)%Z ->
  forall (vrg : list (list F)) chi niv, (0 <= niv)%Z -> shape2 vrg (zlen wn) (2 * niv) -> zlen chi = zlen wn ->
  (forall w, List.In w wn -> (niv + Z.abs w <= ng)%Z) ->
  exists s, schwinger_dyson_vrg beta ur wn vrg chi giw = Ok s /\ zlen s = (2 * niv)%Z /\
   forall v, (- niv <= v < niv)%Z -> fer s v = ur / 2%:R * sd_sum beta wn (fun j => 1 - (1 - ur * val chi j) * val2 vrg j (niv + v)) giw v.
Proof. exact sde_vrgP. Qed.
Print Assumptions C54_from_vrg.
(** the core/shell stitching equals the core formula on the whole box with the three-leg vertex set to 1 outside the core *)
Theorem C54_urange_is_one_formula : forall (F : fieldType) (beta u ur : F) wn giw ng, (0 < zlen wn)%Z -> zlen giw = (2 * ng)%Z ->
  forall (vrg vrg' : list (list F)) chi nc ns, (0 <= nc)%Z -> (0 <= ns)%Z -> ur * ur = u * u ->
  shape2 vrg (zlen wn) (2 * nc) -> shape2 vrg' (zlen wn) (2 * (nc + ns)) -> zlen chi = zlen wn ->
  (forall j v, (0 <= j < zlen wn)%Z -> (- (nc + ns) <= v < nc + ns)%Z ->
     val2 vrg' j (nc + ns + v) = if (- nc <=? v)%Z && (v <? nc)%Z then val2 vrg j (nc + v) else 1) ->
  (forall w, List.In w wn -> (nc + ns + Z.abs w <= ng)%Z) ->
  exists s, schwinger_dyson_core_urange beta u ur wn vrg chi giw ns = Ok s /\ schwinger_dyson_vrg beta ur wn vrg' chi giw = Ok s.
Proof. exact sde_urangeP. Qed.
Print Assumptions C54_urange_is_one_formula.
(** the complete equation: Hartree term plus density plus magnetic part, with U and -U respectively *)
Theorem C54_total_self_energy : forall (F : fieldType) (beta u : F) wn giw ng vrgd vrgm chid chim nc ns (n : F), (0 < zlen wn)%Z -> zlen giw = (2 * ng)%Z -> (0 <= nc)%Z -> (0 <= ns)%Z ->
  shape2 vrgd (zlen wn) (2 * nc) -> shape2 vrgm (zlen wn) (2 * nc) -> zlen chid = zlen wn -> zlen chim = zlen wn -> (forall w, List.In w wn -> (nc + ns + Z.abs w <= ng)%Z) ->
  exists s, schwinger_dyson_full beta u wn vrgd vrgm chid chim giw n ns = Ok s /\ zlen s = (2 * (nc + ns))%Z /\
   forall v, (- (nc + ns) <= v < nc + ns)%Z -> fer s v = u * n / 2%:R
     + u / 2%:R * sd_sum beta wn (fun j => 1 - (1 - u * val chid j) * vrg_cont vrgd nc j v) giw v
     - u / 2%:R * sd_sum beta wn (fun j => 1 - (1 + u * val chim j) * vrg_cont vrgm nc j v) giw v.
Proof. exact sde_full_value. Qed.
Print Assumptions C54_total_self_energy.
Theorem C54_from_full_vertex : forall (F : fieldType) (beta u : F) wn giw ng, (0 < zlen wn)%Z -> zlen giw = (2 * ng)%Z ->
  forall (f : list (list (list F))) x0 niv, (0 < niv)%Z -> shape3 f (zlen wn) (2 * niv) (2 * niv) -> shape2 x0 (zlen wn) (2 * niv) ->
  (forall w, List.In w wn -> (niv + Z.abs w <= ng)%Z) ->
  exists s, schwinger_dyson_f beta u wn f x0 giw = Ok s /\ zlen s = (2 * niv)%Z /\
   forall v, (- niv <= v < niv)%Z -> fer s v = u * sd_sum beta wn (fun j =>
     \sum_(k <- range (2 * niv)) odflt 0 (get3 f j (niv + v) k) * val2 x0 j k) giw v.
Proof. move=> F beta u. exact: sde_fP u. Qed.
Print Assumptions C54_from_full_vertex.
(** the three-leg route (auxiliary susceptibility on the core only) gives, on the whole box, sign/2 times the result of the
    full-vertex route, when every vertex is U outside the core *)
Theorem C54_routes_agree : forall (F : fieldType) nc ns (beta u ur sign : F) wn giw ng
  (gam : nat -> 'M[F]_(nc.*2)) (chi0 : nat -> 'rV[F]_((nc + ns).*2)) (G chi f : nat -> 'M[F]_((nc + ns).*2)) (chi0c vrg : nat -> 'rV[F]_(nc.*2)) (ph c0c c0f : nat -> F),
  beta != 0 -> (2%:R : F) != 0 -> (0 < size wn)%nat -> zlen giw = (2 * ng)%Z -> ur = sign * u -> sign * sign = 1 -> (0 < nc)%nat ->
  (forall w, List.In w wn -> (Z.of_nat nc + Z.of_nat ns + Z.abs w <= ng)%Z) ->
  (forall j, (j < size wn)%nat ->
   [/\ (forall i, chi0 j 0 i != 0), u_padded (gam j) (ur / beta ^+ 2) (G j), bethe_salpeter (chi0 j) (G j) (chi j) & core_part (chi0 j) (chi0c j)] /\
   [/\ phys beta (chi j) != 0, full_vertex (chi0 j) (f j) (chi j),
      c0c j = (beta ^+ 2)^-1 * \sum_i chi0c j 0 i, c0f j = (beta ^+ 2)^-1 * \sum_I chi0 j 0 I &
      get_vrg_and_chir_urange_w beta ur (gam j) (c0c j) (c0f j) (chi0c j) true = Ok (vrg j, ph j)]) ->
  exists s t,
   schwinger_dyson_core_urange beta u ur wn (mkseq (fun j => rv2l (vrg j)) (size wn)) (mkseq ph (size wn)) giw (Z.of_nat ns) = Ok s /\
   schwinger_dyson_f beta u wn (mkseq (fun j => mx2l (f j)) (size wn)) (mkseq (fun j => rv2l (chi0 j)) (size wn)) giw = Ok t /\
   s = List.map (fun x => sign / 2%:R * x) t.
Proof. exact bridge. Qed.
Print Assumptions C54_routes_agree.

(** ** C55: asymptotic correction of the auxiliary susceptibility.  The vertex rebuilt from the corrected quantities is the
    uncorrected one exactly when the matrix inserted between the two susceptibilities holds u_r/beta^2 ... *)
Theorem C55_consistent_with_ur_over_beta2 : forall (F : fieldType) n (beta ur : F) (X : 'M[F]_n) (chi0 : 'rV[F]_n) x1 x2,
  beta != 0 -> (forall i, chi0 0 i != 0) -> 1 - ur * x2 != 0 ->
  fob2_from_vrg_and_chir_w beta ur (gchi_aux_asympt_w (ur / beta ^+ 2) ur X x1 x2)
     (vrg_from_gchi_aux_asympt_w ur X chi0 x1 x2 true) (vrg_from_gchi_aux_asympt_w ur X chi0 x1 x2 false) x2 chi0 =
  fob2_from_vrg_and_chir_w beta ur X (vrg_from_gchi_aux_w X chi0 true) (vrg_from_gchi_aux_w X chi0 false) x1 chi0.
Proof. exact aux_asympt_consistent. Qed.
Print Assumptions C55_consistent_with_ur_over_beta2.
(** ... and the code inserts u instead, which shifts the vertex by this amount *)
Theorem C55_code_inserts_u_refuted : forall (F : fieldType) n (beta u ur : F) (X : 'M[F]_n) (chi0 : 'rV[F]_n) x1 x2,
  beta != 0 -> (forall i, chi0 0 i != 0) -> 1 - ur * x2 != 0 -> forall i j,
  let kap := (1 - ur * x1) ^+ 2 / (1 - ur * x2) - (1 - ur * x1) in
  let row := \sum_k X i k in let col := \sum_k X k j in
  fob2_from_vrg_and_chir_w beta ur (gchi_aux_asympt_w u ur X x1 x2)
     (vrg_from_gchi_aux_asympt_w ur X chi0 x1 x2 true) (vrg_from_gchi_aux_asympt_w ur X chi0 x1 x2 false) x2 chi0 i j =
  fob2_from_vrg_and_chir_w beta ur X (vrg_from_gchi_aux_w X chi0 true) (vrg_from_gchi_aux_w X chi0 false) x1 chi0 i j
   + (ur / beta ^+ 2 - u) * kap * (row * col) / (chi0 0 i * chi0 0 j).
Proof. exact aux_asympt_shift. Qed.
Print Assumptions C55_code_inserts_u_refuted.

(** ** A concrete case meeting the hypotheses of C21-C26 and C51-C54: rationals, beta = u = u_r = sign = 1, one core and
    one shell frequency pair, unit bubble, Gamma = U + 1 on the core diagonal. *)
Definition ex_gam : 'M[rat]_(1.*2) := const_mx 1 + 1%:M.
Definition ex_chi0 : 'rV[rat]_((1 + 1).*2) := const_mx 1.
Definition ex_chi0c : 'rV[rat]_(1.*2) := const_mx 1.
Definition ex_y (i : nat) : rat := if (0 < i < 3)%nat then 1 / 2%:R else 1.
Definition ex_G : 'M[rat]_((1 + 1).*2) := \matrix_(i, j) (1 + (if (i == j) && (0 < i < 3)%nat then 1 else 0)).
Definition ex_chi : 'M[rat]_((1 + 1).*2) := \matrix_(i, j) ((if i == j then ex_y i else 0) - 1 / 4%:R * ex_y i * ex_y j).
Definition ex_f : 'M[rat]_((1 + 1).*2) := fob2_from_gchir_w ex_chi ex_chi0.
Definition ex_X : 'M[rat]_(1.*2) := (1 / 2%:R)%:M.
Lemma ex_chi0_ok : forall i, ex_chi0 0 i != 0.
Proof. move=> i. by rewrite mxE. Qed.
Lemma ex_padded : u_padded ex_gam (1 / 1 ^+ 2) ex_G.
Proof.
  split.
  - move=> i j I J. rewrite !mxE => hi hj. congr (_ + _). case: I hi => I' hI'; case: J hj => J' hJ'.
    rewrite /core_of /= => e1 e2. subst I' J'. by case: i hI' => [[|[|i]] hi] // ?; case: j hJ' => [[|[|j]] hj] // ?.
  - move=> I J. rewrite mxE expr1n divr1 /in_core. case: I => [[|[|[|[|I]]]] hI] //; case: J => [[|[|[|[|J]]]] hJ] //.
Qed.
Lemma ex_core_ok : core_part ex_chi0 ex_chi0c.
Proof. by move=> i I _; rewrite !mxE. Qed.
Lemma ex_bse : bethe_salpeter ex_chi0 ex_G ex_chi.
Proof.
  move=> i j. rewrite !big_ord_recr big_ord0 !mxE /=.
  case: i => [[|[|[|[|i]]]] hi] //; case: j => [[|[|[|[|j]]]] hj] //; apply/eqP; vm_compute; reflexivity.
Qed.
Lemma ex_aux : gchi_aux_core_from_gammar_w 1 1 ex_gam ex_chi0c = Ok ex_X.
Proof.
  apply/np_invP. apply/matrixP => i j. rewrite mxE !big_ord_recr big_ord0 !mxE /=.
  case: i => [[|[|i]] hi] //; case: j => [[|[|j]] hj] //; apply/eqP; vm_compute; reflexivity.
Qed.
Lemma ex_phys_ok : phys 1 ex_chi = 3%:R / 4%:R.
Proof. rewrite /phys. rewrite !big_ord_recr !big_ord0 !mxE /=. apply/eqP; vm_compute; reflexivity. Qed.
Definition ex_vrg : 'rV[rat]_(1.*2) := vrg_from_gchi_aux_w ex_X ex_chi0c true.
Lemma ex_urange : get_vrg_and_chir_urange_w 1 1 ex_gam 2%:R 4%:R ex_chi0c true = Ok (ex_vrg, 3%:R / 4%:R).
Proof.
  rewrite /get_vrg_and_chir_urange_w ex_aux /=. congr (Ok (_, _)). rewrite /chi_phys_urange_w /contract_legs_4 !big_ord_recr !big_ord0 !mxE /=.
  apply/eqP; vm_compute; reflexivity.
Qed.
Example C21_to_C26_hypotheses_met :
  (forall i, ex_chi0 0 i != 0) /\ u_padded ex_gam (1 / 1 ^+ 2) ex_G /\ bethe_salpeter ex_chi0 ex_G ex_chi /\ core_part ex_chi0 ex_chi0c /\
  gchi_aux_core_from_gammar_w 1 1 ex_gam ex_chi0c = Ok ex_X /\ phys 1 ex_chi != 0 /\ full_vertex ex_chi0 ex_f ex_chi /\
  ex_chi 0 1 = - 1 / 8%:R :> rat.
Proof.
  split; first exact: ex_chi0_ok. split; first exact: ex_padded. split; first exact: ex_bse. split; first exact: ex_core_ok.
  split; first exact: ex_aux. split; first by rewrite ex_phys_ok. split; first by apply/(fob2_from_gchir_vertex _ _ ex_chi0_ok).
  rewrite mxE. apply/eqP; vm_compute; reflexivity.
Qed.
Example C51_hypotheses_met :
  1 - (1 / 3%:R * ((1 ^+ 2)^-1 * (\sum_I ex_chi0 0 I - \sum_i ex_chi0c 0 i))) ^+ 2 != 0 :> rat.
Proof. rewrite !big_ord_recr !big_ord0 !mxE. vm_compute. reflexivity. Qed.
Example C54_hypotheses_met : exists s t,
   schwinger_dyson_core_urange (1 : rat) 1 1 [:: (-1)%Z; 0%Z; 1%Z] (mkseq (fun j => rv2l ex_vrg) 3) (mkseq (fun _ => 3%:R / 4%:R) 3) [:: 1; 2%:R; 3%:R; 4%:R; 5%:R; 6%:R] 1 = Ok s /\
   schwinger_dyson_f (1 : rat) 1 [:: (-1)%Z; 0%Z; 1%Z] (mkseq (fun j => mx2l ex_f) 3) (mkseq (fun j => rv2l ex_chi0) 3) [:: 1; 2%:R; 3%:R; 4%:R; 5%:R; 6%:R] = Ok t /\
   s = List.map (fun x => 1 / 2%:R * x) t.
Proof.
  apply: (@C54_routes_agree _ 1 1 1 1 1 1 [:: (-1)%Z; 0%Z; 1%Z] _ 3 (fun _ => ex_gam) (fun _ => ex_chi0) (fun _ => ex_G) (fun _ => ex_chi) (fun _ => ex_f)
    (fun _ => ex_chi0c) (fun _ => ex_vrg) (fun _ => 3%:R / 4%:R) (fun _ => 2%:R) (fun _ => 4%:R)).
  - exact: oner_neq0.
  - exact: isT.
  - exact: isT.
  - exact: erefl.
  - by rewrite mulr1.
  - by rewrite mulr1.
  - exact: isT.
  - by move=> w [<-|[<-|[<-|[]]]].
  - move=> j _. split; split.
    + exact: ex_chi0_ok.
    + exact: ex_padded.
    + exact: ex_bse.
    + exact: ex_core_ok.
    + rewrite ex_phys_ok. vm_compute. reflexivity.
    + apply/(fob2_from_gchir_vertex _ _ ex_chi0_ok). exact: erefl.
    + rewrite !big_ord_recr big_ord0 !mxE. apply/eqP; vm_compute; reflexivity.
    + rewrite !big_ord_recr big_ord0 !mxE. apply/eqP; vm_compute; reflexivity.
    + exact: ex_urange.
Qed.
Example C27_example : gchir_from_g2 "dens" (2%:R : rat) [:: 0%Z; 1%Z] [:: [:: [:: 1; 2%:R]; [:: 3%:R; 4%:R]]; [:: [:: 1; 2%:R]; [:: 3%:R; 4%:R]]] [:: 1; 1]
  = Ok [:: [:: [:: - 2%:R; 0]; [:: 2%:R; 4%:R]]; [:: [:: 2%:R; 4%:R]; [:: 6%:R; 8%:R]]].
Proof. by vm_compute. Qed.

(** ** C72: diagonal approximation of the full vertex from the physical susceptibilities *)
Theorem C72_f_diag : forall (F : fieldType) (chid chim : list F) niw, (0 <= niw)%Z -> zlen chid = (2 * niw + 1)%Z -> zlen chim = (2 * niw + 1)%Z ->
  exists rd rm, get_f_diag chid chim "dens" = Ok rd /\ get_f_diag chid chim "magn" = Ok rm /\
   shape2 rd (2 * (niw / 2)) (2 * (niw / 2)) /\ shape2 rm (2 * (niw / 2)) (2 * (niw / 2)) /\
   forall v vp, (- (niw / 2) <= v < niw / 2)%Z -> (- (niw / 2) <= vp < niw / 2)%Z ->
    val2 rd (niw / 2 + v) (niw / 2 + vp) = (val chid (niw + (v - vp)) + 3%:R * val chim (niw + (v - vp))) / 2%:R /\
    val2 rm (niw / 2 + v) (niw / 2 + vp) = (val chid (niw + (v - vp)) - val chim (niw + (v - vp))) / 2%:R.
Proof. exact f_diag_value. Qed.
Print Assumptions C72_f_diag.
Theorem C72_unknown_channel : forall (F : fieldType) (chid chim : list F) ch, ch <> "dens"%string -> ch <> "magn"%string -> get_f_diag chid chim ch = Raise NotImplementedError.
Proof. exact f_diag_unknown. Qed.
Print Assumptions C72_unknown_channel.
Example C72_nonvacuous : get_f_diag [:: 0; 2%:R; 8%:R; 2%:R; 0]%Q [:: 0; 0; 4%:R; 0; 0] "dens" = Ok [:: [:: 10%:R; 1]; [:: 1; 10%:R]] /\ (2 / 2 = 1)%Z.
Proof. by []. Qed.
