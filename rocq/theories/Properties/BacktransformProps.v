(** Property C88: spectral representation, Kramers-Kronig transformation and filling (dga/analytic_continuation.py:131-203, 389-392).
    A mesh is the list of x_0, ..., x_{n-1}; pi is any non-zero number [cpi]. *)
From mathcomp Require Import all_ssreflect all_algebra.
From mathcomp.real_closed Require Import complex.
From Coq Require Import ZArith Lia String.
From Verif Require Import Base.PyBase Base.PyFacts Model.OpticsReal Model.Backtransform Spec.OpticsRealSpec Spec.BacktransformSpec Proofs.OpticsRealP Proofs.BacktransformP Proofs.KktP.
Import Order.TTheory GRing.Theory Num.Theory.
Set Implicit Arguments. Unset Strict Implicit. Unset Printing Implicit Defensive.
Local Open Scope ring_scope.
Local Open Scope complex_scope.

(** From a Green function G on the real axis (with spectrum A = -Im G/pi) to the fermionic imaginary axis: int dx A(x)/(iv - x). *)
Theorem C88_fermionic : forall (R : rcfType) (cpi : R) (x : Z -> R) (G : Z -> R[i]) n (im : list R), (forall v, List.In v im -> v != 0) ->
  transform_from_real_to_imag cpi (inr (List.map G (arange 0 n))) (List.map x (arange 0 n)) im "freq_fermionic" =
  Ok (List.map (spectral_integral (@fermi_kernel R) x (fun j => spectral cpi (G j)) n) im).
Proof.
  move=> R cpi x G n im _. apply: transform_fun; first exact: kernel_fermionic. by rewrite List.map_map.
Qed.
Print Assumptions C88_fermionic.
(** To the bosonic axis: int dx x^2/(x^2+v^2) A(x), 1 at v = 0. *)
Theorem C88_bosonic : forall (R : rcfType) (cpi : R) (x : Z -> R) (G : Z -> R[i]) n (im : list R), increasing x n -> List.NoDup im ->
  transform_from_real_to_imag cpi (inr (List.map G (arange 0 n))) (List.map x (arange 0 n)) im "freq_bosonic" =
  Ok (List.map (spectral_integral (@bose_kernel R) x (fun j => spectral cpi (G j)) n) im).
Proof.
  move=> R cpi x G n im Hx Him. apply: transform_fun; last by rewrite List.map_map. apply: kernel_bosonic => //.
  apply: NoDup_map_in; first exact: NoDup_arange. move=> i j /In_arange Hi /In_arange Hj E. case: (Z_lt_ge_dec i j) => L.
  - have := Hx i j ltac:(lia) ltac:(lia). by rewrite E ltxx.
  - case: (Z.eq_dec i j) => // N. have := Hx j i ltac:(lia) ltac:(lia). by rewrite E ltxx.
Qed.
Print Assumptions C88_bosonic.
(** A real array is taken for Im G. *)
Theorem C88_real_array : forall (R : rcfType) (cpi : R) (g : list R) (re im : list R) kind,
  transform_from_real_to_imag cpi (inl g) re im kind = transform_from_real_to_imag cpi (inr (List.map (fun y => 0 +i* y) g)) re im kind.
Proof. move=> R cpi g re im kind. rewrite /transform_from_real_to_imag. by rewrite (List.map_map (fun y => 0 +i* y)). Qed.
Print Assumptions C88_real_array.
(** Consequences on the imaginary axis, for a non-negative spectrum on a mesh within [-B, B]: values at -v and v are complex conjugate; the imaginary
    part is negative at v > 0, between the Lorentzian and the 1/v tail of the norm; the real part decays as 1/v^2; a particle-hole symmetric spectrum
    gives a purely imaginary function. *)
Theorem C88_fermionic_consequences : forall (R : rcfType) (x A : Z -> R) n (v : R),
  let g := spectral_integral (@fermi_kernel R) x A n in
  g (- v) = conjc (g v) /\
  (forall B, increasing x n -> (forall j, (0 <= j < n)%Z -> 0 <= A j) -> (forall j, (0 <= j < n)%Z -> `|x j| <= B) -> 0 < v ->
     v / (B ^+ 2 + v ^+ 2) * norm_integral x A n <= - complex.Im (g v) /\ - complex.Im (g v) <= norm_integral x A n / v /\
     `|complex.Re (g v)| <= B / v ^+ 2 * norm_integral x A n) /\
  ((1 <= n)%Z -> (forall j, (0 <= j < n)%Z -> x (n - 1 - j)%Z = - x j) -> (forall j, (0 <= j < n)%Z -> A (n - 1 - j)%Z = A j) -> complex.Re (g v) = 0).
Proof. move=> R x A n v g. split; first exact: fermi_conj. split; [move=> B; exact: fermi_bounds|exact: fermi_ph]. Qed.
Print Assumptions C88_fermionic_consequences.
(** On the bosonic axis the result is real, even, equal to the norm at v = 0, non-negative and decreasing in |v|. *)
Theorem C88_bosonic_consequences : forall (R : rcfType) (x A : Z -> R) n,
  let g := spectral_integral (@bose_kernel R) x A n in
  g 0 = (norm_integral x A n)%:C /\ (forall v, complex.Im (g v) = 0 /\ g (- v) = g v) /\
  (increasing x n -> (forall j, (0 <= j < n)%Z -> 0 <= A j) -> forall u v, `|u| <= `|v| -> 0 <= complex.Re (g v) <= complex.Re (g u)).
Proof.
  move=> R x A n g. split; first exact: bose_static. split; first by move=> v; split; [exact: bose_real|exact: bose_even].
  move=> Hx HA u v H. have [-> ->] := bose_mono Hx HA H. by [].
Qed.
Print Assumptions C88_bosonic_consequences.

(** Kramers-Kronig transformation.  Re G is the sum over the cells of the mesh without the one of the point itself, Im G = -pi A.  'fermionic'/'general'
    uses the spectrum as given; 'bosonic'/'antisymmetric' continues it to negative frequencies as an even function; 'fermionic_phsym'/'symmetric' as an odd one. *)
Theorem C88_kkt : forall (R : rcfType) (cpi : R) (x A : Z -> R) n, (1 <= n)%Z ->
  (forall s, List.In s ["fermionic"; "general"]%string ->
     kkt cpi (List.map A (arange 0 n)) (List.map x (arange 0 n)) s = Ok (List.map (kk_value KKgeneral cpi x A n) (arange 0 n))) /\
  (increasing x n -> 0 <= x 0%Z ->
     (forall s, List.In s ["bosonic"; "antisymmetric"]%string ->
        kkt cpi (List.map A (arange 0 n)) (List.map x (arange 0 n)) s = Ok (List.map (kk_value KKeven cpi x A n) (arange 0 n))) /\
     (forall s, List.In s ["fermionic_phsym"; "symmetric"]%string ->
        kkt cpi (List.map A (arange 0 n)) (List.map x (arange 0 n)) s = Ok (List.map (kk_value KKodd cpi x A n) (arange 0 n)))).
Proof.
  move=> R cpi x A n Hn. split; [|move=> Hx H0; split]; move=> s Hs; apply: kkt_ok => //.
  - by case: Hs => [<-|[<-|[]]]; [left|right].
  - by case: Hs => [<-|[<-|[]]]; [left|right].
  - by case: Hs => [<-|[<-|[]]]; [left|right].
Qed.
Print Assumptions C88_kkt.
(** Finding: so the kind named 'symmetric' (the default) is not the transformation of a symmetric spectrum, nor 'antisymmetric' that of an antisymmetric one. *)
Theorem C88_kkt_kinds_exchanged : forall (R : rcfType) (cpi : R), exists x A : Z -> R, increasing x 2 /\ 0 <= x 0%Z /\
  kkt cpi (List.map A (arange 0 2)) (List.map x (arange 0 2)) "fermionic_phsym" <> Ok (List.map (kk_value KKeven cpi x A 2) (arange 0 2)) /\
  kkt cpi (List.map A (arange 0 2)) (List.map x (arange 0 2)) "bosonic" <> Ok (List.map (kk_value KKodd cpi x A 2) (arange 0 2)).
Proof.
  move=> R cpi. exists (fun j => if (j =? 0)%Z then 1 else 2%:R), (fun j => if (j =? 0)%Z then 0 else 1). set x := (X in increasing X _). set A := (X in kkt _ (List.map X _)).
  have Hx : increasing x 2.
    move=> i j Hi Hj. have [-> ->] : i = 0%Z /\ j = 1%Z by lia. by rewrite /x /= ltr1n.
  have H0 : 0 <= x 0%Z by rewrite /x /= ler01. split; first exact: Hx. split; first exact: H0.
  have N : complex.Re (kk_value KKodd cpi x A 2 0) != complex.Re (kk_value KKeven cpi x A 2 0).
    rewrite !kk_Re. have -> : arange 0 2 = [:: 0; 1]%Z by []. rewrite !big_cons !big_nil /= !addr0. rewrite /cell /x /A /= mulr1.
    apply: neq_pm. have E3 : 1 + 2%:R = 3%:R :> R by rewrite -[1]/(1%:R) -natrD. rewrite E3. apply: mulf_neq0; last by rewrite invr_eq0 pnatr_eq0.
    apply: lt0r_neq0. by rewrite subr_gt0 ltr_pdivr_mulr ?ltr0n // -natrM ltr_nat.
  have K1 := @kkt_ok _ cpi KKodd "fermionic_phsym" x A 2 ltac:(lia) (or_introl erefl) (fun _ => conj Hx H0).
  have K2 := @kkt_ok _ cpi KKeven "bosonic" x A 2 ltac:(lia) (or_introl erefl) (fun _ => conj Hx H0).
  split; [rewrite K1|rewrite K2] => E.
  - have E1 : kk_value KKodd cpi x A 2 0 = kk_value KKeven cpi x A 2 0 by have := f_equal (fun r => match r with Ok (a :: _) => a | _ => 0 end) E. by rewrite E1 eqxx in N.
  - have E1 : kk_value KKeven cpi x A 2 0 = kk_value KKodd cpi x A 2 0 by have := f_equal (fun r => match r with Ok (a :: _) => a | _ => 0 end) E. by rewrite E1 eqxx in N.
Qed.
Print Assumptions C88_kkt_kinds_exchanged.
(** The cells cover the mesh, a particle-hole symmetric spectrum gives G(-y) = -conj G(y), and the spectrum is recovered. *)
Theorem C88_kkt_consequences : forall (R : rcfType) (cpi : R) (x A : Z -> R) n, (1 <= n)%Z ->
  \sum_(j <- arange 0 n) cell x n j = x (n - 1)%Z - x 0%Z /\
  (cpi != 0 -> forall k j, spectral cpi (kk_value k cpi x A n j) = A j) /\
  (forall j, (0 <= j < n)%Z -> (forall j, (0 <= j < n)%Z -> x (n - 1 - j)%Z = - x j) -> (forall j, (0 <= j < n)%Z -> A (n - 1 - j)%Z = A j) ->
     kk_value KKgeneral cpi x A n (n - 1 - j) = - conjc (kk_value KKgeneral cpi x A n j)).
Proof.
  move=> R cpi x A n Hn. split; first exact: cells_sum. split; last by move=> j; exact: kk_ph.
  move=> Hc k j. by rewrite /spectral kk_Im opprK mulrC mulKf.
Qed.
Print Assumptions C88_kkt_consequences.
(** Round trip: continue a spectrum to G by Kramers-Kronig, transform to the imaginary axis: the spectral integral of the spectrum. *)
Theorem C88_round_trip : forall (R : rcfType) (cpi : R) (x A : Z -> R) n im G, (1 <= n)%Z -> cpi != 0 -> (forall v, List.In v im -> v != 0) ->
  kkt cpi (List.map A (arange 0 n)) (List.map x (arange 0 n)) "general" = Ok G ->
  transform_from_real_to_imag cpi (inr G) (List.map x (arange 0 n)) im "freq_fermionic" = Ok (List.map (spectral_integral (@fermi_kernel R) x A n) im).
Proof.
  move=> R cpi x A n im G Hn Hc Him. rewrite (@kkt_ok _ cpi KKgeneral) //; last by right. move=> E. have <- : List.map (kk_value KKgeneral cpi x A n) (arange 0 n) = G by congruence.
  rewrite C88_fermionic //. f_equal. apply: List.map_ext => v. rewrite /spectral_integral. apply: trapezoid_ext => // j _. congr (_ * _%:C). by rewrite /spectral kk_Im opprK mulrC mulKf.
Qed.
Print Assumptions C88_round_trip.
(** Unknown kinds raise; finding: so does the default value of [kind]. *)
Theorem C88_errors : forall (R : rcfType) (cpi : R),
  (forall re im kind, kind <> "freq_fermionic"%string -> kind <> "freq_bosonic"%string -> get_backtransform_kernel (R := R) re im kind = Raise NotImplementedError /\
     forall mat, transform_from_real_to_imag cpi mat re im kind = Raise NotImplementedError) /\
  (forall re im, get_backtransform_kernel (R := R) re im kernel_default_kind = Raise NotImplementedError) /\
  (forall A x kind, zlen A = zlen x -> (1 <= zlen x)%Z -> ~ List.In kind ["fermionic"; "general"; "bosonic"; "antisymmetric"; "fermionic_phsym"; "symmetric"]%string ->
     kkt cpi A x kind = Raise ValueError) /\
  (forall mat re im, zlen mat <> zlen re -> transform_from_real_to_imag cpi (inr mat) re im "freq_fermionic" = Raise ValueError).
Proof.
  move=> R cpi. split; [|split; [|split]].
  - move=> re im kind H1 H2. split; first exact: kernel_unknown. move=> mat. by rewrite /transform_from_real_to_imag kernel_unknown.
  - by move=> re im; apply: kernel_unknown.
  - move=> A x kind L Hx H. apply: kkt_unknown => // k. rewrite /kk_name. case: k => [] [] E; apply: H; rewrite E /=; tauto.
  - move=> mat re im H. rewrite /transform_from_real_to_imag kernel_fermionic /= zlen_map. by have -> : (zlen mat =? zlen re)%Z = false by apply/Z.eqb_neq.
Qed.
Print Assumptions C88_errors.

(** Filling: twice the integral of the spectrum over the mesh points below zero, x_0, ..., x_{M-1}. *)
Theorem C88_filling : forall (R : rcfType) (cpi : R) (x : Z -> R) (G : Z -> R[i]) n M, (0 <= M <= n)%Z -> (forall j, (0 <= j < n)%Z -> (x j < 0) = (j <? M)%Z) ->
  check_filling cpi (List.map x (arange 0 n)) (List.map G (arange 0 n)) = Ok (norm_integral x (fun j => spectral cpi (G j)) M * 2%:R)%:C.
Proof. exact filling_ok. Qed.
Print Assumptions C88_filling.
(** Finding: the interval between the last negative mesh point and zero is missing.  A particle-hole symmetric spectrum on a symmetric mesh with a point at
    zero is half filled (the filling is the norm), but the value returned is smaller by |x_{M-1}| (A_{M-1} + A_M). *)
Theorem C88_filling_refuted : forall (R : rcfType) (cpi : R) (x : Z -> R) (G : Z -> R[i]) M, (1 <= M)%Z -> increasing x (2 * M + 1) ->
  (forall j, (0 <= j < 2 * M + 1)%Z -> x (2 * M - j)%Z = - x j) ->
  (forall j, (0 <= j < 2 * M + 1)%Z -> spectral cpi (G (2 * M - j)%Z) = spectral cpi (G j)) ->
  let A j := spectral cpi (G j) in
  check_filling cpi (List.map x (arange 0 (2 * M + 1))) (List.map G (arange 0 (2 * M + 1))) =
    Ok (norm_integral x A (2 * M + 1) - `|x (M - 1)%Z| * (A (M - 1)%Z + A M))%:C /\
  (0 < A (M - 1)%Z + A M -> norm_integral x A (2 * M + 1) - `|x (M - 1)%Z| * (A (M - 1)%Z + A M) < norm_integral x A (2 * M + 1)).
Proof.
  move=> R cpi x G M HM Hx Hs HA A. have x0 : x M = 0.
    have := Hs M ltac:(lia). have -> : (2 * M - M = M)%Z by lia. move/eqP. by rewrite -subr_eq0 opprK -mulr2n mulrn_eq0 /= => /eqP.
  have xm : x (M - 1)%Z < 0 by rewrite -x0; apply: Hx; lia. rewrite ltr0_norm // mulNr opprK. split.
  - rewrite (@filling_ok _ cpi x G _ M) ?(@filling_half _ x A M) //; first lia. move=> j Hj. case: Z.ltb_spec => L.
    + rewrite -x0. apply: Hx; lia.
    + apply/negbTE. rewrite -leNgt -x0. case: (Z.eq_dec j M) => [->|N] //. apply: ltW. apply: Hx; lia.
  - move=> H. by rewrite gtr_addl pmulr_llt0.
Qed.
Print Assumptions C88_filling_refuted.
(** A flat spectrum on the mesh -2, -1, 0, 1, 2 meets all hypotheses; its norm is 4, the value returned 2. *)
Example C88_case : forall R : rcfType, let x j := zr R (j - 2) in let A (j : Z) : R := 1 in
  increasing x 5 /\ (forall j, (0 <= j < 5)%Z -> x (2 * 2 - j)%Z = - x j) /\ (forall j, (0 <= j < 5)%Z -> `|x j| <= 2%:R) /\ norm_integral x A 5 = 4%:R /\
  norm_integral x A 5 - `|x (2 - 1)%Z| * (A (2 - 1)%Z + A 2%Z) = 2%:R.
Proof.
  move=> R x A. have N : norm_integral x A 5 = 4%:R.
    rewrite /norm_integral (eq_bigr (fun=> 1)) => [|j _]; first by rewrite big_const_seq /= /arange /= !mulrS mulr0n addr0.
    rewrite /x /A -zrB. have -> : (j + 1 - 2 - (j - 2) = 1)%Z by lia. have -> : zr R 1 = 1 by []. have -> : 1 + 1 = 2%:R :> R by rewrite mulr2n. by rewrite mul1r divff // pnatr_eq0.
  split; [|split; [|split; [|split]]].
  - move=> i j Hi Hj. rewrite /x. apply: zr_lt. lia.
  - move=> j Hj. rewrite /x. have -> : (2 * 2 - j - 2 = - (j - 2))%Z by lia. by rewrite zrN.
  - move=> j Hj. rewrite /x zr_abs. have -> : 2%:R = zr R 2 by []. apply: zr_le. lia.
  - exact: N.
  - rewrite N /x /A. have -> : zr R (2 - 1 - 2) = - 1 by []. have -> : 1 + 1 = 2%:R :> R by rewrite mulr2n. by rewrite normrN normr1 mul1r -natrB.
Qed.
