(** Model of /repo/src/dga/two_point.py: self-energies and Green's functions.

    Numbers are complex numbers over an arbitrary real closed field (complex128
    without rounding; x/0 is the field's total division and is excluded where it
    matters).  An array of shape [kx,ky,kz,v] is a function from its momenta (a
    finite type) to the list along the last axis; a local array [1,1,1,v] has one
    momentum.  Broadcasting a [1,1,1,...] array against momenta [K] is the map
    [bc : K -> KS] to the only momentum of [KS]; for equal shapes it is the identity.
    [pb] is the number pi/beta. *)
From mathcomp Require Import all_ssreflect all_algebra.
From mathcomp.real_closed Require Import complex.
From Coq Require Import String ZArith.
From Verif Require Import Base.PyBase Model.Matsubara.
Import GRing.Theory Num.Theory.
Set Implicit Arguments. Unset Strict Implicit. Unset Printing Implicit Defensive.
Local Open Scope ring_scope.
Local Open Scope complex_scope.

Section TwoPoint.
Variable R : rcfType.
Notation C := R[i].

(** integers as real numbers *)
Definition zR (z : Z) : R := if Z.ltb z 0 then - (Z.to_nat (- z))%:R else (Z.to_nat z)%:R.
(** matsubara_frequencies.py:209-212: [vn(beta, n, ...)] is (2n+1) pi/beta; times 1j *)
Definition nu (pb : R) (n : Z) : R := zR (2 * n + 1)%Z * pb.
Definition iv (pb : R) (n : Z) : C := Complex 0 (nu pb n).

Definition ffull (l : list C) : list C := fermionic_full_nu_range (@conjc R) l.
Definition lsum (l : list C) : C := \sum_(x <- l) x.
(** [np.mean(l)] of a 1d real array *)
Definition rmean (l : list R) : R := (\sum_(x <- l) x) / (length l)%:R.
(** [np.mean(a, axis=(0,1,2))] of an array without frequencies, and with frequency axis of length n *)
Definition kmean (K : finType) (f : K -> C) : C := (\sum_(k : K) f k) / #|K|%:R.
Definition at_ (l : list C) (i : nat) : C := List.nth i l 0.
Definition kmean_v (K : finType) (n : nat) (f : K -> list C) : list C := map (fun i => kmean (fun k => at_ (f k) i)) (List.seq 0 n).

(** two_point.py:19-31 [get_smom0], [get_smom1], [get_sum_chiupup] *)
Definition get_smom0 (u n : R) : R := u * n / 2%:R.
Definition get_smom1 (u n : R) : R := - u ^+ 2 * n / 2%:R * (1 - n / 2%:R).
Definition get_sum_chiupup (n : R) : R := n / 2%:R * (1 - n / 2%:R).

(** two_point.py:34-62 [fit_smom]; int(0.2*niv) is niv // 5.  [ivs] and the rows of
    [siwk] have length niv; a slice with a negative start counts from the end. *)
Definition fit_smom (K : finType) (ivs : list C) (niv : nat) (siwk : K -> list C) : R * R :=
  let n_freq_fit := Nat.max 4 (niv / 5) in
  let s_loc := kmean_v niv siwk in
  let start := (Z.of_nat niv - Z.of_nat n_freq_fit)%Z in
  let iwfit := slice_from ivs start in
  let fitdata := slice_from s_loc start in
  (rmean (map (fun x : C => complex.Re x) fitdata),
   rmean (map (fun x : C * C => complex.Im x.1 * complex.Im x.2) (combine fitdata iwfit))).

(** two_point.py:71-134 class SelfEnergy after construction: the stored positive
    half, its length, pi/beta, the moments of the tail, the core size. *)
Record selfenergy (KS : finType) := SelfEnergy {
  se_sigma : KS -> list C; se_niv : nat; se_pb : R; se_smom0 : R; se_smom1 : R; se_core : Z }.

(** two_point.py:164-172 [get_asympt], before completion to negative frequencies: the same row for all momenta *)
Definition tail_row (pb smom0 smom1 : R) (niv_asympt n_min : Z) : list C :=
  map (fun n => smom0%:C - 1 / iv pb n * smom1%:C) (vn niv_asympt n_min true).

(** [np.argmax] of a boolean array: the first True, 0 if there is none *)
Definition argmax (l : list bool) : nat := if has id l then seq.find id l else O.
Definition niv_core_min : Z := 20.
(** two_point.py:139-148 [estimate_niv_core] *)
Definition estimate_niv_core (KS : finType) (sigma : KS -> list C) (niv : nat) (pb smom0 smom1 err : R) : Z :=
  let asympt := tail_row pb smom0 smom1 (Z.of_nat niv) 0 in
  let km := kmean_v niv sigma in
  let ind_real := argmax (map (fun x : C * C => `|complex.Re x.1 - complex.Re x.2| < err) (combine km asympt)) in
  let ind_imag := argmax (map (fun x : C * C => `|complex.Im x.1 - complex.Im x.2| < err) (combine km asympt)) in
  let niv_core := Z.max (Z.of_nat ind_real) (Z.of_nat ind_imag) in
  if Z.ltb niv_core niv_core_min then niv_core_min else niv_core.

(** two_point.py:76-121 the constructor.  [n] is the length of the last axis as
    passed; optional arguments are [None] when not given. *)
Definition make_selfenergy (KS : finType) (sigma : KS -> list C) (n : nat) (pb : R) (pos : bool)
    (smom0 smom1 : option R) (err : R) (core : option Z) : selfenergy KS :=
  let sigma' := if pos then sigma else fun k => slice_from (sigma k) (Z.of_nat n / 2) in
  let niv := if pos then n else Nat.sub n (n / 2) in
  let fit := fit_smom (map (iv pb) (vn (Z.of_nat niv) 0 true)) niv sigma' in
  let m0 := match smom0 with Some x => x | None => fit.1 end in
  let m1 := match smom1 with Some x => x | None => fit.2 end in
  let c := match core with Some c => c | None => estimate_niv_core sigma' niv pb m0 m1 err end in
  SelfEnergy sigma' niv pb m0 m1 c.

(** two_point.py:132-134 [sigma_core] *)
Definition sigma_core (KS : finType) (s : selfenergy KS) : KS -> list C :=
  fun k => ffull (slice_to (se_sigma s k) (se_core s)).
(** two_point.py:164-172 [get_asympt] *)
Definition get_asympt (KS : finType) (s : selfenergy KS) (niv_asympt : Z) (n_min : option Z) (pos : bool) : KS -> list C :=
  let n_min := match n_min with Some m => m | None => se_core s end in
  fun _ => let a := tail_row (se_pb s) (se_smom0 s) (se_smom1 s) niv_asympt n_min in if pos then a else ffull a.
(** two_point.py:150-162 [get_siw] (pi_shift=False) *)
Definition get_siw (KS : finType) (s : selfenergy KS) (niv : Z) : KS -> list C :=
  let niv := if Z.eqb niv (-1) then Z.of_nat (se_niv s) else niv in
  fun k =>
    if Z.leb niv (se_core s) then ffull (slice_to (se_sigma s k) niv)
    else ffull (slice_to (se_sigma s k) (se_core s) ++ tail_row (se_pb s) (se_smom0 s) (se_smom1 s) (niv - se_core s) (se_core s)).

(** two_point.py:175-183 [create_dga_siwk_with_dmft_as_asympt]; [n] is the length of
    the last axis of siwk_dga, [k0] the momentum (0,0,0) of the DMFT self-energy. *)
Definition create_dga_siwk_with_dmft_as_asympt (K KS : finType) (siwk_dga : K -> list C) (n : nat)
    (dmft : selfenergy KS) (k0 : KS) (niv_shell : Z) (err : R) : selfenergy K :=
  let niv_core := (Z.of_nat n / 2)%Z in
  let niv_full := (niv_core + niv_shell)%Z in
  let shell := inv_cut_v_1d (get_siw dmft niv_full k0) niv_core niv_shell in
  make_selfenergy (fun k => concatenate_core_asmypt (siwk_dga k) shell) (Nat.add n (length shell)) (se_pb dmft) false
    (Some (se_smom0 dmft)) (Some (se_smom1 dmft)) err (Some niv_full).

(** * Green's functions *)
(** two_point.py:313-315 [build_g] for one momentum: numpy broadcasts the frequency axes, which must have equal
    length (or one of them length one, which does not occur here); otherwise ValueError. *)
Definition build_g_row (ivs : list C) (ek : R) (mu : R) (sigma : list C) : res (list C) :=
  if Nat.eqb (length ivs) (length sigma) then Ok (map (fun x : C * C => 1 / (x.1 + mu%:C - ek%:C - x.2)) (combine ivs sigma)) else Raise ValueError.
Definition ivs (pb : R) (n : Z) : list C := map (iv pb) (vn n 0 false).

Section GF.
Variables (K KS : finType) (bc : K -> KS).
(** two_point.py:419-420 [build_g_core], 441-444 [build_asympt], 412-417 [g_full] *)
Definition build_g_core (s : selfenergy KS) (ek : K -> R) (mu : R) (k : K) : res (list C) :=
  build_g_row (ivs (se_pb s) (se_core s)) (ek k) mu (sigma_core s (bc k)).
Definition build_asympt (s : selfenergy KS) (ek : K -> R) (mu : R) (niv_asympt : Z) (k : K) : res (list C) :=
  let! g := build_g_row (map (iv (se_pb s)) (vn niv_asympt (se_core s) true)) (ek k) mu (get_asympt s niv_asympt None true (bc k)) in
  Ok (ffull g).
Definition g_full (s : selfenergy KS) (ek : K -> R) (mu : R) (niv_asympt : Z) (k : K) : res (list C) :=
  let! core := build_g_core s ek mu k in
  let! asympt := build_asympt s ek mu niv_asympt k in
  Ok (concatenate_core_asmypt core asympt).
(** two_point.py:446-449 [get_sigma_full] *)
Definition get_sigma_full (s : selfenergy KS) (niv_asympt : Z) (k : KS) : list C :=
  concatenate_core_asmypt (sigma_core s k) (get_asympt s niv_asympt None false k).

(** two_point.py:409-410 [fs]: the entry niv_full of the full Green's function; [cpi] stands for np.pi. *)
Definition fs (cpi : R) (s : selfenergy KS) (ek : K -> R) (mu : R) (niv_asympt : Z) (k : K) : res R :=
  let! g := g_full s ek mu niv_asympt k in
  let! x := py_get g (se_core s + niv_asympt)%Z in
  Ok (- complex.Im x / cpi).

(** two_point.py:452-455 [e_kin] and 458-464 [e_pot] before the assertion that the imaginary part is small:
    [g k] is the full Green's function at k. *)
Definition e_kin_c (beta : R) (ek : K -> R) (g : K -> list C) (n : nat) : C :=
  1 / beta%:C * lsum (kmean_v n (fun k => map (fun x => (ek k)%:C * x) (g k))).
Definition e_pot_c (beta : R) (s : selfenergy KS) (niv_asympt : Z) (g : K -> list C) (n : nat) : C :=
  1 / beta%:C * lsum (kmean_v n (fun k =>
    map (fun x : C * C => (x.1 - (se_smom0 s)%:C) * x.2) (combine (get_sigma_full s niv_asympt (bc k)) (g k)))).
Definition e_pot (beta : R) (s : selfenergy KS) (niv_asympt : Z) (g : K -> list C) (n : nat) (fill : R) : R :=
  complex.Re (e_pot_c beta s niv_asympt g n) + se_smom0 s * fill / 2%:R.
End GF.

(** * Filling *)
Section Fill.
Variable rexp : R -> R.   (* np.exp on real numbers *)
Variable K : finType.
(** two_point.py:187-199 [get_gloc], 202-215 [get_g_model]; [siwk] after broadcasting *)
Definition get_gloc (ivl : list C) (hk : K -> R) (siwk : K -> list C) (mu : R) : list C :=
  kmean_v (length ivl) (fun k => map (fun x : C * C => 1 / (x.1 + mu%:C - (hk k)%:C - x.2)) (combine ivl (siwk k))).
Definition get_g_model (mu : R) (ivl : list C) (hloc smom0 : R) : list C :=
  map (fun z => 1 / (z + mu%:C - hloc%:C - smom0%:C)) ivl.
(** two_point.py:258-273 [get_fill]: (n_el, rho_new).  20 is the literal of the code. *)
Definition rho_atomic (beta x : R) : R := if beta * x < 20%:R then 1 / (1 + rexp (beta * x)) else rexp (- (beta * x)).
Definition get_fill (ivl : list C) (hk : K -> R) (siwk : K -> list C) (beta smom0 hloc mu : R) : R * R :=
  let gm := get_g_model mu ivl hloc smom0 in
  let gl := get_gloc ivl hk siwk mu in
  let rho_new := rho_atomic beta (smom0 + hloc - mu) + (\sum_(x <- combine gl gm) (complex.Re x.1 - complex.Re x.2)) / beta in
  (2%:R * rho_new, rho_new).
(** two_point.py:218-225 [get_fill_primitive] *)
Definition get_fill_primitive (g_loc : list C) (beta : R) : C := (1 / beta%:C * lsum g_loc + (2%:R)^-1) * 2%:R.

(** two_point.py:287-308 [update_mu]: scipy.optimize.newton either returns a number or raises RuntimeError
    ([None]); in the latter case the start value is returned.  All quantities are real, so the imaginary
    part tested at the end is 0. *)
Definition root_fun (target : R) ivl hk siwk beta smom0 hloc (mu : R) : R := (get_fill ivl hk siwk beta smom0 hloc mu).1 - target.
Definition mean_r (hk : K -> R) : R := (\sum_(k : K) hk k) / #|K|%:R.
Definition update_mu (newton : (R -> R) -> R -> option R) (mu0 target : R) (ivl : list C) (hk : K -> R) (siwk : K -> list C) (beta smom0 : R) : R :=
  match newton (root_fun target ivl hk siwk beta smom0 (mean_r hk)) mu0 with Some mu => mu | None => mu0 end.
(** two_point.py:325-346 the constructor of GreensFunction: (mu, n); mu0 = 0 is the class attribute. *)
Definition gf_mu_n (newton : (R -> R) -> R -> option R) (mu n : option R) (ivl : list C) (hk : K -> R) (siwk : K -> list C) (beta smom0 : R) : res (R * R) :=
  match n, mu with
  | Some n, _ => Ok (update_mu newton 0 n ivl hk siwk beta smom0, n)
  | None, Some mu => Ok (mu, (get_fill ivl hk siwk beta smom0 (mean_r hk) mu).1)
  | None, None => Raise ValueError
  end.
End Fill.

(** * Real frequencies *)
Section RealF.
Variable K : finType.
(** two_point.py:520-521 [get_gwk] with line 477 (swk - 1j*deltino) for one momentum *)
Definition get_gwk_row (w : list R) (swk : list C) (deltino ek mu : R) : list C :=
  map (fun x : R * C => 1 / (x.1%:C + mu%:C - ek%:C - (x.2 - Complex 0 deltino))) (combine w swk).
(** two_point.py:491-492 [awk] *)
Definition awk (cpi : R) (g : list C) : list R := map (fun x : C => - complex.Im x / cpi) g.
(** [np.trapz(y, x)] *)
Fixpoint trapz (y x : list R) : R :=
  match y, x with
  | y0 :: ((y1 :: _) as y'), x0 :: ((x1 :: _) as x') => (x1 - x0) * (y0 + y1) / 2%:R + trapz y' x'
  | _, _ => 0
  end.
(** two_point.py:524-527 [get_filling_real_f] *)
Definition get_filling_real_f (cpi : R) (w : list R) (gwk : K -> list C) : R :=
  let ind := map (fun x => x <= 0) w in
  let im := map (fun x : C => complex.Im x) (kmean_v (length w) gwk) in
  - 1 / cpi * trapz (mask ind im) (mask ind w) * 2%:R.
(** two_point.py:530-543 [opt_func], [adjust_mu_real_f] and 468-488 the constructor: (mu, n).  scipy.optimize.minimize
    returns some point; its success flag is not looked at.  [swk] is per momentum (after broadcasting). *)
Definition opt_func (cpi n : R) (w : list R) (swk : K -> list C) (deltino : R) (ek : K -> R) (mu : R) : R :=
  (get_filling_real_f cpi w (fun k => get_gwk_row w (swk k) deltino (ek k) mu) - n) ^+ 2.
Definition rf_mu_n (minimize : (R -> R) -> R -> R) (cpi : R) (mu n : option R) (w : list R) (swk : K -> list C) (deltino : R) (ek : K -> R) : res (R * R) :=
  match n, mu with
  | Some n, _ => Ok (minimize (opt_func cpi n w swk deltino ek) 0, n)
  | None, Some mu => Ok (mu, get_filling_real_f cpi w (fun k => get_gwk_row w (swk k) deltino (ek k) mu))
  | None, None => Raise ValueError
  end.
End RealF.
End TwoPoint.
