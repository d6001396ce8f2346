(** C36, C37, C45, C62, C63: the linearised Eliashberg equation (eliashberg_equation.py). *)
From mathcomp Require Import all_ssreflect all_algebra.
From mathcomp.real_closed Require Import complex.
From Coq Require Import String ZArith.
From Verif Require Import Base.PyBase Model.Config Model.Eliashberg Spec.EliashbergSpec.
From Verif Require Import Proofs.EliashbergP Proofs.EliashbergLoopP Proofs.EliashbergSymP Proofs.EliashbergStartP Proofs.EliashbergMainP.
Import Order.Theory GRing.Theory Num.Theory.
Set Implicit Arguments. Unset Strict Implicit. Unset Printing Implicit Defensive.
Local Open Scope nat_scope.
Local Open Scope ring_scope.

Section C36.
Variable R : rcfType.
Variables nx ny nz nv : nat.
Notation sg ch := (sign R (singlet ch)).

(** The result is the (anti)symmetric part in the second frequency ... *)
Theorem C36_symmetrize_value (gamma g : varr R) ch : symmetrize_gamma nv gamma ch = Ok g ->
  forall x y z v v', g x y z v v' = 2%:R^-1 * (gamma x y z v v' + sg ch * gamma x y z v (minus_v nv v')).
Proof. exact: sym_ok. Qed.
Print Assumptions C36_symmetrize_value.
(** ... it has the parity of the channel ... *)
Theorem C36_symmetrize_parity (gamma g : varr R) ch : symmetrize_gamma nv gamma ch = Ok g ->
  forall x y z v v', (v' < nv)%nat -> g x y z v (minus_v nv v') = sg ch * g x y z v v'.
Proof. move=> h x y z v v' hv'. rewrite !(sym_ok h) (neg_vK hv') mulrCA. congr (_ * _).
  by rewrite mulrDr mulrA chan_sign2 mul1r addrC. Qed.
Print Assumptions C36_symmetrize_parity.
(** ... a second application changes nothing, and singlet and triplet parts add up. *)
Theorem C36_symmetrize_idempotent (gamma g g' : varr R) ch :
  symmetrize_gamma nv gamma ch = Ok g -> symmetrize_gamma nv g ch = Ok g' ->
  forall x y z v v', (v' < nv)%nat -> g' x y z v v' = g x y z v v'.
Proof. exact: sym_idem. Qed.
Print Assumptions C36_symmetrize_idempotent.
Theorem C36_parts_add_up (gamma gs gt : varr R) :
  symmetrize_gamma nv gamma "sing" = Ok gs -> symmetrize_gamma nv gamma "trip" = Ok gt ->
  forall x y z v v', gs x y z v v' + gt x y z v v' = gamma x y z v v'.
Proof.
  move=> hs ht x y z v v'. rewrite (sym_ok hs) (sym_ok ht) /chan_sign /= mul1r mulN1r -mulrDr addrACA subrr addr0.
  by rewrite -mulr2n -(mulr_natl (gamma x y z v v')) mulrA mulVf ?two0 // mul1r.
Qed.
Print Assumptions C36_parts_add_up.
(** Exactly the two channel names are accepted. *)
Theorem C36_channels (gamma : varr R) ch :
  (pairing_channel ch -> exists g, symmetrize_gamma nv gamma ch = Ok g) /\
  (~ pairing_channel ch -> symmetrize_gamma nv gamma ch = Raise ValueError).
Proof.
  split.
  - case=> ->; rewrite /symmetrize_gamma /=; by eexists.
  - move=> h. rewrite /symmetrize_gamma. case: (String.eqb_spec ch "sing") => [e|_]; first by case: h; left.
    case: (String.eqb_spec ch "trip") => [e|_] //. by case: h; right.
Qed.
Print Assumptions C36_channels.

(** With a symmetrised vertex only the part of the gap with the parity of the
    channel enters the gap equation. *)
Theorem C36_only_matching_parity (ex ey ez : R[i]) (gamma g : varr R) ch gk norm gap :
  nx.-primitive_root ex -> ny.-primitive_root ey -> nz.-primitive_root ez ->
  symmetrize_gamma nv gamma ch = Ok g -> G2_even_v nx ny nz nv gk ->
  let part : garr R := fun x y z v => 2%:R^-1 * (gap x y z v + sg ch * gap x y z (minus_v nv v)) in
  same nx ny nz nv (apply_kernel nx ny nz nv ex ey ez g gk norm gap) (apply_kernel nx ny nz nv ex ey ez g gk norm part).
Proof.
  move=> px py pz hs hg part.
  exact: (kernel_projects px py pz norm gap (chan_sign2 R ch) (sym_parity (nx:=nx) (ny:=ny) (nz:=nz) hs) hg).
Qed.
Print Assumptions C36_only_matching_parity.

Example C36_witness : exists (gamma g : varr R) , symmetrize_gamma 2 gamma "trip" = Ok g /\ g 0%nat 0%nat 0%nat 0%nat 1%nat != 0.
Proof.
  exists (fun _ _ _ _ v' => if v' == 1%nat then 1 else 0). eexists. split; first reflexivity.
  by rewrite /= subr0 mulr1 invr_eq0 pnatr_eq0.
Qed.
End C36.

Section C37.
Variable R : rcfType.
Variables nx ny nz nv : nat.
Variable K : garr R -> garr R.
Notation run := (power_iteration_run nx ny nz nv K).

(** Every search ends, after at least one and at most max(1, max_count+1)
    iterations, exactly at the first iterate fulfilling the stopping rule. *)
Theorem C37_search_ends (found : list (garr R)) (s : option R[i]) (eps : R) (max_count : Z) (gap0 : garr R) :
  exists c : nat,
  [/\ (0 < c <= S (Z.to_nat max_count))%nat,
      power_stops nx ny nz nv K found s gap0 eps max_count c,
      forall j, (j < c)%nat -> power_stops nx ny nz nv K found s gap0 eps max_count j = false &
      forall fuel, (S (Z.to_nat max_count) <= fuel)%nat ->
        power_iteration nx ny nz nv K found s eps max_count gap0 fuel
        = Some ((power_seq nx ny nz nv K found s gap0 c).1, (power_seq nx ny nz nv K found s gap0 c).2, c)].
Proof. exact: power_char. Qed.
Print Assumptions C37_search_ends.
Theorem C37_search_result found s (eps : R) (max_count : Z) gap0 c :
  power_stops nx ny nz nv K found s gap0 eps max_count c ->
  (forall j, (j < c)%nat -> power_stops nx ny nz nv K found s gap0 eps max_count j = false) ->
  run found s eps max_count gap0 = power_seq nx ny nz nv K found s gap0 c.
Proof. exact: run_char. Qed.
Print Assumptions C37_search_result.

(** n_eig results; each is the search orthogonalised against the earlier gaps,
    with the kernel shifted by a dominant negative eigenvalue. *)
Theorem C37_get_eig eps max_count gap0 gap0_s shift n :
  let s := (run [::] None eps max_count gap0_s).1 in
  let ls := if shift then Some (if cgt0 s then 0 else s) else None in
  let r := get_eig nx ny nz nv K eps max_count gap0 gap0_s shift n in
  [/\ seq.size r.1 = n, seq.size r.2 = n &
   forall i, (i < n)%nat ->
     seq.nth 0 r.1 i = (run (seq.take i r.2) ls eps max_count gap0).1 + odflt 0 ls /\
     seq.nth zero r.2 i = (run (seq.take i r.2) ls eps max_count gap0).2].
Proof. exact: get_eig_char. Qed.
Print Assumptions C37_get_eig.

(** An exact eigenvector as start gap is returned unchanged with its exact
    eigenvalue, whatever the shift, the tolerance and the iteration limit. *)
Theorem C37_exact_eigenvector eps max_count mu gap0 gap0_s shift n :
  (forall a b, same nx ny nz nv a b -> same nx ny nz nv (K a) (K b)) -> (0 < n)%nat ->
  same nx ny nz nv (K gap0) (times mu gap0) -> dot nx ny nz nv gap0 gap0 != 0 ->
  let s := if shift then let l := (run [::] None eps max_count gap0_s).1 in if cgt0 l then 0 else l else 0 in
  mu != s ->
  let r := get_eig nx ny nz nv K eps max_count gap0 gap0_s shift n in
  seq.nth 0 r.1 0 = mu /\ same nx ny nz nv (seq.nth zero r.2 0) gap0.
Proof. move=> hK hn he hd s hs. exact: get_eig_eigen. Qed.
Print Assumptions C37_exact_eigenvector.

(** What is returned is one application of the shifted kernel divided by its
    Rayleigh quotient: the returned pair is exact only up to the last step. *)
Theorem C37_returned_pair found s eps max_count gap0 : exists d : garr R,
  let w := shifted_kernel K s d in
  let r := run found s eps max_count gap0 in
  r.1 = dot nx ny nz nv d w / dot nx ny nz nv d d /\ r.2 = times (r.1^-1) w.
Proof. exact: run_residual. Qed.
Print Assumptions C37_returned_pair.

(** Finding: the second search starts from the same gap; when the first search
    returned (a multiple of) it, the orthogonalised start is identically zero
    and the Rayleigh quotient is 0/0. *)
Theorem C37_second_search_degenerate_finding (c : R[i]) (gap0 g1 : garr R) :
  same nx ny nz nv gap0 (times c g1) -> dot nx ny nz nv g1 g1 != 0 ->
  let d := orthogonalised nx ny nz nv gap0 [:: g1] in same nx ny nz nv d zero /\ dot nx ny nz nv d d = 0.
Proof.
  move=> h hd d. have hz : same nx ny nz nv d zero.
    refine (geq_trans (gs_geq [:: g1] h) _). exact: gs_self.
  split=> //. refine (eq_trans (inner_geq hz hz) _). rewrite /inner /asum. by do 4 (rewrite big1 // => ? _); rewrite mulr0.
Qed.
Print Assumptions C37_second_search_degenerate_finding.
End C37.

(** A kernel with an exact eigenvector, and a second search that degenerates. *)
Example C37_witness (R : rcfType) (gap0_s : garr R) :
  let K : garr R -> garr R := fun a x y z v => 3%:R * a x y z v in
  let gap0 : garr R := fun _ _ _ _ => 1 in
  let r := get_eig 1 2 1 2 K 1 10%Z gap0 gap0_s false 1 in
  seq.nth 0 r.1 0 = 3%:R /\ same 1 2 1 2 (seq.nth zero r.2 0) gap0.
Proof.
  move=> K gap0. apply: (@C37_exact_eigenvector R 1 2 1 2 K 1 10%Z 3%:R gap0 gap0_s false 1) => //.
  - move=> a b h x y z v hx hy hz hv. by rewrite /K h.
  - rewrite /dot !big_ord1 !big_ord_recl !big_ord0 /gap0 !rmorph1 !mulr1 !addr0.
    by rewrite -[1]/(1%:R) -!natrD pnatr_eq0.
  - by rewrite pnatr_eq0.
Qed.

Section C45.
Variable R : rcfType.
Variables nx ny nz nv : nat.
(** Against mutually orthogonal gaps the orthogonalisation is exact, zero gaps included. *)
Theorem C45_gram_schmidt (v : garr R) (basis : list (garr R)) i : (i < seq.size basis)%nat ->
  (forall a b : nat, (a < seq.size basis)%nat -> (b < seq.size basis)%nat -> a <> b ->
     dot nx ny nz nv (seq.nth zero basis a) (seq.nth zero basis b) = 0) ->
  dot nx ny nz nv (seq.nth zero basis i) (gram_schmidt nx ny nz nv v basis) = 0.
Proof. exact: gs_orthogonal. Qed.
Print Assumptions C45_gram_schmidt.
(** and it only ever subtracts multiples of the basis vectors *)
Theorem C45_gram_schmidt_span (v : garr R) (basis : list (garr R)) : exists cs : list R[i],
  seq.size cs = seq.size basis /\
  forall x y z w, gram_schmidt nx ny nz nv v basis x y z w
    = v x y z w - \sum_(i < seq.size basis) seq.nth 0 cs i * seq.nth zero basis i x y z w.
Proof.
  exists [seq inner nx ny nz nv u v / inner nx ny nz nv u u | u <- basis]. rewrite size_map. split=> // x y z w.
  rewrite /gram_schmidt. set f := (fun acc u => _).
  have : forall acc, foldl f acc basis x y z w = acc x y z w -
     \sum_(i < seq.size basis) seq.nth 0 [seq inner nx ny nz nv u v / inner nx ny nz nv u u | u <- basis] i * seq.nth zero basis i x y z w.
    elim: basis => [|u basis IH] acc /=; first by rewrite big_ord0 subr0.
    rewrite IH big_ord_recl /= /f /vsub /proj /vscale opprD addrA. congr (_ - _).
  by apply.
Qed.
Print Assumptions C45_gram_schmidt_span.
End C45.
(** Every projection is taken of the original vector, so for gaps that are not
    mutually orthogonal the result is not orthogonal to them. *)
Theorem C45_gram_schmidt_refuted (R : rcfType) : exists (v : garr R) (basis : list (garr R)) (i : nat),
  [/\ (i < seq.size basis)%nat,
      forall j, (j < seq.size basis)%nat -> dot 1 1 1 2 (seq.nth zero basis j) (seq.nth zero basis j) != 0 &
      dot 1 1 1 2 (seq.nth zero basis i) (gram_schmidt 1 1 1 2 v basis) != 0].
Proof.
  pose u1 : garr R := fun _ _ _ w => if w == 0%nat then 1 else 0.
  pose u2 : garr R := fun _ _ _ w => 1.
  pose v : garr R := fun _ _ _ w => if w == 0%nat then 0 else 1.
  have s2 (f : nat -> R[i]) : \sum_(w < 2) f w = f 0%nat + f 1%nat by rewrite !big_ord_recl big_ord0 addr0.
  have dE (a b : garr R) : dot 1 1 1 2 a b = (a 0%nat 0%nat 0%nat 0%nat)^* * b 0%nat 0%nat 0%nat 0%nat
                                  + (a 0%nat 0%nat 0%nat 1%nat)^* * b 0%nat 0%nat 0%nat 1%nat.
    by rewrite /dot !big_ord1 (s2 (fun w => (a 0%nat 0%nat 0%nat w)^* * b 0%nat 0%nat 0%nat w)).
  have a0 : u1 0%nat 0%nat 0%nat 0%nat = 1 by []. have a1 : u1 0%nat 0%nat 0%nat 1%nat = 0 by [].
  have b0 : u2 0%nat 0%nat 0%nat 0%nat = 1 by []. have b1 : u2 0%nat 0%nat 0%nat 1%nat = 1 by [].
  have c0 : v 0%nat 0%nat 0%nat 0%nat = 0 by []. have c1 : v 0%nat 0%nat 0%nat 1%nat = 1 by [].
  have e11 : dot 1 1 1 2 u1 u1 = 1 by rewrite dE a0 a1 rmorph1 rmorph0 mulr1 mulr0 addr0.
  have e22 : dot 1 1 1 2 u2 u2 = 2%:R by rewrite dE b0 b1 rmorph1 mulr1 -[1]/(1%:R) -natrD.
  have e12 : dot 1 1 1 2 u1 u2 = 1 by rewrite dE a0 a1 b0 b1 rmorph1 rmorph0 mulr1 mul0r addr0.
  have e1v : dot 1 1 1 2 u1 v = 0 by rewrite dE a0 a1 c0 c1 rmorph1 rmorph0 mulr0 mul0r addr0.
  have e2v : dot 1 1 1 2 u2 v = 1 by rewrite dE b0 b1 c0 c1 rmorph1 mulr0 mulr1 add0r.
  exists v, [:: u1; u2], 0%nat. split=> //.
  - case=> [|[|j]] // _; [change (dot 1 1 1 2 u1 u1 != 0); by rewrite e11 oner_eq0|change (dot 1 1 1 2 u2 u2 != 0); by rewrite e22 pnatr_eq0].
  - change (dot 1 1 1 2 u1 (vsub (vsub v (vscale (dot 1 1 1 2 u1 v / dot 1 1 1 2 u1 u1) u1)) (vscale (dot 1 1 1 2 u2 v / dot 1 1 1 2 u2 u2) u2)) != 0).
    have -> : dot 1 1 1 2 u1 (vsub (vsub v (vscale (dot 1 1 1 2 u1 v / dot 1 1 1 2 u1 u1) u1)) (vscale (dot 1 1 1 2 u2 v / dot 1 1 1 2 u2 u2) u2))
      = dot 1 1 1 2 u1 v - dot 1 1 1 2 u1 v / dot 1 1 1 2 u1 u1 * dot 1 1 1 2 u1 u1 - dot 1 1 1 2 u2 v / dot 1 1 1 2 u2 u2 * dot 1 1 1 2 u1 u2.
      have h1 := inner_sub 1 1 1 2 u1. have h2 := inner_scale 1 1 1 2 u1. rewrite /inner /asum in h1 h2.
      by rewrite /dot h1 h1 h2 h2.
    by rewrite e1v e11 e12 e2v e22 !mul0r !subr0 !mulr1 sub0r div1r oppr_eq0 invr_eq0 pnatr_eq0.
Qed.
Print Assumptions C45_gram_schmidt_refuted.

Section C62.
Variable R : rcfType.
Variables nx ny nz nv : nat.
Variables ex ey ez : R[i].
Hypothesis px : nx.-primitive_root ex.
Hypothesis py : ny.-primitive_root ey.
Hypothesis pz : nz.-primitive_root ez.

(** The three-transform evaluation is the momentum convolution of the linearised gap equation. *)
Theorem C62_fft_kernel gamma gk norm gap :
  same nx ny nz nv (apply_kernel nx ny nz nv ex ey ez gamma gk norm gap) (gap_equation nx ny nz nv gamma gk norm gap).
Proof. exact: kernel_same. Qed.
Print Assumptions C62_fft_kernel.

(** All gaps returned have the configured momentum parity and the frequency
    parity that makes the pair wave function obey the Pauli principle, for any
    tolerance, limit, shift and number of eigenvalues. *)
Theorem C62_returned_parities gk fpp nk_tot beta ch k_sym sym_sing sym_trip shift n eps max_count r1 r2 g0s lams gaps :
  pairing_channel ch -> k_symmetry k_sym -> odd nv = false ->
  vertex_even_k nx ny nz nv fpp -> vertex_even_v nx ny nz nv fpp -> G2_even_k nx ny nz nv gk -> G2_even_v nx ny nz nv gk ->
  linear_eliashberg nx ny nz nv ex ey ez gk fpp nk_tot beta ch k_sym sym_sing sym_trip shift n eps max_count r1 r2 g0s
    = Ok (lams, gaps) ->
  forall g, List.In g gaps ->
    parity_k nx ny nz nv (sign R (k_even k_sym)) g /\
    parity_v nx ny nz nv (sign R (if k_even k_sym then singlet ch else ~~ singlet ch)) g.
Proof. exact: le_parities. Qed.
Print Assumptions C62_returned_parities.
End C62.

Section C63.
Variable R : rcfType.
Variables nx ny nz nv : nat.
Variables ex ey ez : R[i].
Hypothesis px : nx.-primitive_root ex.
Hypothesis py : ny.-primitive_root ey.
Hypothesis pz : nz.-primitive_root ez.
(** Start gaps obey the Pauli principle. *)
Theorem C63_start_gap_pauli r1 r2 ch k_sym g : pairing_channel ch -> k_symmetry k_sym -> odd nv = false ->
  get_gap_start nv ex ey r1 r2 k_sym (if singlet ch then gap0_sing_v k_sym else gap0_trip_v k_sym) = Ok g ->
  forall x y z v, (x < nx)%nat -> (y < ny)%nat -> (z < nz)%nat -> (v < nv)%nat ->
    g (minus_k nx x) (minus_k ny y) (minus_k nz z) (minus_v nv v) = sign R (singlet ch) * g x y z v.
Proof. exact: (start_pauli px py pz). Qed.
Print Assumptions C63_start_gap_pauli.
Theorem C63_start_gap_exists r1 r2 ch k_sym : pairing_channel ch -> k_symmetry k_sym -> odd nv = false ->
  exists g, get_gap_start nv ex ey r1 r2 k_sym (if singlet ch then gap0_sing_v k_sym else gap0_trip_v k_sym) = Ok g.
Proof.
  move=> hc hk ho. have [f [g [_ [h _]]]] := start_ok nz px py r1 r2 hk (chan_v_known hc hk) ho. by exists g.
Qed.
Print Assumptions C63_start_gap_exists.
(** The start gap at positive frequencies: cos ky - cos kx for d-wave, sin kx and sin ky for p-wave (ex^x = exp(i kx)). *)
Theorem C63_start_gap_form r1 r2 ch k_sym g : pairing_channel ch -> k_symmetry k_sym -> odd nv = false ->
  get_gap_start nv ex ey r1 r2 k_sym (if singlet ch then gap0_sing_v k_sym else gap0_trip_v k_sym) = Ok g ->
  forall x y z v, (nv %/ 2 <= v < nv)%nat ->
    (k_sym = "d-wave"%string -> g x y z v = (complex.Re (ey ^+ y) - complex.Re (ex ^+ x))%:C%C) /\
    (k_sym = "p-wave-x"%string -> g x y z v = (complex.Im (ex ^+ x))%:C%C) /\ (k_sym = "p-wave-y"%string -> g x y z v = (complex.Im (ey ^+ y))%:C%C).
Proof.
  move=> hc hk ho hg x y z v /andP[h1 h2]. have [f [g' [hf [h hE]]]] := start_ok nz px py r1 r2 hk (chan_v_known hc hk) ho.
  have -> : g = g' by move: hg; rewrite -[get_gap_start _ _ _ _ _ _ _]/(get_gap_start nv ex ey r1 r2 k_sym (chan_v ch k_sym)) h => -[].
  rewrite hE // ltnNge h1 /= mul1r. move: hf. case: hk => [->|[->|->]] [<-]; (split; [|split]) => // _.
  - by rewrite /d_wave addrC.
  - by rewrite /p_wave_x mul0r addr0.
  - by rewrite /p_wave_y mulr0 add0r.
Qed.
Print Assumptions C63_start_gap_form.
(** An odd number of frequencies is an error. *)
Theorem C63_odd_window_raises r1 r2 ch k_sym : pairing_channel ch -> k_symmetry k_sym -> odd nv ->
  get_gap_start nv ex ey r1 r2 k_sym (if singlet ch then gap0_sing_v k_sym else gap0_trip_v k_sym) = Raise ValueError.
Proof. move=> hc hk ho. rewrite /get_gap_start ho. case: hk => [->|[->|->]] //. Qed.
Print Assumptions C63_odd_window_raises.

(** Finding: with the default symmetrised vertices a p-wave start gap is
    annihilated in both channels: the first eigenvalue estimate is 0 and the
    rescaling divides zero by zero. *)
Theorem C63_p_wave_annihilated_finding gk fpp nk_tot beta ch k_sym r1 r2 gap0 gamma :
  pairing_channel ch -> p_wave k_sym -> odd nv = false -> G2_even_v nx ny nz nv gk ->
  get_gap_start nv ex ey r1 r2 k_sym (if singlet ch then gap0_sing_v k_sym else gap0_trip_v k_sym) = Ok gap0 ->
  symmetrize_gamma nv (fun x y z v v' => - fpp x y z v v') ch = Ok gamma ->
  same nx ny nz nv (apply_kernel nx ny nz nv ex ey ez gamma gk (nk_tot * beta) gap0) zero.
Proof. exact: (p_wave_zero px py pz). Qed.
Print Assumptions C63_p_wave_annihilated_finding.
(** With a negative shift the solver instead reports the eigenvalue 0 and the start gap itself. *)
Theorem C63_p_wave_result_finding gk fpp nk_tot beta ch k_sym n eps max_count r1 r2 g0s lams gaps :
  pairing_channel ch -> p_wave k_sym -> odd nv = false -> G2_even_v nx ny nz nv gk -> (0 < n)%nat ->
  linear_eliashberg nx ny nz nv ex ey ez gk fpp nk_tot beta ch k_sym true true true n eps max_count r1 r2 g0s
    = Ok (lams, gaps) ->
  forall gap0 gamma,
  get_gap_start nv ex ey r1 r2 k_sym (if singlet ch then gap0_sing_v k_sym else gap0_trip_v k_sym) = Ok gap0 ->
  symmetrize_gamma nv (fun x y z v v' => - fpp x y z v v') ch = Ok gamma ->
  dot nx ny nz nv gap0 gap0 != 0 ->
  let s := (power_iteration_run nx ny nz nv (apply_kernel nx ny nz nv ex ey ez gamma gk (nk_tot * beta)) [::] None eps max_count g0s).1 in
  ~~ cgt0 s -> s != 0 ->
  seq.nth 0 lams 0 = 0 /\ same nx ny nz nv (seq.nth zero gaps 0) gap0.
Proof. exact: (p_wave_result px py pz). Qed.
Print Assumptions C63_p_wave_result_finding.
End C63.

(** A grid on which everything above is meaningful: 1 x 4 x 1 momenta (roots of
    unity 1, i, 1), 2 frequencies; the p-wave-y triplet start gap is not zero. *)
Section Witness.
Variable R : rcfType.
Lemma root4 : (4).-primitive_root ('i%C : R[i]).
Proof.
  apply/andP; split=> //. apply/forallP => -[i hi]; rewrite /= unity_rootE.
  have i2 : ('i%C : R[i]) ^+ 2 = -1 by exact: sqr_i.
  have i3 : ('i%C : R[i]) ^+ 3 = - 'i%C by rewrite exprS i2 mulrN1.
  have i4 : ('i%C : R[i]) ^+ 4 = 1 by rewrite (exprM _ 2 2) i2 -signr_odd.
  case: i hi => [|[|[|[|i]]]] // _.
  - rewrite expr1 /=. apply/eqP/negbTE. by rewrite eq_complex /= eq_sym oner_eq0.
  - rewrite i2. apply/eqP/negbTE. by rewrite eqNr oner_eq0.
  - rewrite i3. apply/eqP/negbTE. by rewrite eq_complex /= oppr0 eq_sym oner_eq0.
  - by rewrite i4 eqxx.
Qed.
Lemma root1 : (1).-primitive_root (1 : R[i]).
Proof. apply/andP; split=> //. apply/forallP => -[[|i] hi] //=. by rewrite unity_rootE expr1 eqxx. Qed.
Example C63_witness (r1 r2 : garr R) : exists g, get_gap_start 2 (1 : R[i]) 'i%C r1 r2 "p-wave-y" "even" = Ok g /\
  g 0%nat 1%nat 0%nat 0%nat = 1 /\ g 0%nat 3%nat 0%nat 0%nat = -1.
Proof.
  have i3 : ('i%C : R[i]) ^+ 3 = - 'i%C by rewrite exprS sqr_i mulrN1.
  eexists. split; first reflexivity. split.
  - change (1 * (p_wave_y (1 : R[i]) 'i%C 0 1 0)%:C%C = 1 :> R[i]). rewrite /p_wave_y /sin_grid expr1 mulr0 add0r mul1r. by [].
  - change (1 * (p_wave_y (1 : R[i]) 'i%C 0 3 0)%:C%C = -1 :> R[i]). rewrite /p_wave_y /sin_grid i3 mulr0 add0r mul1r. 
    by apply/eqP; rewrite eq_complex /= oppr0 !eqxx.
Qed.
Example C62_witness : G2_even_v 1 4 1 2 (fun _ _ _ _ => 1 : R[i]) /\ G2_even_k 1 4 1 2 (fun _ _ _ _ => 1 : R[i]) /\
  vertex_even_k 1 4 1 2 (fun _ _ _ _ _ => 1 : R[i]) /\ vertex_even_v 1 4 1 2 (fun _ _ _ v v' => (v == v')%:R : R[i]).
Proof. split=> //; split=> //; split=> // x y z v v' _ _ _. case: v => [|[|v]] //; case: v' => [|[|v']] //. Qed.
End Witness.
