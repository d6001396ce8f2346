(** Property C81: asymptotic corrections of the lattice ladder (dga/four_point.py:163-225). *)
From mathcomp Require Import all_ssreflect all_algebra.
From Coq Require Import String.
From Verif Require Import Base.PyBase Model.Matsubara Model.LocalFourPoint Model.LocalSDE Model.Bubble Model.FourPoint.
From Verif Require Import Spec.BseSpec Spec.SdeSpec Spec.BubbleSpec Spec.LatticeSdeSpec.
From Verif Require Import Proofs.LocalFourPointP Proofs.LatticeTildeP Properties.LocalFourPointProps.
Import GRing.Theory.
Set Implicit Arguments. Unset Strict Implicit. Unset Printing Implicit Defensive.
Local Open Scope ring_scope.

(** Adding the asymptotic part of the bubble changes chi and the three-leg vertex, but not (1 - u_r chi) gamma, hence not
    the Schwinger-Dyson kernel. *)
Theorem C81_kernel_invariant : forall (F : fieldType) n nq nw (u ur : F) ch (m : nat -> nat -> 'M[F]_n) (x0 : nat -> nat -> 'rV[F]_n) cu c0u c0a, get_ur u ch = Ok ur ->
  (forall i j, (i < nq)%nat -> (j < nw)%nat -> 1 - ur * (cu i j + c0a i j - c0u i j) != 0) ->
  exists ca va vu, chi_phys_asympt_q (arr2 nq nw cu) (arr2 nq nw c0u) (arr2 nq nw c0a) = Ok ca /\
   vrg_from_gchi_aux_asympt_q (arr2 nq nw m) (arr2 nq nw x0) (arr2 nq nw cu) ca u ch = Ok va /\
   vrg_from_gchi_aux_q (arr2 nq nw m) (arr2 nq nw x0) = Ok vu /\
   get_kernel (List.map (List.map (@rv2l F n)) va) ca u ch = get_kernel (List.map (List.map (@rv2l F n)) vu) (arr2 nq nw cu) u ch /\
   exists ker, get_kernel (List.map (List.map (@rv2l F n)) vu) (arr2 nq nw cu) u ch = Ok ker.
Proof. exact kernel_invariant. Qed.
Print Assumptions C81_kernel_invariant.
(** The correction is the difference of the two bubbles, added at every momentum and frequency. *)
Theorem C81_chi_asympt : forall (F : fieldType) nq nw (cu c0u c0a : nat -> nat -> F),
  chi_phys_asympt_q (arr2 nq nw cu) (arr2 nq nw c0u) (arr2 nq nw c0a) = Ok (arr2 nq nw (fun i j => cu i j + c0a i j - c0u i j)).
Proof. exact chi_asympt_ok. Qed.
Print Assumptions C81_chi_asympt.
(** lambda, chi and the three-leg vertex with shell corrections are those of the Bethe-Salpeter equation on the full box
    (vertex extended by u_r/beta^2), at each momentum and frequency. *)
Theorem C81_tilde : forall (F : fieldType) nc ns (beta u : F) ch sign ur (gam : 'M[F]_(nc.*2)) (chi0 : 'rV[F]_((nc + ns).*2)) G chi chi0c cchi chi0s,
  get_sign F ch = Ok sign -> get_ur u ch = Ok ur ->
  beta != 0 -> (forall i, chi0 0 i != 0) -> u_padded gam (ur / beta ^+ 2) G -> bethe_salpeter chi0 G chi -> core_part chi0 chi0c -> core_block chi cchi ->
  chi0s = (beta ^+ 2)^-1 * (\sum_I chi0 0 I - \sum_i chi0c 0 i) -> 1 - (u * chi0s) ^+ 2 != 0 ->
  exists lam lamt vrg, lam_from_chir_qw ch cchi chi0c = Ok lam /\ get_lam_tilde_qw lam chi0s u ch = Ok lamt /\
   chir_tilde_qw (phys beta cchi) lamt chi0s chi0c beta u ch = Ok (phys beta chi) /\
   vrg_q_tilde_qw lamt (phys beta chi) u ch = Ok vrg /\
   (1 - ur * phys beta chi != 0 -> forall i I, core_of i I -> chi0 0 I * vrg 0 i * (1 - ur * phys beta chi) = \sum_J chi I J).
Proof. exact tilde_exact. Qed.
Print Assumptions C81_tilde.

(** The vertices and bubbles of LocalFourPointProps with u = 1 in the density channel, on a shell scaled so that (u chi0s)^2 <> 1:
    chi0s = 2 there. *)
Example C81_case : get_sign rat_fieldType "dens" = Ok 1 /\ get_ur (1 : rat) "dens" = Ok (1 * 1) /\ u_padded ex_gam (1 * 1 / 1 ^+ 2) ex_G /\ bethe_salpeter ex_chi0 ex_G ex_chi /\
  core_part ex_chi0 ex_chi0c /\ 2%:R = (1 ^+ 2)^-1 * (\sum_I ex_chi0 0 I - \sum_i ex_chi0c 0 i) :> rat /\ 1 - (1 * 2%:R) ^+ 2 != 0 :> rat /\ 1 - 1 * 1 * phys 1 ex_chi != 0.
Proof.
  split; first by []. split; first by []. split; first by rewrite mulr1; exact: ex_padded. split; first exact: ex_bse. split; first exact: ex_core_ok.
  split; first by rewrite !big_ord_recr !big_ord0 !mxE; apply/eqP; vm_compute.
  split; first by vm_compute. by rewrite ex_phys_ok.
Qed.
Example C81_kernel_case : chi_phys_asympt_q [:: [:: 1 : rat]] [:: [:: 2%:R]] [:: [:: 3%:R]] = Ok [:: [:: 2%:R]] /\ get_ur (1 : rat) "dens" = Ok (1 * 1) /\ 1 - 1 * 1 * (1 + 3%:R - 2%:R) != 0 :> rat.
Proof. by split; [vm_compute|]. Qed.
