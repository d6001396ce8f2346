(** Proofs for C81: bubble asymptotics on the lattice (four_point.py:163-225). *)
From mathcomp Require Import all_ssreflect all_algebra.
From Coq Require Import String.
From Verif Require Import Base.PyBase Base.PyFacts Base.FieldTac Base.Arr Model.Matsubara Model.LocalFourPoint Model.LocalSDE Model.Bubble Model.FourPoint.
From Verif Require Import Spec.BseSpec Spec.SdeSpec Spec.BubbleSpec Spec.LatticeSdeSpec.
From Verif Require Import Proofs.LocalFourPointP Proofs.BubbleP Proofs.LatticeSdeP Proofs.LatticeBseP.
Import GRing.Theory.
Set Implicit Arguments. Unset Strict Implicit. Unset Printing Implicit Defensive.
Local Open Scope ring_scope.

Section T.
Variable F : fieldType.
Add Field Ff : (@Kft F).
Ltac frng := to_K F; ring.
Ltac ffld := to_K F; field.
Lemma chi_asympt_ok nq nw (cu c0u c0a : nat -> nat -> F) :
  chi_phys_asympt_q (arr2 nq nw cu) (arr2 nq nw c0u) (arr2 nq nw c0a) = Ok (arr2 nq nw (fun i j => cu i j + c0a i j - c0u i j)).
Proof. by rewrite /chi_phys_asympt_q map22_arr2 [bind _ _]/= map22_arr2. Qed.

Lemma kernel_rows n nq nw u ur ch (v : nat -> nat -> 'rV[F]_n) c : get_ur u ch = Ok ur ->
  get_kernel (List.map (List.map (@rv2l F n)) (arr2 nq nw v)) (arr2 nq nw c) u ch =
  Ok (arr2 nq nw (fun i j => rv2l (\row_k (ur / 2%:R * (1 - (1 - ur * c i j) * v i j 0 k))))).
Proof.
  move=> Hur. rewrite map_arr2 /get_kernel Hur [bind _ _]/= /arr2 np2_mkseq [bind _ _]/=.
  rewrite (_ : mkseq _ nq = mkseq (fun i => Ok (mkseq (fun j => rv2l (\row_k (ur / 2%:R * (1 - (1 - ur * c i j) * v i j 0 k)))) nw)) nq); first exact: sequence_mkseq.
  apply: eq_mkseq => i. rewrite np2_mkseq. f_equal. apply: eq_mkseq => j. rewrite /rv2l -[List.map _ _]map_comp. apply: eq_map => k. by rewrite mxE.
Qed.
Lemma vrg_asympt_ok n nq nw u ur ch (m : nat -> nat -> 'M[F]_n) (x0 : nat -> nat -> 'rV[F]_n) cu ca : get_ur u ch = Ok ur ->
  vrg_from_gchi_aux_asympt_q (arr2 nq nw m) (arr2 nq nw x0) (arr2 nq nw cu) (arr2 nq nw ca) u ch =
  Ok (arr2 nq nw (fun i j => vrg_asympt_row ur (x0 i j) (m i j) (cu i j) (ca i j))).
Proof.
  move=> Hur. rewrite /vrg_from_gchi_aux_asympt_q Hur [bind _ _]/= [in LHS]/arr2 (enum_mkseq [::]). apply: mapM_mkseq => i Hi /=.
  rewrite (enum_mkseq 0). apply: mapM_mkseq => j Hj /=. by rewrite !py_get2_arr2.
Qed.
Lemma vrg_plain_ok n nq nw (m : nat -> nat -> 'M[F]_n) (x0 : nat -> nat -> 'rV[F]_n) :
  vrg_from_gchi_aux_q (arr2 nq nw m) (arr2 nq nw x0) = Ok (arr2 nq nw (fun i j => vrg_row (x0 i j) (m i j))).
Proof.
  rewrite /vrg_from_gchi_aux_q [in LHS]/arr2 (enum_mkseq [::]). apply: mapM_mkseq => i Hi /=.
  rewrite (enum_mkseq 0). apply: mapM_mkseq => j Hj /=. by rewrite py_get2_arr2.
Qed.

Lemma kernel_invariant n nq nw u ur ch (m : nat -> nat -> 'M[F]_n) (x0 : nat -> nat -> 'rV[F]_n) cu c0u c0a : get_ur u ch = Ok ur ->
  (forall i j, (i < nq)%nat -> (j < nw)%nat -> 1 - ur * (cu i j + c0a i j - c0u i j) != 0) ->
  exists ca va vu, chi_phys_asympt_q (arr2 nq nw cu) (arr2 nq nw c0u) (arr2 nq nw c0a) = Ok ca /\
   vrg_from_gchi_aux_asympt_q (arr2 nq nw m) (arr2 nq nw x0) (arr2 nq nw cu) ca u ch = Ok va /\
   vrg_from_gchi_aux_q (arr2 nq nw m) (arr2 nq nw x0) = Ok vu /\
   get_kernel (List.map (List.map (@rv2l F n)) va) ca u ch = get_kernel (List.map (List.map (@rv2l F n)) vu) (arr2 nq nw cu) u ch /\
   exists ker, get_kernel (List.map (List.map (@rv2l F n)) vu) (arr2 nq nw cu) u ch = Ok ker.
Proof.
  move=> Hur Hne. do 3!eexists. split; first exact: chi_asympt_ok. split; first exact: vrg_asympt_ok Hur. split; first exact: vrg_plain_ok.
  rewrite !(kernel_rows _ _ _ _ Hur). split; last by eexists. f_equal. apply/(eq_from_nth (x0 := [::])); rewrite !size_mkseq // => i Hi.
  rewrite !nth_mkseq //. apply/(eq_from_nth (x0 := [::])); rewrite !size_mkseq // => j Hj. rewrite !nth_mkseq //.
  congr rv2l. apply/rowP => k. rewrite !mxE. have H := Hne _ _ Hi Hj. move: H. set a := _ - c0u i j. clearbody a. move: (\sum_j0 _) (x0 i j 0 k)^-1 2%:R^-1 => s y h H.
  congr (_ * _ * (1 - _)). move: (1 * y * s) => z. by ffld; apply/eqP.
Qed.
Lemma chi_asympt_same nq nw (cu c0u : nat -> nat -> F) : chi_phys_asympt_q (arr2 nq nw cu) (arr2 nq nw c0u) (arr2 nq nw c0u) = Ok (arr2 nq nw cu).
Proof.
  rewrite chi_asympt_ok. f_equal. apply: eq_mkseq => i. apply: eq_mkseq => j. by rewrite addrK.
Qed.
(** lines 198-225 *)
Lemma tilde_exact nc ns (beta u : F) ch sign ur (gam : 'M[F]_(nc.*2)) (chi0 : 'rV[F]_((nc + ns).*2)) G chi chi0c cchi chi0s :
  get_sign F ch = Ok sign -> get_ur u ch = Ok ur ->
  beta != 0 -> (forall i, chi0 0 i != 0) -> u_padded gam (ur / beta ^+ 2) G -> bethe_salpeter chi0 G chi -> core_part chi0 chi0c -> core_block chi cchi ->
  chi0s = (beta ^+ 2)^-1 * (\sum_I chi0 0 I - \sum_i chi0c 0 i) -> 1 - (u * chi0s) ^+ 2 != 0 ->
  exists lam lamt vrg, lam_from_chir_qw ch cchi chi0c = Ok lam /\ get_lam_tilde_qw lam chi0s u ch = Ok lamt /\
   chir_tilde_qw (phys beta cchi) lamt chi0s chi0c beta u ch = Ok (phys beta chi) /\
   vrg_q_tilde_qw lamt (phys beta chi) u ch = Ok vrg /\
   (1 - ur * phys beta chi != 0 -> forall i I, core_of i I -> chi0 0 I * vrg 0 i * (1 - ur * phys beta chi) = \sum_J chi I J).
Proof.
  move=> Hs Hu hb h0 hG hB hc hcc hsh hden.
  have hss : sign * sign = 1.
    move: Hs. rewrite /get_sign. case: ifP => _; first by case=> <-; rewrite mulrNN mul1r. by case: ifP => // _ [<-]; rewrite mulr1.
  have hur : ur = sign * u.
    move: Hs Hu. rewrite /get_sign /get_ur. case: ifP => _; first by case=> <- [<-]; rewrite mulrC. by case: ifP => // _ [<-] [<-]; rewrite mulrC.
  exists (lam_from_chir_w sign cchi chi0c), (get_lam_tilde_w u ur (lam_from_chir_w sign cchi chi0c) chi0s),
    (vrg_from_lam_w sign ur (get_lam_tilde_w u ur (lam_from_chir_w sign cchi chi0c) chi0s) (phys beta chi)).
  split; first by rewrite /lam_from_chir_qw Hs. split; first by rewrite /get_lam_tilde_qw Hu.
  split.
    rewrite /chir_tilde_qw /get_chir_shell_qw Hs [bind _ _]/=. f_equal.
    have H := chir_tildeP hb h0 hG hB hc hcc hss hur hsh hden. move: H. rewrite /get_chir_tilde_w /get_chir_shell_w.
    have -> : contract_legs_4 beta cchi = phys beta cchi by rewrite /contract_legs_4 /phys div1r. by [].
  split; first by rewrite /vrg_q_tilde_qw Hu Hs.
  move=> hd i I Hi. rewrite -(lam_tildeP hb h0 hG hB hc hcc hss hur hsh hden Hi) mxE. by rewrite -mulrA divfK.
Qed.
End T.
