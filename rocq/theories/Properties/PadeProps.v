(** C41: Pade approximants (pade_aux.py). *)
From mathcomp Require Import all_ssreflect all_algebra.
From Verif Require Import Base.PyBase Model.Pade Proofs.PadeP.
Import GRing.Theory.
Set Implicit Arguments. Unset Strict Implicit. Unset Printing Implicit Defensive.
Local Open Scope nat_scope.
Local Open Scope ring_scope.

Section C41.
Variable F : fieldType.
(** "No division by zero while the coefficients are computed": the points are
    distinct and the entries of the table left of the diagonal do not vanish. *)
Definition distinct_points (zi : list F) : Prop :=
  forall i j, (j < i < size zi)%nat -> seq.nth 0 zi i != seq.nth 0 zi j.
Definition regular_table (zi ui : list F) : Prop :=
  forall i j, (j < i < size zi)%nat -> seq.nth 0 (seq.nth [::] (g_rows zi ui) i) j != 0.

(** The continued fraction takes the value u_k at z_k. *)
Theorem C41_thiele_interpolates (zi ui : list F) k :
  distinct_points zi -> regular_table zi ui -> (k < size zi)%nat ->
  (exists2 d, evalB (seq.nth 0 zi k) zi (compute_coefficients zi ui) (size zi) = Ok d & d != 0) ->
  evalC (seq.nth 0 zi k) zi (compute_coefficients zi ui) = Ok (seq.nth 0 ui k).
Proof. exact: pade_interpolates. Qed.
Print Assumptions C41_thiele_interpolates.
(** Numerator and denominator agree with the data even where the quotient is 0/0. *)
Theorem C41_numerator_denominator (zi ui : list F) k :
  distinct_points zi -> regular_table zi ui -> (k < size zi)%nat ->
  exists x y, evalA (seq.nth 0 zi k) zi (compute_coefficients zi ui) (size zi) = Ok x /\
              evalB (seq.nth 0 zi k) zi (compute_coefficients zi ui) (size zi) = Ok y /\ x = seq.nth 0 ui k * y.
Proof. exact: pade_no_division. Qed.
Print Assumptions C41_numerator_denominator.
(** The vectorised routine evaluates the same approximant at every point of
    every output grid, for all data of matching length. *)
Theorem C41_padeThiele_is_C (z f zut : list F) : size f = size z -> (0 < size z)%nat ->
  size (padeThiele z f zut) = size zut /\
  forall k, (k < size zut)%nat ->
    evalC (seq.nth 0 zut k) z (compute_coefficients z f) = Ok (seq.nth 0 (padeThiele z f zut) k).
Proof.
  move=> hs hz. rewrite padeThieleE // size_map; split=> // k hk. rewrite (nth_map 0) //.
  rewrite /evalC /evalA /evalB /AB_ok compute_coefficientsE size_map size_iota leqnn leq_pred. by [].
Qed.
Print Assumptions C41_padeThiele_is_C.
Theorem C41_padeThiele_interpolates (z f : list F) k : size f = size z -> (k < size z)%nat ->
  distinct_points z -> regular_table z f ->
  (exists2 d, evalB (seq.nth 0 z k) z (compute_coefficients z f) (size z) = Ok d & d != 0) ->
  seq.nth 0 (padeThiele z f z) k = seq.nth 0 f k.
Proof.
  move=> hs hk hd hr hB. have [_ h] := C41_padeThiele_is_C z hs (leq_ltn_trans (leq0n k) hk).
  have := h k hk. rewrite (C41_thiele_interpolates hd hr hk hB). by case.
Qed.
Print Assumptions C41_padeThiele_interpolates.
(** The recursive and the tabulated coefficients are the same. *)
Theorem C41_recursive_coefficients (zi ui : list F) i : (i < size zi)%nat ->
  seq.nth 0 (compute_coefficients zi ui) i = g_rec zi ui i.+1 i.+1.
Proof. move=> hi. by rewrite compute_coefficientsE nmi // g_recE. Qed.
Print Assumptions C41_recursive_coefficients.
(** Matrix Pade: any exact solution of the linear system interpolates. *)
Theorem C41_matrix_pade_interpolates r (x : list F) (z f : F) : size x = r.*2 ->
  dot (pm_row r z f) x = pm_rhs r z f ->
  \sum_(i <- iota 0 r) seq.nth 0 x (r + i) * z ^+ i + z ^+ r != 0 ->
  epade z x = f.
Proof. exact: epade_interpolates. Qed.
Print Assumptions C41_matrix_pade_interpolates.
(** Finding: the helper [a] returns one coefficient too few; evaluating the
    approximant with it raises IndexError for every non-empty data set. *)
Theorem C41_coefficient_list_too_short_finding (zi ui : list F) zr : (0 < size zi)%nat ->
  evalC zr zi (a_list zi ui) = Raise IndexError.
Proof. exact: a_list_too_short. Qed.
Print Assumptions C41_coefficient_list_too_short_finding.
End C41.

(** Non-vacuity: three points over the rationals. *)
Definition ex_z : list rat := [:: 1; 2%:R; 3%:R].
Definition ex_u : list rat := [:: 1; 2%:R^-1; 5%:R^-1].
Lemma ex_pairs i j : (j < i < 3)%nat -> [\/ (i, j) = (1, 0), (i, j) = (2, 0) | (i, j) = (2, 1)]%nat.
Proof.
  move=> /andP[hj hi].
  destruct i as [|[|[|i]]]; destruct j as [|[|j]]; try discriminate;
    solve [constructor 1; reflexivity | constructor 2; reflexivity | constructor 3; reflexivity].
Qed.
Example ex_C41 : distinct_points ex_z /\ regular_table ex_z ex_u /\
  (exists2 d, evalB (seq.nth 0 ex_z 2) ex_z (compute_coefficients ex_z ex_u) 3 = Ok d & d != 0).
Proof.
  split; [|split].
  - move=> i j /ex_pairs; case=> -[-> ->]; vm_compute; reflexivity.
  - move=> i j /ex_pairs; case=> -[-> ->]; vm_compute; reflexivity.
  - eexists; first reflexivity. vm_compute; reflexivity.
Qed.
Example ex_C41_value : evalC (seq.nth 0 ex_z 2) ex_z (compute_coefficients ex_z ex_u) = Ok (5%:R^-1).
Proof.
  case: ex_C41 => h1 [h2 h3]. exact: (C41_thiele_interpolates h1 h2 (isT : (2 < size ex_z)%nat) h3).
Qed.
(** (x0 + x1 z)/(y0 + y1 z + z^2) through z = 2, f = 1/5 with r = 2 *)
Example ex_C41_matrix : dot (pm_row 2 (2%:R : rat) (5%:R^-1)) [:: 1; 0; 1; 0] = pm_rhs 2 2%:R 5%:R^-1.
Proof. rewrite /dot /pm_row /pm_rhs unlock. apply/eqP. vm_compute. reflexivity. Qed.
