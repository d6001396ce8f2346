(** Additivity, conjugation, findings and examples for Properties/FourPointProps.v. *)
From mathcomp Require Import all_ssreflect all_algebra.
From mathcomp.real_closed Require Import complex.
From Coq Require Import String ZArith Lia Permutation.
From Verif Require Import Base.PyBase Base.PyFacts Base.FieldTac Base.Arr Model.Matsubara Model.MpiAux Model.LocalFourPoint Model.LocalSDE Model.Bubble Model.FourPoint Model.DgaMain.
From Verif Require Model.BrillouinZone.
From Verif Require Import Spec.BZSpec Spec.BseSpec Spec.SdeSpec Spec.BubbleSpec Spec.LatticeSdeSpec.
From Verif Require Import Proofs.MatsubaraP Proofs.LocalFourPointP Proofs.LocalSDEP Proofs.BubbleP Proofs.LatticeSdeP Proofs.DgaMainP Proofs.LatticeSymP Proofs.LatticeBseP Proofs.LocalLimitP.
Import GRing.Theory.
Set Implicit Arguments. Unset Strict Implicit. Unset Printing Implicit Defensive.
Local Open Scope ring_scope.

Section Add.
Variable F : fieldType.
Add Field Ff : (@Kft F).
Ltac frng := to_K F; ring.
Ltac ffld := to_K F; field.
Variables (nx ny nz : nat) (N : Z) (G : 'I_nx * 'I_ny * 'I_nz -> Z -> F) (giwk : 'I_nx * 'I_ny * 'I_nz -> list F).
Hypothesis HG : forall k, giwk k = frow N (G k).
Lemma sde_additive (beta nq : F) qs1 qs2 wn niv (Ker1 Ker2 : nat -> nat -> Z -> F) k : wn <> nil -> fits_box niv N wn ->
  exists s1 s2,
   schwinger_dyson_kernel_q (2 * niv) (arr3 (size qs1) (size wn) niv Ker1) giwk beta qs1 wn nq k = Ok s1 /\
   schwinger_dyson_kernel_q (2 * niv) (arr3 (size qs2) (size wn) niv Ker2) giwk beta qs2 wn nq k = Ok s2 /\
   schwinger_dyson_kernel_q (2 * niv) (arr3 (size qs1) (size wn) niv Ker1 ++ arr3 (size qs2) (size wn) niv Ker2)%list giwk beta (qs1 ++ qs2)%list wn nq k = np_map2 (fun x y => x + y) s1 s2.
Proof.
  move=> Hw Hb. rewrite !(sde_kernel_ok HG) //. do 2 eexists. split; first by []. split; first by [].
  pose Ker i := if (i < size qs1)%nat then Ker1 i else Ker2 (i - size qs1)%nat.
  have -> : (arr3 (size qs1) (size wn) niv Ker1 ++ arr3 (size qs2) (size wn) niv Ker2)%list = arr3 (size (qs1 ++ qs2)%list) (size wn) niv Ker.
    rewrite -[List.app]/(@cat) size_cat. rewrite /arr3 /arr2. apply: (@eq_from_nth _ [::]); first by rewrite size_cat !size_mkseq.
    move=> i. rewrite size_cat !size_mkseq => Hi. rewrite nth_cat size_mkseq [RHS]nth_mkseq // /Ker. case: (ltnP i (size qs1)) => Hc; first by rewrite nth_mkseq.
    by rewrite nth_mkseq // ltn_subLR.
  rewrite (sde_kernel_ok HG) // frow_np2; last by case: Hb. f_equal. apply: frow_ext => v _. rewrite /lattice_sde -mulrDr. congr (_ * _).
  rewrite -[List.app]/(@cat) size_cat big_split_ord /=. congr (_ + _); apply: eq_bigr => i _; apply: eq_bigr => j _; rewrite /Ker /qat nth_cat.
  - by rewrite ltn_ord.
  - by rewrite ltnNge leq_addr /= addKn.
Qed.
Lemma sde_linear (beta nq a b : F) qs wn niv (Ker1 Ker2 : nat -> nat -> Z -> F) k : wn <> nil -> fits_box niv N wn ->
  exists s1 s2,
   schwinger_dyson_kernel_q (2 * niv) (arr3 (size qs) (size wn) niv Ker1) giwk beta qs wn nq k = Ok s1 /\
   schwinger_dyson_kernel_q (2 * niv) (arr3 (size qs) (size wn) niv Ker2) giwk beta qs wn nq k = Ok s2 /\
   schwinger_dyson_kernel_q (2 * niv) (arr3 (size qs) (size wn) niv (fun i j v => a * Ker1 i j v + b * Ker2 i j v)) giwk beta qs wn nq k = np_map2 (fun x y => a * x + b * y) s1 s2.
Proof.
  move=> Hw Hb. rewrite !(sde_kernel_ok HG) //. do 2 eexists. split; first by []. split; first by []. rewrite frow_np2; last by case: Hb. f_equal. apply: frow_ext => v _.
  rewrite /lattice_sde mulrCA [b * _]mulrCA -mulrDr. congr (_ * _). rewrite !mulr_sumr -big_split. apply: eq_bigr => i _. rewrite !mulr_sumr -big_split. apply: eq_bigr => j _ /=. frng.
Qed.
End Add.
Lemma sde_conj_code (R : rcfType) nx ny nz (nq beta : R) ql nw (Ker : nat -> nat -> Z -> R[i]) (G : 'I_nx * 'I_ny * 'I_nz -> Z -> R[i]) N niv giwk k :
  let wn := Matsubara.wn nw 0 false in (0 <= nw)%Z -> fits_box niv N wn -> (forall k, giwk k = frow N (G k)) ->
  (forall k v, G k (- v - 1)%Z = conjc (G k v)) ->
  (forall i j v, (i < size ql)%nat -> (j < size wn)%nat -> Ker i (size wn - j.+1)%nat (- v - 1)%Z = conjc (Ker i j v)) ->
  exists S, schwinger_dyson_kernel_q (2 * niv) (arr3 (size ql) (size wn) niv Ker) giwk (beta%:C)%C ql wn (nq%:C)%C k = Ok (frow niv S) /\ forall v, S (- v - 1)%Z = conjc (S v).
Proof.
  move=> wn Hn Hb HG HGc HK. have L : zlen wn = (2 * nw + 1)%Z by rewrite /wn /Matsubara.wn zlen_arange; lia.
  have Hw : wn <> nil by move=> E; rewrite E in L; change (0 = 2 * nw + 1)%Z in L; lia.
  exists (lattice_sde (nq%:C)%C (beta%:C)%C ql wn Ker G k). split; first exact: (sde_kernel_ok HG).
  move=> v. apply: sde_conj => // j Hj.
  have W : forall i, (i < size wn)%nat -> wat wn i = (- nw + Z.of_nat i)%Z.
    move=> i Hi. have := @zget_seq _ wn 0%Z i Hi. rewrite -/(wat wn i) {1}/wn /Matsubara.wn zget_arange; last first.
      move/ltP: Hi => Hi. have : zlen wn = Z.of_nat (size wn) by []. rewrite L. lia.
    case=> <-. lia.
  have E : zlen wn = Z.of_nat (size wn) by []. move/ltP: (Hj) => Hj'.
  rewrite !W //; last by apply/ltP; rewrite -minusE; lia. rewrite -minusE. lia.
Qed.
Section Dev.
Variable F : fieldType.
Add Field Fg : (@Kft F).
Ltac frng := to_K F; ring.
Lemma ladder_deviation nc ns (beta ur : F) (gam : 'M[F]_(nc.*2)) (chi0 : 'rV[F]_((nc + ns).*2)) G chi f (chi0c : 'rV[F]_(nc.*2)) X :
  beta != 0 -> (forall i, chi0 0 i != 0) -> u_padded gam (ur / beta ^+ 2) G -> bethe_salpeter chi0 G chi -> core_part chi0 chi0c ->
  gchi_aux_core_from_gammar_w beta ur gam chi0c = Ok X -> full_vertex chi0 f chi -> forall i j I J, core_of i I -> core_of j J ->
  f I J - (((beta ^+ 2)^-1 *: (ladder_f1 X chi0c beta + (1 - ur * phys beta chi) *: ladder_f2 (vrg_row chi0c X) ur)) : 'M[F]_(nc.*2)) i j =
  (beta ^+ 2)^-1 * ur * (1 - ur * phys beta chi) * ((\sum_k X i k) / chi0c 0 i) * ((\sum_k X k j - \sum_k X j k) / chi0c 0 j).
Proof.
  move=> hb h0 hG hB hc hX hF i j I J Hi Hj. rewrite -(fob2_vrg_core hb h0 hG hB hc hX hF Hi Hj). rewrite !mxE !div1r.
  move: (chi0c 0 i)^-1 (chi0c 0 j)^-1 (\sum_k X i k) (\sum_k X k j) (\sum_k X j k) (phys _ _) (beta ^+ 2)^-1 => xi xj a b c p q. frng.
Qed.
Lemma dc_kernel_spec nc ns nq nw (gm : lnp F 'M[F]_(nc.*2)) ur gam (x0 : nat -> 'rV[F]_((nc + ns).*2)) (x : nat -> nat -> 'rV[F]_((nc + ns).*2)) G chi f :
  u_r gm = Ok ur -> size (l_wn gm) = nw -> l_mat gm = mkseq gam nw ->
  (forall j, (j < nw)%nat -> (forall v, x0 j 0 v != 0) /\ u_padded (gam j) (ur / l_beta gm ^+ 2) (G j) /\ bethe_salpeter (x0 j) (G j) (chi j) /\ full_vertex (x0 j) (f j) (chi j)) ->
  exists ker, construct_dc_kernel gm (mkseq x0 nw) (arr2 nq nw (fun i j => rv2l (x i j))) (Z.of_nat nc) = Ok (arr2 nq nw (fun i j => rv2l (ker i j))) /\
   forall i j a A, (j < nw)%nat -> core_of a A -> ker i j 0 a = ur * \sum_B f j A B * x i j 0 B.
Proof.
  move=> Hu Hw Hm H.
  have Hf : forall j, (j < nw)%nat -> fob2_from_gamob2_urange_w (l_beta gm) ur (gam j) (x0 j) = Ok (f j).
    move=> j Hj. have [h0 [hG [hB hF]]] := H j Hj. have [f' E] := fob2_exists h0 hG hB. rewrite E. f_equal. have hF' := fob2_urange_vertex h0 hG hB E.
    apply/matrixP => a b. have := hF a b. rewrite (hF' a b) => /addrI /oppr_inj. move=> E1. apply: (mulfI (h0 a)). exact: (mulIf (h0 b)).
  exists (fun i j => cut_v_rv (dc_row ur (x i j) (f j))). split; first exact: (dc_kernel_value nq x Hu Hw Hm Hf).
  move=> i j a A Hj HA. rewrite !mxE. congr (_ * _). have -> : core_ord ns a = A by apply: val_inj; rewrite /= HA. apply: eq_bigr => B _. by rewrite mulrC.
Qed.
Lemma bse_const n (c s : F) : s * (1 + c * n%:R) = c -> bethe_salpeter (const_mx 1 : 'rV[F]_n) (const_mx c) (1%:M - const_mx s).
Proof.
  move=> H i j. rewrite !mxE mul1r.
  have -> : \sum_k (const_mx c : 'M[F]_n) i k * (1%:M - const_mx s : 'M[F]_n) k j = c - c * s * n%:R.
    rewrite (eq_bigr (fun k : 'I_n => c * (k == j)%:R - c * s)) => [|k _]; last by rewrite !mxE mulrBr.
    rewrite sumrB sumr_const card_ord -mulr_natr -mulr_sumr (bigD1 j) //= eqxx big1 ?addr0 => [|k /negbTE ->//]. by rewrite mulr1.
  have -> : (if i == j then 1 else 0) = (i == j)%:R :> F by case: (i == j).
  congr (_ - _). move: (n%:R : F) H => m H. apply/eqP. rewrite eq_sym subr_eq -{1}H. apply/eqP. frng.
Qed.
Lemma phys_const n (s : F) : phys 1 (1%:M - const_mx s : 'M[F]_n) = n%:R - n%:R ^+ 2 * s.
Proof.
  rewrite /phys expr1n invr1 mul1r (eq_bigr (fun i : 'I_n => 1 - n%:R * s)) => [|i _].
    rewrite sumr_const card_ord -mulr_natr. move: (n%:R : F) => m. frng.
  rewrite (eq_bigr (fun k : 'I_n => (i == k)%:R - s)) => [|k _]; last by rewrite !mxE.
  rewrite sumrB sumr_const card_ord -mulr_natr (bigD1 i) //= eqxx big1 ?addr0 => [|k /negbTE]; last by rewrite eq_sym => ->. by rewrite mulrC.
Qed.
End Dev.
Lemma local_limit_case : let one := const_mx 1 : 'rV[rat]_4 in
  u_padded (nc := 1) (ns := 1) (const_mx 1) (1 / 1 ^+ 2) (const_mx 1 : 'M[rat]_4) /\ u_padded (nc := 1) (ns := 1) (const_mx (- 1)) (- 1 / 1 ^+ 2) (const_mx (- 1) : 'M[rat]_4) /\
  bethe_salpeter one (const_mx 1) (1%:M - const_mx (1 / 5%:R)) /\ bethe_salpeter one (const_mx (- 1)) (1%:M - const_mx (1 / 3%:R)) /\
  phys 1 (1%:M - const_mx (1 / 5%:R) : 'M[rat]_4) = 4%:R / 5%:R /\ phys 1 (1%:M - const_mx (1 / 3%:R) : 'M[rat]_4) = - (4%:R / 3%:R) /\
  fits_box (1 + 1)%Z 3%Z [:: (-1)%Z; 0%Z; 1%Z] /\ (#|{: 'I_3 * 'I_2 * 'I_1}|%:R : rat) != 0.
Proof.
  have P : forall c : rat, u_padded (nc := 1) (ns := 1) (const_mx c) c (const_mx c : 'M[rat]_4) by move=> c; split=> *; rewrite !mxE.
  split; first by rewrite expr1n divr1; exact: P. split; first by rewrite expr1n divr1; exact: P.
  split; first exact: bse_const. split; first exact: bse_const. rewrite !phys_const. split=> //. split=> //. split.
  - split; [lia|]. move=> w H. simpl in H. lia.
  - by rewrite !card_prod !card_ord.
Qed.
(** mesh of three points on a line *)
Lemma weighted_refuted : exists (G : 'I_3 * 'I_1 * 'I_1 -> Z -> rat) g irrq k,
  (forall k k' v, qpoint k' = point_op 3 1 1 "x-inv" (qpoint k) -> G k' v = G k v) /\
  BrillouinZone.make_kgrid 3 1 1 ["x-inv"%string] = Ok g /\ BrillouinZone.get_irrq_list g = Ok irrq /\
  schwinger_dyson_vrg_q 2 (arr3 (size irrq) 1 1 (fun _ _ _ => 0)) (arr2 (size irrq) 1 (fun _ _ => 0)) (fun k => frow 1 (G k)) 1 1 "dens" irrq
     (List.map (fun c => (Z.to_nat c)%:R) (BrillouinZone.irrk_count g)) [:: 0%Z] 3%:R k <>
  schwinger_dyson_vrg_q 2 (arr3 3 1 1 (fun _ _ _ => 0)) (arr2 3 1 (fun _ _ => 0)) (fun k => frow 1 (G k)) 1 1 "dens" (BrillouinZone.get_q_list g)
     [:: 1; 1; 1] [:: 0%Z] 3%:R k.
Proof.
  pose G (k : 'I_3 * 'I_1 * 'I_1) (v : Z) : rat := if (nat_of_ord k.1.1 == 0%nat) then 1 else 0.
  have [g [Eg [Ei Ec]]] : exists g, BrillouinZone.make_kgrid 3 1 1 ["x-inv"%string] = Ok g /\ BrillouinZone.get_irrq_list g = Ok [:: (0, 0, 0); (1, 0, 0)]%Z /\ BrillouinZone.irrk_count g = [:: 1; 2]%Z.
    eexists. split; [vm_compute; reflexivity|]. split; vm_compute; reflexivity.
  have Hq : BrillouinZone.get_q_list g = [:: (0, 0, 0); (1, 0, 0); (2, 0, 0)]%Z.
    have := Eg. vm_compute. by case=> <-.
  pose k : 'I_3 * 'I_1 * 'I_1 := (Ordinal (isT : (1 < 3)%nat), ord0, ord0).
  exists G, g, [:: (0, 0, 0); (1, 0, 0)]%Z, k. split; [|split=> //; split=> //].
    move=> k1 k2 v [Ex _ _]. rewrite /G. have := ltn_ord k1.1.1. have := ltn_ord k2.1.1. move: Ex.
    case: (nat_of_ord k1.1.1) => [|[|[|?]]] //; case: (nat_of_ord k2.1.1) => [|[|[|?]]] //.
  rewrite Ec Hq.
  have HGr : forall k, (fun k => frow 1 (G k)) k = frow 1 (G k) by [].
  have Hur : get_ur (1 : rat) "dens" = Ok 1 by vm_compute.
  have Hb : fits_box 1 1 [:: 0%Z] by split; [lia|move=> w H; simpl in H; lia].
  rewrite (@sde_vrg_ok rat_fieldType 3 1 1 1 G (fun k => frow 1 (G k)) HGr 1 1 3%:R 1 "dens" [:: (0, 0, 0); (1, 0, 0)]%Z (List.map (fun c => (Z.to_nat c)%:R) [:: 1; 2]%Z) [:: 0%Z] 1 (fun _ _ _ => 0) (fun _ _ => 0) k Hur) //.
  rewrite (@sde_vrg_ok rat_fieldType 3 1 1 1 G (fun k => frow 1 (G k)) HGr 1 1 3%:R 1 "dens" [:: (0, 0, 0); (1, 0, 0); (2, 0, 0)]%Z [:: 1; 1; 1] [:: 0%Z] 1 (fun _ _ _ => 0) (fun _ _ => 0) k Hur) //.
  have L : forall qs Ker, lattice_sde (3%:R : rat) 1 qs [:: 0%Z] Ker G k (-1)%Z = (3%:R * 1)^-1 * \sum_(i <- iota 0 (size qs)) Ker i 0%nat (-1)%Z * G (kplusq k (qat qs i)) (-1)%Z.
    move=> qs Ker. rewrite /lattice_sde. congr (_ * _). rewrite -(big_mkord xpredT (fun i => \sum_(j < size [:: 0%Z]) Ker i j (-1)%Z * G (kplusq k (qat qs i)) (-1 - wat [:: 0%Z] j)%Z)) /index_iota subn0.
    apply: eq_bigr => i _. by rewrite big_ord_recl big_ord0 addr0.
  move=> [E _]. move: E. rewrite !L /=. rewrite !big_cons !big_nil. vm_compute. by [].
Qed.
