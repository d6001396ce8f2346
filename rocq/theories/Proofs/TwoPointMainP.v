(** Main results about Model/TwoPoint.v. *)
From mathcomp Require Import all_ssreflect all_algebra.
From mathcomp.real_closed Require Import complex.
From Coq Require Import ZArith Lia.
From Verif Require Import Base.PyBase Base.PyFacts Model.Matsubara Proofs.MatsubaraP Model.TwoPoint Spec.TwoPointSpec Proofs.TwoPointP.
Import Order.TTheory GRing.Theory Num.Theory.
Set Implicit Arguments. Unset Strict Implicit. Unset Printing Implicit Defensive.
Local Open Scope ring_scope.
Local Open Scope complex_scope.

Section P.
Variable R : rcfType.
Notation C := R[i].

Lemma c0E : (0 : C) = Complex 0 0. Proof. by []. Qed.
Lemma neq0_im (z : C) : 0 < complex.Im z -> z != 0.
Proof. move=> H. apply/eqP => E. move: H. by rewrite E ltxx. Qed.

(** ** Green's function: Dyson equation, causality *)
Section GF.
Variables (K KS : finType) (bc : K -> KS).
Variables (s : selfenergy R KS) (ek : K -> R) (mu : R).
Hypothesis Hpb : 0 < se_pb s.
Hypothesis Hm : se_smom1 s <= 0.
Hypothesis Hc : causal_data s.
Let den k v := iv (se_pb s) v + mu%:C - (ek k)%:C - se_value s (bc k) v.
Lemma den_neq0 k v : den k v != 0.
Proof.
  case: (Z.leb_spec 0 v) => H.
  - apply: neq0_im. apply: lt_le_trans; [exact: (nu_gt0 Hpb H)|exact: (den_im bc ek mu k Hpb Hm Hc H)].
  - have -> : den k v = conjc (den k (- v - 1)).
    { rewrite /den !conjB conjD !conjc_real -se_value_sym -iv_conj. by replace (- (- v - 1) - 1)%Z with v by lia. }
    rewrite conjc_eq0. apply: neq0_im. have H' : (0 <= - v - 1)%Z by lia.
    apply: lt_le_trans; [exact: (nu_gt0 Hpb H')|exact: (den_im bc ek mu k Hpb Hm Hc H')].
Qed.
Lemma g_dyson k v : g_value bc s ek mu k v * (iv (se_pb s) v + mu%:C - (ek k)%:C - se_value s (bc k) v) = 1.
Proof. rewrite /g_value. by rewrite div1r mulVf // den_neq0. Qed.
Lemma g_causal k v : (0 <= v)%Z -> complex.Im (g_value bc s ek mu k v) < 0.
Proof.
  move=> Hv. rewrite /g_value div1r Im_inv oppr_lt0.
  have H : 0 < complex.Im (den k v) by apply: lt_le_trans; [exact: (nu_gt0 Hpb Hv)|exact: (den_im bc ek mu k Hpb Hm Hc Hv)].
  apply: divr_gt0 => //. by rewrite ltr_spaddr ?exprn_gt0 ?sqr_ge0.
Qed.
(** |G| <= 1/nu, squared *)
Lemma g_bound k v : (0 <= v)%Z -> complex.Re (g_value bc s ek mu k v) ^+ 2 + complex.Im (g_value bc s ek mu k v) ^+ 2 <= (nu (se_pb s) v ^+ 2)^-1.
Proof.
  move=> Hv. rewrite /g_value div1r Re_inv Im_inv -/(den k v).
  have Hn := nu_gt0 Hpb Hv. have HI := den_im bc ek mu k Hpb Hm Hc Hv. rewrite -/(den k v) in HI.
  set a := complex.Re (den k v). set b := complex.Im (den k v). rewrite -/b in HI.
  have Hb : 0 < b by apply: lt_le_trans HI.
  have HN : 0 < a ^+ 2 + b ^+ 2 by rewrite ltr_spaddr ?exprn_gt0 ?sqr_ge0.
  have -> : (a / (a ^+ 2 + b ^+ 2)) ^+ 2 + (- (b / (a ^+ 2 + b ^+ 2))) ^+ 2 = (a ^+ 2 + b ^+ 2)^-1.
  { rewrite sqrrN !expr_div_n -mulrDl expr2 invfM mulrA divff ?mul1r //. by rewrite lt0r_neq0. }
  rewrite lef_pinv ?posrE // ?exprn_gt0 //. apply: le_trans (_ : b ^+ 2 <= _).
  - by rewrite ler_expn2r ?nnegrE // ltW.
  - by rewrite ler_addr sqr_ge0.
Qed.
End GF.

(** ** the Fermi-surface map *)
Lemma fs_ok (K KS : finType) (bc : K -> KS) (s : selfenergy R KS) (ek : K -> R) mu (cpi : R) n k :
  se_ok s -> (0 <= n)%Z -> (0 < se_core s + n)%Z ->
  fs bc cpi s ek mu n k = Ok (- complex.Im (g_value bc s ek mu k 0) / cpi).
Proof.
  move=> Hs Hn Hp. have [g [E [L V]]] := @g_full_ok R K KS bc s ek mu k n Hs Hn. rewrite /fs E /=.
  have H0 : zget g (se_core s + n)%Z = Some (g_value bc s ek mu k 0). { rewrite -V; [|lia]. by rewrite Z.add_0_r. }
  rewrite (@py_get_nonneg _ _ _ _ _ H0) //. lia.
Qed.

(** ** construction *)
Lemma half_full n : (0 <= n)%Z -> (2 * n - 2 * n / 2 = n)%Z. Proof. move=> H. by replace (2 * n / 2)%Z with n by lia; lia. Qed.
Lemma make_full_ok (KS : finType) (sigma : KS -> list C) (n : nat) pb s0 s1 err c (f : KS -> Z -> C) :
  (forall k, on_grid (sigma k) (Z.of_nat n) (f k)) -> (0 <= c <= Z.of_nat n)%Z ->
  let s := make_selfenergy sigma (Nat.add n n) pb false s0 s1 err (Some c) in
  se_ok s /\ se_pb s = pb /\ se_core s = c /\ se_niv s = n /\
  (forall m, s0 = Some m -> se_smom0 s = m) /\ (forall m, s1 = Some m -> se_smom1 s = m) /\
  forall k v, (0 <= v < Z.of_nat n)%Z -> entry (se_sigma s k) v = f k v.
Proof.
  move=> Hf Hc /=.
  have E1 : (Z.of_nat (Nat.add n n) / 2 = Z.of_nat n)%Z by (replace (Z.of_nat (Nat.add n n)) with (Z.of_nat n * 2)%Z by lia); rewrite Z.div_mul.
  have E2 : Nat.sub (Nat.add n n) (Nat.add n n / 2) = n.
  { have -> : Nat.div (Nat.add n n) 2 = n. { replace (Nat.add n n) with (Nat.mul n 2) by lia. by rewrite Nat.div_mul. } lia. }
  have HL : forall k, zlen (slice_from (sigma k) (Z.of_nat n)) = Z.of_nat n.
  { move=> k. have [L V] := Hf k. rewrite /slice_from zlen_slice_in; lia. }
  rewrite /make_selfenergy /= !E1 !E2. split; [by split|]. do 3 split=> //. split; [by move=> m ->|]. split; [by move=> m ->|].
  move=> k v Hv. have [L V] := Hf k.
  have := zget_entry (l := slice_from (sigma k) (Z.of_nat n)) (v := v). rewrite HL => /(_ Hv).
  rewrite /slice_from zget_slice_in; [|lia|lia|lia]. rewrite V; [|lia]. by move=> [<-].
Qed.

(** ** stitching *)
Lemma inv_cut_on_grid l n core shell (f : Z -> C) : on_grid l n f -> (0 <= core)%Z -> (0 <= shell)%Z -> (core + shell = n)%Z ->
  zlen (inv_cut_v_1d l core shell) = (2 * shell)%Z /\
  (forall v, (- n <= v < - core)%Z -> zget (inv_cut_v_1d l core shell) (n + v) = Some (f v)) /\
  (forall v, (core <= v < n)%Z -> zget (inv_cut_v_1d l core shell) (shell - core + v) = Some (f v)).
Proof.
  move=> [L V] Hc Hs E. have [H1 [H2 H3]] := @inv_cut_spec C l n core shell L Hc Hs ltac:(lia).
  split=> //. split=> v Hv.
  - rewrite -E H2; [|lia]. apply: V. lia.
  - rewrite H3 //. apply: V. lia. lia.
Qed.
Lemma concat_gen core shell c m (f g : Z -> C) : on_grid core c f -> (0 <= c)%Z -> (0 <= m)%Z -> zlen shell = (2 * m)%Z ->
  (forall v, (- (c + m) <= v < - c)%Z -> zget shell (c + m + v) = Some (g v)) ->
  (forall v, (c <= v < c + m)%Z -> zget shell (m - c + v) = Some (g v)) ->
  on_grid (concatenate_core_asmypt core shell) (c + m) (fun v => if inside c v then f v else g v).
Proof.
  move=> [L V] Hc Hm HL H1 H2. rewrite (@concat_core_spec C core shell m HL). split.
  - rewrite !zlen_app !zlen_slice_in; lia.
  - move=> v Hv. rewrite zget_app zlen_slice_in; [|lia|lia]. case: (Z.ltb_spec (c + m + v) (m - 0)) => A.
    + rewrite zget_slice_in; [|lia|lia|lia]. rewrite insideF; [|lia]. rewrite -H1; [|lia]. by f_equal; lia.
    + rewrite zget_app L. case: (Z.ltb_spec (c + m + v - (m - 0)) (2 * c)) => B.
      * rewrite insideT; [|lia]. rewrite -V; [|lia]. by f_equal; lia.
      * rewrite zget_slice_in; [|lia|lia|lia]. rewrite insideF; [|lia]. rewrite -H2; [|lia]. by f_equal; lia.
Qed.
Lemma stitch_ok (K KS : finType) (siwk : K -> list C) (n : nat) (dmft : selfenergy R KS) (k0 : KS) (shell : Z) err (f : K -> Z -> C) niv k :
  (forall k, on_grid (siwk k) (Z.of_nat n) (f k)) -> (forall k, conj_symmetric (f k)) -> se_ok dmft -> (0 <= shell)%Z -> (0 <= niv)%Z ->
  let s := create_dga_siwk_with_dmft_as_asympt siwk (Nat.add n n) dmft k0 shell err in
  se_core s = (Z.of_nat n + shell)%Z /\
  on_grid (get_siw s niv k) niv (fun v =>
    if inside (Z.of_nat n) v then f k v
    else if inside (Z.of_nat n + shell) v then se_value dmft k0 v
    else tail_fun (nu (se_pb dmft)) (se_smom0 dmft) (se_smom1 dmft) v).
Proof.
  move=> Hf Hsym Hd Hs Hn /=. rewrite /create_dga_siwk_with_dmft_as_asympt.
  have E1 : (Z.of_nat (Nat.add n n) / 2 = Z.of_nat n)%Z by (replace (Z.of_nat (Nat.add n n)) with (Z.of_nat n * 2)%Z by lia); rewrite Z.div_mul.
  rewrite E1. set full := (Z.of_nat n + shell)%Z.
  have Hfull : on_grid (get_siw dmft full k0) full (se_value dmft k0) by apply: get_siw_ok => //; rewrite /full; lia.
  have [L [V1 V2]] := @inv_cut_on_grid _ _ (Z.of_nat n) shell _ Hfull ltac:(lia) Hs erefl.
  set sh := inv_cut_v_1d _ _ _ in L V1 V2 *.
  pose h k v := if inside (Z.of_nat n) v then f k v else se_value dmft k0 v.
  have HG : forall k, on_grid (concatenate_core_asmypt (siwk k) sh) full (h k).
  { move=> k'. apply: concat_gen => //; try lia. }
  have Hlen : Nat.add (Nat.add n n) (length sh) = Nat.add (Z.to_nat full) (Z.to_nat full) by move: L; rewrite /zlen /full; lia.
  rewrite Hlen.
  have [|| Hok [Hpb [Hcore [Hniv [M0 [M1 Hent]]]]]] := @make_full_ok K (fun k => concatenate_core_asmypt (siwk k) sh) (Z.to_nat full) (se_pb dmft) (Some (se_smom0 dmft)) (Some (se_smom1 dmft)) err full h.
  { move=> k'. rewrite Z2Nat.id; [exact: HG|rewrite /full; lia]. } { rewrite /full; lia. }
  split; [exact: Hcore|]. apply: on_grid_eq; [exact: get_siw_ok|]. move=> v Hv. rewrite /se_value Hcore.
  case Ei: (inside full v).
  - have Hr : (- full <= v < full)%Z by move/andP: Ei => [/Z.leb_le A /Z.ltb_lt B].
    have Hh : complete (entry (se_sigma (make_selfenergy (fun k1 : K => concatenate_core_asmypt (siwk k1) sh) (Nat.add (Z.to_nat full) (Z.to_nat full)) (se_pb dmft) false (Some (se_smom0 dmft)) (Some (se_smom1 dmft)) err (Some full)) k)) v = h k v.
    { rewrite /complete. case: (Z.leb_spec 0 v) => A.
      - apply: Hent. lia.
      - rewrite Hent; [|lia]. have Hsh : conj_symmetric (h k) by apply: glue_sym => //; exact: se_value_sym.
        rewrite -Hsh. by f_equal; lia. }
    rewrite Hh /h. by case: (inside (Z.of_nat n) v).
  - have -> : inside (Z.of_nat n) v = false.
    { apply/negP => /andP[/Z.leb_le A /Z.ltb_lt B]. move/negP: Ei; apply. apply/andP; split; [apply/Z.leb_le|apply/Z.ltb_lt]; rewrite /full; lia. }
    by rewrite Hpb (M0 _ erefl) (M1 _ erefl).
Qed.
End P.
