(** Proofs about Model/TwoPoint.v: grids, self-energies, Green's functions. *)
From mathcomp Require Import all_ssreflect all_algebra.
From mathcomp.real_closed Require Import complex.
From Coq Require Import ZArith Lia.
From Verif Require Import Base.PyBase Base.PyFacts Model.Matsubara Proofs.MatsubaraP Model.TwoPoint Spec.TwoPointSpec.
Import Order.TTheory GRing.Theory Num.Theory.
Set Implicit Arguments. Unset Strict Implicit. Unset Printing Implicit Defensive.
Local Open Scope ring_scope.
Local Open Scope complex_scope.

Section P.
Variable R : rcfType.
Notation C := R[i].
Implicit Types (l p : list C) (f g : Z -> C).

Lemma zR_opp z : zR R (- z) = - zR R z.
Proof.
  rewrite /zR. destruct (Z.ltb_spec (- z) 0), (Z.ltb_spec z 0); rewrite ?Z.opp_involutive ?opprK //; try lia.
  have -> : z = 0%Z by lia. by rewrite /= oppr0.
Qed.
Lemma zR_nneg z : (0 <= z)%Z -> zR R z = (Z.to_nat z)%:R.
Proof. by move=> H; rewrite /zR; case: (Z.ltb_spec z 0) => //; lia. Qed.
Lemma zR_gt0 z : (0 < z)%Z -> 0 < zR R z.
Proof. move=> H. rewrite zR_nneg ?ltr0n; [|lia]. apply/ssrnat.ltP. lia. Qed.
Lemma nu_opp (pb : R) v : nu pb (- v - 1) = - nu pb v.
Proof. rewrite /nu -mulNr -zR_opp. congr (zR _ _ * _). lia. Qed.
Lemma nu_gt0 (pb : R) v : 0 < pb -> (0 <= v)%Z -> 0 < nu pb v.
Proof. move=> H Hv. apply: mulr_gt0 => //. apply: zR_gt0. lia. Qed.
Lemma iv_conj (pb : R) v : iv pb (- v - 1) = conjc (iv pb v).
Proof. by rewrite /iv nu_opp. Qed.
Lemma conjB (x y : C) : conjc (x - y) = conjc x - conjc y. Proof. exact: (rmorphB (RMorphism (@conjc_is_rmorphism R))). Qed.
Lemma conjD (x y : C) : conjc (x + y) = conjc x + conjc y. Proof. exact: (rmorphD (RMorphism (@conjc_is_rmorphism R))). Qed.
Lemma conjM (x y : C) : conjc (x * y) = conjc x * conjc y. Proof. exact: (rmorphM (RMorphism (@conjc_is_rmorphism R))). Qed.
Lemma conj_div (x y : C) : conjc (x / y) = conjc x / conjc y. Proof. rewrite conjM. congr (_ * _). exact: conjc_inv. Qed.

(** ** grids *)
Lemma ffull_on_grid p n f : zlen p = n -> conj_symmetric f -> (forall v, (0 <= v < n)%Z -> zget p v = Some (f v)) -> on_grid (ffull p) n f.
Proof.
  move=> Hn Hf Hp. split; [by rewrite /ffull fermionic_len Hn|]. move=> v Hv. rewrite /ffull -Hn.
  destruct (Z.leb_spec 0 v) as [H|H].
  - rewrite fermionic_pos //. apply: Hp. lia.
  - replace (zlen p + v)%Z with (zlen p - 1 - (- v - 1))%Z by lia. rewrite fermionic_neg; [|lia].
    rewrite Hp; [|lia]. rewrite /= -Hf. do 2 f_equal. lia.
Qed.
Lemma on_grid_eq l n f g : on_grid l n f -> (forall v, (- n <= v < n)%Z -> f v = g v) -> on_grid l n g.
Proof. move=> [H1 H2] E. split=> // v Hv. by rewrite H2 // E. Qed.
Lemma on_grid_unique l l' n f : on_grid l n f -> on_grid l' n f -> l = l'.
Proof.
  move=> [H1 H2] [H3 H4]. apply: zget_ext; [by rewrite H1 H3|]. move=> i Hi. rewrite H1 in Hi.
  replace i with (n + (i - n))%Z by lia. rewrite H2; [|lia]. rewrite H4 //. lia.
Qed.
Lemma zget_entry l v : (0 <= v < zlen l)%Z -> zget l v = Some (entry l v).
Proof. move=> H. exact: zget_nth. Qed.
Lemma complete_sym f : conj_symmetric (complete f).
Proof.
  move=> v. rewrite /complete. destruct (Z.leb_spec 0 (- v - 1)), (Z.leb_spec 0 v); try lia.
  - by rewrite conjcK.
  - do 2 f_equal. lia.
Qed.
Lemma tail_sym (pb s0 s1 : R) : conj_symmetric (tail_fun (nu pb) s0 s1).
Proof.
  move=> v. rewrite /tail_fun nu_opp. change (Complex 0 (- nu pb v)) with (conjc (Complex 0 (nu pb v))).
  by rewrite conjB conj_div !conjc_real.
Qed.
Lemma glue_sym c f g : conj_symmetric f -> conj_symmetric g -> conj_symmetric (fun v => if inside c v then f v else g v).
Proof.
  move=> Hf Hg v. have -> : inside c (- v - 1) = inside c v.
  { rewrite /inside. apply/andP/andP => -[/Z.leb_le A /Z.ltb_lt B]; split; [apply/Z.leb_le|apply/Z.ltb_lt|apply/Z.leb_le|apply/Z.ltb_lt]; lia. }
  by case: (inside c v).
Qed.

(** ** the tail array *)
Lemma zlen_tail (pb s0 s1 : R) n m : (0 <= n)%Z -> zlen (tail_row pb s0 s1 n m) = n.
Proof. move=> H. rewrite /tail_row zlen_map /vn zlen_arange. lia. Qed.
Lemma zget_tail (pb s0 s1 : R) n m i : (0 <= i < n)%Z -> zget (tail_row pb s0 s1 n m) i = Some (tail_fun (nu pb) s0 s1 (m + i)).
Proof.
  move=> H. rewrite /tail_row zget_map /vn zget_arange; [|lia]. rewrite /= /tail_fun /iv. by rewrite div1r mulrC.
Qed.

(** ** self-energies *)
Section SE.
Variable KS : finType.
Implicit Types (s : selfenergy R KS).
(** rows of the stored length, core inside the stored range *)
Definition se_ok (s : selfenergy R KS) : Prop :=
  (forall k, zlen (se_sigma s k) = Z.of_nat (se_niv s)) /\ (0 <= se_core s <= Z.of_nat (se_niv s))%Z.
(** its value at every frequency *)
Definition se_value (s : selfenergy R KS) (k : KS) (v : Z) : C :=
  if inside (se_core s) v then complete (entry (se_sigma s k)) v else tail_fun (nu (se_pb s)) (se_smom0 s) (se_smom1 s) v.
Lemma se_value_sym s k : conj_symmetric (se_value s k).
Proof. apply: glue_sym; [exact: complete_sym|exact: tail_sym]. Qed.
Lemma insideT c v : (- c <= v < c)%Z -> inside c v = true.
Proof. move=> H. apply/andP; split; [apply/Z.leb_le|apply/Z.ltb_lt]; lia. Qed.
Lemma insideF c v : (v < - c \/ c <= v)%Z -> inside c v = false.
Proof. move=> H. apply/negP => /andP[/Z.leb_le A /Z.ltb_lt B]. lia. Qed.
Lemma zget_slice_to l n v : (0 <= v < n)%Z -> (n <= zlen l)%Z -> zget (slice_to l n) v = Some (entry l v).
Proof. move=> H1 H2. rewrite /slice_to zget_slice_in; try lia. rewrite Z.add_0_l. apply: zget_entry. lia. Qed.
Lemma zlen_slice_to l n : (0 <= n <= zlen l)%Z -> zlen (slice_to l n) = n.
Proof. move=> H. rewrite /slice_to zlen_slice_in; lia. Qed.

Lemma get_siw_ok s niv k : se_ok s -> (0 <= niv)%Z -> on_grid (get_siw s niv k) niv (se_value s k).
Proof.
  move=> [HL HC] Hn. rewrite /get_siw. case: (Z.eqb_spec niv (-1)); [lia|move=> _].
  have HLk := HL k. case: (Z.leb_spec niv (se_core s)) => H.
  - apply: ffull_on_grid; [apply: zlen_slice_to; lia|exact: se_value_sym|].
    move=> v Hv. rewrite zget_slice_to; [|lia|lia]. rewrite /se_value insideT; [|lia]. rewrite /complete. case: (Z.leb_spec 0 v) => //; lia.
  - apply: ffull_on_grid; [|exact: se_value_sym|].
    + rewrite zlen_app zlen_slice_to; [|lia]. rewrite zlen_tail; lia.
    + move=> v Hv. rewrite zget_app zlen_slice_to; [|lia]. case: (Z.ltb_spec v (se_core s)) => Hc.
      * rewrite zget_slice_to; [|lia|lia]. rewrite /se_value insideT; [|lia]. rewrite /complete. case: (Z.leb_spec 0 v) => //; lia.
      * rewrite zget_tail; [|lia]. rewrite /se_value insideF; [|lia]. do 2 f_equal. lia.
Qed.
Lemma get_siw_default s k : get_siw s (-1) k = get_siw s (Z.of_nat (se_niv s)) k.
Proof. rewrite /get_siw. case: (Z.eqb_spec (Z.of_nat (se_niv s)) (-1)) => //; lia. Qed.
Lemma sigma_core_ok s k : se_ok s -> on_grid (sigma_core s k) (se_core s) (se_value s k).
Proof.
  move=> [HL HC]. have HLk := HL k. apply: ffull_on_grid; [apply: zlen_slice_to; lia|exact: se_value_sym|].
  move=> v Hv. rewrite zget_slice_to; [|lia|lia]. rewrite /se_value insideT; [|lia]. rewrite /complete. case: (Z.leb_spec 0 v) => //; lia.
Qed.

(** concatenating a core on its grid with a completed shell *)
Lemma concat_on_grid core p c (s : Z) f : on_grid core c f -> (0 <= c)%Z -> zlen p = s -> conj_symmetric f ->
  (forall i, (0 <= i < s)%Z -> zget p i = Some (f (c + i)%Z)) -> on_grid (concatenate_core_asmypt core (ffull p)) (c + s) f.
Proof.
  move=> [Hc1 Hc2] H0 Hp Hf Hi.
  have Hs0 : (0 <= s)%Z by rewrite -Hp; apply: zlen_nonneg.
  have HL : zlen (ffull p) = (2 * s)%Z by rewrite /ffull fermionic_len Hp.
  rewrite (@concat_core_spec C core (ffull p) s HL). split.
  - rewrite !zlen_app !zlen_slice_in; lia.
  - move=> v Hv. rewrite zget_app zlen_slice_in; [|lia|lia]. case: (Z.ltb_spec (c + s + v) (s - 0)) => H1.
    + rewrite zget_slice_in; [|lia|lia|lia].
      replace (0 + (c + s + v))%Z with (zlen p - 1 - (- v - 1 - c))%Z by lia. rewrite /ffull fermionic_neg; [|lia].
      rewrite Hi; [|lia]. rewrite /= -Hf. do 2 f_equal. lia.
    + rewrite zget_app Hc1. case: (Z.ltb_spec (c + s + v - (s - 0)) (2 * c)) => H2.
      * replace (c + s + v - (s - 0))%Z with (c + v)%Z by lia. apply: Hc2. lia.
      * rewrite zget_slice_in; [|lia|lia|lia].
        replace (s + (c + s + v - (s - 0) - 2 * c))%Z with (zlen p + (v - c))%Z by lia. rewrite /ffull fermionic_pos; [|lia].
        rewrite Hi; [|lia]. do 2 f_equal. lia.
Qed.
Lemma get_sigma_full_ok s n k : se_ok s -> (0 <= n)%Z -> on_grid (get_sigma_full s n k) (se_core s + n) (se_value s k).
Proof.
  move=> Hs Hn. have [HL HC] := Hs. rewrite /get_sigma_full /get_asympt. apply: concat_on_grid; [exact: sigma_core_ok|lia|exact: zlen_tail|exact: se_value_sym|].
  move=> i Hi. rewrite zget_tail // /se_value insideF //. lia.
Qed.
Lemma get_sigma_full_siw s n k : se_ok s -> (0 <= n)%Z -> get_sigma_full s n k = get_siw s (se_core s + n) k.
Proof. move=> Hs Hn. apply: on_grid_unique; [exact: get_sigma_full_ok|apply: get_siw_ok => //]. have [_ H] := Hs. lia. Qed.
End SE.

(** ** Green's function *)
Section GF.
Variables (K KS : finType) (bc : K -> KS).
Variables (s : selfenergy R KS) (ek : K -> R) (mu : R).
Definition g_value (k : K) (v : Z) : C := 1 / (iv (se_pb s) v + mu%:C - (ek k)%:C - se_value s (bc k) v).
Lemma g_value_sym k : conj_symmetric (g_value k).
Proof. move=> v. by rewrite /g_value iv_conj se_value_sym conj_div conjc1 !conjB conjD !conjc_real. Qed.
Lemma build_g_row_ok (ivl sig : list C) (e : R) n : zlen ivl = n -> zlen sig = n ->
  exists g : list C, build_g_row ivl e mu sig = Ok g /\ zlen g = n /\
    forall i a b, zget ivl i = Some a -> zget sig i = Some b -> zget g i = Some (1 / (a + mu%:C - e%:C - b)).
Proof.
  move=> H1 H2. rewrite /build_g_row. have -> : Nat.eqb (length ivl) (length sig) = true by apply/Nat.eqb_eq; move: H1 H2; rewrite /zlen; lia.
  eexists; split; [reflexivity|]. split; [rewrite zlen_map zlen_combine; lia|].
  move=> i a b Ha Hb. by rewrite zget_map zget_combine Ha Hb.
Qed.
Lemma build_core_ok k : se_ok s -> exists g : list C, build_g_core bc s ek mu k = Ok g /\ on_grid g (se_core s) (g_value k).
Proof.
  move=> Hs. have [HL HC] := Hs. have [G1 G2] := sigma_core_ok (bc k) Hs.
  have [|g [E [L V]]] := @build_g_row_ok (ivs (se_pb s) (se_core s)) (sigma_core s (bc k)) (ek k) (2 * se_core s)%Z _ G1.
  { rewrite /ivs zlen_map /vn zlen_arange. lia. }
  exists g. split; [exact: E|]. split=> // v Hv. apply: V.
  - rewrite /ivs zget_map /vn zget_arange /=; [|lia]. do 2 f_equal. lia.
  - exact: G2.
Qed.
Lemma build_asympt_ok k n : (0 <= n)%Z -> (0 <= se_core s)%Z -> exists p, build_asympt bc s ek mu n k = Ok (ffull p) /\ zlen p = n /\
  forall i, (0 <= i < n)%Z -> zget p i = Some (g_value k (se_core s + i)).
Proof.
  move=> Hn Hc. rewrite /build_asympt /get_asympt.
  have [||g [E [L V]]] := @build_g_row_ok (map (iv (se_pb s)) (vn n (se_core s) true)) (tail_row (se_pb s) (se_smom0 s) (se_smom1 s) n (se_core s)) (ek k) n.
  { rewrite zlen_map /vn zlen_arange. lia. } { exact: zlen_tail. }
  rewrite E. exists g. split=> //. split=> // i Hi. rewrite /g_value /se_value insideF; [|lia]. apply: V.
  - rewrite zget_map /vn zget_arange /=; [|lia]. by [].
  - exact: zget_tail.
Qed.
Lemma g_full_ok k n : se_ok s -> (0 <= n)%Z -> exists g : list C, g_full bc s ek mu n k = Ok g /\ on_grid g (se_core s + n) (g_value k).
Proof.
  move=> Hs Hn. have [HL HC] := Hs. have [gc [E1 G1]] := build_core_ok k Hs. have [|p [E2 [L V]]] := @build_asympt_ok k n Hn; [lia|].
  rewrite /g_full E1 E2 /=. eexists; split; [reflexivity|]. apply: concat_on_grid => //; [lia|exact: g_value_sym].
Qed.

(** ** causality *)
Definition causal_data : Prop := forall k v, (0 <= v < se_core s)%Z -> complex.Im (entry (se_sigma s k) v) <= 0.
Lemma Im_inv (z : C) : complex.Im z^-1 = - (complex.Im z / (complex.Re z ^+ 2 + complex.Im z ^+ 2)).
Proof. by case: z. Qed.
Lemma Re_inv (z : C) : complex.Re z^-1 = complex.Re z / (complex.Re z ^+ 2 + complex.Im z ^+ 2).
Proof. by case: z. Qed.
Lemma Im_realM (x : R) (z : C) : complex.Im (x%:C * z) = x * complex.Im z.
Proof. case: z => a b. change (x * b + 0 * a = x * b). by rewrite mul0r addr0. Qed.
Lemma Re_realM (x : R) (z : C) : complex.Re (x%:C * z) = x * complex.Re z.
Proof. case: z => a b. change (x * a - 0 * b = x * a). by rewrite mul0r subr0. Qed.
Lemma ImB (z w : C) : complex.Im (z - w) = complex.Im z - complex.Im w. Proof. by case: z; case: w. Qed.
Lemma ImD (z w : C) : complex.Im (z + w) = complex.Im z + complex.Im w. Proof. by case: z; case: w. Qed.
Lemma ReB (z w : C) : complex.Re (z - w) = complex.Re z - complex.Re w. Proof. by case: z; case: w. Qed.
Lemma ReD (z w : C) : complex.Re (z + w) = complex.Re z + complex.Re w. Proof. by case: z; case: w. Qed.
Lemma se_value_causal k v : 0 < se_pb s -> se_smom1 s <= 0 -> causal_data -> (0 <= v)%Z -> complex.Im (se_value s k v) <= 0.
Proof.
  move=> Hp Hm Hd Hv. rewrite /se_value. case E: (inside (se_core s) v).
  - rewrite /complete. case: (Z.leb_spec 0 v) => //; [|lia]. move=> _. apply: Hd. move/andP: E => [/Z.leb_le A /Z.ltb_lt B]. lia.
  - rewrite /tail_fun. have Hnu : 0 < nu (se_pb s) v := nu_gt0 Hp Hv. rewrite ImB Im_realM Im_inv.
    change (0 - se_smom1 s * - (nu (se_pb s) v / (0 ^+ 2 + nu (se_pb s) v ^+ 2)) <= 0).
    rewrite sub0r mulrN opprK expr0n /= add0r. apply: mulr_le0_ge0 => //. by rewrite divr_ge0 ?exprn_ge0 // ltW.
Qed.
(** the denominator has imaginary part at least nu *)
Lemma den_im k v : 0 < se_pb s -> se_smom1 s <= 0 -> causal_data -> (0 <= v)%Z ->
  nu (se_pb s) v <= complex.Im (iv (se_pb s) v + mu%:C - (ek k)%:C - se_value s (bc k) v).
Proof.
  move=> H1 H2 H3 H4. rewrite !ImB ImD. change (complex.Im (iv (se_pb s) v)) with (nu (se_pb s) v).
  change (complex.Im mu%:C) with (0 : R). change (complex.Im (ek k)%:C) with (0 : R). rewrite addr0 subr0.
  by rewrite ler_addl oppr_ge0 se_value_causal.
Qed.
End GF.
End P.
