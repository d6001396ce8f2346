(** Lemmas about the Kramers-Kronig transformation and the filling. *)
From mathcomp Require Import all_ssreflect all_algebra.
From mathcomp.real_closed Require Import complex.
From Coq Require Import ZArith Lia String.
From Verif Require Import Base.PyBase Base.PyFacts Model.OpticsReal Model.Backtransform Spec.OpticsRealSpec Spec.BacktransformSpec Proofs.OpticsRealP Proofs.OpticsReal2P Proofs.BacktransformP.
Import Order.TTheory GRing.Theory Num.Theory.
Set Implicit Arguments. Unset Strict Implicit. Unset Printing Implicit Defensive.
Local Open Scope ring_scope.
Local Open Scope complex_scope.

Lemma NoDup_map_in A B (f : A -> B) l : List.NoDup l -> (forall x y, List.In x l -> List.In y l -> f x = f y -> x = y) -> List.NoDup (List.map f l).
Proof.
  elim: l => [|a l IH] HN H; first by constructor. inversion HN as [|? ? Ha Hl]. constructor.
  - rewrite List.in_map_iff => [] [b [E Hb]]. apply: Ha. by rewrite (H a b _ _ (esym E)) //=; [left|right].
  - apply: IH => // u w Hu Hw. by apply: H; right.
Qed.
Section Kkt.
Variable R : rcfType.
Notation C := R[i].
Variable cpi : R.
Lemma neq_pm (p q : R) : q != 0 -> p - q != p + q.
Proof. move=> H. apply/eqP => /addrI E. have : q *+ 2 = 0 by rewrite mulr2n -{1}E addNr. move/eqP. by rewrite mulrn_eq0 (negbTE H). Qed.
Lemma map_zlen A (f : Z -> A) n : (0 <= n)%Z -> zlen (List.map f (arange 0 n)) = n. Proof. move=> H. rewrite zlen_map zlen_arange. lia. Qed.
Lemma zget_fun A (f : Z -> A) n i : (0 <= i < n)%Z -> zget (List.map f (arange 0 n)) i = Some (f i).
Proof. move=> H. rewrite zget_map zget_arange; last lia. by []. Qed.
Lemma enumerate_fun A (f : Z -> A) n : enumerate (List.map f (arange 0 n)) = List.map (fun i => (i, f i)) (arange 0 n).
Proof.
  case: (Z_le_gt_dec 0 n) => Hn; last by rewrite arange_empty //; lia.
  apply: zget_ext; first by rewrite zlen_enumerate !map_zlen. move=> i. rewrite zlen_enumerate map_zlen // => Hi. by rewrite zget_enumerate !zget_fun.
Qed.
Lemma combine_fun A B (f : Z -> A) (g : Z -> B) l : List.combine (List.map f l) (List.map g l) = List.map (fun i => (f i, g i)) l.
Proof. elim: l => [|a l IH] //=. by rewrite IH. Qed.
Lemma tl_fun A (f : Z -> A) n : (1 <= n)%Z -> List.tl (List.map f (arange 0 n)) = List.map (fun j => f (j + 1)%Z) (arange 0 (n - 1)).
Proof.
  move=> Hn. rewrite arange_cons; last lia. rewrite /=. have -> : arange 1 n = List.map (fun j => (1 + j)%Z) (arange 0 (n - 1)) by rewrite arange_map_add; congr (arange _ _); lia.
  rewrite List.map_map. apply: List.map_ext => j. congr (f _). lia.
Qed.
Lemma zget_cons_pos A (a : A) l i : (1 <= i)%Z -> zget (a :: l) i = zget l (i - 1)%Z. Proof. move=> H. rewrite zget_cons. by have -> : (i =? 0)%Z = false by apply/Z.eqb_neq; lia. Qed.
Lemma zget_app_l A (l m : list A) i : (i < zlen l)%Z -> zget (l ++ m) i = zget l i. Proof. move=> H. rewrite zget_app. by have -> : (i <? zlen l)%Z = true by apply/Z.ltb_lt. Qed.
Lemma zget_app_r A (l m : list A) i : (zlen l <= i)%Z -> zget (l ++ m) i = zget m (i - zlen l)%Z. Proof. move=> H. rewrite zget_app. by have -> : (i <? zlen l)%Z = false by apply/Z.ltb_ge. Qed.
Lemma zget_tl A (l : list A) i : (0 <= i)%Z -> zget (List.tl l) i = zget l (i + 1)%Z.
Proof. case: l => [|a l] Hi; first by rewrite /= !zget_nil. rewrite /= zget_cons_pos; last lia. congr (zget _ _). lia. Qed.
Lemma zlen_tl A (l : list A) : (1 <= zlen l)%Z -> zlen (List.tl l) = (zlen l - 1)%Z.
Proof. case: l => [|a l]; first by rewrite zlen_nil; lia. move=> _. rewrite zlen_cons [List.tl _]/=. lia. Qed.
Lemma cell_widths_ok (x : Z -> R) n : (1 <= n)%Z -> cell_widths (List.map x (arange 0 n)) = Ok (List.map (cell x n) (arange 0 n)).
Proof.
  move=> Hn. rewrite /cell_widths /py_get map_zlen; last lia. rewrite [(0 <? 0)%Z]/= [(-1 <? 0)%Z]/= !zget_fun; try lia. cbn [bind]. f_equal.
  rewrite tl_fun //. have E : forall A B D (h : A -> B -> D) (f : Z -> A) (g : Z -> B), map2 h (List.map f (arange 0 (n - 1))) (List.map g (arange 0 n)) = List.map (fun j => h (f j) (g j)) (arange 0 (n - 1)).
    move=> A B D h f g. apply: zget_ext; first by rewrite zlen_map2 !map_zlen; lia. move=> i. rewrite zlen_map2 !map_zlen; try lia. move=> Hi. rewrite zget_map2 !zget_fun //; lia.
  rewrite E. have -> : (-1 + n = n - 1)%Z by lia. set L := (X in np_diff X). have LL : zlen L = (n + 1)%Z by rewrite /L zlen_cons zlen_app map_zlen ?zlen_cons ?zlen_nil; lia.
  have G : forall i, (0 <= i <= n)%Z -> zget L i = Some (if (i =? 0)%Z then x 0%Z else if (i =? n)%Z then x (n - 1)%Z else (x (i - 1)%Z + x i) / 2%:R).
    move=> i Hi. rewrite /L. case: Z.eqb_spec => [->|N0] //. rewrite zget_cons_pos; last lia. case: Z.eqb_spec => [->|Nn].
    - rewrite zget_app_r map_zlen; try lia. by rewrite Z.sub_diag.
    - rewrite zget_app_l ?map_zlen; try lia. rewrite zget_fun; last lia. rewrite addrC. by have -> : (i - 1 + 1 = i)%Z by lia.
  apply: zget_ext; first by rewrite /np_diff zlen_map2 zlen_tl LL ?map_zlen; lia.
  move=> i. rewrite /np_diff zlen_map2 zlen_tl LL; last lia. move=> Hi. rewrite zget_map2 zget_tl; last lia. rewrite !G; try lia. rewrite zget_fun; last lia. f_equal. rewrite /cell.
  have -> : (i + 1 =? 0)%Z = false by apply/Z.eqb_neq; lia. have -> : (i + 1 - 1 = i)%Z by lia.
  have -> : (i + 1 =? n)%Z = (i =? n - 1)%Z by case: (Z.eqb_spec (i + 1) n); case: (Z.eqb_spec i (n - 1)); lia || by [].
  by have -> : (i =? n)%Z = false by apply/Z.eqb_neq; lia.
Qed.
(** the transformation on functions *)
Definition kk_name (k : kk_kind) (s : string) : Prop :=
  match k with KKgeneral => s = "fermionic"%string \/ s = "general"%string | KKodd => s = "fermionic_phsym"%string \/ s = "symmetric"%string
             | KKeven => s = "bosonic"%string \/ s = "antisymmetric"%string end.
Lemma frac_even (a y z : R) : y != z -> y + z != 0 -> a / (y - z) + a / (y + z) = 2%:R * y * a / (y ^+ 2 - z ^+ 2).
Proof.
  move=> H1 H2. have H1' : y - z != 0 by rewrite subr_eq0. rewrite subr_sqr addf_div // -!mulrDr. congr (_ / _). have -> : y + z + (y - z) = 2%:R * y by rewrite addrCA addrK mulr_natl mulr2n. by rewrite [RHS]mulrC.
Qed.
Lemma frac_odd (a y z : R) : y != z -> y + z != 0 -> a / (y - z) - a / (y + z) = 2%:R * z * a / (y ^+ 2 - z ^+ 2).
Proof.
  move=> H1 H2. have H1' : y - z != 0 by rewrite subr_eq0. rewrite subr_sqr -mulNr addf_div // mulNr -mulrBr. congr (_ / _). have -> : y + z - (y - z) = 2%:R * z by rewrite opprB addrC subrKA mulr_natl mulr2n. by rewrite [RHS]mulrC.
Qed.
Lemma kkt_ok k s (x A : Z -> R) n : (1 <= n)%Z -> kk_name k s -> (k <> KKgeneral -> increasing x n /\ 0 <= x 0%Z) ->
  kkt cpi (List.map A (arange 0 n)) (List.map x (arange 0 n)) s = Ok (List.map (kk_value k cpi x A n) (arange 0 n)).
Proof.
  move=> Hn Hs Hk. rewrite /kkt cell_widths_ok //. cbn [bind]. rewrite !map_zlen; try lia. rewrite Z.eqb_refl. cbn [negb]. rewrite !combine_fun.
  set m := (X in bind X _).
  pose t (d z a y : R) := match k with KKgeneral => d * a / (y - z) | KKodd => 2%:R * d * z * a / (y ^+ 2 - z ^+ 2) | KKeven => 2%:R * d * y * a / (y ^+ 2 - z ^+ 2) end.
  have -> : m = Ok (List.map (fun i => List.map (fun j => t (cell x n i) (x i) (A i) (x j)) (arange 0 n)) (arange 0 n)).
    rewrite /m /t. clear -Hs. case: k Hs => /= [] [->|->] /=; f_equal; rewrite (List.map_map (fun i => (cell x n i, (x i, A i)))); apply: List.map_ext => i /=; by rewrite (List.map_map x).
  cbn [bind]. clear m. rewrite enumerate_fun (List.map_map (fun i => (i, _))) /=. f_equal. rewrite /range !(List.map_map A) map2_same.
  apply: List.map_ext_in => j /In_arange Hj. rewrite /kk_value mulNr [A j * cpi]mulrC rmorphN mulrN. congr (_%:C - _).
  rewrite big_map [RHS]big_mkcond. apply: eq_big_InR => i /In_arange Hi /=. rewrite enumerate_fun (List.map_map (fun i => (i, _))) zget_fun //. cbn [fst snd]. case: Z.eqb_spec => Nij //=.
  rewrite /t. have H : k <> KKgeneral -> x j != x i /\ x j + x i != 0.
    move=> /Hk [inc x0]. have x0' : forall l, (0 <= l < n)%Z -> 0 <= x l by move=> l Hl; case: (Z.eq_dec l 0) => [->|] // Nl; apply: le_trans x0 (ltW (inc 0%Z l _ _)); lia.
    case: (Z_lt_ge_dec i j) => L.
    - have lt := inc i j ltac:(lia) ltac:(lia). split; first by rewrite gt_eqF. apply: lt0r_neq0. apply: ltr_paddr; [exact: x0'|]. apply: le_lt_trans lt; exact: x0'.
    - have lt := inc j i ltac:(lia) ltac:(lia). split; first by rewrite lt_eqF. apply: lt0r_neq0. apply: ltr_paddl; [exact: x0'|]. apply: le_lt_trans lt; exact: x0'.
  clear -H. case: k H => /= H; first by [].
  - have [H1 H2] := H ltac:(by []). rewrite frac_even //. by rewrite -!mulrA; congr (_ * _); rewrite !mulrA [cell x n i * x j]mulrC.
  - have [H1 H2] := H ltac:(by []). rewrite frac_odd //. by rewrite -!mulrA; congr (_ * _); rewrite !mulrA [cell x n i * x i]mulrC.
Qed.
Lemma kkt_unknown s (A x : list R) : zlen A = zlen x -> (1 <= zlen x)%Z -> (forall k, ~ kk_name k s) -> kkt cpi A x s = Raise ValueError.
Proof.
  move=> L Hx H. rewrite /kkt /cell_widths /py_get. rewrite [(0 <? 0)%Z]/= [(-1 <? 0)%Z]/=. have [a ->] := @zget_in_range _ x 0 ltac:(lia). have [b ->] := @zget_in_range _ x (-1 + zlen x) ltac:(lia).
  cbn [bind]. rewrite L Z.eqb_refl. cbn [negb]. have := H KKgeneral; have := H KKodd; have := H KKeven. rewrite /kk_name.
  do 6 (case: String.eqb_spec => [->|_]; first by tauto). by [].
Qed.
Lemma kk_Im k (x A : Z -> R) n j : complex.Im (kk_value k cpi x A n j) = - (cpi * A j).
Proof. rewrite /kk_value /=. by rewrite !(mul0r, mul1r, mulr0, subr0, sub0r, addr0, add0r). Qed.
Lemma kk_Re k (x A : Z -> R) n j : complex.Re (kk_value k cpi x A n j) = \sum_(i <- arange 0 n | ~~ (i =? j)%Z) kk_term k (cell x n i) (x i) (A i) (x j).
Proof. rewrite /kk_value /=. by rewrite !(mul0r, mul1r, mulr0, subr0, sub0r, addr0, add0r, oppr0). Qed.
Lemma arange_snoc (n : Z) : (1 <= n)%Z -> arange 0 n = arange 0 (n - 1) ++ [:: (n - 1)%Z].
Proof.
  move=> H. have E := @arange_app 0 (n - 1) n ltac:(lia) ltac:(lia). rewrite -E. apply: f_equal. rewrite (@arange_cons (n - 1) n); last lia. rewrite (@arange_empty (n - 1 + 1) n) //; lia.
Qed.
(** the cells cover the mesh *)
Lemma cells_sum (x : Z -> R) n : (1 <= n)%Z -> \sum_(j <- arange 0 n) cell x n j = x (n - 1)%Z - x 0%Z.
Proof.
  move=> Hn. have P : forall k : nat, (Z.of_nat k < n)%Z -> \sum_(j <- arange 0 (Z.of_nat k)) cell x n j = (if (Z.of_nat k =? 0)%Z then x 0%Z else (x (Z.of_nat k - 1)%Z + x (Z.of_nat k)) / 2%:R) - x 0%Z.
    elim=> [|k IH] Hk; first by rewrite big_nil subrr. have E2 := @arange_snoc (Z.of_nat k.+1) ltac:(lia). have E3 : (Z.of_nat k.+1 - 1 = Z.of_nat k)%Z by lia. rewrite E3 in E2.
    rewrite E2 sum_snoc IH; last lia. have -> : (Z.of_nat k.+1 =? 0)%Z = false by apply/Z.eqb_neq; lia. have -> : (Z.of_nat k.+1 - 1 = Z.of_nat k)%Z by lia. rewrite /cell.
    have -> : (Z.of_nat k =? n - 1)%Z = false by apply/Z.eqb_neq; lia. have -> : (Z.of_nat k.+1 = Z.of_nat k + 1)%Z by lia.
    rewrite addrC -addrA. congr (_ + _). by rewrite addrA addNr add0r.
  have E2 := arange_snoc Hn. have E3 : (n - 1 = Z.of_nat (Z.to_nat (n - 1)))%Z by lia. rewrite {1}E3 in E2.
  rewrite E2 sum_snoc P; last lia. rewrite Z2Nat.id; last lia. rewrite /cell Z.eqb_refl addrC -addrA. congr (_ + _). by rewrite addrA addNr add0r.
Qed.
(** particle-hole symmetry *)
Lemma cell_ph (x : Z -> R) n : (1 <= n)%Z -> (forall j, (0 <= j < n)%Z -> x (n - 1 - j)%Z = - x j) -> forall j, (0 <= j < n)%Z -> cell x n (n - 1 - j)%Z = cell x n j.
Proof.
  move=> Hn Hx j Hj. have Hx' : forall i, (0 <= i < n)%Z -> x i = - x (n - 1 - i)%Z by move=> i Hi; rewrite Hx // opprK.
  rewrite /cell. have -> : (n - 1 - j =? n - 1)%Z = (j =? 0)%Z by case: (Z.eqb_spec (n - 1 - j) (n - 1)); case: (Z.eqb_spec j 0); lia || by [].
  have -> : (n - 1 - j =? 0)%Z = (j =? n - 1)%Z by case: (Z.eqb_spec (n - 1 - j) 0); case: (Z.eqb_spec j (n - 1)); lia || by [].
  have H0 : x (n - 1)%Z = - x 0%Z by have := Hx 0%Z ltac:(lia); rewrite Z.sub_0_r.
  rewrite addrC. congr (_ + _).
  - case: Z.eqb_spec => Ej; first by rewrite H0. have -> : (n - 1 - j - 1 = n - 1 - (j + 1))%Z by lia. rewrite !Hx; try lia. by rewrite -opprD mulNr opprK addrC.
  - case: Z.eqb_spec => Ej; first by rewrite H0. have -> : (n - 1 - j + 1 = n - 1 - (j - 1))%Z by lia. rewrite !Hx; try lia. by rewrite -opprD mulNr addrC.
Qed.
Lemma Re_nconj (z : C) : complex.Re (- conjc z) = - complex.Re z. Proof. by case: z. Qed.
Lemma Im_nconj (z : C) : complex.Im (- conjc z) = complex.Im z. Proof. by case: z => a b /=; rewrite opprK. Qed.
Lemma kk_ph (x A : Z -> R) n j : (0 <= j < n)%Z -> (forall j, (0 <= j < n)%Z -> x (n - 1 - j)%Z = - x j) -> (forall j, (0 <= j < n)%Z -> A (n - 1 - j)%Z = A j) ->
  kk_value KKgeneral cpi x A n (n - 1 - j) = - conjc (kk_value KKgeneral cpi x A n j).
Proof.
  move=> Hj Hx HA. apply: Ceq.
  - rewrite Re_nconj !kk_Re -sumrN.
    rewrite big_mkcond [RHS]big_mkcond /=. have [m Em] : exists m : nat, n = Z.of_nat m by exists (Z.to_nat n); lia.
    rewrite Em sum_rev -Em. apply: eq_big_InR => i /In_arange Hi. have -> : (n - 1 - i =? n - 1 - j)%Z = (i =? j)%Z by case: (Z.eqb_spec (n - 1 - i) (n - 1 - j)); case: (Z.eqb_spec i j); lia || by [].
    case: (i =? j)%Z => //=. rewrite !cell_ph ?Hx ?HA //; try lia. by rewrite -opprD invrN mulrN.
  - by rewrite Im_nconj !kk_Im HA.
Qed.
(** filling *)
Lemma filter_prefix (f : Z -> bool) n M : (0 <= M <= n)%Z -> (forall j, (0 <= j < n)%Z -> f j = (j <? M)%Z) -> List.filter f (arange 0 n) = arange 0 M.
Proof.
  move=> HM H. rewrite -(@arange_app 0 M n); try lia. rewrite List.filter_app.
  have -> : List.filter f (arange 0 M) = arange 0 M.
    have : forall l, (forall y, List.In y l -> f y = true) -> List.filter f l = l by elim=> [|a l IH] //= Hl; rewrite Hl ?IH //; [move=> y Hy; apply: Hl; right|left].
    apply. move=> y /In_arange Hy. rewrite H; last lia. apply/Z.ltb_lt. lia.
  have -> : List.filter f (arange M n) = [::].
    have : forall l, (forall y, List.In y l -> f y = false) -> List.filter f l = [::] by elim=> [|a l IH] //= Hl; rewrite Hl ?IH //; [move=> y Hy; apply: Hl; right|left].
    apply. move=> y /In_arange Hy. rewrite H; last lia. apply/Z.ltb_ge. lia.
  exact: List.app_nil_r.
Qed.
Lemma filter_map_fun A (p : A -> bool) (g : Z -> A) l : List.filter p (List.map g l) = List.map g (List.filter (fun i => p (g i)) l).
Proof. elim: l => [|a l IH] //=. rewrite IH. by case: (p (g a)). Qed.
Lemma filling_ok (x : Z -> R) (G : Z -> C) n M : (0 <= M <= n)%Z -> (forall j, (0 <= j < n)%Z -> (x j < 0) = (j <? M)%Z) ->
  check_filling cpi (List.map x (arange 0 n)) (List.map G (arange 0 n)) = Ok (norm_integral x (fun j => spectral cpi (G j)) M * 2%:R)%:C.
Proof.
  move=> HM Hx. rewrite /check_filling !map_zlen; try lia. rewrite Z.eqb_refl combine_fun filter_map_fun (@filter_prefix _ n M) // !(List.map_map (fun i => (x i, G i))) /=. f_equal.
  rewrite rmorphM /= rmorph_nat. congr (_ * _). rewrite ctrapz_trapezoid. apply: Ceq.
  - rewrite Re_trap /=. apply: ni_ext => j _. by rewrite /spectral mulrAC mulN1r.
  - rewrite Im_trap /norm_integral /=. by rewrite big1 // => j _; rewrite addr0 mulr0 mul0r.
Qed.
(** on a symmetric mesh with a symmetric spectrum *)
Lemma filling_half (x A : Z -> R) M : (1 <= M)%Z -> (forall j, (0 <= j < 2 * M + 1)%Z -> x (2 * M - j)%Z = - x j) -> (forall j, (0 <= j < 2 * M + 1)%Z -> A (2 * M - j)%Z = A j) ->
  norm_integral x A M * 2%:R = norm_integral x A (2 * M + 1) + x (M - 1)%Z * (A (M - 1)%Z + A M).
Proof.
  move=> HM Hx HA. have x0 : x M = 0.
    have := Hx M ltac:(lia). have -> : (2 * M - M = M)%Z by lia. move/eqP. by rewrite -subr_eq0 opprK -mulr2n mulrn_eq0 /= => /eqP.
  pose h j := (x (j + 1)%Z - x j) * (A j + A (j + 1)%Z) / 2%:R.
  have hs : forall j, (0 <= j < 2 * M)%Z -> h (2 * M - 1 - j)%Z = h j.
    move=> j Hj. rewrite /h. have -> : (2 * M - 1 - j + 1 = 2 * M - j)%Z by lia. have -> : (2 * M - 1 - j = 2 * M - (j + 1))%Z by lia. rewrite !Hx ?HA; try lia. by rewrite opprK addrC [A (j + 1)%Z + _]addrC.
  rewrite /norm_integral. have -> : (2 * M + 1 - 1 = 2 * M)%Z by lia. rewrite -/h.
  rewrite (@sum_app _ (fun j => h j) 0 M (2 * M)); try lia.
  have -> : \sum_(j <- arange M (2 * M)) h j = \sum_(j <- arange 0 M) h j.
    rewrite (@sum_shift _ _ _ _ M). have -> : (M - M = 0)%Z by lia. have -> : (2 * M - M = M)%Z by lia. have [m Em] : exists m : nat, M = Z.of_nat m by exists (Z.to_nat M); lia.
    rewrite {1}Em sum_rev -Em. apply: eq_big_InR => j /In_arange Hj. rewrite -[RHS]hs; last lia. congr (h _). lia.
  have E2 := arange_snoc HM.
  have hM : h (M - 1)%Z + h (M - 1)%Z = - (x (M - 1)%Z * (A (M - 1)%Z + A M)).
    rewrite /h. have -> : (M - 1 + 1 = M)%Z by lia. by rewrite x0 sub0r -mulr2n -[_ *+ 2]mulr_natr divfK ?pnatr_eq0 // mulNr.
  rewrite E2 sum_snoc. rewrite mulr_natr mulr2n addrACA hM -addrA addNr addr0. by [].
Qed.
End Kkt.
