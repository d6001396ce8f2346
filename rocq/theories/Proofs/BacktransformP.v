(** Lemmas about the transformation between real and imaginary axis. *)
From mathcomp Require Import all_ssreflect all_algebra.
From mathcomp.real_closed Require Import complex.
From Coq Require Import ZArith Lia String.
From Verif Require Import Base.PyBase Base.PyFacts Model.OpticsReal Model.Backtransform Spec.OpticsRealSpec Spec.BacktransformSpec Proofs.OpticsRealP Proofs.OpticsReal2P.
Import Order.TTheory GRing.Theory Num.Theory.
Set Implicit Arguments. Unset Strict Implicit. Unset Printing Implicit Defensive.
Local Open Scope ring_scope.
Local Open Scope complex_scope.

Section Lists.
Lemma map_enumerate A B (F : Z * A -> B) (H : A -> B) (l : list A) : (forall i a, zget l i = Some a -> F (i, a) = H a) -> List.map F (enumerate l) = List.map H l.
Proof.
  move=> E. apply: zget_ext; first by rewrite !zlen_map zlen_enumerate. move=> i Hi. rewrite !zget_map zget_enumerate. case G : (zget l i) => [a|] //=. by rewrite (E _ _ G).
Qed.
Lemma zget_inj A (l : list A) i j a : List.NoDup l -> zget l i = Some a -> zget l j = Some a -> i = j.
Proof.
  move=> ND. rewrite /zget. case: Z.ltb_spec => // H1. case: Z.ltb_spec => // H2 E1 E2. have L : (Z.to_nat i < length l)%coq_nat by apply List.nth_error_Some; rewrite E1.
  have := proj1 (List.NoDup_nth_error l) ND _ (Z.to_nat j) L ltac:(by rewrite E1 E2). lia.
Qed.
Lemma NoDup_enumerate A (l : list A) : List.NoDup (List.map fst (enumerate l)).
Proof.
  have -> : List.map fst (enumerate l) = arange 0 (zlen l); last exact: NoDup_arange.
  apply: zget_ext; first by rewrite zlen_map zlen_enumerate zlen_arange; have := zlen_nonneg l; lia.
  move=> i. rewrite zlen_map zlen_enumerate => Hi. rewrite zget_map zget_enumerate zget_arange; last lia. by have [a ->] := @zget_in_range _ l i Hi.
Qed.
Lemma In_enumerate A (l : list A) i a : List.In (i, a) (enumerate l) <-> zget l i = Some a.
Proof.
  split.
  - move=> H. have [j [_]] := @In_zget _ _ _ H. rewrite zget_enumerate. case E : (zget l j) => [b|] //= [<- <-]. exact: E.
  - move=> E. apply: (@zget_In _ _ i). by rewrite zget_enumerate E.
Qed.
Lemma two_eq A (l : list A) : List.NoDup l -> (forall a b, List.In a l -> List.In b l -> a = b) -> l = [::] \/ exists a, l = [:: a].
Proof.
  case: l => [|a [|b l]] ND H; [by left|by right; exists a|]. exfalso. inversion_clear ND as [|x y H1 H2]. apply: H1. left. apply: H; [right; by left|by left].
Qed.
End Lists.

Section Kernel.
Variable R : rcfType.
Notation C := R[i].
Variable cpi : R.
Lemma In_where0 (l : list R) i : List.In i (where0 l) <-> zget l i = Some 0.
Proof.
  rewrite /where0 List.in_map_iff. split.
  - move=> [[j a] [/= <-]]. rewrite List.filter_In In_enumerate /= => -[E /eqP Ea]. by rewrite E Ea.
  - move=> E. exists (i, 0). split=> //. rewrite List.filter_In In_enumerate /= eqxx. by [].
Qed.
Lemma NoDup_map_filter A B (f : A -> B) p (l : list A) : List.NoDup (List.map f l) -> List.NoDup (List.map f (List.filter p l)).
Proof.
  elim: l => [|x l IH] //= H. inversion_clear H as [|a b H1 H2]. case: (p x) => /=; last exact: IH. constructor; last exact: IH.
  move=> /List.in_map_iff [y [E /List.filter_In [Hy _]]]. apply: H1. rewrite -E. exact: List.in_map.
Qed.
Lemma where0_cases (l : list R) : List.NoDup l -> (where0 l = [::] /\ ~ List.In 0 l) \/ exists i, where0 l = [:: i] /\ zget l i = Some 0.
Proof.
  move=> ND. have [E|[i E]] : where0 l = [::] \/ exists a, where0 l = [:: a].
    apply: two_eq; first by apply: NoDup_map_filter; exact: NoDup_enumerate. move=> a b /In_where0 Ha /In_where0 Hb. exact: (zget_inj ND Ha Hb).
  - left. split=> // H. have [i [_ Hi']] := @In_zget _ _ _ H. have : List.In i (where0 l) by apply/In_where0. by rewrite E.
  - right. exists i. split=> //. apply/In_where0. rewrite E. by left.
Qed.
Lemma kernel_fermionic re im : get_backtransform_kernel re im "freq_fermionic" = Ok (List.map (fun v => List.map (fun x => @fermi_kernel R v x) re) im).
Proof. by []. Qed.
Lemma kernel_bosonic re im : List.NoDup re -> List.NoDup im -> get_backtransform_kernel re im "freq_bosonic" = Ok (List.map (fun v => List.map (fun x => @bose_kernel R v x) re) im).
Proof.
  move=> Hr Hi. rewrite /get_backtransform_kernel /=.
  have K : forall v x : R, ~ (v = 0 /\ x = 0) -> (x ^+ 2 / (x ^+ 2 + v ^+ 2))%:C = bose_kernel v x.
    move=> v x H. rewrite /bose_kernel. case: eqP => [E|] //. subst v. have Hx : x != 0 by apply/eqP => Ex; apply: H. by rewrite expr0n addr0 divff // expf_neq0.
  have [[E1 N1]|[i0 [E1 Z1]]] := where0_cases Hi.
    rewrite E1 /=. f_equal. apply: List.map_ext_in => v Hv. apply: List.map_ext => x. apply: K => -[E _]. apply: N1. by rewrite -E.
  have [[E2 N2]|[j0 [E2 Z2]]] := where0_cases Hr.
    rewrite E1 E2 /=. f_equal. apply: List.map_ext => v. apply: List.map_ext_in => x Hx. apply: K => -[_ E]. apply: N2. by rewrite -E.
  rewrite E1 E2 /= /assign_pairs /=. f_equal.
  apply: zget_ext; first by rewrite !zlen_map zlen_enumerate zlen_map. move=> i. rewrite zlen_map zlen_enumerate zlen_map => Hi'.
  rewrite !zget_map zget_enumerate zget_map. have [v Ev] := @zget_in_range _ im i Hi'. rewrite Ev /=. f_equal.
  apply: zget_ext; first by rewrite !zlen_map zlen_enumerate zlen_map. move=> j. rewrite zlen_map zlen_enumerate zlen_map => Hj.
  rewrite !zget_map zget_enumerate zget_map. have [x Ex] := @zget_in_range _ re j Hj. rewrite Ex /=. f_equal. rewrite orbF.
  case: Z.eqb_spec => [Ei|Ni] /=; last by apply: K => -[Ev0 _]; apply: Ni; subst v; exact: (zget_inj Hi Z1 Ev).
  case: Z.eqb_spec => [Ej|Nj] /=; last by apply: K => -[_ Ex0]; apply: Nj; subst x; exact: (zget_inj Hr Z2 Ex).
  subst i0. rewrite Z1 in Ev. case: Ev => <-. by rewrite /bose_kernel eqxx.
Qed.
Lemma kernel_unknown re im kind : kind <> "freq_fermionic"%string -> kind <> "freq_bosonic"%string -> @get_backtransform_kernel R re im kind = Raise NotImplementedError.
Proof. move=> H1 H2. rewrite /get_backtransform_kernel. case: String.eqb_spec => // _. by case: String.eqb_spec. Qed.

(** transform on functions *)
Lemma transform_fun (K : R -> R -> C) kind (A x : Z -> R) n im mat :
  get_backtransform_kernel (List.map x (arange 0 n)) im kind = Ok (List.map (fun v => List.map (fun y => K v y) (List.map x (arange 0 n))) im) ->
  (match mat with inl m => List.map (fun y => - y / cpi) m | inr m => List.map (fun z : C => - complex.Im z / cpi) m end) = List.map A (arange 0 n) ->
  transform_from_real_to_imag cpi mat (List.map x (arange 0 n)) im kind = Ok (List.map (spectral_integral K x A n) im).
Proof.
  move=> HK HS. rewrite /transform_from_real_to_imag HS HK. cbn [bind]. rewrite !zlen_map Z.eqb_refl List.map_map. f_equal. apply: List.map_ext => v.
  rewrite (List.map_map x). by rewrite map2_same ctrapz_trapezoid.
Qed.
End Kernel.

Section Integrals.
Variable R : rcfType.
Notation C := R[i].
Lemma Re_add (x y : C) : complex.Re (x + y) = complex.Re x + complex.Re y. Proof. by case: x; case: y. Qed.
Lemma Re_sum (T : Type) (l : list T) (P : pred T) (f : T -> C) : complex.Re (\sum_(x <- l | P x) f x) = \sum_(x <- l | P x) complex.Re (f x).
Proof. elim: l => [|x l IH]; first by rewrite !big_nil. rewrite !big_cons. case: (P x) => //. by rewrite Re_add IH. Qed.
Lemma Re_rmul (r : R) (z : C) : complex.Re (r%:C * z) = r * complex.Re z. Proof. by case: z => x y /=; rewrite mul0r subr0. Qed.
Lemma Re_div2 (z : C) : complex.Re (z / 2%:R) = complex.Re z / 2%:R.
Proof. have -> : z / 2%:R = (2%:R^-1)%:C * z by rewrite mulrC fmorphV /= rmorph_nat. by rewrite Re_rmul mulrC. Qed.
Lemma Im_trap x (f : Z -> C) n : complex.Im (trapezoid x f 0 (n - 1)) = norm_integral x (fun j => complex.Im (f j)) n.
Proof. rewrite /trapezoid Im_sum. apply: eq_bigr => j _. by rewrite Im_div2 Im_rmul Im_add. Qed.
Lemma Re_trap x (f : Z -> C) n : complex.Re (trapezoid x f 0 (n - 1)) = norm_integral x (fun j => complex.Re (f j)) n.
Proof. rewrite /trapezoid Re_sum. apply: eq_bigr => j _. by rewrite Re_div2 Re_rmul Re_add. Qed.
Lemma ni_ext (x : Z -> R) f g n : (forall j, (0 <= j < n)%Z -> f j = g j) -> norm_integral x f n = norm_integral x g n.
Proof. move=> H. rewrite /norm_integral. apply: eq_big_InR => j /In_arange Hj. rewrite !H //; lia. Qed.
Lemma ni_scale (x : Z -> R) f c n : norm_integral x (fun j => c * f j) n = c * norm_integral x f n.
Proof. rewrite /norm_integral big_distrr /=. apply: eq_bigr => j _. rewrite -mulrDr. by rewrite mulrCA !mulrA. Qed.
Lemma ni_opp (x : Z -> R) f n : norm_integral x (fun j => - f j) n = - norm_integral x f n.
Proof. rewrite -[RHS]mulN1r -ni_scale. apply: ni_ext => j _. by rewrite mulN1r. Qed.
Lemma le_big_In (T : Type) (l : list T) (f g : T -> R) : (forall x, List.In x l -> f x <= g x) -> \sum_(x <- l) f x <= \sum_(x <- l) g x.
Proof. elim: l => [|x l IH] H; first by rewrite !big_nil. rewrite !big_cons. apply: ler_add; first by apply: H; left. apply: IH => y Hy. apply: H. by right. Qed.
Lemma ni_le (x : Z -> R) f g n : increasing x n -> (forall j, (0 <= j < n)%Z -> f j <= g j) -> norm_integral x f n <= norm_integral x g n.
Proof.
  move=> Hx H. rewrite /norm_integral. apply: le_big_In => j /In_arange Hj. rewrite -!mulrA. apply: ler_wpmul2l; first by rewrite subr_ge0; apply: ltW; apply: Hx; lia.
  rewrite ler_pmul2r ?invr_gt0 ?ltr0n //. apply: ler_add; apply: H; lia.
Qed.
Lemma ni_ge0 (x : Z -> R) f n : increasing x n -> (forall j, (0 <= j < n)%Z -> 0 <= f j) -> 0 <= norm_integral x f n.
Proof. move=> Hx H. apply: (@le_trans _ _ (norm_integral x (fun _ => 0) n)); last exact: ni_le. by rewrite /norm_integral big1 // => j _; rewrite addr0 mulr0 mul0r. Qed.
Lemma sum_snoc (h : Z -> R) l x : \sum_(j <- l ++ [:: x]) h j = \sum_(j <- l) h j + h x. Proof. by rewrite big_cat big_cons big_nil /= addr0. Qed.
Lemma sum_rev (h : Z -> R) (n : nat) : \sum_(j <- arange 0 (Z.of_nat n)) h j = \sum_(j <- arange 0 (Z.of_nat n)) h (Z.of_nat n - 1 - j)%Z.
Proof.
  elim: n h => [|n IH] h; first by rewrite !big_nil.
  have S1 : Z.of_nat n.+1 = (Z.of_nat n + 1)%Z by lia.
  have E1 : arange 0 (Z.of_nat n.+1) = 0%Z :: List.map (Z.add 1) (arange 0 (Z.of_nat n)) by rewrite (arange_map_add 0 (Z.of_nat n) 1) S1 (@arange_cons 0 (Z.of_nat n + 1)) ?[(1 + _)%Z]Z.add_comm //; lia.
  have E2 : arange 0 (Z.of_nat n.+1) = arange 0 (Z.of_nat n) ++ [:: Z.of_nat n].
    rewrite -(@arange_app 0 (Z.of_nat n) (Z.of_nat n.+1)); try lia. congr (_ ++ _). rewrite arange_cons ?arange_empty //; lia.
  rewrite [in LHS]E1 big_cons big_map [in RHS]E2 sum_snoc S1 addrC. congr (_ + _); last by congr (h _); lia.
  rewrite IH. apply: eq_bigr => j _. congr (h _). lia.
Qed.
Lemma ni_rev (x : Z -> R) f n : (1 <= n)%Z -> norm_integral x f n = norm_integral (fun j => - x (n - 1 - j)%Z) (fun j => f (n - 1 - j)%Z) n.
Proof.
  move=> Hn. rewrite /norm_integral. have [m Em] : exists m : nat, (n - 1 = Z.of_nat m)%Z by exists (Z.to_nat (n - 1)); lia.
  rewrite Em sum_rev. apply: eq_bigr => j _. have -> : (Z.of_nat m - 1 - j + 1 = Z.of_nat m - j)%Z by lia. have -> : (Z.of_nat m - (j + 1) = Z.of_nat m - 1 - j)%Z by lia.
  by rewrite opprK [X in _ * X / _]addrC [- _ + _]addrC.
Qed.
Lemma ni_odd (x : Z -> R) f n : (1 <= n)%Z -> (forall j, (0 <= j < n)%Z -> x (n - 1 - j)%Z = - x j) -> (forall j, (0 <= j < n)%Z -> f (n - 1 - j)%Z = - f j) -> norm_integral x f n = 0.
Proof.
  move=> Hn Hx Hf. have E : norm_integral x f n = - norm_integral x f n.
    rewrite {1}ni_rev // -ni_opp. rewrite (@ni_ext _ (fun j => f (n - 1 - j)%Z) (fun j => - f j)) //. rewrite /norm_integral. apply: eq_big_InR => j /In_arange Hj. rewrite !Hx; try lia. by rewrite !opprK.
  move/eqP: E. by rewrite -subr_eq0 opprK -mulr2n mulrn_eq0 /= => /eqP.
Qed.
(** the kernels *)
Lemma fk_parts (v x : R) : fermi_kernel v x = (- x / (x ^+ 2 + v ^+ 2))%:C - 'i * (v / (x ^+ 2 + v ^+ 2))%:C.
Proof.
  rewrite /fermi_kernel. apply/eqP. rewrite eq_complex /= !(mul0r, mul1r, mulr0, subr0, sub0r, addr0, add0r, oppr0). rewrite sqrrN. by rewrite !mulNr !eqxx.
Qed.
Lemma fk_Im (v x : R) : complex.Im (fermi_kernel v x) = - (v / (x ^+ 2 + v ^+ 2)).
Proof. rewrite fk_parts /=. by rewrite !(mul0r, mul1r, mulr0, subr0, sub0r, addr0, add0r). Qed.
Lemma fk_Re (v x : R) : complex.Re (fermi_kernel v x) = - x / (x ^+ 2 + v ^+ 2).
Proof. rewrite fk_parts /=. by rewrite !(mul0r, mul1r, mulr0, subr0, sub0r, addr0, add0r, oppr0). Qed.
Variables (x A : Z -> R) (n : Z).
Lemma Im_mulr (z : C) (a : R) : complex.Im (z * a%:C) = complex.Im z * a. Proof. by rewrite mulrC Im_rmul mulrC. Qed.
Lemma Re_mulr (z : C) (a : R) : complex.Re (z * a%:C) = complex.Re z * a. Proof. by rewrite mulrC Re_rmul mulrC. Qed.
Lemma si_Im K v : complex.Im (spectral_integral K x A n v) = norm_integral x (fun j => complex.Im (K v (x j)) * A j) n.
Proof. rewrite /spectral_integral Im_trap. apply: ni_ext => j _. exact: Im_mulr. Qed.
Lemma si_Re K v : complex.Re (spectral_integral K x A n v) = norm_integral x (fun j => complex.Re (K v (x j)) * A j) n.
Proof. rewrite /spectral_integral Re_trap. apply: ni_ext => j _. exact: Re_mulr. Qed.
Lemma Ceq (z w : C) : complex.Re z = complex.Re w -> complex.Im z = complex.Im w -> z = w. Proof. by case: z; case: w => /= a b c d -> ->. Qed.
Lemma fermi_conj v : spectral_integral (@fermi_kernel R) x A n (- v) = conjc (spectral_integral (@fermi_kernel R) x A n v).
Proof.
  apply: Ceq.
  - rewrite si_Re. have -> : forall z : C, complex.Re (conjc z) = complex.Re z by case. rewrite si_Re. apply: ni_ext => j _. by rewrite !fk_Re sqrrN.
  - rewrite si_Im OpticsReal2P.Im_conj si_Im -ni_opp. apply: ni_ext => j _. by rewrite !fk_Im sqrrN !mulNr.
Qed.
Lemma fermi_bounds v B : increasing x n -> (forall j, (0 <= j < n)%Z -> 0 <= A j) -> (forall j, (0 <= j < n)%Z -> `|x j| <= B) -> 0 < v ->
  v / (B ^+ 2 + v ^+ 2) * norm_integral x A n <= - complex.Im (spectral_integral (@fermi_kernel R) x A n v) /\
  - complex.Im (spectral_integral (@fermi_kernel R) x A n v) <= norm_integral x A n / v /\
  `|complex.Re (spectral_integral (@fermi_kernel R) x A n v)| <= B / v ^+ 2 * norm_integral x A n.
Proof.
  move=> Hx HA HB Hv. have v2 : 0 < v ^+ 2 by rewrite exprn_gt0.
  have D : forall y : R, 0 < y ^+ 2 + v ^+ 2 by move=> y; rewrite ltr_paddl // sqr_ge0.
  have xB : forall j, (0 <= j < n)%Z -> x j ^+ 2 <= B ^+ 2 by move=> j Hj; rewrite -real_normK ?num_real // ler_expn2r ?nnegrE ?normr_ge0 ?HB // (le_trans _ (HB j Hj)) ?normr_ge0.
  rewrite si_Im si_Re -ni_opp. split; [|split].
  - rewrite -ni_scale. apply: ni_le => // j Hj. rewrite fk_Im mulNr opprK. apply: ler_wpmul2r; first exact: HA. rewrite ler_pmul2l // lef_pinv ?posrE ?D // ler_add2r. exact: xB.
  - rewrite mulrC -ni_scale. apply: ni_le => // j Hj. rewrite fk_Im mulNr opprK. apply: ler_wpmul2r; first exact: HA. rewrite ler_pdivr_mulr ?D // mulrDr ler_paddl //; first by rewrite mulr_ge0 ?sqr_ge0 // invr_ge0 ltW.
    by rewrite expr2 mulrA mulVf ?mul1r // lt0r_neq0.
  - have bd : forall j, (0 <= j < n)%Z -> `|complex.Re (fermi_kernel v (x j)) * A j| <= B / v ^+ 2 * A j.
      move=> j Hj. rewrite normrM [`|A j|]ger0_norm ?HA //. apply: ler_wpmul2r; first exact: HA. rewrite fk_Re normrM normrN normrV ?unitfE ?lt0r_neq0 ?D // [`|_ + _|]gtr0_norm ?D //.
      apply: ler_pmul; rewrite ?normr_ge0 ?invr_ge0 ?HB //; first by rewrite ltW ?D. rewrite lef_pinv ?posrE ?D //. by rewrite ler_addr sqr_ge0.
    rewrite ler_norml. apply/andP. split.
    + rewrite -ni_scale -ni_opp. apply: ni_le => // j Hj. have := bd j Hj. by rewrite ler_norml => /andP [].
    + rewrite -ni_scale. apply: ni_le => // j Hj. have := bd j Hj. by rewrite ler_norml => /andP [].
Qed.
Lemma fermi_ph v : (1 <= n)%Z -> (forall j, (0 <= j < n)%Z -> x (n - 1 - j)%Z = - x j) -> (forall j, (0 <= j < n)%Z -> A (n - 1 - j)%Z = A j) ->
  complex.Re (spectral_integral (@fermi_kernel R) x A n v) = 0.
Proof. move=> Hn Hx HA. rewrite si_Re. apply: ni_odd => // j Hj. by rewrite Hx // HA // !fk_Re sqrrN opprK !mulNr opprK. Qed.
(** bosonic *)
Lemma bk_real v y : bose_kernel v y = (complex.Re (bose_kernel v y))%:C :> C.
Proof. rewrite /bose_kernel. by case: ifP. Qed.
Lemma bose_real v : complex.Im (spectral_integral (@bose_kernel R) x A n v) = 0.
Proof. rewrite si_Im (@ni_ext _ _ (fun j => 0 * A j)) ?ni_scale ?mul0r // => j _. by rewrite bk_real /= !mul0r. Qed.
Lemma bose_static : spectral_integral (@bose_kernel R) x A n 0 = (norm_integral x A n)%:C.
Proof. apply: Ceq; last exact: bose_real. rewrite si_Re /=. apply: ni_ext => j _. by rewrite /bose_kernel eqxx /= mul1r. Qed.
Lemma bose_even v : spectral_integral (@bose_kernel R) x A n (- v) = spectral_integral (@bose_kernel R) x A n v.
Proof. rewrite /spectral_integral. apply: trapezoid_ext => // j _. by rewrite /bose_kernel oppr_eq0 sqrrN. Qed.
Lemma bk_mono (u v y : R) : `|u| <= `|v| -> complex.Re (bose_kernel v y) <= complex.Re (bose_kernel u y).
Proof.
  move=> H. rewrite /bose_kernel. have H1 : forall u, u != 0 -> y ^+ 2 / (y ^+ 2 + u ^+ 2) <= 1.
    move=> w Hw. have : 0 < y ^+ 2 + w ^+ 2 by rewrite ltr_paddl ?sqr_ge0 // lt_def sqr_ge0 sqrf_eq0 Hw. move=> D. by rewrite ler_pdivr_mulr // mul1r ler_addl sqr_ge0.
  case: (altP (v =P 0)) => [E|Nv].
    subst v. move: H. rewrite normr0 normr_le0 => ->. by [].
  case: (altP (u =P 0)) => [E|Nu] /=; first exact: H1.
  have D : forall w : R, w != 0 -> 0 < y ^+ 2 + w ^+ 2 by move=> w Hw; rewrite ltr_paddl ?sqr_ge0 // lt_def sqr_ge0 sqrf_eq0 Hw.
  apply: ler_wpmul2l; first exact: sqr_ge0. rewrite lef_pinv ?posrE ?D // ler_add2l. by rewrite -(real_normK (num_real u)) -(real_normK (num_real v)) ler_expn2r ?nnegrE ?normr_ge0.
Qed.
Lemma bk_ge0 (v y : R) : 0 <= complex.Re (bose_kernel v y).
Proof. rewrite /bose_kernel. case: ifP => _ /=; first exact: ler01. by rewrite mulr_ge0 ?sqr_ge0 // invr_ge0 addr_ge0 ?sqr_ge0. Qed.
Lemma bose_mono u v : increasing x n -> (forall j, (0 <= j < n)%Z -> 0 <= A j) -> `|u| <= `|v| ->
  0 <= complex.Re (spectral_integral (@bose_kernel R) x A n v) /\ complex.Re (spectral_integral (@bose_kernel R) x A n v) <= complex.Re (spectral_integral (@bose_kernel R) x A n u).
Proof.
  move=> Hx HA H. rewrite !si_Re. split.
  - apply: ni_ge0 => // j Hj. by rewrite mulr_ge0 ?bk_ge0 ?HA.
  - apply: ni_le => // j Hj. apply: ler_wpmul2r; [exact: HA|exact: bk_mono].
Qed.
End Integrals.
