(** Lemmas about the real-frequency optical conductivity. *)
From mathcomp Require Import all_ssreflect all_algebra.
From mathcomp.real_closed Require Import complex.
From Coq Require Import ZArith Lia.
From Verif Require Import Base.PyBase Base.PyFacts Base.Arr Model.TwoPoint Model.Bubble Model.OpticsReal Spec.OpticsRealSpec.
Import Order.TTheory GRing.Theory Num.Theory.
Set Implicit Arguments. Unset Strict Implicit. Unset Printing Implicit Defensive.
Local Open Scope ring_scope.
Local Open Scope complex_scope.

Section Zr.
Variable R : rcfType.
Notation zr := (@zr R).
Lemma zr_nat n : (0 <= n)%Z -> zr n = (Z.to_nat n)%:R. Proof. by rewrite /OpticsRealSpec.zr => /Z.leb_le ->. Qed.
Lemma zrN n : zr (- n) = - zr n.
Proof.
  rewrite /OpticsRealSpec.zr. case: n => [|p|p] /=; rewrite ?oppr0 ?opprK //.
Qed.
Lemma zrS n : (0 <= n)%Z -> zr (n + 1) = zr n + 1.
Proof. move=> H. rewrite !zr_nat; try lia. have -> : Z.to_nat (n + 1) = (Z.to_nat n).+1 by lia. by rewrite mulrSr. Qed.
Lemma zrS' n : zr (n + 1) = zr n + 1.
Proof.
  case: (Z_lt_le_dec n 0) => H; last exact: zrS. have S := @zrS (- n - 1)%Z ltac:(lia).
  have -> : (n + 1 = - (- n - 1))%Z by lia. have E : (n = - (- n - 1 + 1))%Z by lia. have -> : zr n = - zr (- n - 1 + 1) by rewrite -zrN -E.
  by rewrite S zrN opprD addrNK.
Qed.
Lemma zr0 : zr 0 = 0. Proof. by []. Qed.
Lemma zr1 : zr 1 = 1. Proof. by []. Qed.
Lemma zrD a b : zr (a + b) = zr a + zr b.
Proof.
  pattern b. apply Z.peano_ind => [|x IH|x IH].
  - by rewrite Z.add_0_r zr0 addr0.
  - have -> : (a + Z.succ x = a + x + 1)%Z by lia. rewrite zrS' IH -addrA. congr (_ + _). by rewrite -zrS'.
  - have := zrS' (a + Z.pred x). have -> : (a + Z.pred x + 1 = a + x)%Z by lia. rewrite IH => E.
    have := zrS' (Z.pred x). have -> : (Z.pred x + 1 = x)%Z by lia. move=> E2. rewrite E2 addrA in E. exact: (esym (addIr _ E)).
Qed.
Lemma zrB a b : zr (a - b) = zr a - zr b. Proof. by rewrite -[(a - b)%Z]/(a + - b)%Z zrD zrN. Qed.
Lemma zr_ge0 n : (0 <= n)%Z -> 0 <= zr n. Proof. move=> H. by rewrite zr_nat // ler0n. Qed.
Lemma zr_gt0 n : (0 < n)%Z -> 0 < zr n. Proof. move=> H. rewrite zr_nat; last lia. rewrite ltr0n. apply/ssrnat.ltP. lia. Qed.
Lemma zr_le a b : (a <= b)%Z -> zr a <= zr b. Proof. move=> H. rewrite -subr_ge0 -zrB. apply: zr_ge0. lia. Qed.
Lemma zr_lt a b : (a < b)%Z -> zr a < zr b. Proof. move=> H. rewrite -subr_gt0 -zrB. apply: zr_gt0. lia. Qed.
Lemma zr_abs n : `|zr n| = zr (Z.abs n).
Proof. case: (Z_le_gt_dec 0 n) => H; first by rewrite Z.abs_eq // ger0_norm // zr_ge0. rewrite Z.abs_neq; last lia. rewrite zrN ltr0_norm // -[X in _ < X]zr0. apply: zr_lt. lia. Qed.
End Zr.

Section Argmin.
Variable R : rcfType.
Variable f : Z -> R.
Lemma argminr_from_spec a b best ib : (a <= b)%Z -> (ib < a)%Z -> best = f ib -> 
  let r := argminr_from best ib a (List.map f (arange a b)) in
  (r = ib \/ (a <= r < b)%Z) /\ (forall j, j = ib \/ (a <= j < b)%Z -> f r <= f j) /\ (forall j, (j = ib \/ (a <= j)%Z) -> (j < r)%Z -> f r < f j).
Proof.
  move=> Hab. remember (Z.to_nat (b - a)) as n eqn:En. elim: n a Hab En best ib => [|n IH] a Hab En best ib Hib Hb /=.
    have -> : b = a by lia. rewrite arange_empty; last lia. rewrite /=. split; first by left. split; first by move=> j [->|]; [|lia]. move=> j [->|]; lia.
  rewrite (@arange_cons a b); last lia. rewrite /=. case: ltP => Hlt.
  - have [||H1 [H2 H3]] := IH (a + 1)%Z ltac:(lia) ltac:(lia) (f a) a; [lia|by []|]. set r := argminr_from _ _ _ _ in H1 H2 H3 *.
    have Hra : f r <= f a by apply: H2; left. split; first by right; lia. split.
    + move=> j [->|Hj]; first by rewrite -Hb; apply: (le_trans Hra); exact: ltW. case: (Z.eq_dec j a) => [-> //|Hj']. apply: (H2 j). right. lia.
    + move=> j [->|Hj] Hlr; first by rewrite -Hb; exact: (le_lt_trans Hra). case: (Z.eq_dec j a) => [Ej|Hj']; [|apply: (H3 j) => //; right; lia]. apply: (H3 j) => //. by left.
  - have [||H1 [H2 H3]] := IH (a + 1)%Z ltac:(lia) ltac:(lia) best ib; [lia|by []|]. set r := argminr_from _ _ _ _ in H1 H2 H3 *.
    have Hra : f r <= f ib by apply: H2; left. rewrite Hb in Hlt. split; first by case: H1 => H1; [left|right; lia]. split.
    + move=> j [->//|Hj]. case: (Z.eq_dec j a) => [->|Hj']; first exact: le_trans Hlt. apply: (H2 j). right. lia.
    + move=> j [->|Hj] Hlr; first by apply: (H3 ib) => //; left. case: (Z.eq_dec j a) => [Ej|Hj']; last by apply: (H3 j) => //; right; lia.
      case: H1 => H1; first lia. have Hi : f r < f ib by apply: (H3 ib); [left|lia]. rewrite Ej. exact: (lt_le_trans Hi).
Qed.
Lemma argminr_unique L r : (0 <= r < L)%Z -> (forall j, (0 <= j < r)%Z -> f r < f j) -> (forall j, (r <= j < L)%Z -> f r <= f j) -> argminr (List.map f (arange 0 L)) = Ok r.
Proof.
  move=> Hr H1 H2. rewrite (@arange_cons 0 L); last lia. rewrite /=. have := @argminr_from_spec 1 L (f 0) 0 ltac:(lia) ltac:(lia) erefl.
  set s := argminr_from _ _ _ _. move=> [A1 [A2 A3]]. f_equal. case: (Z_lt_ge_dec s r) => Hs.
  - have := H1 s ltac:(lia). rewrite ltNge A2 //. lia.
  - case: (Z_lt_ge_dec r s) => Hs'; last lia. have := A3 r ltac:(lia) Hs'. by rewrite ltNge H2 //; lia.
Qed.
Lemma maxr_ge (l : list R) m : maxr l = Ok m -> forall x, List.In x l -> x <= m.
Proof.
  case: l => [//|x0 l] /= [<-]. move: x0. elim: l => [|y l IH] x0 x /=; first by move=> [->|//].
  case: (ltP x0 y) => H; move=> [E|[E|E]].
  - subst x0. apply: (le_trans (ltW H)). apply: IH. by left.
  - apply: IH. by left.
  - apply: IH. by right.
  - apply: IH. by left.
  - subst y. apply: (le_trans H). apply: IH. by left.
  - apply: IH. by right.
Qed.
Lemma maxr_ok (l : list R) : l <> [::] -> exists m, maxr l = Ok m. Proof. case: l => [//|x l] _. by eexists. Qed.
End Argmin.

Section Trapz.
Variable R : rcfType.
Notation C := R[i].
Lemma eq_big_In (T : Type) (l : list T) (f g : T -> C) : (forall x, List.In x l -> f x = g x) -> \sum_(x <- l) f x = \sum_(x <- l) g x.
Proof. elim: l => [|x l IH] H; first by rewrite !big_nil. rewrite !big_cons H; last by left. rewrite IH // => y Hy. apply: H. by right. Qed.
Lemma ctrapz_trapezoid (x : Z -> R) (f : Z -> C) a b : ctrapz (List.map f (arange a b)) (List.map x (arange a b)) = trapezoid x f a (b - 1).
Proof.
  case: (Z_le_gt_dec b a) => H; first by rewrite arange_empty ?/trapezoid ?arange_empty ?big_nil //; lia.
  remember (Z.to_nat (b - a - 1)) as n eqn:En. elim: n a H En => [|n IH] a H En.
  - have -> : b = (a + 1)%Z by lia. rewrite (@arange_cons a) ?(@arange_empty (a + 1)); try lia. rewrite /trapezoid arange_empty ?big_nil //. lia.
  - rewrite (@arange_cons a b) ?(@arange_cons (a + 1) b); try lia. rewrite [LHS]/=.
    have := IH (a + 1)%Z ltac:(lia) ltac:(lia). rewrite (@arange_cons (a + 1) b) /=; last lia. move=> ->. by rewrite /trapezoid (@arange_cons a (b - 1)) ?big_cons //; lia.
Qed.
Lemma trapezoid_shift (x : Z -> R) (f : Z -> C) a b s : trapezoid x f (a + s) (b + s) = trapezoid (fun j => x (j + s)%Z) (fun j => f (j + s)%Z) a b.
Proof.
  rewrite /trapezoid [(a + s)%Z]Z.add_comm [(b + s)%Z]Z.add_comm -arange_map_add big_map. apply: eq_bigr => j _. have -> : (s + j = j + s)%Z by lia. have -> : (j + s + 1 = j + 1 + s)%Z by lia. by [].
Qed.
Lemma trapezoid_ext (x y : Z -> R) (f g : Z -> C) a b : (forall j, (a <= j <= b)%Z -> x j = y j) -> (forall j, (a <= j <= b)%Z -> f j = g j) -> trapezoid x f a b = trapezoid y g a b.
Proof.
  move=> Hx Hf. rewrite /trapezoid. apply: eq_big_In => j /In_arange Hj. rewrite !Hx ?Hf //; lia.
Qed.
End Trapz.

Section Bubble.
Variable R : rcfType.
Notation C := R[i].
Variables nx ny nz : nat.
Notation K := (mesh nx ny nz).
Variables (rexp : R -> R) (cpi : R).
Lemma slice_map_arange A (f : Z -> A) L a b : (0 <= a)%Z -> (a <= b)%Z -> (b <= L)%Z -> slice (List.map f (arange 0 L)) a b = List.map f (arange a b).
Proof. move=> H1 H2 H3. by rewrite slice_map slice_arange. Qed.
Lemma map2_map A B D (h : A -> B -> D) (f : Z -> A) (g : Z -> B) l l' (s : Z) : l' = List.map (fun j => (j + s)%Z) l -> map2 h (List.map f l) (List.map g l') = List.map (fun j => h (f j) (g (j + s)%Z)) l.
Proof. move=> ->. elim: l => [|x l IH] //=. by rewrite IH. Qed.
Lemma map_arange_shift A (f : Z -> A) a b s : List.map f (arange (a + s) (b + s)) = List.map (fun j => f (j + s)%Z) (arange a b).
Proof.
  rewrite [(a + s)%Z]Z.add_comm [(b + s)%Z]Z.add_comm -arange_map_add List.map_map. apply: List.map_ext => j. by rewrite Z.add_comm.
Qed.
Lemma map2_same A B D (h : A -> B -> D) (f : Z -> A) (g : Z -> B) l : map2 h (List.map f l) (List.map g l) = List.map (fun j => h (f j) (g j)) l.
Proof. elim: l => [|x l IH] //=. by rewrite IH. Qed.
Lemma slice_len_in n a b : (0 <= a)%Z -> (a <= b)%Z -> (b <= n)%Z -> slice_len n a b = (b - a)%Z.
Proof. rewrite /slice_len /clampi. case: Z.ltb_spec => ?; case: Z.ltb_spec => ?; lia. Qed.
Lemma realf_i_ok (W : Z -> R) (Gg : K -> Z -> C) L gwk lv2 beta nl nu i : (forall k, gwk k = List.map (Gg k) (arange 0 L)) ->
  (Z.abs i <= nl)%Z -> (nl <= nu)%Z -> (nu + Z.abs i <= L)%Z ->
  chijj_realf_i rexp cpi (List.map W (arange 0 L)) gwk lv2 beta nl nu i =
  Ok (- 2%:R * ((\sum_(k : K) lv2 k * trapezoid W (fun j => (fermi rexp beta (W j) * spectral cpi (Gg k j))%:C * (Gg k (j + i)%Z + conjc (Gg k (j - i)%Z))) nl (nu - 1)) / #|{: K}|%:R)).
Proof.
  move=> Hg H1 H2 H3. rewrite /chijj_realf_i zlen_map zlen_arange !slice_len_in; try lia.
  have -> : ((nu + i - (nl + i) =? nu - i - (nl - i)) && (nu - nl =? nu + i - (nl + i)) = true)%Z by apply/andP; split; apply/Z.eqb_eq; lia.
  f_equal. congr (_ * (_ / _)). apply: eq_bigr => k _. congr (_ * _).
  rewrite Hg /awk. rewrite (@slice_map_arange _ W L nl nu); try lia. rewrite !(List.map_map (Gg k)) (List.map_map W). rewrite (@slice_map_arange _ (Gg k) L (nl + i) (nu + i)); try lia.
  rewrite (@slice_map_arange _ (fun x => - complex.Im (Gg k x) / cpi) L nl nu); try lia. rewrite (@slice_map_arange _ (fun x => conjc (Gg k x)) L (nl - i) (nu - i)); try lia.
  rewrite -[(nl - i)%Z]/(nl + - i)%Z -[(nu - i)%Z]/(nu + - i)%Z !map_arange_shift !map2_same ctrapz_trapezoid.
  by [].
Qed.
(** any grid of odd length whose point closest to zero is the middle one *)
Lemma realf_any_grid (W : Z -> R) (Gg : K -> Z -> C) M m gwk a b beta wmax : (forall k, gwk k = List.map (Gg k) (arange 0 (2 * M + 1))) ->
  (0 <= m <= M)%Z -> (exists j, (0 <= j <= 2 * M)%Z /\ wmax < W j) ->
  argminr (List.map (fun x => `|x|) (List.map W (arange 0 (2 * M + 1)))) = Ok M -> argminr (List.map (fun x => `|x - wmax|) (List.map W (arange 0 (2 * M + 1)))) = Ok (M + m)%Z ->
  vec_get_chijj_bubble_realf rexp cpi (List.map W (arange 0 (2 * M + 1))) gwk a b beta wmax =
  Ok (List.map (fun i => - 2%:R * ((\sum_(k : K) a k * b k * trapezoid W (fun j => (fermi rexp beta (W j) * spectral cpi (Gg k j))%:C * (Gg k (j + i)%Z + conjc (Gg k (j - i)%Z))) m (2 * M - m)) / #|{: K}|%:R)) (arange 1 m),
      List.map (fun i => W (M + i)%Z) (arange 1 m)).
Proof.
  move=> Hg Hm [j [Hj Hw]] E0 Em. rewrite /vec_get_chijj_bubble_realf.
  set w := List.map W (arange 0 (2 * M + 1)). have Lw : zlen w = (2 * M + 1)%Z by rewrite /w zlen_map zlen_arange; lia.
  have [mx Emx] : exists mx, maxr w = Ok mx. { apply: maxr_ok => Ew. move: Lw. rewrite Ew zlen_nil. lia. }
  rewrite Emx [bind _ _]/=. have Hin : List.In (W j) w by rewrite /w; apply List.in_map; apply In_arange; lia.
  rewrite (lt_le_trans Hw (maxr_ge Emx Hin)) E0 [bind _ _]/= Em. cbn [bind]. rewrite Lw.
  have -> : ((2 * M + 1) mod 2 = 1)%Z by rewrite Z.add_comm Z.mul_comm Z_mod_plus_full.
  have -> : (M - (2 * M + 1 - (M + m)) + 1 = m)%Z by lia. have -> : (M + (2 * M + 1 - (M + m)) = 2 * M + 1 - m)%Z by lia.
  have Es : slice w (M + 1) (M + m) = List.map (fun i => W (M + i)%Z) (arange 1 m) \/ m = 0%Z.
    case: (Z.eq_dec m 0) => Hm0; [by right|left]. rewrite /w slice_map_arange; try lia. rewrite [(M + 1)%Z]Z.add_comm [(M + m)%Z]Z.add_comm map_arange_shift. apply: List.map_ext => i. by rewrite Z.add_comm.
  case: Es => [Es|Em0]; last first.
    subst m. have -> : slice w (M + 1) (M + 0) = [::].
      have : zlen (slice w (M + 1) (M + 0)) = 0%Z by rewrite zlen_slice Lw /clampi; case: Z.ltb_spec => ?; case: Z.ltb_spec => ?; lia.
      case: (slice _ _ _) => [//|x l]. rewrite zlen_cons. have := zlen_nonneg l. lia.
    by rewrite arange_empty.
  rewrite Es.
  have Ee : enumerate (List.map (fun i => W (M + i)%Z) (arange 1 m)) = List.map (fun i => ((i - 1)%Z, W (M + i)%Z)) (arange 1 m).
    apply: zget_ext; first by rewrite zlen_enumerate !zlen_map.
    move=> i. rewrite zlen_enumerate zlen_map zlen_arange => Hi. rewrite zget_enumerate (zget_map (fun i => W (M + i)%Z)) (zget_map (fun i => ((i - 1)%Z, W (M + i)%Z))) zget_arange; last lia. cbn [option_map]. congr (Some (_, _)). lia.
  rewrite Ee. rewrite (@mapM_total _ _ _ (fun iw => - 2%:R * ((\sum_(k : K) a k * b k * trapezoid W (fun j => (fermi rexp beta (W j) * spectral cpi (Gg k j))%:C * (Gg k (j + (iw.1 + 1))%Z + conjc (Gg k (j - (iw.1 + 1))%Z))) m (2 * M - m)) / #|{: K}|%:R))); last first.
    move=> [i0 w0] Hin0. apply List.in_map_iff in Hin0. case: Hin0 => i [[E1 _] /In_arange Hi]. subst i0. rewrite [fst _]/=. rewrite /w (@realf_i_ok W Gg) //; try lia.
    have -> : (2 * M + 1 - m - 1 = 2 * M - m)%Z by lia. by [].
  cbn [bind]. f_equal. f_equal. rewrite List.map_map. apply: List.map_ext => i. rewrite [fst _]/=. have -> : (i - 1 + 1 = i)%Z by lia. by [].
Qed.
End Bubble.

Section Uniform.
Variable R : rcfType.
Notation C := R[i].
Notation zr := (@zr R).
Variables nx ny nz : nat.
Notation K := (mesh nx ny nz).
Variables (rexp : R -> R) (cpi : R).
Lemma argmin_nearest (c : Z -> R) (x : R) L r : (0 <= r < L)%Z ->
  (forall j, (0 <= j < r)%Z -> c j < c r /\ c r + c j < x + x) -> (forall j, (r < j < L)%Z -> c r < c j /\ x + x <= c r + c j) ->
  argminr (List.map (fun j => `|c j - x|) (arange 0 L)) = Ok r.
Proof.
  move=> Hr H1 H2. apply: argminr_unique => // j Hj.
  - have [A B] := H1 j Hj. apply: (@lt_le_trans _ _ (x - c j)); last by rewrite distrC ler_norm.
    rewrite ltr_norml opprB ltr_add2r A /= ltr_subl_addr addrAC ltr_subr_addr. by [].
  - case: (Z.eq_dec j r) => [-> //|Hjr]. have [A B] := H2 j ltac:(lia). apply: (@le_trans _ _ (c j - x)); last by rewrite ler_norm.
    rewrite ler_norml opprB ler_add2r (ltW A) andbT ler_subl_addr addrAC ler_subr_addr. by [].
Qed.
Lemma mulz_lt (d : R) a b : 0 < d -> (a < b)%Z -> zr a * d < zr b * d. Proof. move=> Hd H. by rewrite ltr_pmul2r // zr_lt. Qed.
Lemma mulz_le (d : R) a b : 0 < d -> (a <= b)%Z -> zr a * d <= zr b * d. Proof. move=> Hd H. by rewrite ler_pmul2r // zr_le. Qed.
Variables (d : R) (M : Z).
Hypotheses (Hd : 0 < d) (HM : (0 <= M)%Z).
Lemma uniform_zero : argminr (List.map (fun x => `|x|) (List.map (fun j => zr (j - M) * d) (arange 0 (2 * M + 1)))) = Ok M.
Proof.
  rewrite (List.map_map (fun j => zr (j - M) * d)). have -> : List.map (fun j => `|zr (j - M) * d|) (arange 0 (2 * M + 1)) = List.map (fun j => `|zr (j - M) * d - 0|) (arange 0 (2 * M + 1)) by apply: List.map_ext => j; rewrite subr0.
  apply: (argmin_nearest (c := fun j => zr (j - M) * d)); first lia.
  - move=> j Hj. split; first by apply: mulz_lt => //; lia. rewrite Z.sub_diag zr0 mul0r !add0r -[X in _ < X](mul0r d) -(zr0 R). apply: mulz_lt => //. lia.
  - move=> j Hj. split; first by apply: mulz_lt => //; lia. rewrite Z.sub_diag zr0 mul0r !add0r -[X in X <= _](mul0r d) -(zr0 R). apply: mulz_le => //. lia.
Qed.
Lemma uniform_max m wmax : (- M <= m <= M)%Z -> zr (2 * m - 1) * d < 2%:R * wmax -> 2%:R * wmax <= zr (2 * m + 1) * d ->
  argminr (List.map (fun x => `|x - wmax|) (List.map (fun j => zr (j - M) * d) (arange 0 (2 * M + 1)))) = Ok (M + m)%Z.
Proof.
  move=> Hm H1 H2. rewrite (List.map_map (fun j => zr (j - M) * d)). apply: (argmin_nearest (c := fun j => zr (j - M) * d)); first lia.
  - move=> j Hj. split; first by apply: mulz_lt => //; lia. rewrite -mulrDl -zrD -mulr2n -mulr_natl. apply: (le_lt_trans _ H1). apply: mulz_le => //. lia.
  - move=> j Hj. split; first by apply: mulz_lt => //; lia. rewrite -mulrDl -zrD -mulr2n -mulr_natl. apply: (le_trans H2). apply: mulz_le => //. lia.
Qed.
Lemma realf_uniform (G : K -> R -> C) m gwk a b beta wmax : (forall k, gwk k = List.map (fun j => G k (zr (j - M) * d)) (arange 0 (2 * M + 1))) ->
  (0 <= m <= M)%Z -> wmax < zr M * d -> zr (2 * m - 1) * d < 2%:R * wmax -> 2%:R * wmax <= zr (2 * m + 1) * d ->
  vec_get_chijj_bubble_realf rexp cpi (List.map (fun j => zr (j - M) * d) (arange 0 (2 * M + 1))) gwk a b beta wmax =
  Ok (List.map (fun i => chijj_real (fermi rexp beta) cpi d a b G (M - m) (zr i * d)) (arange 1 m), List.map (fun i => zr i * d) (arange 1 m)).
Proof.
  move=> Hg Hm Hw H1 H2. rewrite (@realf_any_grid _ _ _ _ rexp cpi (fun j => zr (j - M) * d) (fun k j => G k (zr (j - M) * d)) M m) //.
  - f_equal. f_equal; last by apply: List.map_ext => i; congr (zr _ * _); lia.
    apply: List.map_ext => i. rewrite /chijj_real. congr (_ * (_ / _)). apply: eq_bigr => k _. congr (_ * _).
    have -> : m = (- (M - m) + M)%Z by lia. have -> : (2 * M - (- (M - m) + M) = M - m + M)%Z by lia. have -> : (M - (- (M - m) + M) = M - m)%Z by lia. rewrite trapezoid_shift.
    apply: trapezoid_ext => j Hj; first by congr (zr _ * _); lia.
    have -> : (j + M - M = j)%Z by lia. have -> : (j + M + i - M = j + i)%Z by lia. have -> : (j + M - i - M = j - i)%Z by lia. by rewrite zrD zrB mulrDl mulrBl.
  - exists (2 * M)%Z. split; first lia. by have -> : (2 * M - M = M)%Z by lia.
  - exact: uniform_zero.
  - apply: uniform_max => //. lia.
Qed.
End Uniform.
