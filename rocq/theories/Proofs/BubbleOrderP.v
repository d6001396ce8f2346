(** The product of two Green functions differs from its fourth-order expansion by terms of fifth order. *)
From Coq Require Import Reals ZArith List Lia Lra Psatz.
From Coquelicot Require Import Complex.
From Verif Require Import Base.PyBase Base.PyFacts Spec.AsymptSpec Proofs.BubbleAsymptP Proofs.BubbleTailP.
Import ListNotations.
Local Open Scope R_scope.
Local Open Scope C_scope.
Local Arguments Cmod (_)%C_scope.

Definition pfun (x s1 : R) (a : C) : C := RtoC 1 - RtoC x * a + RtoC (x * x - s1) * (a * a).
(** 1/(1 + x a + s1 a^2 - d a) = pfun + O(A^3) when |d| <= c A^2 *)
Lemma h_order (x s1 c A : R) (a d : C) : (0 <= c)%R -> (Cmod a <= A)%R -> (A <= 1)%R -> (Cmod d <= c * A ^ 2)%R ->
  (A * (Rabs x + Rabs s1 + c) <= 1 / 2)%R ->
  let D := RtoC 1 + RtoC x * a + RtoC s1 * (a * a) - d * a in
  D <> RtoC 0 /\
  (Cmod (/ D - pfun x s1 a)%C <= 2 * (Rabs (x * x * x - 2 * x * s1) + Rabs (s1 * (x * x - s1)) + c * (1 + Rabs x + Rabs (x * x - s1))) * A ^ 3)%R.
Proof.
  intros Hc Ha HA1 Hd Hs D.
  assert (HA0 : (0 <= A)%R) by (eapply Rle_trans; [apply Cmod_ge_0|exact Ha]).
  assert (Pa := Cmod_ge_0 a). assert (Px := Rabs_pos x). assert (Ps := Rabs_pos s1). assert (Pd := Cmod_ge_0 d).
  assert (Pxs := Rabs_pos (x * x - s1)%R). assert (P1 := Rabs_pos (x * x * x - 2 * x * s1)%R). assert (P2 := Rabs_pos (s1 * (x * x - s1))%R).
  assert (HA2 : (A * A <= A)%R) by nra. assert (HA3 : (0 <= A * A * A)%R) by (apply Rmult_le_pos; [apply Rmult_le_pos|]; lra).
  assert (Haa : (Cmod a * Cmod a <= A * A)%R) by (apply Rmult_le_compat; lra).
  assert (Haa' : (Cmod a * Cmod a <= A)%R) by lra.
  assert (Haaa : (Cmod a * Cmod a * Cmod a <= A * A * A)%R) by (apply Rmult_le_compat; try lra; apply Rmult_le_pos; lra).
  assert (Hda : (Cmod d * Cmod a <= c * (A * A * A))%R).
  { replace (c * (A * A * A))%R with (c * A ^ 2 * A)%R by ring. apply Rmult_le_compat; lra. }
  assert (HcA : (c * (A * A * A) <= c * A)%R). { apply Rmult_le_compat_l; [exact Hc|]. apply Rle_trans with (A * A)%R; nra. }
  (* the small part *)
  set (e := RtoC x * a + RtoC s1 * (a * a) - d * a).
  assert (He : (Cmod e <= 1 / 2)%R).
  { unfold e, Cminus. eapply Rle_trans; [apply Cmod_triangle|]. rewrite Cmod_opp.
    eapply Rle_trans; [apply Rplus_le_compat_r; apply Cmod_triangle|]. rewrite !Cmod_mult, !Cmod_R.
    assert (Rabs x * Cmod a <= Rabs x * A)%R by (apply Rmult_le_compat_l; lra).
    assert (Rabs s1 * (Cmod a * Cmod a) <= Rabs s1 * A)%R by (apply Rmult_le_compat_l; lra). nra. }
  assert (HD : (1 / 2 <= Cmod D)%R).
  { assert (H := Cmod_triangle D (- e)). rewrite Cmod_opp in H. replace (D + - e) with (RtoC 1) in H by (unfold D, e; ring). rewrite Cmod_1 in H. lra. }
  assert (HD0 : D <> RtoC 0). { intros E. rewrite E, Cmod_0 in HD. lra. }
  split; [exact HD0|].
  set (r := RtoC (x * x * x - 2 * x * s1) * (a * a * a) + RtoC (s1 * (x * x - s1)) * (a * a * a * a) - d * a * pfun x s1 a).
  assert (E : / D - pfun x s1 a = / D * - r).
  { replace (- r) with (RtoC 1 - D * pfun x s1 a). - field. exact HD0.
    - unfold r, D, pfun. rewrite !RtoC_minus, !RtoC_mult, !RtoC_minus, !RtoC_mult. replace (RtoC 2) with (RtoC 1 + RtoC 1) by (rewrite <- RtoC_plus; f_equal; lra). ring. }
  rewrite E, Cmod_mult, Cmod_opp, Cmod_inv by exact HD0.
  assert (HI : (/ Cmod D <= 2)%R). { replace 2%R with (/ (1 / 2))%R by field. apply Rinv_le_contravar; lra. }
  assert (HI0 : (0 <= / Cmod D)%R). { left. apply Rinv_0_lt_compat. lra. }
  assert (Hp : (Cmod (pfun x s1 a) <= 1 + Rabs x + Rabs (x * x - s1))%R).
  { unfold pfun, Cminus. eapply Rle_trans; [apply Cmod_triangle|]. eapply Rle_trans; [apply Rplus_le_compat_r; apply Cmod_triangle|].
    rewrite Cmod_opp, !Cmod_mult, !Cmod_R, Rabs_R1.
    assert (Rabs x * Cmod a <= Rabs x * 1)%R by (apply Rmult_le_compat_l; lra).
    assert (Rabs (x * x - s1) * (Cmod a * Cmod a) <= Rabs (x * x - s1) * 1)%R by (apply Rmult_le_compat_l; lra). lra. }
  assert (Hr : (Cmod r <= (Rabs (x * x * x - 2 * x * s1) + Rabs (s1 * (x * x - s1)) + c * (1 + Rabs x + Rabs (x * x - s1))) * A ^ 3)%R).
  { unfold r, Cminus at 1. eapply Rle_trans; [apply Cmod_triangle|]. eapply Rle_trans; [apply Rplus_le_compat_r; apply Cmod_triangle|].
    rewrite Cmod_opp, !Cmod_mult, !Cmod_R. replace (A ^ 3)%R with (A * A * A)%R by ring.
    assert (Rabs (x * x * x - 2 * x * s1) * (Cmod a * Cmod a * Cmod a) <= Rabs (x * x * x - 2 * x * s1) * (A * A * A))%R by (apply Rmult_le_compat_l; lra).
    assert (Cmod a * Cmod a * Cmod a * Cmod a <= A * A * A * 1)%R by (apply Rmult_le_compat; try lra; repeat apply Rmult_le_pos; lra).
    assert (Rabs (s1 * (x * x - s1)) * (Cmod a * Cmod a * Cmod a * Cmod a) <= Rabs (s1 * (x * x - s1)) * (A * A * A))%R by (apply Rmult_le_compat_l; lra).
    assert (Cmod d * Cmod a * Cmod (pfun x s1 a) <= c * (A * A * A) * (1 + Rabs x + Rabs (x * x - s1)))%R.
    { apply Rmult_le_compat; try lra; [apply Rmult_le_pos; lra|apply Cmod_ge_0]. }
    nra. }
  rewrite Rmult_assoc. apply Rmult_le_compat; try lra. apply Cmod_ge_0.
Qed.
Lemma pfun_bound x s1 a (A : R) : (Cmod a <= A)%R -> (A <= 1)%R -> (Cmod (pfun x s1 a) <= 1 + Rabs x + Rabs (x * x - s1))%R.
Proof.
  intros Ha HA. assert (Pa := Cmod_ge_0 a). assert (Px := Rabs_pos x). assert (Pxs := Rabs_pos (x * x - s1)%R).
  unfold pfun, Cminus. eapply Rle_trans; [apply Cmod_triangle|]. eapply Rle_trans; [apply Rplus_le_compat_r; apply Cmod_triangle|].
  rewrite Cmod_opp, !Cmod_mult, !Cmod_R, Rabs_R1.
  assert (Cmod a * Cmod a <= 1 * 1)%R by (apply Rmult_le_compat; lra).
  assert (Rabs x * Cmod a <= Rabs x * 1)%R by (apply Rmult_le_compat_l; lra).
  assert (Rabs (x * x - s1) * (Cmod a * Cmod a) <= Rabs (x * x - s1) * 1)%R by (apply Rmult_le_compat_l; lra). lra.
Qed.
Definition q4 (x y s1 : R) (a b : C) : C :=
  a * b - RtoC x * (a * a * b) - RtoC y * (a * b * b)
  + RtoC (x * x - s1) * (a * a * a * b) + RtoC (y * y - s1) * (a * b * b * b) + RtoC (x * y) * (a * a * b * b).
Lemma prod_order (x y s1 K1 K2 A : R) (a b h1 h2 : C) : (0 <= K1)%R -> (0 <= K2)%R -> (Cmod a <= A)%R -> (Cmod b <= A)%R -> (A <= 1)%R ->
  (Cmod (h1 - pfun x s1 a)%C <= K1 * A ^ 3)%R -> (Cmod (h2 - pfun y s1 b)%C <= K2 * A ^ 3)%R ->
  (Cmod (a * h1 * (b * h2) - q4 x y s1 a b)%C <=
    (Rabs (x * (y * y - s1)) + Rabs (y * (x * x - s1)) + Rabs ((x * x - s1) * (y * y - s1))
     + K1 * (1 + Rabs y + Rabs (y * y - s1) + K2) + (1 + Rabs x + Rabs (x * x - s1)) * K2) * A ^ 5)%R.
Proof.
  intros HK1 HK2 Ha Hb HA H1 H2. assert (Pa := Cmod_ge_0 a). assert (Pb := Cmod_ge_0 b). assert (HA0 : (0 <= A)%R) by lra.
  assert (HA3 : (0 <= A ^ 3)%R) by (apply pow_le; lra). assert (HA31 : (A ^ 3 <= 1)%R) by (replace 1%R with (1 ^ 3)%R by ring; apply pow_incr; lra).
  assert (Q1 := pfun_bound x s1 a A Ha HA). assert (Q2 := pfun_bound y s1 b A Hb HA).
  set (p1 := pfun x s1 a) in *. set (p2 := pfun y s1 b) in *.
  assert (E : a * h1 * (b * h2) - q4 x y s1 a b =
    a * b * (((- (RtoC (x * (y * y - s1)) * (a * (b * b)))) + (- (RtoC (y * (x * x - s1)) * (a * (a * b)))) + RtoC ((x * x - s1) * (y * y - s1)) * (a * a * (b * b)))
      + ((h1 - p1) * (p2 + (h2 - p2)) + p1 * (h2 - p2)))).
  { unfold q4, p1, p2, pfun. rewrite !RtoC_mult, !RtoC_minus, !RtoC_mult. ring. }
  rewrite E, !Cmod_mult. replace (A ^ 5)%R with (A * A * A ^ 3)%R by ring.
  match goal with |- (_ * Cmod ?z <= ?K * _)%R => assert (HZ : (Cmod z <= K * A ^ 3)%R) end.
  2:{ match goal with |- (_ * Cmod ?z <= ?K * _)%R => apply Rle_trans with (A * A * (K * A ^ 3))%R; [|right; ring] end.
      apply Rmult_le_compat; [apply Rmult_le_pos; lra|apply Cmod_ge_0|apply Rmult_le_compat; lra|exact HZ]. }
  assert (Hab : (Cmod a * (Cmod b * Cmod b) <= A ^ 3)%R). { replace (A ^ 3)%R with (A * (A * A))%R by ring. repeat apply Rmult_le_compat; try lra. apply Rmult_le_pos; lra. }
  assert (Haab : (Cmod a * (Cmod a * Cmod b) <= A ^ 3)%R). { replace (A ^ 3)%R with (A * (A * A))%R by ring. repeat apply Rmult_le_compat; try lra. apply Rmult_le_pos; lra. }
  assert (Haabb : (Cmod a * Cmod a * (Cmod b * Cmod b) <= A ^ 3)%R).
  { replace (Cmod a * Cmod a * (Cmod b * Cmod b))%R with (Cmod a * (Cmod a * (Cmod b * Cmod b)))%R by ring. replace (A ^ 3)%R with (1 * A ^ 3)%R by ring.
    apply Rmult_le_compat; try lra. repeat apply Rmult_le_pos; lra. }
  eapply Rle_trans; [apply Cmod_triangle|]. eapply Rle_trans; [apply Rplus_le_compat; [|apply Cmod_triangle]|].
  { eapply Rle_trans; [apply Cmod_triangle|]. apply Rplus_le_compat_r. apply Cmod_triangle. }
  rewrite !Cmod_opp, !Cmod_mult, !Cmod_R.
  assert (R1 := Rmult_le_compat_l _ _ _ (Rabs_pos (x * (y * y - s1))) Hab).
  assert (R2 := Rmult_le_compat_l _ _ _ (Rabs_pos (y * (x * x - s1))) Haab).
  assert (R3 := Rmult_le_compat_l _ _ _ (Rabs_pos ((x * x - s1) * (y * y - s1))) Haabb).
  assert (Hh2 : (Cmod (p2 + (h2 - p2))%C <= 1 + Rabs y + Rabs (y * y - s1) + K2)%R).
  { eapply Rle_trans; [apply Cmod_triangle|]. assert (K2 * A ^ 3 <= K2 * 1)%R by (apply Rmult_le_compat_l; lra). lra. }
  assert (R4 : (Cmod (h1 - p1)%C * Cmod (p2 + (h2 - p2))%C <= K1 * A ^ 3 * (1 + Rabs y + Rabs (y * y - s1) + K2))%R).
  { apply Rmult_le_compat; try lra; apply Cmod_ge_0. }
  assert (R5 : (Cmod p1 * Cmod (h2 - p2)%C <= (1 + Rabs x + Rabs (x * x - s1)) * (K2 * A ^ 3))%R).
  { apply Rmult_le_compat; try lra; apply Cmod_ge_0. }
  lra.
Qed.

(** * Green functions *)
Section G.
Variables (beta mu s0 s1 : R) (sig : Z -> C).
Hypothesis Hb : (beta <> 0)%R.
Hypothesis Hsig : sig_tail beta s0 s1 sig.
Lemma inu_small s k : (2 * Z.abs s + 1 <= Z.abs k)%Z -> (1 <= Z.abs k)%Z -> (Cmod (/ inu beta (k + s))%C <= Rabs beta / PI / IZR (Z.abs k))%R.
Proof.
  intros Hk Hk1. assert (HP := PI_RGT_0). assert (Hbp : (0 < Rabs beta)%R) by now apply Rabs_pos_lt.
  rewrite Cmod_inv by now apply inu_neq0. rewrite Cmod_inu by exact Hb. rewrite <- abs_IZR.
  assert (Hn : (IZR (Z.abs k) <= IZR (Z.abs (2 * (k + s) + 1)))%R) by (apply IZR_le; lia).
  assert (Hp : (0 < IZR (Z.abs k))%R) by (apply (IZR_lt 0); lia).
  replace (Rabs beta / PI / IZR (Z.abs k))%R with (/ (PI / Rabs beta * IZR (Z.abs k)))%R by (field; repeat split; lra).
  apply Rinv_le_contravar.
  - apply Rmult_lt_0_compat; [|exact Hp]. apply Rdiv_lt_0_compat; lra.
  - apply Rmult_le_compat_l; [|exact Hn]. left. apply Rdiv_lt_0_compat; lra.
Qed.
Lemma green_h e s : exists K n0, (0 <= K)%R /\ (0 <= n0)%Z /\ forall k (A : R), (n0 <= Z.abs k)%Z -> A = (Rabs beta / PI / IZR (Z.abs k))%R ->
  exists h, green beta mu e sig (k + s) = / inu beta (k + s) * h /\ (Cmod (/ inu beta (k + s))%C <= A)%R /\ (A <= 1)%R /\
    (Cmod (h - pfun (mu - e - s0) s1 (/ inu beta (k + s)))%C <= K * A ^ 3)%R.
Proof.
  destruct Hsig as [c0 [n1 Hc0]].
  set (c := Rabs c0). assert (Hc : (0 <= c)%R) by apply Rabs_pos.
  set (x := (mu - e - s0)%R). set (B := (Rabs beta / PI)%R). assert (HP := PI_RGT_0).
  assert (HB : (0 < B)%R). { apply Rdiv_lt_0_compat; [now apply Rabs_pos_lt|exact HP]. }
  set (L := (1 + 2 * (Rabs x + Rabs s1 + c))%R). assert (HL : (1 <= L)%R). { unfold L. pose proof (Rabs_pos x). pose proof (Rabs_pos s1). lra. }
  exists (2 * (Rabs (x * x * x - 2 * x * s1) + Rabs (s1 * (x * x - s1)) + c * (1 + Rabs x + Rabs (x * x - s1))))%R.
  exists (Z.max (2 * Z.abs s + 1) (Z.max (Z.abs n1 + Z.abs s) (up (B * L)))). split; [|split; [lia|]].
  { pose proof (Rabs_pos (x * x * x - 2 * x * s1)). pose proof (Rabs_pos (s1 * (x * x - s1))). pose proof (Rabs_pos x). pose proof (Rabs_pos (x * x - s1)).
    assert (0 <= c * (1 + Rabs x + Rabs (x * x - s1)))%R by (apply Rmult_le_pos; lra). lra. }
  intros k A Hk HA. assert (Hp : (0 < IZR (Z.abs k))%R) by (apply (IZR_lt 0); lia).
  assert (Hup : (B * L < IZR (Z.abs k))%R). { apply Rlt_le_trans with (IZR (up (B * L))); [apply archimed|apply IZR_le; lia]. }
  assert (Hs := inu_small s k ltac:(lia) ltac:(lia)). fold B in HA, Hs. rewrite <- HA in Hs.
  assert (HAp : (0 <= A)%R) by (eapply Rle_trans; [apply Cmod_ge_0|exact Hs]).
  assert (HAL : (A * L <= 1)%R).
  { rewrite HA. replace (B / IZR (Z.abs k) * L)%R with (B * L * / IZR (Z.abs k))%R by (field; lra).
    apply Rmult_le_reg_r with (IZR (Z.abs k)); [exact Hp|]. rewrite Rmult_assoc, Rinv_l by lra. lra. }
  assert (HA1 : (A <= 1)%R) by nra.
  specialize (Hc0 (k + s)%Z ltac:(lia)). pose proof (inu_neq0 beta Hb (k + s)) as Hz. set (z := inu beta (k + s)) in *.
  set (d := sig (k + s)%Z - (RtoC s0 - RtoC s1 / z)) in *.
  assert (Hd : (Cmod d <= c * A ^ 2)%R).
  { eapply Rle_trans; [exact Hc0|]. apply Rle_trans with (c * Cmod (/ z)%C ^ 2)%R.
    - apply Rmult_le_compat_r; [apply pow2_ge_0|apply Rle_abs].
    - apply Rmult_le_compat_l; [exact Hc|]. apply pow_incr. split; [apply Cmod_ge_0|exact Hs]. }
  assert (Hsm : (A * (Rabs x + Rabs s1 + c) <= 1 / 2)%R) by (unfold L in HAL; nra).
  destruct (h_order x s1 c A (/ z) d Hc Hs HA1 Hd Hsm) as [HD0 HO].
  set (D := RtoC 1 + RtoC x * / z + RtoC s1 * (/ z * / z) - d * / z) in *.
  exists (/ D). split; [|split; [exact Hs|split; [exact HA1|exact HO]]].
  unfold green. fold z.
  assert (E : z + RtoC (mu - e) - sig (k + s)%Z = z * D).
  { unfold D, d, x. rewrite !RtoC_minus. field. exact Hz. }
  rewrite E. field. split; [exact HD0|exact Hz].
Qed.
Lemma green_order e e' s t : exists K n0, (0 <= K)%R /\ forall k, (n0 <= Z.abs k)%Z ->
  (Cmod (green beta mu e sig (k + s) * green beta mu e' sig (k + t) - prod4 beta (mu - e - s0) (mu - e' - s0) s1 (k + s) (k + t))%C <= K / IZR (Z.abs k) ^ 5)%R.
Proof.
  destruct (green_h e s) as [K1 [n1 [HK1 [Hn1 H1]]]]. destruct (green_h e' t) as [K2 [n2 [HK2 [Hn2 H2]]]].
  set (x := (mu - e - s0)%R) in *. set (y := (mu - e' - s0)%R) in *.
  set (K := (Rabs (x * (y * y - s1)) + Rabs (y * (x * x - s1)) + Rabs ((x * x - s1) * (y * y - s1))
     + K1 * (1 + Rabs y + Rabs (y * y - s1) + K2) + (1 + Rabs x + Rabs (x * x - s1)) * K2)%R).
  assert (HK : (0 <= K)%R).
  { unfold K. pose proof (Rabs_pos x). pose proof (Rabs_pos y). pose proof (Rabs_pos (x * x - s1)). pose proof (Rabs_pos (y * y - s1)).
    pose proof (Rabs_pos (x * (y * y - s1))). pose proof (Rabs_pos (y * (x * x - s1))). pose proof (Rabs_pos ((x * x - s1) * (y * y - s1))).
    assert (0 <= K1 * (1 + Rabs y + Rabs (y * y - s1) + K2))%R by (apply Rmult_le_pos; lra).
    assert (0 <= (1 + Rabs x + Rabs (x * x - s1)) * K2)%R by (apply Rmult_le_pos; lra). lra. }
  assert (HP := PI_RGT_0).
  exists (K * (Rabs beta / PI) ^ 5)%R, (Z.max 1 (Z.max n1 n2)). split.
  { apply Rmult_le_pos; [exact HK|]. apply pow_le. apply Rmult_le_pos; [apply Rabs_pos|left; now apply Rinv_0_lt_compat]. }
  intros k Hk. set (A := (Rabs beta / PI / IZR (Z.abs k))%R).
  destruct (H1 k A ltac:(lia) eq_refl) as [h1 [E1 [Ha [HA1 HO1]]]]. destruct (H2 k A ltac:(lia) eq_refl) as [h2 [E2 [Hb2 [_ HO2]]]].
  rewrite E1, E2. assert (Hf := prod_order x y s1 K1 K2 A _ _ h1 h2 HK1 HK2 Ha Hb2 HA1 HO1 HO2). fold K in Hf.
  assert (Hp : (0 < IZR (Z.abs k))%R) by (apply (IZR_lt 0); lia).
  replace (K * (Rabs beta / PI) ^ 5 / IZR (Z.abs k) ^ 5)%R with (K * A ^ 5)%R by (unfold A; field; lra). exact Hf.
Qed.
(** sums over finitely many pairs of momenta *)
Lemma order_list {T} (l : list T) (F : T -> Z -> C) : (forall p, In p l -> exists K n0, (0 <= K)%R /\ forall k, (n0 <= Z.abs k)%Z -> (Cmod (F p k) <= K / IZR (Z.abs k) ^ 5)%R) ->
  exists K n0, (0 <= K)%R /\ forall k, (n0 <= Z.abs k)%Z -> (Cmod (fold_right Cplus (RtoC 0) (map (fun p => F p k) l)) <= K / IZR (Z.abs k) ^ 5)%R.
Proof.
  induction l as [|p l IH]; intros H.
  - exists 0%R, 1%Z. split; [lra|]. intros k Hk. cbn. rewrite Cmod_0. lra.
  - destruct (H p (or_introl eq_refl)) as [K1 [n1 [HK1 H1]]]. destruct IH as [K2 [n2 [HK2 H2]]]; [intros q Hq; apply H; now right|].
    exists (K1 + K2)%R, (Z.max n1 n2). split; [lra|]. intros k Hk. cbn [map fold_right]. eapply Rle_trans; [apply Cmod_triangle|].
    specialize (H1 k ltac:(lia)). specialize (H2 k ltac:(lia)). unfold Rdiv in *. lra.
Qed.
End G.
