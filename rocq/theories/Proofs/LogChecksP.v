(** Proofs for C116. *)
From Coq Require Import ZArith Reals List String Lia Lra.
From Verif Require Import Base.PyBase Base.PyFacts Model.Matsubara Model.RankFiles Model.RunLog Model.CliTools Model.Config Model.LogChecks Spec.LogChecksSpec Proofs.MatsubaraP Proofs.RunLogTimeP.
Import ListNotations.
Local Open Scope R_scope.

Lemma fold_rmax l : forall a, let m := fold_left Rmax l a in (m = a \/ In m l) /\ a <= m /\ forall x, In x l -> x <= m.
Proof.
  induction l as [|y l IH]; intros a; cbv zeta; [cbn; split; [tauto|]; split; [lra|easy]|]. destruct (IH (Rmax a y)) as (A & B & D). cbn. pose proof (Rmax_l a y). pose proof (Rmax_r a y).
  split. { destruct A as [A|A]; [|tauto]. rewrite A. unfold Rmax. destruct (Rle_dec a y); tauto. } split; [lra|]. intros x [->|I]; [lra|auto].
Qed.
Lemma np_max_ok l : l <> [] -> exists m, np_max l = Ok m /\ In m l /\ forall x, In x l -> x <= m.
Proof.
  destruct l as [|a l]; [easy|]. intros _. destruct (fold_rmax l a) as (A & B & D). eexists. split; [reflexivity|]. split; [cbn; destruct A as [->|A]; auto|]. intros x [<-|I]; auto.
Qed.
Lemma zget_map2 A B D (f : A -> B -> D) : forall la lb i a b, zget la i = Some a -> zget lb i = Some b -> zget (map2 f la lb) i = Some (f a b).
Proof.
  induction la as [|x la IH]; intros lb i a b E1 E2; [now rewrite zget_nil in E1|]. destruct lb as [|y lb]; [now rewrite zget_nil in E2|].
  cbn. rewrite zget_cons in *. destruct (Z.eqb_spec i 0); [now inversion E1; inversion E2|auto].
Qed.
Lemma zlen_map2_min A B D (f : A -> B -> D) : forall la lb, zlen (map2 f la lb) = Z.min (zlen la) (zlen lb).
Proof.
  induction la as [|x la IH]; intros [|y lb]; cbn [map2]; rewrite ?zlen_cons, ?zlen_nil.
  - reflexivity.
  - pose proof (zlen_nonneg lb). lia.
  - pose proof (zlen_nonneg la). lia.
  - rewrite IH. lia.
Qed.
Lemma dist_cabs a b : cabs (fst a - fst b, snd a - snd b) = dist a b. Proof. reflexivity. Qed.
Lemma dist_zero a b : dist a b = 0 <-> a = b.
Proof.
  destruct a as [a1 a2], b as [b1 b2]. unfold dist. cbn. split.
  - intros E. apply sqrt_eq_0 in E; [|apply Rplus_le_le_0_compat; apply Rle_0_sqr]. destruct (Rplus_sqr_eq_0 _ _ E). f_equal; lra.
  - intros E. inversion E. replace ((b1 - b1) * (b1 - b1) + (b2 - b2) * (b2 - b2)) with 0 by ring. apply sqrt_0.
Qed.
Lemma dist_nonneg a b : 0 <= dist a b. Proof. apply sqrt_pos. Qed.
Section S.
Variables (giw g_loc : list (R * R)) (n1 n2 : Z) (f h : Z -> R * R).
Hypothesis (H1 : vgrid giw n1 f) (H2 : vgrid g_loc n2 h).
Let cells := map2 (fun a b : R * R => cabs (fst a - fst b, snd a - snd b)) (cut_v_1d giw (Z.min n1 n2)) (cut_v_1d g_loc (Z.min n1 n2)).
Lemma diff_cells : gloc_diff giw g_loc = np_max cells.
Proof. unfold gloc_diff, niv_from_len. rewrite (proj1 H1), (proj1 H2). replace (2 * n1 / 2)%Z with n1 by lia. replace (2 * n2 / 2)%Z with n2 by lia. reflexivity. Qed.
Lemma cells_at : (0 <= n1)%Z -> (0 <= n2)%Z -> zlen cells = (2 * Z.min n1 n2)%Z /\ forall v, (- Z.min n1 n2 <= v < Z.min n1 n2)%Z -> zget cells (Z.min n1 n2 + v) = Some (dist (f v) (h v)).
Proof.
  intros P1 P2. destruct H1 as [L1 V1], H2 as [L2 V2]. destruct (@cut_v_spec _ giw n1 (Z.min n1 n2) L1 ltac:(lia)) as [Lc1 C1]. destruct (@cut_v_spec _ g_loc n2 (Z.min n1 n2) L2 ltac:(lia)) as [Lc2 C2]. split.
  - unfold cells. rewrite zlen_map2_min, Lc1, Lc2. lia.
  - intros v Hv. unfold cells. erewrite zget_map2; [reflexivity| |]; [rewrite C1 by lia; apply V1; lia|rewrite C2 by lia; apply V2; lia].
Qed.
Lemma diff_run : (0 < n1)%Z -> (0 < n2)%Z -> exists d, gloc_diff giw g_loc = Ok d /\ largest_dist (Z.min n1 n2) f h d.
Proof.
  intros P1 P2. destruct cells_at as [L V]; try lia. destruct (np_max_ok cells) as (m & E & I & M). { intros Z. rewrite Z in L. rewrite zlen_nil in L. lia. }
  exists m. rewrite diff_cells. split; [assumption|]. split.
  - destruct (In_zget _ _ I) as (i & Ri & Ei). exists (i - Z.min n1 n2)%Z. split; [lia|]. specialize (V (i - Z.min n1 n2)%Z ltac:(lia)). replace (Z.min n1 n2 + (i - Z.min n1 n2))%Z with i in V by lia. congruence.
  - intros v Hv. apply M. apply zget_In with (Z.min n1 n2 + v)%Z. now apply V.
Qed.
Lemma diff_empty : (n1 = 0 \/ n2 = 0)%Z -> gloc_diff giw g_loc = Raise ValueError.
Proof.
  intros Z. assert ((0 <= n1)%Z /\ (0 <= n2)%Z) as [P1 P2]. { pose proof (zlen_nonneg giw). pose proof (zlen_nonneg g_loc). destruct H1 as [L1 _], H2 as [L2 _]. lia. }
  destruct cells_at as [L _]; try lia. rewrite diff_cells. destruct cells as [|c l]; [reflexivity|]. rewrite zlen_cons in L. pose proof (zlen_nonneg l). lia.
Qed.
End S.
Lemma largest_unique n f h h' d d' : (forall v, (- n <= v < n)%Z -> h v = h' v) -> largest_dist n f h d -> largest_dist n f h' d' -> d = d'.
Proof.
  intros Eq [(v & Rv & ->) M] [(v' & Rv' & ->) M']. specialize (M v' Rv'). specialize (M' v Rv). rewrite (Eq v' Rv') in M. rewrite <- (Eq v Rv) in M'. lra.
Qed.
Lemma largest_zero n f h d : largest_dist n f h d -> 0 <= d /\ (d = 0 <-> forall v, (- n <= v < n)%Z -> f v = h v).
Proof.
  intros [(v & Rv & ->) M]. split; [apply dist_nonneg|]. split.
  - intros E w Rw. specialize (M w Rw). apply dist_zero. pose proof (dist_nonneg (f w) (h w)). lra.
  - intros Eq. apply dist_zero. auto.
Qed.
Lemma fmt_4f_at x : 0 <= x -> fmt_4f x = (fmt0 0 (py_round (x * 10000) / 10000) ++ "." ++ fmt0 4 (py_round (x * 10000) mod 10000))%string.
Proof. intros P. unfold fmt_4f. destruct (Rlt_dec x 0); [lra|]. rewrite Rabs_pos_eq by lra. reflexivity. Qed.
Lemma fmt_4f_small x : 0 <= x <= / 20000 -> fmt_4f x = "0.0000"%string.
Proof.
  intros P. rewrite fmt_4f_at by lra. replace (py_round (x * 10000)) with 0%Z; [reflexivity|].
  pose proof (py_round_near (x * 10000)) as N. assert (N' : - (1 / 2) <= IZR (py_round (x * 10000)) - x * 10000 <= 1 / 2) by (unfold Rabs in N; destruct (Rcase_abs _); lra). clear N.
  destruct (Req_dec (x * 10000) (1 / 2)) as [E|E].
  - pose proof (py_round_tie (x * 10000) 0 ltac:(lra)) as T. assert (L : (0 <= py_round (x * 10000))%Z) by (apply py_round_nonneg; lra). assert (U : (py_round (x * 10000) <= 1)%Z) by (apply le_IZR; lra).
    assert (Q : (py_round (x * 10000) = 0 \/ py_round (x * 10000) = 1)%Z) by lia. destruct Q as [Q|Q]; rewrite Q in *; [reflexivity|discriminate].
  - assert (L : (0 <= py_round (x * 10000))%Z) by (apply py_round_nonneg; lra). assert (U : (py_round (x * 10000) < 1)%Z) by (apply lt_IZR; lra). lia.
Qed.
(** the estimate of F_cond *)
Lemma fcond_bound nq w n wv c nv : (0 <= nq)%Z -> (0 <= wv <= w)%Z -> (0 <= c)%Z -> nv = (n - c)%Z -> (0 <= nv)%Z ->
  (2 * n * (nq * (2 * wv + 1) * (2 * c + 1) * (2 * nv)) <= nq * (w * 2 + 1) * (n * 2) ^ 3)%Z.
Proof.
  intros Hq Hw Hc -> Hn. assert (A : ((2 * c + 1) * (2 * (n - c)) <= (2 * n) * (2 * n))%Z) by nia.
  assert (B : (nq * (2 * wv + 1) * ((2 * c + 1) * (2 * (n - c))) <= nq * (w * 2 + 1) * ((2 * n) * (2 * n)))%Z).
  { apply Z.mul_le_mono_nonneg; try nia. }
  replace ((n * 2) ^ 3)%Z with ((2 * n) * ((2 * n) * (2 * n)))%Z by ring. nia.
Qed.
