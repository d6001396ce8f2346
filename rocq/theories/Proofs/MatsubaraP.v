From Coq Require Import String.
From Verif Require Import Base.PyBase Base.PyFacts Base.Arr Spec.FreqSpec Model.Matsubara.
From Coq Require Import ZifyBool ZifyNat.
Set Implicit Arguments.
Local Open Scope Z_scope.
Ltac Zify.zify_post_hook ::= Z.div_mod_to_equations.

(** * C06 grids *)
Lemma vn_In n s x : In x (vn n s false) <-> - n + s <= x < n + s.
Proof. apply In_arange. Qed.
Lemma wn_In n s x : In x (wn n s false) <-> - n + s <= x <= n + s.
Proof. unfold wn. rewrite In_arange. lia. Qed.
Lemma vn_get n s i : 0 <= i < 2 * n -> zget (vn n s false) i = Some (i - n + s).
Proof. intros. unfold vn. rewrite zget_arange by lia. f_equal; lia. Qed.
Lemma wn_get n s i : 0 <= i <= 2 * n -> zget (wn n s false) i = Some (i - n + s).
Proof. intros. unfold wn. rewrite zget_arange by lia. f_equal; lia. Qed.
Lemma zlen_vn n s : 0 <= n -> zlen (vn n s false) = 2 * n.
Proof. intros. unfold vn. rewrite zlen_arange. lia. Qed.
Lemma zlen_wn n s : 0 <= n -> zlen (wn n s false) = 2 * n + 1.
Proof. intros. unfold wn. rewrite zlen_arange. lia. Qed.
Lemma vn_grid n s : 0 <= n ->
  zlen (vn n s false) = 2 * n /\ (forall i, 0 <= i < 2 * n -> zget (vn n s false) i = Some (i - n + s)).
Proof. intros; split; [now apply zlen_vn|apply vn_get]. Qed.
Lemma wn_grid n s : 0 <= n ->
  zlen (wn n s false) = 2 * n + 1 /\ (forall i, 0 <= i <= 2 * n -> zget (wn n s false) i = Some (i - n + s)).
Proof. intros; split; [now apply zlen_wn|apply wn_get]. Qed.
Lemma vn_flip n : 0 <= n -> rev (vn n 0 false) = map (fun v => - v - 1) (vn n 0 false).
Proof.
  intros Hn. apply zget_ext; [now rewrite zlen_rev, zlen_map|].
  rewrite zlen_rev, zlen_vn by lia. intros i Hi.
  rewrite zget_rev, zlen_vn by lia. rewrite zget_map, !vn_get by lia. cbn [option_map]. f_equal. lia.
Qed.
Lemma wn_flip n : 0 <= n -> rev (wn n 0 false) = map Z.opp (wn n 0 false).
Proof.
  intros Hn. apply zget_ext; [now rewrite zlen_rev, zlen_map|].
  rewrite zlen_rev, zlen_wn by lia. intros i Hi.
  rewrite zget_rev, zlen_wn by lia. rewrite zget_map, !wn_get by lia. cbn [option_map]. f_equal. lia.
Qed.
Lemma filter_arange_ge a b c : a <= c -> c <= b -> filter (fun x => c <=? x) (arange a b) = arange c b.
Proof.
  intros Ha Hb. rewrite <- (@arange_app a c b) by lia. rewrite filter_app.
  assert (E1 : filter (fun x => c <=? x) (arange a c) = []).
  { assert (H : forall x, In x (arange a c) -> (c <=? x) = false) by (intros x Hx; apply In_arange in Hx; lia).
    revert H. generalize (arange a c) as l. induction l as [|x l IH]; intros H; [reflexivity|].
    cbn [filter]. rewrite H by now left. apply IH. intros y Hy; apply H; now right. }
  assert (E2 : filter (fun x => c <=? x) (arange c b) = arange c b).
  { assert (H : forall x, In x (arange c b) -> (c <=? x) = true) by (intros x Hx; apply In_arange in Hx; lia).
    revert H. generalize (arange c b) as l. induction l as [|x l IH]; intros H; [reflexivity|].
    cbn [filter]. rewrite H by now left. f_equal. apply IH. intros y Hy; apply H; now right. }
  now rewrite E1, E2.
Qed.
Lemma vn_pos n s : 0 <= n -> vn n s true = filter (fun v => s <=? v) (vn n s false).
Proof. intros. unfold vn. symmetry. apply filter_arange_ge; lia. Qed.
Lemma wn_pos n s : 0 <= n -> wn n s true = filter (fun v => s <=? v) (wn n s false).
Proof. intros. unfold wn. symmetry. apply filter_arange_ge; lia. Qed.
Lemma vn_from_mat_inv A (mat : list A) n : 0 <= n -> zlen mat = 2 * n -> zlen (vn_from_mat mat 0 false) = zlen mat.
Proof. intros. unfold vn_from_mat, niv_from_len. replace (zlen mat / 2) with n by lia. rewrite zlen_vn; lia. Qed.
Lemma wn_from_mat_inv A (mat : list A) n : 0 <= n -> zlen mat = 2 * n + 1 -> zlen (wn_from_mat mat 0 false) = zlen mat.
Proof. intros. unfold wn_from_mat, niw_from_len. replace (zlen mat / 2) with n by lia. rewrite zlen_wn; lia. Qed.

(** * C07 *)
Lemma freq_shift_spec iwn a b s : get_freq_shift iwn s = Ok (a, b) ->
  Z.abs a <= Z.abs iwn /\ Z.abs b <= Z.abs iwn /\
  ((s = "plus"%string /\ a = 0 /\ b - a = iwn) \/
   (s = "minus"%string /\ a = 0 /\ a - b = iwn) \/
   (s = "center"%string /\ a - b = iwn /\ (a + b = 0 \/ a + b = -1))).
Proof.
  unfold get_freq_shift.
  destruct (String.eqb_spec s "plus") as [->|?]; [intros E; injection E as <- <-; repeat split; try lia; left; repeat split; lia|].
  destruct (String.eqb_spec s "minus") as [->|?]; [intros E; injection E as <- <-; repeat split; try lia; right; left; repeat split; lia|].
  destruct (String.eqb_spec s "center") as [->|?]; [intros E; injection E as <- <-; repeat split; try lia; right; right; repeat split; lia|].
  discriminate.
Qed.
Lemma freq_shift_known iwn s : (s = "plus" \/ s = "minus" \/ s = "center")%string -> exists ab, get_freq_shift iwn s = Ok ab.
Proof. intros [->|[->| ->]]; unfold get_freq_shift; cbn; eexists; reflexivity. Qed.
Lemma freq_shift_unknown iwn s : s <> "plus"%string -> s <> "minus"%string -> s <> "center"%string -> get_freq_shift iwn s = Raise NotImplementedError.
Proof.
  intros. unfold get_freq_shift.
  destruct (String.eqb_spec s "plus"); [congruence|]. destruct (String.eqb_spec s "minus"); [congruence|].
  destruct (String.eqb_spec s "center"); [congruence|reflexivity].
Qed.

(** * C08 *)
Lemma fermionic_len A (conj : A -> A) m : zlen (fermionic_full_nu_range conj m) = 2 * zlen m.
Proof. unfold fermionic_full_nu_range, flip. rewrite zlen_app, zlen_map, zlen_rev. lia. Qed.
Lemma fermionic_pos A (conj : A -> A) m v : 0 <= v -> zget (fermionic_full_nu_range conj m) (zlen m + v) = zget m v.
Proof.
  intros Hv. unfold fermionic_full_nu_range, flip. rewrite zget_app, zlen_map, zlen_rev.
  destruct (Z.ltb_spec (zlen m + v) (zlen m)); [lia|]. f_equal; lia.
Qed.
Lemma fermionic_neg A (conj : A -> A) m v : 0 <= v < zlen m ->
  zget (fermionic_full_nu_range conj m) (zlen m - 1 - v) = option_map conj (zget m v).
Proof.
  intros Hv. unfold fermionic_full_nu_range, flip. rewrite zget_app, zlen_map, zlen_rev.
  destruct (Z.ltb_spec (zlen m - 1 - v) (zlen m)); [|lia]. rewrite zget_map, zget_rev. do 2 f_equal; lia.
Qed.
Lemma fermionic_sym A (conj : A -> A) m : (forall a, conj (conj a) = a) -> forall v, - zlen m <= v < zlen m ->
  zget (fermionic_full_nu_range conj m) (zlen m + (- v - 1)) = option_map conj (zget (fermionic_full_nu_range conj m) (zlen m + v)).
Proof.
  intros Hc v Hv. destruct (Z_lt_le_dec v 0) as [H|H].
  - replace (zlen m + v) with (zlen m - 1 - (- v - 1)) by lia. rewrite fermionic_neg by lia.
    rewrite fermionic_pos by lia. destruct (zget m (- v - 1)); cbn; [now rewrite Hc|reflexivity].
  - replace (zlen m + (- v - 1)) with (zlen m - 1 - v) by lia. rewrite fermionic_neg by lia.
    now rewrite fermionic_pos by lia.
Qed.
Lemma clip_pos_full A (conj : A -> A) m : clip_pos_mf_vn (fermionic_full_nu_range conj m) = m.
Proof.
  unfold clip_pos_mf_vn, slice_from, niv_from_len. rewrite fermionic_len.
  replace (2 * zlen m / 2) with (zlen m) by lia.
  unfold fermionic_full_nu_range, flip. set (k := map conj (rev m)).
  replace (zlen m) with (zlen k) by (unfold k; rewrite zlen_map, zlen_rev; reflexivity).
  replace (2 * zlen k) with (zlen k + zlen m) by (unfold k; rewrite zlen_map, zlen_rev; lia).
  apply slice_app_r.
Qed.
Lemma full_clip_pos A (conj : A -> A) f n : zlen f = 2 * n ->
  (forall v, 0 <= v < n -> zget f (n - 1 - v) = option_map conj (zget f (n + v))) ->
  fermionic_full_nu_range conj (clip_pos_mf_vn f) = f.
Proof.
  intros Hl H. pose proof (zlen_nonneg f).
  assert (Lc : zlen (clip_pos_mf_vn f) = n).
  { unfold clip_pos_mf_vn, slice_from, niv_from_len. rewrite Hl. replace (2 * n / 2) with n by lia. rewrite zlen_slice_in; lia. }
  assert (Gc : forall v, 0 <= v < n -> zget (clip_pos_mf_vn f) v = zget f (n + v)).
  { intros v Hv. unfold clip_pos_mf_vn, slice_from, niv_from_len. rewrite Hl. replace (2 * n / 2) with n by lia.
    rewrite zget_slice_in by lia. reflexivity. }
  apply zget_ext; [rewrite fermionic_len; lia|]. rewrite fermionic_len. intros i Hi.
  destruct (Z_lt_le_dec i n) as [Hi'|Hi'].
  - replace i with (zlen (clip_pos_mf_vn f) - 1 - (n - 1 - i)) at 1 by lia. rewrite fermionic_neg by lia.
    rewrite Gc by lia. rewrite <- H by lia. f_equal; lia.
  - replace i with (zlen (clip_pos_mf_vn f) + (i - n)) at 1 by lia. rewrite fermionic_pos by lia.
    rewrite Gc by lia. f_equal; lia.
Qed.

(** * C09 *)
Lemma bosonic_len A (conj : A -> A) m : 0 < zlen m -> zlen (bosonic_full_nu_range conj m) = 2 * zlen m - 1.
Proof. intros. unfold bosonic_full_nu_range, flip. rewrite zlen_app, zlen_map, zlen_rev, zlen_slice_in; lia. Qed.
Lemma bosonic_pos A (conj : A -> A) m w : 0 < zlen m -> 0 <= w -> zget (bosonic_full_nu_range conj m) (zlen m - 1 + w) = zget m w.
Proof.
  intros. unfold bosonic_full_nu_range, flip. rewrite zget_app, zlen_map, zlen_rev, zlen_slice_in by lia.
  destruct (Z.ltb_spec (zlen m - 1 + w) (zlen m - 1)); [lia|]. f_equal; lia.
Qed.
Lemma bosonic_neg A (conj : A -> A) m w : 0 < w < zlen m -> zget (bosonic_full_nu_range conj m) (zlen m - 1 - w) = option_map conj (zget m w).
Proof.
  intros. unfold bosonic_full_nu_range, flip. rewrite zget_app, zlen_map, zlen_rev, zlen_slice_in by lia.
  destruct (Z.ltb_spec (zlen m - 1 - w) (zlen m - 1)); [|lia]. rewrite zget_map, zget_rev, zlen_slice_in by lia.
  rewrite zget_slice_in by lia. do 2 f_equal; lia.
Qed.
Lemma bosonic_sym A (conj : A -> A) m : (forall a, conj (conj a) = a) -> forall w, w <> 0 -> - zlen m < w < zlen m ->
  zget (bosonic_full_nu_range conj m) (zlen m - 1 - w) = option_map conj (zget (bosonic_full_nu_range conj m) (zlen m - 1 + w)).
Proof.
  intros Hc w H0 Hw. destruct (Z_lt_le_dec w 0) as [H|H].
  - replace (zlen m - 1 - w) with (zlen m - 1 + (- w)) by lia. rewrite bosonic_pos by lia.
    replace (zlen m - 1 + w) with (zlen m - 1 - (- w)) by lia. rewrite bosonic_neg by lia.
    destruct (zget m (- w)); cbn; [now rewrite Hc|reflexivity].
  - rewrite bosonic_neg by lia. now rewrite bosonic_pos by lia.
Qed.
Lemma bosonic_recover A (conj : A -> A) f n : 0 <= n -> zlen f = 2 * n + 1 ->
  (forall w, 0 < w <= n -> zget f (n - w) = option_map conj (zget f (n + w))) ->
  bosonic_full_nu_range conj (slice f n (2 * n + 1)) = f.
Proof.
  intros Hn Hl H. assert (Ls : zlen (slice f n (2 * n + 1)) = n + 1) by (rewrite zlen_slice_in; lia).
  apply zget_ext; [rewrite bosonic_len; lia|]. rewrite bosonic_len by lia. intros i Hi.
  destruct (Z_lt_le_dec i n) as [Hi'|Hi'].
  - replace i with (zlen (slice f n (2 * n + 1)) - 1 - (n - i)) at 1 by lia. rewrite bosonic_neg by lia.
    rewrite zget_slice_in by lia. rewrite <- H by lia. f_equal; lia.
  - replace i with (zlen (slice f n (2 * n + 1)) - 1 + (i - n)) at 1 by lia. rewrite bosonic_pos by lia.
    rewrite zget_slice_in by lia. f_equal; lia.
Qed.
(** two-axis version used for bubbles *)
Lemma bosonic2_pos A (conj : A -> A) m w : 0 < zlen m -> 0 <= w -> zget (bosonic_full_nu_range_2 conj m) (zlen m - 1 + w) = zget m w.
Proof.
  intros. unfold bosonic_full_nu_range_2, flip. rewrite zget_app, zlen_map, zlen_rev, zlen_slice_in by lia.
  destruct (Z.ltb_spec (zlen m - 1 + w) (zlen m - 1)); [lia|]. f_equal; lia.
Qed.
Lemma bosonic2_neg A (conj : A -> A) m w : 0 < w < zlen m ->
  zget (bosonic_full_nu_range_2 conj m) (zlen m - 1 - w) = option_map (fun r => map conj (rev r)) (zget m w).
Proof.
  intros. unfold bosonic_full_nu_range_2, flip. rewrite zget_app, zlen_map, zlen_rev, zlen_slice_in by lia.
  destruct (Z.ltb_spec (zlen m - 1 - w) (zlen m - 1)); [|lia]. rewrite zget_map, zget_rev, zlen_slice_in by lia.
  rewrite zget_slice_in by lia. do 2 f_equal; lia.
Qed.
Lemma bosonic2_len A (conj : A -> A) m : 0 < zlen m -> zlen (bosonic_full_nu_range_2 conj m) = 2 * zlen m - 1.
Proof. intros. unfold bosonic_full_nu_range_2, flip. rewrite zlen_app, zlen_map, zlen_rev, zlen_slice_in; lia. Qed.

(** * C10 *)
Lemma cut_v_spec A (arr : list A) niv c : zlen arr = 2 * niv -> 0 <= c <= niv ->
  zlen (cut_v_1d arr c) = 2 * c /\ forall v, - c <= v < c -> zget (cut_v_1d arr c) (c + v) = zget arr (niv + v).
Proof.
  intros Hl Hc. unfold cut_v_1d. rewrite Hl. replace (2 * niv / 2) with niv by lia.
  destruct (Z.eqb_spec c (-1)); [lia|]. split; [rewrite zlen_slice_in; lia|].
  intros v Hv. rewrite zget_slice_in by lia. f_equal; lia.
Qed.
Lemma cut_v_minus_one A (arr : list A) niv : zlen arr = 2 * niv -> cut_v_1d arr (-1) = arr.
Proof.
  intros Hl. unfold cut_v_1d. change (-1 =? -1) with true; cbv iota. rewrite Hl. replace (2 * niv / 2) with niv by lia.
  pose proof (zlen_nonneg arr). transitivity (slice arr 0 (zlen arr)); [f_equal; lia|apply slice_full].
Qed.
Lemma cut_v_compose A (arr : list A) niv a b : zlen arr = 2 * niv -> 0 <= b <= a -> a <= niv ->
  cut_v_1d (cut_v_1d arr a) b = cut_v_1d arr b.
Proof.
  intros Hl Hb Ha. destruct (@cut_v_spec A arr niv a Hl ltac:(lia)) as [La Ga].
  destruct (@cut_v_spec A (cut_v_1d arr a) a b La ltac:(lia)) as [Lab Gab].
  destruct (@cut_v_spec A arr niv b Hl ltac:(lia)) as [Lb Gb].
  apply zget_ext; [lia|]. rewrite Lab. intros i Hi. replace i with (b + (i - b)) by lia.
  rewrite Gab, Gb, Ga by lia. reflexivity.
Qed.
Lemma cut_v_full A (arr : list A) niv : zlen arr = 2 * niv -> cut_v_1d arr niv = arr.
Proof.
  intros Hl. unfold cut_v_1d. rewrite Hl. replace (2 * niv / 2) with niv by lia. pose proof (zlen_nonneg arr).
  destruct (Z.eqb_spec niv (-1)); [lia|].
  transitivity (slice arr 0 (zlen arr)); [f_equal; lia|apply slice_full].
Qed.
Lemma cut_v_too_large A (arr : list A) niv c : zlen arr = 2 * niv -> niv < c <= 3 * niv ->
  cut_v_1d arr c = slice arr (3 * niv - c) (2 * niv).
Proof.
  intros Hl Hc. unfold cut_v_1d. rewrite Hl. replace (2 * niv / 2) with niv by lia.
  destruct (Z.eqb_spec c (-1)); [lia|]. unfold slice. rewrite Hl.
  replace (clampi (2 * niv) (niv - c)) with (clampi (2 * niv) (3 * niv - c)).
  2:{ unfold clampi. destruct (Z.ltb_spec (niv - c) 0), (Z.ltb_spec (3 * niv - c) 0); lia. }
  replace (clampi (2 * niv) (niv + c)) with (clampi (2 * niv) (2 * niv)); [reflexivity|].
  unfold clampi. destruct (Z.ltb_spec (niv + c) 0), (Z.ltb_spec (2 * niv) 0); lia.
Qed.
Lemma cut_w_spec A (arr : list A) niw c : zlen arr = 2 * niw + 1 -> 0 <= c <= niw ->
  zlen (cut_w_1d arr c) = 2 * c + 1 /\ forall w, - c <= w <= c -> zget (cut_w_1d arr c) (c + w) = zget arr (niw + w).
Proof.
  intros Hl Hc. unfold cut_w_1d. rewrite Hl. replace ((2 * niw + 1) / 2) with niw by lia.
  split; [rewrite zlen_slice_in; lia|]. intros v Hv. rewrite zget_slice_in by lia. f_equal; lia.
Qed.
Lemma cut_v_2_spec A (arr : list (list A)) niv c : shape2 arr (2 * niv) (2 * niv) -> 0 <= c <= niv ->
  shape2 (cut_v_2 arr c) (2 * c) (2 * c) /\
  forall v vp, - c <= v < c -> - c <= vp < c -> get2 (cut_v_2 arr c) (c + v) (c + vp) = get2 arr (niv + v) (niv + vp).
Proof.
  intros [Hl Hr] Hc. unfold cut_v_2.
  destruct (@cut_v_spec _ (map (fun row => cut_v_1d row c) arr) niv c ltac:(now rewrite zlen_map) Hc) as [L G].
  split; [split; [assumption|]|].
  - intros r Hin. apply In_zget in Hin. destruct Hin as [i [Hi Hg]]. rewrite L in Hi.
    replace i with (c + (i - c)) in Hg by lia. rewrite G in Hg by lia.
    rewrite zget_map in Hg. destruct (zget arr (niv + (i - c))) as [row|] eqn:E; [|discriminate].
    injection Hg as <-. pose proof (Hr row (zget_In _ _ E)) as Lr.
    destruct (@cut_v_spec _ row niv c Lr Hc) as [Lrow _]. assumption.
  - intros v vp Hv Hvp. unfold get2. rewrite G by lia. rewrite zget_map.
    destruct (zget arr (niv + v)) as [row|] eqn:E; [|reflexivity]. cbn.
    pose proof (Hr row (zget_In _ _ E)) as Lr.
    destruct (@cut_v_spec _ row niv c Lr Hc) as [_ Grow]. now apply Grow.
Qed.

(** * C11 *)
Lemma inv_cut_spec A (arr : list A) niv core shell : zlen arr = 2 * niv -> 0 <= core -> 0 <= shell -> core + shell <= niv ->
  zlen (inv_cut_v_1d arr core shell) = 2 * shell /\
  (forall v, - (core + shell) <= v < - core -> zget (inv_cut_v_1d arr core shell) (core + shell + v) = zget arr (niv + v)) /\
  (forall v, core <= v < core + shell -> zget (inv_cut_v_1d arr core shell) (shell - core + v) = zget arr (niv + v)).
Proof.
  intros Hl Hc Hs Hcs. unfold inv_cut_v_1d. rewrite Hl. replace (2 * niv / 2) with niv by lia.
  destruct (Z.eqb_spec shell (-1)); [lia|]. split; [rewrite zlen_app, !zlen_slice_in; lia|]. split.
  - intros v Hv. rewrite zget_app, zlen_slice_in by lia.
    destruct (Z.ltb_spec (core + shell + v) (niv - core - (niv - shell - core))); [|lia].
    rewrite zget_slice_in by lia. f_equal; lia.
  - intros v Hv. rewrite zget_app, zlen_slice_in by lia.
    destruct (Z.ltb_spec (shell - core + v) (niv - core - (niv - shell - core))); [lia|].
    rewrite zget_slice_in by lia. f_equal; lia.
Qed.
Lemma concat_core_spec A (core asympt : list A) s : zlen asympt = 2 * s ->
  concatenate_core_asmypt core asympt = slice asympt 0 s ++ core ++ slice asympt s (2 * s).
Proof.
  intros Hl. unfold concatenate_core_asmypt, slice_to, slice_from. rewrite Hl. now replace (2 * s / 2) with s by lia.
Qed.
Lemma core_shell_rebuild A (arr : list A) niv core shell : zlen arr = 2 * niv -> 0 <= core -> 0 <= shell -> core + shell <= niv ->
  concatenate_core_asmypt (cut_v_1d arr core) (inv_cut_v_1d arr core shell) = cut_v_1d arr (core + shell).
Proof.
  intros Hl Hc Hs Hcs. destruct (inv_cut_spec arr Hl Hc Hs Hcs) as [Li _].
  rewrite (@concat_core_spec _ _ _ shell Li).
  unfold inv_cut_v_1d, cut_v_1d. rewrite Hl. replace (2 * niv / 2) with niv by lia.
  destruct (Z.eqb_spec shell (-1)), (Z.eqb_spec core (-1)), (Z.eqb_spec (core + shell) (-1)); try lia.
  set (L := slice arr (niv - shell - core) (niv - core)). set (R := slice arr (niv + core) (niv + core + shell)).
  assert (LL : zlen L = shell) by (unfold L; rewrite zlen_slice_in; lia).
  assert (LR : zlen R = shell) by (unfold R; rewrite zlen_slice_in; lia).
  replace (slice (L ++ R) 0 shell) with L by (rewrite <- LL; symmetry; apply slice_app_l).
  replace (slice (L ++ R) shell (2 * shell)) with R.
  2:{ replace (2 * shell) with (zlen L + zlen R) by lia. rewrite <- LL at 1. symmetry; apply slice_app_r. }
  unfold L, R. rewrite slice_split by lia. rewrite slice_split by lia. f_equal; lia.
Qed.
Lemma core_shell_identity A (arr : list A) niv core shell : zlen arr = 2 * niv -> 0 <= core -> 0 <= shell -> core + shell = niv ->
  concatenate_core_asmypt (cut_v_1d arr core) (inv_cut_v_1d arr core shell) = arr.
Proof. intros. rewrite core_shell_rebuild with (niv := niv) by lia. rewrite H2. now apply cut_v_full. Qed.
Lemma concat_then_cut A (core asympt : list A) c s : zlen core = 2 * c -> zlen asympt = 2 * s ->
  cut_v_1d (concatenate_core_asmypt core asympt) c = core /\ inv_cut_v_1d (concatenate_core_asmypt core asympt) c s = asympt.
Proof.
  intros Hc Hs. pose proof (zlen_nonneg core); pose proof (zlen_nonneg asympt).
  rewrite (@concat_core_spec _ core asympt s Hs).
  set (full := slice asympt 0 s ++ core ++ slice asympt s (2 * s)).
  assert (Lf : zlen full = 2 * (c + s)) by (unfold full; rewrite !zlen_app, !zlen_slice_in; lia).
  assert (G : forall i, 0 <= i < 2 * (c + s) -> zget full i = if i <? s then zget asympt i else if i <? s + 2 * c then zget core (i - s) else zget asympt (i - 2 * c)).
  { intros i Hi. unfold full. rewrite !zget_app, !zlen_slice_in by lia.
    replace (s - 0) with s by lia. destruct (Z.ltb_spec i s).
    - rewrite zget_slice_in by lia. f_equal; lia.
    - destruct (Z.ltb_spec (i - s) (zlen core)), (Z.ltb_spec i (s + 2 * c)); try lia; [reflexivity|].
      rewrite zget_slice_in by lia. f_equal; lia. }
  split.
  - destruct (@cut_v_spec _ full (c + s) c Lf ltac:(lia)) as [L1 G1]. apply zget_ext; [lia|]. rewrite L1. intros i Hi.
    replace i with (c + (i - c)) at 1 by lia. rewrite G1, G by lia.
    destruct (Z.ltb_spec (c + s + (i - c)) s); [lia|]. destruct (Z.ltb_spec (c + s + (i - c)) (s + 2 * c)); [f_equal; lia|lia].
  - destruct (@inv_cut_spec _ full (c + s) c s Lf ltac:(lia) ltac:(lia) ltac:(lia)) as (L1 & G1 & G2). apply zget_ext; [lia|].
    rewrite L1. intros i Hi. destruct (Z_lt_le_dec i s) as [Hi'|Hi'].
    + replace i with (c + s + (i - c - s)) at 1 by lia. rewrite G1, G by lia.
      destruct (Z.ltb_spec (c + s + (i - c - s)) s); [f_equal; lia|lia].
    + replace i with (s - c + (i + c - s)) at 1 by lia. rewrite G2, G by lia.
      destruct (Z.ltb_spec (c + s + (i + c - s)) s); [lia|].
      destruct (Z.ltb_spec (c + s + (i + c - s)) (s + 2 * c)); [lia|f_equal; lia].
Qed.
Lemma append_shell_spec A (mat : list (list A)) val niv shell : shape2 mat (2 * niv) (2 * niv) -> 0 <= niv -> 0 <= shell ->
  exists r, append_v_vp_shell mat val shell (2 * niv) = Ok r /\
    shape2 r (2 * (niv + shell)) (2 * (niv + shell)) /\
    forall v vp, - (niv + shell) <= v < niv + shell -> - (niv + shell) <= vp < niv + shell ->
      get2 r (niv + shell + v) (niv + shell + vp) =
      if (- niv <=? v) && (v <? niv) && ((- niv <=? vp) && (vp <? niv)) then get2 mat (niv + v) (niv + vp) else Some val.
Proof.
  intros [Hl Hr] Hn Hs. unfold append_v_vp_shell. replace (2 * niv / 2) with niv by lia.
  set (N := niv + shell). cbv zeta.
  set (row0 := repeat val (Z.to_nat (N * 2))). set (full := repeat row0 (Z.to_nat (N * 2))).
  assert (Lfull : zlen full = 2 * N) by (unfold full; rewrite zlen_repeat; lia).
  assert (Lrow0 : zlen row0 = 2 * N) by (unfold row0; rewrite zlen_repeat; lia).
  set (target := slice full (N - niv) (N + niv)).
  assert (Lt : zlen target = 2 * niv) by (unfold target; rewrite zlen_slice_in; lia).
  destruct (Z.eqb_spec (zlen target) (zlen mat)); [|lia].
  assert (HM : exists rows, mapM (fun tm => assign_slice (fst tm) (N - niv) (N + niv) (snd tm)) (combine target mat) = Ok rows /\
     zlen rows = 2 * niv /\ forall i row, zget rows i = Some row -> exists mrow, zget mat i = Some mrow /\ zlen row = 2 * N /\
        forall j, 0 <= j < 2 * N -> zget row j = if (N - niv <=? j) && (j <? N + niv) then zget mrow (j - (N - niv)) else Some val).
  { assert (HA : forall tm, In tm (combine target mat) -> exists row, assign_slice (fst tm) (N - niv) (N + niv) (snd tm) = Ok row /\
      zlen row = 2 * N /\ forall j, 0 <= j < 2 * N -> zget row j = if (N - niv <=? j) && (j <? N + niv) then zget (snd tm) (j - (N - niv)) else Some val).
    { intros [t mr] Hin. pose proof (in_combine_l _ _ _ _ Hin) as Ht. pose proof (in_combine_r _ _ _ _ Hin) as Hmr.
      assert (t = row0).
      { apply In_zget in Ht. destruct Ht as [k [Hk Hg]]. unfold target in Hg. rewrite zget_slice_in in Hg by lia.
        unfold full in Hg. rewrite zget_repeat in Hg by lia. congruence. }
      subst t. cbn [fst snd]. destruct (@assign_slice_ok _ row0 (N - niv) (N + niv) mr) as (row & E1 & E2 & E3); [lia|lia|lia|rewrite (Hr mr Hmr); lia|].
      exists row. split; [assumption|]. split; [lia|]. intros j Hj. rewrite E3 by lia.
      destruct ((N - niv <=? j) && (j <? N + niv)); [reflexivity|]. unfold row0. apply zget_repeat. lia. }
    assert (HB : exists rows, mapM (fun tm => assign_slice (fst tm) (N - niv) (N + niv) (snd tm)) (combine target mat) = Ok rows).
    { revert HA. generalize (combine target mat). induction l as [|tm l IH]; intros HA; [eexists; reflexivity|].
      cbn [mapM]. destruct (HA tm (or_introl eq_refl)) as (row & -> & _). cbn [bind].
      destruct IH as [rows ->]; [intros t Ht; apply HA; now right|]. eexists; reflexivity. }
    destruct HB as [rows HB]. exists rows. split; [assumption|]. destruct (mapM_zget _ _ HB) as [Lr Gr].
    split; [rewrite Lr, zlen_combine; lia|]. intros i row Hrow.
    pose proof (zget_some_range _ _ Hrow) as Hri. rewrite Lr, zlen_combine in Hri.
    destruct (@zget_in_range _ target i ltac:(lia)) as [t Ht]. destruct (@zget_in_range _ mat i ltac:(lia)) as [mr Hmr].
    assert (Hc : zget (combine target mat) i = Some (t, mr)) by (rewrite zget_combine, Ht, Hmr; reflexivity).
    destruct (Gr i _ Hc) as [row' [Hrow' Hf]]. assert (row' = row) by congruence. subst row'.
    destruct (HA _ (zget_In _ _ Hc)) as (row'' & Hf' & Hlen & Hget). assert (row'' = row) by congruence. subst row''.
    exists mr. split; [assumption|]. split; [assumption|]. exact Hget. }
  destruct HM as (rows & -> & Lrows & Grows). cbn [bind].
  destruct (@assign_slice_ok _ full (N - niv) (N + niv) rows) as (r & Er & Lr & Gr); [lia|lia|lia|lia|].
  exists r. split; [assumption|].
  assert (Hrow : forall i, 0 <= i < 2 * N -> exists row, zget r i = Some row /\ zlen row = 2 * N /\
     forall j, 0 <= j < 2 * N -> zget row j = if (N - niv <=? i) && (i <? N + niv) && ((N - niv <=? j) && (j <? N + niv)) then get2 mat (i - (N - niv)) (j - (N - niv)) else Some val).
  { intros i Hi. rewrite Gr by lia. destruct ((N - niv <=? i) && (i <? N + niv)) eqn:Ei.
    - destruct (@zget_in_range _ rows (i - (N - niv)) ltac:(lia)) as [row Hrow]. exists row. split; [assumption|].
      destruct (Grows _ _ Hrow) as (mr & Hmr & Hlen & Hget). split; [assumption|]. intros j Hj. rewrite Hget by assumption.
      cbn [andb]. unfold get2. rewrite Hmr. reflexivity.
    - exists row0. unfold full. rewrite zget_repeat by lia. split; [reflexivity|]. split; [assumption|].
      intros j Hj. cbn [andb]. unfold row0. apply zget_repeat. lia. }
  split.
  - split; [lia|]. intros row Hin. apply In_zget in Hin. destruct Hin as [i [Hi Hg]].
    destruct (Hrow i ltac:(lia)) as (row' & E & Hlen & _). assert (row' = row) by congruence. now subst.
  - intros v vp Hv Hvp. destruct (Hrow (N + v) ltac:(lia)) as (row & E & _ & Hget). unfold get2 at 1. rewrite E. cbn [obind].
    rewrite Hget by lia.
    replace ((N - niv <=? N + v) && (N + v <? N + niv)) with ((- niv <=? v) && (v <? niv)) by lia.
    replace ((N - niv <=? N + vp) && (N + vp <? N + niv)) with ((- niv <=? vp) && (vp <? niv)) by lia.
    replace (N + v - (N - niv)) with (niv + v) by lia. replace (N + vp - (N - niv)) with (niv + vp) by lia. reflexivity.
Qed.
Lemma append_then_cut A (mat : list (list A)) val niv shell : shape2 mat (2 * niv) (2 * niv) -> 0 <= niv -> 0 <= shell ->
  exists r, append_v_vp_shell mat val shell (2 * niv) = Ok r /\ cut_v_2 r niv = mat.
Proof.
  intros Hs Hn Hsh. destruct (append_shell_spec val Hs Hn Hsh) as (r & Er & Sr & Gr). exists r. split; [assumption|].
  destruct (@cut_v_2_spec _ r (niv + shell) niv Sr ltac:(lia)) as [Sc Gc].
  apply (@shape2_ext _ _ _ _ _ Sc Hs). intros i j Hi Hj.
  replace i with (niv + (i - niv)) at 1 by lia. replace j with (niv + (j - niv)) at 1 by lia.
  rewrite Gc, Gr by lia.
  destruct (Z.leb_spec (- niv) (i - niv)), (Z.ltb_spec (i - niv) niv), (Z.leb_spec (- niv) (j - niv)), (Z.ltb_spec (j - niv) niv); try lia.
  cbn [andb]. f_equal; lia.
Qed.
(** the default niv_shell=-1 loses the whole negative shell *)
Lemma inv_cut_default A (arr : list A) niv core : zlen arr = 2 * niv -> 0 < core <= niv ->
  inv_cut_v_1d arr core (-1) = slice arr (niv + core) (2 * niv).
Proof.
  intros Hl Hc. unfold inv_cut_v_1d. rewrite Hl. replace (2 * niv / 2) with niv by lia. change (-1 =? -1) with true; cbv iota.
  replace (slice arr (niv - niv - core) (niv - core)) with (@nil A).
  2:{ unfold slice. rewrite Hl. assert (E : Z.to_nat (clampi (2 * niv) (niv - core) - clampi (2 * niv) (niv - niv - core)) = 0%nat).
      { unfold clampi. destruct (Z.ltb_spec (niv - core) 0), (Z.ltb_spec (niv - niv - core) 0); lia. }
      rewrite E. reflexivity. }
  cbn [app]. unfold slice. rewrite Hl.
  replace (clampi (2 * niv) (niv + core + niv)) with (clampi (2 * niv) (2 * niv)); [reflexivity|].
  unfold clampi. destruct (Z.ltb_spec (2 * niv) 0), (Z.ltb_spec (niv + core + niv) 0); lia.
Qed.

(** * C12 *)
Lemma w_to_vmvp_spec A (mat : list A) niw : 0 <= niw -> zlen mat = 2 * niw + 1 ->
  exists r, w_to_vmvp mat = Ok r /\ shape2 r (2 * (niw / 2)) (2 * (niw / 2)) /\
    forall v vp, - (niw / 2) <= v < niw / 2 -> - (niw / 2) <= vp < niw / 2 ->
      get2 r (niw / 2 + v) (niw / 2 + vp) = zget mat (niw + (v - vp)) /\ 0 <= niw + (v - vp) < zlen mat.
Proof.
  intros Hn Hl. unfold w_to_vmvp. rewrite Hl. replace ((2 * niw + 1) / 2) with niw by lia. cbv zeta.
  set (n := niw / 2). assert (Hn2 : 0 <= 2 * n <= niw) by lia.
  assert (HS : forall ivp, In ivp (vn n 0 false) -> zlen (slice mat (niw - n - ivp) (niw + n - ivp)) = 2 * n).
  { intros ivp Hin. apply vn_In in Hin. rewrite zlen_slice_in; lia. }
  rewrite (mapM_total _ (fun ivp => slice mat (niw - n - ivp) (niw + n - ivp))).
  2:{ intros ivp Hin. cbv zeta. rewrite (HS _ Hin). now rewrite Z.eqb_refl. }
  cbn [bind]. eexists; split; [reflexivity|].
  set (cols := map _ _).
  assert (SC : shape2 cols (2 * n) (2 * n)).
  { split; [unfold cols; rewrite zlen_map, zlen_vn; lia|]. intros r Hin. apply in_map_iff in Hin. destruct Hin as [ivp [<- Hin]]. now apply HS. }
  split; [apply transpose_shape; [lia|assumption]|].
  intros v vp Hv Hvp. rewrite (@get2_transpose _ cols (2 * n) (2 * n)) by (assumption || lia).
  unfold get2, cols. rewrite zget_map, vn_get by lia. cbn [option_map obind].
  rewrite zget_slice_in by lia. split; [f_equal; lia|lia].
Qed.

(** * C13 *)
Lemma np_array_rows_ok A (rows : list (list A)) k : (forall r, In r rows -> zlen r = k) -> np_array_rows rows = Ok rows.
Proof.
  intros H. destruct rows as [|r rs]; [reflexivity|]. unfold np_array_rows.
  replace (forallb _ rs) with true; [reflexivity|]. symmetry. apply forallb_forall. intros r' Hin.
  rewrite (H r (or_introl eq_refl)), (H r' (or_intror Hin)). apply Z.eqb_refl.
Qed.
Lemma wn_slices_gen_spec A (mat : list A) niv n_cut w : zlen mat = 2 * niv -> 0 <= n_cut ->
  (forall iwn, In iwn w -> n_cut + Z.abs iwn <= niv) ->
  exists r, wn_slices_gen mat n_cut w = Ok r /\ shape2 r (zlen w) (2 * n_cut) /\
    forall j iwn v, zget w j = Some iwn -> - n_cut <= v < n_cut ->
      get2 r j (n_cut + v) = zget mat (niv + (v - iwn)) /\ 0 <= niv + (v - iwn) < zlen mat.
Proof.
  intros Hl Hc Hw. unfold wn_slices_gen. rewrite Hl. replace (2 * niv / 2) with niv by lia. cbv zeta.
  rewrite (@np_array_rows_ok _ _ (2 * n_cut)).
  2:{ intros r Hin. apply in_map_iff in Hin. destruct Hin as [iwn [<- Hin]]. specialize (Hw _ Hin). rewrite zlen_slice_in; lia. }
  eexists; split; [reflexivity|]. split.
  - split; [apply zlen_map|]. intros r Hin. apply in_map_iff in Hin. destruct Hin as [iwn [<- Hin]]. specialize (Hw _ Hin). rewrite zlen_slice_in; lia.
  - intros j iwn v Hj Hv. pose proof (Hw _ (zget_In _ _ Hj)). unfold get2. rewrite zget_map, Hj. cbn [option_map obind].
    rewrite zget_slice_in by lia. split; [f_equal; lia|lia].
Qed.
Lemma wn_slices_shell_spec A (mat : list A) niv n_shell n_core w : zlen mat = 2 * niv -> 0 <= n_shell -> 0 <= n_core ->
  (forall iwn, In iwn w -> n_core + n_shell + Z.abs iwn <= niv) ->
  exists r, wn_slices_shell mat n_shell n_core w = Ok r /\ shape2 r (zlen w) (2 * n_shell) /\
    forall j iwn, zget w j = Some iwn ->
     (forall v, - (n_core + n_shell) <= v < - n_core ->
      get2 r j (n_core + n_shell + v) = zget mat (niv + (v - iwn)) /\ 0 <= niv + (v - iwn) < zlen mat) /\
     (forall v, n_core <= v < n_core + n_shell ->
      get2 r j (n_shell - n_core + v) = zget mat (niv + (v - iwn)) /\ 0 <= niv + (v - iwn) < zlen mat).
Proof.
  intros Hl Hs Hc Hw. unfold wn_slices_shell, niv_from_len. rewrite Hl. replace (2 * niv / 2) with niv by lia. cbv zeta.
  rewrite (@np_array_rows_ok _ _ n_shell).
  2:{ intros r Hin. apply in_map_iff in Hin. destruct Hin as [iwn [<- Hin]]. specialize (Hw _ Hin). rewrite zlen_slice_in; lia. }
  cbn [bind]. rewrite (@np_array_rows_ok _ _ n_shell).
  2:{ intros r Hin. apply in_map_iff in Hin. destruct Hin as [iwn [<- Hin]]. specialize (Hw _ Hin). rewrite zlen_slice_in; lia. }
  cbn [bind]. eexists; split; [reflexivity|]. 
  assert (G : forall j iwn, zget w j = Some iwn -> zget (map2 (fun a b => a ++ b)%list
      (map (fun iwn => slice mat (niv - n_core - n_shell - iwn) (niv - n_core - iwn)) w)
      (map (fun iwn => slice mat (niv + n_core - iwn) (niv + n_core + n_shell - iwn)) w)) j =
      Some (slice mat (niv - n_core - n_shell - iwn) (niv - n_core - iwn) ++ slice mat (niv + n_core - iwn) (niv + n_core + n_shell - iwn))).
  { intros j iwn Hj. rewrite zget_map2, !zget_map, Hj. reflexivity. }
  split.
  - split; [rewrite zlen_map2, !zlen_map; lia|]. intros r Hin. apply In_zget in Hin. destruct Hin as [j [Hj Hg]].
    rewrite zlen_map2, !zlen_map in Hj. destruct (@zget_in_range _ w j ltac:(lia)) as [iwn Hiw].
    rewrite (G _ _ Hiw) in Hg. injection Hg as <-. pose proof (Hw _ (zget_In _ _ Hiw)). rewrite zlen_app, !zlen_slice_in; lia.
  - intros j iwn Hj. pose proof (Hw _ (zget_In _ _ Hj)). unfold get2. rewrite (G _ _ Hj). cbn [obind].
    split; intros v Hv; rewrite zget_app, zlen_slice_in by lia.
    + destruct (Z.ltb_spec (n_core + n_shell + v) (niv - n_core - iwn - (niv - n_core - n_shell - iwn))); [|lia].
      rewrite zget_slice_in by lia. split; [f_equal; lia|lia].
    + destruct (Z.ltb_spec (n_shell - n_core + v) (niv - n_core - iwn - (niv - n_core - n_shell - iwn))); [lia|].
      rewrite zget_slice_in by lia. split; [f_equal; lia|lia].
Qed.
Lemma cut_iv_spec A (mat : list A) niv c iwn : zlen mat = 2 * niv -> 0 <= c -> c + Z.abs iwn <= niv ->
  zlen (cut_iv_with_iw_shift_1d mat c iwn) = 2 * c /\
  forall v, - c <= v < c -> zget (cut_iv_with_iw_shift_1d mat c iwn) (c + v) = zget mat (niv + (v - iwn)) /\ 0 <= niv + (v - iwn) < zlen mat.
Proof.
  intros Hl Hc Hw. unfold cut_iv_with_iw_shift_1d. rewrite Hl. replace (2 * niv / 2) with niv by lia. cbv zeta.
  destruct (Z.eqb_spec c (-1)); [lia|]. split; [rewrite zlen_slice_in; lia|].
  intros v Hv. rewrite zget_slice_in by lia. split; [f_equal; lia|lia].
Qed.
Lemma cut_iv_default A (mat : list A) niv iwn : zlen mat = 2 * niv -> Z.abs iwn <= niv ->
  cut_iv_with_iw_shift_1d mat (-1) iwn = cut_iv_with_iw_shift_1d mat (niv - Z.abs iwn) iwn.
Proof.
  intros Hl Hw. unfold cut_iv_with_iw_shift_1d. rewrite Hl. replace (2 * niv / 2) with niv by lia. change (-1 =? -1) with true; cbv iota. cbv zeta.
  destruct (Z.eqb_spec (niv - Z.abs iwn) (-1)); [lia|reflexivity].
Qed.

(** * C14 *)
Lemma add_into_spec A (add : A -> A -> A) big small N n : zlen big = 2 * N + 1 -> zlen small = 2 * n + 1 -> 0 <= n <= N ->
  exists r, add_into add big small (N - n) (N + n + 1) = Ok r /\ zlen r = 2 * N + 1 /\
   forall w, - N <= w <= N -> zget r (N + w) =
     match zget big (N + w), zget small (n + w) with
     | Some a, Some b => if Z.abs w <=? n then Some (add a b) else Some a
     | Some a, None => Some a
     | None, _ => None
     end.
Proof.
  intros Hb Hs Hn. unfold add_into, np_map2. rewrite zlen_slice_in by lia. rewrite Hs.
  destruct (Z.eqb_spec (N + n + 1 - (N - n)) (2 * n + 1)); [|lia]. cbn [bind].
  destruct (@assign_slice_ok _ big (N - n) (N + n + 1) (map2 add (slice big (N - n) (N + n + 1)) small)) as (r & Er & Lr & Gr);
    [lia|lia|lia|rewrite zlen_map2, zlen_slice_in; lia|].
  exists r. split; [assumption|]. split; [lia|]. intros w Hw. rewrite Gr by lia.
  destruct (@zget_in_range _ big (N + w) ltac:(lia)) as [a Ha]. rewrite Ha.
  destruct (Z.leb_spec (N - n) (N + w)), (Z.ltb_spec (N + w) (N + n + 1)); cbn [andb].
  - rewrite zget_map2, zget_slice_in by lia. replace (N - n + (N + w - (N - n))) with (N + w) by lia. rewrite Ha.
    replace (N + w - (N - n)) with (n + w) by lia. destruct (@zget_in_range _ small (n + w) ltac:(lia)) as [b Hbb]. rewrite Hbb.
    destruct (Z.leb_spec (Z.abs w) n); [reflexivity|lia].
  - rewrite (zget_ge small) by lia. reflexivity.
  - rewrite (zget_neg small) by lia. reflexivity.
  - lia.
Qed.
Lemma add_bosonic_spec A (add : A -> A -> A) m1 m2 n1 n2 :
  (forall x y, add x y = add y x) ->
  0 <= n1 -> 0 <= n2 -> zlen m1 = 2 * n1 + 1 -> zlen m2 = 2 * n2 + 1 ->
  exists r, add_bosonic add m1 m2 = Ok r /\ zlen r = 2 * Z.max n1 n2 + 1 /\
    forall w, bos r w = addo add (bos m1 w) (bos m2 w).
Proof.
  intros Hcomm H1 H2 L1 L2. unfold add_bosonic, niw_from_len. rewrite L1, L2.
  replace ((2 * n1 + 1) / 2) with n1 by lia. replace ((2 * n2 + 1) / 2) with n2 by lia.
  destruct (Z.leb_spec n2 n1).
  - destruct (@add_into_spec _ add m1 m2 n1 n2 L1 L2 ltac:(lia)) as (r & Er & Lr & Gr).
    exists r. split; [assumption|]. split; [lia|]. intros w. unfold bos. rewrite Lr, L1, L2.
    replace ((2 * n1 + 1) / 2) with n1 by lia. replace ((2 * n2 + 1) / 2) with n2 by lia.
    destruct (Z_le_dec (Z.abs w) n1) as [Hw|Hw].
    + rewrite Gr by lia. destruct (@zget_in_range _ m1 (n1 + w) ltac:(lia)) as [a Ha]. rewrite Ha. unfold addo.
      destruct (zget m2 (n2 + w)) as [b|] eqn:Eb; [|reflexivity]. pose proof (zget_some_range _ _ Eb).
      destruct (Z.leb_spec (Z.abs w) n2); [reflexivity|lia].
    + assert (E : forall B (l : list B) k, zlen l = 2 * k + 1 -> k < Z.abs w -> zget l (k + w) = None).
      { intros B l k Hk Hkw. destruct (Z_lt_le_dec w 0); [apply zget_neg; lia|apply zget_ge; lia]. }
      rewrite !E by lia. reflexivity.
  - destruct (@add_into_spec _ add m2 m1 n2 n1 L2 L1 ltac:(lia)) as (r & Er & Lr & Gr).
    exists r. split; [assumption|]. split; [lia|]. intros w. unfold bos. rewrite Lr, L1, L2.
    replace ((2 * n1 + 1) / 2) with n1 by lia. replace ((2 * n2 + 1) / 2) with n2 by lia.
    destruct (Z_le_dec (Z.abs w) n2) as [Hw|Hw].
    + rewrite Gr by lia. destruct (@zget_in_range _ m2 (n2 + w) ltac:(lia)) as [a Ha]. rewrite Ha. unfold addo.
      destruct (zget m1 (n1 + w)) as [b|] eqn:Eb; [|reflexivity]. pose proof (zget_some_range _ _ Eb).
      destruct (Z.leb_spec (Z.abs w) n1); [f_equal; apply Hcomm|lia].
    + assert (E : forall B (l : list B) k, zlen l = 2 * k + 1 -> k < Z.abs w -> zget l (k + w) = None).
      { intros B l k Hk Hkw. destruct (Z_lt_le_dec w 0); [apply zget_neg; lia|apply zget_ge; lia]. }
      rewrite !E by lia. reflexivity.
Qed.
Lemma add_bosonic_comm A (add : A -> A -> A) m1 m2 n1 n2 :
  (forall x y, add x y = add y x) ->
  0 <= n1 -> 0 <= n2 -> zlen m1 = 2 * n1 + 1 -> zlen m2 = 2 * n2 + 1 -> add_bosonic add m1 m2 = add_bosonic add m2 m1.
Proof.
  intros Hc H1 H2 L1 L2. destruct (add_bosonic_spec add m1 m2 Hc H1 H2 L1 L2) as (r & Er & Lr & Gr).
  destruct (add_bosonic_spec add m2 m1 Hc H2 H1 L2 L1) as (r' & Er' & Lr' & Gr'). rewrite Er, Er'. f_equal.
  apply zget_ext; [lia|]. intros i Hi. specialize (Gr (i - zlen r / 2)). specialize (Gr' (i - zlen r / 2)). unfold bos in *.
  replace (zlen r' / 2) with (zlen r / 2) in Gr' by (f_equal; lia).
  replace (zlen r / 2 + (i - zlen r / 2)) with i in Gr, Gr' by lia. rewrite Gr, Gr'.
  unfold addo. destruct (zget m1 _), (zget m2 _); f_equal; auto.
Qed.

(** * ph -> pp *)
Lemma py_get_err A (l : list A) i e : py_get l i = Raise e -> e = IndexError.
Proof. unfold py_get. destruct (zget _ _); [discriminate|intros E; now injection E as <-]. Qed.
Lemma py_get3_ok A (m : list (list (list A))) a b c i j k : shape3 m a b c -> 0 <= i < a -> 0 <= j < b -> 0 <= k < c ->
  exists x, py_get3 m i j k = Ok x /\ get3 m i j k = Some x.
Proof.
  intros [Hl Hr] Hi Hj Hk. unfold py_get3, get3, get2.
  destruct (@py_get_total _ m i ltac:(lia)) as [r [E1 E2]]. rewrite E1, E2. cbn [bind obind].
  destruct (Hr r (zget_In _ _ E2)) as [Hl2 Hr2].
  destruct (@py_get_total _ r j ltac:(lia)) as [s [E3 E4]]. rewrite E3, E4. cbn [bind obind].
  apply py_get_total. rewrite (Hr2 s (zget_In _ _ E4)). lia.
Qed.
Lemma py_get3_err A (m : list (list (list A))) i j k e : py_get3 m i j k = Raise e -> e = IndexError.
Proof.
  unfold py_get3, bind. destruct (py_get m i) as [r|e1] eqn:E1.
  - destruct (py_get r j) as [s|e2] eqn:E2; [apply py_get_err|]. intros E; injection E as <-. eapply py_get_err; eauto.
  - intros E; injection E as <-. eapply py_get_err; eauto.
Qed.
Lemma last_dim_shape A (m : list (list (list A))) a b c : shape3 m a b c -> 0 < a -> 0 < b -> last_dim m = c.
Proof.
  intros [Hl Hr] Ha Hb. unfold last_dim. destruct m as [|x m]; [rewrite zlen_nil in Hl; lia|].
  destruct (Hr x (or_introl eq_refl)) as [Hl2 Hr2]. destruct x as [|y x]; [rewrite zlen_nil in Hl2; lia|].
  apply Hr2. now left.
Qed.

Lemma ph2pp_iwn_spec A (m : list (list (list A))) niw niv iwn_pp : 0 <= niw -> 0 <= niv ->
  shape3 m (2 * niw + 1) (2 * niv) (2 * niv) ->
  let n := Z.min (niw / 3) (niv / 3) in
  - ((2 * niw + 1) / 6) <= iwn_pp <= (2 * niw + 1) / 6 ->
  exists r, ph2pp_iwn m iwn_pp = Ok r /\ shape2 r (2 * n) (2 * n) /\
    forall v vp, - n <= v < n -> - n <= vp < n ->
      (exists x, get2 r (n + v) (n + vp) = Some x /\ get3 m (niw + (v + vp + 1 - iwn_pp)) (niv + v) (niv + vp) = Some x).
Proof.
  intros Hw Hv Hs n Hi. unfold ph2pp_iwn. destruct Hs as [Hl Hr]. rewrite Hl. replace ((2 * niw + 1) / 2) with niw by lia.
  destruct (Z.eq_dec niv 0) as [E0|E0].
  { assert (Hld : last_dim m = 0).
    { unfold last_dim. destruct m as [|[|r x] m]; try reflexivity.
      destruct (Hr _ (or_introl eq_refl)) as [Hl2 _]. rewrite zlen_cons in Hl2. pose proof (zlen_nonneg x). lia. }
    rewrite Hld. cbv zeta. replace (0 / 2) with 0 by reflexivity.
    assert (n = 0) by (unfold n; subst niv; replace (0/3) with 0 by reflexivity; lia).
    replace (Z.min (niw / 3) (0 / 3)) with 0 by (replace (0/3) with 0 by reflexivity; lia).
    exists []. split; [reflexivity|]. split; [split; [rewrite zlen_nil; lia|intros r []]|]. intros; lia. }
  rewrite (@last_dim_shape _ m (2 * niw + 1) (2 * niv) (2 * niv)) by (try split; assumption || lia).
  replace (2 * niv / 2) with niv by lia. cbv zeta. fold n.
  destruct (@mapM_build _ _ (fun vi => mapM (fun vip => py_get3 m (niw + vi + vip + 1 - iwn_pp) (niv + vi) (niv + vip)) (arange (- n) n)) (arange (- n) n)) as [r Er].
  { intros vi Hvi. apply mapM_build. intros vip Hvip. apply In_arange in Hvi, Hvip.
    destruct (@py_get3_ok _ m (2 * niw + 1) (2 * niv) (2 * niv) (niw + vi + vip + 1 - iwn_pp) (niv + vi) (niv + vip)) as [x [Ex _]];
      [split; assumption|lia|lia|lia|eauto]. }
  exists r. split; [assumption|]. destruct (mapM2_get _ _ _ Er) as [Sr Gr].
  rewrite zlen_arange in Sr. split; [replace (2 * n) with (Z.max 0 (n - - n)) by lia; assumption|].
  intros v vp Hv1 Hv2.
  destruct (Gr (n + v) (n + vp) v vp) as [x [Hx Hp]]; [rewrite zget_arange by lia; f_equal; lia|rewrite zget_arange by lia; f_equal; lia|].
  exists x. split; [assumption|].
  destruct (@py_get3_ok _ m (2 * niw + 1) (2 * niv) (2 * niv) (niw + v + vp + 1 - iwn_pp) (niv + v) (niv + vp)) as [y [Ey Ey2]];
    [split; assumption|lia|lia|lia|].
  replace (niw + (v + vp + 1 - iwn_pp)) with (niw + v + vp + 1 - iwn_pp) by lia. congruence.
Qed.

Lemma ph2pp_spec A (m : list (list (list A))) niw niv : 0 <= niw -> 0 <= niv ->
  shape3 m (2 * niw + 1) (2 * niv) (2 * niv) ->
  let n := Z.min (niw / 3) (niv / 3) in
  let nw := (2 * niw + 1) / 6 in
  exists r, ph2pp m = Ok r /\ shape3 r (2 * nw + 1) (2 * n) (2 * n) /\
    forall w v vp, - nw <= w <= nw -> - n <= v < n -> - n <= vp < n ->
      (exists x, get3 r (nw + w) (n + v) (n + vp) = Some x /\ get3 m (niw + (v + vp + 1 - w)) (niv + v) (niv + vp) = Some x).
Proof.
  intros Hw Hv Hs n nw. unfold ph2pp. destruct Hs as [Hl Hr]. rewrite Hl. fold nw.
  destruct (@mapM_build _ _ (ph2pp_iwn m) (wn nw 0 false)) as [r Er].
  { intros w Hin. apply wn_In in Hin. destruct (@ph2pp_iwn_spec _ m niw niv w Hw Hv ltac:(split; assumption) ltac:(fold nw; lia)) as [x [Ex _]]. eauto. }
  exists r. split; [assumption|]. destruct (mapM_zget _ _ Er) as [Lr Gr]. rewrite zlen_wn in Lr by (unfold nw; lia).
  assert (G : forall w, - nw <= w <= nw -> exists row, zget r (nw + w) = Some row /\ ph2pp_iwn m w = Ok row).
  { intros w Hww. apply Gr. rewrite wn_get by lia. f_equal; lia. }
  split.
  - split; [assumption|]. intros row Hin. apply In_zget in Hin. destruct Hin as [i [Hi Hg]].
    destruct (G (i - nw) ltac:(lia)) as [row' [E1 E2]]. replace (nw + (i - nw)) with i in E1 by lia.
    assert (row' = row) by congruence. subst. 
    destruct (@ph2pp_iwn_spec _ m niw niv (i - nw) Hw Hv ltac:(split; assumption) ltac:(fold nw; lia)) as [x [Ex [Sx _]]].
    assert (x = row) by congruence. subst. exact Sx.
  - intros w v vp Hww Hv1 Hv2. destruct (G w Hww) as [row [E1 E2]].
    destruct (@ph2pp_iwn_spec _ m niw niv w Hw Hv ltac:(split; assumption) ltac:(fold nw; lia)) as [x [Ex [Sx Gx]]].
    assert (x = row) by congruence. subst. unfold get3 at 1. rewrite E1. cbn [obind]. apply Gx; assumption.
Qed.

Lemma rmap_err A B (f : A -> B) (m : res A) e : rmap f m = Raise e -> m = Raise e.
Proof. destruct m; cbn; [discriminate|intros E; injection E as <-; reflexivity]. Qed.

Lemma ph2pp_wc_err A opp (m : list (list (list A))) e : ph2pp_wc opp m = Raise e -> e = IndexError.
Proof.
  unfold ph2pp_wc. apply (mapM_err _ _ (fun e => e = IndexError)). intros w e'. unfold ph2pp_iwn_wc.
  apply (mapM_err _ _ (fun e => e = IndexError)). intros vi e''.
  apply (mapM_err _ _ (fun e => e = IndexError)). intros vip e3 H. apply rmap_err in H. eapply py_get3_err; eauto.
Qed.

Lemma last_dim_zero A (m : list (list (list A))) a c : shape3 m a 0 c -> last_dim m = 0.
Proof.
  intros [_ Hr]. unfold last_dim. destruct m as [|[|r x] m]; try reflexivity.
  destruct (Hr _ (or_introl eq_refl)) as [Hl2 _]. rewrite zlen_cons in Hl2. pose proof (zlen_nonneg x). lia.
Qed.
Lemma last_dim_half A (m : list (list (list A))) niw niv : 0 <= niw -> 0 <= niv -> shape3 m (2 * niw + 1) (2 * niv) (2 * niv) -> last_dim m / 2 = niv.
Proof.
  intros Hw Hv Hs. destruct (Z.eq_dec niv 0) as [->|E].
  - rewrite (@last_dim_zero _ m (2 * niw + 1) 0); [reflexivity|exact Hs].
  - rewrite (@last_dim_shape _ m (2 * niw + 1) (2 * niv) (2 * niv)); [lia|assumption|lia|lia].
Qed.

Lemma ph2pp_wc_iwn_spec A opp (m : list (list (list A))) niw niv w : 0 <= niw -> 0 <= niv ->
  shape3 m (2 * niw + 1) (2 * niv) (2 * niv) ->
  let n := Z.min (niw / 2) (niv / 2) in
  n = 0 \/ Z.abs w + n <= niv ->
  exists r, ph2pp_iwn_wc opp m w = Ok r /\ shape2 r (2 * n) (2 * n) /\
    forall v vp, - n <= v < n -> - n <= vp < n ->
      (exists x, get2 r (n + v) (n + vp) = Some (opp x) /\ get3 m (niw + (v - vp)) (niv + v) (niv + (w - vp - 1)) = Some x).
Proof.
  intros Hw Hv Hs n Hi. unfold ph2pp_iwn_wc. rewrite (@last_dim_half _ m niw niv Hw Hv Hs).
  destruct Hs as [Hl Hr]. rewrite Hl. replace ((2 * niw + 1) / 2) with niw by lia. cbv zeta. fold n.
  assert (Hok : forall v vp, - n <= v < n -> - n <= vp < n -> exists x, py_get3 m (niw + v - vp) (niv + v) (niv + w - (vp + 1)) = Ok x /\ get3 m (niw + v - vp) (niv + v) (niv + w - (vp + 1)) = Some x).
  { intros v vp H1 H2. apply (@py_get3_ok _ m (2 * niw + 1) (2 * niv) (2 * niv)); [split; assumption|lia|lia|lia]. }
  destruct (@mapM_build _ _ (fun vi => mapM (fun vip => rmap opp (py_get3 m (niw + vi - vip) (niv + vi) (niv + w - (vip + 1)))) (arange (- n) n)) (arange (- n) n)) as [r Er].
  { intros vi Hvi. apply mapM_build. intros vip Hvip. apply In_arange in Hvi, Hvip. destruct (Hok vi vip Hvi Hvip) as [x [-> _]]. cbn. eauto. }
  exists r. split; [assumption|]. destruct (mapM2_get _ _ _ Er) as [Sr Gr].
  rewrite zlen_arange in Sr. split; [replace (2 * n) with (Z.max 0 (n - - n)) by lia; assumption|].
  intros v vp Hv1 Hv2.
  destruct (Gr (n + v) (n + vp) v vp) as [x [Hx Hp]]; [rewrite zget_arange by lia; f_equal; lia|rewrite zget_arange by lia; f_equal; lia|].
  destruct (Hok v vp Hv1 Hv2) as [y [Ey Ey2]]. rewrite Ey in Hp. cbn in Hp. injection Hp as <-. exists y. split; [assumption|].
  replace (niw + (v - vp)) with (niw + v - vp) by lia. replace (niv + (w - vp - 1)) with (niv + w - (vp + 1)) by lia. assumption.
Qed.

Lemma ph2pp_wc_ok A opp (m : list (list (list A))) niw niv : 0 <= niw -> 0 <= niv ->
  shape3 m (2 * niw + 1) (2 * niv) (2 * niv) ->
  let n := Z.min (niw / 2) (niv / 2) in
  let nw := niw / 2 in
  n = 0 \/ nw + n <= niv ->
  exists r, ph2pp_wc opp m = Ok r /\ shape3 r (2 * nw + 1) (2 * n) (2 * n) /\
    forall w v vp, - nw <= w <= nw -> - n <= v < n -> - n <= vp < n ->
      (exists x, get3 r (nw + w) (n + v) (n + vp) = Some (opp x) /\ get3 m (niw + (v - vp)) (niv + v) (niv + (w - vp - 1)) = Some x).
Proof.
  intros Hw Hv Hs n nw Hd. unfold ph2pp_wc. destruct Hs as [Hl Hr]. rewrite Hl. replace ((2 * niw + 1) / 4) with nw by (unfold nw; lia).
  destruct (@mapM_build _ _ (ph2pp_iwn_wc opp m) (wn nw 0 false)) as [r Er].
  { intros w Hin. apply wn_In in Hin. destruct (@ph2pp_wc_iwn_spec _ opp m niw niv w Hw Hv ltac:(split; assumption) ltac:(fold n; lia)) as [x [Ex _]]. eauto. }
  exists r. split; [assumption|]. destruct (mapM_zget _ _ Er) as [Lr Gr]. rewrite zlen_wn in Lr by (unfold nw; lia).
  assert (G : forall w, - nw <= w <= nw -> exists row, zget r (nw + w) = Some row /\ ph2pp_iwn_wc opp m w = Ok row).
  { intros w Hww. apply Gr. rewrite wn_get by lia. f_equal; lia. }
  split.
  - split; [assumption|]. intros row Hin. apply In_zget in Hin. destruct Hin as [i [Hi Hg]].
    destruct (G (i - nw) ltac:(lia)) as [row' [E1 E2]]. replace (nw + (i - nw)) with i in E1 by lia.
    assert (row' = row) by congruence. subst. 
    destruct (@ph2pp_wc_iwn_spec _ opp m niw niv (i - nw) Hw Hv ltac:(split; assumption) ltac:(fold n; lia)) as [x [Ex [Sx _]]].
    assert (x = row) by congruence. subst. exact Sx.
  - intros w v vp Hww Hv1 Hv2. destruct (G w Hww) as [row [E1 E2]].
    destruct (@ph2pp_wc_iwn_spec _ opp m niw niv w Hw Hv ltac:(split; assumption) ltac:(fold n; lia)) as [x [Ex [Sx Gx]]].
    assert (x = row) by congruence. subst. unfold get3 at 1. rewrite E1. cbn [obind]. apply Gx; assumption.
Qed.

Lemma ph2pp_wc_fails A opp (m : list (list (list A))) niw niv : 0 <= niw -> 0 <= niv ->
  shape3 m (2 * niw + 1) (2 * niv) (2 * niv) ->
  let n := Z.min (niw / 2) (niv / 2) in
  let nw := niw / 2 in
  n <> 0 -> niv < nw + n -> ph2pp_wc opp m = Raise IndexError.
Proof.
  intros Hw Hv Hs n nw Hn Hd.
  assert (HE : exists e, ph2pp_wc opp m = Raise e).
  { unfold ph2pp_wc. apply mapM_raise.
    assert (HF : exists e, ph2pp_iwn_wc opp m nw = Raise e).
    { unfold ph2pp_iwn_wc. rewrite (@last_dim_half _ m niw niv Hw Hv Hs).
      destruct Hs as [Hl Hr]. rewrite Hl. replace ((2 * niw + 1) / 2) with niw by lia. cbv zeta. fold n.
      apply mapM_raise. exists 0.
      assert (HG : exists e, mapM (fun vip => rmap opp (py_get3 m (niw + 0 - vip) (niv + 0) (niv + nw - (vip + 1)))) (arange (- n) n) = Raise e).
      { apply mapM_raise. exists (- n), IndexError. split; [apply In_arange; lia|].
        assert (E : py_get3 m (niw + 0 - - n) (niv + 0) (niv + nw - (- n + 1)) = Raise IndexError).
        { unfold py_get3. destruct (@py_get_total _ m (niw + 0 - - n) ltac:(lia)) as [a [E1 E2]]. rewrite E1. cbn [bind].
          destruct (Hr a (zget_In _ _ E2)) as [Hl2 Hr2].
          destruct (@py_get_total _ a (niv + 0) ltac:(lia)) as [b [E3 E4]]. rewrite E3. cbn [bind].
          apply py_get_out. rewrite (Hr2 b (zget_In _ _ E4)). lia. }
        rewrite E. reflexivity. }
      destruct HG as [e HG]. exists e. split; [apply In_arange; lia|exact HG]. }
    destruct HF as [e HF]. exists nw, e. split; [|assumption]. destruct Hs as [Hl _]. rewrite Hl.
    replace ((2 * niw + 1) / 4) with nw by (unfold nw; lia). apply wn_In. lia. }
  destruct HE as [e HE]. pose proof (ph2pp_wc_err opp m HE). now subst.
Qed.

(** * lookups by bosonic index *)
Lemma get_mat_at_iwn_spec A (m : list A) niw w : 0 <= niw -> zlen m = 2 * niw + 1 -> - niw <= w <= niw ->
  exists x, get_mat_at_iwn m w false = Ok x /\ zget m (niw + w) = Some x.
Proof.
  intros Hn Hl Hw. unfold get_mat_at_iwn, niw_from_len. rewrite Hl. replace ((2 * niw + 1) / 2) with niw by lia.
  apply py_get_total. lia.
Qed.
Lemma get_mat_at_iwn_wrap A (m : list A) niw w : 0 <= niw -> zlen m = 2 * niw + 1 -> - (3 * niw + 1) <= w < - niw ->
  exists x, get_mat_at_iwn m w false = Ok x /\ zget m (niw + (w + (2 * niw + 1))) = Some x.
Proof.
  intros Hn Hl Hw. unfold get_mat_at_iwn, niw_from_len, py_get. rewrite Hl. replace ((2 * niw + 1) / 2) with niw by lia.
  destruct (Z.ltb_spec (niw + w) 0); [|lia]. replace (niw + w + (2 * niw + 1)) with (niw + (w + (2 * niw + 1))) by lia.
  destruct (@zget_in_range _ m (niw + (w + (2 * niw + 1))) ltac:(lia)) as [x ->]. eauto.
Qed.

(** * centred sums *)
Lemma vn_sum_window A (mat : list (list A)) niv s c : shape2 mat (2 * niv) (2 * niv) -> 0 <= c -> c + Z.abs s <= niv ->
  shape2 (window mat (2 * niv) (niv - c + s) (niv + c + s)) (2 * c) (2 * c) /\
  forall v vp, - c + s <= v < c + s -> - c + s <= vp < c + s ->
    get2 (window mat (2 * niv) (niv - c + s) (niv + c + s)) (v + c - s) (vp + c - s) = get2 mat (niv + v) (niv + vp).
Proof.
  intros [Hl Hr] Hc Hs. unfold window. split; [split|].
  - rewrite zlen_map, zlen_slice_in; lia.
  - intros r Hin. apply in_map_iff in Hin. destruct Hin as [row [<- Hin]].
    assert (In row mat). { apply In_zget in Hin. destruct Hin as [i [Hi Hg]]. rewrite zlen_slice_in in Hi by lia. rewrite zget_slice_in in Hg by lia. eapply zget_In; eauto. }
    rewrite zlen_slice_in; rewrite ?(Hr row); auto; lia.
  - intros v vp Hv Hvp. unfold get2. rewrite zget_map, zget_slice_in by lia.
    replace (niv - c + s + (v + c - s)) with (niv + v) by lia.
    destruct (zget mat (niv + v)) as [row|] eqn:E; [|reflexivity]. cbn.
    rewrite zget_slice_in; rewrite ?(Hr row (zget_In _ _ E)); try lia. f_equal; lia.
Qed.
Lemma fermionic_completion A (conj : A -> A) m :
  zlen (fermionic_full_nu_range conj m) = 2 * zlen m /\
  (forall v, 0 <= v < zlen m -> zget (fermionic_full_nu_range conj m) (zlen m + v) = zget m v) /\
  (forall v, 0 <= v < zlen m -> zget (fermionic_full_nu_range conj m) (zlen m + (- v - 1)) = option_map conj (zget m v)).
Proof.
  split; [apply fermionic_len|]. split; [intros; apply fermionic_pos; lia|].
  intros v Hv. rewrite <- fermionic_neg by lia. f_equal; lia.
Qed.
Lemma fermionic_recover A (conj : A -> A) f n : zlen f = 2 * n ->
  (forall v, 0 <= v < n -> zget f (n + (- v - 1)) = option_map conj (zget f (n + v))) ->
  fermionic_full_nu_range conj (clip_pos_mf_vn f) = f.
Proof.
  intros Hl H. apply full_clip_pos with (n := n); [assumption|]. intros v Hv. rewrite <- H by assumption. f_equal; lia.
Qed.
Lemma bosonic_completion A (conj : A -> A) m : 0 < zlen m ->
  zlen (bosonic_full_nu_range conj m) = 2 * (zlen m - 1) + 1 /\
  (forall w, 0 <= w < zlen m -> zget (bosonic_full_nu_range conj m) (zlen m - 1 + w) = zget m w) /\
  (forall w, 0 < w < zlen m -> zget (bosonic_full_nu_range conj m) (zlen m - 1 + - w) = option_map conj (zget m w)).
Proof.
  intros Hm. split; [rewrite bosonic_len; lia|]. split; [intros; apply bosonic_pos; lia|].
  intros w Hw. rewrite <- bosonic_neg by lia. f_equal; lia.
Qed.
Lemma bosonic2_completion A (conj : A -> A) m niw niv : 0 <= niw -> 0 <= niv -> shape2 m (niw + 1) (2 * niv) ->
  shape2 (bosonic_full_nu_range_2 conj m) (2 * niw + 1) (2 * niv) /\
  (forall w v, 0 <= w <= niw -> - niv <= v < niv ->
     get2 (bosonic_full_nu_range_2 conj m) (niw + w) (niv + v) = get2 m w (niv + v)) /\
  (forall w v, 0 < w <= niw -> - niv <= v < niv ->
     get2 (bosonic_full_nu_range_2 conj m) (niw - w) (niv + (- v - 1)) = option_map conj (get2 m w (niv + v))).
Proof.
  intros Hw Hv [Hl Hr]. split; [|split].
  - split; [rewrite bosonic2_len; lia|]. intros r Hin. unfold bosonic_full_nu_range_2 in Hin. apply in_app_or in Hin.
    destruct Hin as [Hin|Hin]; [|now apply Hr]. apply in_map_iff in Hin. destruct Hin as (r0 & <- & Hin).
    unfold flip in *. rewrite zlen_map, zlen_rev. apply in_rev in Hin. apply Hr. apply In_zget in Hin. destruct Hin as (i & Hi & Hg).
    rewrite zlen_slice_in in Hi by lia. rewrite zget_slice_in in Hg by lia. eapply zget_In; eauto.
  - intros w v H1 H2. unfold get2. replace (niw + w) with (zlen m - 1 + w) by lia. now rewrite bosonic2_pos by lia.
  - intros w v H1 H2. unfold get2. replace (niw - w) with (zlen m - 1 - w) by lia. rewrite bosonic2_neg by lia.
    destruct (zget m w) as [r|] eqn:E; [|reflexivity]. cbn. rewrite zget_map, zget_rev, (Hr r (zget_In _ _ E)). do 2 f_equal. lia.
Qed.
Lemma centered_sum_box A (scale : A -> A) (sum : list A -> A) (mat : list (list A)) niv w c :
  shape2 mat (2 * niv) (2 * niv) -> 0 <= c -> c + Z.abs (w / 2) <= niv ->
  exists box, vn_centered_sum_wn scale sum mat (2 * niv) w c = scale (sum (concat box)) /\
    shape2 box (2 * c) (2 * c) /\
    forall v vp, - c <= v < c -> - c <= vp < c -> get2 box (c + v) (c + vp) = get2 mat (niv + (v + w / 2)) (niv + (vp + w / 2)).
Proof.
  intros Hs Hc Hw. unfold vn_centered_sum_wn. destruct (Z.eqb_spec c (-1)); [lia|]. cbv zeta.
  replace (2 * niv / 2) with niv by lia.
  destruct (@vn_sum_window _ mat niv (w / 2) c Hs Hc Hw) as [S G]. eexists. split; [reflexivity|]. split; [exact S|].
  intros v vp H1 H2. rewrite <- G by lia. f_equal; lia.
Qed.
Lemma centered_sum_default A (scale : A -> A) (sum : list A -> A) (mat : list (list A)) ncols w :
  vn_centered_sum_wn scale sum mat ncols w (-1) = scale (sum (concat mat)).
Proof. reflexivity. Qed.
Lemma wn_sum_box A (scale : A -> A) (sum : list A -> A) (mat : list A) niw c :
  zlen mat = 2 * niw + 1 -> 0 <= c <= niw ->
  exists box, wn_sum scale sum mat c = scale (sum box) /\ zlen box = 2 * c + 1 /\
    forall w, - c <= w <= c -> zget box (c + w) = zget mat (niw + w).
Proof.
  intros Hl Hc. unfold wn_sum. destruct (Z.eqb_spec c (-1)); [lia|]. cbv zeta. rewrite Hl.
  replace ((2 * niw + 1) / 2) with niw by lia. eexists. split; [reflexivity|]. split; [rewrite zlen_slice_in; lia|].
  intros w Hw. rewrite zget_slice_in by lia. f_equal; lia.
Qed.
Lemma mat_at_w0_spec A (m : list A) niw : 0 <= niw -> zlen m = 2 * niw + 1 ->
  exists x, mat_at_w0 m false = Ok x /\ zget m niw = Some x.
Proof.
  intros Hn Hl. unfold mat_at_w0, niw_from_len. rewrite Hl. replace ((2 * niw + 1) / 2) with niw by lia.
  apply py_get_total. lia.
Qed.
Lemma get_mat_at_iwn_above A (m : list A) niw w : 0 <= niw -> zlen m = 2 * niw + 1 -> niw < w ->
  get_mat_at_iwn m w false = Raise IndexError.
Proof.
  intros Hn Hl Hw. unfold get_mat_at_iwn, niw_from_len. rewrite Hl. replace ((2 * niw + 1) / 2) with niw by lia.
  apply py_get_out. lia.
Qed.
Lemma from_mat_pos A (mat : list A) : 0 < zlen mat -> vn_from_mat mat 0 true = arange 0 (zlen mat) /\ wn_from_mat mat 0 true = arange 0 (zlen mat).
Proof. intros H. unfold vn_from_mat, wn_from_mat, vn, wn, niv_from_len, niw_from_len. split; f_equal; lia. Qed.
Lemma cut_v_pos_spec A (arr : list A) niv niv_cut niv_min : zlen arr = 2 * niv -> 0 <= niv_min -> 0 <= niv_cut -> niv_min + niv_cut <= niv ->
  zlen (cut_v_1d_pos arr niv_cut niv_min) = niv_cut /\
  forall v, niv_min <= v < niv_min + niv_cut -> zget (cut_v_1d_pos arr niv_cut niv_min) (v - niv_min) = zget arr (niv + v).
Proof.
  intros Hl Hm Hc Hn. unfold cut_v_1d_pos. rewrite Hl. replace (2 * niv / 2) with niv by lia. destruct (Z.eqb_spec niv_cut (-1)); [lia|]. cbv zeta.
  split; [rewrite zlen_slice_in; lia|]. intros v Hv. rewrite zget_slice_in by lia. f_equal. lia.
Qed.
Lemma cut_v_pos_default A (arr : list A) niv : zlen arr = 2 * niv -> cut_v_1d_pos arr (-1) 0 = clip_pos_mf_vn arr.
Proof.
  intros Hl. unfold cut_v_1d_pos, clip_pos_mf_vn, slice_from, niv_from_len. rewrite Hl. replace (2 * niv / 2) with niv by lia. cbv zeta. change (-1 =? -1) with true. cbv iota. f_equal; lia.
Qed.
