(** Proofs about Model/SwkAnalysis.v: the whole run. *)
From Coq Require Import ZArith Reals List Lia Lra Sorted.
From Verif Require Import Base.PyBase Base.Arr Base.PyFacts Base.RSum Model.BrillouinZone Model.KPath Model.MaxEnt Model.RealMesh Model.LocalCont Model.ShownK Model.SwkAnalysis.
From Verif Require Import Spec.BZSpec Spec.ShownKSpec Spec.SwkSpec Proofs.ShownKP Proofs.SwkP Proofs.Swk2P Proofs.Swk3P.
Import ListNotations.
Set Implicit Arguments.
Local Open Scope R_scope.

Lemma cut_entry_off c s : cut_entry c s = cut_off c s.
Proof. destruct s as [a b]. unfold cut_entry, cut_off. cbn. destruct (Rlt_dec (Rabs b) c); reflexivity. Qed.
Lemma samples4_ext A (f g : R -> R -> R -> R -> A) n1 n2 n3 w m : (forall a b c x, f a b c x = g a b c x) -> samples4 f n1 n2 n3 w m -> samples4 g n1 n2 n3 w m.
Proof. intros E [S V]. split; [assumption|]. intros. rewrite <- E. auto. Qed.
Lemma gsample_im mu e Sg a b c x : - 1 / PI * snd (gsample mu e Sg a b c x) = lorentz mu (e a b c) (Sg a b c x) x.
Proof. apply cinv_lorentz. Qed.
Lemma gsample_re mu e Sg a b c x : fst (gsample mu e Sg a b c x) = re_green mu (e a b c) (Sg a b c x) x.
Proof. unfold gsample, cinv, denom, re_green. cbn [fst snd]. f_equal. ring. Qed.
Lemma gsample_periodic mu e Sg : periodic3 e -> periodic4 Sg -> periodic4 (gsample mu e Sg).
Proof.
  intros He Hs x a b c. unfold gsample. destruct (He a b c) as (E1 & E2 & E3). destruct (Hs x a b c) as (F1 & F2 & F3). rewrite E1, E2, E3, F1, F2, F3. auto.
Qed.
Lemma cut_periodic c Sg : periodic4 Sg -> periodic4 (fun a b d x => cut_off c (Sg a b d x)).
Proof. intros Hs x a b d. destruct (Hs x a b d) as (F1 & F2 & F3). rewrite F1, F2, F3. auto. Qed.
Lemma plane_ext f g n1 n2 n3 : (forall a b c, f a b c = g a b c) -> forall i j, plane f n1 n2 n3 i j = plane g n1 n2 n3 i j.
Proof. intros E i j. unfold plane. destruct (_ && _)%bool; [now rewrite E|reflexivity]. Qed.
Lemma sign_change_ext v v' i j : (forall i j, v i j = v' i j) -> sign_change_up v i j -> sign_change_up v' i j.
Proof. intros E (a & Ea & C0). exists a. rewrite <- E. split; [assumption|]. destruct C0 as [C0|(b & Eb & C0)]; [now left|]. right. exists b. rewrite <- !E. tauto. Qed.

Section Run.
Variable minimize : (R -> R) -> R -> R.
Lemma saved_spec e Sg n1 n2 n3 w swk ek mu0 rest n : (0 < n1)%Z -> (0 < n2)%Z -> samples3 e n1 n2 n3 ek -> samples4 Sg n1 n2 n3 w swk ->
  let Sc := fun kx ky kz x => cut_off 0.04 (Sg kx ky kz x) in
  exists f f0 G, main_saved minimize swk w (mu0 :: rest) n ek = Ok (Saved G [minimize f mu0; minimize f0 mu0]) /\
    samples4 (gsample (minimize f mu0) e Sc) n1 n2 n3 w G /\
    (forall mu, f mu = (2 * occupation n1 n2 n3 w mu e Sc - n) ^ 2) /\ (forall mu, f0 mu = (2 * occupation n1 n2 n3 w mu e (fun _ _ _ _ => (0, 0)) - n) ^ 2).
Proof.
  intros H1 H2 He Hs Sc. destruct (@saved_ok minimize e Sg n1 n2 n3 w swk ek mu0 rest n H1 H2 He Hs) as (f & f0 & G & E & SG & F & F0). exists f, f0, G. split; [assumption|]. split; [|split; [|assumption]].
  - apply (samples4_ext (f := gsample (minimize f mu0) e (fun kx ky kz x => cut_entry 0.04 (Sg kx ky kz x)))); [|assumption]. intros. unfold gsample, Sc. now rewrite cut_entry_off.
  - intros mu. rewrite F. do 2 f_equal. f_equal. unfold occupation. apply trapezoid_ext. intros x _. apply bz_mean_ext. intros. unfold Sc. now rewrite cut_entry_off.
Qed.
Lemma saved_lda eps e Sg n1 n2 n3 w swk ek mu0 rest n : (0 < n1)%Z -> (0 < n2)%Z -> (0 < n3)%Z -> samples3 e n1 n2 n3 ek -> samples4 Sg n1 n2 n3 w swk -> stays_if_flat eps minimize ->
  exists G mu, main_saved minimize swk w (mu0 :: rest) n ek = Ok (Saved G [mu; mu0]).
Proof.
  intros H1 H2 H3 He Hs Hm. destruct (@saved_spec e Sg n1 n2 n3 w swk ek mu0 rest n H1 H2 He Hs) as (f & f0 & G & E & SG & F & F0). exists G, (minimize f mu0). rewrite E. do 3 f_equal. f_equal. apply Hm.
  rewrite !F0. now rewrite !no_selfenergy.
Qed.
Variable contour : list (list R) -> list (list (R * R)).
Hypothesis contour_ok : draws_zero_lines contour.
Lemma run_content e Sg n n3 w swk ek mu0 rest nt s p : (2 <= n)%Z -> (0 < n3)%Z -> (0 < zlen w)%Z -> periodic3 e -> periodic4 Sg -> samples3 e n n n3 ek -> samples4 Sg n n n3 w swk ->
  main minimize contour swk w (mu0 :: rest) nt ek n = Ok (s, Ok p) ->
  let Sc := fun kx ky kz x => cut_off 0.04 (Sg kx ky kz x) in
  exists mu mu_lda w0, mu_dga s = [mu; mu_lda] /\ In w0 w /\ (forall x, In x w -> Rabs w0 <= Rabs x) /\
  (forall a b v, In (a, b, v) (shown_map p) <-> exists i j, (0 <= i < n)%Z /\ (0 <= j < n)%Z /\ a = shown_at n j /\ b = shown_at n i /\
     let kx := shifted_mom n i in let ky := shifted_mom n j in let kz := shifted_mom n3 0 in v = lorentz mu (e kx ky kz) (Sc kx ky kz w0) w0) /\
  (forall a b, In (a, b) (fermi_points p) -> exists i j, a = shown_at n i /\ b = shown_at n j /\
     sign_change_up (plane (fun kx ky kz => re_green mu (e kx ky kz) (Sc kx ky kz w0) w0) n n n3) i j).
Proof.
  intros Hn H3 Hw Pe Ps He Hs E Sc. unfold main in E. destruct (@saved_spec e Sg n n n3 w swk ek mu0 rest nt ltac:(lia) ltac:(lia) He Hs) as (f & f0 & G & Es & SG & F & F0). rewrite Es in E. cbn [bind gwk_cont] in E. inversion E as [[E1 E2]]. clear E.
  assert (PG : periodic4 (gsample (minimize f mu0) e Sc)) by (apply gsample_periodic; [assumption|now apply cut_periodic]).
  destruct (@panel_content contour contour_ok _ n n n3 w G PG SG Hn Hn H3 Hw p eq_refl E2) as (w0 & Iw & M & Im & If & Iq). exists (minimize f mu0), (minimize f0 mu0), w0. split; [reflexivity|]. split; [assumption|]. split; [assumption|]. split.
  - intros a b v. rewrite Im. split; intros (i & j & Ri & Rj & Ea & Eb & Ev); exists i, j; repeat (split; [assumption|]); cbv zeta in *; rewrite gsample_im in *; assumption.
  - intros a b I. destruct (If a b I) as (i & j & Ea & Eb & Sc0). exists i, j. repeat (split; [assumption|]). apply (sign_change_ext (v := plane (fun kx ky kz => fst (gsample (minimize f mu0) e Sc kx ky kz w0)) n n n3)); [|assumption].
    apply plane_ext. intros. apply gsample_re.
Qed.
Lemma run_no_crossing e Sg n1 n2 n3 w swk ek mu0 rest nt : (2 <= n1)%Z -> (2 <= n2)%Z -> (0 < n3)%Z -> (0 < zlen w)%Z -> periodic3 e -> periodic4 Sg -> samples3 e n1 n2 n3 ek -> samples4 Sg n1 n2 n3 w swk ->
  forall s, main_saved minimize swk w (mu0 :: rest) nt ek = Ok s ->
  (forall mu mu_lda kx ky kz x, mu_dga s = [mu; mu_lda] -> In x w -> (forall y, In y w -> Rabs x <= Rabs y) -> 0 < x + mu - e kx ky kz - fst (Sg kx ky kz x)) ->
  main minimize contour swk w (mu0 :: rest) nt ek n1 = Ok (s, Raise IndexError).
Proof.
  intros H1 H2 H3 Hw Pe Ps He Hs s E Pos. unfold main. rewrite E. cbn [bind]. do 2 f_equal.
  destruct (@saved_spec e Sg n1 n2 n3 w swk ek mu0 rest nt ltac:(lia) ltac:(lia) He Hs) as (f & f0 & G & Es & SG & F & F0). rewrite Es in E. inversion E; subst s. cbn [gwk_cont mu_dga] in *.
  assert (PG : periodic4 (gsample (minimize f mu0) e (fun kx ky kz x => cut_off 0.04 (Sg kx ky kz x)))) by (apply gsample_periodic; [assumption|now apply cut_periodic]).
  apply (@panel_no_crossing contour contour_ok _ n1 n2 n3 w G PG SG H1 H2 H3 Hw). intros w0 i j a Iw M Ea. destruct (plane_inv _ _ _ _ _ _ Ea) as (Ri & Rj & ->). rewrite gsample_re. unfold re_green.
  set (kx := shifted_mom n1 i). set (ky := shifted_mom n2 j). set (kz := shifted_mom n3 0). specialize (Pos (minimize f mu0) (minimize f0 mu0) kx ky kz w0 eq_refl Iw M).
  cbn [fst cut_off]. set (d := w0 + minimize f mu0 - e kx ky kz - fst (Sg kx ky kz w0)) in *. apply Rdiv_lt_0_compat; [exact Pos|]. match goal with |- 0 < _ + ?q ^ 2 => pose proof (Rle_0_sqr q); unfold Rsqr in * end. nra.
Qed.
Lemma run_works e Sg n n3 w swk ek mu0 rest nt : (2 <= n)%Z -> (0 < n3)%Z -> (0 < zlen w)%Z -> periodic3 e -> periodic4 Sg -> samples3 e n n n3 ek -> samples4 Sg n n n3 w swk ->
  forall s, main_saved minimize swk w (mu0 :: rest) nt ek = Ok s ->
  (forall mu mu_lda x, mu_dga s = [mu; mu_lda] -> In x w -> (forall y, In y w -> Rabs x <= Rabs y) -> exists i j a b,
     let v := plane (fun kx ky kz => x + mu - e kx ky kz - fst (Sg kx ky kz x)) n n n3 in v i j = Some a /\ (v (i + 1)%Z j = Some b \/ v i (j + 1)%Z = Some b) /\ a * b < 0) ->
  exists p, main minimize contour swk w (mu0 :: rest) nt ek n = Ok (s, Ok p).
Proof.
  intros Hn H3 Hw Pe Ps He Hs s E Cr. unfold main. rewrite E. cbn [bind].
  destruct (@saved_spec e Sg n n n3 w swk ek mu0 rest nt ltac:(lia) ltac:(lia) He Hs) as (f & f0 & G & Es & SG & F & F0). rewrite Es in E. inversion E; subst s. cbn [gwk_cont mu_dga] in *.
  set (Sc := fun kx ky kz x => cut_off 0.04 (Sg kx ky kz x)) in *. assert (PG : periodic4 (gsample (minimize f mu0) e Sc)) by (apply gsample_periodic; [assumption|now apply cut_periodic]).
  destruct (@panel_works contour contour_ok _ n n n3 w G PG SG Hn Hn H3 Hw eq_refl) as [p Ep]; [|exists p; now rewrite Ep].
  intros w0 Iw M. destruct (Cr (minimize f mu0) (minimize f0 mu0) w0 eq_refl Iw M) as (i & j & a & b & Ea & Eb & Hab).
  set (d := fun kx ky kz => w0 + minimize f mu0 - e kx ky kz - fst (Sg kx ky kz w0)) in *. set (q := fun kx ky kz => d kx ky kz ^ 2 + snd (Sc kx ky kz w0) ^ 2).
  assert (Q : forall kx ky kz, 0 < q kx ky kz). { intros. unfold q, Sc, cut_off. cbn [snd]. pose proof (Rle_0_sqr (d kx ky kz)). unfold Rsqr in *. destruct (Rlt_dec (Rabs (snd (Sg kx ky kz w0))) 0.04) as [L|L]; [nra|].
    assert (snd (Sg kx ky kz w0) <> 0). { intros Z0. rewrite Z0, Rabs_R0 in L. lra. } assert (0 < snd (Sg kx ky kz w0) * snd (Sg kx ky kz w0)) by (apply Rsqr_pos_lt; assumption). nra. }
  assert (X : forall i j, plane (fun kx ky kz => fst (gsample (minimize f mu0) e Sc kx ky kz w0)) n n n3 i j = plane (fun kx ky kz => d kx ky kz / q kx ky kz) n n n3 i j).
  { apply plane_ext. intros. rewrite gsample_re. reflexivity. }
  assert (Y : forall i j a, plane d n n n3 i j = Some a -> exists r, 0 < r /\ plane (fun kx ky kz => fst (gsample (minimize f mu0) e Sc kx ky kz w0)) n n n3 i j = Some (a * r)).
  { intros i' j' a' E'. destruct (plane_inv _ _ _ _ _ _ E') as (Ri & Rj & ->). rewrite X. rewrite plane_in by assumption. eexists. split; [|unfold Rdiv; reflexivity]. now apply Rinv_0_lt_compat. }
  destruct (Y _ _ _ Ea) as (r & Hr & Er). exists i, j, (a * r). destruct Eb as [Eb|Eb]; destruct (Y _ _ _ Eb) as (r' & Hr' & Er'); exists (b * r'); (split; [assumption|]); (split; [tauto|]);
    replace (a * r * (b * r')) with (a * b * (r * r')) by ring; assert (0 < r * r') by (now apply Rmult_lt_0_compat); nra.
Qed.
Lemma run_rectangular e Sg n1 n2 n3 w swk ek mu0 rest nt : (2 <= n1)%Z -> (2 <= n2)%Z -> n1 <> n2 -> (0 < n3)%Z -> (0 < zlen w)%Z -> periodic3 e -> periodic4 Sg -> samples3 e n1 n2 n3 ek -> samples4 Sg n1 n2 n3 w swk ->
  exists s ex, main minimize contour swk w (mu0 :: rest) nt ek n1 = Ok (s, Raise ex).
Proof.
  intros H1 H2 N H3 Hw Pe Ps He Hs. destruct (@saved_spec e Sg n1 n2 n3 w swk ek mu0 rest nt ltac:(lia) ltac:(lia) He Hs) as (f & f0 & G & Es & SG & F & F0).
  assert (PG : periodic4 (gsample (minimize f mu0) e (fun kx ky kz x => cut_off 0.04 (Sg kx ky kz x)))) by (apply gsample_periodic; [assumption|now apply cut_periodic]).
  destruct (@panel_rectangular contour contour_ok _ n1 n2 n3 w G PG SG H1 H2 H3 Hw N) as [ex E]. eexists. exists ex. unfold main. rewrite Es. cbn [bind gwk_cont]. rewrite E. reflexivity.
Qed.
Lemma run_quasi e Sg n n3 w swk ek mu0 rest nt s p : (2 <= n)%Z -> (0 < n3)%Z -> (0 < zlen w)%Z -> periodic3 e -> periodic4 Sg -> samples3 e n n n3 ek -> samples4 Sg n n n3 w swk ->
  main minimize contour swk w (mu0 :: rest) nt ek n = Ok (s, Ok p) ->
  exists mu mu_lda, mu_dga s = [mu; mu_lda] /\ forall i j l t x, (0 <= i < n)%Z -> (0 <= j < n)%Z -> (0 <= l < n3)%Z -> zget w t = Some x ->
    let kx := shifted_mom n i in let ky := shifted_mom n j in let kz := shifted_mom n3 l in
    exists q, get4 (quasi p) i j l t = Some q /\ (q = 1 \/ q = 0) /\ (q = 1 <-> e kx ky kz + fst (Sg kx ky kz x) - mu <= x).
Proof.
  intros Hn H3 Hw Pe Ps He Hs E. unfold main in E. destruct (@saved_spec e Sg n n n3 w swk ek mu0 rest nt ltac:(lia) ltac:(lia) He Hs) as (f & f0 & G & Es & SG & F & F0). rewrite Es in E. cbn [bind gwk_cont] in E. inversion E as [[E1 E2]]. clear E.
  set (Sc := fun kx ky kz x => cut_off 0.04 (Sg kx ky kz x)) in *.
  assert (PG : periodic4 (gsample (minimize f mu0) e Sc)) by (apply gsample_periodic; [assumption|now apply cut_periodic]).
  destruct (@panel_content contour contour_ok _ n n n3 w G PG SG Hn Hn H3 Hw p eq_refl E2) as (w0 & _ & _ & _ & _ & Iq). exists (minimize f mu0), (minimize f0 mu0). split; [reflexivity|]. intros i j l t x Hi Hj Hl Hx kx ky kz.
  rewrite Iq. rewrite (@quasi_entries _ n n n3 w G PG SG Hn Hn H3 t i j l x Hi Hj Hl Hx). fold kx ky kz. eexists. split; [reflexivity|].
  assert (V : fst (cinv (gsample (minimize f mu0) e Sc kx ky kz x)) = x + minimize f mu0 - e kx ky kz - fst (Sg kx ky kz x)).
  { unfold gsample. rewrite cinv_cinv; [reflexivity|]. unfold denom, Sc, cut_off. cbn [fst snd]. intros Q. inversion Q as [[Q1 Q2]]. destruct (Rlt_dec (Rabs (snd (Sg kx ky kz x))) 0.04) as [L|L]; [lra|].
    assert (snd (Sg kx ky kz x) = 0) by lra. rewrite H, Rabs_R0 in L. lra. }
  rewrite V. destruct (Rlt_dec _ 0) as [L|L]; (split; [tauto|]); split; intros; lra.
Qed.
End Run.

(** Every function has an array of its values *)
Definition values3 {A} (f : R -> R -> R -> A) (n1 n2 n3 : Z) : list (list (list A)) :=
  map (fun i => map (fun j => map (fun l => f (mom n1 i) (mom n2 j) (mom n3 l)) (arange 0 n3)) (arange 0 n2)) (arange 0 n1).
Definition values4 {A} (f : R -> R -> R -> R -> A) (n1 n2 n3 : Z) (w : list R) : arr4 A := values3 (fun a b c => map (f a b c) w) n1 n2 n3.
Lemma values3_ok A (f : R -> R -> R -> A) n1 n2 n3 : (0 <= n1)%Z -> (0 <= n2)%Z -> (0 <= n3)%Z -> samples3 f n1 n2 n3 (values3 f n1 n2 n3).
Proof.
  intros H1 H2 H3. unfold values3. split.
  - split; [rewrite zlen_map, zlen_arange; lia|]. intros r I. apply in_map_iff in I. destruct I as (i & <- & _). split; [rewrite zlen_map, zlen_arange; lia|]. intros q I. apply in_map_iff in I. destruct I as (j & <- & _). rewrite zlen_map, zlen_arange; lia.
  - intros i j l Hi Hj Hl. unfold get3, get2. rewrite zget_map, zget_arange by lia. cbn. rewrite zget_map, zget_arange by lia. cbn. rewrite zget_map, zget_arange by lia. reflexivity.
Qed.
Lemma values4_ok A (f : R -> R -> R -> R -> A) n1 n2 n3 w : (0 <= n1)%Z -> (0 <= n2)%Z -> (0 <= n3)%Z -> samples4 f n1 n2 n3 w (values4 f n1 n2 n3 w).
Proof.
  intros H1 H2 H3. destruct (@values3_ok _ (fun a b c => map (f a b c) w) n1 n2 n3 H1 H2 H3) as [S V]. unfold values4. split.
  - split; [assumption|]. intros i j l s E. pose proof (get3_inv _ _ _ S E) as (Ri & Rj & Rl). rewrite V in E by assumption. inversion E. apply zlen_map.
  - intros i j l t x Hi Hj Hl Hx. unfold get4. rewrite V by assumption. cbn. now rewrite zget_map, Hx.
Qed.
