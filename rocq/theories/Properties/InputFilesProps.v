(** C93: reading the two-particle input files. *)
From Coq Require Import String Lia List.
From Verif Require Import Base.PyBase Base.PyFacts Base.Arr Model.Util Model.Matsubara Model.MpiAux Model.RankFiles Model.InputFiles Spec.InputSpec Proofs.StrP Proofs.InputFilesP.
Set Implicit Arguments.
Local Open Scope Z_scope.

(** The search loops end for every file. *)
Theorem C93_terminates : forall A (f : h5 A) ineq channel sb, read_g2_full f ineq channel sb <> None /\ get_niw f ineq channel sb <> None.
Proof.
  intros A f ineq [ch|] sb.
  - destruct (first_missing f ineq ch sb) as [n [B [S N]]]. pose (d := fun w => match h5_get f (dset ineq ch sb w) with Ok d => d | Raise _ => [] end).
    assert (G : forall w, 0 <= w < n -> h5_get f (dset ineq ch sb w) = Ok (d w)) by (intros w Hw; apply S in Hw; apply get_stored in Hw as [x Hx]; unfold d; now rewrite Hx).
    unfold zlen in B. split.
    + unfold read_g2_full. rewrite (@loop_spec A f ineq ch sb n d) by (assumption || lia). discriminate.
    + unfold get_niw. rewrite (@count_spec A f ineq ch sb n) by (assumption || lia). discriminate.
  - split; cbn; discriminate.
Qed.
(** Different atoms, channels, frequencies or band groups have different datasets. *)
Theorem C93_names : forall i j c e s t a b, 0 <= i -> 0 <= j -> 0 <= a -> 0 <= b -> (c = "dens" \/ c = "magn")%string -> (e = "dens" \/ e = "magn")%string ->
  dset i c s a = dset j e t b -> i = j /\ c = e /\ s = t /\ a = b.
Proof. exact dset_inj_all. Qed.
(** read_g2_full returns the stored matrices, transposed, in the order of the
    positions, and get_niw half their number. *)
Theorem C93_read_full : forall A (f : h5 A) ineq ch sb n m d, 0 <= n -> holds f ineq ch sb n m d ->
  exists r, read_g2_full f ineq (Some ch) sb = Some (Ok r) /\ shape3 r n m m /\
    (forall w v vp, 0 <= w < n -> 0 <= v < m -> 0 <= vp < m -> get3 r w v vp = get2 (d w) vp v) /\
    get_niw f ineq (Some ch) sb = Some (Ok (n / 2)).
Proof.
  intros A f ineq ch sb n m d Hn H. destruct (full_spec Hn H) as [E1 E2]. destruct H as [H1 H2]. eexists. split; [exact E1|]. split; [|split; [|exact E2]].
  - split; [rewrite zlen_map; unfold range; rewrite zlen_arange; lia|]. intros r Hr. apply in_map_iff in Hr as [w [<- Hw]]. apply In_arange in Hw. apply tr_shape, H1, Hw.
  - intros. apply full_get with m; try assumption. intros w' Hw'. apply H1, Hw'.
Qed.
(** read_g2_iw returns the matrices at the requested Matsubara indices: for a file with
    2 niw + 1 frequencies the index w is at position niw + w; an index whose
    dataset does not exist is a KeyError. *)
Theorem C93_read_iw : forall A (f : h5 A) ineq ch sb niw m d iw, 0 <= niw -> holds f ineq ch sb (2 * niw + 1) m d ->
  (forall w, In w iw -> - niw <= w <= niw) ->
  exists r, read_g2_iw f ineq (Some ch) sb iw = Some (Ok r) /\ zlen r = zlen iw /\
    forall i w v vp, zget iw i = Some w -> 0 <= v < m -> 0 <= vp < m -> get3 r i v vp = get2 (d (niw + w)) vp v.
Proof.
  intros A f ineq ch sb niw m d iw Hn H Hiw. destruct (full_spec (ltac:(lia) : 0 <= 2 * niw + 1) H) as [_ E]. destruct H as [H1 H2]. unfold read_g2_iw. rewrite E. cbn [bind].
  replace ((2 * niw + 1) / 2) with niw by (apply Z.div_unique with 1; lia). exists (map (fun w => tr (d (niw + w))) iw).
  rewrite (@mapM_map _ _ _ (fun w => tr (d (niw + w)))).
  - cbn [bind]. split; [|split].
    + f_equal. apply array3_ok with m. intros x Hx. apply in_map_iff in Hx as [w [<- Hw]]. apply tr_shape, H1. apply Hiw in Hw. lia.
    + now rewrite zlen_map.
    + intros i w v vp Hi Hv Hp. unfold get3. rewrite zget_map, Hi. cbn. apply tr_get with m; try assumption. apply H1. apply zget_In in Hi. apply Hiw in Hi. lia.
  - intros w Hw. apply Hiw in Hw. unfold cen2lin. replace (w - - niw) with (niw + w) by lia. apply g2_read_ok. apply H1. lia.
Qed.
Theorem C93_read_iw_missing : forall A (f : h5 A) ineq ch sb niw m d iw w, 0 <= niw -> holds f ineq ch sb (2 * niw + 1) m d ->
  In w iw -> ~ stored f (dset ineq ch sb (niw + w)) -> read_g2_iw f ineq (Some ch) sb iw = Some (Raise KeyError).
Proof.
  intros A f ineq ch sb niw m d iw w Hn H Hw Hs. destruct (full_spec (ltac:(lia) : 0 <= 2 * niw + 1) H) as [_ E]. unfold read_g2_iw. rewrite E. cbn [bind].
  replace ((2 * niw + 1) / 2) with niw by (apply Z.div_unique with 1; lia).
  assert (G : mapM (fun w => g2_read f ineq (Some ch) (cen2lin w (- niw)) sb) iw = Raise KeyError).
  { clear - Hw Hs. induction iw as [|x l IH]; [contradiction|]. cbn [mapM]. destruct Hw as [<-|Hw].
    - unfold cen2lin. replace (x - - niw) with (niw + x) by lia. now rewrite g2_read_missing.
    - unfold g2_read at 1. cbn [g2_path bind]. fold (dset ineq ch sb (cen2lin x (- niw))). destruct (h5_get f (dset ineq ch sb (cen2lin x (- niw)))) as [y|e] eqn:Ey; cbn [bind].
      + rewrite IH by assumption. reflexivity.
      + destruct (stored_dec f (dset ineq ch sb (cen2lin x (- niw)))) as [S|S]; [apply get_stored in S as [y S]; congruence|apply get_missing in S; congruence]. }
  now rewrite G.
Qed.
(** read_g2 with the frequency numbers of the file agrees with read_g2_full. *)
Theorem C93_read_g2 : forall A (f : h5 A) ineq ch sb niw niv d, 0 <= niw -> 0 <= niv -> holds f ineq ch sb (2 * niw + 1) (2 * niv) d ->
  Some (read_g2 f ineq (Some ch) niw niv sb) = read_g2_full f ineq (Some ch) sb.
Proof.
  intros A f ineq ch sb niw niv d Hn Hv H. destruct (full_spec (ltac:(lia) : 0 <= 2 * niw + 1) H) as [E _]. rewrite E. f_equal. destruct H as [H1 _]. unfold read_g2. apply mapM_map.
  intros w Hw. apply In_arange in Hw. destruct (H1 w Hw) as [G S]. rewrite (@g2_read_ok _ f ineq ch sb w (d w) G). cbn [bind]. apply bcast2_same, tr_shape, S.
Qed.
(** Finding: with a smaller number of frequencies, niw < N, read_g2 does not return the
    2 niw + 1 frequencies around zero but the lowest ones: what it stores for the
    Matsubara index w (at niw + w) is the matrix of the index w - (N - niw). *)
Theorem C93_read_g2_finding : forall A (f : h5 A) ineq ch sb N niw niv d, 0 <= niw < N -> 0 <= niv -> holds f ineq ch sb (2 * N + 1) (2 * niv) d ->
  exists r full, read_g2 f ineq (Some ch) niw niv sb = Ok r /\ read_g2_full f ineq (Some ch) sb = Some (Ok full) /\ zlen r = 2 * niw + 1 /\
    forall w, - niw <= w <= niw -> zget r (niw + w) = zget full (N + (w - (N - niw))) /\ w - (N - niw) < w.
Proof.
  intros A f ineq ch sb N niw niv d Hn Hv H. destruct (full_spec (ltac:(lia) : 0 <= 2 * N + 1) H) as [E _]. destruct H as [H1 _].
  exists (map (fun w => tr (d w)) (range (2 * niw + 1))). eexists. split; [|split; [exact E|split]].
  - unfold read_g2. apply mapM_map. intros w Hw. apply In_arange in Hw. destruct (H1 w ltac:(lia)) as [G S]. rewrite (@g2_read_ok _ f ineq ch sb w (d w) G). cbn [bind]. apply bcast2_same, tr_shape, S.
  - rewrite zlen_map. unfold range. rewrite zlen_arange. lia.
  - intros w Hw. rewrite !zget_map, !zget_range by lia. replace (N + (w - (N - niw))) with (niw + w) by lia. split; [reflexivity|lia].
Qed.
(** Finding: a dataset missing at position p < 2 N + 1 is not an error: all higher
    frequencies are dropped silently, and the frequency index that the program
    assigns to a matrix (mf.wn of the array) is off by N - p/2. *)
Theorem C93_gap_finding : forall A (f : h5 A) ineq ch sb N p m d, 0 <= p < 2 * N + 1 -> holds f ineq ch sb p m d ->
  exists r, read_g2_full f ineq (Some ch) sb = Some (Ok r) /\ zlen r = p /\
    forall w, - (p / 2) <= w < p - p / 2 -> zget r (niw_from_len (zlen r) false + w) = Some (tr (d (N + (w - (N - p / 2))))).
Proof.
  intros A f ineq ch sb N p m d Hp H. destruct (full_spec (ltac:(lia) : 0 <= p) H) as [E _]. eexists. split; [exact E|].
  assert (L : zlen (map (fun w => tr (d w)) (range p)) = p) by (rewrite zlen_map; unfold range; rewrite zlen_arange; lia). split; [exact L|].
  intros w Hw. rewrite L. unfold niw_from_len. rewrite zget_map, zget_range by lia. cbn. do 3 f_equal. lia.
Qed.
(** Finding: without a channel (the default argument) read_g2_full returns an empty
    array, the TypeError is swallowed; get_niw and read_g2 raise it. *)
Theorem C93_no_channel_finding : forall A (f : h5 A) ineq sb niw niv, 0 <= niw ->
  read_g2_full f ineq None sb = Some (Ok []) /\ get_niw f ineq None sb = Some (Raise TypeError) /\ read_g2 f ineq None niw niv sb = Raise TypeError.
Proof.
  intros A f ineq sb niw niv H. repeat split. unfold read_g2, range, arange. replace (Z.to_nat (2 * niw + 1 - 0)) with (S (Z.to_nat (2 * niw))) by lia. reflexivity.
Qed.
(** What symmetrize.py writes for x[v,vp,w] is read back as G2[w,v,vp] = x[v,vp,w]. *)
Theorem C93_symmetrize_roundtrip : forall A (x : list (list (list A))) ineq ch sb n4iwb m, 0 <= n4iwb -> shape3 x m m (2 * n4iwb + 1) ->
  exists f r, sym_write ineq ch n4iwb sb x = Ok f /\ read_g2_full f ineq (Some ch) sb = Some (Ok r) /\ shape3 r (2 * n4iwb + 1) m m /\
    forall w v vp, 0 <= w < 2 * n4iwb + 1 -> 0 <= v < m -> 0 <= vp < m -> get3 r w v vp = get3 x v vp w.
Proof.
  intros A x ineq ch sb n m Hn [Lx Sx]. set (N := 2 * n + 1) in *.
  assert (X : forall w, 0 <= w < N -> exists e, x_at x w = Ok e /\ shape2 e m m /\ forall v vp, 0 <= v < m -> 0 <= vp < m -> get2 e v vp = get3 x v vp w).
  { intros w Hw. unfold x_at. destruct (@mapM_build _ _ (fun row : list (list A) => mapM (fun t => py_get t w) row) x) as [e E].
    - intros row Hr. apply mapM_build. intros t Ht. destruct (Sx row Hr) as [_ St]. unfold py_get. rewrite (St t Ht). destruct (Z.ltb_spec w 0); [lia|].
      destruct (@zget_in_range _ t w) as [a Ha]; [rewrite (St t Ht); lia|]. rewrite Ha. eauto.
    - exists e. split; [exact E|]. destruct (mapM_zget _ _ E) as [Le G]. split; [split; [lia|]|].
      + intros r Hr. apply In_zget in Hr as [i [Hi Hg]]. destruct (@zget_in_range _ x i) as [row Erow]; [lia|]. destruct (G i row Erow) as [r' [E1 E2]].
        assert (r' = r) by congruence. subst r'. apply mapM_zget in E2 as [L2 _]. rewrite L2. apply (Sx row (zget_In _ _ Erow)).
      + intros v vp Hv Hp. destruct (@zget_in_range _ x v) as [row Erow]; [lia|]. destruct (G v row Erow) as [r' [E1 E2]]. apply mapM_zget in E2 as [L2 G2].
        destruct (Sx row (zget_In _ _ Erow)) as [Lr Sr]. destruct (@zget_in_range _ row vp) as [t Et]; [lia|]. destruct (G2 vp t Et) as [a [E3 E4]].
        unfold get3, get2. rewrite E1, Erow. cbn. rewrite E3, Et. cbn. unfold py_get in E4. rewrite (Sr t (zget_In _ _ Et)) in E4. destruct (Z.ltb_spec w 0); [lia|]. destruct (zget t w); [congruence|discriminate]. }
  pose (e := fun w => match x_at x w with Ok y => y | Raise _ => [] end).
  assert (Xe : forall w, 0 <= w < N -> x_at x w = Ok (e w) /\ shape2 (e w) m m /\ forall v vp, 0 <= v < m -> 0 <= vp < m -> get2 (e w) v vp = get3 x v vp w).
  { intros w Hw. destruct (X w Hw) as [y [E1 E2]]. unfold e. rewrite E1. auto. }
  exists (map (fun w => (dset ineq ch sb w, tr (e w))) (range N)).
  assert (HF : holds (map (fun w => (dset ineq ch sb w, tr (e w))) (range N)) ineq ch sb N m (fun w => tr (e w))).
  { split.
    - intros w Hw. split; [|apply tr_shape, Xe, Hw]. assert (I : In w (range N)) by (apply In_arange; lia). revert I. generalize (range N). clear.
      induction l as [|a l IH]; intros I; [contradiction|]. cbn [map h5_get]. destruct (String.eqb_spec (dset ineq ch sb w) (dset ineq ch sb a)) as [E|E].
      + apply dset_inj in E. rewrite E. reflexivity.
      + destruct I as [->|I]; [now elim E|]. now apply IH.
    - intros I. unfold stored in I. rewrite map_map in I. cbn in I. apply in_map_iff in I as [w [E I]]. apply dset_inj in E. apply In_arange in I. lia. }
  destruct (full_spec (ltac:(lia) : 0 <= N) HF) as [E _]. eexists. split; [|split; [exact E|split]].
  - unfold sym_write. fold N. apply mapM_map. intros w Hw. apply In_arange in Hw. destruct (Xe w Hw) as [E1 _]. rewrite E1. reflexivity.
  - split; [rewrite zlen_map; unfold range; rewrite zlen_arange; lia|]. intros r Hr. apply in_map_iff in Hr as [w [<- Hw]]. apply In_arange in Hw. apply tr_shape, tr_shape, Xe, Hw.
  - intros w v vp Hw Hv Hp. unfold get3 at 1. rewrite zget_map, zget_range by assumption. cbn. destruct (Xe w Hw) as [_ [S G]]. rewrite (tr_tr S). now apply G.
Qed.

(** non-vacuity: a file with three frequencies of a 2x2 matrix *)
Definition ex_x : list (list (list Z)) := [[[1;2;3];[4;5;6]];[[7;8;9];[10;11;12]]].
Example C93_ex : exists f, sym_write 1 "dens" 1 1 ex_x = Ok f /\ map fst f = ["/ineq-001/dens/00000/00001/value"; "/ineq-001/dens/00001/00001/value"; "/ineq-001/dens/00002/00001/value"]%string /\
  read_g2_full f 1 (Some "dens"%string) 1 = Some (Ok [[[1;4];[7;10]];[[2;5];[8;11]];[[3;6];[9;12]]]) /\
  read_g2_iw f 1 (Some "dens"%string) 1 [0; 1] = Some (Ok [[[2;5];[8;11]];[[3;6];[9;12]]]) /\ read_g2_iw f 1 (Some "dens"%string) 1 [-2] = Some (Raise KeyError) /\
  read_g2 f 1 (Some "dens"%string) 0 1 1 = Ok [[[1;4];[7;10]]] /\ read_g2_full f 1 (Some "magn"%string) 1 = Some (Ok []).
Proof. eexists. split; [reflexivity|]. repeat split; vm_compute; reflexivity. Qed.
Print Assumptions C93_terminates.
Print Assumptions C93_names.
Print Assumptions C93_read_full.
Print Assumptions C93_read_iw.
Print Assumptions C93_read_iw_missing.
Print Assumptions C93_read_g2.
Print Assumptions C93_read_g2_finding.
Print Assumptions C93_gap_finding.
Print Assumptions C93_no_channel_finding.
Print Assumptions C93_symmetrize_roundtrip.
