(** The contents of the rank files in terms of the global arrays. *)
From Coq Require Import String Ascii Sorting.Sorted.
From Verif Require Import Base.PyBase Base.PyFacts Base.Arr Model.Util Model.Matsubara Model.MpiAux Model.RankFiles
  Proofs.UtilP Proofs.MpiAuxP Proofs.MatsubaraP Proofs.StrP Proofs.MaskP Proofs.RankFilesP Spec.RankSpec.
Set Implicit Arguments.
Local Open Scope string_scope.
Local Open Scope list_scope.
Local Open Scope Z_scope.

(** ** names *)
Lemma group_prefix_inj pf pf' q w q' w' : In pf ["pv_"; "f_"; "fq_"] -> In pf' ["pv_"; "f_"; "fq_"] -> 0 <= q -> 0 <= q' ->
  group_name pf q w = group_name pf' q' w' -> pf = pf' /\ q = q' /\ w = w'.
Proof.
  intros H H' Hq Hq' E.
  assert (pf = pf') as <-.
  { destruct H as [<-|[<-|[<-|[]]]], H' as [<-|[<-|[<-|[]]]]; try reflexivity; unfold group_name in E; cbn in E; discriminate. }
  split; [reflexivity|]. eapply group_name_inj; eauto.
Qed.
Lemma prefix_group pf pf' q w : In pf ["pv_"; "f_"; "fq_"] -> In pf' ["pv_"; "f_"; "fq_"] ->
  String.prefix pf (group_name pf' q w) = true -> pf = pf'.
Proof.
  intros H H'. destruct H as [<-|[<-|[<-|[]]]], H' as [<-|[<-|[<-|[]]]]; try reflexivity; unfold group_name; cbn; discriminate.
Qed.

Lemma In_wn n w : In w (wn n 0 false) <-> - n <= w <= n.
Proof. unfold wn. rewrite In_arange. lia. Qed.
Lemma NoDup_wn n : NoDup (wn n 0 false). Proof. apply NoDup_arange. Qed.
Lemma enum_wn n j w : In (j, w) (enumerate (wn n 0 false)) -> j = n + w /\ - n <= w <= n.
Proof.
  intros H. apply In_zget in H. destruct H as [k [Hk Hg]]. rewrite zget_enumerate in Hg. unfold wn in *.
  rewrite zlen_enumerate, zlen_arange in Hk. rewrite zget_arange in Hg by lia. cbn in Hg. injection Hg as <- <-. lia.
Qed.

Lemma flat_map_opt X Y (f : X -> option Y) l : (forall a, In a l -> f a <> None) ->
  zlen (flat_map (fun a => match f a with Some x => [x] | None => [] end) l) = zlen l /\
  forall i, zget (flat_map (fun a => match f a with Some x => [x] | None => [] end) l) i = obind (zget l i) f.
Proof.
  induction l as [|a l IH]; intros H.
  - split; [reflexivity|]. intros i. cbn [flat_map]. now rewrite !zget_nil.
  - destruct (IH (fun x Hx => H x (or_intror Hx))) as [L G]. cbn [flat_map]. destruct (f a) as [x|] eqn:E; [|exfalso; apply (H a); [now left|assumption]].
    cbn [app]. split; [rewrite !zlen_cons; lia|]. intros i. rewrite !zget_cons. destruct (i =? 0); [cbn; auto|apply G].
Qed.
Lemma np_diag_spec X (m : list (list X)) n : shape2 m n n -> zlen (np_diag m) = n /\ forall k, 0 <= k < n -> zget (np_diag m) k = get2 m k k.
Proof.
  intros [Hl Hr]. unfold np_diag. destruct (@flat_map_opt _ _ (fun ir : Z * list X => zget (snd ir) (fst ir)) (enumerate m)) as [L G].
  - intros [k r] Hin E. apply In_zget in Hin. destruct Hin as [k' [Hk Hg]]. rewrite zget_enumerate in Hg. rewrite zlen_enumerate in Hk.
    destruct (zget m k') as [r'|] eqn:Er; [|discriminate]. cbn in Hg. injection Hg as <- <-. cbn in E.
    destruct (@zget_in_range _ r' k') as [x Hx]; [rewrite (Hr r' (zget_In _ _ Er)); lia|congruence].
  - rewrite zlen_enumerate in L. split; [lia|]. intros k Hk. rewrite G, zget_enumerate. unfold get2. destruct (zget m k); reflexivity.
Qed.

Section P.
Variable A : Type.
Variables (opp : A -> A).
Variable c : cfg.
Hypothesis Hc : cfg_ok c.
Variable d : vdata A.
Variables nq : Z.
Hypothesis Hd : data_ok c d nq.
Notation op := (op A).
Notation h5file := (h5file A).

Lemma npp_le : 0 <= niv_pp c <= niv_core c /\ 2 * niv_pp c <= niw_core c.
Proof. destruct Hc as (?&?&->&_). split; [split|]; try lia. Qed.

Definition comp (ds : string) : arr4 A := match component d ds with Some a => a | None => [] end.
Definition M (ds : string) (q w : Z) : list (list A) :=
  match zget (comp ds) q with Some x => match zget x (niw_core c + w) with Some m => m | None => [] end | None => [] end.
Definition V (pf ds : string) (q w : Z) : dset A :=
  if String.eqb pf "pv_" then
    DVec (match get_pp_slice_4pt opp (M ds q w) (condition (niv_pp c) w) (niv_pp c) with Ok s => s | Raise _ => [] end)
  else if String.eqb pf "f_" then
    DMat (match get_vmw_v_slice (M ds q w) (wn (niw_cond c) 0 true) (niv_vert c) with Ok s => s | Raise _ => [] end)
  else DMat (M ds q w).
Definition wlist (pf : string) : list Z :=
  if String.eqb pf "f_" then wn (niw_vert c) 0 false else wn (niw_core c) 0 false.
Definition wok (pf : string) (w : Z) : bool := if String.eqb pf "pv_" then Z.abs w <? 2 * niv_pp c else true.
Definition cell (ch pf : string) (q w : Z) : list op :=
  if wok pf w then
    [Put (group_name pf q w, "f1_" ++ ch)%string (V pf ("f1_" ++ ch) q w);
     Put (group_name pf q w, "f2_" ++ ch)%string (V pf ("f2_" ++ ch) q w)]
    ++ (if String.eqb pf "pv_" then [PutIfAbsent (group_name pf q w, "condition"%string) (DMask (condition (niv_pp c) w))] else [])
  else [].
Definition prefixes : list string :=
  (if do_pairing c then ["pv_"] else []) ++ (if do_vertex c then ["f_"] else []) ++ (if save_fq c then ["fq_"] else []).
Definition ops_pure (tasks : list Z) : list op :=
  flat_map (fun ch => flat_map (fun pf => flat_map (fun q => flat_map (fun w => cell ch pf q w) (wlist pf)) tasks) prefixes) ["dens"; "magn"].

Definition names4 : list string := ["f1_dens"; "f2_dens"; "f1_magn"; "f2_magn"].
Lemma comp_shape ds : In ds names4 -> shape4 (comp ds) nq (2 * niw_core c + 1) (2 * niv_core c) (2 * niv_core c).
Proof.
  intros H. unfold comp. destruct (component d ds) as [a|] eqn:E; [apply (@Hd ds); assumption|].
  exfalso. destruct H as [<-|[<-|[<-|[<-|[]]]]]; discriminate E.
Qed.
Lemma M_get ds q w : In ds names4 -> 0 <= q < nq -> - niw_core c <= w <= niw_core c ->
  py_get2 (comp ds) q (niw_core c + w) = Ok (M ds q w) /\ shape2 (M ds q w) (2 * niv_core c) (2 * niv_core c) /\
  forall i j, get2 (M ds q w) i j = get4 (comp ds) q (niw_core c + w) i j.
Proof.
  intros Hds Hq Hw. destruct (comp_shape Hds) as [Hl Hr].
  destruct (@zget_in_range _ (comp ds) q ltac:(lia)) as [x Ex]. destruct (Hr x (zget_In _ _ Ex)) as [Hl2 Hr2].
  destruct (@zget_in_range _ x (niw_core c + w) ltac:(lia)) as [m Em].
  unfold M. rewrite Ex, Em. split; [|split].
  - unfold py_get2. rewrite (@py_get_nonneg _ _ q x) by (auto; lia). cbn. apply py_get_nonneg; [lia|assumption].
  - apply Hr2. eapply zget_In; eauto.
  - intros i j. unfold get4, get3. rewrite Ex. cbn. rewrite Em. reflexivity.
Qed.

(** local rows are global rows *)
Lemma local_row (a : arr4 A) s e i q : zlen a = nq -> 0 <= s -> s <= e -> e <= nq ->
  In (i, q) (enumerate (slice (arange 0 nq) s e)) -> 0 <= q < nq /\ (forall j, py_get2 (slice a s e) i j = py_get2 a q j).
Proof.
  intros Ha Hs Hse He H. apply In_zget in H. destruct H as [k [Hk Hg]]. rewrite zget_enumerate in Hg. rewrite zlen_enumerate in Hk.
  rewrite slice_arange in * by lia. rewrite zlen_arange in Hk. rewrite zget_arange in Hg by lia. cbn in Hg. injection Hg as <- <-.
  split; [lia|]. intros j. unfold py_get2. destruct (@zget_in_range _ a (s + k) ltac:(lia)) as [x Ex].
  rewrite (@py_get_nonneg _ a (s + k) x) by (auto; lia). rewrite (@py_get_nonneg _ (slice a s e) k x); [reflexivity|lia|].
  rewrite zget_slice_in by lia. assumption.
Qed.

(** optics slice *)
Lemma vmw_spec (m : list (list A)) niv p ncond : shape2 m (2 * niv) (2 * niv) -> 0 <= p -> 0 <= ncond -> p + ncond <= niv -> 0 < niv ->
  exists r, get_vmw_v_slice m (wn ncond 0 true) p = Ok r /\ shape2 r (ncond + 1) (2 * p) /\
    forall w v, 0 <= w <= ncond -> - p <= v < p -> get2 r w (p + v) = get2 m (niv + v) (niv + (v - w)).
Proof.
  intros [Hl Hr] Hp Hn Hpn Hpos. unfold get_vmw_v_slice.
  assert (Hcols : (match m with r :: _ => zlen r | [] => 0 end) = 2 * niv).
  { destruct m as [|r m]; [rewrite zlen_nil in Hl; lia|]. apply Hr. now left. }
  rewrite Hcols. replace (2 * niv / 2) with niv by lia.
  set (dg := fun iwn => np_diag (map (fun row => slice row (niv - p - iwn) (niv + p - iwn)) (slice m (niv - p) (niv + p)))).
  assert (G : forall w, 0 <= w <= ncond -> zlen (dg w) = 2 * p /\ forall v, - p <= v < p -> zget (dg w) (p + v) = get2 m (niv + v) (niv + (v - w))).
  { intros w Hw. unfold dg.
    set (win := map _ (slice m _ _)).
    assert (Sw : shape2 win (2 * p) (2 * p)).
    { unfold win. split; [rewrite zlen_map, zlen_slice_in; lia|]. intros r0 Hin. apply in_map_iff in Hin. destruct Hin as [row [<- Hin]].
      apply In_zget in Hin. destruct Hin as [k [Hk Hg]]. rewrite zlen_slice_in in Hk by lia. rewrite zget_slice_in in Hg by lia.
      rewrite zlen_slice_in; rewrite ?(Hr row (zget_In _ _ Hg)); lia. }
    destruct (np_diag_spec Sw) as [Ld Gd]. split; [assumption|]. intros v Hv. rewrite Gd by lia. unfold win, get2.
    rewrite zget_map, zget_slice_in by lia. replace (niv - p + (p + v)) with (niv + v) by lia.
    destruct (zget m (niv + v)) as [row|] eqn:Er; [|reflexivity]. cbn. rewrite zget_slice_in; rewrite ?(Hr row (zget_In _ _ Er)); try lia. f_equal. lia. }
  destruct (@mapM_build _ _ (fun iwn => if zlen (dg iwn) =? 2 * p then Ok (dg iwn) else Raise ValueError) (wn ncond 0 true)) as [r Er].
  { intros w Hw. unfold wn in Hw. apply In_arange in Hw. destruct (G w ltac:(lia)) as [E _]. rewrite E, Z.eqb_refl. eauto. }
  exists r. split; [exact Er|]. apply mapM_zget in Er. destruct Er as [Lr Gr].
  assert (Gr' : forall w, 0 <= w <= ncond -> zget r w = Some (dg w)).
  { intros w Hw. destruct (Gr w w) as [b [Hb Eb]]; [unfold wn; rewrite zget_arange by lia; f_equal; lia|].
    destruct (G w Hw) as [E _]. rewrite E, Z.eqb_refl in Eb. congruence. }
  assert (Lr' : zlen r = ncond + 1) by (unfold wn in Lr; rewrite zlen_arange in Lr; lia).
  split; [split; [assumption|]|].
  - intros row Hin. apply In_zget in Hin. destruct Hin as [k [Hk Hg]]. rewrite Gr' in Hg by lia. injection Hg as <-. apply G. lia.
  - intros w v Hw Hv. unfold get2 at 1. rewrite Gr' by lia. cbn. apply G; lia.
Qed.

(** ** the list of writes of a rank *)
Lemma names_dens : In "f1_dens" names4 /\ In "f2_dens" names4 /\ In "f1_magn" names4 /\ In "f2_magn" names4.
Proof. cbn. tauto. Qed.

Section Chan.
Variables (ch : string) (s e : Z) (tasks : list Z).
Hypothesis Hch : In ("f1_" ++ ch)%string names4 /\ In ("f2_" ++ ch)%string names4.
Hypothesis Hse : 0 <= s /\ s <= e /\ e <= nq.
Hypothesis Htasks : tasks = slice (arange 0 nq) s e.
Let f1 := slice (comp ("f1_" ++ ch)) s e.
Let f2 := slice (comp ("f2_" ++ ch)) s e.
Lemma local_M ds i q w : In ds names4 -> In (i, q) (enumerate tasks) -> - niw_core c <= w <= niw_core c ->
  py_get2 (slice (comp ds) s e) i (niw_core c + w) = Ok (M ds q w) /\ 0 <= q < nq.
Proof.
  intros Hds Hin Hw. rewrite Htasks in Hin. destruct (comp_shape Hds) as [Hl _].
  destruct (@local_row (comp ds) s e i q Hl ltac:(lia) ltac:(lia) ltac:(lia) Hin) as [Hq Hg]. split; [|assumption].
  rewrite Hg. exact (proj1 (M_get Hds Hq Hw)).
Qed.
Lemma pairing_ops_pure : pairing_ops opp c ch tasks f1 f2 = Ok (flat_map (fun q => flat_map (fun w => cell ch "pv_" q w) (wlist "pv_")) tasks).
Proof.
  rewrite <- (flat_map_enum_snd (fun q => flat_map (fun w => cell ch "pv_" q w) (wlist "pv_"))).
  apply concatM_pure. intros [i q] Hin. cbn [fst snd]. change (wlist "pv_") with (wn (niw_core c) 0 false).
  rewrite <- (flat_map_enum_snd (fun w => cell ch "pv_" q w)). apply concatM_pure. intros [j w] Hjw. apply enum_wn in Hjw. destruct Hjw as [-> Hw].
  cbn [fst snd]. unfold cell, wok. change (String.eqb "pv_" "pv_") with true. cbv iota.
  destruct (Z.ltb_spec (Z.abs w) (2 * niv_pp c)) as [Hlt|]; [|reflexivity].
  destruct Hch as [H1 H2]. unfold f1, f2.
  destruct (local_M _ _ H1 Hin Hw) as [-> Hq]. destruct (local_M _ _ H2 Hin Hw) as [-> _]. cbn [bind].
  pose proof npp_le as Hpp.
  destruct (M_get H1 Hq Hw) as [_ [S1 _]]. destruct (M_get H2 Hq Hw) as [_ [S2 _]].
  destruct (@pp_slice_spec _ opp (M ("f1_" ++ ch) q w) (niv_core c) (niv_pp c) w S1 ltac:(lia) Hlt) as [x1 [E1 _]].
  destruct (@pp_slice_spec _ opp (M ("f2_" ++ ch) q w) (niv_core c) (niv_pp c) w S2 ltac:(lia) Hlt) as [x2 [E2 _]].
  unfold V. change (String.eqb "pv_" "pv_") with true. cbv iota. rewrite E1, E2. reflexivity.
Qed.
Lemma vertex_ops_pure : vertex_ops c ch tasks f1 f2 = Ok (flat_map (fun q => flat_map (fun w => cell ch "fq_" q w) (wlist "fq_")) tasks).
Proof.
  rewrite <- (flat_map_enum_snd (fun q => flat_map (fun w => cell ch "fq_" q w) (wlist "fq_"))).
  apply concatM_pure. intros [i q] Hin. cbn [fst snd]. change (wlist "fq_") with (wn (niw_core c) 0 false).
  rewrite <- (flat_map_enum_snd (fun w => cell ch "fq_" q w)). apply concatM_pure. intros [j w] Hjw. apply enum_wn in Hjw. destruct Hjw as [-> Hw].
  cbn [fst snd]. destruct Hch as [H1 H2]. unfold f1, f2.
  destruct (local_M _ _ H1 Hin Hw) as [-> Hq]. destruct (local_M _ _ H2 Hin Hw) as [-> _]. reflexivity.
Qed.
Lemma optics_ops_pure : 0 < niv_core c -> optics_ops c ch tasks f1 f2 = Ok (flat_map (fun q => flat_map (fun w => cell ch "f_" q w) (wlist "f_")) tasks).
Proof.
  intros Hpos. rewrite <- (flat_map_enum_snd (fun q => flat_map (fun w => cell ch "f_" q w) (wlist "f_"))).
  apply concatM_pure. intros [i q] Hin. cbn [fst snd]. change (wlist "f_") with (wn (niw_vert c) 0 false).
  apply concatM_pure. intros w Hw. apply In_wn in Hw. destruct Hc as (Hc1&Hc2&Hc3&Hc4&Hc5&Hc6). assert (Hw' : - niw_core c <= w <= niw_core c) by lia.
  destruct Hch as [H1 H2]. unfold f1, f2.
  destruct (local_M _ _ H1 Hin Hw') as [-> Hq]. destruct (local_M _ _ H2 Hin Hw') as [-> _]. cbn [bind].
  destruct (M_get H1 Hq Hw') as [_ [S1 _]]. destruct (M_get H2 Hq Hw') as [_ [S2 _]].
  destruct (@vmw_spec _ (niv_core c) (niv_vert c) (niw_cond c) S1 ltac:(lia) ltac:(lia) ltac:(lia) Hpos) as [x1 [E1 _]].
  destruct (@vmw_spec _ (niv_core c) (niv_vert c) (niw_cond c) S2 ltac:(lia) ltac:(lia) ltac:(lia) Hpos) as [x2 [E2 _]].
  unfold cell, wok, V. change (String.eqb "f_" "pv_") with false. change (String.eqb "f_" "f_") with true. cbv iota. rewrite E1, E2. reflexivity.
Qed.
Lemma channel_ops_pure : (do_vertex c = true -> 0 < niv_core c) ->
  channel_ops opp c ch tasks f1 f2 = Ok (flat_map (fun pf => flat_map (fun q => flat_map (fun w => cell ch pf q w) (wlist pf)) tasks) prefixes).
Proof.
  intros Hpos. unfold channel_ops, prefixes. rewrite pairing_ops_pure, vertex_ops_pure.
  destruct (do_vertex c); [rewrite optics_ops_pure by auto|]; destruct (do_pairing c), (save_fq c); cbn [bind app flat_map]; rewrite ?app_nil_r; try reflexivity.
  all: rewrite ?app_assoc; reflexivity.
Qed.
End Chan.

Definition vertex_pos : Prop := do_vertex c = true -> 0 < niv_core c.
Lemma rank_ops_pure p r : vertex_pos -> 0 <= nq -> 0 < p -> 0 <= r < p ->
  exists tasks, my_tasks nq p r = Ok tasks /\ rank_ops opp c d nq p r = Ok (ops_pure tasks) /\ (forall q, In q tasks -> 0 <= q < nq) /\ NoDup tasks.
Proof.
  intros Hpos Hn Hp Hr. destruct (@my_tasks_get nq p r Hp Hr) as [[a b] [Hab Hm]].
  destruct (@intervals_range 0 (sizes nq p) r a b) as (?&?&Hb&Hsz); [intros x; now apply sizes_nonneg|assumption|].
  rewrite zsum_sizes in Hb by assumption. exists (slice (arange 0 nq) a b). split; [assumption|]. cbn [fst snd] in Hm.
  assert (Hsl : my_slice nq p r = Ok (a, b)).
  { unfold my_slice, slices. rewrite slices_of_intervals. apply py_get_nonneg; [lia|assumption]. }
  split; [|rewrite slice_arange by lia; split; [intros q Hq; apply In_arange in Hq; lia|apply NoDup_arange]].
  unfold rank_ops. rewrite Hm, Hsl. cbn [bind fst snd].
  pose proof (@channel_ops_pure "dens" a b _ ltac:(cbn; tauto) ltac:(lia) eq_refl Hpos) as E1.
  pose proof (@channel_ops_pure "magn" a b _ ltac:(cbn; tauto) ltac:(lia) eq_refl Hpos) as E2.
  change (comp ("f1_" ++ "dens")) with (f1_dens d) in E1. change (comp ("f2_" ++ "dens")) with (f2_dens d) in E1.
  change (comp ("f1_" ++ "magn")) with (f1_magn d) in E2. change (comp ("f2_" ++ "magn")) with (f2_magn d) in E2.
  rewrite E1, E2. cbn [bind]. unfold ops_pure. cbn [flat_map]. rewrite app_nil_r. reflexivity.
Qed.

(** ** contents of one rank's file *)
Lemma prefixes_in pf : In pf prefixes -> In pf ["pv_"; "f_"; "fq_"].
Proof. unfold prefixes. destruct (do_pairing c), (do_vertex c), (save_fq c); cbn; tauto. Qed.
Lemma NoDup_prefixes : NoDup prefixes.
Proof. unfold prefixes. destruct (do_pairing c), (do_vertex c), (save_fq c); cbn; repeat constructor; cbn; intuition discriminate. Qed.
Lemma NoDup_wlist pf : NoDup (wlist pf).
Proof. unfold wlist. destruct (String.eqb pf "f_"); apply NoDup_wn. Qed.

Lemma In_ops tasks o : In o (ops_pure tasks) <->
  exists ch pf q w, In ch ["dens"; "magn"] /\ In pf prefixes /\ In q tasks /\ In w (wlist pf) /\ In o (cell ch pf q w).
Proof.
  unfold ops_pure. rewrite in_flat_map. split.
  - intros [ch [Hch H]]. apply in_flat_map in H. destruct H as [pf [Hpf H]]. apply in_flat_map in H. destruct H as [q [Hq H]].
    apply in_flat_map in H. destruct H as [w [Hw H]]. exists ch, pf, q, w. auto.
  - intros [ch [pf [q [w [H1 [H2 [H3 [H4 H5]]]]]]]]. exists ch. split; [assumption|]. apply in_flat_map. exists pf. split; [assumption|].
    apply in_flat_map. exists q. split; [assumption|]. apply in_flat_map. eauto.
Qed.
Lemma cell_put ch pf q w k : In k (flat_map (@op_put A) (cell ch pf q w)) ->
  wok pf w = true /\ (k = (group_name pf q w, "f1_" ++ ch)%string \/ k = (group_name pf q w, "f2_" ++ ch)%string).
Proof. unfold cell. destruct (wok pf w); [|cbn; tauto]. destruct (String.eqb pf "pv_"); cbn; intuition. Qed.
Lemma flat_map_flat_map T U W (f : U -> list W) (g : T -> list U) l : flat_map f (flat_map g l) = flat_map (fun x => flat_map f (g x)) l.
Proof. induction l as [|a l IH]; cbn; [reflexivity|]. rewrite flat_map_app. now rewrite IH. Qed.
Lemma In_put_ops tasks k : In k (flat_map (@op_put A) (ops_pure tasks)) ->
  exists ch pf q w, In ch ["dens"; "magn"] /\ In pf prefixes /\ In q tasks /\ In w (wlist pf) /\
    (k = (group_name pf q w, "f1_" ++ ch)%string \/ k = (group_name pf q w, "f2_" ++ ch)%string).
Proof.
  intros H. apply in_flat_map in H. destruct H as [o [Ho Hk]]. apply In_ops in Ho. destruct Ho as [ch [pf [q [w [H1 [H2 [H3 [H4 H5]]]]]]]].
  exists ch, pf, q, w. repeat (split; [assumption|]). assert (In k (flat_map (@op_put A) (cell ch pf q w))) by (apply in_flat_map; eauto).
  eapply cell_put; eauto.
Qed.

Section File.
Variable tasks : list Z.
Hypothesis Ht : forall q, In q tasks -> 0 <= q.
Hypothesis Hnd : NoDup tasks.

Lemma puts_NoDup : NoDup (flat_map (@op_put A) (ops_pure tasks)).
Proof.
  unfold ops_pure. rewrite flat_map_flat_map. apply NoDup_flat_map.
  { repeat constructor; cbn; intuition discriminate. }
  - intros ch Hch. rewrite flat_map_flat_map. apply NoDup_flat_map; [apply NoDup_prefixes|..].
    + intros pf Hpf. rewrite flat_map_flat_map. apply NoDup_flat_map; [assumption|..].
      * intros q Hq. rewrite flat_map_flat_map. apply NoDup_flat_map; [apply NoDup_wlist|..].
        -- intros w Hw. unfold cell. destruct (wok pf w); [|constructor]. destruct (String.eqb pf "pv_"); cbn;
           (constructor; [cbn; intros [E|[]]; injection E as E; discriminate|constructor; [tauto|constructor]]).
        -- intros w w' k Hw Hw' Hk Hk'. apply cell_put in Hk, Hk'. destruct Hk as [_ Hk], Hk' as [_ Hk'].
           assert (E : group_name pf q w = group_name pf q w') by (destruct Hk as [->| ->], Hk' as [Hk'|Hk']; now injection Hk').
           apply group_name_inj in E; auto. tauto.
      * intros q q' k Hq Hq' Hk Hk'. rewrite flat_map_flat_map in Hk, Hk'. apply in_flat_map in Hk, Hk'.
        destruct Hk as [w [Hw Hk]], Hk' as [w' [Hw' Hk']]. apply cell_put in Hk, Hk'. destruct Hk as [_ Hk], Hk' as [_ Hk'].
        assert (E : group_name pf q w = group_name pf q' w') by (destruct Hk as [->| ->], Hk' as [Hk'|Hk']; now injection Hk').
        apply group_name_inj in E; auto. tauto.
    + intros pf pf' k Hpf Hpf' Hk Hk'. rewrite flat_map_flat_map in Hk, Hk'. apply in_flat_map in Hk, Hk'.
      destruct Hk as [q [Hq Hk]], Hk' as [q' [Hq' Hk']]. rewrite flat_map_flat_map in Hk, Hk'. apply in_flat_map in Hk, Hk'.
      destruct Hk as [w [Hw Hk]], Hk' as [w' [Hw' Hk']]. apply cell_put in Hk, Hk'. destruct Hk as [_ Hk], Hk' as [_ Hk'].
      assert (E : group_name pf q w = group_name pf' q' w') by (destruct Hk as [->| ->], Hk' as [Hk'|Hk']; now injection Hk').
      apply group_prefix_inj in E; auto using prefixes_in. tauto.
  - intros ch ch' k Hch Hch' Hk Hk'. rewrite flat_map_flat_map in Hk, Hk'. apply in_flat_map in Hk, Hk'.
    destruct Hk as [pf [Hpf Hk]], Hk' as [pf' [Hpf' Hk']]. rewrite flat_map_flat_map in Hk, Hk'. apply in_flat_map in Hk, Hk'.
    destruct Hk as [q [Hq Hk]], Hk' as [q' [Hq' Hk']]. rewrite flat_map_flat_map in Hk, Hk'. apply in_flat_map in Hk, Hk'.
    destruct Hk as [w [Hw Hk]], Hk' as [w' [Hw' Hk']]. apply cell_put in Hk, Hk'. destruct Hk as [_ Hk], Hk' as [_ Hk'].
    cbn in Hch, Hch'. destruct Hch as [<-|[<-|[]]], Hch' as [<-|[<-|[]]]; try reflexivity; exfalso;
    destruct Hk as [->| ->], Hk' as [Hk'|Hk']; injection Hk' as _ Hk'; discriminate Hk'.
Qed.
Lemma conds_not_puts k : In k (flat_map (@op_cond A) (ops_pure tasks)) -> ~ In k (flat_map (@op_put A) (ops_pure tasks)).
Proof.
  intros H H'. apply in_flat_map in H. destruct H as [o [Ho Hk]]. apply In_ops in Ho. destruct Ho as [ch [pf [q [w [H1 [H2 [H3 [H4 H5]]]]]]]].
  assert (snd k = "condition"%string).
  { unfold cell in H5. destruct (wok pf w); [|destruct H5]. destruct (String.eqb pf "pv_"); cbn in H5.
    - destruct H5 as [<-|[<-|[<-|[]]]]; cbn in Hk; try tauto. destruct Hk as [<-|[]]. reflexivity.
    - destruct H5 as [<-|[<-|[]]]; cbn in Hk; tauto. }
  apply In_put_ops in H'. destruct H' as [ch' [pf' [q' [w' [_ [_ [_ [_ E]]]]]]]]. destruct E as [-> | ->]; discriminate H.
Qed.

Definition in_dom (pf : string) (w : Z) : Prop := In pf prefixes /\ In w (wlist pf) /\ wok pf w = true.

Lemma file_contents : exists f, run_ops (ops_pure tasks) [] = Ok f /\
  (forall pf q w ds, in_dom pf w -> In q tasks -> In ds names4 -> h5_get f (group_name pf q w, ds) = Some (V pf ds q w)) /\
  (forall q w, in_dom "pv_" w -> In q tasks -> h5_get f (group_name "pv_" q w, "condition") = Some (DMask (condition (niv_pp c) w))) /\
  (forall g, In g (h5_keys f) <-> exists pf q w, in_dom pf w /\ In q tasks /\ g = group_name pf q w).
Proof.
  destruct (@run_ops_spec A (ops_pure tasks) []) as [f [E G]].
  - apply puts_NoDup.
  - reflexivity.
  - apply conds_not_puts.
  - assert (G1 : forall pf q w ds, in_dom pf w -> In q tasks -> In ds names4 -> h5_get f (group_name pf q w, ds) = Some (V pf ds q w)).
    { intros pf q w ds [D1 [D2 D3]] Hq Hds. rewrite G. cbn [h5_get]. apply assoc_In.
      - assert (X : exists ch o, In ch ["dens"; "magn"] /\ In o (cell ch pf q w) /\ op_key o = (group_name pf q w, ds)).
        { unfold cell. rewrite D3. destruct Hds as [<-|[<-|[<-|[<-|[]]]]]; [exists "dens"|exists "dens"|exists "magn"|exists "magn"];
          cbn [app]; eexists; (split; [cbn; tauto|]); first [split; [left; reflexivity|reflexivity]|split; [right; left; reflexivity|reflexivity]]. }
        destruct X as [ch [o [X1 [X2 X3]]]]. exists o. split; [|assumption]. apply In_ops. exists ch, pf, q, w. auto.
      - intros o Ho Hk. apply In_ops in Ho. destruct Ho as [ch [pf' [q' [w' [H1 [H2 [H3 [H4 H5]]]]]]]].
        unfold cell in H5. destruct (wok pf' w'); [|destruct H5].
        assert (H5' : o = Put (group_name pf' q' w', "f1_" ++ ch)%string (V pf' ("f1_" ++ ch) q' w') \/ o = Put (group_name pf' q' w', "f2_" ++ ch)%string (V pf' ("f2_" ++ ch) q' w') \/ o = PutIfAbsent (group_name pf' q' w', "condition"%string) (DMask (condition (niv_pp c) w'))).
        { destruct (String.eqb pf' "pv_"); cbn in H5; intuition. } clear H5.
        destruct H5' as [->|[->| ->]]; cbn [op_key op_val] in *; injection Hk as Eg Ed; subst ds; apply group_prefix_inj in Eg; auto using prefixes_in; destruct Eg as [-> [-> ->]]; try reflexivity.
        cbn in Hds. intuition discriminate. }
    assert (G2 : forall q w, in_dom "pv_" w -> In q tasks -> h5_get f (group_name "pv_" q w, "condition") = Some (DMask (condition (niv_pp c) w))).
    { intros q w [D1 [D2 D3]] Hq. rewrite G. cbn [h5_get]. apply assoc_In.
      - exists (PutIfAbsent (group_name "pv_" q w, "condition"%string) (DMask (condition (niv_pp c) w))). split; [|reflexivity].
        apply In_ops. exists "dens", "pv_", q, w. repeat (split; [cbn; auto|]). unfold cell. rewrite D3. cbn. tauto.
      - intros o Ho Hk. apply In_ops in Ho. destruct Ho as [ch [pf' [q' [w' [H1 [H2 [H3 [H4 H5]]]]]]]].
        unfold cell in H5. destruct (wok pf' w'); [|destruct H5].
        assert (H5' : o = Put (group_name pf' q' w', "f1_" ++ ch)%string (V pf' ("f1_" ++ ch) q' w') \/ o = Put (group_name pf' q' w', "f2_" ++ ch)%string (V pf' ("f2_" ++ ch) q' w') \/ o = PutIfAbsent (group_name pf' q' w', "condition"%string) (DMask (condition (niv_pp c) w'))).
        { destruct (String.eqb pf' "pv_"); cbn in H5; intuition. } clear H5.
        destruct H5' as [->|[->| ->]]; cbn [op_key op_val] in *; apply pair_equal_spec in Hk; destruct Hk as [Eg Ed]; try discriminate Ed.
        apply group_prefix_inj in Eg; auto using prefixes_in. destruct Eg as [_ [_ ->]]. reflexivity. }
    exists f. split; [assumption|]. split; [assumption|]. split; [assumption|]. intros g. rewrite In_h5_keys. split.
    + intros [ds H]. rewrite G in H. cbn [h5_get] in H. destruct (assoc (ops_pure tasks) (g, ds)) as [v|] eqn:Ea; [|congruence].
      apply assoc_inv in Ea. destruct Ea as [o [Ho Hk]]. apply In_ops in Ho. destruct Ho as [ch [pf [q [w [H1 [H2 [H3 [H4 H5]]]]]]]].
      exists pf, q, w. unfold cell in H5. destruct (wok pf w) eqn:Ew; [|destruct H5]. split; [split; auto|]. split; [assumption|].
      assert (fst (op_key o) = group_name pf q w) as <- by (destruct (String.eqb pf "pv_"); cbn in H5; intuition (subst; reflexivity)).
      rewrite Hk. reflexivity.
    + intros [pf [q [w [D [Hq ->]]]]]. exists "f1_dens". rewrite G1; [discriminate|assumption|assumption|cbn; tauto].
Qed.
End File.
End P.
