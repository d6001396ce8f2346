(** The end-to-end statements about the rank files. *)
From Coq Require Import String Ascii Sorting.Sorted.
From Verif Require Import Base.PyBase Base.PyFacts Base.Arr Model.Util Model.Matsubara Model.MpiAux Model.RankFiles
  Proofs.UtilP Proofs.MpiAuxP Proofs.MatsubaraP Proofs.StrP Proofs.MaskP Proofs.RankFilesP Proofs.RankOpsP Proofs.RankLoadP Proofs.RankLoad2P Spec.RankSpec.
Set Implicit Arguments.
Local Open Scope string_scope.
Local Open Scope list_scope.
Local Open Scope Z_scope.

Lemma component_names A (d : vdata A) ds a : component d ds = Some a -> In ds names4 /\ comp d ds = a.
Proof.
  intros E. split; [|unfold comp; now rewrite E]. unfold component in E.
  destruct (String.eqb_spec ds "f1_dens") as [->|]; [cbn; tauto|]. destruct (String.eqb_spec ds "f2_dens") as [->|]; [cbn; tauto|].
  destruct (String.eqb_spec ds "f1_magn") as [->|]; [cbn; tauto|]. destruct (String.eqb_spec ds "f2_magn") as [->|]; [cbn; tauto|discriminate].
Qed.
Lemma get4_mat A (r : arr4 A) q s i j : get4 r q s i j = obind (get_mat r q s) (fun m => get2 m i j).
Proof. unfold get4, get_mat, get3. destruct (zget r q); reflexivity. Qed.

Section P.
Variable A : Type.
Variables (opp : A -> A).
Variable c : cfg.
Hypothesis Hc : cfg_ok c.
Variable d : vdata A.
Variables nq p : Z.
Hypothesis Hd : data_ok c d nq.
Hypothesis Hnq : 0 <= nq.
Hypothesis Hp : 0 < p.
Hypothesis Hvp : vertex_pos c.
Variables (path name : string).

(** the file of a rank does not depend on the schedule *)
Lemma targets : forall r, 0 <= r < p -> exists tasks f, my_tasks nq p r = Ok tasks /\
  rank_ops opp c d nq p r = Ok (ops_pure opp c d tasks) /\ run_ops (ops_pure opp c d tasks) [] = Ok f.
Proof.
  intros r Hr. destruct (@rank_ops_pure A opp c Hc d nq Hd p r Hvp Hnq Hp Hr) as [ts [E1 [E2 [Hq Hnd]]]].
  destruct (@file_contents A opp c d ts (fun q H => proj1 (Hq q H)) Hnd) as [f [E _]]. eauto.
Qed.
Definition target (r : Z) : h5file A := match rank_ops opp c d nq p r with Ok ops => match run_ops ops [] with Ok f => f | _ => [] end | _ => [] end.
Lemma target_ok todo : (forall r, 0 <= r < p -> rank_ops opp c d nq p r = Ok (todo r)) -> forall r, 0 <= r < p -> run_ops (todo r) [] = Ok (target r).
Proof.
  intros H r Hr. destruct (targets Hr) as [ts [f [_ [E2 E3]]]]. unfold target. rewrite E2, E3. rewrite H in E2 by assumption. injection E2 as ->. exact E3.
Qed.
Lemma written_files fs0 todo sched s : written opp c d path name nq p fs0 todo sched s ->
  forall r, 0 <= r < p -> exists tasks f, rank_file opp c d nq p path name (j_fs s) r tasks f.
Proof.
  intros [H0 [H1 [H2 [H3 H4]]]] r Hr.
  destruct (@job_finished A path name p todo fs0 H0 target (target_ok todo H1) H2 sched s H3 H4) as [F _].
  destruct (targets Hr) as [ts [f [E1 [E2 E3]]]]. exists ts, f. split; [assumption|]. split; [assumption|].
  rewrite F by assumption. f_equal. unfold target. rewrite E2, E3. reflexivity.
Qed.

(** ** the parallel job *)
Definition start (fs0 : fsys A) (todo : Z -> list (op A)) : Prop :=
  (forall r, 0 <= r < p -> fs0 (rank_fname path name r) = Some nil) /\
  (forall r, 0 <= r < p -> rank_ops opp c d nq p r = Ok (todo r)) /\
  (forall r, ~ 0 <= r < p -> todo r = nil).
Lemma job_never_fails fs0 todo sched : start fs0 todo -> exists s, job_run path name sched {| j_fs := fs0; j_todo := todo |} = Ok s.
Proof.
  intros [H0 [H1 H2]]. destruct (@job_run_inv A path name p todo fs0 H0 target (target_ok todo H1) H2 sched _ (@inv_init A path name p todo fs0 H0 target (target_ok todo H1) H2)) as [s [E _]]. eauto.
Qed.
Lemma job_deterministic fs0 todo sched1 s1 sched2 s2 : written opp c d path name nq p fs0 todo sched1 s1 -> written opp c d path name nq p fs0 todo sched2 s2 ->
  forall n, j_fs s1 n = j_fs s2 n.
Proof.
  intros [H0 [H1 [H2 [H3 H4]]]] [_ [_ [_ [H3' H4']]]] n.
  destruct (@job_finished A path name p todo fs0 H0 target (target_ok todo H1) H2 sched1 s1 H3 H4) as [F G].
  destruct (@job_finished A path name p todo fs0 H0 target (target_ok todo H1) H2 sched2 s2 H3' H4') as [F' G'].
  assert (Dec : (exists r, 0 <= r < p /\ n = rank_fname path name r) \/ forall r, 0 <= r < p -> n <> rank_fname path name r).
  { assert (X : forall k, (exists r, 0 <= r < Z.of_nat k /\ n = rank_fname path name r) \/ forall r, 0 <= r < Z.of_nat k -> n <> rank_fname path name r).
    { induction k as [|k [[r [Hr E]]|IH]]; [right; intros; lia|left; exists r; split; [lia|assumption]|].
      destruct (string_dec n (rank_fname path name (Z.of_nat k))) as [E|N]; [left; exists (Z.of_nat k); split; [lia|assumption]|].
      right. intros r Hr. destruct (Z.eq_dec r (Z.of_nat k)) as [->|]; [assumption|]. apply IH. lia. }
    destruct (X (Z.to_nat p)) as [[r [Hr E]]|H]; [left; exists r; split; [lia|assumption]|right; intros r Hr; apply H; lia]. }
  destruct Dec as [[r [Hr ->]]|Hn]; [rewrite F, F' by assumption; reflexivity|rewrite G, G' by assumption; reflexivity].
Qed.
Lemma job_others fs0 todo sched s : written opp c d path name nq p fs0 todo sched s ->
  forall n, (forall r, 0 <= r < p -> n <> rank_fname path name r) -> j_fs s n = fs0 n.
Proof.
  intros [H0 [H1 [H2 [H3 H4]]]]. exact (proj2 (@job_finished A path name p todo fs0 H0 target (target_ok todo H1) H2 sched s H3 H4)).
Qed.
Lemma job_terminates fs0 todo sched s : start fs0 todo -> job_run path name sched {| j_fs := fs0; j_todo := todo |} = Ok s ->
  (forall r, 0 <= r < p -> (length (todo r) <= count_occ Z.eq_dec sched r)%nat) -> written opp c d path name nq p fs0 todo sched s.
Proof.
  intros [H0 [H1 H2]] E Hcnt. split; [assumption|]. split; [assumption|]. split; [assumption|]. split; [assumption|]. intros r Hr.
  apply (@job_progress A path name p todo fs0 H0 target (target_ok todo H1) H2 sched _ s (@inv_init A path name p todo fs0 H0 target (target_ok todo H1) H2) E r). cbn. auto.
Qed.

(** ** loaders *)
Section Load.
Variables (fs0 : fsys A) (todo : Z -> list (op A)) (sched : list Z) (s : job A).
Hypothesis Hw : written opp c d path name nq p fs0 todo sched s.
Variables (ds : string) (a : arr4 A).
Hypothesis Hds : component d ds = Some a.
Variables (zero : A).

Lemma pairing_roundtrip (add : A -> A -> A) (half conj : A -> A) :
  (forall x y z, add x (add y z) = add (add x y) z) -> (forall x y, add x y = add y x) -> (forall x, add x zero = x) ->
  do_pairing c = true ->
  exists res, load_pairing zero add half conj ds (j_fs s) path name p nq (niv_pp c) = Ok res /\
    shape3 res nq (2 * niv_pp c) (2 * niv_pp c) /\
    forall q v vp, 0 <= q < nq -> - niv_pp c <= v < niv_pp c -> - niv_pp c <= vp < niv_pp c ->
      exists x y, get4 a q (niw_core c + (v - vp)) (niv_core c + v) (niv_core c + (- vp - 1)) = Some x /\
                  get4 a q (niw_core c + (vp - v)) (niv_core c + vp) (niv_core c + (- v - 1)) = Some y /\
                  get3 res q (niv_pp c + v) (niv_pp c + vp) = Some (add (half (opp x)) (half (conj (opp y)))).
Proof.
  intros Ha Hcm Hz Hdo. destruct (component_names d ds Hds) as [Hn Hcomp].
  pose proof (npp_le Hc) as Hpp.
  destruct (@load_pairing_val A zero add opp half conj c Hc d nq p Hd Hnq Hp Hvp path name (j_fs s) (written_files Hw) ds Hn Ha Hcm Hz Hdo) as [res [E [S G]]].
  exists res. split; [assumption|]. split; [assumption|]. intros q v vp Hq Hv Hvpp.
  assert (R : forall v vp, - niv_pp c <= v < niv_pp c -> - niv_pp c <= vp < niv_pp c ->
    exists x, get4 a q (niw_core c + (v - vp)) (niv_core c + v) (niv_core c + (- vp - 1)) = Some x).
  { intros v1 v2 Hv1 Hv2. destruct (@M_get A c d nq Hd ds q (v1 - v2) Hn Hq ltac:(lia)) as [_ [SM GM]].
    destruct (@get2_range _ _ _ _ (niv_core c + v1) (niv_core c + (- v2 - 1)) SM) as [x Hx]; [lia|lia|]. rewrite GM, Hcomp in Hx. eauto. }
  destruct (R v vp Hv Hvpp) as [x Hx]. destruct (R vp v Hvpp Hv) as [y Hy]. exists x, y. split; [assumption|]. split; [assumption|].
  rewrite G by lia. unfold X. rewrite Hcomp.
  replace (niv_pp c + v - (niv_pp c + vp)) with (v - vp) by lia. replace (niv_pp c + vp - (niv_pp c + v)) with (vp - v) by lia.
  replace (niv_pp c + v - niv_pp c) with v by lia. replace (niv_pp c + vp - niv_pp c) with vp by lia.
  rewrite Hx, Hy. reflexivity.
Qed.

Lemma vertex_roundtrip : save_fq c = true ->
  exists res, load_vertex zero ds (j_fs s) path name p nq (niw_core c) (niv_core c) = Ok res /\
    (forall q w i j, 0 <= q < nq -> 0 <= w <= niw_core c -> get4 res q (niw_core c + w) i j = get4 a q (niw_core c + w) i j) /\
    (forall q w i j, 0 <= q < nq -> - niw_core c <= w < 0 -> 0 <= i < 2 * niv_core c -> 0 <= j < 2 * niv_core c -> get4 res q (niw_core c + w) i j = Some zero).
Proof.
  intros Hdo. destruct (component_names d ds Hds) as [Hn Hcomp]. destruct Hc as (Hc1&Hc2&_).
  destruct (@load_vertex_val A zero opp c Hc d nq p Hd Hnq Hp Hvp path name (j_fs s) (written_files Hw) ds Hn "fq_" (2 * niv_core c) (2 * niv_core c) (niw_core c) (M c d ds)) as [res [E [L1 [L2 [G1 G2]]]]]; try lia.
  - cbn; tauto.
  - intros q w Hq D. destruct D as [_ [D _]]. apply In_wn in D. destruct (@M_get A c d nq Hd ds q w Hn Hq D) as [_ [SM _]]. split; [reflexivity|assumption].
  - intros w. split; [intros [_ [D _]]; now apply In_wn in D|]. intros Hw'. split; [|split; [now apply In_wn|reflexivity]].
    unfold prefixes. rewrite Hdo, !in_app_iff. right; right; now left.
  - exists res. split; [exact E|]. split.
    + intros q w i j Hq Hw'. rewrite get4_mat, G1 by assumption. cbn [obind].
      destruct (@M_get A c d nq Hd ds q w Hn Hq ltac:(lia)) as [_ [_ GM]]. now rewrite GM, Hcomp.
    + intros q w i j Hq Hw' Hi Hj. rewrite get4_mat, G2 by assumption. cbn [obind]. unfold get2. rewrite zget_repeat by lia. cbn [obind]. now rewrite zget_repeat by lia.
Qed.

Lemma optics_roundtrip_shape : do_vertex c = true ->
  exists res, load_optics zero ds (j_fs s) path name p nq (niw_vert c) (niw_cond c) (niv_vert c) = Ok res /\
    shape4 res nq (2 * niw_vert c + 1) (niw_cond c + 1) (2 * niv_vert c) /\
    (forall q w wc v, 0 <= q < nq -> 0 <= w <= niw_vert c -> 0 <= wc <= niw_cond c -> - niv_vert c <= v < niv_vert c ->
       get4 res q (niw_vert c + w) wc (niv_vert c + v) = get4 a q (niw_core c + w) (niv_core c + v) (niv_core c + (v - wc))) /\
    (forall q w wc j, 0 <= q < nq -> - niw_vert c <= w < 0 -> 0 <= wc <= niw_cond c -> 0 <= j < 2 * niv_vert c -> get4 res q (niw_vert c + w) wc j = Some zero).
Proof.
  intros Hdo. destruct (component_names d ds Hds) as [Hn Hcomp]. pose proof Hc as (Hc1&Hc2&_&Hc4&Hc5&Hc6). pose proof (Hvp Hdo) as Hpos.
  set (F q w := match get_vmw_v_slice (M c d ds q w) (wn (niw_cond c) 0 true) (niv_vert c) with Ok s => s | Raise _ => [] end).
  assert (HF : forall q w, 0 <= q < nq -> - niw_core c <= w <= niw_core c -> shape2 (F q w) (niw_cond c + 1) (2 * niv_vert c) /\
     forall wc v, 0 <= wc <= niw_cond c -> - niv_vert c <= v < niv_vert c -> get2 (F q w) wc (niv_vert c + v) = get4 a q (niw_core c + w) (niv_core c + v) (niv_core c + (v - wc))).
  { intros q w Hq Hw'. destruct (@M_get A c d nq Hd ds q w Hn Hq Hw') as [_ [SM GM]].
    destruct (@vmw_spec A (M c d ds q w) (niv_core c) (niv_vert c) (niw_cond c) SM) as [r [Er [Sr Gr]]]; try lia.
    unfold F. rewrite Er. split; [assumption|]. intros wc v Hwc Hv. rewrite Gr by assumption. now rewrite GM, Hcomp. }
  destruct (@load_vertex_val A zero opp c Hc d nq p Hd Hnq Hp Hvp path name (j_fs s) (written_files Hw) ds Hn "f_" (niw_cond c + 1) (2 * niv_vert c) (niw_vert c) F) as [res [E [L1 [L2 [G1 G2]]]]]; try lia.
  - cbn; tauto.
  - intros q w Hq D. destruct D as [_ [D _]]. cbn in D. apply In_wn in D. split; [reflexivity|]. apply HF; [assumption|lia].
  - intros w. split; [intros [_ [D _]]; now apply In_wn in D|]. intros Hw'. split; [|split; [now apply In_wn|reflexivity]].
    unfold prefixes. rewrite Hdo, !in_app_iff. right; left; now left.
  - exists res. split; [exact E|]. split.
    { split; [exact L1|]. intros r Hr. split; [now apply L2|]. intros m Hm.
      apply In_zget in Hr. destruct Hr as (q & Hq & Er). apply In_zget in Hm. destruct Hm as (i & Hi & Em).
      rewrite L1 in Hq. assert (Li : zlen r = 2 * niw_vert c + 1) by (apply L2; eapply zget_In; exact Er). rewrite Li in Hi.
      assert (Hg : get_mat res q i = Some m) by (unfold get_mat; rewrite Er; exact Em).
      assert (SI : forall T (x y : T), Some x = Some y -> x = y) by congruence. destruct (Z_lt_dec i (niw_vert c)) as [Hlt|Hge].
      - replace i with (niw_vert c + (i - niw_vert c)) in Hg by lia. rewrite G2 in Hg by lia. apply SI in Hg. subst m.
        split; [rewrite zlen_repeat; lia|]. intros x Hx. apply repeat_spec in Hx. subst x. rewrite zlen_repeat; lia.
      - replace i with (niw_vert c + (i - niw_vert c)) in Hg by lia. rewrite G1 in Hg by lia. injection Hg as <-. apply HF; lia. }
    split.
    + intros q w wc v Hq Hw' Hwc Hv. rewrite get4_mat, G1 by assumption. cbn [obind]. apply HF; lia.
    + intros q w wc j Hq Hw' Hwc Hj. rewrite get4_mat, G2 by assumption. cbn [obind]. unfold get2. rewrite zget_repeat by lia. cbn [obind]. now rewrite zget_repeat by lia.
Qed.
Lemma optics_roundtrip : do_vertex c = true ->
  exists res, load_optics zero ds (j_fs s) path name p nq (niw_vert c) (niw_cond c) (niv_vert c) = Ok res /\
    (forall q w wc v, 0 <= q < nq -> 0 <= w <= niw_vert c -> 0 <= wc <= niw_cond c -> - niv_vert c <= v < niv_vert c ->
       get4 res q (niw_vert c + w) wc (niv_vert c + v) = get4 a q (niw_core c + w) (niv_core c + v) (niv_core c + (v - wc))) /\
    (forall q w wc j, 0 <= q < nq -> - niw_vert c <= w < 0 -> 0 <= wc <= niw_cond c -> 0 <= j < 2 * niv_vert c -> get4 res q (niw_vert c + w) wc j = Some zero).
Proof. intros Hdo. destruct (optics_roundtrip_shape Hdo) as [res [E [_ [H1 H2]]]]. exists res. auto. Qed.
End Load.
End P.

(** ** a second run on the files of a first one *)
Lemma rerun_fails A opp c (d : vdata A) nq p path name r ops f sched s fs : cfg_ok c -> data_ok c d nq -> 0 <= nq -> 0 < p -> (do_vertex c = true -> 0 < niv_core c) ->
  0 <= r < p -> rank_ops opp c d nq p r = Ok ops -> ops <> [] -> run_ops ops [] = Ok f -> fs (rank_fname path name r) = Some f ->
  job_run path name (r :: sched) {| j_fs := fs; j_todo := fun r' => if r' =? r then ops else [] |} = s -> s = Raise ValueError.
Proof.
  intros Hc Hd Hnq Hp Hv Hr Eo Hne Erun Efs Es. subst s.
  destruct (@rank_ops_pure A opp c Hc d nq Hd p r Hv Hnq Hp Hr) as [ts [E1 [E2 [Hq Hnd]]]].
  assert (ops = ops_pure opp c d ts) by congruence. subst ops.
  destruct (@file_contents A opp c d ts (fun q H => proj1 (Hq q H)) Hnd) as [f' [E [C1 _]]]. assert (f' = f) by congruence. subst f'.
  (* the first write is a Put of a key the file already has *)
  assert (Hfirst : exists k v rest, ops_pure opp c d ts = Put k v :: rest /\ h5_get f k <> None).
  { assert (Hlist : forall l : list (list (op A)), concat l <> [] -> (forall x, In x l -> x = [] \/ exists k v rest, x = Put k v :: rest) ->
       exists k v rest, concat l = Put k v :: rest).
    { induction l as [|x l IH]; intros Hn Hx; [now cbn in Hn|]. destruct (Hx x (or_introl eq_refl)) as [->|[k [v [rest ->]]]]; [apply IH; auto; intros; apply Hx; now right|cbn; eauto]. }
    assert (Hin : exists k v rest, ops_pure opp c d ts = Put k v :: rest).
    { assert (G : forall T (g : T -> list (op A)) l, (forall x, In x l -> g x = [] \/ exists k v rest, g x = Put k v :: rest) -> flat_map g l = [] \/ exists k v rest, flat_map g l = Put k v :: rest).
      { intros T g l Hg. destruct (flat_map g l) eqn:Ef; [now left|right]. rewrite <- Ef. rewrite flat_map_concat_map in *. apply Hlist; [congruence|].
        intros x Hx. apply in_map_iff in Hx. destruct Hx as [t [<- Ht]]. auto. }
      destruct (G _ (fun ch => flat_map (fun pf => flat_map (fun q => flat_map (fun w => cell opp c d ch pf q w) (wlist c pf)) ts) (prefixes c)) ["dens"; "magn"]) as [E0|E0]; [|contradiction|exact E0].
      intros ch _. apply G. intros pf _. apply G. intros q _. apply G. intros w _. unfold cell. destruct (wok c pf w); [right|now left]. cbn. eauto. }
    destruct Hin as [k [v [rest Ek]]]. exists k, v, rest. split; [assumption|].
    assert (Ho : In (Put k v) (ops_pure opp c d ts)) by (rewrite Ek; now left). apply In_ops in Ho.
    destruct Ho as [ch [pf [q [w [Hch [Hpf [Hq' [Hw Hcell]]]]]]]].
    assert (Hk : In k (flat_map (@op_put A) (cell opp c d ch pf q w))) by (apply in_flat_map; exists (Put k v); split; [assumption|now left]).
    apply cell_put in Hk. destruct Hk as [Hok Hk].
    assert (Hds : In ("f1_" ++ ch)%string names4 /\ In ("f2_" ++ ch)%string names4) by (destruct Hch as [<-|[<-|[]]]; cbn; tauto).
    destruct Hk as [-> | ->]; rewrite (C1 pf q w); try (split; [assumption|split; assumption]); try assumption; try tauto; discriminate. }
  destruct Hfirst as [k [v [rest [Ek Hk]]]]. unfold job_run. cbn [foldM]. unfold job_step. cbn [j_todo j_fs]. rewrite Z.eqb_refl, Ek, Efs. cbn [run_op].
  unfold h5_put. destruct (h5_get f k); [reflexivity|congruence].
Qed.

(** ** crash points: at every moment every file holds exactly the datasets of the writes done so far *)
Section Crash.
Variable A : Type.
Variables (path name : string).
Lemma job_prefix sched : forall fs0 todo (s : job A), (forall r, 0 <= r -> fs0 (rank_fname path name r) = Some [] \/ todo r = []) -> (forall r, r < 0 -> todo r = []) ->
  job_run path name sched {| j_fs := fs0; j_todo := todo |} = Ok s ->
  forall r, 0 <= r -> exists done f, todo r = done ++ j_todo s r /\ (done <> [] -> j_fs s (rank_fname path name r) = Some f) /\ (fs0 (rank_fname path name r) = Some [] -> j_fs s (rank_fname path name r) = Some f) /\ run_ops done [] = Ok f.
Proof.
  intros fs0 todo s Hf Hneg Hrun.
  assert (G : forall sched s0 s, (forall r, r < 0 -> j_todo s0 r = []) ->
    (forall r, 0 <= r -> exists done f, todo r = done ++ j_todo s0 r /\ (done <> [] -> j_fs s0 (rank_fname path name r) = Some f) /\ (fs0 (rank_fname path name r) = Some [] -> j_fs s0 (rank_fname path name r) = Some f) /\ run_ops done [] = Ok f) ->
    job_run path name sched s0 = Ok s ->
    forall r, 0 <= r -> exists done f, todo r = done ++ j_todo s r /\ (done <> [] -> j_fs s (rank_fname path name r) = Some f) /\ (fs0 (rank_fname path name r) = Some [] -> j_fs s (rank_fname path name r) = Some f) /\ run_ops done [] = Ok f).
  { clear sched s Hrun. induction sched as [|r0 sched IH]; intros s0 s Hn0 H0 Hrun; unfold job_run in Hrun; cbn [foldM] in Hrun.
    - injection Hrun as <-. exact H0.
    - destruct (job_step path name r0 s0) as [s1|] eqn:E1; [|discriminate]. cbn [bind] in Hrun.
      unfold job_step in E1. destruct (j_todo s0 r0) as [|o rest] eqn:Et; [injection E1 as <-; now apply (IH s0)|].
      assert (Hr0 : 0 <= r0). { destruct (Z_le_dec 0 r0); [assumption|]. rewrite Hn0 in Et by lia. discriminate. }
      destruct (j_fs s0 (rank_fname path name r0)) as [f|] eqn:Ef; [|discriminate].
      destruct (run_op f o) as [f'|] eqn:Eo; [|discriminate]. cbn [bind] in E1. injection E1 as <-. refine (IH _ s _ _ Hrun).
      + intros r Hr. cbn [j_todo]. destruct (Z.eqb_spec r r0); [lia|auto].
      + intros r Hr. cbn [j_fs j_todo]. destruct (H0 r Hr) as [done [g [Hd1 [Hd2 [Hd3 Hd4]]]]]. destruct (Z.eqb_spec r r0) as [->|N].
        * assert (Hg : g = f).
          { destruct done as [|o1 done]; [|specialize (Hd2 ltac:(discriminate)); congruence].
            cbn [app] in Hd1. destruct (Hf r0 Hr0) as [Hf0|Hf0]; [specialize (Hd3 Hf0); congruence|]. congruence. }
          subst g. exists (done ++ [o]), f'. unfold fs_set. rewrite String.eqb_refl. split; [rewrite <- app_assoc; cbn; congruence|].
          split; [auto|]. split; [auto|]. unfold run_ops in *. rewrite foldM_app, Hd4. cbn. now rewrite Eo.
        * exists done, g. split; [assumption|]. unfold fs_set. destruct (String.eqb_spec (rank_fname path name r) (rank_fname path name r0)) as [Eq|Nq]; [apply rank_fname_inj in Eq; lia|]. auto. }
  apply (G sched {| j_fs := fs0; j_todo := todo |} s); [exact Hneg| |exact Hrun]. intros r Hr. exists [], []. cbn. split; [reflexivity|]. split; [intros H; now elim H|]. split; [auto|reflexivity].
Qed.
Lemma crash_prefix p fs0 todo sched (s : job A) : (forall r, 0 <= r < p -> fs0 (rank_fname path name r) = Some []) -> (forall r, ~ 0 <= r < p -> todo r = []) ->
  job_run path name sched {| j_fs := fs0; j_todo := todo |} = Ok s ->
  forall r, 0 <= r < p -> exists done f, todo r = done ++ j_todo s r /\ j_fs s (rank_fname path name r) = Some f /\ run_ops done [] = Ok f.
Proof.
  intros H0 H1 Hrun r Hr. destruct (@job_prefix sched fs0 todo s) with (r := r) as [done [f [E1 [_ [E3 E4]]]]]; [..|exists done, f; split; auto]; try lia; try assumption.
  - intros r' Hr'. destruct (Z_lt_dec r' p); [left; apply H0; lia|right; apply H1; lia].
  - intros r' Hr'. apply H1. lia.
Qed.
End Crash.

Lemma mapM_zget_ok A B (f : A -> res B) l : (forall x, In x l -> exists y, f x = Ok y) -> exists r, mapM f l = Ok r.
Proof.
  induction l as [|x l IH]; intros H; cbn [mapM]; [eauto|]. destruct (H x (or_introl eq_refl)) as [y ->]. cbn [bind].
  destruct IH as [r ->]; [intros; apply H; now right|]. cbn [bind]. eauto.
Qed.

(** ** reshape_chi *)
Section Reshape.
Variable A : Type.
Lemma reshape_chi_spec (chi : list A) niw npp : zlen chi = 2 * niw + 1 -> 0 <= npp -> 2 * npp - 1 <= niw ->
  exists m, reshape_chi chi npp = Ok m /\ shape2 m (2 * npp) (2 * npp) /\
    forall v vp, - npp <= v < npp -> - npp <= vp < npp -> get2 m (npp + v) (npp + vp) = zget chi (niw + (v - vp)).
Proof.
  intros Hl Hp Hb. unfold reshape_chi. replace (zlen chi / 2) with niw by lia.
  assert (Hrow : forall v, - npp <= v < npp -> exists row, mapM (fun vp => py_get chi (v - vp + niw)) (arange (- npp) npp) = Ok row /\ zlen row = 2 * npp /\
     forall vp, - npp <= vp < npp -> zget row (npp + vp) = zget chi (niw + (v - vp))).
  { intros v Hv. destruct (@mapM_zget_ok _ _ (fun vp => py_get chi (v - vp + niw)) (arange (- npp) npp)) as [row Er].
    - intros vp Hin. apply In_arange in Hin. destruct (@zget_in_range _ chi (v - vp + niw) ltac:(lia)) as [x Hx]. exists x. apply py_get_nonneg; [lia|assumption].
    - exists row. split; [assumption|]. apply mapM_zget in Er. destruct Er as [L G]. rewrite zlen_arange in L. split; [lia|].
      intros vp Hvp. destruct (G (npp + vp) vp) as [b [H1 H2]]; [rewrite zget_arange by lia; f_equal; lia|]. rewrite H1.
      destruct (@zget_in_range _ chi (v - vp + niw) ltac:(lia)) as [x Hx]. rewrite (@py_get_nonneg _ chi (v - vp + niw) x) in H2 by (auto; lia).
      replace (niw + (v - vp)) with (v - vp + niw) by lia. congruence. }
  destruct (@mapM_zget_ok _ _ (fun ivn => mapM (fun ivnp => py_get chi (ivn - ivnp + niw)) (arange (- npp) npp)) (arange (- npp) npp)) as [m Em].
  - intros v Hin. apply In_arange in Hin. destruct (Hrow v Hin) as [row [E _]]. eauto.
  - exists m. split; [assumption|]. apply mapM_zget in Em. destruct Em as [L G]. rewrite zlen_arange in L.
    assert (G' : forall v, - npp <= v < npp -> exists row, zget m (npp + v) = Some row /\ zlen row = 2 * npp /\ forall vp, - npp <= vp < npp -> zget row (npp + vp) = zget chi (niw + (v - vp))).
    { intros v Hv. destruct (G (npp + v) v) as [b [H1 H2]]; [rewrite zget_arange by lia; f_equal; lia|]. destruct (Hrow v Hv) as [row [E HR]]. exists row. split; [congruence|assumption]. }
    split; [split; [lia|]|].
    + intros r Hin. apply In_zget in Hin. destruct Hin as [k [Hk Hg]]. destruct (G' (k - npp) ltac:(lia)) as [row [H1 [H2 _]]].
      replace (npp + (k - npp)) with k in H1 by lia. congruence.
    + intros v vp Hv Hvp. destruct (G' v Hv) as [row [H1 [_ H2]]]. unfold get2. rewrite H1. cbn [obind]. auto.
Qed.
Lemma npp_fits niw niv : 0 <= niw -> 0 <= niv -> 2 * Z.min (niw / 2) (niv / 2) - 1 <= niw.
Proof. intros. lia. Qed.
End Reshape.
