(** C28-C30, C56-C58: the per-rank HDF5 files (pairing_vertex.py, four_point.py, optics.py, mpi_aux.py). *)
From Coq Require Import String.
From Verif Require Import Base.PyBase Base.Arr Model.MpiAux Model.RankFiles Spec.RankSpec
  Proofs.RankFilesP Proofs.RankLoad2P Proofs.RankMainP.
Local Open Scope string_scope.
Local Open Scope list_scope.
Local Open Scope Z_scope.

(** C28 (part that holds).  After any complete parallel write the loader succeeds and returns, for every q and every
    non-negative bosonic frequency, the component that was written. *)
Theorem C28_nonneg_frequencies_survive : forall A (zero : A) opp c (d : vdata A) nq p path name fs0 todo sched s ds a,
  cfg_ok c -> data_ok c d nq -> 0 <= nq -> 0 < p -> (do_vertex c = true -> 0 < niv_core c) ->
  written opp c d path name nq p fs0 todo sched s -> component d ds = Some a -> save_fq c = true ->
  exists res, load_vertex zero ds (j_fs s) path name p nq (niw_core c) (niv_core c) = Ok res /\
    (forall q w i j, 0 <= q < nq -> 0 <= w <= niw_core c -> get4 res q (niw_core c + w) i j = get4 a q (niw_core c + w) i j) /\
    (* what happens to the others: they come back as zeros *)
    (forall q w i j, 0 <= q < nq -> - niw_core c <= w < 0 -> 0 <= i < 2 * niv_core c -> 0 <= j < 2 * niv_core c ->
       get4 res q (niw_core c + w) i j = Some zero).
Proof. intros A zero opp c d nq p path name fs0 todo sched s ds a Hc Hd Hn Hp Hv Hw Hds Hs. exact (vertex_roundtrip Hc Hd Hn Hp Hv Hw ds Hds zero Hs). Qed.
Print Assumptions C28_nonneg_frequencies_survive.

(** A complete run used as example: entries are integers, niw = niv = 2, three ranks, four momenta. *)
Definition ex_entry (k q w i j : Z) : Z := k + 10 * (q + 10 * (w + 10 * (i + 10 * (j + 1)))).
Definition ex_arr (k : Z) : arr4 Z := map (fun q => map (fun w => map (fun i => map (fun j => ex_entry k q w i j) (range 4)) (range 4)) (range 5)) (range 4).
Definition ex_data : vdata Z := {| f1_dens := ex_arr 1; f2_dens := ex_arr 2; f1_magn := ex_arr 3; f2_magn := ex_arr 4 |}.
Definition ex_cfg : cfg := {| niw_core := 2; niv_core := 2; niv_pp := 1; do_pairing := true; do_vertex := true; save_fq := true;
  niw_vert := 1; niw_cond := 1; niv_vert := 1 |}.
Definition ex_todo (r : Z) : list (op Z) := if (0 <=? r) && (r <? 3) then match rank_ops Z.opp ex_cfg ex_data 4 3 r with Ok ops => ops | Raise _ => [] end else [].
Definition ex_fs (n : string) : option (h5file Z) := if existsb (fun r => String.eqb n (rank_fname "out/" "Qiw" r)) [0; 1; 2] then Some [] else None.
(** an interleaving of the three ranks (with idle steps at the end) *)
Definition ex_sched : list Z := flat_map (fun _ => [2; 0; 2; 1]) (range 200).
Definition ex_state : job Z := match job_run "out/" "Qiw" ex_sched {| j_fs := ex_fs; j_todo := ex_todo |} with Ok s => s | Raise _ => {| j_fs := ex_fs; j_todo := ex_todo |} end.
Lemma ex_cfg_ok : cfg_ok ex_cfg. Proof. vm_compute. intuition discriminate. Qed.
Lemma ex_data_ok : data_ok ex_cfg ex_data 4.
Proof.
  intros ds a E. assert (H : exists k, a = ex_arr k).
  { unfold component in E. repeat match type of E with (if ?b then _ else _) = _ => destruct b end; try discriminate; injection E as <-; eexists; reflexivity. }
  destruct H as [k ->]. unfold ex_arr.
  repeat (split; [reflexivity|]; let r := fresh "r" in let H := fresh "H" in intros r H; apply in_map_iff in H; destruct H as [? [<- _]]).
  reflexivity.
Qed.
Lemma ex_written : written Z.opp ex_cfg ex_data "out/" "Qiw" 4 3 ex_fs ex_todo ex_sched ex_state.
Proof.
  assert (R : forall P : Z -> Prop, P 0 -> P 1 -> P 2 -> forall r, 0 <= r < 3 -> P r).
  { intros P H0 H1 H2 r Hr. assert (E : r = 0 \/ r = 1 \/ r = 2) by lia. destruct E as [->|[->| ->]]; assumption. }
  split; [apply R; vm_compute; reflexivity|]. split; [apply R; vm_compute; reflexivity|]. split.
  { intros r Hr. unfold ex_todo. destruct (Z.leb_spec 0 r), (Z.ltb_spec r 3); cbn; try reflexivity; lia. }
  split.
  { unfold ex_state. destruct (job_run "out/" "Qiw" ex_sched {| j_fs := ex_fs; j_todo := ex_todo |}) eqn:E; [reflexivity|exfalso].
    destruct (@job_never_fails Z Z.opp ex_cfg ex_cfg_ok ex_data 4 3 ex_data_ok ltac:(lia) ltac:(lia) ltac:(intros _; reflexivity) "out/" "Qiw" ex_fs ex_todo ex_sched) as [s Es]; [|congruence].
    split; [apply R; vm_compute; reflexivity|]. split; [apply R; vm_compute; reflexivity|].
    intros r Hr. unfold ex_todo. destruct (Z.leb_spec 0 r), (Z.ltb_spec r 3); cbn; try reflexivity; lia. }
  apply R; vm_compute; reflexivity.
Qed.

(** The property itself is refuted: in the example run the component written for w = -1 is lost. *)
Theorem C28_refuted : exists (c : cfg) (d : vdata Z) nq p path name fs0 todo sched s res q w i j x,
  cfg_ok c /\ data_ok c d nq /\ written Z.opp c d path name nq p fs0 todo sched s /\ save_fq c = true /\
  load_vertex 0 "f1_dens" (j_fs s) path name p nq (niw_core c) (niv_core c) = Ok res /\
  get4 (f1_dens d) q (niw_core c + w) i j = Some x /\ x <> 0 /\ - niw_core c <= w <= niw_core c /\
  get4 res q (niw_core c + w) i j = Some 0.
Proof.
  destruct (@vertex_roundtrip Z Z.opp ex_cfg ex_cfg_ok ex_data 4 3 ex_data_ok ltac:(lia) ltac:(lia) ltac:(intros _; reflexivity) "out/" "Qiw" ex_fs ex_todo ex_sched ex_state ex_written "f1_dens" (ex_arr 1) eq_refl 0 eq_refl) as [res [E [_ G]]].
  exists ex_cfg, ex_data, 4, 3, "out/", "Qiw", ex_fs, ex_todo, ex_sched, ex_state, res, 3, (-1), 2, 1, (ex_entry 1 3 1 2 1).
  split; [exact ex_cfg_ok|]. split; [exact ex_data_ok|]. split; [exact ex_written|]. split; [reflexivity|]. split; [exact E|].
  split; [vm_compute; reflexivity|]. split; [vm_compute; discriminate|]. split; [cbn; lia|]. apply G; cbn; lia.
Qed.
Print Assumptions C28_refuted.

(** C29.  The loaded pairing vertex is the Hermitian part of -F(v-vp, v, -vp), for any number of ranks and any schedule. *)
Theorem C29_pairing_vertex_roundtrip : forall A (zero : A) (add : A -> A -> A) (opp half conj : A -> A) c (d : vdata A) nq p path name fs0 todo sched s ds a,
  (forall x y z, add x (add y z) = add (add x y) z) -> (forall x y, add x y = add y x) -> (forall x, add x zero = x) ->
  cfg_ok c -> data_ok c d nq -> 0 <= nq -> 0 < p -> (do_vertex c = true -> 0 < niv_core c) ->
  written opp c d path name nq p fs0 todo sched s -> component d ds = Some a -> do_pairing c = true ->
  exists res, load_pairing zero add half conj ds (j_fs s) path name p nq (niv_pp c) = Ok res /\
    shape3 res nq (2 * niv_pp c) (2 * niv_pp c) /\
    forall q v vp, 0 <= q < nq -> - niv_pp c <= v < niv_pp c -> - niv_pp c <= vp < niv_pp c ->
      exists x y, get4 a q (niw_core c + (v - vp)) (niv_core c + v) (niv_core c + (- vp - 1)) = Some x /\
                  get4 a q (niw_core c + (vp - v)) (niv_core c + vp) (niv_core c + (- v - 1)) = Some y /\
                  get3 res q (niv_pp c + v) (niv_pp c + vp) = Some (add (half (opp x)) (half (conj (opp y)))).
Proof.
  intros A zero add opp half conj c d nq p path name fs0 todo sched s ds a H1 H2 H3 Hc Hd Hn Hp Hv Hw Hds Hdo.
  exact (pairing_roundtrip Hc Hd Hn Hp Hv Hw ds Hds zero add half conj H1 H2 H3 Hdo).
Qed.
Print Assumptions C29_pairing_vertex_roundtrip.

(** hence it is Hermitian in (v,vp) when conjugation is an additive involution *)
Theorem C29_loaded_vertex_hermitian : forall A (zero : A) (add : A -> A -> A) (opp half conj : A -> A) c (d : vdata A) nq p path name fs0 todo sched s ds a,
  (forall x y z, add x (add y z) = add (add x y) z) -> (forall x y, add x y = add y x) -> (forall x, add x zero = x) ->
  (forall x y, conj (add x y) = add (conj x) (conj y)) -> (forall x, conj (conj x) = x) -> (forall x, conj (half x) = half (conj x)) ->
  cfg_ok c -> data_ok c d nq -> 0 <= nq -> 0 < p -> (do_vertex c = true -> 0 < niv_core c) ->
  written opp c d path name nq p fs0 todo sched s -> component d ds = Some a -> do_pairing c = true ->
  exists res, load_pairing zero add half conj ds (j_fs s) path name p nq (niv_pp c) = Ok res /\
    forall q v vp, 0 <= q < nq -> - niv_pp c <= v < niv_pp c -> - niv_pp c <= vp < niv_pp c ->
      get3 res q (niv_pp c + v) (niv_pp c + vp) = option_map conj (get3 res q (niv_pp c + vp) (niv_pp c + v)).
Proof.
  intros A zero add opp half conj c d nq p path name fs0 todo sched s ds a H1 H2 H3 Ca Ci Ch Hc Hd Hn Hp Hv Hw Hds Hdo.
  destruct (pairing_roundtrip Hc Hd Hn Hp Hv Hw ds Hds zero add half conj H1 H2 H3 Hdo) as [res [E [_ G]]].
  exists res. split; [exact E|]. intros q v vp Hq H4 H5. destruct (G q v vp Hq H4 H5) as [x [y [Ex [Ey E1]]]].
  destruct (G q vp v Hq H5 H4) as [x' [y' [Ex' [Ey' E2]]]]. rewrite E1, E2. cbn [option_map]. rewrite Ca, !Ch, Ci, H2. congruence.
Qed.
Print Assumptions C29_loaded_vertex_hermitian.

Example C29_example : exists res, load_pairing 0 Z.add (fun x => x) (fun x => x) "f2_magn" (j_fs ex_state) "out/" "Qiw" 3 4 1 = Ok res /\
  get3 res 3 0 1 = Some (- ex_entry 4 3 1 1 1 + - ex_entry 4 3 3 2 2).
Proof. eexists. split; vm_compute; reflexivity. Qed.

(** C30.  reshape_chi stores chi(v-vp) at (v,vp), without wrap-around whenever 2*niv_pp-1 <= niw ... *)
Theorem C30_reshape_chi : forall A (chi : list A) niw npp, zlen chi = 2 * niw + 1 -> 0 <= npp -> 2 * npp - 1 <= niw ->
  exists m, reshape_chi chi npp = Ok m /\ shape2 m (2 * npp) (2 * npp) /\
    forall v vp, - npp <= v < npp -> - npp <= vp < npp -> get2 m (npp + v) (npp + vp) = zget chi (niw + (v - vp)).
Proof. exact reshape_chi_spec. Qed.
Print Assumptions C30_reshape_chi.
(** ... which the box of the program guarantees. *)
Theorem C30_box_is_large_enough : forall niw niv, 0 <= niw -> 0 <= niv -> 2 * Z.min (niw / 2) (niv / 2) - 1 <= niw.
Proof. exact npp_fits. Qed.
Print Assumptions C30_box_is_large_enough.
Example C30_example : reshape_chi [10; 11; 12; 13; 14; 15; 16] 2 = Ok [[13; 12; 11; 10]; [14; 13; 12; 11]; [15; 14; 13; 12]; [16; 15; 14; 13]].
Proof. reflexivity. Qed.
(** the condition is sharp: on a smaller box the frequency -3 is silently replaced by +2 before the routine fails on +3 *)
Example C30_condition_sharp : zget [10; 11; 12; 13; 14] (2 + (-2 - 1)) = None /\ py_get [10; 11; 12; 13; 14] (2 + (-2 - 1)) = Ok 14 /\
  reshape_chi [10; 11; 12; 13; 14] 2 = Raise IndexError.
Proof. repeat split. Qed.

(** C56.  The parallel write.  No schedule makes a write fail; *)
Theorem C56_no_schedule_fails : forall A opp c (d : vdata A) nq p path name fs0 todo sched,
  cfg_ok c -> data_ok c d nq -> 0 <= nq -> 0 < p -> (do_vertex c = true -> 0 < niv_core c) ->
  started opp c d path name nq p fs0 todo ->
  exists s, job_run path name sched {| j_fs := fs0; j_todo := todo |} = Ok s.
Proof. intros A opp c d nq p path name fs0 todo sched Hc Hd Hn Hp Hv H. exact (job_never_fails Hc Hd Hn Hp Hv sched H). Qed.
Print Assumptions C56_no_schedule_fails.
(** every two complete schedules leave the same file system; *)
Theorem C56_schedule_independent : forall A opp c (d : vdata A) nq p path name fs0 todo sched1 s1 sched2 s2,
  cfg_ok c -> data_ok c d nq -> 0 <= nq -> 0 < p -> (do_vertex c = true -> 0 < niv_core c) ->
  written opp c d path name nq p fs0 todo sched1 s1 -> written opp c d path name nq p fs0 todo sched2 s2 ->
  forall n, j_fs s1 n = j_fs s2 n.
Proof. intros A opp c d nq p path name fs0 todo sched1 s1 sched2 s2 Hc Hd Hn Hp Hv H1 H2. exact (job_deterministic Hc Hd Hn Hp Hv H1 H2). Qed.
Print Assumptions C56_schedule_independent.
(** no other file is touched; *)
Theorem C56_other_files_untouched : forall A opp c (d : vdata A) nq p path name fs0 todo sched s,
  cfg_ok c -> data_ok c d nq -> 0 <= nq -> 0 < p -> (do_vertex c = true -> 0 < niv_core c) ->
  written opp c d path name nq p fs0 todo sched s ->
  forall n, (forall r, 0 <= r < p -> n <> rank_fname path name r) -> j_fs s n = fs0 n.
Proof. intros A opp c d nq p path name fs0 todo sched s Hc Hd Hn Hp Hv H. exact (job_others Hc Hd Hn Hp Hv H). Qed.
Print Assumptions C56_other_files_untouched.
(** distinct ranks have distinct files, also beyond 99999 ranks; *)
Theorem C56_distinct_files : forall path name r r', 0 <= r -> 0 <= r' -> rank_fname path name r = rank_fname path name r' -> r = r'.
Proof. intros path name r r' Hr Hr' E. eapply StrP.rank_fname_inj; eauto. Qed.
Print Assumptions C56_distinct_files.
(** every schedule that gives each rank enough turns completes; *)
Theorem C56_fair_schedules_complete : forall A opp c (d : vdata A) nq p path name fs0 todo sched s,
  cfg_ok c -> data_ok c d nq -> 0 <= nq -> 0 < p -> (do_vertex c = true -> 0 < niv_core c) ->
  started opp c d path name nq p fs0 todo -> job_run path name sched {| j_fs := fs0; j_todo := todo |} = Ok s ->
  (forall r, 0 <= r < p -> (length (todo r) <= count_occ Z.eq_dec sched r)%nat) ->
  written opp c d path name nq p fs0 todo sched s.
Proof. intros A opp c d nq p path name fs0 todo sched s Hc Hd Hn Hp Hv. exact (@job_terminates A opp c Hc d nq p Hd Hn Hp Hv path name fs0 todo sched s). Qed.
Print Assumptions C56_fair_schedules_complete.
(** and at every crash point the file of a rank holds exactly the writes that rank has done. *)
Theorem C56_crash_points : forall A path name p fs0 todo sched (s : job A),
  (forall r, 0 <= r < p -> fs0 (rank_fname path name r) = Some []) -> (forall r, ~ 0 <= r < p -> todo r = []) ->
  job_run path name sched {| j_fs := fs0; j_todo := todo |} = Ok s ->
  forall r, 0 <= r < p -> exists done f, todo r = done ++ j_todo s r /\ j_fs s (rank_fname path name r) = Some f /\ run_ops done [] = Ok f.
Proof. exact crash_prefix. Qed.
Print Assumptions C56_crash_points.
Example C56_example : started Z.opp ex_cfg ex_data "out/" "Qiw" 4 3 ex_fs ex_todo /\ (length (ex_todo 2) > 50)%nat /\ rank_fname "out/" "Qiw" 2 = "out/QiwRank00002.hdf5".
Proof. destruct ex_written as [H1 [H2 [H3 _]]]. split; [split; [|split]; assumption|]. split; [vm_compute; lia|reflexivity]. Qed.

(** C57.  The optics vertex: row wc, column v of the loaded array is F(w; v, v-wc), for w >= 0; negative w are lost. *)
Theorem C57_optics_vertex_roundtrip : forall A (zero : A) opp c (d : vdata A) nq p path name fs0 todo sched s ds a,
  cfg_ok c -> data_ok c d nq -> 0 <= nq -> 0 < p -> (do_vertex c = true -> 0 < niv_core c) ->
  written opp c d path name nq p fs0 todo sched s -> component d ds = Some a -> do_vertex c = true ->
  exists res, load_optics zero ds (j_fs s) path name p nq (niw_vert c) (niw_cond c) (niv_vert c) = Ok res /\
    (forall q w wc v, 0 <= q < nq -> 0 <= w <= niw_vert c -> 0 <= wc <= niw_cond c -> - niv_vert c <= v < niv_vert c ->
       get4 res q (niw_vert c + w) wc (niv_vert c + v) = get4 a q (niw_core c + w) (niv_core c + v) (niv_core c + (v - wc))) /\
    (forall q w wc j, 0 <= q < nq -> - niw_vert c <= w < 0 -> 0 <= wc <= niw_cond c -> 0 <= j < 2 * niv_vert c ->
       get4 res q (niw_vert c + w) wc j = Some zero).
Proof. intros A zero opp c d nq p path name fs0 todo sched s ds a Hc Hd Hn Hp Hv Hw Hds Hs. exact (optics_roundtrip Hc Hd Hn Hp Hv Hw ds Hds zero Hs). Qed.
Print Assumptions C57_optics_vertex_roundtrip.
Theorem C57_refuted : exists (c : cfg) (d : vdata Z) nq p path name fs0 todo sched s res q w wc v x,
  cfg_ok c /\ data_ok c d nq /\ written Z.opp c d path name nq p fs0 todo sched s /\ do_vertex c = true /\
  load_optics 0 "f1_dens" (j_fs s) path name p nq (niw_vert c) (niw_cond c) (niv_vert c) = Ok res /\
  - niw_vert c <= w <= niw_vert c /\ 0 <= wc <= niw_cond c /\ - niv_vert c <= v < niv_vert c /\
  get4 (f1_dens d) q (niw_core c + w) (niv_core c + v) (niv_core c + (v - wc)) = Some x /\ x <> 0 /\
  get4 res q (niw_vert c + w) wc (niv_vert c + v) = Some 0.
Proof.
  destruct (@optics_roundtrip Z Z.opp ex_cfg ex_cfg_ok ex_data 4 3 ex_data_ok ltac:(lia) ltac:(lia) ltac:(intros _; reflexivity) "out/" "Qiw" ex_fs ex_todo ex_sched ex_state ex_written "f1_dens" (ex_arr 1) eq_refl 0 eq_refl) as [res [E [_ G]]].
  exists ex_cfg, ex_data, 4, 3, "out/", "Qiw", ex_fs, ex_todo, ex_sched, ex_state, res, 3, (-1), 1, 0, (ex_entry 1 3 1 2 1).
  split; [exact ex_cfg_ok|]. split; [exact ex_data_ok|]. split; [exact ex_written|]. split; [reflexivity|]. split; [exact E|].
  split; [cbn; lia|]. split; [cbn; lia|]. split; [cbn; lia|]. split; [vm_compute; reflexivity|]. split; [vm_compute; discriminate|]. apply G; cbn; lia.
Qed.
Print Assumptions C57_refuted.

(** C58.  Running again on top of the files of an earlier run raises instead of mixing data: the files are opened in
    append mode and the first write of a rank that has anything to write is refused. *)
Theorem C58_rerun_is_refused : forall A opp c (d : vdata A) nq p path name r ops f sched s fs,
  cfg_ok c -> data_ok c d nq -> 0 <= nq -> 0 < p -> (do_vertex c = true -> 0 < niv_core c) ->
  0 <= r < p -> rank_ops opp c d nq p r = Ok ops -> ops <> [] -> run_ops ops [] = Ok f -> fs (rank_fname path name r) = Some f ->
  job_run path name (r :: sched) {| j_fs := fs; j_todo := fun r' => if r' =? r then ops else [] |} = s -> s = Raise ValueError.
Proof. exact rerun_fails. Qed.
Print Assumptions C58_rerun_is_refused.
Example C58_example : exists f, run_ops (ex_todo 1) [] = Ok f /\ zlen f > 0 /\ (0 < length (ex_todo 1))%nat /\ run_ops (ex_todo 1) f = Raise ValueError.
Proof. eexists. split; [vm_compute; reflexivity|]. split; [vm_compute; reflexivity|]. split; [vm_compute; lia|vm_compute; reflexivity]. Qed.
