(** Proofs about the files of a whole run (Model/RunFiles.v). *)
From Coq Require Import List String Bool Arith Lia.
From Verif Require Import Model.RunFiles Spec.RunFilesSpec Proofs.RunSyncP.
Import ListNotations.
Local Open Scope string_scope.
Local Open Scope list_scope.
Local Open Scope nat_scope.

Definition owner (f : file) : nat := match f with RankFile r => r | RunFile _ => 0 end.
Ltac flag := repeat match goal with |- context [if ?b then _ else _] => match b with true => fail 1 | false => fail 1 | _ => destruct b eqn:? end end.

Section Facts.
Variable fl : flags.
Variable n : nat.
Notation prog := (dga_prog fl n).

(** * Simple facts about the pieces *)
Definition plain (l : list action) : Prop := forall a, In a l -> exists q gs, a = Fetch (RankFile q) gs /\ q < n.
Lemma fetch_plain name : plain (fetch_ranks n name).
Proof. intros a I. unfold fetch_ranks in I. apply in_map_iff in I. destruct I as (q & <- & I). apply in_seq in I. exists q, [name ++ "magn"; name ++ "dens"]%string. split; [reflexivity|lia]. Qed.
Lemma plain_untouched l f : plain l -> untouched f l.
Proof.
  intros H. unfold untouched. induction l as [|a l IH]; [reflexivity|]. destruct (H a (or_introl eq_refl)) as (q & gs & -> & _). cbn. apply IH. intros x I. apply H. now right.
Qed.
Lemma plain_syncs l : plain l -> syncs l = [].
Proof.
  intros H. induction l as [|a l IH]; [reflexivity|]. destruct (H a (or_introl eq_refl)) as (q & gs & -> & _). cbn. apply IH. intros x I. apply H. now right.
Qed.
Lemma fetch_untouched name f : untouched f (fetch_ranks n name). Proof. apply plain_untouched, fetch_plain. Qed.
Lemma fetch_syncs name : syncs (fetch_ranks n name) = []. Proof. eapply plain_syncs, fetch_plain. Qed.

(** * All ranks have the same MPI operations *)
Definition sync_setup : list coll := [CBcast; CBarrier; CBcast; CBcast; CBcast; CBarrier; CBarrier; CBarrier].
Definition sync_ladder : list coll := [CBarrier; CGather; CGather].
Definition scat : list coll := [CBcast; CBcast; CScatter].
Definition sync_sde : list coll := [CGather; CGather; CBarrier] ++ scat ++ scat ++ scat ++ scat ++ [CGather] ++ scat ++ [CAllreduce].
Definition sync_optics : list coll := if do_vertex fl then scat ++ [CAllreduce] else [].
Definition sync_me : list coll :=
  if me_section fl then
    [CBcast; CBarrier] ++ (if me_s fl then scat ++ [CGather] else []) ++ (if me_g fl then scat ++ [CGather] else []) ++
    (if me_chi_d fl then scat ++ [CGather] else []) ++ (if me_chi_m fl then scat ++ [CGather] else [])
  else [].
Definition colls : list coll := sync_setup ++ sync_ladder ++ [CBarrier] ++ sync_sde ++ sync_optics ++ sync_me ++ [CBarrier].
Lemma syncs_setup r : syncs (prog_setup fl r) = sync_setup.
Proof. unfold prog_setup, root, when. flag; reflexivity. Qed.
Lemma syncs_ladder r : syncs (prog_ladder fl r) = sync_ladder.
Proof. unfold prog_ladder, write_components, root, when. flag; reflexivity. Qed.
Lemma syncs_vertices r : syncs (prog_vertices fl n r) = [CBarrier].
Proof. unfold prog_vertices, root, when. flag; rewrite ?syncs_app, ?fetch_syncs; reflexivity. Qed.
Lemma syncs_sde r : syncs (prog_sde fl r) = sync_sde.
Proof. unfold prog_sde, root, when. flag; reflexivity. Qed.
Lemma syncs_eliash r : syncs (prog_eliash fl r) = [].
Proof. unfold prog_eliash, root, when. flag; reflexivity. Qed.
Lemma syncs_optics r : syncs (prog_optics fl r) = sync_optics.
Proof. unfold prog_optics, sync_optics, root, when. flag; reflexivity. Qed.
Lemma syncs_me r : syncs (prog_max_ent fl r) = sync_me.
Proof.
  unfold prog_max_ent, sync_me, when at 1. destruct (me_section fl); [|reflexivity].
  assert (C : forall l o, syncs l = [] -> syncs (continue_k r l o) = scat ++ [CGather]).
  { intros l o Hl. unfold continue_k. rewrite !syncs_app. assert (S : forall o, syncs (root r (saves o)) = []).
    { intros o'. unfold root, when. destruct (r =? 0); [|reflexivity]. unfold saves. induction o'; cbn; auto. }
    rewrite S. assert (S2 : syncs (root r l) = []) by (unfold root, when; now destruct (r =? 0)). rewrite S2. reflexivity. }
  rewrite !syncs_app.
  replace (syncs (root r [fetch "dga_config.yaml"])) with (@nil coll) by (unfold root, when; now destruct (r =? 0)).
  replace (syncs (root r [fetch "siwk_dga.npy"])) with (@nil coll) by (unfold root, when; now destruct (r =? 0)).
  replace (syncs (root r (when (me_loc fl) (saves ["MaxEnt/dmft_cont.npy"])))) with (@nil coll) by (unfold root, when; destruct (r =? 0), (me_loc fl); reflexivity).
  replace (syncs (root r (when (me_loc fl) (saves ["MaxEnt/dga_cont.npy"])))) with (@nil coll) by (unfold root, when; destruct (r =? 0), (me_loc fl); reflexivity).
  assert (W : forall b l o, syncs l = [] -> syncs (when b (continue_k r l o)) = if b then scat ++ [CGather] else []) by (intros [|] l o Hl; [now apply C|reflexivity]).
  rewrite !W by reflexivity. reflexivity.
Qed.
Lemma same_colls r : syncs (prog r) = colls.
Proof.
  unfold dga_prog. rewrite !syncs_app, syncs_setup, syncs_ladder, syncs_vertices, syncs_sde, syncs_eliash, syncs_optics, syncs_me. reflexivity.
Qed.

(** * Who writes what *)
Definition mine (r : nat) (a : action) : bool :=
  match a with Create f | Put f _ | Save f | Clean f => Nat.eqb (owner f) r | _ => true end.
Definition all_mine (r : nat) (l : list action) : Prop := forallb (mine r) l = true.
Lemma mine_app r a b : all_mine r a -> all_mine r b -> all_mine r (a ++ b).
Proof. unfold all_mine. rewrite forallb_app. now intros -> ->. Qed.
Lemma mine_when r b l : all_mine r l -> all_mine r (when b l). Proof. destruct b; [auto|reflexivity]. Qed.
Lemma mine_root r l : all_mine 0 l -> all_mine r (root r l).
Proof. unfold root, when. destruct (Nat.eqb_spec r 0) as [->|]; [auto|reflexivity]. Qed.
Lemma mine_saves o : all_mine 0 (saves o). Proof. unfold all_mine, saves. induction o; cbn; auto. Qed.
Lemma mine_fetch_ranks r name : all_mine r (fetch_ranks n name).
Proof. unfold all_mine, fetch_ranks. induction (seq 0 n); cbn; auto. Qed.
Lemma mine_put r q g : q = r -> all_mine r [Put (RankFile q) g]. Proof. intros ->. unfold all_mine. cbn. now rewrite Nat.eqb_refl. Qed.
Lemma mine_create r q : q = r -> all_mine r [Create (RankFile q)]. Proof. intros ->. unfold all_mine. cbn. now rewrite Nat.eqb_refl. Qed.
Lemma mine_clean r q : q = r -> all_mine r [Clean (RankFile q)]. Proof. intros ->. unfold all_mine. cbn. now rewrite Nat.eqb_refl. Qed.
Ltac own := repeat first [apply mine_saves | apply mine_fetch_ranks | apply mine_put; reflexivity | apply mine_create; reflexivity | apply mine_clean; reflexivity
  | reflexivity | apply mine_root | apply mine_when | apply mine_app].
Lemma prog_mine r : all_mine r (prog r).
Proof.
  unfold dga_prog, prog_setup, prog_ladder, write_components, prog_vertices, prog_sde, prog_eliash, prog_optics, prog_max_ent, continue_k, scatter, gather, allreduce, barrier. own.
Qed.
Lemma mine_untouched r f l : all_mine r l -> r <> owner f -> untouched f l.
Proof.
  unfold all_mine, untouched. intros H N. induction l as [|a l IH]; [reflexivity|]. cbn in *. apply andb_true_iff in H. destruct H as [H1 H2]. rewrite (IH H2), orb_false_r.
  destruct a; cbn in *; try reflexivity; destruct (file_eqb f0 f) eqn:E; try reflexivity; apply file_eqb_eq in E; subst; apply Nat.eqb_eq in H1; congruence.
Qed.
Lemma owned r f : r < n -> r <> owner f -> untouched f (prog r). Proof. intros _. apply mine_untouched, prog_mine. Qed.

(** * The file of a rank *)
Lemma setup_rank q r : untouched (RankFile q) (prog_setup fl r).
Proof. unfold untouched, prog_setup, root, when. flag; reflexivity. Qed.
Definition groups_rev : list string :=
  rev (given (do_pairing fl) ["pv_dens"] ++ given (do_vertex fl) ["f_dens"] ++ given (save_fq fl) ["fq_dens"] ++
       given (do_pairing fl) ["pv_magn"] ++ given (do_vertex fl) ["f_magn"] ++ given (save_fq fl) ["fq_magn"]).
Lemma ladder_rank r : replay (RankFile r) None (prog_setup fl r ++ prog_ladder fl r) = Some groups_rev.
Proof.
  rewrite replay_app, (replay_untouched _ _ (setup_rank r r)). unfold prog_ladder, write_components, groups_rev, given, root, when.
  destruct (r =? 0), (do_pairing fl), (do_vertex fl), (save_fq fl), (save_vrg fl); cbn; unfold eff; cbn; rewrite ?Nat.eqb_refl; reflexivity.
Qed.
Lemma vertices_rank q r : untouched (RankFile q) (prog_vertices fl n r).
Proof. unfold prog_vertices, root, when. flag; repeat (apply untouched_app; split); try apply fetch_untouched; reflexivity. Qed.
Lemma eliash_rank q r : untouched (RankFile q) (prog_eliash fl r). Proof. unfold untouched, prog_eliash, root, when. flag; reflexivity. Qed.
Lemma optics_rank q r : untouched (RankFile q) (prog_optics fl r). Proof. unfold untouched, prog_optics, root, when. flag; reflexivity. Qed.
Lemma saves_rank q o : untouched (RankFile q) (saves o). Proof. unfold untouched, saves. induction o; cbn; auto. Qed.
Lemma root_untouched f r l : untouched f l -> untouched f (root r l). Proof. unfold root, when. destruct (r =? 0); [auto|reflexivity]. Qed.
Lemma when_untouched f b l : untouched f l -> untouched f (when b l). Proof. destruct b; [auto|reflexivity]. Qed.
Lemma me_rank q r : untouched (RankFile q) (prog_max_ent fl r).
Proof.
  unfold prog_max_ent, continue_k, scatter, gather, barrier.
  repeat first [apply saves_rank | reflexivity | apply root_untouched | apply when_untouched | (apply untouched_app; split)].
Qed.
(** the first operations of the calculation of the self-energy, before the rank files may be removed *)
Lemma sde_head r : exists t, prog_sde fl r = [Sync CGather; Sync CGather] ++ t /\ (exists u, t = Sync CBarrier :: u).
Proof. unfold prog_sde. cbn. eauto. Qed.
Lemma groups_enough (b : bool) name : (b = true -> In (name ++ "magn")%string groups_rev /\ In (name ++ "dens")%string groups_rev) -> b = true ->
  enough [(name ++ "magn")%string; (name ++ "dens")%string] (Some groups_rev).
Proof.
  intros H Hb. destruct (H Hb) as [H1 H2]. exists groups_rev. split; [reflexivity|]. cbn [forallb]. unfold mem.
  assert (G : forall x, In x groups_rev -> existsb (String.eqb x) groups_rev = true) by (intros x I; apply existsb_exists; exists x; split; [assumption|apply String.eqb_refl]).
  now rewrite (G _ H1), (G _ H2).
Qed.
Lemma in_groups x : In x groups_rev <-> In x (rank_groups fl).
Proof.
  unfold groups_rev, rank_groups, given. rewrite <- in_rev. destruct (do_pairing fl), (do_vertex fl), (save_fq fl); cbn; tauto.
Qed.
Definition pre_vertices : list action := (prog_setup fl 0 ++ prog_ladder fl 0) ++ barrier.
Lemma upto_11 q : upto 11 (prog q) = prog_setup fl q ++ prog_ladder fl q.
Proof.
  unfold dga_prog. rewrite app_assoc.
  replace 11 with (nsync (prog_setup fl q ++ prog_ladder fl q) + 0) by (rewrite nsync_app; unfold nsync; rewrite syncs_setup, syncs_ladder; reflexivity).
  rewrite upto_app. cbn. now rewrite app_nil_r.
Qed.
Lemma upto_14 q : upto 14 (prog q) = (prog_setup fl q ++ prog_ladder fl q) ++ prog_vertices fl n q ++ [Sync CGather; Sync CGather].
Proof.
  unfold dga_prog. destruct (sde_head q) as (t & E & u & Et). rewrite E, Et. rewrite app_assoc.
  replace 14 with (nsync (prog_setup fl q ++ prog_ladder fl q) + (nsync (prog_vertices fl n q) + 2)) by (rewrite nsync_app; unfold nsync; rewrite syncs_setup, syncs_ladder, syncs_vertices; reflexivity).
  rewrite upto_app, upto_app. reflexivity.
Qed.
Lemma rank_fetch_good (X : list action) q name : untouched (RankFile 0) X -> syncs X = [] -> q < n ->
  enough [(name ++ "magn")%string; (name ++ "dens")%string] (Some groups_rev) ->
  good n no_files prog owner colls 0 (pre_vertices ++ X) (Fetch (RankFile q) [(name ++ "magn")%string; (name ++ "dens")%string]).
Proof.
  intros HX HS Hq He. cbn [good owner]. destruct (Nat.eq_dec q 0) as [->|Nq].
  - left. split; [reflexivity|]. unfold pre_vertices. rewrite replay_app, (replay_app _ _ (prog_setup fl 0 ++ prog_ladder fl 0)). unfold no_files. rewrite ladder_rank, (replay_untouched _ X HX). exact He.
  - right. split; [assumption|]. split; [assumption|].
    assert (N : nsync (pre_vertices ++ X) = 12) by (unfold pre_vertices; rewrite !nsync_app; unfold nsync; rewrite HS, syncs_setup, syncs_ladder; reflexivity).
    exists 11, CBarrier, (prog_vertices fl n q ++ [Sync CGather; Sync CGather]). rewrite N. split; [lia|]. split; [reflexivity|]. split; [reflexivity|]. split; [|split].
    + exists 14. split; [now rewrite upto_14, upto_11|]. right. exists CBarrier. split; [lia|]. split; reflexivity.
    + apply untouched_app. split; [apply vertices_rank|reflexivity].
    + rewrite upto_11. unfold no_files. now rewrite ladder_rank.
Qed.
Notation agood := (all_good n no_files prog owner colls).
Lemma fetch_ranks_good X name : untouched (RankFile 0) X -> syncs X = [] ->
  enough [(name ++ "magn")%string; (name ++ "dens")%string] (Some groups_rev) -> agood 0 (pre_vertices ++ X) (fetch_ranks n name).
Proof.
  intros HX HS He A a B H _. pose proof (fetch_plain name) as P. rewrite H in P.
  assert (PA : plain A) by (intros x I; apply P, in_app_iff; now left).
  assert (Ia : In a (fetch_ranks n name)) by (rewrite H; apply in_app_iff; right; now left). unfold fetch_ranks in Ia. apply in_map_iff in Ia. destruct Ia as (q & <- & Iq). apply in_seq in Iq.
  rewrite <- app_assoc. apply rank_fetch_good; [|rewrite syncs_app, HS, (plain_syncs A PA); reflexivity|lia|assumption].
  apply untouched_app. split; [assumption|now apply plain_untouched].
Qed.

(** * Actions that cannot raise, and files that stay *)
Definition harmless (a : action) : bool := match a with Put _ _ | Fetch _ _ | Fail => false | _ => true end.
Lemma harmless_good p pre l : forallb harmless l = true -> agood p pre l.
Proof.
  intros H A a B E _. rewrite forallb_forall in H. assert (J : In a l) by (rewrite E; apply in_app_iff; right; now left). specialize (H a J). destruct a; try discriminate; exact I.
Qed.
Definition cleans (f : file) (a : action) : bool := match a with Clean g => file_eqb g f | _ => false end.
Definition keeps (f : file) (l : list action) : Prop := existsb (cleans f) l = false.
Lemma keeps_app f a b : keeps f a -> keeps f b -> keeps f (a ++ b). Proof. unfold keeps. rewrite existsb_app. now intros -> ->. Qed.
Lemma keeps_when f b l : keeps f l -> keeps f (when b l). Proof. destruct b; [auto|reflexivity]. Qed.
Lemma keeps_root f r l : keeps f l -> keeps f (root r l). Proof. unfold root. apply keeps_when. Qed.
Lemma keeps_saves f o : keeps f (saves o). Proof. unfold keeps, saves. induction o; cbn; auto. Qed.
Lemma keeps_fetch_ranks f name : keeps f (fetch_ranks n name). Proof. unfold keeps, fetch_ranks. induction (seq 0 n); cbn; auto. Qed.
Definition has (f : file) (l : list action) : Prop := exists A B, l = A ++ Save f :: B /\ keeps f B.
Lemma has_l f a b : has f a -> keeps f b -> has f (a ++ b).
Proof. intros (A & B & -> & K) Kb. exists A, (B ++ b). split; [now rewrite <- app_assoc|now apply keeps_app]. Qed.
Lemma has_r f a b : has f b -> has f (a ++ b).
Proof. intros (A & B & -> & K). exists (a ++ A), B. split; [now rewrite <- app_assoc|assumption]. Qed.
Lemma has_root f l : has f l -> has f (root 0 l). Proof. auto. Qed.
Lemma has_when f (b : bool) l : b = true -> has f l -> has f (when b l). Proof. intros ->. auto. Qed.
Lemma has_saves x o : In x o -> has (RunFile x) (saves o).
Proof. intros I. apply in_split in I. destruct I as (a & b & ->). exists (saves a), (saves b). split; [unfold saves; now rewrite map_app|apply keeps_saves]. Qed.
Lemma keeps_replay f l : keeps f l -> forall c, c <> None -> replay f c l <> None.
Proof.
  unfold keeps. induction l as [|a l IH]; intros K c H; [assumption|]. cbn in *. apply orb_false_iff in K. destruct K as [K1 K2]. apply IH; [assumption|].
  unfold eff. destruct a; cbn in *; try assumption; destruct (file_eqb _ f); try assumption; try discriminate; destruct c; congruence.
Qed.
Lemma has_replay f l c : has f l -> replay f c l <> None.
Proof.
  intros (A & B & -> & K). rewrite replay_app. cbn [replay fold_left]. unfold eff at 2. cbn [writes]. rewrite file_eqb_refl. apply (keeps_replay f B K). discriminate.
Qed.
Lemma has_good x pre : has (RunFile x) pre -> good n no_files prog owner colls 0 pre (fetch x).
Proof.
  intros H. left. split; [reflexivity|]. destruct (replay (RunFile x) (no_files (RunFile x)) pre) as [l|] eqn:E; [|exfalso; now apply (has_replay _ _ _ H E)].
  exists l. split; reflexivity.
Qed.
Lemma has_agood x pre : has (RunFile x) pre -> agood 0 pre [fetch x].
Proof. intros H. apply all_good_cons; [intros _; now apply has_good|apply all_good_nil]. Qed.
Ltac kp := repeat first [apply keeps_saves | apply keeps_fetch_ranks | reflexivity | apply keeps_root | apply keeps_when | apply keeps_app].
Lemma keeps_setup x r : keeps (RunFile x) (prog_setup fl r). Proof. unfold prog_setup, barrier. kp. Qed.
Lemma keeps_ladder x r : keeps (RunFile x) (prog_ladder fl r). Proof. unfold prog_ladder, write_components, barrier, gather. kp. Qed.
Lemma keeps_vertices x r : keeps (RunFile x) (prog_vertices fl n r). Proof. unfold prog_vertices, barrier. kp. Qed.
Lemma keeps_sde x r : keeps (RunFile x) (prog_sde fl r). Proof. unfold prog_sde, barrier, gather, scatter, allreduce. kp. Qed.
Lemma keeps_me x r : keeps (RunFile x) (prog_max_ent fl r). Proof. unfold prog_max_ent, continue_k, barrier, gather, scatter. kp. Qed.
Definition kept (x : string) : Prop := ~ In x ["Eliashberg/F_sing_pp.npy"; "Eliashberg/F_trip_pp.npy"; "Optics/F_cond.npy"].
Lemma keeps_clean x y : x <> y -> keeps (RunFile x) [Clean (RunFile y)].
Proof. intros H. unfold keeps. cbn. apply String.eqb_neq in H. rewrite String.eqb_sym, H. reflexivity. Qed.
Lemma keeps_eliash x r : x <> "Eliashberg/F_sing_pp.npy" -> x <> "Eliashberg/F_trip_pp.npy" -> keeps (RunFile x) (prog_eliash fl r).
Proof.
  intros H1 H2. unfold prog_eliash. kp. change [Clean (RunFile "Eliashberg/F_sing_pp.npy"); Clean (RunFile "Eliashberg/F_trip_pp.npy")] with
    ([Clean (RunFile "Eliashberg/F_sing_pp.npy")] ++ [Clean (RunFile "Eliashberg/F_trip_pp.npy")]). apply keeps_app; now apply keeps_clean.
Qed.
Lemma keeps_optics x r : x <> "Optics/F_cond.npy" -> keeps (RunFile x) (prog_optics fl r).
Proof. intros H. unfold prog_optics, scatter, allreduce. kp. now apply keeps_clean. Qed.

(** * No action raises *)
Lemma good_put r g pre l : replay (RankFile r) None pre = Some l -> mem g l = false -> good n no_files prog owner colls r pre (Put (RankFile r) g).
Proof. intros H1 H2. cbn [good owner]. split; [reflexivity|]. exists l. auto. Qed.
Lemma setup_good r : agood r [] (prog_setup fl r).
Proof. apply harmless_good. unfold prog_setup, root, when. flag; reflexivity. Qed.
Lemma ladder_good r : agood r (prog_setup fl r) (prog_ladder fl r).
Proof.
  unfold prog_ladder. rewrite !app_assoc. apply all_good_app; [|apply harmless_good; unfold root, when; flag; reflexivity].
  apply all_good_app; [|apply harmless_good; reflexivity]. apply all_good_app; [|apply harmless_good; reflexivity].
  apply all_good_app; [|apply harmless_good; unfold root, when; flag; reflexivity].
  unfold write_components, when.
  destruct (do_pairing fl), (do_vertex fl), (save_fq fl); cbn [app];
    repeat (apply all_good_cons; [intros _; try exact I; (eapply good_put; [rewrite <- !app_assoc, replay_app, (replay_untouched _ _ (setup_rank r r)); cbn; unfold eff; cbn; rewrite ?Nat.eqb_refl; reflexivity|reflexivity])|]);
    apply all_good_nil.
Qed.
Lemma vertices_good r : r < n -> agood r (prog_setup fl r ++ prog_ladder fl r) (prog_vertices fl n r).
Proof.
  intros Hr. unfold prog_vertices. apply all_good_app; [apply harmless_good; reflexivity|]. unfold root, when. destruct (Nat.eqb_spec r 0) as [->|N]; [|apply all_good_nil].
  change ((prog_setup fl 0 ++ prog_ladder fl 0) ++ barrier) with pre_vertices.
  assert (E : forall b name, b = true -> (b = true -> In (name ++ "magn")%string (rank_groups fl) /\ In (name ++ "dens")%string (rank_groups fl)) ->
    enough [(name ++ "magn")%string; (name ++ "dens")%string] (Some groups_rev)).
  { intros b name Hb H. apply (groups_enough b); [|assumption]. intros Hb'. rewrite !in_groups. now apply H. }
  assert (E1 : do_pairing fl = true -> enough ["pv_magn"; "pv_dens"] (Some groups_rev)).
  { intros H. apply (E (do_pairing fl) "pv_" H). intros _. unfold rank_groups, given. rewrite H. cbn. tauto. }
  assert (E2 : do_vertex fl = true -> enough ["f_magn"; "f_dens"] (Some groups_rev)).
  { intros H. apply (E (do_vertex fl) "f_" H). intros _. unfold rank_groups, given. rewrite H, !in_app_iff. cbn. tauto. }
  assert (E3 : save_fq fl = true -> enough ["fq_magn"; "fq_dens"] (Some groups_rev)).
  { intros H. apply (E (save_fq fl) "fq_" H). intros _. unfold rank_groups, given. rewrite H, !in_app_iff. cbn. tauto. }
  set (P1 := if do_pairing fl then fetch_ranks n "pv_" ++ saves ["Eliashberg/F_sing_pp.npy"; "Eliashberg/F_trip_pp.npy"] else []).
  set (P2 := if do_vertex fl then fetch_ranks n "f_" ++ saves ["Optics/F_cond.npy"] else []).
  assert (U1 : untouched (RankFile 0) P1 /\ syncs P1 = []).
  { unfold P1. destruct (do_pairing fl); [|split; reflexivity]. split; [apply untouched_app; split; [apply fetch_untouched|reflexivity]|rewrite syncs_app, fetch_syncs; reflexivity]. }
  assert (U2 : untouched (RankFile 0) P2 /\ syncs P2 = []).
  { unfold P2. destruct (do_vertex fl); [|split; reflexivity]. split; [apply untouched_app; split; [apply fetch_untouched|reflexivity]|rewrite syncs_app, fetch_syncs; reflexivity]. }
  apply all_good_app; [|apply all_good_app; [|apply all_good_app]].
  - unfold P1. destruct (do_pairing fl); [|apply all_good_nil]. apply all_good_app; [|apply harmless_good; reflexivity].
    rewrite <- (app_nil_r pre_vertices). apply fetch_ranks_good; [reflexivity|reflexivity|now apply E1].
  - unfold P2. destruct (do_vertex fl); [|apply all_good_nil]. apply all_good_app; [|apply harmless_good; reflexivity].
    apply fetch_ranks_good; [apply U1|apply U1|now apply E2].
  - destruct (save_fq fl); [|apply all_good_nil]. apply all_good_app; [|apply harmless_good; reflexivity].
    rewrite <- app_assoc. apply fetch_ranks_good; [apply untouched_app; split; [apply U1|apply U2]|rewrite syncs_app, (proj2 U1), (proj2 U2); reflexivity|now apply E3].
  - apply all_good_app; [|apply harmless_good; reflexivity]. apply has_agood. unfold pre_vertices, P1, P2.
    do 4 (apply has_l; [|unfold barrier; flag; kp]).
    apply has_r. unfold prog_ladder. do 7 apply has_r. apply has_root, has_saves. cbn. tauto.
Qed.
Lemma sde_good r pre : agood r pre (prog_sde fl r).
Proof. apply harmless_good. unfold prog_sde, root, when. flag; reflexivity. Qed.
Definition pre_eliash (r : nat) : list action := (((prog_setup fl r ++ prog_ladder fl r) ++ prog_vertices fl n r) ++ prog_sde fl r).
Lemma has_vertices x : (do_pairing fl = true /\ In x ["Eliashberg/F_sing_pp.npy"; "Eliashberg/F_trip_pp.npy"]) \/ (do_vertex fl = true /\ x = "Optics/F_cond.npy") ->
  has (RunFile x) (pre_eliash 0).
Proof.
  intros H. unfold pre_eliash. apply has_l; [|apply keeps_sde]. apply has_r. unfold prog_vertices. apply has_r. destruct H as [[Hb Hx]|[Hb ->]].
  - apply has_l; [|kp]. apply has_root, has_when; [assumption|]. now apply has_r, has_saves.
  - apply has_r, has_l; [|kp]. apply has_root, has_when; [assumption|]. apply has_r, has_saves. now left.
Qed.
Lemma eliash_good r : (do_eliash fl = true -> do_pairing fl = true) -> agood r (pre_eliash r) (prog_eliash fl r).
Proof.
  intros F. unfold prog_eliash, root, when. destruct (Nat.eqb_spec r 0) as [->|N]; [|apply all_good_nil]. destruct (do_eliash fl); [|apply all_good_nil]. specialize (F eq_refl).
  apply all_good_app; [apply harmless_good; reflexivity|]. apply all_good_app; [|apply harmless_good; flag; reflexivity].
  apply all_good_cons; [intros _|apply all_good_cons; [intros _|apply all_good_nil]]; apply has_good.
  - apply has_l; [|kp]. apply has_vertices. left. split; [assumption|]. cbn. tauto.
  - apply has_l; [|kp]. apply has_l; [|kp]. apply has_vertices. left. split; [assumption|]. cbn. tauto.
Qed.
Lemma optics_good r : (optics_section fl = true -> do_bubble fl = true) -> agood r (pre_eliash r ++ prog_eliash fl r) (prog_optics fl r).
Proof.
  intros F. unfold prog_optics. do 2 (apply all_good_app; [apply harmless_good; unfold root, when; flag; reflexivity|]). apply all_good_app.
  - apply all_good_when. intros Hv. apply all_good_app; [|apply harmless_good; unfold root, when; flag; reflexivity].
    unfold root, when. destruct (Nat.eqb_spec r 0) as [->|N]; [|apply all_good_nil]. apply has_agood.
    apply has_l; [|flag; kp]. apply has_l; [|flag; kp]. apply has_l; [|apply keeps_eliash; discriminate]. apply has_vertices. now right.
  - apply harmless_good. unfold root, when. destruct (r =? 0); [|reflexivity]. destruct (optics_section fl); [|reflexivity]. rewrite (F eq_refl). cbn. flag; reflexivity.
Qed.
Definition pre_me (r : nat) : list action := (pre_eliash r ++ prog_eliash fl r) ++ prog_optics fl r.
Lemma has_pre_me x : In x ["dmft_input.npy"; "dga_config.yaml"; "chi_dens_lam.npy"; "chi_magn_lam.npy"; "siwk_dga.npy"] -> has (RunFile x) (pre_me 0).
Proof.
  intros Hx. assert (K : x <> "Eliashberg/F_sing_pp.npy" /\ x <> "Eliashberg/F_trip_pp.npy" /\ x <> "Optics/F_cond.npy").
  { cbn in Hx. repeat destruct Hx as [<-|Hx]; try contradiction; repeat split; discriminate. }
  unfold pre_me. apply has_l; [|now apply keeps_optics]. apply has_l; [|now apply keeps_eliash]. unfold pre_eliash.
  cbn in Hx. destruct Hx as [<-|[<-|[<-|[<-|[<-|[]]]]]].
  - apply has_l; [|apply keeps_sde]. apply has_l; [|apply keeps_vertices]. apply has_l; [|apply keeps_ladder]. unfold prog_setup. do 4 apply has_r. apply has_l; [|kp]. apply has_root, has_saves. cbn. tauto.
  - apply has_l; [|apply keeps_sde]. apply has_l; [|apply keeps_vertices]. apply has_l; [|apply keeps_ladder]. unfold prog_setup. do 6 apply has_r. apply has_l; [|kp]. apply has_root, has_saves. cbn. tauto.
  - apply has_l; [|apply keeps_sde]. apply has_l; [|apply keeps_vertices]. apply has_r. unfold prog_ladder. do 7 apply has_r. apply has_root, has_saves. cbn. tauto.
  - apply has_l; [|apply keeps_sde]. apply has_l; [|apply keeps_vertices]. apply has_r. unfold prog_ladder. do 7 apply has_r. apply has_root, has_saves. cbn. tauto.
  - apply has_r. unfold prog_sde. do 10 apply has_r. apply has_l; [|kp]. apply has_root, has_saves. cbn. tauto.
Qed.
Lemma dmft_input_stays : exists B, prog 0 = upto 6 (prog 0) ++ B /\ untouched (RunFile "dmft_input.npy") B.
Proof.
  exists ((barrier ++ root 0 (saves ["wannier_hr.dat"; "dga_config.yaml"]) ++
    root 0 (when (poly fl) (saves ["PolyFits/Giwk_dmft_poly_cont_.npy"; "PolyFits/Siw_DMFT_polyfit.txt"])) ++
    root 0 (when (verbose fl) (saves ["gamma_dens.npy"; "gamma_magn.npy"; "siw_sde_full.npy"; "chi_dens_loc.npy"; "chi_magn_loc.npy"])) ++ barrier) ++
    prog_ladder fl 0 ++ prog_vertices fl n 0 ++ prog_sde fl 0 ++ prog_eliash fl 0 ++ prog_optics fl 0 ++ prog_max_ent fl 0 ++ barrier).
  split; [reflexivity|].
  unfold prog_ladder, prog_vertices, prog_sde, prog_eliash, prog_optics, prog_max_ent, continue_k, write_components, barrier, gather, scatter, allreduce.
  repeat first [apply fetch_untouched | reflexivity | apply root_untouched | apply when_untouched | (apply untouched_app; split)].
Qed.
Lemma good_dmft_input r pre : r < n -> 6 < nsync pre -> r <> 0 -> good n no_files prog owner colls r pre (fetch "dmft_input.npy").
Proof.
  intros Hr Hp N. right. cbn [owner]. split; [lia|]. split; [lia|]. destruct dmft_input_stays as (B & E & U).
  exists 6, CBarrier, B. split; [assumption|]. split; [reflexivity|]. split; [reflexivity|]. split; [|split; [exact U|]].
  - exists (nsync (prog 0)). split; [|left; lia]. rewrite upto_ge by lia. exact E.
  - exists []. split; reflexivity.
Qed.
Lemma nsync_pre_me r : 6 < nsync (pre_me r).
Proof. unfold pre_me, pre_eliash. rewrite !nsync_app. unfold nsync. rewrite syncs_setup. cbn. lia. Qed.
Lemma agood_one p pre a : good n no_files prog owner colls p pre a -> agood p pre [a].
Proof. intros H. apply all_good_cons; [now intros _|apply all_good_nil]. Qed.
Lemma me_good r : r < n -> agood r (pre_me r) (prog_max_ent fl r).
Proof.
  intros Hr. unfold prog_max_ent. apply all_good_when. intros _.
  assert (Hs : forall b o pre, agood r pre (root r (when b (saves o)))).
  { intros b o pre. unfold root. apply all_good_when. intros _. apply all_good_when. intros _. apply all_good_saves. }
  assert (Hf : forall x Y, In x ["dmft_input.npy"; "dga_config.yaml"; "chi_dens_lam.npy"; "chi_magn_lam.npy"; "siwk_dga.npy"] -> keeps (RunFile x) Y -> agood r (pre_me r ++ Y) (root r [fetch x])).
  { intros x Y Hx HY. unfold root, when. destruct (Nat.eqb_spec r 0) as [->|]; [|apply all_good_nil]. apply has_agood. apply has_l; [now apply has_pre_me|assumption]. }
  assert (Hc : forall b x Y o, In x ["dmft_input.npy"; "dga_config.yaml"; "chi_dens_lam.npy"; "chi_magn_lam.npy"; "siwk_dga.npy"] -> keeps (RunFile x) Y -> agood r (pre_me r ++ Y) (when b (continue_k r [fetch x] o))).
  { intros b x Y o Hx HY. apply all_good_when. intros _. unfold continue_k. apply all_good_app; [now apply Hf|]. apply all_good_app; [apply harmless_good; reflexivity|].
    apply all_good_app; [apply harmless_good; reflexivity|]. unfold root. apply all_good_when. intros _. apply all_good_saves. }
  assert (Hc0 : forall b pre o, agood r pre (when b (continue_k r [] o))).
  { intros b pre o. apply all_good_when. intros _. unfold continue_k. apply all_good_app; [unfold root, when; destruct (r =? 0); apply all_good_nil|].
    apply all_good_app; [apply harmless_good; reflexivity|]. apply all_good_app; [apply harmless_good; reflexivity|]. unfold root. apply all_good_when. intros _. apply all_good_saves. }
  apply all_good_app; [rewrite <- (app_nil_r (pre_me r)); apply Hf; [cbn; tauto|reflexivity]|].
  apply all_good_app; [apply harmless_good; reflexivity|].
  apply all_good_app.
  { apply agood_one. destruct (Nat.eq_dec r 0) as [->|N].
    - apply has_good. apply has_l; [|kp]. apply has_l; [|kp]. apply has_pre_me. cbn. tauto.
    - apply good_dmft_input; [assumption| |assumption]. rewrite !nsync_app. pose proof (nsync_pre_me r). lia. }
  apply all_good_app; [apply Hs|].
  apply all_good_app; [rewrite <- !app_assoc; apply Hf; [cbn; tauto|unfold barrier; kp]|].
  apply all_good_app; [apply harmless_good; reflexivity|]. apply all_good_app; [apply Hs|].
  apply all_good_app; [apply Hc0|]. apply all_good_app; [apply Hc0|].
  apply all_good_app; [rewrite <- !app_assoc; apply Hc; [cbn; tauto|unfold continue_k, barrier, scatter, gather; kp]|].
  rewrite <- !app_assoc; apply Hc; [cbn; tauto|unfold continue_k, barrier, scatter, gather; kp].
Qed.
Lemma prog_split r : prog r = (pre_me r ++ prog_max_ent fl r) ++ barrier.
Proof. unfold pre_me, pre_eliash, dga_prog. now rewrite <- !app_assoc. Qed.
Lemma prog_good r : r < n -> (r = 0 -> fitting fl) -> agood r [] (prog r).
Proof.
  intros Hr F. rewrite prog_split. apply all_good_app; [|apply harmless_good; reflexivity]. apply all_good_app; [|now apply me_good].
  assert (F1 : r = 0 -> do_eliash fl = true -> do_pairing fl = true) by (intros E; apply (F E)).
  assert (F2 : r = 0 -> optics_section fl = true -> do_bubble fl = true) by (intros E; apply (F E)).
  unfold pre_me. apply all_good_app; [apply all_good_app|].
  - unfold pre_eliash. apply all_good_app; [|apply sde_good]. apply all_good_app; [apply all_good_app; [apply setup_good|apply ladder_good]|now apply vertices_good].
  - destruct (Nat.eq_dec r 0) as [E|N]; [now apply eliash_good, F1|]. unfold prog_eliash, root, when. apply Nat.eqb_neq in N. cbn [app]. rewrite N. apply all_good_nil.
  - destruct (Nat.eq_dec r 0) as [E|N]; [now apply optics_good, F2|]. unfold prog_optics, root, when. apply Nat.eqb_neq in N. rewrite N. apply harmless_good. flag; reflexivity.
Qed.
End Facts.
