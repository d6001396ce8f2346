(** C96: the output folders of a run. *)
From Coq Require Import String Ascii Arith.
From Verif Require Import Base.PyBase Model.Util Model.RunSetup Spec.RunSetupSpec Proofs.RunPathP Proofs.RunJobP Proofs.RunSetupMainP.
Local Open Scope string_scope.
Local Open Scope list_scope.
Local Open Scope nat_scope.

(** A job of [n] ranks, any interleaving of their steps: the output folder is the one [uniquify] finds in the file
    system before the run; nobody raises; every rank that has finished has the same folders, which exist and are new;
    nothing else is created and nothing is removed; unless all have finished, some rank can go on. *)
Theorem C96_folders : forall n c (fs0 : fsys), 0 < n -> tree fs0 -> finite_fs fs0 ->
  path_exists fs0 (input_path c) = true -> no_slash (lambda_corr c) = true ->
  exists out, (exists fuel, uniquify (path_exists fs0) (base_name c) fuel = Some out) /\
  (forall t, In t [""; "/Plots//"; "/PolyFits//"; "Eliashberg//"; "Optics//"] -> path_exists fs0 (out ++ t) = false) /\
  forall j, steps n (start fs0 (create_folders c)) j ->
    (forall r e, r < n -> j_prog j r <> Failed e) /\
    (forall r f, r < n -> j_prog j r = Done f ->
       f_out f = out /\ f_eliash f = (out ++ "Eliashberg//")%string /\ f_optics f = (out ++ "Optics//")%string /\
       path_exists (j_fs j) (f_out f) = true /\ path_exists (j_fs j) (f_eliash f) = true /\ path_exists (j_fs j) (f_optics f) = true /\
       (r = 0 -> f_plots f = Some (out ++ "/Plots//")%string /\ path_exists (j_fs j) (out ++ "/Plots//") = true /\
                 (if do_poly_fitting c
                  then f_poly f = Some (out ++ "/PolyFits//")%string /\ path_exists (j_fs j) (out ++ "/PolyFits//") = true
                  else f_poly f = None)) /\
       (r <> 0 -> f_plots f = None /\
                  (if do_poly_fitting c
                   then f_poly f = Some (out ++ "/PolyFits//")%string \/ f_poly f = Some (out ++ "/PolyFits/_1/")%string
                   else f_poly f = None))) /\
    (forall q, j_fs j q = true -> fs0 q = true \/
       In q (map resolve [out; out ++ "Plots"; out ++ "Eliashberg"; out ++ "Optics"]%string) \/ (do_poly_fitting c = true /\ q = resolve (out ++ "PolyFits"))) /\
    (forall q, fs0 q = true -> j_fs j q = true) /\
    ((forall r, r < n -> finished (j_prog j r)) \/ exists j', step n j j').
Proof. exact setup_main. Qed.
Print Assumptions C96_folders.

(** and no schedule goes on for ever. *)
Theorem C96_terminates : forall n c (fs0 : fsys), 0 < n -> tree fs0 -> finite_fs fs0 ->
  path_exists fs0 (input_path c) = true -> no_slash (lambda_corr c) = true ->
  exists bound, forall l j, run_len n l (start fs0 (create_folders c)) j -> l <= bound.
Proof. exact setup_terminates. Qed.
Print Assumptions C96_terminates.

(** dga_io.set_output_path (analytic continuation): nobody raises, and the folder of rank 0 is new and exists. *)
Theorem C96_io_root : forall n (fs0 : fsys) d name, 0 < n -> finite_fs fs0 -> path_exists fs0 d = true ->
  no_slash name = true /\ name <> "" /\ name <> "." ->
  let base := (d ++ String "/" name)%string in
  exists out, (exists fuel, uniquify (path_exists fs0) base fuel = Some out) /\ path_exists fs0 out = false /\
  forall j, steps n (start fs0 (fun r => io_set_output_path base (Some r) (fun p => Done p))) j ->
    (forall r e, r < n -> j_prog j r <> Failed e) /\
    (forall p, j_prog j 0 = Done p -> p = out /\ path_exists (j_fs j) p = true).
Proof. exact io_main. Qed.
Print Assumptions C96_io_root.

(** An empty working directory, two ranks. *)
Definition empty_dir : fsys := fun p => match snd p with [] => true | _ => false end.
Definition cfg0 : run_cfg := {| input_path := "./"; lambda_corr := "spch"; nk_tot := 256; nq_tot := 256; niw_core := 30; niv_core := 30;
                                niv_shell := 200; do_poly_fitting := true |}.
Example C96_example : tree empty_dir /\ finite_fs empty_dir /\ path_exists empty_dir (input_path cfg0) = true /\ no_slash (lambda_corr cfg0) = true /\
  uniquify (path_exists empty_dir) (base_name cfg0) 1 = Some ".//LDGA_spch_Nk256_Nq256_wc30_vc30_vs200/".
Proof.
  split; [|split; [|repeat split; reflexivity]].
  - intros [a l]. unfold empty_dir, parent. cbn. destruct l; [reflexivity|discriminate].
  - exists [(true, []); (false, [])]. intros [a l]. unfold empty_dir. cbn. destruct l; [|discriminate]. destruct a; auto.
Qed.

(** Only the folder of the polynomial fits is not agreed upon: there is a schedule in which the second rank ends
    with a folder that does not exist. *)
Definition order : list nat := [0; 1] ++ repeat 0 21 ++ repeat 1 13 ++ repeat 0 2.
Definition summary (j : job folders) : option (option string * option string * option bool * option bool) :=
  match j_prog j 0, j_prog j 1 with
  | Done f, Done g => Some (f_poly f, f_poly g, option_map (path_exists (j_fs j)) (f_poly f), option_map (path_exists (j_fs j)) (f_poly g))
  | _, _ => None
  end.
Theorem C96_polyfit_refuted : exists j f g p q, steps 2 (start empty_dir (create_folders cfg0)) j /\
  j_prog j 0 = Done f /\ j_prog j 1 = Done g /\ f_poly f = Some p /\ f_poly g = Some q /\
  p <> q /\ path_exists (j_fs j) p = true /\ path_exists (j_fs j) q = false.
Proof.
  destruct (schedule 2 order (start empty_dir (create_folders cfg0))) as [j|] eqn:E.
  2: { exfalso. assert (H : match schedule 2 order (start empty_dir (create_folders cfg0)) with Some _ => true | None => false end = true) by (vm_compute; reflexivity).
       rewrite E in H. discriminate. }
  assert (H : option_map summary (schedule 2 order (start empty_dir (create_folders cfg0))) =
    Some (Some (Some ".//LDGA_spch_Nk256_Nq256_wc30_vc30_vs200//PolyFits//"%string, Some ".//LDGA_spch_Nk256_Nq256_wc30_vc30_vs200//PolyFits/_1/"%string, Some true, Some false)))
    by (vm_compute; reflexivity).
  rewrite E in H. cbn [option_map] in H. injection H as H. unfold summary in H.
  destruct (j_prog j 0) as [f| | | | | | | |] eqn:P0; try discriminate H. destruct (j_prog j 1) as [g| | | | | | | |] eqn:P1; try discriminate H.
  destruct (f_poly f) as [p|] eqn:Fp; [|discriminate H]. destruct (f_poly g) as [q|] eqn:Gq; [|discriminate H].
  cbn [option_map] in H. injection H as Hp Hq Ep Eq.
  exists j, f, g, p, q. split; [exact (schedule_steps _ _ _ E)|]. repeat (split; [first [reflexivity|assumption]|]).
  split; [|split; assumption]. rewrite Hp, Hq. discriminate.
Qed.
Print Assumptions C96_polyfit_refuted.

(** The same happens in the analytic continuation. *)
Theorem C96_io_refuted : exists j p q, steps 2 (start empty_dir (fun r => io_set_output_path "./MaxEntSiwk" (Some r) (fun p => Done p))) j /\
  j_prog j 0 = Done p /\ j_prog j 1 = Done q /\ p <> q /\ path_exists (j_fs j) p = true /\ path_exists (j_fs j) q = false.
Proof.
  destruct (schedule 2 [0; 0; 0; 1; 1; 1] (start empty_dir (fun r => io_set_output_path "./MaxEntSiwk" (Some r) (fun p => Done p)))) as [j|] eqn:E.
  2: { vm_compute in E. discriminate. }
  assert (H : option_map (fun j => match j_prog j 0, j_prog j 1 with Done p, Done q => Some (p, q, path_exists (j_fs j) p, path_exists (j_fs j) q) | _, _ => None end)
     (schedule 2 [0; 0; 0; 1; 1; 1] (start empty_dir (fun r => io_set_output_path "./MaxEntSiwk" (Some r) (fun p => Done p)))) =
     Some (Some ("./MaxEntSiwk/"%string, "./MaxEntSiwk_1/"%string, true, false))) by (vm_compute; reflexivity).
  rewrite E in H. cbn [option_map] in H. injection H as H.
  destruct (j_prog j 0) as [p| | | | | | | |] eqn:P0; try discriminate H. destruct (j_prog j 1) as [q| | | | | | | |] eqn:P1; try discriminate H.
  injection H as Hp Hq Ep Eq. exists j, p, q. split; [exact (schedule_steps _ _ _ E)|]. split; [assumption|]. split; [assumption|].
  split; [rewrite Hp, Hq; discriminate|split; assumption].
Qed.
Print Assumptions C96_io_refuted.

Ltac sim Hf H0 H1 Hm Hm2 E := repeat (cbn -[path_exists mkdir append splitext] in E; first [rewrite Hf in E|rewrite H0 in E|rewrite H1 in E|rewrite Hm in E|rewrite Hm2 in E]).
(** Two runs started at the same time (no common communicator) on the same input, whatever the file system: they can
    end in the same folder without an error, and in another order the second one raises. *)
Theorem C96_two_runs_refuted : forall (fs : fsys) base, base <> "" -> path_exists fs base = false -> fs (parent (resolve base)) = true ->
  let two := start fs (fun _ => set_output_path base None (fun p => Done p)) in
  (exists j, steps 2 two j /\ j_prog j 0 = Done (base ++ "/")%string /\ j_prog j 1 = Done (base ++ "/")%string) /\
  (exists j, steps 2 two j /\ j_prog j 0 = Done (base ++ "/")%string /\ j_prog j 1 = Failed EExist).
Proof.
  intros fs base Hb Hf Hp two.
  assert (Hs : (base ++ "/")%string <> ""%string) by now apply app_nonempty_l.
  assert (Hf' : fs (resolve base) = false) by (rewrite <- path_exists_ne; assumption).
  assert (Hm : mkdir fs (base ++ "/") = inl (add_dir fs (resolve base))).
  { rewrite <- (resolve_slash Hb). apply mkdir_ok; [assumption|..]; rewrite resolve_slash by assumption; assumption. }
  assert (H0 : path_exists fs (base ++ "/") = false) by (rewrite path_exists_ne, resolve_slash by assumption; assumption).
  assert (H1 : path_exists (add_dir fs (resolve base)) (base ++ "/") = true) by (rewrite path_exists_ne, resolve_slash by assumption; apply add_same).
  assert (Hm2 : mkdir (add_dir fs (resolve base)) (base ++ "/") = inr EExist).
  { unfold mkdir. apply String.eqb_neq in Hs. rewrite Hs, resolve_slash by assumption. now rewrite add_same. }
  split.
  - destruct (schedule 2 [0; 1; 0; 0; 1] two) as [j|] eqn:E.
    + exists j. split; [exact (schedule_steps _ _ _ E)|]. unfold two in E. sim Hf H0 H1 Hm Hm2 E. injection E as <-. split; reflexivity.
    + exfalso. unfold two in E. sim Hf H0 H1 Hm Hm2 E. discriminate E.
  - destruct (schedule 2 [0; 1; 0; 1; 0; 1] two) as [j|] eqn:E.
    + exists j. split; [exact (schedule_steps _ _ _ E)|]. unfold two in E. sim Hf H0 H1 Hm Hm2 E. injection E as <-. split; reflexivity.
    + exfalso. unfold two in E. sim Hf H0 H1 Hm Hm2 E. discriminate E.
Qed.
Print Assumptions C96_two_runs_refuted.
Example C96_two_runs_example : path_exists empty_dir "out" = false /\ empty_dir (parent (resolve "out")) = true.
Proof. split; reflexivity. Qed.
