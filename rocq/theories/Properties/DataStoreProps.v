(** C100: data files of a run. *)
From Coq Require Import List String Ascii Bool Arith Lia.
From Verif Require Import Base.PyBase Model.Util Model.RunSetup Model.DataStore Spec.RunSetupSpec Spec.DataStoreSpec Proofs.DataStoreP.
Import ListNotations.
Local Open Scope nat_scope.

(** After any history, a load gives what the last save of this file saved - up to arrays with exactly one entry, which come back as that entry -,
    wherever the folder is named differently and whatever was done to other files. *)
Theorem C100_load_after_save : forall E (dirs : fsys) (s : store E) h1 out' name v h2 out,
  in_folder dirs out' -> out <> ""%string -> resolve out' = resolve out -> plain_name name -> wf_value v ->
  Forall (proper_op dirs) h2 -> Forall (fun o => ~ about out name o) h2 ->
  load_data (do_ops dirs s (h1 ++ OSave (Some out') name v :: h2)) (Some out) name =
  match v with VArr _ [e] => Ok (VObj e) | _ => Ok v end.
Proof.
  intros E dirs s h1 out' name v h2 out Hf Ho Hr Hn Hv Hp Ha.
  rewrite do_ops_last; [|assumption|assumption|split; assumption|assumption|split; [assumption|reflexivity]|assumption].
  cbn [written]. now apply loaded_value.
Qed.
Print Assumptions C100_load_after_save.

(** A file that was cleaned last is gone; a file never saved or cleaned is as before the history. *)
Theorem C100_load_after_clean : forall E (dirs : fsys) (s : store E) h1 out' name h2 out,
  in_folder dirs out' -> out <> ""%string -> resolve out' = resolve out -> plain_name name ->
  Forall (proper_op dirs) h2 -> Forall (fun o => ~ about out name o) h2 ->
  load_data (do_ops dirs s (h1 ++ OClean (Some out') name :: h2)) (Some out) name = Raise FileNotFoundError.
Proof.
  intros E dirs s h1 out' name h2 out Hf Ho Hr Hn Hp Ha.
  rewrite do_ops_last; [reflexivity|assumption|assumption|split; assumption|assumption|split; [assumption|reflexivity]|assumption].
Qed.
Print Assumptions C100_load_after_clean.
Theorem C100_load_untouched : forall E (dirs : fsys) (s : store E) h out name, out <> ""%string -> plain_name name ->
  Forall (proper_op dirs) h -> Forall (fun o => ~ about out name o) h ->
  load_data (do_ops dirs s h) (Some out) name = load_data s (Some out) name.
Proof. intros E dirs s h out name Ho Hn Hp Ha. rewrite !load_key, do_ops_other by assumption. reflexivity. Qed.
Print Assumptions C100_load_untouched.

(** Saving into an existing folder does not raise, and cleaning never does. *)
Theorem C100_no_error : forall E (dirs : fsys) (s : store E) out name,
  (forall v, in_folder dirs out -> plain_name name -> exists s', save_data dirs s (Some out) name v = Ok s') /\
  (exists s', clean_data s (Some out) name = Ok s').
Proof.
  intros E dirs s out name. split.
  - intros v Hf Hn. rewrite save_ok by assumption. eauto.
  - destruct (clean_get E s out name) as (s' & H & _). eauto.
Qed.
Print Assumptions C100_no_error.

(** Without an output folder everything raises and nothing changes; a missing folder makes a save raise. *)
Theorem C100_no_folder : forall E (dirs : fsys) (s : store E) name v out,
  save_data dirs s None name v = Raise TypeError /\ load_data s None name = Raise TypeError /\ clean_data s None name = Raise TypeError /\
  (out <> ""%string -> plain_name name -> dirs (resolve out) = false -> save_data dirs s (Some out) name v = Raise FileNotFoundError).
Proof.
  intros E dirs s name v out. repeat split; try reflexivity. intros Ho Hn Hd. unfold save_data, data_path. cbn [bind]. unfold writable.
  fold (key out name). now rewrite key_parent, Hd by assumption.
Qed.
Print Assumptions C100_no_folder.

(** Refuted: data come back as they were saved (arrays with one entry lose their axes). *)
Theorem C100_one_entry_refuted : forall E (dirs : fsys) (s : store E) out name sh e, in_folder dirs out -> plain_name name -> size sh = 1 ->
  load_data (do_ops dirs s [OSave (Some out) name (VArr sh [e])]) (Some out) name = Ok (VObj e).
Proof.
  intros E dirs s out name sh e Hf Hn Hs. apply (C100_load_after_save E dirs s [] out name (VArr sh [e]) [] out); auto; [apply Hf|now cbn].
Qed.
Print Assumptions C100_one_entry_refuted.

(** Refuted: an interrupted save leaves the old data (the file cannot be loaded any more). *)
Theorem C100_interrupted_refuted : forall E (dirs : fsys) (s : store E) out name v, in_folder dirs out -> plain_name name ->
  load_data (do_ops dirs s [OSave (Some out) name v; OInterrupted (Some out) name]) (Some out) name = Raise ValueError.
Proof.
  intros E dirs s out name v Hf Hn. pose proof (do_ops_last E dirs out name [OSave (Some out) name v] (OInterrupted (Some out) name) [] s) as H.
  cbn [app] in H. rewrite H; [reflexivity|apply Hf|assumption|split; assumption|constructor|now split|constructor].
Qed.
Print Assumptions C100_interrupted_refuted.

(** The folder of a run; the Eliashberg and optics folders; names as in the code. *)
Definition case_dirs : fsys := fun p => place_eqb p (resolve "/data/LDGA/") || place_eqb p (resolve "/data/LDGA/Optics/").
Definition case_arr : value nat := VArr [2; 2] [1; 2; 3; 4].
Example C100_case :
  in_folder case_dirs "/data/LDGA/" /\ in_folder case_dirs "/data/LDGA/Optics/" /\ plain_name "F_cond" /\ wf_value case_arr /\
  load_data (do_ops case_dirs (fun _ => None)
     [OSave (Some "/data/LDGA/"%string) "F_cond" (VObj 7); OSave (Some "/data/LDGA/Optics/"%string) "F_cond" case_arr; OClean (Some "/data/LDGA/"%string) "F_cond"])
     (Some "/data//LDGA/Optics"%string) "F_cond" = Ok case_arr.
Proof. repeat split; try discriminate; vm_compute; reflexivity. Qed.
