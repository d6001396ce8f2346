(** Proofs about Model/DataStore.v. *)
From Coq Require Import List String Ascii Bool Arith Lia.
From Verif Require Import Base.PyBase Model.Util Model.RunSetup Model.DataStore Spec.RunSetupSpec Spec.DataStoreSpec Proofs.UtilP Proofs.StrP Proofs.RunPathP.
Import ListNotations.
Local Open Scope nat_scope.

Lemma npy_proper name : plain_name name -> proper (name ++ ".npy")%string.
Proof.
  intros H. split; [|split].
  - rewrite no_slash_app, H. reflexivity.
  - destruct name; discriminate.
  - destruct name as [|c [|d n]]; discriminate.
Qed.
Definition key (out name : string) : place := resolve (out ++ "/" ++ name ++ ".npy").
Lemma key_eq out name : out <> ""%string -> plain_name name -> key out name = (is_abs out, comps_from "" out ++ [(name ++ ".npy")%string]).
Proof. intros Ho Hn. unfold key. cbn [String.append]. apply resolve_child; [assumption|now apply npy_proper]. Qed.
Lemma key_parent out name : out <> ""%string -> plain_name name -> parent (key out name) = resolve out.
Proof. intros Ho Hn. rewrite key_eq by assumption. unfold parent, resolve. cbn [fst snd]. now rewrite removelast_last. Qed.
Lemma key_same o1 n1 o2 n2 : o1 <> ""%string -> o2 <> ""%string -> plain_name n1 -> plain_name n2 -> (key o1 n1 = key o2 n2 <-> same_file o1 n1 o2 n2).
Proof.
  intros H1 H2 N1 N2. rewrite !key_eq by assumption. unfold same_file, resolve. split.
  - intros [= Ha Hb]. apply app_inj_tail in Hb. destruct Hb as [Hb Hc]. split; [congruence|]. now apply append_inj_r in Hc.
  - intros [[= Ha Hb] ->]. congruence.
Qed.
Section P.
Variable E : Type.
Variable dirs : fsys.
Implicit Types (s : store E).
Lemma put_get s k c q : put E s k c q = if place_eqb k q then c else s q. Proof. reflexivity. Qed.
Definition loaded (c : option (npy E)) : res (value E) :=
  match c with
  | None => Raise FileNotFoundError
  | Some Torn => Raise ValueError
  | Some (Full sh [e]) => if Nat.eqb (size sh) 1 then Ok (VObj e) else Ok (VArr sh [e])
  | Some (Full sh el) => Ok (VArr sh el)
  end.
Lemma load_key s out name : load_data s (Some out) name = loaded (s (key out name)).
Proof.
  unfold load_data, data_path. cbn [bind]. fold (key out name). unfold np_load. fold (key out name).
  destruct (s (key out name)) as [[sh [|e [|f el]]|]|]; cbn; try reflexivity. destruct (Nat.eqb _ _); reflexivity.
Qed.
Lemma writable_ok out name : in_folder dirs out -> plain_name name -> writable dirs (out ++ "/" ++ name ++ ".npy") = Ok (key out name).
Proof. intros [Ho Hd] Hn. unfold writable. fold (key out name). now rewrite key_parent, Hd by assumption. Qed.
Lemma save_ok s out name v : in_folder dirs out -> plain_name name -> save_data dirs s (Some out) name v = Ok (put E s (key out name) (Some (Full (fst (asarray E v)) (snd (asarray E v))))).
Proof. intros Ho Hn. unfold save_data, data_path. cbn [bind]. rewrite writable_ok by assumption. reflexivity. Qed.
Lemma interrupted_ok s out name : in_folder dirs out -> plain_name name -> save_interrupted dirs s (Some out) name = Ok (put E s (key out name) (Some Torn)).
Proof. intros Ho Hn. unfold save_interrupted, data_path. cbn [bind]. rewrite writable_ok by assumption. reflexivity. Qed.
Lemma clean_get s out name : exists s', clean_data s (Some out) name = Ok s' /\ s' (key out name) = None /\ forall q, q <> key out name -> s' q = s q.
Proof.
  unfold clean_data, data_path. cbn [bind]. fold (key out name). destruct (s (key out name)) eqn:K.
  - eexists. split; [reflexivity|]. split; [unfold put; now rewrite place_eqb_refl|]. intros q Hq. unfold put. rewrite place_eqb_neq by congruence. reflexivity.
  - exists s. auto.
Qed.
Lemma do_op_other s o out name : out <> ""%string -> plain_name name -> proper_op dirs o -> ~ about out name o -> do_op dirs s o (key out name) = s (key out name).
Proof.
  intros Ho Hn Hp Ha. destruct o as [[out'|] name' v|[out'|] name'|[out'|] name'|[out'|] name']; cbn [proper_op about do_op] in Hp, Ha |- *; try tauto; destruct Hp as [Hf Hn'].
  - rewrite save_ok by assumption. cbn [after]. unfold put. rewrite place_eqb_neq; [reflexivity|]. rewrite key_same; [assumption|apply Hf|assumption..].
  - rewrite interrupted_ok by assumption. cbn [after]. unfold put. rewrite place_eqb_neq; [reflexivity|]. rewrite key_same; [assumption|apply Hf|assumption..].
  - destruct (clean_get s out' name') as (s' & -> & _ & H). cbn. apply H. intros X. symmetry in X. apply key_same in X; [contradiction|apply Hf|assumption..].
Qed.
Lemma do_ops_other out name h : out <> ""%string -> plain_name name -> Forall (proper_op dirs) h -> Forall (fun o => ~ about out name o) h ->
  forall s, do_ops dirs s h (key out name) = s (key out name).
Proof.
  intros Ho Hn. induction h as [|o h IH]; intros Hp Ha s; [reflexivity|]. inversion Hp; inversion Ha; subst. cbn. fold (do_ops dirs (do_op dirs s o) h). rewrite IH by assumption. now apply do_op_other.
Qed.
Definition written (o : op E) : option (npy E) :=
  match o with
  | OSave _ _ v => Some (Full (fst (asarray E v)) (snd (asarray E v)))
  | OInterrupted _ _ => Some Torn
  | _ => None
  end.
Lemma do_op_about s o out name : out <> ""%string -> plain_name name -> proper_op dirs o -> about out name o -> do_op dirs s o (key out name) = written o.
Proof.
  intros Ho Hn Hp Ha. destruct o as [[out'|] name' v|[out'|] name'|[out'|] name'|[out'|] name']; cbn [proper_op about do_op] in Hp, Ha |- *; try tauto; destruct Hp as [Hf Hn'].
  - rewrite save_ok by assumption. cbn [after]. unfold put. assert (K : key out' name' = key out name) by (apply key_same; [apply Hf|assumption..]). rewrite K, place_eqb_refl. reflexivity.
  - rewrite interrupted_ok by assumption. cbn [after]. unfold put. assert (K : key out' name' = key out name) by (apply key_same; [apply Hf|assumption..]). rewrite K, place_eqb_refl. reflexivity.
  - assert (K : key out' name' = key out name) by (apply key_same; [apply Hf|assumption..]). destruct (clean_get s out' name') as (s' & -> & H & _). cbn. now rewrite <- K.
Qed.
Lemma do_ops_last out name h1 o h2 s : out <> ""%string -> plain_name name -> proper_op dirs o -> Forall (proper_op dirs) h2 -> about out name o -> Forall (fun o => ~ about out name o) h2 ->
  load_data (do_ops dirs s (h1 ++ o :: h2)) (Some out) name = loaded (written o).
Proof.
  intros Ho Hn Hp Hp2 Ha Ha2. rewrite load_key. unfold do_ops. rewrite fold_left_app. cbn [fold_left]. fold (do_ops dirs (do_op dirs (fold_left (do_op dirs) h1 s) o) h2).
  rewrite do_ops_other by assumption. rewrite do_op_about by assumption. reflexivity.
Qed.
Lemma loaded_value (v : value E) : wf_value v -> loaded (Some (Full (fst (asarray E v)) (snd (asarray E v)))) =
  match v with VArr sh [e] => Ok (VObj e) | _ => Ok v end.
Proof. destruct v as [sh [|e [|f el]]|e]; cbn [asarray fst snd loaded wf_value List.length]; intros H; try reflexivity. rewrite <- H. reflexivity. Qed.
End P.
