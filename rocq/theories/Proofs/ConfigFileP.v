(** Proofs about Model/ConfigFile.v (C97). *)
From Coq Require Import String.
From Verif Require Import Base.PyBase Model.Config Model.ConfigFile Spec.ConfigFileSpec.
Set Implicit Arguments.
Local Open Scope string_scope.
Local Open Scope list_scope.
Local Open Scope Z_scope.

Lemma get_put {V} (d : dict V) k v k' : get (put d k v) k' = if String.eqb k' k then Some v else get d k'.
Proof.
  induction d as [|[a b] d IH]; cbn [put get]; [reflexivity|].
  destruct (String.eqb_spec k a) as [->|ne]; cbn [get].
  - destruct (String.eqb k' a); reflexivity.
  - rewrite IH. destruct (String.eqb_spec k' a) as [->|]; [|reflexivity].
    destruct (String.eqb_spec a k); [congruence|reflexivity].
Qed.
Lemma get_put_same {V} (d : dict V) k v : get (put d k v) k = Some v.
Proof. now rewrite get_put, String.eqb_refl. Qed.
Lemma get_put_other {V} (d : dict V) k v k' : k' <> k -> get (put d k v) k' = get d k'.
Proof. intros h; rewrite get_put. destruct (String.eqb_spec k' k); [contradiction|reflexivity]. Qed.
Lemma get_app {V} (d e : dict V) k : get (d ++ e) k = match get d k with Some v => Some v | None => get e k end.
Proof. induction d as [|[a b] d IH]; cbn [app get]; [reflexivity|]. destruct (String.eqb k a); [reflexivity|exact IH]. Qed.
Lemma get_update {V} (e d : dict V) k : get (update d e) k = match get (rev e) k with Some v => Some v | None => get d k end.
Proof.
  revert d; induction e as [|[a b] e IH]; intros d; [reflexivity|].
  change (update d ((a, b) :: e)) with (update (put d a b) e). rewrite IH. cbn [rev]. rewrite get_app.
  destruct (get (rev e) k); [reflexivity|]. cbn [get]. rewrite get_put. destruct (String.eqb k a); reflexivity.
Qed.
Lemma get_In {V} (d : dict V) k v : get d k = Some v -> In (k, v) d.
Proof.
  induction d as [|[a b] d IH]; cbn; [discriminate|]. destruct (String.eqb_spec k a) as [->|]; [intros [= ->]; auto|auto].
Qed.
Lemma get_none {V} (d : dict V) k : get d k = None <-> absent d k.
Proof.
  unfold absent; induction d as [|[a b] d IH]; cbn; [split; auto|]. destruct (String.eqb_spec k a) as [->|ne].
  - split; [discriminate|]. intros h; exfalso; exact (h b (or_introl eq_refl)).
  - rewrite IH. split; intros h v; [intros [[= <- <-]|i]; [congruence|exact (h v i)]|intros i; exact (h v (or_intror i))].
Qed.
Lemma mapping_get {V} (d : dict V) k v : mapping d -> (get d k = Some v <-> In (k, v) d).
Proof.
  intros n. split; [apply get_In|]. intros i. unfold mapping in n.
  induction d as [|[a b] d IH]; cbn in *; [contradiction|]. inversion n as [|? ? n1 n2]; subst.
  destruct i as [[= -> ->]|i]; [now rewrite String.eqb_refl|].
  destruct (String.eqb_spec k a) as [->|]; [|exact (IH n2 i)].
  exfalso; apply n1. change a with (fst (a, v)). now apply in_map.
Qed.
Lemma mapping_rev {V} (d : dict V) : mapping d -> mapping (rev d).
Proof. unfold mapping. rewrite map_rev. apply NoDup_rev. Qed.
Lemma mapping_get_rev {V} (d : dict V) k : mapping d -> get (rev d) k = get d k.
Proof.
  intros m. destruct (get d k) as [v|] eqn:E.
  - apply mapping_get; [now apply mapping_rev|]. apply -> (@in_rev (string * V)). now apply get_In.
  - apply get_none. apply get_none in E. intros v i. apply in_rev in i. exact (E v i).
Qed.
Lemma get_update_map {V} (e d : dict V) k : mapping e -> get (update d e) k = match get e k with Some v => Some v | None => get d k end.
Proof. intros m. now rewrite get_update, mapping_get_rev. Qed.
Lemma get_lift (d : dict yaml) k : get (lift d) k = option_map AY (get d k).
Proof. induction d as [|[a b] d IH]; cbn [lift map get fst snd]; [reflexivity|]. destruct (String.eqb k a); [reflexivity|exact IH]. Qed.
Lemma mapping_lift (d : dict yaml) : mapping d -> mapping (lift d).
Proof. unfold mapping, lift. now rewrite map_map. Qed.

(** ** Sections *)
Definition flat (conf : dict yaml) (name : string) : dict yaml :=
  match get conf name with Some (YDict e) => e | _ => [] end.
Definition flat_ok (conf : dict yaml) (name : string) : bool :=
  match get conf name with None | Some (YDict _) => true | _ => false end.
Lemma section_eq conf name o :
  section conf name o = if flat_ok conf name then Ok (update o (lift (flat conf name))) else Raise TypeError.
Proof. unfold section, flat_ok, flat. now destruct (get conf name) as [[]|]. Qed.
Lemma flat_mapping conf name : config_file conf -> mapping (flat conf name).
Proof.
  intros [m h]. unfold flat. destruct (get conf name) as [y|] eqn:E; [|constructor].
  destruct y; try constructor. apply (h name). now apply get_In.
Qed.
Lemma says_get conf s key v : config_file conf -> (says conf s key v <-> get (flat conf s) key = Some v).
Proof.
  intros c; pose proof c as [m h]. unfold says. split.
  - intros [e [i j]]. apply (mapping_get _ _ m) in i. unfold flat. rewrite i.
    apply mapping_get; [|exact j]. apply (h s). now apply get_In.
  - unfold flat. destruct (get conf s) as [y|] eqn:E; [|discriminate]. destruct y; try discriminate.
    intros g. exists l. split; now apply get_In.
Qed.
Lemma silent_get conf s key : config_file conf -> (silent conf s key <-> get (flat conf s) key = None).
Proof.
  intros c. unfold silent. split.
  - intros h. destruct (get (flat conf s) key) as [v|] eqn:E; [|reflexivity]. exfalso; apply (h v). now apply says_get.
  - intros g v q. apply says_get in q; [|exact c]. congruence.
Qed.

Definition input_default : dict yaml :=
  [("type", YStr "w2dyn"); ("input_path", YStr "./"); ("fname_1p", YStr "1p-data.hdf5"); ("fname_2p", YStr "g4iw_sym.hdf5"); ("do_sym_v_vp", YBool true)].
Definition output_default : dict yaml :=
  [("save_vrg", YBool false); ("save_fq", YBool false); ("keep_fq_optics", YBool false); ("keep_pairing_vertex", YBool true); ("verbosity", YInt 1)].
Definition orelse {V} (a b : option V) := match a with Some v => Some v | None => b end.

Section P.
Variable kgrid : yaml -> list string -> res Z.
Variable read_hr : string -> res unit.
Notation dga_config := (dga_config kgrid read_hr).
Notation lattice_config := (lattice_config kgrid read_hr).

Definition base (conf : dict yaml) (size : option Z) box (lat : dict yaml * Z) eli opt dbg : dict attr :=
  let o := [("do_poly_fitting", AY (YBool false)); ("output_path", AY YNull); ("comm", AComm size); ("box", ABox box);
                ("lattice", ALattice (fst lat) (snd lat)); ("eliash", AEliash eli); ("optics", AOptics opt); ("debug", ADebug dbg);
                ("n_fit", AY (YInt 4)); ("o_fit", AY (YInt 3))] in
  if has conf "poly_fitting" then put o "do_poly_fitting" (AY (YBool true)) else o.
Definition final (conf : dict yaml) (o : dict attr) : dict attr :=
  update (put (update (update (update (update (update o (lift (flat conf "poly_fitting"))) (lift input_default)) (lift (flat conf "dmft_input")))
    (lift output_default)) (lift (flat conf "output"))) "lambda_corr" (AY (YStr "spch"))) (lift (flat conf "dga")).
Definition flats_ok conf := flat_ok conf "poly_fitting" && flat_ok conf "dmft_input" && flat_ok conf "output" && flat_ok conf "dga".
Definition size_check (size : option Z) (o : dict attr) : res (dict attr) :=
  match size with
  | None => Ok o
  | Some n => match get o "lattice" with
              | Some (ALattice _ nk_irr) => if nk_irr <? n then Raise ValueError else Ok o
              | _ => Raise AttributeError
              end
  end.
Lemma dga_eq conf size : dga_config (YDict conf) size =
  let! box := box_sizes (sub conf "box_sizes") in
  let! lat := (match get conf "lattice" with Some l => lattice_config l | None => Raise ValueError end) in
  let! eli := eliash_config (sub conf "pairing") in
  let! opt := optics_config (sub conf "optics") in
  let! dbg := debug_config (sub conf "debug") in
  if flats_ok conf then size_check size (final conf (base conf size box lat eli opt dbg)) else Raise TypeError.
Proof.
  unfold ConfigFile.dga_config.
  destruct (box_sizes _) as [box|]; cbn [bind]; [|reflexivity].
  destruct (match get conf "lattice" with Some l => lattice_config l | None => Raise ValueError end) as [lat|]; cbn [bind]; [|reflexivity].
  destruct (eliash_config _) as [eli|]; cbn [bind]; [|reflexivity].
  destruct (optics_config _) as [opt|]; cbn [bind]; [|reflexivity].
  destruct (debug_config _) as [dbg|]; cbn [bind]; [|reflexivity].
  unfold flats_ok. rewrite section_eq.
  destruct (flat_ok conf "poly_fitting"); cbn [bind andb]; [|reflexivity].
  rewrite section_eq. destruct (flat_ok conf "dmft_input"); cbn [bind andb]; [|reflexivity].
  rewrite section_eq. destruct (flat_ok conf "output"); cbn [bind andb]; [|reflexivity].
  rewrite section_eq. destruct (flat_ok conf "dga"); cbn [bind andb]; reflexivity.
Qed.
Lemma dga_inv conf size o : dga_config (YDict conf) size = Ok o ->
  exists box l lat eli opt dbg,
    box_sizes (sub conf "box_sizes") = Ok box /\ get conf "lattice" = Some l /\ lattice_config l = Ok lat /\
    eliash_config (sub conf "pairing") = Ok eli /\ optics_config (sub conf "optics") = Ok opt /\ debug_config (sub conf "debug") = Ok dbg /\
    flats_ok conf = true /\ o = final conf (base conf size box lat eli opt dbg) /\ size_check size o = Ok o.
Proof.
  rewrite dga_eq.
  destruct (box_sizes _) as [box|]; cbn [bind]; [|discriminate].
  destruct (get conf "lattice") as [l|]; [|discriminate].
  destruct (lattice_config l) as [lat|] eqn:El; cbn [bind]; [|discriminate].
  destruct (eliash_config _) as [eli|]; cbn [bind]; [|discriminate].
  destruct (optics_config _) as [opt|]; cbn [bind]; [|discriminate].
  destruct (debug_config _) as [dbg|]; cbn [bind]; [|discriminate].
  destruct (flats_ok conf) eqn:F; [|discriminate].
  intros h. exists box, l, lat, eli, opt, dbg. repeat split; auto.
  - unfold size_check in h. destruct size as [n|]; [|now injection h].
    destruct (get _ "lattice") as [[]|]; try discriminate. destruct (nk_irr <? n); [discriminate|now injection h].
  - assert (e : o = final conf (base conf size box lat eli opt dbg)).
    { unfold size_check in h. destruct size as [n|]; [|now injection h].
      destruct (get _ "lattice") as [[]|]; try discriminate. destruct (nk_irr <? n); [discriminate|now injection h]. }
    rewrite e at 1. exact h.
Qed.
End P.
Lemma final_get conf o k : config_file conf -> get (final conf o) k =
  orelse (option_map AY (get (flat conf "dga") k)) (orelse (if String.eqb k "lambda_corr" then Some (AY (YStr "spch")) else None)
  (orelse (option_map AY (get (flat conf "output") k)) (orelse (option_map AY (get output_default k))
  (orelse (option_map AY (get (flat conf "dmft_input") k)) (orelse (option_map AY (get input_default k))
  (orelse (option_map AY (get (flat conf "poly_fitting") k)) (get o k))))))).
Proof.
  intros c. unfold final. pose proof (fun n => mapping_lift (flat_mapping n c)) as mf.
  assert (mi : mapping (lift input_default)) by (unfold mapping; cbn; repeat constructor; cbn; intuition discriminate).
  assert (mo : mapping (lift output_default)) by (unfold mapping; cbn; repeat constructor; cbn; intuition discriminate).
  rewrite (get_update_map _ _ (mf "dga")), get_put, (get_update_map _ _ (mf "output")), (get_update_map _ _ mo),
    (get_update_map _ _ (mf "dmft_input")), (get_update_map _ _ mi), (get_update_map _ _ (mf "poly_fitting")), !get_lift.
  unfold orelse. destruct (option_map AY (get (flat conf "dga") k)); [reflexivity|].
  destruct (String.eqb k "lambda_corr"); reflexivity.
Qed.

