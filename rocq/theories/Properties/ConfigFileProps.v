(** C97: evaluation of the configuration file (config.py). *)
From Coq Require Import String Ascii.
From Verif Require Import Base.PyBase Model.BrillouinZone Model.Config Model.ConfigFile Spec.ConfigFileSpec
  Proofs.ConfigFileP Proofs.ConfigFileMainP Proofs.ConfigFileSubP Proofs.ConfigFileAccP Proofs.ConfigFileMoreP Proofs.ConfigFileRoundP.
Set Implicit Arguments.
Local Open Scope string_scope.
Local Open Scope list_scope.
Local Open Scope Z_scope.

Section C97.
(** [kgrid nk symmetries] builds a momentum grid, [read_hr f] reads a hopping file: arbitrary. *)
Variable kgrid : yaml -> list string -> res Z.
Variable read_hr : string -> res unit.
Notation dga_config := (dga_config kgrid read_hr).

(** Exactly the acceptable files are accepted. *)
Theorem C97_accepted conf size : config_file conf ->
  ((exists o, dga_config (YDict conf) size = Ok o) <-> acceptable kgrid read_hr conf size).
Proof. exact (@accept_iff kgrid read_hr conf size). Qed.

(** The documented settings: the value of the file, unless a section read later has the same key; else the default.  The third part
    is the full story of the shared name space: the last section that has the key wins. *)
Theorem C97_documented conf size o s key d : config_file conf -> dga_config (YDict conf) size = Ok o -> documented s key d ->
  (forall v, says conf s key v -> (forall t, read_after t s -> silent conf t key) -> attribute o key v) /\
  ((forall t, t = s \/ read_after t s -> silent conf t key) -> attribute o key d) /\
  (forall t v, read_after t s -> says conf t key v -> (forall u, read_after u t -> silent conf u key) -> attribute o key v).
Proof. exact (@documented_value kgrid read_hr conf size o s key d). Qed.

(** The settings of the sections with an object of their own: the value of the file, else the default. *)
Theorem C97_objects conf size o s a key d : config_file conf -> dga_config (YDict conf) size = Ok o -> documented_sub s a key d ->
  (forall t, In t shared_sections -> silent conf t a) ->
  (forall v, says conf s key v -> sub_attribute o a key v) /\ (silent conf s key -> sub_attribute o a key d).
Proof. exact (@sub_value kgrid read_hr conf size o s a key d). Qed.

(** Settings derived from others: the asymptotic range, the q grid, the symmetries, the polynomial fit. *)
Theorem C97_derived conf size o : config_file conf -> dga_config (YDict conf) size = Ok o ->
  ((forall t, In t shared_sections -> silent conf t "box") ->
   (forall v, says conf "box_sizes" "niv_asympt" v -> v <> YInt (-1) -> sub_attribute o "box" "niv_asympt" v) /\
   (silent conf "box_sizes" "niv_asympt" \/ says conf "box_sizes" "niv_asympt" (YInt (-1)) ->
    forall c w s c' w' s', sub_attribute o "box" "niv_core" c -> sub_attribute o "box" "niw_core" w -> sub_attribute o "box" "niv_shell" s ->
      integer c c' -> integer w w' -> integer s s' -> sub_attribute o "box" "niv_asympt" (YInt (c' + s' + 2 * w')))) /\
  ((forall t, In t shared_sections -> silent conf t "lattice") ->
   (forall v, says conf "lattice" "nq" v -> sub_attribute o "lattice" "nq" v) /\
   (silent conf "lattice" "nq" -> forall v, sub_attribute o "lattice" "nk" v -> sub_attribute o "lattice" "nq" v) /\
   (forall s, says conf "lattice" "symmetries" (YStr s) -> s <> "" ->
      exists l, In (s, l) symmetry_names /\ sub_attribute o "lattice" "symmetries" (YList (map YStr l))) /\
   (silent conf "lattice" "symmetries" -> sub_attribute o "lattice" "symmetries" (YList []))) /\
  ((forall t, In t shared_sections -> silent conf t "do_poly_fitting") ->
   (attribute o "do_poly_fitting" (YBool true) <-> exists y, In ("poly_fitting", y) conf) /\
   (attribute o "do_poly_fitting" (YBool false) <-> absent conf "poly_fitting")).
Proof.
  intros c h. split; [exact (@asympt_value kgrid read_hr conf size o c h)|].
  split; [exact (@lattice_value kgrid read_hr conf size o c h)|exact (@poly_value kgrid read_hr conf size o c h)].
Qed.

(** The number of processes is checked against the irreducible k points of the lattice section; a missing lattice section is refused. *)
Theorem C97_processes conf o d n p : config_file conf -> dga_config (YDict conf) None = Ok o -> get o "lattice" = Some (ALattice d n) ->
  (n < p -> dga_config (YDict conf) (Some p) = Raise ValueError) /\
  (p <= n -> exists o', dga_config (YDict conf) (Some p) = Ok o' /\ forall a, a <> "comm" -> get o' a = get o a).
Proof.
  intros c h gl. destruct (dga_inv _ _ _ _ h) as (box & l & lat & eli & opt & dbg & hb & hl & hl' & he & ho & hd & hf & -> & _).
  assert (E : forall a, a <> "comm" -> get (final conf (base conf (Some p) box lat eli opt dbg)) a = get (final conf (base conf None box lat eli opt dbg)) a).
  { intros a na. rewrite !(final_get _ _ c). unfold base. destruct (has conf "poly_fitting"); rewrite ?get_put; cbn [get];
      (destruct (String.eqb_spec a "comm"); [contradiction|reflexivity]). }
  rewrite dga_eq, hb; cbn [bind]. rewrite hl, hl'; cbn [bind]. rewrite he; cbn [bind]. rewrite ho; cbn [bind]. rewrite hd; cbn [bind]. rewrite hf.
  unfold size_check. rewrite E, gl by discriminate. split; intros q.
  - destruct (Z.ltb_spec n p); [reflexivity|lia].
  - destruct (Z.ltb_spec n p); [lia|]. eauto.
Qed.
Theorem C97_no_lattice conf size e : config_file conf -> contents conf "box_sizes" e -> box_acceptable e -> absent conf "lattice" ->
  dga_config (YDict conf) size = Raise ValueError.
Proof.
  intros c cb hb nl. pose proof (contents_mapping c cb) as mb. apply (contents_sub _ _ c) in cb.
  apply (@box_ok_iff (sub conf "box_sizes")) in hb; [|exact mb|exact cb]. destruct hb as [box hb].
  rewrite dga_eq, hb. cbn [bind]. apply get_none in nl. now rewrite nl.
Qed.
(** A section without content: accepted for the object sections, except the lattice (C97_accepted); TypeError for the shared ones. *)
Theorem C97_empty_section l s e r size o : config_file (l ++ (s, YDict e) :: r) -> In s shared_sections ->
  dga_config (YDict (l ++ (s, YDict e) :: r)) size = Ok o -> dga_config (YDict (l ++ (s, YNull) :: r)) size = Raise TypeError.
Proof.
  intros [m hm] i h. destruct (dga_inv _ _ _ _ h) as (box & l' & lat & eli & opt & dbg & hb & hl & hl' & he & ho & hd & hf & _ & _).
  assert (gl : get l s = None).
  { apply get_none. intros y j. unfold mapping in m. rewrite map_app in m. apply NoDup_remove_2 in m. apply m, in_or_app. left. exact (in_map fst l (s, y) j). }
  assert (gt : forall t, t <> s -> get (l ++ (s, YNull) :: r) t = get (l ++ (s, YDict e) :: r) t).
  { intros t n. rewrite !get_app. destruct (get l t); [reflexivity|]. cbn [get]. destruct (String.eqb_spec t s); [contradiction|reflexivity]. }
  assert (ns : s <> "box_sizes" /\ s <> "lattice" /\ s <> "pairing" /\ s <> "optics" /\ s <> "debug")
    by (cbn in i; destruct i as [<- |[<- |[<- |[<- |[]]]]]; repeat split; discriminate).
  destruct ns as (ns1 & ns2 & ns3 & ns4 & ns5).
  rewrite dga_eq. unfold sub in *. rewrite !gt by congruence. rewrite hb; cbn [bind]. rewrite hl, hl'; cbn [bind].
  rewrite he; cbn [bind]. rewrite ho; cbn [bind]. rewrite hd; cbn [bind].
  assert (F : flat_ok (l ++ (s, YNull) :: r) s = false) by (unfold flat_ok; rewrite get_app, gl; cbn [get]; now rewrite String.eqb_refl).
  replace (flats_ok (l ++ (s, YNull) :: r)) with false; [reflexivity|]. symmetry. unfold flats_ok.
  cbn in i; destruct i as [<- |[<- |[<- |[<- |[]]]]]; rewrite F; cbn; rewrite ?andb_false_r; reflexivity.
Qed.

(** Every rank of an MPI job evaluates the file of rank 0. *)
Theorem C97_ranks file size r : parse_config_file kgrid read_hr file size r = rmap (fun o => (o, file 0%nat)) (dga_config (file 0%nat) (Some size)).
Proof. unfold parse_config_file, rmap, bind. destruct (Nat.eqb_spec r 0) as [->|]; destruct (dga_config _ _); reflexivity. Qed.

(** Finding: a key nobody knows (a misspelt one, say) is accepted in every section, and nothing else changes: the setting that was
    meant keeps its default. *)
Theorem C97_misspelt_key_finding conf s k v conf' size o : config_file conf -> one_more_key conf s k v conf' -> dga_config (YDict conf) size = Ok o ->
  (In s shared_sections -> k <> "lattice" -> exists o', dga_config (YDict conf') size = Ok o' /\ forall a, a <> k -> get o' a = get o a) /\
  (In s ["box_sizes"; "lattice"; "pairing"; "optics"; "debug"] -> ~ known_sub s k ->
   exists o', dga_config (YDict conf') size = Ok o' /\ (forall a w, attribute o' a w <-> attribute o a w) /\
     forall a key w, key <> k -> (sub_attribute o' a key w <-> sub_attribute o a key w)).
Proof.
  intros c mo h. split.
  - intros i n. exact (@flat_more kgrid read_hr conf s k v conf' size o c i n mo h).
  - intros i n. exact (@sub_more kgrid read_hr conf s k v conf' size o c i n mo h).
Qed.
(** Finding: only the nine sections are read; in particular the 'box' section of the default configuration (get_default_config_dict) has
    no effect whatsoever. *)
Theorem C97_unread_sections conf conf' size : config_file conf -> config_file conf' ->
  (forall s y, In s section_names -> (In (s, y) conf <-> In (s, y) conf')) -> dga_config (YDict conf) size = dga_config (YDict conf') size.
Proof. exact (@unread_same kgrid read_hr conf conf' size). Qed.
Theorem C97_default_box_finding b b' size : dga_config (YDict (default_config b)) size = dga_config (YDict (default_config b')) size.
Proof. reflexivity. Qed.
(** Finding: the start of the power iteration always follows from k_sym; 'gap0_sing' and 'gap0_trip' in the pairing section are overwritten. *)
Theorem C97_gap0_finding conf size o : config_file conf -> dga_config (YDict conf) size = Ok o ->
  (forall t, In t shared_sections -> silent conf t "eliash") -> forall ks, sub_attribute o "eliash" "k_sym" ks ->
  sub_attribute o "eliash" "gap0_sing" (gap0 gap0_sing_v ks) /\ sub_attribute o "eliash" "gap0_trip" (gap0 gap0_trip_v ks).
Proof. exact (@gap0_value kgrid read_hr conf size o). Qed.
End C97.

(** Writing a section object back ([as_dict]) and reading it again gives the same object: every attribute whose name has no leading underscore. *)
Theorem C97_round_trip y o key : (forall r, key <> String "_" r) ->
  (box_sizes y = Ok o -> exists o', box_sizes (YDict (as_dict o)) = Ok o' /\ get o' key = get o key) /\
  (eliash_config y = Ok o -> exists o', eliash_config (YDict (as_dict o)) = Ok o' /\ get o' key = get o key) /\
  (optics_config y = Ok o -> exists o', optics_config (YDict (as_dict o)) = Ok o' /\ get o' key = get o key) /\
  (debug_config y = Ok o -> exists o', debug_config (YDict (as_dict o)) = Ok o' /\ get o' key = get o key).
Proof.
  intros u. apply not_under in u. split; [|split; [|split]].
  - intros h. destruct (box_round _ h) as (o' & q1 & q2). eauto.
  - intros h. destruct (eliash_round _ h) as (o' & q1 & q2). eauto.
  - intros h. destruct (@opt_round optics_default y o) as (o' & q1 & q2); [unfold mapping; cbn; repeat constructor; cbn; intuition discriminate|exact h|]. eauto.
  - intros h. destruct (@opt_round [("keep_rank_files", YBool false)] y o) as (o' & q1 & q2); [unfold mapping; cbn; repeat constructor; cbn; intuition discriminate|exact h|]. eauto.
Qed.
(** The box built from the file is the one of C42. *)
Theorem C97_box_is_C42 (c : box_conf) :
  let entry k x := match x with Some z => [(k, YInt z)] | None => [] end in
  exists b, box_sizes (YDict (entry "niw_core" (c_niw_core c) ++ entry "niv_core" (c_niv_core c) ++ entry "niv_shell" (c_niv_shell c) ++ entry "niv_asympt" (c_niv_asympt c))) = Ok b /\
    get b "niw_core" = Some (YInt (niw_core (box_init c))) /\ get b "niv_core" = Some (YInt (niv_core (box_init c))) /\
    get b "niv_shell" = Some (YInt (niv_shell (box_init c))) /\ get b "niv_asympt" = Some (YInt (niv_asympt (box_init c))).
Proof.
  destruct c as [[w|] [n|] [s|] [a|]]; cbn -[Z.add Z.mul]; unfold box_init, niv_full; cbn -[Z.add Z.mul];
    try (destruct (Z.eqb_spec a (-1)) as [->|]; cbn -[Z.add Z.mul]); eexists; (split; [reflexivity|cbn -[Z.add Z.mul]; auto]).
Qed.
Print Assumptions C97_accepted.
Print Assumptions C97_documented.
Print Assumptions C97_objects.
Print Assumptions C97_derived.
Print Assumptions C97_processes.
Print Assumptions C97_no_lattice.
Print Assumptions C97_empty_section.
Print Assumptions C97_ranks.
Print Assumptions C97_misspelt_key_finding.
Print Assumptions C97_unread_sections.
Print Assumptions C97_default_box_finding.
Print Assumptions C97_gap0_finding.
Print Assumptions C97_round_trip.
Print Assumptions C97_box_is_C42.

(** The grid of the model, a file with a shadowed key, a misspelt one and too many processes. *)
Definition kgrid_bz (nk : yaml) (syms : list string) : res Z :=
  match nk with YList [YInt x; YInt y; YInt z] => rmap nk_irr (make_kgrid x y z syms) | _ => Raise TypeError end.
Definition ex_conf : list (string * yaml) :=
  [("box_sizes", YDict [("niw_core", YInt 20); ("niv_cor", YInt 40)]);
   ("lattice", YDict [("symmetries", YStr "two_dimensional_square"); ("type", YStr "t_tp_tpp"); ("hr_input", YList [YInt 1; YInt 0; YInt 0]);
                      ("nk", YList [YInt 4; YInt 4; YInt 1])]);
   ("pairing", YNull);
   ("dmft_input", YDict [("input_path", YStr "data/"); ("save_fq", YBool true)]);
   ("output", YDict [("save_vrg", YBool true); ("input_path", YStr "out/")])].
Example ex_C97 : exists o, dga_config kgrid_bz (fun _ => Raise FileNotFoundError) (YDict ex_conf) (Some 6) = Ok o /\
  attribute o "save_vrg" (YBool true) /\ attribute o "save_fq" (YBool false) /\ attribute o "input_path" (YStr "out/") /\
  attribute o "lambda_corr" (YStr "spch") /\ sub_attribute o "box" "niv_asympt" (YInt 39) /\ sub_attribute o "lattice" "nq" (YList [YInt 4; YInt 4; YInt 1]) /\
  dga_config kgrid_bz (fun _ => Raise FileNotFoundError) (YDict ex_conf) (Some 7) = Raise ValueError.
Proof.
  eexists. split; [vm_compute; reflexivity|]. unfold attribute, sub_attribute.
  do 4 (split; [vm_compute; reflexivity|]). split; [|split].
  - eexists; exists 0. split; [left; vm_compute; reflexivity|vm_compute; reflexivity].
  - do 2 eexists. split; [right; left; vm_compute; reflexivity|vm_compute; reflexivity].
  - vm_compute; reflexivity.
Qed.
Example ex_C97_file : config_file ex_conf.
Proof.
  split; [unfold mapping; cbn; repeat constructor; cbn; intuition discriminate|].
  intros s e i. cbn in i. repeat (destruct i as [[= <- <-]|i]; [unfold mapping; cbn; repeat constructor; cbn; intuition discriminate|]); try contradiction.
  destruct i as [q|i]; [discriminate q|].
  repeat (destruct i as [[= <- <-]|i]; [unfold mapping; cbn; repeat constructor; cbn; intuition discriminate|]); contradiction.
Qed.
