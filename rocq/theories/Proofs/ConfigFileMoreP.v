(** Proofs about Model/ConfigFile.v: added keys, unread sections, round trip (C97). *)
From Coq Require Import String Ascii.
From Verif Require Import Base.PyBase Model.Config Model.ConfigFile Spec.ConfigFileSpec
  Proofs.ConfigFileP Proofs.ConfigFileMainP Proofs.ConfigFileSubP Proofs.ConfigFileAccP.
Set Implicit Arguments.
Local Open Scope string_scope.
Local Open Scope list_scope.
Local Open Scope Z_scope.

Lemma update_snoc {V} (d e : dict V) k v : update d (e ++ [(k, v)]) = put (update d e) k v.
Proof. unfold update. now rewrite fold_left_app. Qed.
Lemma dget_put_other (d : dict yaml) k v k' : k' <> k -> dget (put d k v) k' = dget d k'.
Proof. intros; unfold dget; now rewrite get_put_other. Qed.

(** ** One more key *)
Lemma more_get conf s k v conf' : one_more_key conf s k v conf' -> mapping conf ->
  (forall t, t <> s -> get conf' t = get conf t) /\
  exists e, absent e k /\ get conf s = Some (YDict e) /\ get conf' s = Some (YDict (e ++ [(k, v)])).
Proof.
  intros (l & e & r & -> & ab & ->) m. split.
  - intros t n. rewrite !get_app. destruct (get l t); [reflexivity|]. cbn [get]. destruct (String.eqb_spec t s); [contradiction|reflexivity].
  - exists e. split; [exact ab|].
    assert (g : get l s = None).
    { apply get_none. intros y i. unfold mapping in m. rewrite map_app in m. apply NoDup_remove_2 in m. apply m, in_or_app. left.
      exact (in_map fst l (s, y) i). }
    rewrite !get_app, g. cbn [get]. now rewrite String.eqb_refl.
Qed.
Lemma snoc_mapping {V} (e : dict V) k v : mapping e -> absent e k -> mapping (e ++ [(k, v)]).
Proof.
  unfold mapping. intros m a. rewrite map_app. cbn. apply NoDup_Add with (a := k) (l := map fst e).
  - rewrite <- (app_nil_r (map fst e)) at 1. apply Add_app.
  - split; [exact m|]. intros i. apply in_map_iff in i. destruct i as ((k' & y) & q & i). cbn in q; subst k'. exact (a y i).
Qed.
Lemma more_file conf s k v conf' : one_more_key conf s k v conf' -> config_file conf -> config_file conf'.
Proof.
  intros (l & e & r & -> & ab & ->) [m h]. split.
  - unfold mapping in *. rewrite !map_app in *. exact m.
  - intros t e' i. apply in_app_or in i. destruct i as [i|[[= <- <-]|i]].
    + apply (h t), in_or_app; now left.
    + apply snoc_mapping; [|exact ab]. apply (h s), in_or_app; right; now left.
    + apply (h t), in_or_app; right; now right.
Qed.

Lemma box_more e k v b : k <> "niw_core" -> k <> "niv_core" -> k <> "niv_shell" -> k <> "niv_asympt" -> box_sizes (YDict e) = Ok b ->
  exists b', box_sizes (YDict (e ++ [(k, v)])) = Ok b' /\ forall key, key <> k -> get b' key = get b key.
Proof.
  intros n1 n2 n3 n4. unfold box_sizes. cbn [update_opt update_dict bind]. rewrite update_snoc, !get_put_other by congruence.
  destruct (is_int _ _).
  - destruct (as_int _) as [s|]; cbn [bind]; [|discriminate]. destruct (as_int _) as [c|]; cbn [bind]; [|discriminate].
    destruct (as_int _) as [w|]; cbn [bind]; [|discriminate]. intros [= <-]. eexists; split; [reflexivity|].
    intros key nk. rewrite !get_put. destruct (String.eqb_spec key k); [contradiction|reflexivity].
  - intros [= <-]. eexists; split; [reflexivity|]. intros key nk. now rewrite get_put_other.
Qed.
Lemma eliash_more e k v b : k <> "k_sym" -> eliash_config (YDict e) = Ok b ->
  exists b', eliash_config (YDict (e ++ [(k, v)])) = Ok b' /\ forall key, key <> k -> get b' key = get b key.
Proof.
  intros n1. unfold eliash_config. cbn [update_opt update_dict bind]. rewrite update_snoc.
  intros [= <-]. eexists; split; [reflexivity|]. intros key nk.
  assert (q : forall x y, dget (put (put (update eliash_default e) k v) x y) "k_sym" = dget (put (update eliash_default e) x y) "k_sym").
  { intros x y. unfold dget. rewrite !get_put. destruct (String.eqb_spec "k_sym" k); [congruence|reflexivity]. }
  rewrite q, dget_put_other by congruence. rewrite !get_put. destruct (String.eqb_spec key k); [contradiction|reflexivity].
Qed.
Lemma opt_more d e k v b : update_opt d (YDict e) = Ok b ->
  exists b', update_opt d (YDict (e ++ [(k, v)])) = Ok b' /\ forall key, key <> k -> get b' key = get b key.
Proof.
  cbn [update_opt update_dict]. intros [= <-]. eexists; split; [reflexivity|]. intros key nk. now rewrite update_snoc, get_put_other.
Qed.

Section P.
Variable kgrid : yaml -> list string -> res Z.
Variable read_hr : string -> res unit.
Notation dga_config := (dga_config kgrid read_hr).
Notation lattice_config := (lattice_config kgrid read_hr).

Lemma lattice_more e k v b n : k <> "nk" -> k <> "nq" -> k <> "symmetries" -> k <> "hr_input" -> k <> "type" -> lattice_config (YDict e) = Ok (b, n) ->
  exists b', lattice_config (YDict (e ++ [(k, v)])) = Ok (b', n) /\ forall key, key <> k -> get b' key = get b key.
Proof.
  intros n1 n2 n3 n4 n5 h.
  destruct (lattice_inv _ _ _ h) as (e' & syms & [= <-] & h1 & h2 & h3 & h4 & h5 & (m' & h6) & h7). cbn [fst snd] in *.
  set (o := nq_step e (update lattice_default e)) in *.
  set (o' := nq_step (e ++ [(k, v)]) (update lattice_default (e ++ [(k, v)]))).
  assert (g : forall key, key <> k -> get o' key = get o key).
  { intros key nk. unfold o', o, nq_step, has. rewrite update_snoc, get_app. cbn [get].
    destruct (String.eqb_spec "nq" k); [congruence|].
    destruct (get e "nq"); [now rewrite get_put_other|]. rewrite !get_put, dget_put_other by congruence.
    destruct (String.eqb_spec key k); [contradiction|reflexivity]. }
  assert (g' : forall key, key <> k -> dget o' key = dget o key) by (intros; unfold dget; now rewrite g).
  exists (sym_step o' syms). split.
  - apply (@lattice_fwd kgrid read_hr (e ++ [(k, v)]) syms n m'); fold o'; rewrite !g' by congruence; assumption.
  - intros key nk. rewrite h2. unfold sym_step. rewrite g' by congruence.
    destruct (dget o "symmetries") as [| | | |s| |]; try (now apply g). destruct (String.eqb s ""); [now apply g|].
    rewrite !get_put. destruct (String.eqb key "symmetries"); [reflexivity|now apply g].
Qed.

Lemma size_check_same size o o' : get o' "lattice" = get o "lattice" -> size_check size o = Ok o -> size_check size o' = Ok o'.
Proof.
  unfold size_check. destruct size; [|reflexivity]. intros ->. destruct (get o "lattice") as [[]|]; try discriminate.
  destruct (_ <? _); [discriminate|reflexivity].
Qed.

Lemma flat_more conf s k v conf' size o : config_file conf -> In s shared_sections -> k <> "lattice" -> one_more_key conf s k v conf' ->
  dga_config (YDict conf) size = Ok o ->
  exists o', dga_config (YDict conf') size = Ok o' /\ forall a, a <> k -> get o' a = get o a.
Proof.
  intros c i nl mo h. pose proof (more_file mo c) as c'. destruct (more_get mo (proj1 c)) as (gt & e & ab & g1 & g2).
  destruct (dga_inv _ _ _ _ h) as (box & l & lat & eli & opt & dbg & hb & hl & hl' & he & ho & hd & hf & -> & hs).
  assert (ns : s <> "box_sizes" /\ s <> "lattice" /\ s <> "pairing" /\ s <> "optics" /\ s <> "debug")
    by (cbn in i; destruct i as [<- |[<- |[<- |[<- |[]]]]]; repeat split; discriminate).
  destruct ns as (ns1 & ns2 & ns3 & ns4 & ns5).
  assert (F : flats_ok conf' = true).
  { rewrite <- hf. unfold flats_ok.
    assert (q : forall t, flat_ok conf' t = flat_ok conf t).
    { intros t. unfold flat_ok. destruct (String.eqb_spec t s) as [->|n]; [now rewrite g1, g2|now rewrite gt]. }
    now rewrite !q. }
  assert (B : forall b1 b2 b3 b4 b5, base conf' size b1 b2 b3 b4 b5 = base conf size b1 b2 b3 b4 b5).
  { intros. unfold base. replace (has conf' "poly_fitting") with (has conf "poly_fitting"); [reflexivity|].
    unfold has. destruct (String.eqb_spec "poly_fitting" s) as [->|n]; [now rewrite g1, g2|now rewrite gt]. }
  assert (E : forall a, a <> k -> get (final conf' (base conf' size box lat eli opt dbg)) a = get (final conf (base conf size box lat eli opt dbg)) a).
  { intros a na. rewrite B, (final_get _ _ c), (final_get _ _ c').
    assert (q : forall t, get (flat conf' t) a = get (flat conf t) a).
    { intros t. unfold flat. destruct (String.eqb_spec t s) as [->|n]; [|now rewrite gt]. rewrite g1, g2, get_app. cbn [get].
      destruct (String.eqb_spec a k); [contradiction|]. now destruct (get e a). }
    now rewrite !q. }
  exists (final conf' (base conf' size box lat eli opt dbg)). split; [|exact E].
  rewrite dga_eq. unfold sub in *. rewrite !gt by congruence. rewrite hb; cbn [bind]. rewrite hl, hl'; cbn [bind].
  rewrite he; cbn [bind]. rewrite ho; cbn [bind]. rewrite hd; cbn [bind]. rewrite F.
  refine (size_check_same _ _ _ hs). apply E. congruence.
Qed.

Lemma sub_more conf s k v conf' size o : config_file conf -> In s ["box_sizes"; "lattice"; "pairing"; "optics"; "debug"] -> ~ known_sub s k ->
  one_more_key conf s k v conf' -> dga_config (YDict conf) size = Ok o ->
  exists o', dga_config (YDict conf') size = Ok o' /\ (forall a w, attribute o' a w <-> attribute o a w) /\
    forall a key w, key <> k -> (sub_attribute o' a key w <-> sub_attribute o a key w).
Proof.
  intros c i nk mo h. pose proof (more_file mo c) as c'. destruct (more_get mo (proj1 c)) as (gt & e & ab & g1 & g2).
  destruct (dga_inv _ _ _ _ h) as (box & l & lat & eli & opt & dbg & hb & hl & hl' & he & ho & hd & hf & -> & hs).
  assert (ns : ~ In s shared_sections) by (cbn in i |- *; destruct i as [<- |[<- |[<- |[<- |[<- |[]]]]]]; intuition discriminate).
  assert (N : forall t, In t shared_sections -> get conf' t = get conf t) by (intros t it; apply gt; intros ->; contradiction).
  assert (F : flats_ok conf' = true).
  { rewrite <- hf. unfold flats_ok, flat_ok. now rewrite !N by (cbn; tauto). }
  assert (P : has conf' "poly_fitting" = has conf "poly_fitting") by (unfold has; now rewrite N by (cbn; tauto)).
  assert (E : exists box' lat' eli' opt' dbg', 
     box_sizes (sub conf' "box_sizes") = Ok box' /\ (match get conf' "lattice" with Some l => lattice_config l | None => Raise ValueError end) = Ok (lat', snd lat) /\
     eliash_config (sub conf' "pairing") = Ok eli' /\ optics_config (sub conf' "optics") = Ok opt' /\ debug_config (sub conf' "debug") = Ok dbg' /\
     forall key, key <> k -> get box' key = get box key /\ get lat' key = get (fst lat) key /\ get eli' key = get eli key /\ get opt' key = get opt key /\ get dbg' key = get dbg key).
  { assert (hl2 : (match get conf "lattice" with Some l => lattice_config l | None => Raise ValueError end) = Ok lat) by now rewrite hl.
    clear hl hl'. destruct lat as [lat n]. cbn [fst snd]. unfold sub in *.
    cbn in i; destruct i as [<- |[<- |[<- |[<- |[<- |[]]]]]].
    - rewrite g1 in hb. rewrite g2, !(gt "lattice"), !(gt "pairing"), !(gt "optics"), !(gt "debug") by discriminate.
      destruct (@box_more e k v box) as (b' & q1 & q2); [..|exact hb|]; 
        try (intros ->; apply nk; first [exact K_asympt|econstructor; constructor]).
      rewrite q1, hl2, he, ho, hd. exists b', lat, eli, opt, dbg. repeat split; auto.
    - rewrite g1 in hl2. rewrite g2, !(gt "box_sizes"), !(gt "pairing"), !(gt "optics"), !(gt "debug") by discriminate.
      destruct (@lattice_more e k v lat n) as (b' & q1 & q2); [..|exact hl2|];
        try (intros ->; apply nk; first [exact K_nq|exact K_symm|econstructor; constructor]).
      rewrite q1, hb, he, ho, hd. exists box, b', eli, opt, dbg. repeat split; auto.
    - rewrite g1 in he. rewrite g2, !(gt "box_sizes"), !(gt "lattice"), !(gt "optics"), !(gt "debug") by discriminate.
      destruct (@eliash_more e k v eli) as (b' & q1 & q2); [..|exact he|];
        try (intros ->; apply nk; econstructor; constructor).
      rewrite q1, hb, hl2, ho, hd. exists box, lat, b', opt, dbg. repeat split; auto.
    - rewrite g1 in ho. rewrite g2, !(gt "box_sizes"), !(gt "lattice"), !(gt "pairing"), !(gt "debug") by discriminate.
      destruct (@opt_more _ e k v opt ho) as (b' & q1 & q2).
      unfold optics_config. rewrite q1, hb, hl2, he, hd. exists box, lat, eli, b', dbg. repeat split; auto.
    - rewrite g1 in hd. rewrite g2, !(gt "box_sizes"), !(gt "lattice"), !(gt "pairing"), !(gt "optics") by discriminate.
      destruct (@opt_more _ e k v dbg hd) as (b' & q1 & q2).
      unfold debug_config. rewrite q1, hb, hl2, he, ho. exists box, lat, eli, opt, b'. repeat split; auto. }
  destruct E as (box' & lat' & eli' & opt' & dbg' & E1 & E2 & E3 & E4 & E5 & E6).
  exists (final conf' (base conf' size box' (lat', snd lat) eli' opt' dbg')).
  assert (G : forall a, let x := get (final conf' (base conf' size box' (lat', snd lat) eli' opt' dbg')) a in
     let y := get (final conf (base conf size box lat eli opt dbg)) a in
     x = y \/ (x = Some (ABox box') /\ y = Some (ABox box)) \/ (x = Some (ALattice lat' (snd lat)) /\ y = Some (ALattice (fst lat) (snd lat))) \/
     (x = Some (AEliash eli') /\ y = Some (AEliash eli)) \/ (x = Some (AOptics opt') /\ y = Some (AOptics opt)) \/ (x = Some (ADebug dbg') /\ y = Some (ADebug dbg))).
  { intros a. cbv zeta. rewrite (final_get _ _ c), (final_get _ _ c').
    assert (q : forall t, In t shared_sections -> flat conf' t = flat conf t) by (intros t it; unfold flat; now rewrite N).
    rewrite !q by (cbn; tauto).
    destruct (option_map AY (get (flat conf "dga") a)); cbn [orelse]; [auto|].
    destruct (String.eqb a "lambda_corr"); cbn [orelse]; [auto|].
    destruct (option_map AY (get (flat conf "output") a)); cbn [orelse]; [auto|].
    destruct (option_map AY (get output_default a)); cbn [orelse]; [auto|].
    destruct (option_map AY (get (flat conf "dmft_input") a)); cbn [orelse]; [auto|].
    destruct (option_map AY (get input_default a)); cbn [orelse]; [auto|].
    destruct (option_map AY (get (flat conf "poly_fitting") a)); cbn [orelse]; [auto|].
    unfold base. rewrite P. clear.
    assert (K : forall o1 o2 : dict attr, (let x := get o1 a in let y := get o2 a in
     x = y \/ (x = Some (ABox box') /\ y = Some (ABox box)) \/ (x = Some (ALattice lat' (snd lat)) /\ y = Some (ALattice (fst lat) (snd lat))) \/
     (x = Some (AEliash eli') /\ y = Some (AEliash eli)) \/ (x = Some (AOptics opt') /\ y = Some (AOptics opt)) \/ (x = Some (ADebug dbg') /\ y = Some (ADebug dbg))) ->
       forall k1 v1, let x := get (put o1 k1 v1) a in let y := get (put o2 k1 v1) a in
     x = y \/ (x = Some (ABox box') /\ y = Some (ABox box)) \/ (x = Some (ALattice lat' (snd lat)) /\ y = Some (ALattice (fst lat) (snd lat))) \/
     (x = Some (AEliash eli') /\ y = Some (AEliash eli)) \/ (x = Some (AOptics opt') /\ y = Some (AOptics opt)) \/ (x = Some (ADebug dbg') /\ y = Some (ADebug dbg))).
    { intros o1 o2 H k1 v1. cbv zeta in *. rewrite !get_put. destruct (String.eqb a k1); auto. }
    cbv zeta in *. destruct (has conf "poly_fitting"); [apply K|];
      cbn [get fst snd]; repeat (match goal with |- context [String.eqb a ?z] => destruct (String.eqb a z); [tauto|] end); tauto. }
  split; [|split].
  - rewrite dga_eq, E1. cbn [bind]. rewrite E2. cbn [bind]. rewrite E3. cbn [bind]. rewrite E4. cbn [bind]. rewrite E5. cbn [bind]. rewrite F.
    unfold size_check in *. destruct size as [p|]; [|reflexivity].
    destruct (G "lattice") as [q|[[q1 q2]|[[q1 q2]|[[q1 q2]|[[q1 q2]|[q1 q2]]]]]]; [rewrite q|rewrite q1; rewrite q2 in hs; try discriminate hs..].
    + match type of q with _ = ?y => destruct y as [[]|] end; try discriminate hs. destruct (_ <? _); [discriminate hs|reflexivity].
    + destruct (_ <? _); [discriminate hs|reflexivity].
  - intros a w. unfold attribute.
    destruct (G a) as [q|[[q1 q2]|[[q1 q2]|[[q1 q2]|[[q1 q2]|[q1 q2]]]]]]; [rewrite q; reflexivity|rewrite q1, q2; split; discriminate..].
  - intros a key w nkk. destruct (E6 key nkk) as (e1 & e2 & e3 & e4 & e5). unfold sub_attribute.
    destruct (G a) as [q|[[q1 q2]|[[q1 q2]|[[q1 q2]|[[q1 q2]|[q1 q2]]]]]]; [rewrite q; reflexivity|rewrite q1, q2..].
    all: split; intros (d & n & hd' & gd); repeat (destruct hd' as [hd'|hd']; try discriminate hd'); try discriminate hd'; injection hd' as; subst; eexists; exists (snd lat); (split; [tauto|congruence]).
Qed.

(** ** Sections that are not read *)
Lemma unread_same conf conf' size : config_file conf -> config_file conf' ->
  (forall s y, In s section_names -> (In (s, y) conf <-> In (s, y) conf')) -> dga_config (YDict conf) size = dga_config (YDict conf') size.
Proof.
  intros [m _] [m' _] h.
  assert (g : forall s, In s section_names -> get conf s = get conf' s).
  { intros s i. destruct (get conf s) as [y|] eqn:E.
    - symmetry. apply (mapping_get _ _ m'), h; [exact i|]. now apply get_In.
    - symmetry. apply get_none. apply get_none in E. intros y j. apply (E y), h; assumption. }
  unfold ConfigFile.dga_config, section, sub, has. rewrite !g by (cbn; tauto). reflexivity.
Qed.
End P.
