(** Proofs about Model/ConfigFile.v: which configurations are accepted (C97). *)
From Coq Require Import String.
From Verif Require Import Base.PyBase Model.Config Model.ConfigFile Spec.ConfigFileSpec Proofs.ConfigFileP Proofs.ConfigFileMainP Proofs.ConfigFileSubP.
Set Implicit Arguments.
Local Open Scope string_scope.
Local Open Scope list_scope.
Local Open Scope Z_scope.

Lemma contents_sub conf s e : config_file conf -> (contents conf s e <-> subdict (sub conf s) = Some e).
Proof.
  intros [m h]. unfold contents, sub. rewrite <- get_none, <- !(mapping_get _ _ m).
  destruct (get conf s) as [y|]; cbn.
  - split.
    + intros [[q _]|[[q ->]|q]]; [discriminate|injection q as ->; reflexivity|injection q as ->; reflexivity].
    + destruct y; cbn; try discriminate; intros [= <-]; [right; left; auto|right; right; reflexivity].
  - split; [intros [[_ ->]|[[q _]|q]]; [reflexivity|discriminate|discriminate]|intros [= <-]; left; auto].
Qed.
Lemma contents_mapping conf s e : config_file conf -> contents conf s e -> mapping e.
Proof. intros [m h] [[_ ->]|[[_ ->]|q]]; [constructor|constructor|exact (h _ _ q)]. Qed.

Lemma integer_as y z : integer y z <-> as_int (Some y) = Ok z.
Proof.
  unfold integer; split.
  - intros [-> | (b & -> & ->)]; reflexivity.
  - destruct y; cbn; try discriminate; intros [= <-]; [right; eauto|left; reflexivity].
Qed.
Lemma box_ok_iff y e : mapping e -> subdict y = Some e -> ((exists b, box_sizes y = Ok b) <-> box_acceptable e).
Proof.
  intros m q. unfold box_sizes. rewrite update_opt_eq, q. cbn [bind].
  rewrite !(get_val _ _ m). unfold box_acceptable.
  pose proof (fun key y v => @setting_val box_default e key y v m) as sv.
  assert (T : forall key, In key ["niv_asympt"; "niv_core"; "niw_core"; "niv_shell"] -> exists y, val box_default e key = Some y).
  { intros key i. unfold val, orelse. destruct (get e key) as [x|]; [eauto|].
    cbn in i; destruct i as [<- |[<- |[<- |[<- |[]]]]]; eexists; reflexivity. }
  destruct (T "niv_asympt") as [a Ea]; [cbn; tauto|]. destruct (T "niv_core") as [c Ec]; [cbn; tauto|].
  destruct (T "niw_core") as [w Ew]; [cbn; tauto|]. destruct (T "niv_shell") as [s Es]; [cbn; tauto|].
  rewrite Ea, Ec, Ew, Es. split.
  - intros [b hb]. exists a. split; [apply sv; [reflexivity|exact Ea]|].
    destruct (is_int (Some a) (-1)) eqn:I.
    + right. destruct (as_int (Some s)) as [s'|] eqn:As; cbn [bind] in hb; [|discriminate].
      destruct (as_int (Some c)) as [c'|] eqn:Ac; cbn [bind] in hb; [|discriminate].
      destruct (as_int (Some w)) as [w'|] eqn:Aw; cbn [bind] in hb; [|discriminate].
      exists c, w, s, c', w', s'. repeat split; try (apply sv; [reflexivity|assumption]); now apply integer_as.
    + left. intros ->. discriminate.
  - intros [a' [sa [na|(c1 & w1 & s1 & c' & w' & s' & k1 & k2 & k3 & i1 & i2 & i3)]]]; apply sv in sa; [|reflexivity| |reflexivity]; rewrite Ea in sa; injection sa as <-.
    + destruct (is_int (Some a) (-1)) eqn:I; [|eauto]. destruct a; cbn in I; try discriminate. apply Z.eqb_eq in I. congruence.
    + apply sv in k1; [|reflexivity]. apply sv in k2; [|reflexivity]. apply sv in k3; [|reflexivity].
      rewrite Ec in k1; rewrite Ew in k2; rewrite Es in k3. injection k1 as <-; injection k2 as <-; injection k3 as <-.
      apply integer_as in i1. apply integer_as in i2. apply integer_as in i3. rewrite i1, i2, i3. cbn [bind].
      destruct (is_int _ _); eauto.
Qed.

Lemma check_syms_iff y syms : check_syms y = Ok syms <->
  (exists s, y = YStr s /\ In (s, syms) symmetry_names) \/ (no_symmetry y /\ syms = []).
Proof.
  unfold no_symmetry. split.
  - destruct y; cbn -[check_symmetries].
    + intros [= <-]; right; auto.
    + destruct b; [discriminate|]. intros [= <-]; right; auto.
    + destruct (Z.eqb_spec z 0) as [->|]; [|discriminate]. intros [= <-]; right; auto.
    + destruct (String.eqb_spec s "0.0") as [->|]; [|discriminate]. intros [= <-]; right; auto 6.
    + unfold check_symmetries. intros h; left; exists s; split; [reflexivity|].
      repeat destruct string_dec; try discriminate; injection h as <-; subst; unfold symmetry_names; cbn; auto 8.
    + destruct l; [|discriminate]. intros [= <-]; right; auto 7.
    + destruct l; [|discriminate]. intros [= <-]; right; auto 8.
  - intros [(s & -> & i)|[[-> |[-> |[-> |[-> |[-> | ->]]]]] ->]]; try reflexivity.
    unfold symmetry_names in i; cbn in i. repeat (destruct i as [[= <- <-]|i]; [reflexivity|]); contradiction.
Qed.
Lemma sequence_iff y : sequence y <-> iterable y = true.
Proof. unfold sequence. split; [intros [[l ->]|[[l ->]|[l ->]]]; reflexivity|destruct y; try discriminate; eauto]. Qed.
Lemma set_hr_iff read_hr ty hr : set_hr read_hr ty hr = Ok tt <->
  (ty = YStr "t_tp_tpp" /\ three_values hr) \/ (ty = YStr "from_wannier90" /\ exists f, hr = YStr f /\ read_hr f = Ok tt).
Proof.
  unfold three_values. split.
  - unfold set_hr. destruct ty; try discriminate. destruct (String.eqb_spec s "t_tp_tpp") as [->|ne].
    + intros h; left; split; [reflexivity|]. destruct hr as [| | | |s|l|l]; try discriminate.
      * destruct (Z.eqb_spec (Z.of_nat (String.length s)) 3) as [e|]; [|discriminate]. right; left; exists s; split; [reflexivity|lia].
      * destruct (Z.eqb_spec (Z.of_nat (List.length l)) 3) as [e|]; [|discriminate].
        destruct l as [|a [|b [|c [|d l]]]]; cbn [List.length] in e; try lia. left; exists a, b, c; reflexivity.
      * destruct (Z.eqb_spec (Z.of_nat (List.length l)) 3) as [e|]; [|discriminate].
        destruct l as [|a [|b [|c [|d l]]]]; cbn [List.length] in e; try lia. right; right; exists a, b, c; reflexivity.
    + destruct (String.eqb_spec s "from_wannier90") as [->|]; [|discriminate]. destruct hr; try discriminate.
      intros h; right; eauto.
  - intros [[-> [(a & b & c & ->)|[(s & -> & h)|(a & b & c & ->)]]]|[-> (f & -> & h)]]; try reflexivity; cbn -[Z.of_nat]; [now rewrite h|exact h].
Qed.

Section P.
Variable kgrid : yaml -> list string -> res Z.
Variable read_hr : string -> res unit.
Notation dga_config := (dga_config kgrid read_hr).
Notation lattice_config := (lattice_config kgrid read_hr).

Lemma lattice_fwd e syms n m : let o := nq_step e (update lattice_default e) in
   check_syms (dget o "symmetries") = Ok syms ->
   iterable (dget o "nk") = true -> iterable (dget o "nq") = true -> kgrid (dget o "nk") syms = Ok n ->
   kgrid (dget o "nq") syms = Ok m -> set_hr read_hr (dget o "type") (dget o "hr_input") = Ok tt ->
   lattice_config (YDict e) = Ok (sym_step o syms, n).
Proof.
  intros o h1 h2 h3 h4 h5 h6. unfold ConfigFile.lattice_config, update_dict. cbn [bind].
  fold (nq_step e (update lattice_default e)). fold o. rewrite h1. cbn [bind].
  fold (sym_step o syms).
  assert (g : forall k, k <> "symmetries" -> dget (sym_step o syms) k = dget o k).
  { intros k h. unfold sym_step. destruct (dget o "symmetries"); try reflexivity. destruct (String.eqb s ""); [reflexivity|].
    unfold dget. now rewrite get_put_other. }
  rewrite !g by discriminate. rewrite h2, h3, h4; cbn [negb bind]. rewrite h5; cbn [bind].
  destruct (dget o "type") eqn:T; try (rewrite h6; reflexivity). discriminate.
Qed.
Lemma dget_nq e k : mapping e -> dget (nq_step e (update lattice_default e)) k =
  if String.eqb k "nq" then match get e "nq" with Some v => v | None => match val lattice_default e "nk" with Some v => v | None => YNull end end
  else match val lattice_default e k with Some v => v | None => YNull end.
Proof.
  intros m. unfold dget, nq_step, has.
  assert (g : forall k, get (update lattice_default e) k = val lattice_default e k) by (intros; now apply get_val).
  destruct (String.eqb_spec k "nq") as [->|ne].
  - destruct (get e "nq") as [v|] eqn:E.
    + rewrite g. unfold val. now rewrite E.
    + rewrite get_put_same. unfold dget. now rewrite g.
  - destruct (get e "nq"); [now rewrite g|]. rewrite get_put_other by exact ne. now rewrite g.
Qed.
Lemma lattice_iff e n : mapping e -> ((exists d, lattice_config (YDict e) = Ok (d, n)) <-> lattice_acceptable kgrid read_hr e n).
Proof.
  intros m. unfold lattice_acceptable.
  pose proof (fun key y v => @setting_val lattice_default e key y v m) as sv.
  set (o := nq_step e (update lattice_default e)).
  assert (T : forall key y, key <> "nq" -> get lattice_default key = Some y -> forall v, setting e key y v <-> dget o key = v).
  { intros key y nn g v. rewrite (sv _ _ _ g). unfold o. rewrite (dget_nq _ m). destruct (String.eqb_spec key "nq"); [contradiction|].
    unfold val. rewrite g. destruct (get e key); cbn; split; congruence. }
  assert (Tq : forall v, setting e "nq" (dget o "nk") v <-> dget o "nq" = v).
  { intros v. unfold o. rewrite !(dget_nq _ m). cbn [String.eqb Ascii.eqb Bool.eqb]. unfold setting. rewrite <- (mapping_get _ _ m), <- get_none.
    destruct (get e "nq") as [z|]; split.
    - intros [q|[q _]]; congruence.
    - intros ->; auto.
    - intros [q|[_ ->]]; [discriminate|reflexivity].
    - intros <-; right; auto. }
  split.
  - intros [d h]. destruct (lattice_inv _ _ _ h) as (e' & syms & [= <-] & h1 & h2 & h3 & h4 & h5 & (m' & h6) & h7). fold o in h1, h2, h3, h4, h5, h6, h7. cbn [snd] in h5.
    exists (dget o "nk"), (dget o "nq"), (dget o "symmetries"), (dget o "hr_input"), (dget o "type"), syms, m'.
    split; [now apply (T "nk"); [discriminate|reflexivity|]|]. split; [now apply Tq|].
    split; [now apply (T "symmetries"); [discriminate|reflexivity|]|]. split; [now apply (T "hr_input"); [discriminate|reflexivity|]|].
    split; [now apply (T "type"); [discriminate|reflexivity|]|]. split; [now apply check_syms_iff|].
    split; [now apply sequence_iff|]. split; [now apply sequence_iff|]. split; [exact h5|]. split; [exact h6|]. now apply set_hr_iff.
  - intros (nk & nq & sy & hr & ty & syms & m' & s1 & s2 & s3 & s4 & s5 & h1 & h2 & h3 & h4 & h5 & h6).
    apply (T "nk") in s1; [|discriminate|reflexivity]. subst nk. apply Tq in s2. subst nq.
    apply (T "symmetries") in s3; [|discriminate|reflexivity]. subst sy. apply (T "hr_input") in s4; [|discriminate|reflexivity]. subst hr.
    apply (T "type") in s5; [|discriminate|reflexivity]. subst ty.
    apply check_syms_iff in h1. apply sequence_iff in h2. apply sequence_iff in h3. apply set_hr_iff in h6.
    exists (sym_step o syms). apply (@lattice_fwd e syms n m'); assumption.
Qed.

Lemma flat_ok_iff conf s : config_file conf -> (missing_or_mapping conf s <-> flat_ok conf s = true).
Proof.
  intros [m h]. unfold missing_or_mapping, flat_ok. rewrite <- get_none. split.
  - intros [-> |[e i]]; [reflexivity|]. apply (mapping_get _ _ m) in i. now rewrite i.
  - destruct (get conf s) as [y|] eqn:E; [|auto]. destruct y; try discriminate. intros _; right; eexists; apply get_In; exact E.
Qed.

Lemma accept_iff conf size : config_file conf -> ((exists o, dga_config (YDict conf) size = Ok o) <-> acceptable kgrid read_hr conf size).
Proof.
  intros c. pose proof c as [m hm]. split.
  - intros [o h]. destruct (dga_inv _ _ _ _ h) as (box & l & [lat n] & eli & opt & dbg & hb & hl & hl' & he & ho & hd & hf & -> & hs).
    destruct (@box_get _ _ hb) as (eb & qb & _). destruct (@eliash_get _ _ he) as (ee & qe & _).
    assert (qo : exists e, subdict (sub conf "optics") = Some e) by (unfold optics_config in ho; rewrite update_opt_eq in ho; destruct (subdict _); [eauto|discriminate]).
    assert (qd : exists e, subdict (sub conf "debug") = Some e) by (unfold debug_config in hd; rewrite update_opt_eq in hd; destruct (subdict _); [eauto|discriminate]).
    destruct qo as [eo qo]. destruct qd as [ed qd].
    unfold acceptable. split; [|split; [|split; [|split; [|split]]]].
    + exists eb. apply (contents_sub _ _ c) in qb. split; [exact qb|]. apply (@box_ok_iff (sub conf "box_sizes")); [exact (contents_mapping c qb)|now apply contents_sub|eauto].
    + exists ee. now apply contents_sub.
    + exists eo. now apply contents_sub.
    + exists ed. now apply contents_sub.
    + unfold flats_ok in hf. rewrite !andb_true_iff in hf. destruct hf as [[[f1 f2] f3] f4].
      apply Forall_forall. intros t i. apply flat_ok_iff; [exact c|].
      cbn in i; destruct i as [<- |[<- |[<- |[<- |[]]]]]; assumption.
    + destruct (lattice_inv _ _ _ hl') as (e & syms & -> & _). exists e, n. apply get_In in hl. split; [exact hl|].
      split; [apply lattice_iff; [exact (hm _ _ hl)|eauto]|]. destruct size as [p|]; [|exact I].
      unfold size_check in hs. rewrite (final_get _ _ c) in hs.
      assert (N : forall t, In t shared_sections -> get (flat conf t) "lattice" = None).
      { intros t i. unfold orelse in hs. cbn [String.eqb Ascii.eqb Bool.eqb get output_default input_default option_map] in hs.
        destruct (get (flat conf "dga") "lattice") eqn:E1; cbn [option_map] in hs; [discriminate|].
        destruct (get (flat conf "output") "lattice") eqn:E2; cbn [option_map] in hs; [discriminate|].
        destruct (get (flat conf "dmft_input") "lattice") eqn:E3; cbn [option_map] in hs; [discriminate|].
        destruct (get (flat conf "poly_fitting") "lattice") eqn:E4; cbn [option_map] in hs; [discriminate|].
        cbn in i; destruct i as [<- |[<- |[<- |[<- |[]]]]]; assumption. }
      rewrite (N "dga"), (N "output"), (N "dmft_input"), (N "poly_fitting") in hs by (cbn; tauto).
      replace (get (base conf (Some p) box (lat, n) eli opt dbg) "lattice") with (Some (ALattice lat n)) in hs
        by (unfold base; destruct (has conf "poly_fitting"); reflexivity).
      cbn in hs. destruct (Z.ltb_spec n p); [discriminate|]. split; [assumption|].
      apply Forall_forall. intros t i. apply silent_get; [exact c|exact (N t i)].
  - intros ((eb & cb & hb) & (ee & ce) & (eo & co) & (ed & cd) & hf & e & n & il & hl & hs).
    pose proof (contents_mapping c cb) as mb.
    apply (contents_sub _ _ c) in cb. apply (contents_sub _ _ c) in ce. apply (contents_sub _ _ c) in co. apply (contents_sub _ _ c) in cd.
    apply (@box_ok_iff (sub conf "box_sizes")) in hb; [|exact mb|exact cb]. destruct hb as [box hb].
    apply lattice_iff in hl; [|exact (hm _ _ il)]. destruct hl as [lat hl]. apply (mapping_get _ _ m) in il.
    rewrite dga_eq, hb. cbn [bind]. rewrite il, hl. cbn [bind]. unfold eliash_config. rewrite update_opt_eq, ce. cbn [bind].
    unfold optics_config. rewrite update_opt_eq, co. cbn [bind]. unfold debug_config. rewrite update_opt_eq, cd. cbn [bind].
    assert (F : flats_ok conf = true).
    { unfold flats_ok. rewrite Forall_forall in hf. rewrite !andb_true_iff. repeat split; apply flat_ok_iff; try exact c; apply hf; cbn; tauto. }
    rewrite F. unfold size_check. destruct size as [p|]; [|eauto]. destruct hs as [hs si].
    rewrite Forall_forall in si.
    assert (N : forall t, In t shared_sections -> get (flat conf t) "lattice" = None) by (intros t i; apply silent_get; auto).
    rewrite (final_get _ _ c), (N "dga"), (N "output"), (N "dmft_input"), (N "poly_fitting") by (cbn; tauto).
    match goal with |- context [get (base conf ?s ?b ?l ?x ?y ?z) "lattice"] =>
      replace (get (base conf s b l x y z) "lattice") with (Some (ALattice lat n)) by (unfold base; destruct (has conf "poly_fitting"); reflexivity) end.
    cbn [option_map orelse get String.eqb Ascii.eqb Bool.eqb output_default input_default]. destruct (Z.ltb_spec n p); [lia|eauto].
Qed.
End P.
