(** Proofs about Model/ConfigFile.v, the sections with an object of their own (C97). *)
From Coq Require Import String.
From Verif Require Import Base.PyBase Model.Config Model.ConfigFile Spec.ConfigFileSpec Proofs.ConfigFileP Proofs.ConfigFileMainP.
Set Implicit Arguments.
Local Open Scope string_scope.
Local Open Scope list_scope.
Local Open Scope Z_scope.

Definition subdict (y : yaml) : option (dict yaml) := match y with YNull => Some [] | YDict e => Some e | _ => None end.
Lemma update_opt_eq o y : update_opt o y = match subdict y with Some e => Ok (update o e) | None => Raise TypeError end.
Proof. now destruct y. Qed.
Lemma sub_flat conf s e : subdict (sub conf s) = Some e -> flat conf s = e.
Proof. unfold subdict, sub, flat. destruct (get conf s) as [[]|]; congruence. Qed.

(** The value of [key] in section [e] with default dictionary [d]. *)
Definition val (d e : dict yaml) (key : string) : option yaml := orelse (get e key) (get d key).
Lemma get_val d e key : mapping e -> get (update d e) key = val d e key.
Proof. intros m. now rewrite get_update_map. Qed.
Lemma setting_val d e key y v : mapping e -> get d key = Some y -> (setting e key y v <-> val d e key = Some v).
Proof.
  intros m g. unfold setting, val, orelse. rewrite <- (mapping_get _ _ m), <- get_none, g.
  destruct (get e key) as [z|]; split.
  - intros [h|[h _]]; congruence.
  - intros h; left; exact h.
  - intros [h|[_ ->]]; [discriminate|reflexivity].
  - intros [= <-]; right; split; reflexivity.
Qed.

Section P.
Variable kgrid : yaml -> list string -> res Z.
Variable read_hr : string -> res unit.
Notation dga_config := (dga_config kgrid read_hr).
Notation lattice_config := (lattice_config kgrid read_hr).

Definition nq_step (e o : dict yaml) : dict yaml := if has e "nq" then o else put o "nq" (dget o "nk").
Definition sym_step (o : dict yaml) (syms : list string) : dict yaml :=
  match dget o "symmetries" with
  | YStr s => if String.eqb s "" then o else put o "symmetries" (YList (map YStr syms))
  | _ => o end.
Lemma lattice_inv l lat : lattice_config l = Ok lat -> exists e syms,
  l = YDict e /\
  (let o := nq_step e (update lattice_default e) in
   check_syms (dget o "symmetries") = Ok syms /\ fst lat = sym_step o syms /\
   iterable (dget o "nk") = true /\ iterable (dget o "nq") = true /\ kgrid (dget o "nk") syms = Ok (snd lat) /\
   (exists m, kgrid (dget o "nq") syms = Ok m) /\ set_hr read_hr (dget o "type") (dget o "hr_input") = Ok tt).
Proof.
  unfold ConfigFile.lattice_config, update_dict. destruct l as [| | | | | |e]; try discriminate. cbn [bind].
  fold (nq_step e (update lattice_default e)). set (o := nq_step e _).
  destruct (check_syms (dget o "symmetries")) as [syms|] eqn:CS; cbn [bind]; [|discriminate].
  fold (sym_step o syms).
  assert (g : forall k, k <> "symmetries" -> dget (sym_step o syms) k = dget o k).
  { intros k h. unfold sym_step. destruct (dget o "symmetries"); try reflexivity. destruct (String.eqb s ""); [reflexivity|].
    unfold dget. now rewrite get_put_other. }
  rewrite !g by discriminate.
  destruct (iterable (dget o "nk")) eqn:I1; cbn [negb]; [|discriminate]. destruct (iterable (dget o "nq")) eqn:I2; cbn [negb]; [|discriminate].
  destruct (kgrid (dget o "nk") syms) as [n|] eqn:K; cbn [bind]; [|discriminate].
  destruct (kgrid (dget o "nq") syms) as [m|] eqn:K'; cbn [bind]; [|discriminate].
  intros h. exists e, syms. split; [reflexivity|]. cbn zeta.
  assert (h' : set_hr read_hr (dget o "type") (dget o "hr_input") = Ok tt /\ lat = (sym_step o syms, n)).
  { destruct (dget o "type"); try discriminate; destruct (set_hr read_hr _ (dget o "hr_input")) as [[]|]; cbn [bind] in h; try discriminate;
    injection h as <-; split; reflexivity. }
  destruct h' as [S ->]. cbn [fst snd]. eauto 10.
Qed.

Lemma sub_get conf size o : config_file conf -> dga_config (YDict conf) size = Ok o ->
  exists box lat n eli opt dbg, 
    box_sizes (sub conf "box_sizes") = Ok box /\ (exists l, get conf "lattice" = Some l /\ lattice_config l = Ok (lat, n)) /\
    eliash_config (sub conf "pairing") = Ok eli /\ optics_config (sub conf "optics") = Ok opt /\ debug_config (sub conf "debug") = Ok dbg /\
    forall a, (forall t, In t shared_sections -> silent conf t a) -> 
      (a = "box" -> get o a = Some (ABox box)) /\ (a = "lattice" -> get o a = Some (ALattice lat n)) /\ (a = "eliash" -> get o a = Some (AEliash eli)) /\
      (a = "optics" -> get o a = Some (AOptics opt)) /\ (a = "debug" -> get o a = Some (ADebug dbg)) /\
      (a = "do_poly_fitting" -> get o a = Some (AY (YBool (has conf "poly_fitting")))).
Proof.
  intros c h. destruct (dga_inv _ _ _ _ h) as (box & l & [lat n] & eli & opt & dbg & hb & hl & hl' & he & ho & hd & _ & -> & _).
  exists box, lat, n, eli, opt, dbg. do 5 (split; [eauto|]). intros a si.
  assert (si' : forall t, In t shared_sections -> get (flat conf t) a = None) by (intros t ra; apply silent_get; auto).
  rewrite (final_get _ _ c), (si' "dga"), (si' "output"), (si' "dmft_input"), (si' "poly_fitting") by (cbn; tauto).
  unfold base. destruct (has conf "poly_fitting"); repeat split; intros ->; reflexivity.
Qed.

Lemma box_get y b : box_sizes y = Ok b -> exists e, subdict y = Some e /\
  (forall k, k <> "niv_asympt" -> get b k = get (update box_default e) k).
Proof.
  unfold box_sizes. rewrite update_opt_eq. destruct (subdict y) as [e|]; cbn [bind]; [|discriminate].
  intros h. exists e; split; [reflexivity|]. intros k nk. destruct (is_int _ _); [|now injection h as <-].
  destruct (as_int _) as [s|]; cbn [bind] in h; [|discriminate]. destruct (as_int (get _ "niv_core")) as [s'|]; cbn [bind] in h; [|discriminate].
  destruct (as_int (get _ "niw_core")) as [w|]; cbn [bind] in h; [|discriminate]. injection h as <-. now rewrite get_put_other.
Qed.
Lemma eliash_get y b : eliash_config y = Ok b -> exists e, subdict y = Some e /\
  (forall k, k <> "gap0_sing" -> k <> "gap0_trip" -> get b k = get (update eliash_default e) k) /\
  get b "gap0_sing" = Some (gap0 gap0_sing_v (dget b "k_sym")) /\ get b "gap0_trip" = Some (gap0 gap0_trip_v (dget b "k_sym")).
Proof.
  unfold eliash_config. rewrite update_opt_eq. destruct (subdict y) as [e|]; cbn [bind]; [|discriminate].
  intros [= <-]. exists e; split; [reflexivity|]. split; [|split].
  - intros k n1 n2. now rewrite !get_put_other.
  - rewrite get_put_other, get_put_same by discriminate. unfold dget at 2. now rewrite !get_put_other by discriminate.
  - rewrite get_put_same. unfold dget. now rewrite !get_put_other by discriminate.
Qed.
Lemma says_In conf s key v e : config_file conf -> flat conf s = e -> (says conf s key v <-> get e key = Some v).
Proof. intros c <-. now apply says_get. Qed.

Lemma sub_value conf size o s a key d :
  config_file conf -> dga_config (YDict conf) size = Ok o -> documented_sub s a key d -> (forall t, In t shared_sections -> silent conf t a) ->
  (forall v, says conf s key v -> sub_attribute o a key v) /\ (silent conf s key -> sub_attribute o a key d).
Proof.
  intros c h doc si. destruct (@sub_get conf size o c h) as (box & lat & n & eli & opt & dbg & hb & (l & hl & hl') & he & ho & hd & g).
  destruct (g a si) as (gb & gl & ge & go & gd & _). clear g h.
  assert (K : exists x e, (get o a = Some (ABox x) \/ get o a = Some (ALattice x n) \/ get o a = Some (AEliash x) \/ get o a = Some (AOptics x)
               \/ get o a = Some (ADebug x)) /\ flat conf s = e /\ get x key = orelse (get e key) (Some d)).
  { assert (W : forall df e x, get x key = get (update df e) key -> mapping e -> get df key = Some d -> get x key = orelse (get e key) (Some d)).
    { intros df e x q m gd'. now rewrite q, get_update_map, gd' by exact m. }
    assert (Kb : s = "box_sizes" -> a = "box" -> key <> "niv_asympt" -> get box_default key = Some d -> exists x e, (get o a = Some (ABox x) \/ get o a = Some (ALattice x n) \/ get o a = Some (AEliash x) \/ get o a = Some (AOptics x)
               \/ get o a = Some (ADebug x)) /\ flat conf s = e /\ get x key = orelse (get e key) (Some d)).
    { intros -> -> n1 gd0. destruct (@box_get _ _ hb) as (e & q1 & q2). exists box, e. split; [left; now apply gb|].
      pose proof (@sub_flat conf _ _ q1) as q3. split; [exact q3|]. eapply W; [apply q2; exact n1|rewrite <- q3; now apply flat_mapping|exact gd0]. }
    assert (Kl : s = "lattice" -> a = "lattice" -> key <> "nq" -> key <> "symmetries" -> get lattice_default key = Some d -> exists x e, (get o a = Some (ABox x) \/ get o a = Some (ALattice x n) \/ get o a = Some (AEliash x) \/ get o a = Some (AOptics x)
               \/ get o a = Some (ADebug x)) /\ flat conf s = e /\ get x key = orelse (get e key) (Some d)).
    { intros -> -> n1 n2 gd0. destruct (@lattice_inv _ _ hl') as (e & syms & -> & _ & q & _). exists lat, e. split; [right; left; now apply gl|].
      assert (q3 : flat conf "lattice" = e) by (unfold flat; now rewrite hl). split; [exact q3|].
      eapply W; [|rewrite <- q3; now apply flat_mapping|exact gd0]. cbn [fst] in q. rewrite q. unfold sym_step, nq_step.
      destruct (has e "nq"); destruct (dget _ "symmetries") as [| | | |z| |]; try (destruct (String.eqb z "")); rewrite ?get_put_other by assumption; reflexivity. }
    assert (Ke : s = "pairing" -> a = "eliash" -> key <> "gap0_sing" -> key <> "gap0_trip" -> get eliash_default key = Some d -> exists x e, (get o a = Some (ABox x) \/ get o a = Some (ALattice x n) \/ get o a = Some (AEliash x) \/ get o a = Some (AOptics x)
               \/ get o a = Some (ADebug x)) /\ flat conf s = e /\ get x key = orelse (get e key) (Some d)).
    { intros -> -> n1 n2 gd0. destruct (@eliash_get _ _ he) as (e & q1 & q2 & _). exists eli, e. split; [right; right; left; now apply ge|].
      pose proof (@sub_flat conf _ _ q1) as q3. split; [exact q3|]. eapply W; [apply q2; assumption|rewrite <- q3; now apply flat_mapping|exact gd0]. }
    assert (Ko : s = "optics" -> a = "optics" -> get optics_default key = Some d -> exists x e, (get o a = Some (ABox x) \/ get o a = Some (ALattice x n) \/ get o a = Some (AEliash x) \/ get o a = Some (AOptics x)
               \/ get o a = Some (ADebug x)) /\ flat conf s = e /\ get x key = orelse (get e key) (Some d)).
    { intros -> -> gd0. unfold optics_config in ho; rewrite update_opt_eq in ho; destruct (subdict (sub conf "optics")) as [e|] eqn:q1; [|discriminate].
      exists opt, e. split; [right; right; right; left; now apply go|]. injection ho as <-.
      pose proof (@sub_flat conf _ _ q1) as q3. split; [exact q3|]. eapply W; [reflexivity|rewrite <- q3; now apply flat_mapping|exact gd0]. }
    assert (Kd : s = "debug" -> a = "debug" -> get [("keep_rank_files", YBool false)] key = Some d -> exists x e, (get o a = Some (ABox x) \/ get o a = Some (ALattice x n) \/ get o a = Some (AEliash x) \/ get o a = Some (AOptics x)
               \/ get o a = Some (ADebug x)) /\ flat conf s = e /\ get x key = orelse (get e key) (Some d)).
    { intros -> -> gd0. unfold debug_config in hd; rewrite update_opt_eq in hd; destruct (subdict (sub conf "debug")) as [e|] eqn:q1; [|discriminate].
      exists dbg, e. split; [right; right; right; right; now apply gd|]. injection hd as <-.
      pose proof (@sub_flat conf _ _ q1) as q3. split; [exact q3|]. eapply W; [reflexivity|rewrite <- q3; now apply flat_mapping|exact gd0]. }
    destruct doc; first [apply Kb; (reflexivity || discriminate)|apply Kl; (reflexivity || discriminate)|apply Ke; (reflexivity || discriminate)
      |apply Ko; (reflexivity || discriminate)|apply Kd; (reflexivity || discriminate)]. }
  destruct K as (x & e & hx & he' & gx). split.
  - intros v sv. exists x, n. split; [exact hx|]. apply (@says_In conf s key v e c he') in sv. now rewrite gx, sv.
  - intros sv. exists x, n. split; [exact hx|]. apply (@silent_get conf s key c) in sv. rewrite he' in sv. now rewrite gx, sv.
Qed.
End P.
