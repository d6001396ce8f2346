(** Proofs about Model/ConfigFile.v: round trip through as_dict, dependent settings (C97). *)
From Coq Require Import String Ascii.
From Verif Require Import Base.PyBase Model.Config Model.ConfigFile Spec.ConfigFileSpec
  Proofs.ConfigFileP Proofs.ConfigFileMainP Proofs.ConfigFileSubP Proofs.ConfigFileAccP Proofs.ConfigFileMoreP.
Set Implicit Arguments.
Local Open Scope string_scope.
Local Open Scope list_scope.
Local Open Scope Z_scope.

Lemma put_keys {V} (d : dict V) k v x : In x (map fst (put d k v)) -> x = k \/ In x (map fst d).
Proof.
  induction d as [|[a b] d IH]; cbn [put map fst In]; [intuition|]. destruct (String.eqb_spec k a) as [->|]; cbn [map fst In]; intuition.
Qed.
Lemma put_mapping {V} (d : dict V) k v : mapping d -> mapping (put d k v).
Proof.
  unfold mapping. induction d as [|[a b] d IH]; cbn [put map fst]; intros m; [repeat constructor; auto|].
  inversion m as [|? ? n1 n2]; subst. destruct (String.eqb_spec k a) as [->|ne]; cbn [map fst]; constructor; auto.
  intros i. apply put_keys in i. destruct i; [congruence|contradiction].
Qed.
Lemma update_mapping {V} (e d : dict V) : mapping d -> mapping (update d e).
Proof. unfold update. revert d; induction e as [|[a b] e IH]; intros d m; cbn; [exact m|]. apply IH. now apply put_mapping. Qed.
Lemma as_dict_mapping o : mapping o -> mapping (as_dict o).
Proof.
  unfold mapping, as_dict. induction o as [|[a b] o IH]; cbn; intros m; [constructor|]. inversion m as [|? ? n1 n2]; subst.
  destruct (underscored a); cbn; [auto|]. constructor; [|auto]. intros i. apply n1. apply in_map_iff in i. destruct i as (x & <- & i).
  apply filter_In in i. now apply in_map.
Qed.
Lemma as_dict_get o key : underscored key = false -> get (as_dict o) key = get o key.
Proof.
  intros u. unfold as_dict. induction o as [|[a b] o IH]; cbn; [reflexivity|].
  destruct (String.eqb_spec key a) as [->|ne].
  - rewrite u. cbn. now rewrite String.eqb_refl.
  - destruct (underscored a); cbn; [exact IH|]. destruct (String.eqb_spec key a); [contradiction|exact IH].
Qed.
(** [o] has all the attributes of [d]. *)
Definition covers (d o : dict yaml) : Prop := forall k, get d k <> None -> get o k <> None.
Lemma round_get d o key : mapping o -> covers d o -> underscored key = false -> get (update d (as_dict o)) key = get o key.
Proof.
  intros m cv u. rewrite get_update_map by now apply as_dict_mapping. rewrite as_dict_get by exact u.
  destruct (get o key) as [v|] eqn:E; [reflexivity|]. destruct (get d key) as [w|] eqn:E'; [|reflexivity].
  exfalso. apply (cv key); congruence.
Qed.
Lemma covers_update d e : covers d (update d e).
Proof. intros k h. rewrite get_update. now destruct (get (rev e) k). Qed.
Lemma covers_put d o k v : covers d o -> covers d (put o k v).
Proof. intros c x h. rewrite get_put. destruct (String.eqb x k); [discriminate|now apply c]. Qed.
Lemma not_under key : (forall r, key <> String "_" r) -> underscored key = false.
Proof. destruct key as [|a r]; [reflexivity|]. cbn. intros h. destruct (Ascii.eqb_spec a "_") as [->|]; [|reflexivity]. exfalso; exact (h r eq_refl). Qed.

Lemma opt_round d y o : mapping d -> update_opt d y = Ok o -> exists o', update_opt d (YDict (as_dict o)) = Ok o' /\
  forall key, underscored key = false -> get o' key = get o key.
Proof.
  intros m. rewrite update_opt_eq. destruct (subdict y) as [e|]; [|discriminate]. intros [= <-]. eexists; split; [reflexivity|].
  intros key u. apply round_get; [now apply update_mapping|apply covers_update|exact u].
Qed.
Lemma eliash_round y o : eliash_config y = Ok o -> exists o', eliash_config (YDict (as_dict o)) = Ok o' /\
  forall key, underscored key = false -> get o' key = get o key.
Proof.
  unfold eliash_config at 1. rewrite update_opt_eq. destruct (subdict y) as [e|]; cbn [bind]; [|discriminate]. intros [= <-].
  set (b := update eliash_default e). set (o := put (put b _ _) _ _).
  assert (mo : mapping o). { apply put_mapping, put_mapping, update_mapping. unfold mapping; cbn; repeat constructor; cbn; intuition discriminate. }
  assert (co : covers eliash_default o) by (apply covers_put, covers_put, covers_update).
  unfold eliash_config. cbn [update_opt update_dict bind]. eexists; split; [reflexivity|]. intros key u.
  assert (q : dget (update eliash_default (as_dict o)) "k_sym" = dget b "k_sym").
  { unfold dget. rewrite (@round_get _ _ _ mo co) by reflexivity. unfold o. now rewrite !get_put_other by discriminate. }
  rewrite !get_put, dget_put_other, q by discriminate.
  destruct (String.eqb_spec key "gap0_trip") as [->|n1].
  - unfold o. now rewrite get_put_same, dget_put_other by discriminate.
  - destruct (String.eqb_spec key "gap0_sing") as [->|n2].
    + unfold o. now rewrite get_put_other, get_put_same by discriminate.
    + apply round_get; assumption.
Qed.
Lemma box_round y o : box_sizes y = Ok o -> exists o', box_sizes (YDict (as_dict o)) = Ok o' /\
  forall key, underscored key = false -> get o' key = get o key.
Proof.
  unfold box_sizes at 1. rewrite update_opt_eq. destruct (subdict y) as [e|]; cbn [bind]; [|discriminate].
  set (b := update box_default e). intros h.
  assert (mb : mapping b). { apply update_mapping. unfold mapping; cbn; repeat constructor; cbn; intuition discriminate. }
  assert (cb : covers box_default b) by apply covers_update.
  unfold box_sizes. cbn [update_opt update_dict bind].
  destruct (is_int (get b "niv_asympt") (-1)) eqn:I.
  - destruct (as_int (get b "niv_shell")) as [s|] eqn:As; cbn [bind] in h; [|discriminate].
    destruct (as_int (get b "niv_core")) as [c|] eqn:Ac; cbn [bind] in h; [|discriminate].
    destruct (as_int (get b "niw_core")) as [w|] eqn:Aw; cbn [bind] in h; [|discriminate]. injection h as <-. set (o := put b _ _).
    assert (mo : mapping o) by now apply put_mapping. assert (co : covers box_default o) by now apply covers_put.
    rewrite !(@round_get _ _ _ mo co) by reflexivity.
    assert (go : forall k, k <> "niv_asympt" -> get o k = get b k) by (intros; unfold o; now rewrite get_put_other).
    rewrite (go "niv_shell"), (go "niv_core"), (go "niw_core") by discriminate.
    assert (ga : get o "niv_asympt" = Some (YInt (s + c + w * 2))) by apply get_put_same. rewrite ga. cbn [is_int].
    destruct (Z.eqb_spec (s + c + w * 2) (-1)) as [q|q].
    + rewrite As, Ac, Aw. cbn [bind]. eexists; split; [reflexivity|]. intros key u. rewrite get_put.
      destruct (String.eqb_spec key "niv_asympt") as [->|n1]; [unfold o; now rewrite get_put_same|now apply round_get].
    + eexists; split; [reflexivity|]. intros key u. now apply round_get.
  - injection h as <-. rewrite !(@round_get _ _ _ mb cb) by reflexivity. rewrite I.
    eexists; split; [reflexivity|]. intros key u. now apply round_get.
Qed.

Section P.
Variable kgrid : yaml -> list string -> res Z.
Variable read_hr : string -> res unit.
Notation dga_config := (dga_config kgrid read_hr).
Notation lattice_config := (lattice_config kgrid read_hr).

Lemma box_value conf size o : config_file conf -> dga_config (YDict conf) size = Ok o -> (forall t, In t shared_sections -> silent conf t "box") ->
  exists box, get o "box" = Some (ABox box) /\ box_sizes (sub conf "box_sizes") = Ok box.
Proof.
  intros c h si. destruct (@sub_get kgrid read_hr conf size o c h) as (box & lat & n & eli & opt & dbg & hb & _ & _ & _ & _ & g).
  destruct (g "box" si) as (gb & _). exists box. split; [now apply gb|exact hb].
Qed.
Lemma asympt_value conf size o : config_file conf -> dga_config (YDict conf) size = Ok o -> (forall t, In t shared_sections -> silent conf t "box") ->
  (forall v, says conf "box_sizes" "niv_asympt" v -> v <> YInt (-1) -> sub_attribute o "box" "niv_asympt" v) /\
  (silent conf "box_sizes" "niv_asympt" \/ says conf "box_sizes" "niv_asympt" (YInt (-1)) ->
   forall c w s c' w' s', sub_attribute o "box" "niv_core" c -> sub_attribute o "box" "niw_core" w -> sub_attribute o "box" "niv_shell" s ->
     integer c c' -> integer w w' -> integer s s' -> sub_attribute o "box" "niv_asympt" (YInt (c' + s' + 2 * w'))).
Proof.
  intros c h si. destruct (@box_value conf size o c h si) as (box & gb & hb).
  destruct (@box_get _ _ hb) as (e & q1 & q2). pose proof (@sub_flat conf _ _ q1) as q3.
  assert (me : mapping e) by (rewrite <- q3; now apply flat_mapping).
  unfold box_sizes in hb. rewrite update_opt_eq, q1 in hb. cbn [bind] in hb. rewrite (get_update_map _ "niv_asympt" me) in hb.
  split.
  - intros v sv nv. apply (@says_In conf "box_sizes" "niv_asympt" v e c q3) in sv. rewrite sv in hb.
    assert (i : is_int (Some v) (-1) = false). { destruct v; try reflexivity. cbn. destruct (Z.eqb_spec z (-1)); congruence. }
    rewrite i in hb. injection hb as <-. eexists; exists 0; split; [left; exact gb|]. now rewrite (get_update_map _ _ me), sv.
  - intros sv cc w s c' w' s' hc hw hs ic iw is'.
    assert (i : is_int (match get e "niv_asympt" with Some v => Some v | None => get box_default "niv_asympt" end) (-1) = true).
    { destruct sv as [sv|sv]; [apply (silent_get _ _ c) in sv; rewrite q3 in sv|apply (@says_In conf "box_sizes" "niv_asympt" _ e c q3) in sv]; rewrite sv; reflexivity. }
    rewrite i in hb.
    assert (v : forall k y, k <> "niv_asympt" -> sub_attribute o "box" k y -> get (update box_default e) k = Some y).
    { intros k y nk (d & n & hd & gd). rewrite gb in hd. repeat (destruct hd as [hd|hd]; try discriminate hd); try discriminate hd.
      injection hd as <-. rewrite <- (q2 k nk). exact gd. }
    rewrite (v "niv_core" cc ltac:(discriminate) hc), (v "niw_core" w ltac:(discriminate) hw), (v "niv_shell" s ltac:(discriminate) hs) in hb.
    apply integer_as in ic. apply integer_as in iw. apply integer_as in is'. rewrite ic, iw, is' in hb. cbn [bind] in hb. injection hb as <-.
    eexists; exists 0; split; [left; exact gb|]. rewrite get_put_same. do 2 f_equal. lia.
Qed.
Lemma gap0_value conf size o : config_file conf -> dga_config (YDict conf) size = Ok o -> (forall t, In t shared_sections -> silent conf t "eliash") ->
  forall ks, sub_attribute o "eliash" "k_sym" ks ->
  sub_attribute o "eliash" "gap0_sing" (gap0 gap0_sing_v ks) /\ sub_attribute o "eliash" "gap0_trip" (gap0 gap0_trip_v ks).
Proof.
  intros c h si. destruct (@sub_get kgrid read_hr conf size o c h) as (box & lat & n & eli & opt & dbg & _ & _ & he & _ & _ & g).
  destruct (g "eliash" si) as (_ & _ & ge & _). specialize (ge eq_refl). destruct (@eliash_get _ _ he) as (e & _ & _ & g1 & g2).
  intros ks (d & m & hd & gd). rewrite ge in hd. repeat (destruct hd as [hd|hd]; try discriminate hd); try discriminate hd. injection hd as <-.
  unfold dget in g1, g2. rewrite gd in g1, g2. split; exists eli, 0; (split; [tauto|assumption]).
Qed.
Lemma lattice_value conf size o : config_file conf -> dga_config (YDict conf) size = Ok o -> (forall t, In t shared_sections -> silent conf t "lattice") ->
  (forall v, says conf "lattice" "nq" v -> sub_attribute o "lattice" "nq" v) /\
  (silent conf "lattice" "nq" -> forall v, sub_attribute o "lattice" "nk" v -> sub_attribute o "lattice" "nq" v) /\
  (forall s, says conf "lattice" "symmetries" (YStr s) -> s <> "" ->
     exists l, In (s, l) symmetry_names /\ sub_attribute o "lattice" "symmetries" (YList (map YStr l))) /\
  (silent conf "lattice" "symmetries" -> sub_attribute o "lattice" "symmetries" (YList [])).
Proof.
  intros c h si. destruct (@sub_get kgrid read_hr conf size o c h) as (box & lat & n & eli & opt & dbg & _ & (l & hl & hl') & _ & _ & _ & g).
  destruct (g "lattice" si) as (_ & gl & _). specialize (gl eq_refl).
  destruct (lattice_inv _ _ _ hl') as (e & syms & -> & h1 & h2 & _). cbn [fst] in h2.
  assert (q3 : flat conf "lattice" = e) by (unfold flat; now rewrite hl).
  assert (me : mapping e) by (rewrite <- q3; now apply flat_mapping).
  set (o1 := nq_step e (update lattice_default e)) in *.
  assert (W : forall k v, get lat k = Some v -> sub_attribute o "lattice" k v) by (intros k v q; exists lat, n; tauto).
  assert (W' : forall k v, sub_attribute o "lattice" k v -> get lat k = Some v).
  { intros k v (d & m & hd & gd). rewrite gl in hd. repeat (destruct hd as [hd|hd]; try discriminate hd); try discriminate hd. injection hd as <- <-. exact gd. }
  assert (S : forall k, k <> "symmetries" -> get lat k = get o1 k).
  { intros k nk. rewrite h2. unfold sym_step. destruct (dget o1 "symmetries"); try reflexivity. destruct (String.eqb s ""); [reflexivity|now rewrite get_put_other]. }
  assert (G : forall k, k <> "nq" -> get o1 k = val lattice_default e k).
  { intros k nk. unfold o1, nq_step. destruct (has e "nq"); rewrite ?get_put_other by exact nk; now apply get_val. }
  split; [|split; [|split]].
  - intros v sv. apply (@says_In conf _ _ v e c q3) in sv. apply W. rewrite S by discriminate. unfold o1, nq_step, has. rewrite sv.
    rewrite (get_val _ _ me). unfold val. now rewrite sv.
  - intros sv v hv. apply W' in hv. apply (silent_get _ _ c) in sv. rewrite q3 in sv. apply W. rewrite S in hv |- * by discriminate.
    rewrite G in hv by discriminate. unfold o1, nq_step, has. rewrite sv, get_put_same. unfold dget. now rewrite (get_val _ _ me), hv.
  - intros s sv ns. apply (@says_In conf _ _ _ e c q3) in sv.
    assert (q : dget o1 "symmetries" = YStr s) by (unfold dget; rewrite G by discriminate; unfold val; now rewrite sv).
    rewrite q in h1. apply check_syms_iff in h1. destruct h1 as [(s' & [= <-] & i)|[ns' _]].
    + exists syms. split; [exact i|]. apply W. rewrite h2. unfold sym_step. rewrite q. destruct (String.eqb_spec s ""); [contradiction|]. apply get_put_same.
    + unfold no_symmetry in ns'. intuition discriminate.
  - intros sv. apply (silent_get _ _ c) in sv. rewrite q3 in sv. apply W. rewrite h2. unfold sym_step.
    assert (q : get o1 "symmetries" = Some (YList [])) by (rewrite G by discriminate; unfold val; now rewrite sv).
    unfold dget. now rewrite q, q.
Qed.
Lemma poly_value conf size o : config_file conf -> dga_config (YDict conf) size = Ok o -> (forall t, In t shared_sections -> silent conf t "do_poly_fitting") ->
  (attribute o "do_poly_fitting" (YBool true) <-> exists y, In ("poly_fitting", y) conf) /\
  (attribute o "do_poly_fitting" (YBool false) <-> absent conf "poly_fitting").
Proof.
  intros c h si. destruct (@sub_get kgrid read_hr conf size o c h) as (box & lat & n & eli & opt & dbg & _ & _ & _ & _ & _ & g).
  destruct (g "do_poly_fitting" si) as (_ & _ & _ & _ & _ & gp). specialize (gp eq_refl). unfold attribute. rewrite gp. unfold has.
  rewrite <- get_none. destruct (get conf "poly_fitting") as [y|] eqn:E.
  - split; split; intros q.
    + exists y. now apply get_In.
    + reflexivity.
    + discriminate.
    + discriminate.
  - apply get_none in E. split; split; intros q.
    + discriminate.
    + destruct q as [y i]. exfalso; exact (E y i).
    + reflexivity.
    + reflexivity.
Qed.
End P.
