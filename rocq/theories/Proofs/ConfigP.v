From Coq Require Import String.
From Verif Require Import Base.PyBase Base.PyFacts Model.BrillouinZone Model.Config Proofs.BrillouinZoneP.
Set Implicit Arguments.
Open Scope Z_scope.

Ltac zb := repeat (match goal with
  | |- context [?a =? ?b] => destruct (Z.eqb_spec a b)
  | |- context [?a <? ?b] => destruct (Z.ltb_spec a b)
  | |- context [?a <=? ?b] => destruct (Z.leb_spec a b)
  | H : context [?a =? ?b] |- _ => destruct (Z.eqb_spec a b)
  | H : context [?a <? ?b] |- _ => destruct (Z.ltb_spec a b)
  | H : context [?a <=? ?b] |- _ => destruct (Z.leb_spec a b)
  end; cbn [bind niw_core niv_core niv_shell niv_asympt niv_full niw_cond niw_bubble niw_vert niv_bubble niv_vert] in *;
  try discriminate; try lia).

Lemma lfp_raises b nv nw :
  (niv_core b <> -1 /\ nv < niv_core b) \/ (niw_core b <> -1 /\ nw / 2 < niw_core b) <->
  set_from_lfp b nv nw = Raise ValueError.
Proof.
  unfold set_from_lfp; destruct b as [a c d e]; cbn [niw_core niv_core niv_shell niv_asympt].
  destruct (Z.eqb_spec c (-1)), (Z.ltb_spec nv c); cbn [bind niw_core niv_core niv_shell niv_asympt];
  destruct (Z.eqb_spec a (-1)), (Z.ltb_spec (nw / 2) a); cbn [bind niw_core niv_core niv_shell niv_asympt];
    split; intros hh; try discriminate; try lia; reflexivity.
Qed.

Lemma lfp_ok b nv nw b' : set_from_lfp b nv nw = Ok b' ->
  niv_core b' = (if niv_core b =? -1 then nv else niv_core b) /\
  niw_core b' = (if niw_core b =? -1 then nw / 2 else niw_core b) /\
  niv_shell b' = niv_shell b /\
  niv_asympt b' = (if niv_asympt b <=? 0 then niv_core b' + niv_shell b' + 2 * niw_core b' else niv_asympt b) /\
  niv_core b' <= nv /\ niw_core b' <= nw / 2.
Proof.
  unfold set_from_lfp; destruct b as [a c d e]; cbn [niw_core niv_core niv_shell niv_asympt].
  destruct (Z.eqb_spec c (-1)), (Z.ltb_spec nv c); cbn [bind niw_core niv_core niv_shell niv_asympt]; try discriminate;
  destruct (Z.eqb_spec a (-1)), (Z.ltb_spec (nw / 2) a); cbn [bind niw_core niv_core niv_shell niv_asympt]; try discriminate;
  destruct (Z.leb_spec e 0); intros [= <-]; unfold niv_full; cbn [niw_core niv_core niv_shell niv_asympt]; repeat split; lia.
Qed.

(** the default asymptotic window: exact condition under which it is niv_full + 2 niw_core *)
Lemma default_asympt c nv nw b' : c_niv_asympt c = None -> set_from_lfp (box_init c) nv nw = Ok b' ->
  let set := c_niw_core c <> None /\ c_niw_core c <> Some (-1) /\ c_niv_core c <> None /\ c_niv_core c <> Some (-1) in
  set \/ niv_asympt (box_init c) <= 0 ->
  niv_asympt b' = niv_full b' + 2 * niw_core b'.
Proof.
  intros hc h set hs. apply lfp_ok in h. destruct h as (h1 & h2 & h3 & h4 & _).
  rewrite h4. destruct (Z.leb_spec (niv_asympt (box_init c)) 0); [unfold niv_full; lia|].
  destruct hs as [hs|]; [|lia]. unfold set in hs.
  unfold box_init in *; rewrite hc in *; cbn [dflt niv_asympt niw_core niv_core niv_shell] in *.
  destruct (Z.eqb_spec (-1) (-1)); [|lia].
  cbn [dflt niv_asympt niw_core niv_core niv_shell] in *.
  destruct (c_niw_core c) as [x|]; [|tauto]. destruct (c_niv_core c) as [y|]; [|tauto]. cbn [dflt] in *.
  assert (x <> -1) by (intros ->; tauto). assert (y <> -1) by (intros ->; tauto).
  destruct (Z.eqb_spec x (-1)); [lia|]. destruct (Z.eqb_spec y (-1)); [lia|].
  unfold niv_full in *; cbn [niv_core niv_shell] in *; lia.
Qed.

Lemma pp_fits b v v' : - niv_pp b <= v < niv_pp b -> - niv_pp b <= v' < niv_pp b ->
  - niw_core b <= v - v' <= niw_core b /\ - niv_core b <= v < niv_core b /\ - niv_core b <= v' < niv_core b.
Proof.
  unfold niv_pp; intros h1 h2.
  pose proof (Z.mul_div_le (niw_core b) 2 ltac:(lia)); pose proof (Z.mul_div_le (niv_core b) 2 ltac:(lia)). lia.
Qed.

Lemma optics_ok o b o' b' : set_frequency_ranges o b = Ok (o', b') ->
  niw_vert o' = (if niw_vert o =? -1 then niw_core b else niw_vert o) /\ niw_vert o' <= niw_core b /\
  niw_cond o' = (if niw_cond o =? -1 then niw_core b / 2 else niw_cond o) /\
  niw_bubble o' = (if niw_bubble o =? -1 then niw_cond o' else niw_bubble o) /\
  niv_bubble o' = (if niv_bubble o =? -1 then niv_asympt b - 2 * niw_cond o' else niv_bubble o) /\
  niv_vert o' = niv_core b - niw_cond o' /\
  niw_core b' = niw_core b /\ niv_core b' = niv_core b /\ niv_shell b' = niv_shell b /\
  niv_asympt b' = Z.max (niv_asympt b) (niv_bubble o' + niw_bubble o').
Proof.
  unfold set_frequency_ranges.
  destruct (Z.eqb_spec (niw_vert o) (-1)); cbn [bind];
  [|destruct (Z.leb_spec (niw_vert o) (niw_core b)); cbn [bind]; [|discriminate]];
  (destruct (Z.eqb_spec (niw_cond o) (-1)); cbn [bind];
  [|destruct (Z.ltb_spec (niw_cond o) (niv_core b)); cbn [bind]; [|discriminate]]);
  match goal with |- context [niv_asympt b <=? ?x] => destruct (Z.leb_spec (niv_asympt b) x) end;
  intros [= <- <-]; cbn [niw_core niv_core niv_shell niv_asympt niw_cond niw_bubble niw_vert niv_bubble niv_vert];
  repeat split; destruct (Z.eqb_spec (niv_bubble o) (-1)); lia.
Qed.

Lemma optics_raises o b :
  (niw_vert o <> -1 /\ niw_core b < niw_vert o) \/ (niw_cond o <> -1 /\ niv_core b <= niw_cond o) <->
  set_frequency_ranges o b = Raise AssertionError.
Proof.
  unfold set_frequency_ranges.
  destruct (Z.eqb_spec (niw_vert o) (-1)), (Z.leb_spec (niw_vert o) (niw_core b)); cbn [bind];
  destruct (Z.eqb_spec (niw_cond o) (-1)), (Z.ltb_spec (niw_cond o) (niv_core b)); cbn [bind];
  split; intros hh; try discriminate; try lia; try reflexivity.
Qed.

(** every (v, v-w) pair of the conductivity vertex lies in the core box *)
Lemma optics_window o b o' b' v w : set_frequency_ranges o b = Ok (o', b') ->
  0 <= w <= niw_cond o' -> - niv_vert o' <= v < niv_vert o' ->
  - niv_core b <= v < niv_core b /\ - niv_core b <= v - w < niv_core b.
Proof. intros h hw hv; apply optics_ok in h; lia. Qed.
Lemma optics_vert_positive o b o' b' : set_frequency_ranges o b = Ok (o', b') ->
  niw_cond o <> -1 \/ niw_core b / 2 < niv_core b -> 0 < niv_vert o'.
Proof.
  intros h hc. pose proof (optics_ok _ _ h) as h'.
  destruct (Z.eqb_spec (niw_cond o) (-1)) as [e|e]; [lia|].
  assert (~ (niv_core b <= niw_cond o)); [|lia].
  intros hh. assert (hr : set_frequency_ranges o b = Raise AssertionError) by (apply optics_raises; auto). congruence.
Qed.
Lemma optics_bubble_fits o b o' b' v w : set_frequency_ranges o b = Ok (o', b') ->
  - niv_bubble o' <= v < niv_bubble o' -> - niw_bubble o' <= w <= niw_bubble o' ->
  - niv_asympt b' <= v + w < niv_asympt b'.
Proof. intros h hv hw; apply optics_ok in h; lia. Qed.

Lemma check_str_known s l : check_symmetries (SymStr s) = Ok l -> forall x, In x l -> In x KNOWN_SYMMETRIES.
Proof.
  unfold check_symmetries; repeat destruct string_dec; intros [= <-]; cbn; intuition.
Qed.
