(** Proofs about Model/ConfigFile.v, continued (C97). *)
From Coq Require Import String.
From Verif Require Import Base.PyBase Model.Config Model.ConfigFile Spec.ConfigFileSpec Proofs.ConfigFileP.
Set Implicit Arguments.
Local Open Scope string_scope.
Local Open Scope list_scope.
Local Open Scope Z_scope.

Lemma read_after_index t s : read_after t s <->
  (s = "poly_fitting" /\ (t = "dmft_input" \/ t = "output" \/ t = "dga")) \/
  (s = "dmft_input" /\ (t = "output" \/ t = "dga")) \/ (s = "output" /\ t = "dga").
Proof.
  split.
  - intros [l m r s' t' e]. unfold shared_sections in e.
    destruct l as [|a [|b [|c [|d [|? l]]]]]; cbn in e; injection e as; subst;
      destruct m as [|a' [|b' [|c' [|? m]]]]; cbn in *; try discriminate; repeat match goal with h : _ :: _ = _ :: _ |- _ => injection h as; subst end;
      try discriminate; tauto || (exfalso; match goal with h : _ ++ _ :: _ = [] |- _ => destruct l; discriminate | h : [] = ?x ++ _ :: _ |- _ => destruct x; discriminate | _ => idtac end).
  - intros [[-> [-> | [-> | ->]]] | [[-> [-> | ->]] | [-> ->]]].
    + now apply (@RA [] [] ["output"; "dga"]).
    + now apply (@RA [] ["dmft_input"] ["dga"]).
    + now apply (@RA [] ["dmft_input"; "output"] []).
    + now apply (@RA ["poly_fitting"] [] ["dga"]).
    + now apply (@RA ["poly_fitting"] ["output"] []).
    + now apply (@RA ["poly_fitting"; "dmft_input"] [] []).
Qed.

Section P.
Variable kgrid : yaml -> list string -> res Z.
Variable read_hr : string -> res unit.
Notation dga_config := (dga_config kgrid read_hr).
Notation lattice_config := (lattice_config kgrid read_hr).

Lemma attr_get conf size o k : config_file conf -> dga_config (YDict conf) size = Ok o ->
  exists b, get o k =
  orelse (option_map AY (get (flat conf "dga") k)) (orelse (if String.eqb k "lambda_corr" then Some (AY (YStr "spch")) else None)
  (orelse (option_map AY (get (flat conf "output") k)) (orelse (option_map AY (get output_default k))
  (orelse (option_map AY (get (flat conf "dmft_input") k)) (orelse (option_map AY (get input_default k))
  (orelse (option_map AY (get (flat conf "poly_fitting") k)) b)))))) /\
  (k = "n_fit" -> b = Some (AY (YInt 4))) /\ (k = "o_fit" -> b = Some (AY (YInt 3))).
Proof.
  intros c h. destruct (dga_inv _ _ _ _ h) as (box & l & lat & eli & opt & dbg & _ & _ & _ & _ & _ & _ & _ & -> & _).
  exists (get (base conf size box lat eli opt dbg) k). split; [exact (final_get _ _ c)|]. unfold base. destruct (has conf "poly_fitting"); split; intros ->; reflexivity.
Qed.

Lemma documented_value conf size o s key d :
  config_file conf -> dga_config (YDict conf) size = Ok o -> documented s key d ->
  (forall v, says conf s key v -> (forall t, read_after t s -> silent conf t key) -> attribute o key v) /\
  ((forall t, t = s \/ read_after t s -> silent conf t key) -> attribute o key d) /\
  (forall t v, read_after t s -> says conf t key v -> (forall u, read_after u t -> silent conf u key) -> attribute o key v).
Proof.
  intros c h doc. destruct (@attr_get conf size o key c h) as (b & E & e1 & e2). unfold attribute. rewrite E. clear E h.
  repeat split.
  - intros v sv si. apply (says_get _ _ _ c) in sv.
    assert (si' : forall t, read_after t s -> get (flat conf t) key = None) by (intros t ra; apply silent_get; auto). clear si.
    destruct doc; rewrite ?(si' "dga"), ?(si' "output"), ?(si' "dmft_input"), sv by (apply read_after_index; tauto); reflexivity.
  - intros si. assert (si' : forall t, t = s \/ read_after t s -> get (flat conf t) key = None) by (intros t ra; apply silent_get; auto). clear si.
    destruct doc; rewrite ?(si' "dga"), ?(si' "output"), ?(si' "dmft_input"), ?(si' "poly_fitting") by (rewrite read_after_index; tauto);
      cbn -[get flat]; try reflexivity; auto.
  - intros t v ra sv si. apply (says_get _ _ _ c) in sv.
    assert (si' : forall u, read_after u t -> get (flat conf u) key = None) by (intros u ru; apply silent_get; auto). clear si.
    apply read_after_index in ra.
    destruct doc; destruct ra as [[q ra]|[[q ra]|[q ra]]]; try discriminate q; clear q;
      (try destruct ra as [ra|ra]; try destruct ra as [ra|ra]; subst t);
      rewrite ?(si' "dga"), ?(si' "output"), ?sv by (apply read_after_index; tauto); reflexivity.
Qed.
End P.
