(** Vocabulary for the data files of a run. *)
From Coq Require Import List String Bool Arith.
From Verif Require Import Base.PyBase Model.RunSetup Model.DataStore Spec.RunSetupSpec.
Import ListNotations.
Local Open Scope nat_scope.

(** An array has as many entries as its shape says. *)
Definition wf_value {E} (v : value E) : Prop := match v with VArr sh el => List.length el = size sh | VObj _ => True end.
(** The configuration object with this output path uses an existing folder. *)
Definition in_folder (dirs : fsys) (out : string) : Prop := out <> ""%string /\ dirs (resolve out) = true.
(** Data file names of the code: without slash. *)
Definition plain_name (name : string) : Prop := no_slash name = true.
(** Two calls are about the same file: same folder (however it is written) and same name. *)
Definition same_file (o1 n1 o2 n2 : string) : Prop := resolve o1 = resolve o2 /\ n1 = n2.
(** The call is about the file [name] in the folder [out] and may change it. *)
Definition about {E} (out name : string) (o : op E) : Prop :=
  match o with
  | OSave (Some out') name' _ | OInterrupted (Some out') name' | OClean (Some out') name' => same_file out' name' out name
  | _ => False
  end.
(** Calls that a user makes: plain names, existing folders. *)
Definition proper_op {E} (dirs : fsys) (o : op E) : Prop :=
  match o with
  | OSave (Some out) name _ | OInterrupted (Some out) name | OClean (Some out) name | OLoad (Some out) name => in_folder dirs out /\ plain_name name
  | _ => False
  end.
