(** Vocabulary for the set up of a run. *)
From Coq Require Import String Ascii.
From Verif Require Import Base.PyBase Model.Util Model.RunSetup.
Local Open Scope string_scope.
Local Open Scope list_scope.
Local Open Scope nat_scope.

(** The existing directories form a tree. *)
Definition tree (fs : fsys) : Prop := forall p, fs p = true -> fs (parent p) = true.
(** There are finitely many of them. *)
Definition finite_fs (fs : fsys) : Prop := exists l, forall p, fs p = true -> In p l.
(** A string without a slash. *)
Fixpoint no_slash (s : string) : bool :=
  match s with EmptyString => true | String c s' => negb (Ascii.eqb c "/") && no_slash s' end.
(** The rank has ended. *)
Definition finished {R} (p : prog R) : Prop := exists f, p = Done f.
(** [len] steps of the job, in any order of the ranks. *)
Inductive run_len {R} (n : nat) : nat -> job R -> job R -> Prop :=
| run_0 : forall j, run_len n 0 j j
| run_S : forall l j1 j2 j3, run_len n l j1 j2 -> step n j2 j3 -> run_len n (S l) j1 j3.
