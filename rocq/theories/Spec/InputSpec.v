(** Vocabulary for C93: the layout of the two-particle input file. *)
From Coq Require Import String.
From Verif Require Import Base.PyBase Base.Arr Model.RankFiles Model.InputFiles.
Set Implicit Arguments.
Local Open Scope Z_scope.

(** the name of the dataset at bosonic position w: /ineq-001/dens/00007/00001/value *)
Definition dset (ineq : Z) (ch : string) (sb w : Z) : string :=
  ("/ineq-" ++ (fmt0 3 ineq ++ ("/" ++ (ch ++ ("/" ++ (fmt0 5 w ++ ("/" ++ (fmt0 5 sb ++ "/value"))))))))%string.
Definition stored {A} (f : h5 A) (p : string) : Prop := In p (map fst f).
(** the file holds, for one atom, channel and band group, square datasets [d w] of
    size m at the positions 0..n-1 and none at position n *)
Definition holds {A} (f : h5 A) (ineq : Z) (ch : string) (sb n m : Z) (d : Z -> list (list A)) : Prop :=
  (forall w, 0 <= w < n -> h5_get f (dset ineq ch sb w) = Ok (d w) /\ shape2 (d w) m m) /\ ~ stored f (dset ineq ch sb n).
