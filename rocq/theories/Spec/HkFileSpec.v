(** Vocabulary for the H(k) text file (C91). *)
From Coq Require Import String Ascii List ZArith.
Import ListNotations.
Set Implicit Arguments.
Local Open Scope string_scope.

(** a non-empty string without blanks and newlines *)
Definition plain (s : string) : Prop :=
  s <> "" /\ forall i c, String.get i s = Some c -> c <> " "%char /\ c <> ascii_of_nat 10.
(** What the two ways of writing a number have to do with reading it: the text of
    a number is one token, and reading the token gives the number as printed by
    [str] (rounded by [rk]; the identity for floats) resp. with twelve decimals
    (rounded by [rh]). *)
Definition number_format (V : Type) (str_f fmt_12f : V -> string) (num : string -> option V) (rk rh : V -> V) : Prop :=
  forall v, plain (str_f v) /\ plain (fmt_12f v) /\ num (str_f v) = Some (rk v) /\ num (fmt_12f v) = Some (rh v).

(** H(k) as an array [nk,n,n] *)
Definition is_hk (V : Type) (nk n : nat) (hk : list (list (list (V * V)))) : Prop :=
  length hk = nk /\ Forall (fun m => length m = n /\ Forall (fun row => length row = n) m) hk.
(** the momenta as an array [3,nk] *)
Definition is_kmesh (V : Type) (nk : nat) (kmesh : list (list V)) : Prop :=
  length kmesh = 3%nat /\ Forall (fun a => length a = nk) kmesh.
(** matrix element (i,j) of the k-th matrix, both parts rounded *)
Definition hk_entry (V : Type) (rh : V -> V) (hk : list (list (list (V * V)))) (k i j : nat) : option (V * V) :=
  match nth_error hk k with
  | Some m => match nth_error m i with
              | Some row => option_map (fun z => (rh (fst z), rh (snd z))) (nth_error row j)
              | None => None
              end
  | None => None
  end.
(** position of [k,b1,s1,b2,s2] in an array of shape [_,nb,ns,nb,ns] in C order *)
Definition pos (nb ns k b1 s1 b2 s2 : nat) : nat := (((k * nb + b1) * ns + s1) * nb + b2) * ns + s2.
