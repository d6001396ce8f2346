(** Model of /repo/src/dga/util.py (uniquify) and of the Python functions it uses. *)
From Coq Require Import String Ascii DecimalString.
From Verif Require Import Base.PyBase.
Set Implicit Arguments.
Local Open Scope string_scope.

(** [str(n)] for a non-negative integer (CPython). *)
Definition str_of_nat (n : nat) : string := NilZero.string_of_uint (Nat.to_uint n).

(** [os.path.splitext] (CPython genericpath._splitext): the extension starts at the last dot that follows the
    last slash, unless only dots precede it in the file name.
    [only_dots s] : all characters of [s] are dots.
    [split_last p s] : the pair (before, from) around the last character of [s] satisfying [p]. *)
Fixpoint only_dots (s : string) : bool :=
  match s with EmptyString => true | String c s' => Ascii.eqb c "." && only_dots s' end.
Fixpoint split_last (p : ascii -> bool) (s : string) : option (string * string) :=
  match s with
  | EmptyString => None
  | String c s' =>
      match split_last p s' with
      | Some (a, b) => Some (String c a, b)
      | None => if p c then Some (EmptyString, s) else None
      end
  end.
Definition splitext_name (s : string) : string * string :=
  match split_last (fun c => Ascii.eqb c ".") s with
  | None => (s, "")
  | Some (a, b) => if only_dots a then (s, "") else (a, b)
  end.
Definition splitext (s : string) : string * string :=
  match split_last (fun c => Ascii.eqb c "/") s with
  | None => splitext_name s
  | Some (d, f) =>
      match f with
      | EmptyString => (s, "")
      | String c f' => let '(a, b) := splitext_name f' in (d ++ String c a, b)
      end
  end.

(** util.py:12-25 [uniquify].  [exists_] stands for [os.path.exists] in a fixed file system; the while loop
    runs on fuel, [None] meaning that the fuel is used up. *)
Definition candidate (filename extension : string) (counter : nat) : string :=
  filename ++ "_" ++ str_of_nat counter ++ extension.
Fixpoint uniquify_loop (exists_ : string -> bool) (filename extension path : string) (counter fuel : nat) : option string :=
  match fuel with
  | O => None
  | S fuel' => if exists_ path then uniquify_loop exists_ filename extension (candidate filename extension counter) (S counter) fuel'
               else Some (path ++ "/")
  end.
Definition uniquify (exists_ : string -> bool) (path : string) (fuel : nat) : option string :=
  let '(filename, extension) := splitext path in
  uniquify_loop exists_ filename extension path 1 fuel.
