(** Model of the data files of a run, /repo/src/dga/config.py lines 136-149 [OutputConfig.save_data, load_data, clean_data]. *)
From Coq Require Import List String Bool Arith.
From Verif Require Import Base.PyBase Model.RunSetup.
Import ListNotations.
Local Open Scope list_scope.
Local Open Scope nat_scope.

Section Store.
(** array entries and Python objects (numbers, dictionaries, None, ...) *)
Variable E : Type.
(** what is saved: an array (shape and entries in C order) or another Python object *)
Inductive value := VArr (shape : list nat) (elems : list E) | VObj (e : E).
Definition size (shape : list nat) : nat := fold_right Nat.mul 1 shape.
(** [numpy.asanyarray]: an object that is no array becomes an array without axes.  Simplification: lists and tuples, which become arrays with axes, are
    not saved in the code. *)
Definition asarray (v : value) : list nat * list E := match v with VArr sh el => (sh, el) | VObj e => ([], [e]) end.
(** A .npy file: complete, or cut off because the process was interrupted while it wrote the file. *)
Inductive npy := Full (shape : list nat) (elems : list E) | Torn.
(** The data files by place (Model/RunSetup.v).  [dirs]: the existing folders. *)
Definition store := place -> option npy.
Variable dirs : fsys.
Definition put (s : store) (k : place) (c : option npy) : store := fun q => if place_eqb k q then c else s q.

(** [self.output_path + '/' + name + '.npy']; [None + '/'] raises *)
Definition data_path (output_path : option string) (name : string) : res string :=
  match output_path with
  | Some out => Ok (out ++ "/" ++ name ++ ".npy")%string
  | None => Raise TypeError
  end.
(** opening a file for writing needs its folder.  Simplification: a folder of that name is not considered. *)
Definition writable (p : string) : res place := if dirs (parent (resolve p)) then Ok (resolve p) else Raise FileNotFoundError.
(** config.py:136-137; [np.save] opens the file with mode 'wb', which empties it, and then writes *)
Definition save_data (s : store) (output_path : option string) (name : string) (v : value) : res store :=
  let! p := data_path output_path name in
  let! k := writable p in
  Ok (put s k (Some (Full (fst (asarray v)) (snd (asarray v))))).
(** the same, interrupted before the file is complete *)
Definition save_interrupted (s : store) (output_path : option string) (name : string) : res store :=
  let! p := data_path output_path name in
  let! k := writable p in
  Ok (put s k (Some Torn)).
(** [np.load]; an incomplete file raises (ValueError or EOFError) *)
Definition np_load (s : store) (p : string) : res (list nat * list E) :=
  match s (resolve p) with
  | Some (Full sh el) => Ok (sh, el)
  | Some Torn => Raise ValueError
  | None => Raise FileNotFoundError
  end.
(** [ndarray.item()] *)
Definition item (a : list nat * list E) : res E :=
  match snd a with [e] => if Nat.eqb (size (fst a)) 1 then Ok e else Raise ValueError | _ => Raise ValueError end.
(** config.py:139-144; the bare except *)
Definition load_data (s : store) (output_path : option string) (name : string) : res value :=
  match (let! p := data_path output_path name in let! a := np_load s p in item a) with
  | Ok e => Ok (VObj e)
  | Raise _ => let! p := data_path output_path name in let! a := np_load s p in Ok (VArr (fst a) (snd a))
  end.
(** config.py:146-149 *)
Definition clean_data (s : store) (output_path : option string) (name : string) : res store :=
  let! p := data_path output_path name in
  match s (resolve p) with
  | Some _ => Ok (put s (resolve p) None)
  | None => Ok s
  end.

(** A history of calls on any number of configuration objects (each has its own output_path); a call that raises leaves the files as they are. *)
Inductive op :=
| OSave (output_path : option string) (name : string) (v : value)
| OInterrupted (output_path : option string) (name : string)
| OLoad (output_path : option string) (name : string)
| OClean (output_path : option string) (name : string).
Definition after (s : store) (r : res store) : store := match r with Ok s' => s' | Raise _ => s end.
Definition do_op (s : store) (o : op) : store :=
  match o with
  | OSave out name v => after s (save_data s out name v)
  | OInterrupted out name => after s (save_interrupted s out name)
  | OLoad _ _ => s
  | OClean out name => after s (clean_data s out name)
  end.
Definition do_ops (s : store) (h : list op) : store := fold_left do_op h s.
End Store.
Arguments VArr {E}. Arguments VObj {E}. Arguments Full {E}. Arguments Torn {E}.
Arguments OSave {E}. Arguments OInterrupted {E}. Arguments OLoad {E}. Arguments OClean {E}.
Arguments save_data {E}. Arguments load_data {E}. Arguments clean_data {E}. Arguments do_ops {E}. Arguments do_op {E}. Arguments save_interrupted {E}.
