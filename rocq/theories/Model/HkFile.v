(** Model of wannier.py:44-49, 369-450 and 503-520: writing and reading Bloch
    Hamiltonians H(k) as text.

    A file is the list of its lines, each with its own newline character, so that
    concatenating the lines gives the file.  Numbers are elements of an arbitrary
    type [V]; how Python turns them into text ([str] for the momenta, ['%.12f'] for
    the matrix elements) and back ([np.fromfile]) is given by functions on strings
    that the theorems constrain.  Warnings are not modelled. *)
From Coq Require Import String Ascii.
From Verif Require Import Base.PyBase Model.Util Model.RankFiles Model.HrFile.
Set Implicit Arguments.
Local Open Scope string_scope.
Local Open Scope list_scope.
Local Open Scope Z_scope.

Definition nl : string := String (ascii_of_nat 10) EmptyString.
Definition prodZ (l : list Z) : Z := fold_right Z.mul 1 l.

(** * Writing *)
Section Write.
Variable V : Type.
Variable str_f : V -> string.   (* str(x), used by print *)
Variable fmt_12f : V -> string. (* '%.12f' % x *)

(** [hk_slice.view(float)] of one row of complex numbers *)
Definition view_float (row : list (V * V)) : list V := flat_map (fun z => [fst z; snd z]) row.
(** wannier.py:513-517, one momentum: the line of its coordinates and, by
    [np.savetxt], one line per row of the matrix.  An index outside [kmesh]
    ([3,nk]) or [hk] ([nk,n,n]) raises IndexError. *)
Definition hk_record (kmesh : list (list V)) (hk : list (list (list (V * V)))) (ik : Z) : res (list string) :=
  let! kx := py_get kmesh 0 in let! x := py_get kx ik in
  let! ky := py_get kmesh 1 in let! y := py_get ky ik in
  let! kz := py_get kmesh 2 in let! z := py_get kz ik in
  let! hk_slice := py_get hk ik in
  Ok ((join " " (map str_f [x; y; z]) ++ nl)%string
      :: map (fun row => (join " " (map fmt_12f (view_float row)) ++ nl)%string) hk_slice).
(** wannier.py:503-519 [write_hk_wannier90]; [n_orb] is the last axis of [hk].
    (When an index error stops the loop the file on disk is incomplete; the model
    returns the exception.) *)
Definition write_hk_wannier90 (n_orb : Z) (hk : list (list (list (V * V)))) (kmesh : list (list V)) (nk : list Z) : res (list string) :=
  let! recs := mapM (hk_record kmesh hk) (range (prodZ nk)) in
  Ok ((join " " (map str_Z [prodZ nk; n_orb; n_orb]) ++ nl)%string :: concat recs).
End Write.

(** * Reading *)
(** str.split(): white space is the blank and the newline *)
Definition is_ws (c : ascii) : bool := Ascii.eqb c " " || Ascii.eqb c (ascii_of_nat 10).
Fixpoint words_ws (s : string) : string * list string :=
  match s with
  | EmptyString => (EmptyString, [])
  | String c s' =>
      let '(w, ws) := words_ws s' in
      if is_ws c then (EmptyString, match w with EmptyString => ws | _ => w :: ws end) else (String c w, ws)
  end.
Definition split_py (s : string) : list string :=
  let '(w, ws) := words_ws s in match w with EmptyString => ws | _ => w :: ws end.

(** wannier.py:395 [line[:line.find('#')]]: up to the first '#'; without one,
    [find] is -1 and the last character (the newline) is dropped. *)
Fixpoint upto_hash (s : string) : option string :=
  match s with
  | EmptyString => None
  | String c s' => if Ascii.eqb c "#" then Some EmptyString else option_map (String c) (upto_hash s')
  end.
Fixpoint drop_last (s : string) : string :=
  match s with EmptyString => EmptyString | String _ EmptyString => EmptyString | String c s' => String c (drop_last s') end.
Definition cut_comment (line : string) : string := match upto_hash line with Some s => s | None => drop_last line end.
(** wannier.py:393-395 [nextline]: the tokens of the next line and the rest of
    the file; at the end of the file readline returns the empty string. *)
Definition nextline (file : list string) : list string * list string :=
  match file with [] => ([], []) | l :: t => (split_py (cut_comment l), t) end.

(** [int(token)]: optional minus sign and digits (other spellings are not modelled). *)
Definition parse_int (s : string) : res Z :=
  let digits (t : string) := match t with EmptyString => None | _ => if all_digit t then Some (fst (read_digits 0 t)) else None end in
  let r := match s with
           | String c s' => if Ascii.eqb c "-" then option_map Z.opp (digits s') else digits s
           | EmptyString => None
           end in
  match r with Some z => Ok z | None => Raise ValueError end.

(** wannier.py:398-412: number of k-points and bands from the header.  [np_int]
    tells whether numpy still has the alias [np.int] (removed in 1.24).  A list of
    the wrong length to unpack raises ValueError.  Lines of a version-2 header with
    fewer than two numbers, which numpy would sum up to what is there, are reported
    as IndexError. *)
Definition read_header (np_int : bool) (file : list string) : res (Z * Z * list string) :=
  let '(header, file) := nextline file in
  let! h0 := py_get header 0 in
  if String.eqb h0 "VERSION" then
    let '(h, file) := nextline file in
    let! v := mapM parse_int h in
    match v with
    | [nkpoints; natoms] =>
        if negb np_int then Raise AttributeError else
        if natoms <=? 0 then Raise IndexError else
        let! r := foldM (fun (s : Z * list string) (_ : Z) =>
                    let '(l, file) := nextline (snd s) in
                    let! v := mapM parse_int l in
                    match v with a :: b :: _ => Ok (fst s + (a + b), file) | _ => Raise IndexError end)
                  (range natoms) (0, file) in
        Ok (nkpoints, fst r, snd r)
    | _ => Raise ValueError
    end
  else
    let! v := mapM parse_int header in
    if negb (zlen header =? 3) then
      let! nkpoints := py_get v 0 in let! a := py_get v 1 in let! b := py_get v 2 in let! c := py_get v 3 in
      Ok (nkpoints, a * (b + c), file)
    else let! nkpoints := py_get v 0 in let! nbands := py_get v 1 in Ok (nkpoints, nbands, file).

(** rows of [m] numbers: [reshape(-1, m)], [m > 0]; ValueError if the size does not fit *)
Definition reshape_rows {A} (m : nat) (l : list A) : res (list (list A)) :=
  if Nat.eqb (length l mod m) 0 then Ok (chunks (length l) m l) else Raise ValueError.
(** [np.squeeze] on the shape *)
Definition squeeze (shape : list Z) : list Z := filter (fun n => negb (n =? 1)) shape.
(** a complex number from its two parts *)
Fixpoint pairs {A} (l : list A) : list (A * A) := match l with a :: b :: t => (a, b) :: pairs t | _ => [] end.

Section Read.
Variable V : Type.
Variable d : V.                           (* only returned outside the array *)
Variable num : string -> option V.        (* the number spelled by a token *)

(** [np.fromfile(f, sep=' ')]: the numbers up to the first token that is none
    (a token that begins with a number is not split as numpy would). *)
Fixpoint scan (l : list string) : list V :=
  match l with [] => [] | t :: ts => match num t with Some v => v :: scan ts | None => [] end end.

Record hk_array := { hk_shape : list Z; hk_data : list (V * V); hk_kpoints : list (list V) }.

(** wannier.py:369-450 [read_hk_w2k].  [hk_data] lists the returned array in C
    order and [hk_shape] is its shape, [hk_kpoints] is kpoints.T.  A negative number
    of k-points is not modelled further (reported as ValueError). *)
Definition read_hk_w2k (np_int spin_sym : bool) (file : list string) : res hk_array :=
  let! hd := read_header np_int file in
  let '(nkpoints, nbands, rest) := hd in
  if negb spin_sym && negb (nbands mod 2 =? 0) then Raise RuntimeError else
  let nbands := if spin_sym then nbands else nbands / 2 in
  let nspins := if spin_sym then 1 else 2 in
  let hk := scan (split_py (String.concat "" rest)) in
  let! hk := reshape_rows (Z.to_nat (3 + 2 * nbands ^ 2 * nspins ^ 2)) hk in
  if zlen hk <? nkpoints then Raise ValueError else
  if nkpoints <? 0 then Raise ValueError else
  let kpoints := map (fun row => slice_to row 3) (slice_to hk nkpoints) in
  let entry (ik s1 b1 s2 b2 : Z) : V * V :=
    let row := pairs (slice_from (nth (Z.to_nat ik) (slice_to hk nkpoints) []) 3) in
    nth (Z.to_nat (((s1 * nbands + b1) * nspins + s2) * nbands + b2)) row (d, d) in
  let data := flat_map (fun ik => flat_map (fun b1 => flat_map (fun s1 => flat_map (fun b2 => map (fun s2 =>
                entry ik s1 b1 s2 b2) (range nspins)) (range nbands)) (range nspins)) (range nbands)) (range nkpoints) in
  Ok {| hk_shape := squeeze [nkpoints; nbands; nspins; nbands; nspins];
        hk_data := data;
        hk_kpoints := map (fun c => map (fun row => nth c row d) kpoints) [0; 1; 2]%nat |}.
End Read.

(** wannier.py:44-49 [save_hk] with brillouin_zone.py:211-220, 289-291: the mesh
    and the Hamiltonian on it, both flattened in C order (floats as real numbers;
    Model/Wannier.v gives the dispersion on the mesh). *)
From Coq Require Import Reals.
From Verif Require Model.Wannier.
Definition mesh_list {A} (nkx nky nkz : nat) (f : nat -> nat -> nat -> A) : list A :=
  flat_map (fun ix => flat_map (fun iy => map (fun iz => f ix iy iz) (seq 0 nkz)) (seq 0 nky)) (seq 0 nkx).
Definition save_hk (str_f fmt_12f : R -> string) (w : Wannier.wannier) (nkx nky nkz : nat) : res (list string) :=
  let n := Wannier.n_orbs w in
  let ek := mesh_list nkx nky nkz (fun ix iy iz =>
              map (fun a => map (fun b => Wannier.get_ek_all w nkx nky nkz ix iy iz a b) (seq 0 n)) (seq 0 n)) in
  let kmesh := map (fun d => mesh_list nkx nky nkz (fun ix iy iz => Wannier.kpoint nkx nky nkz ix iy iz d)) [0; 1; 2]%nat in
  write_hk_wannier90 str_f fmt_12f (Z.of_nat n) ek kmesh [Z.of_nat nkx; Z.of_nat nky; Z.of_nat nkz].
