(** Model of wannier.py:268-325: writing and reading real-space Hamiltonians as text.

    A file is the list of its lines.  Floating-point values appear as integers in
    units of 10^-6, the resolution of the format [{: 12.6f}]; the rounding of a
    float to that resolution (and its sign bit, for "-0.000000") happens before
    the model.  Arrays are flat lists in C order, which is what reshape acts on. *)
From Coq Require Import String Ascii.
From Verif Require Import Base.PyBase Model.Util Model.RankFiles.
Set Implicit Arguments.
Local Open Scope string_scope.
Local Open Scope list_scope.
Local Open Scope Z_scope.

(** * Formatting *)
Fixpoint spaces (n : nat) : string := match n with O => EmptyString | S n' => String " " (spaces n') end.
(** the width of a format specification, right aligned *)
Definition pad_left (width : nat) (s : string) : string := (spaces (width - String.length s) ++ s)%string.
(** the space option: a leading space for non-negative numbers *)
Definition sign_str (neg : bool) : string := if neg then "-" else " ".
(** [{: 5d}] *)
Definition fmt_5d (z : Z) : string := pad_left 5 (sign_str (Z.ltb z 0) ++ str_of_nat (Z.abs_nat z))%string.
(** [{: 12.6f}] of a value with sign bit [neg] and modulus [mag] * 10^-6 *)
Record fval := { neg : bool; mag : Z }.
Definition fmt_12_6f (x : fval) : string :=
  pad_left 12 (sign_str (neg x) ++ (str_of_nat (Z.to_nat (mag x / 1000000)%Z) ++ ("." ++ pad0 6 (str_of_nat (Z.to_nat (mag x mod 1000000)%Z)))))%string.
Definition fval_value (x : fval) : Z := if neg x then - mag x else mag x.

(** one data line: R (3 integers), orbitals (2 integers), real and imaginary part *)
Record hrow := { rx : Z; ry : Z; rz : Z; o1 : Z; o2 : Z; h_re : fval; h_im : fval }.
(** wannier.py:318 *)
Definition row_line (r : hrow) : string :=
  (fmt_5d (rx r) ++ (fmt_5d (ry r) ++ (fmt_5d (rz r) ++ (fmt_5d (o1 r) ++ (fmt_5d (o2 r) ++ (fmt_12_6f (h_re r) ++ fmt_12_6f (h_im r)))))))%string.

(** [str] of a weight: an integer array (after reading) or a float array (np.ones) *)
Definition str_Z (z : Z) : string := if z <? 0 then String "-" (str_of_nat (Z.to_nat (- z))) else str_of_nat (Z.to_nat z).
Definition str_weight (is_float : bool) (z : Z) : string := if is_float then (str_Z z ++ ".0")%string else str_Z z.
(** [sep.join(l)] *)
Fixpoint join (sep : string) (l : list string) : string :=
  match l with [] => EmptyString | [x] => x | x :: t => (x ++ (sep ++ join sep t))%string end.
(** [l[i:i+n] for i in range(0, len(l), n)] *)
Fixpoint chunks {A} (fuel n : nat) (l : list A) : list (list A) :=
  match fuel, l with S f, _ :: _ => firstn n l :: chunks f n (skipn n l) | _, _ => [] end.

(** wannier.py:300-319 [write_hr_w2k]: n_bands, weights (one per R, r_weights[:,0]) and the rows in C order. *)
Definition write_hr_w2k (n_bands n_r : Z) (is_float : bool) (weights : list Z) (rows : list hrow) : list string :=
  ["# Written using the wannier module of the dga code"; (str_Z n_bands ++ " ")%string; (str_Z n_r ++ " ")%string]
  ++ map (fun c => ("    " ++ join "    " (map (str_weight is_float) c))%string) (chunks (length weights) 15 weights)
  ++ map row_line rows.

(** * Reading *)
(** [re.split(r'\s+', line.strip())] without the empty string of a blank line: the
    first component is the word being read at the front of the string. *)
Definition is_space (c : ascii) : bool := Ascii.eqb c " ".
Fixpoint words (s : string) : string * list string :=
  match s with
  | EmptyString => (EmptyString, [])
  | String c s' =>
      let '(w, ws) := words s' in
      if is_space c then (EmptyString, match w with EmptyString => ws | _ => w :: ws end) else (String c w, ws)
  end.
Definition split_ws (s : string) : list string :=
  let '(w, ws) := words s in match w with EmptyString => ws | _ => w :: ws end.

(** [float(token)] for decimal numbers with at most six decimals, in units of
    10^-6; [None] where Python raises ValueError (other spellings of numbers do
    not occur in files written here). *)
Fixpoint read_digits (acc : Z) (s : string) : Z * string :=
  match s with
  | EmptyString => (acc, EmptyString)
  | String c s' => match digit_val c with Some d => read_digits (10 * acc + d) s' | None => (acc, s) end
  end.
Fixpoint all_digit (s : string) : bool :=
  match s with EmptyString => true | String c s' => match digit_val c with Some _ => all_digit s' | None => false end end.
Definition parse_unsigned (s : string) : option Z :=
  match s with
  | EmptyString => None
  | String c _ =>
      match digit_val c with
      | None => None
      | Some _ =>
          let '(i, rest) := read_digits 0 s in
          match rest with
          | EmptyString => Some (1000000 * i)
          | String c' frac =>
              if Ascii.eqb c' "." && all_digit frac && (String.length frac <=? 6)%nat
              then Some (1000000 * i + fst (read_digits 0 frac) * 10 ^ (6 - Z.of_nat (String.length frac)))
              else None
          end
      end
  end.
Definition parse_float (s : string) : option Z :=
  match s with
  | String c s' => if Ascii.eqb c "-" then option_map Z.opp (parse_unsigned s') else parse_unsigned s
  | EmptyString => None
  end.
Fixpoint parse_all (l : list string) : res (list Z) :=
  match l with
  | [] => Ok []
  | x :: t => match parse_float x with None => Raise ValueError | Some v => let! r := parse_all t in Ok (v :: r) end
  end.

Fixpoint parse_lines (ls : list (list string)) : res (list (list Z)) :=
  match ls with [] => Ok [] | ts :: t => let! a := parse_all ts in let! r := parse_lines t in Ok (a :: r) end.

(** [.astype(int)] of a value in units of 10^-6: truncation towards zero. *)
Definition to_int (v : Z) : Z := Z.quot v 1000000.

(** rows of seven values *)
Fixpoint rows7 (l : list Z) : list (list Z) := match l with a :: b :: c :: d :: e :: f :: g :: t => [a; b; c; d; e; f; g] :: rows7 t | _ => [] end.

(** wannier.py:268-293 [read_hr_w2k].  pandas (python engine, sep '\s+', 15 named
    columns) yields one row per non-blank line, padded with NaN, so that dropping
    the NaN (line 277) leaves the tokens of the file in order; a line with more
    than 15 tokens is a ParserError (modelled as ValueError).  The result is
    (hr, r_grid, r_weights, orbs) as flat lists; a size that does not fit the
    shapes raises ValueError. *)
Definition read_hr_w2k (file : list string) : res (list (Z * Z) * list (Z * Z * Z) * list Z * list (Z * Z)) :=
  let lines := filter (fun ts => match ts with [] => false | _ => true end) (map split_ws (skipn 1 file)) in
  if existsb (fun ts => (15 <? length ts)%nat) lines then Raise ValueError else
  let! vals := parse_lines lines in
  let! n_bands := py_get (concat (firstn 1 vals)) 0 in
  let! nr := py_get (concat (firstn 1 (skipn 1 vals))) 0 in
  let n_bands := to_int n_bands in let nr := to_int nr in
  let tmp := concat vals in
  let r_weights := map to_int (slice tmp 2 (2 + nr)) in
  let rest := slice_from tmp (2 + nr) in
  let n_tmp := zlen rest / 7 in
  if negb (n_tmp * 7 =? zlen rest) then Raise ValueError else
  if negb (n_tmp =? nr * n_bands * n_bands) then Raise ValueError else
  let rows := rows7 rest in
  Ok (map (fun r => (nth 5 r 0, nth 6 r 0)) rows, map (fun r => (nth 0 r 0, nth 1 r 0, nth 2 r 0)) rows,
      r_weights, map (fun r => (nth 3 r 0, nth 4 r 0)) rows).
