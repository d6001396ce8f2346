(** Model of the command-line tools: dga_lint, dga_unit_test, dga_test (/repo/src/cli/dga_cli_testing.py), the comparison of arrays the tests are written with
    (/repo/src/test_util/util_for_testing.py 19-23, 51-60), dga_dc (/repo/src/cli/dga_config_generator.py) and the command-line arguments of sym1b
    (/repo/src/cli/sym1b.py) and dga_main (/repo/src/dga/config.py 31-48).

    Simplifications: an absolute path is a string and two different strings are different files (no links, no ".." left in what [getcwd] returns); the
    scripts are not moved while they run; options are given as separate words by one of their two names (no "--path=x", no abbreviations, no -h), a word that begins with "-" is
    never a value. *)
From Coq Require Import ZArith Reals List String Ascii Bool.
From Verif Require Import Base.PyBase.
Import ListNotations.
Local Open Scope string_scope.
Local Open Scope list_scope.
Set Implicit Arguments.

(** * Processes *)
(** How a sub-process ended: what it wrote and its return code. *)
Record outcome := { o_out : string; o_err : string; o_code : Z }.
Inductive failure := FileNotFound | NotADirectory | IsADirectory | SameFile | Permission | BadType.
(** How a command ends: the function returns, [exit(z)], or an exception. *)
Inductive ending := Done | Exit (z : Z) | Exc (f : failure).
(** What a command does that can be seen from outside: it prints, changes its directory, and runs a sub-process, which ends as given. *)
Inductive event := Print (s : string) | Chdir (d : string) | Run (cwd : string) (cmd : list string) (r : outcome).
(** The state of the Python process that runs a command. *)
Record proc := { p_cwd : string; p_events : list event }.
Definition log (p : proc) (e : event) : proc := {| p_cwd := p_cwd p; p_events := p_events p ++ [e] |}.
Definition command := proc -> proc * ending.
Definition ok : command := fun p => (p, Done).
(** one statement after the other *)
Definition seq (a b : command) : command := fun p => match a p with (q, Done) => b q | r => r end.
Definition all (l : list command) : command := fold_right seq ok l.
(** [os.path.join(a, b)] for a [b] that is not absolute *)
Definition path_join (a b : string) : string :=
  match a with EmptyString => b
  | _ => if String.eqb (substring (String.length a - 1) 1 a) "/" then a ++ b else a ++ "/" ++ b end%string.

Section Tests.
(** the sub-process [cmd] in the directory [cwd] after the events so far; [None]: the program does not exist *)
Variable exec : list event -> string -> list string -> option outcome.
(** the directory a path names; [None]: there is none *)
Variable directory : string -> option string.
(** [os.path.dirname(os.path.abspath(__file__))] *)
Variable script_path : string.

Definition chdir (d : string) : command := fun p =>
  match directory d with Some r => (log {| p_cwd := r; p_events := p_events p |} (Chdir r), Done) | None => (p, Exc FileNotFound) end.
(** dga_cli_testing.py:4-9 [run_mpi_test]: the result of [subprocess.run] is not looked at *)
Definition run_mpi_test (test_fname : string) : command := fun p =>
  let cmd := ["mpirun"; "-np"; "2"; "python"; test_fname] in
  match exec (p_events p) (p_cwd p) cmd with
  | Some r => (log p (Run (p_cwd p) cmd r), Done)
  | None => (p, Exc FileNotFound)
  end.
(** dga_cli_testing.py:11-30 [run_test]; [program] is a string in all calls *)
Definition run_test (program test_fname : string) : command := fun p =>
  let cmd := [program; test_fname] in
  let title := (program ++ test_fname)%string in                      (* "".join(command) *)
  let p := log (log p (Print "--------------------------------")) (Print ("Starting Test: " ++ title)) in
  match exec (p_events p) (p_cwd p) cmd with
  | None => (p, Exc FileNotFound)
  | Some r =>
      let p := log (log (log p (Run (p_cwd p) cmd r)) (Print (o_out r))) (Print (o_err r)) in
      if negb (String.eqb (o_err r) "")
      then (log (log p (Print ("Test Failed: " ++ title))) (Print "--------------------------------"), Exit 1)
      else (p, Done)
  end.
(** dga_cli_testing.py:44-61 *)
Definition lint_files : list string := map (fun f => ("./src/dga/" ++ f)%string)
  ["matsubara_frequencies.py"; "brillouin_zone.py"; "wannier.py"; "two_point.py"; "bubble.py"; "local_four_point.py"; "ornstein_zernicke_function.py";
   "w2dyn_aux_dga.py"; "dga_io.py"; "loggers.py"; "mpi_aux.py"; "four_point.py"; "analytic_continuation.py"; "pairing_vertex.py";
   "eliashberg_equation.py"; "lambda_correction.py"; "optics.py"].
(** dga_cli_testing.py:32-64 [test_linting] *)
Definition test_linting : command :=
  seq (chdir (path_join script_path "../../")) (seq (all (map (run_test "pylint") lint_files)) (chdir script_path)).
(** dga_cli_testing.py:76-87; the file of line 83 is run by mpirun *)
Definition unit_files_1 : list string := map (fun f => ("./tests/" ++ f)%string)
  ["test_matsubara_frequencies.py"; "test_brillouin_zone.py"; "test_wannier.py"; "test_two_point.py"; "test_eliashberg.py"; "test_bubble.py";
   "test_local_four_point.py"].
Definition unit_files_2 : list string := map (fun f => ("./tests/" ++ f)%string)
  ["test_four_point.py"; "test_analytic_continuation.py"; "test_pairing_vertex.py"; "test_optics.py"].
(** dga_cli_testing.py:66-90 [run_unit_tests] *)
Definition run_unit_tests : command :=
  seq (chdir (path_join script_path "../../"))
 (seq (all (map (run_test "python") unit_files_1))
 (seq (run_mpi_test "./tests/test_mpi_aux.py")
 (seq (all (map (run_test "python") unit_files_2)) (chdir script_path)))).
(** dga_cli_testing.py:92-94 *)
Definition test_main : command := seq test_linting run_unit_tests.
End Tests.

(** * What the tests compare with *)
Local Open Scope R_scope.
(** An entry of an array: a complex number, or NaN ([None]); infinities are not modelled. *)
Definition entry := option (R * R).
Record array := { shape : list nat; flat : list entry }.
Definition cabs (z : R * R) : R := sqrt (fst z * fst z + snd z * snd z).
Definition leb (x y : R) : bool := if Rle_dec x y then true else false.
(** [np.isclose(a, b, rtol, atol)] *)
Definition isclose (rtol atol : R) (a b : entry) : bool :=
  match a, b with
  | Some x, Some y => leb (cabs (fst x - fst y, snd x - snd y)) (atol + rtol * cabs y)
  | _, _ => false
  end.
(** [np.allclose] on one-dimensional arrays: an array of one entry is repeated, other different lengths raise ValueError *)
Definition allclose (rtol atol : R) (a b : list entry) : res bool :=
  match a, b with
  | [x], _ => Ok (forallb (isclose rtol atol x) b)
  | _, [y] => Ok (forallb (fun x => isclose rtol atol x y) a)
  | _, _ => if Nat.eqb (length a) (length b) then Ok (forallb (fun xy => isclose rtol atol (fst xy) (snd xy)) (combine a b)) else Raise ValueError
  end.
(** One call of the comparison in a test file.  util_for_testing.py:51-60 [test_array]: [np.atleast_1d] and [flatten] keep the entries; [None]: the test goes
    on, otherwise the exception.  What is printed is in [run_file]. *)
Record check := { c_name : string; c_arr1 : array; c_arr2 : array; c_rtol : R; c_atol : R }.
Definition test_array (c : check) : option exn :=
  match allclose (c_rtol c) (c_atol c) (flat (c_arr1 c)) (flat (c_arr2 c)) with
  | Ok true => None
  | Ok false => Some ValueError
  | Raise e => Some e
  end.
(** util_for_testing.py:19-23 [test_statement] *)
Definition test_statement (statement : bool) : option exn := if statement then None else Some ValueError.
(** A test file: comparisons and statements in order; it is left at the first exception, which Python reports on stderr with return code 1. *)
Inductive test_step := Compare (c : check) | Statement (b : bool) (name : string).
Definition step_result (s : test_step) : option exn := match s with Compare c => test_array c | Statement b _ => test_statement b end.
Definition step_name (s : test_step) : string := match s with Compare c => c_name c | Statement _ n => n end.
Section Outcome.
(** [show]: the lines with the two arrays, [traceback]: what the interpreter writes *)
Variable show : check -> string.
Variable traceback : exn -> string.
Fixpoint run_file (l : list test_step) : outcome :=
  match l with
  | [] => {| o_out := ""; o_err := ""; o_code := 0 |}
  | s :: l' =>
      match step_result s with
      | None => let r := run_file l' in {| o_out := "Passed test " ++ step_name s ++ String "010" (o_out r); o_err := o_err r; o_code := o_code r |}
      | Some e => {| o_out := match s with Compare c => show c | Statement _ _ => "" end; o_err := traceback e; o_code := 1 |}
      end
  end%string.
End Outcome.
Local Close Scope R_scope.

(** * dga_dc *)
Inductive node := Missing | Dir | File (content : string).
Definition config_name : string := "dga_config.yaml".
Definition fset (fs : string -> node) (p : string) (n : node) : string -> node := fun q => if String.eqb p q then n else fs q.
(** The world of the command: the files and the current directory. *)
Record world := { w_fs : string -> node; w_cwd : string }.
Section Copy.
Variable directory : string -> option string.
Variable script_path : string.
(** whether a file may be created or opened for writing *)
Variable writable : string -> bool.
(** [shutil.copy(src, dst)]; [name]: the last component of [src].  The contents are copied, the mode is not modelled. *)
Definition shutil_copy (fs : string -> node) (src name dst : string) : (string -> node) * ending :=
  let dst := match fs dst with Dir => path_join dst name | _ => dst end in
  if String.eqb src dst then (fs, Exc SameFile) else
  match fs src with
  | Missing => (fs, Exc FileNotFound)
  | Dir => (fs, Exc IsADirectory)
  | File c =>
      match fs dst with
      | Dir => (fs, Exc IsADirectory)
      | _ => if writable dst then (fset fs dst (File c), Done) else (fs, Exc Permission)
      end
  end.
(** dga_config_generator.py:6-23 [main] *)
Definition config_main (w : world) : world * ending :=
  let curr_dir := w_cwd w in
  match directory (path_join script_path "../../config_templates/") with
  | None => (w, Exc FileNotFound)
  | Some config_file_dir =>
      let src_path := (config_file_dir ++ "/" ++ config_name)%string in
      let dst_path := (curr_dir ++ "/" ++ config_name)%string in
      match shutil_copy (w_fs w) src_path config_name dst_path with
      | (fs, Done) => match directory curr_dir with
                      | Some d => ({| w_fs := fs; w_cwd := d |}, Done)
                      | None => ({| w_fs := fs; w_cwd := config_file_dir |}, Exc FileNotFound)
                      end
      | (fs, e) => ({| w_fs := fs; w_cwd := config_file_dir |}, e)
      end
  end.
End Copy.

(** * Command-line arguments *)
(** [argparse] with options that take one value or none ([nargs='?']): an option without a value is [None], and one that is not given has its default.
    [opts]: the names of the options; the values are returned in that order.  [Exit 2]: the arguments are refused. *)
Definition is_option (s : string) : bool := match s with String "-" _ => true | _ => false end.
Fixpoint find_option (opts : list (string * string)) (s : string) : option nat :=
  match opts with
  | [] => None
  | (a, b) :: r => if (String.eqb a s || String.eqb b s)%bool then Some 0%nat else option_map S (find_option r s)
  end.
Fixpoint set_nth {A} (l : list A) (i : nat) (a : A) : list A :=
  match l, i with [], _ => [] | _ :: r, O => a :: r | x :: r, S j => x :: set_nth r j a end.
Fixpoint parse_args (opts : list (string * string)) (vals : list (option string)) (args : list string) : option (list (option string)) :=
  match args with
  | [] => Some vals
  | a :: r =>
      match find_option opts a with
      | None => None
      | Some i =>
          match r with
          | v :: r' => if is_option v then parse_args opts (set_nth vals i None) r else parse_args opts (set_nth vals i (Some v)) r'
          | [] => Some (set_nth vals i None)
          end
      end
  end.
(** [a + b] with Python's None *)
Definition add_str (a b : option string) : option string := match a, b with Some x, Some y => Some (x ++ y)%string | _, _ => None end.
(** sym1b.py:7-13, 16-22: the input and the output file that are handed to [symmetrize.main]; [import_dir]: the working directory when the module is loaded *)
Definition sym1b_files (import_dir : string) (args : list string) : (string * string) + ending :=
  match parse_args [("-if", "--input_file"); ("-of", "--output_file"); ("-p", "--path")]
                   [Some "Vertex.hdf5"; Some "g4iw_sym.hdf5"; Some (import_dir ++ "/")%string] args with
  | Some [i; o; p] => match add_str p o, add_str p i with Some x, Some y => inl (y, x) | _, _ => inr (Exc BadType) end
  | _ => inr (Exit 2)
  end.
(** config.py:31-36, 43-47: the configuration file rank 0 of dga_main opens *)
Definition dga_main_file (import_dir : string) (args : list string) : string + ending :=
  match parse_args [("-c", "--config"); ("-p", "--path")] [Some "dga_config.yaml"; Some (import_dir ++ "/")%string] args with
  | Some [c; p] => match add_str p c with Some x => inl x | None => inr (Exc BadType) end
  | _ => inr (Exit 2)
  end.
