(** Vocabulary for the properties of the command-line tools. *)
From Coq Require Import ZArith Reals List String.
From Verif Require Import Base.PyBase Model.CliTools.
Import ListNotations.
Set Implicit Arguments.

(** The sub-processes of a run, in order: directory, command and how it ended. *)
Fixpoint runs (l : list event) : list (string * list string * outcome) :=
  match l with [] => [] | Run d c r :: l' => (d, c, r) :: runs l' | _ :: l' => runs l' end.
Definition commands (l : list event) : list (list string) := map (fun x => snd (fst x)) (runs l).
Definition quiet (x : string * list string * outcome) : Prop := o_err (snd x) = ""%string.

(** Entry [i] of an array in a comparison: an array of a single entry has that entry everywhere. *)
Definition entry_at (l : list entry) (i : nat) : entry := match l with [x] => x | _ => nth i l None end.
(** Two arrays can be compared, and on how many places. *)
Definition comparable (a b : list entry) : Prop := length a = length b \/ length a = 1%nat \/ length b = 1%nat.
Definition places (a b : list entry) : nat := if Nat.eqb (length a) 1 then length b else length a.
(** The entries are numbers that agree within the tolerances. *)
Definition agree (rtol atol : R) (a b : list entry) : Prop :=
  comparable a b /\
  forall i, (i < places a b)%nat -> exists x y, entry_at a i = Some x /\ entry_at b i = Some y /\
    (cabs (fst x - fst y, snd x - snd y) <= atol + rtol * cabs y)%R.
Definition passes (s : test_step) : Prop :=
  match s with Compare c => agree (c_rtol c) (c_atol c) (flat (c_arr1 c)) (flat (c_arr2 c)) | Statement b _ => b = true end.

(** A sub-process counts as successful: it wrote nothing to stderr, or it is the one of the MPI test. *)
Definition mpi_command : list string := ["mpirun"; "-np"; "2"; "python"; "./tests/test_mpi_aux.py"]%string.
Definition accepted (x : string * list string * outcome) : Prop := quiet x \/ snd (fst x) = mpi_command.
(** A command that is to run [jobs] in the directory [d] did so: the events [l] are new, [e] is how it ended. *)
Definition ran_jobs (exec : list event -> string -> list string -> option outcome) (d : string) (jobs : list (list string)) (l : list event) (e : ending) : Prop :=
  Forall (fun x => fst (fst x) = d /\ exists ev, exec ev d (snd (fst x)) = Some (snd x)) (runs l) /\
  commands l = firstn (length (runs l)) jobs /\
  match e with
  | Done => length (runs l) = length jobs /\ Forall accepted (runs l)
  | Exit z => z = 1%Z /\ exists pre x, runs l = pre ++ [x] /\ Forall accepted pre /\ ~ accepted x
  | Exc f => f = FileNotFound /\ Forall accepted (runs l) /\
             exists c ev, nth_error jobs (length (runs l)) = Some c /\ exec ev d c = None
  end.

(** The pylint runs and the test files, in order. *)
(** The modules of the package and the tests of the repository (the files src/dga/*.py and tests/test_*.py). *)
Definition package_files : list string := map (fun f => ("./src/dga/" ++ f)%string)
  ["__init__.py"; "analytic_continuation.py"; "brillouin_zone.py"; "bubble.py"; "config.py"; "dga_io.py"; "dga_main.py"; "dga_max_ent.py"; "eliashberg_equation.py";
   "four_point.py"; "high_level_plotting.py"; "high_level_routines.py"; "lambda_correction.py"; "local_four_point.py"; "loggers.py"; "matsubara_frequencies.py";
   "mpi_aux.py"; "optics.py"; "ornstein_zernicke_function.py"; "pade_aux.py"; "pairing_vertex.py"; "plot_specs.py"; "plotting.py"; "symmetrize.py"; "two_point.py";
   "util.py"; "w2dyn_aux_dga.py"; "wannier.py"]%string.
Definition test_files : list string := map (fun f => ("./tests/" ++ f)%string)
  ["test_analytic_continuation.py"; "test_brillouin_zone.py"; "test_bubble.py"; "test_eliashberg.py"; "test_four_point.py"; "test_local_four_point.py";
   "test_matsubara_frequencies.py"; "test_mpi_aux.py"; "test_optics.py"; "test_pairing_vertex.py"; "test_self_energy.py"; "test_two_point.py"; "test_wannier.py"]%string.
(** The files that no job of the list names. *)
Definition not_named (files : list string) (jobs : list (list string)) : list string :=
  filter (fun f => negb (existsb (fun c => existsb (String.eqb f) c) jobs)) files.
Definition lint_jobs : list (list string) := map (fun f => ["pylint"; f]%string) lint_files.
Definition unit_jobs : list (list string) :=
  map (fun f => ["python"; f]%string) unit_files_1 ++ [mpi_command] ++ map (fun f => ["python"; f]%string) unit_files_2.
(** [q] comes from [p] by running the jobs in [root] and, when all of them were accepted, changing into [home]. *)
Definition ran_in (exec : list event -> string -> list string -> option outcome) (root home : string) (jobs : list (list string)) (p q : proc) (e : ending) : Prop :=
  exists l, ran_jobs exec root jobs l e /\
    match e with
    | Done => p_events q = p_events p ++ Chdir root :: l ++ [Chdir home] /\ p_cwd q = home
    | _ => p_events q = p_events p ++ Chdir root :: l /\ p_cwd q = root
    end.
(** The value of the option [o] in a list of options with values: the last one, or the default. *)
Fixpoint last_value (o : string * string) (default : option string) (pairs : list (string * string)) : option string :=
  match pairs with
  | [] => default
  | (n, v) :: r => last_value o (if (String.eqb (fst o) n || String.eqb (snd o) n)%bool then Some v else default) r
  end.
