(** Model of the creation of the output folders at the start of a run (config.py), of dga_io.set_output_path and of
    the interleaving of the MPI ranks that execute them on a shared file system. *)
From Coq Require Import String Ascii DecimalString.
From Verif Require Import Base.PyBase Model.Util.
Set Implicit Arguments.
Local Open Scope string_scope.
Local Open Scope list_scope.
Local Open Scope nat_scope.

(** * Paths and directories *)
(** The components of a path: the maximal slash-free parts, without empty ones and without "." (POSIX path
    resolution).  Simplification: ".." and symbolic links are not resolved.  [cur] is the component being read. *)
Definition push (c : string) (l : list string) : list string :=
  if String.eqb c "" || String.eqb c "." then l else c :: l.
Fixpoint comps_from (cur : string) (s : string) : list string :=
  match s with
  | EmptyString => push cur []
  | String c s' => if Ascii.eqb c "/" then push cur (comps_from "" s') else comps_from (cur ++ String c "")%string s'
  end.
Definition is_abs (s : string) : bool := match s with String c _ => Ascii.eqb c "/" | EmptyString => false end.
(** A place in the file system: absolute or relative to the working directory, and the components below it. *)
Definition place := (bool * list string)%type.
Definition resolve (s : string) : place := (is_abs s, comps_from "" s).

(** The existing directories; the root and the working directory exist always.  Simplification: plain files are not
    distinguished from directories. *)
Definition fsys := place -> bool.
(** os.path.exists; the empty path does not exist. *)
Definition path_exists (fs : fsys) (s : string) : bool := negb (String.eqb s "") && fs (resolve s).
Definition place_eqb (a b : place) : bool := Bool.eqb (fst a) (fst b) && (if list_eq_dec string_dec (snd a) (snd b) then true else false).
Definition add_dir (fs : fsys) (p : place) : fsys := fun q => place_eqb p q || fs q.
Definition parent (p : place) : place := (fst p, removelast (snd p)).

(** FileExistsError, FileNotFoundError, AssertionError *)
Inductive os_error := EExist | ENoEnt | EAssert.
(** os.mkdir *)
Definition mkdir (fs : fsys) (s : string) : fsys + os_error :=
  if String.eqb s "" then inr ENoEnt
  else let p := resolve s in
       if fs p then inr EExist
       else if fs (parent p) then inl (add_dir fs p) else inr ENoEnt.

(** * What one rank does *)
(** [Uniq] is the while loop of util.uniquify (util.py:12-25): one test of os.path.exists per step.  [BcastRoot v]
    is [comm.bcast(v, root=0)] on rank 0 and [BcastOther] on another rank; [Barrier] is [comm.barrier()], [Waiting]
    the state of a rank inside it. *)
Inductive prog (R : Type) :=
| Done (r : R)
| Failed (e : os_error)
| Exists (p : string) (k : bool -> prog R)
| Mkdir (p : string) (k : prog R)
| Uniq (filename extension path : string) (counter : nat) (k : string -> prog R)
| BcastRoot (v : string) (k : prog R)
| BcastOther (k : string -> prog R)
| Barrier (k : prog R)
| Waiting (k : prog R).
Arguments Failed {R} e.

(** util.py:12-25 *)
Definition uniquify_then {R} (path : string) (k : string -> prog R) : prog R :=
  Uniq (fst (splitext path)) (snd (splitext path)) path 1 k.

(** config.py:120-134 [OutputConfig.set_output_path]; [comm] is [Some rank] or [None]. *)
Definition set_output_path {R} (base_name : string) (comm : option nat) (k : string -> prog R) : prog R :=
  let make (p : string) : prog R :=
    Exists p (fun e => if e then k p
                       else match comm with
                            | Some O | None => Mkdir p (k p)
                            | Some (S _) => k p
                            end) in
  match comm with
  | Some O => uniquify_then base_name (fun p => BcastRoot p (make p))
  | Some (S _) => BcastOther make
  | None => uniquify_then base_name make
  end.

(** dga_io.py:22-31 [set_output_path]: no broadcast. *)
Definition io_set_output_path {R} (base_name : string) (comm : option nat) (k : string -> prog R) : prog R :=
  uniquify_then base_name (fun p =>
    Exists p (fun e => if e then k p
                       else match comm with
                            | Some O | None => Mkdir p (k p)
                            | Some (S _) => k p
                            end)).

(** config.py:24, 27-28 [get_dga_output_folder_name]; the five numbers are non-negative at this point of a run. *)
Definition folder_name (lambda_corr : string) (nk nq niw niv nsh : nat) : string :=
  ("/LDGA_" ++ lambda_corr ++ "_Nk" ++ str_of_nat nk ++ "_Nq" ++ str_of_nat nq ++ "_wc" ++ str_of_nat niw ++
   "_vc" ++ str_of_nat niv ++ "_vs" ++ str_of_nat nsh)%string.

(** config.py:604-624 [create_plotting_folder] with a communicator: only rank 0 gets [pdir]. *)
Definition create_plotting_folder {R} (output_path : string) (rank : nat) (k : option string -> prog R) : prog R :=
  match rank with
  | O => Exists output_path (fun ok =>
           if ok then uniquify_then (output_path ++ "/Plots/")%string (fun pdir =>
             Exists pdir (fun e => if e then k (Some pdir) else Mkdir pdir (k (Some pdir))))
           else Failed EAssert)
  | S _ => k None
  end.

(** config.py:626-637 [create_poly_fit_folder] with a communicator. *)
Definition create_poly_fit_folder {R} (do_poly : bool) (output_path : string) (rank : nat) (k : option string -> prog R) : prog R :=
  if do_poly then
    uniquify_then (output_path ++ "/PolyFits/")%string (fun d =>
      Exists d (fun e => if e then k (Some d)
                         else match rank with O => Mkdir d (k (Some d)) | S _ => k (Some d) end))
  else k None.

(** What a rank knows after the set up. *)
Record folders := { f_out : string; f_plots : option string; f_poly : option string; f_eliash : string; f_optics : string }.

(** The part of the configuration used here. *)
Record run_cfg := { input_path : string; lambda_corr : string; nk_tot : nat; nq_tot : nat; niw_core : nat; niv_core : nat;
                    niv_shell : nat; do_poly_fitting : bool }.

(** config.py:597-602 [create_dga_ouput_folder] *)
Definition base_name (c : run_cfg) : string :=
  (input_path c ++ folder_name (lambda_corr c) (nk_tot c) (nq_tot c) (niw_core c) (niv_core c) (niv_shell c))%string.

(** config.py:639-647 [create_folders] and the assertion of [create_logger] (649-651), which dga_main calls next
    (dga_main.py:56-66). *)
Definition create_folders (c : run_cfg) (rank : nat) : prog folders :=
  Barrier (
    set_output_path (base_name c) (Some rank) (fun out =>
    create_plotting_folder out rank (fun pdir =>
    create_poly_fit_folder (do_poly_fitting c) out rank (fun poly =>
    set_output_path (out ++ "Eliashberg/")%string (Some rank) (fun el =>
    set_output_path (out ++ "Optics/")%string (Some rank) (fun op =>
    Barrier (
    Exists out (fun ok =>
      if ok then Done {| f_out := out; f_plots := pdir; f_poly := poly; f_eliash := el; f_optics := op |}
      else Failed EAssert)))))))).

(** * The ranks together *)
(** [j_sent]: the values broadcast by rank 0 so far; [j_recv r]: how many of them rank [r] has received;
    [j_enter r]: how many barriers rank [r] has entered.  [j_prog r] is what rank [r] has still to do. *)
Record job (R : Type) := { j_fs : fsys; j_sent : list string; j_recv : nat -> nat; j_enter : nat -> nat; j_prog : nat -> prog R }.
Definition upd {B} (f : nat -> B) (i : nat) (b : B) : nat -> B := fun j => if Nat.eqb j i then b else f j.

(** One step of rank [r] in a job of [n] ranks.  A broadcast delivers to a rank the next value it has not received
    yet and does not block rank 0 (the weakest synchronisation MPI guarantees); a barrier is left when every rank has
    entered it. *)
Inductive step {R} (n : nat) : job R -> job R -> Prop :=
| step_exists : forall j r p k, r < n -> j_prog j r = Exists p k ->
    step n j {| j_fs := j_fs j; j_sent := j_sent j; j_recv := j_recv j; j_enter := j_enter j;
                j_prog := upd (j_prog j) r (k (path_exists (j_fs j) p)) |}
| step_mkdir : forall j r p k, r < n -> j_prog j r = Mkdir p k ->
    step n j (match mkdir (j_fs j) p with
              | inl fs' => {| j_fs := fs'; j_sent := j_sent j; j_recv := j_recv j; j_enter := j_enter j;
                              j_prog := upd (j_prog j) r k |}
              | inr e => {| j_fs := j_fs j; j_sent := j_sent j; j_recv := j_recv j; j_enter := j_enter j;
                            j_prog := upd (j_prog j) r (Failed e) |}
              end)
| step_uniq : forall j r f e p c k, r < n -> j_prog j r = Uniq f e p c k ->
    step n j {| j_fs := j_fs j; j_sent := j_sent j; j_recv := j_recv j; j_enter := j_enter j;
                j_prog := upd (j_prog j) r (if path_exists (j_fs j) p then Uniq f e (candidate f e c) (S c) k
                                            else k (p ++ "/")%string) |}
| step_send : forall j r v k, r < n -> j_prog j r = BcastRoot v k ->
    step n j {| j_fs := j_fs j; j_sent := j_sent j ++ [v]; j_recv := j_recv j; j_enter := j_enter j;
                j_prog := upd (j_prog j) r k |}
| step_recv : forall j r k v, r < n -> j_prog j r = BcastOther k -> nth_error (j_sent j) (j_recv j r) = Some v ->
    step n j {| j_fs := j_fs j; j_sent := j_sent j; j_recv := upd (j_recv j) r (S (j_recv j r)); j_enter := j_enter j;
                j_prog := upd (j_prog j) r (k v) |}
| step_enter : forall j r k, r < n -> j_prog j r = Barrier k ->
    step n j {| j_fs := j_fs j; j_sent := j_sent j; j_recv := j_recv j; j_enter := upd (j_enter j) r (S (j_enter j r));
                j_prog := upd (j_prog j) r (Waiting k) |}
| step_leave : forall j r k, r < n -> j_prog j r = Waiting k -> (forall r', r' < n -> j_enter j r <= j_enter j r') ->
    step n j {| j_fs := j_fs j; j_sent := j_sent j; j_recv := j_recv j; j_enter := j_enter j;
                j_prog := upd (j_prog j) r k |}.

Inductive steps {R} (n : nat) : job R -> job R -> Prop :=
| steps_refl : forall j, steps n j j
| steps_step : forall j1 j2 j3, steps n j1 j2 -> step n j2 j3 -> steps n j1 j3.

Definition start {R} (fs : fsys) (p : nat -> prog R) : job R :=
  {| j_fs := fs; j_sent := []; j_recv := fun _ => 0; j_enter := fun _ => 0; j_prog := p |}.
