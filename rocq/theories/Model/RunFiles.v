(** Model of a whole DGA run on [n] MPI ranks as far as files and MPI operations are concerned: /repo/src/dga/dga_main.py lines 42-396 with the
    functions it calls.  Every rank executes its own program; the programs are interleaved arbitrarily, except for what the MPI operations enforce.
    Left out: the numerics, figures, the log file (C99), the folders (C96: they are fresh and exist when the programs below use them). *)
From Coq Require Import List String Bool Arith.
Import ListNotations.
Local Open Scope string_scope.
Local Open Scope list_scope.
Local Open Scope nat_scope.

(** * Actions of a rank *)
(** MPI operations; root is rank 0 in all of them. *)
Inductive coll := CBarrier | CAllreduce | CGather | CScatter | CBcast.
(** Files of the run: the hdf5 file of a rank (mpi_aux.py:28-33), or a file named relative to the output folder. *)
Inductive file := RankFile (r : nat) | RunFile (name : string).
Inductive action :=
| Sync (c : coll)
| Create (f : file)                        (* h5py.File(fname, 'a'): keeps an existing file *)
| Put (f : file) (g : string)              (* file[g] = ... in a file opened with 'r+' *)
| Save (f : file)                          (* np.save, np.savetxt, yaml dump: creates or overwrites *)
| Fetch (f : file) (gs : list string)      (* reading a file and, in an hdf5 file, the groups [gs] *)
| Clean (f : file)                         (* os.remove, guarded by isfile or try *)
| Fail.                                    (* raises whatever the files are *)

(** * Files *)
Definition file_eqb (a b : file) : bool :=
  match a, b with RankFile x, RankFile y => Nat.eqb x y | RunFile x, RunFile y => String.eqb x y | _, _ => false end.
(** the files that exist, with the groups in them *)
Definition disk := file -> option (list string).
Definition dset (d : disk) (f : file) (c : option (list string)) : disk := fun g => if file_eqb f g then c else d g.
Definition mem (g : string) (l : list string) : bool := existsb (String.eqb g) l.
(** what a local action does to the disk; [None]: it raises.  Opening a missing file with 'r+' fails silently (mpi_aux.py:87-91) and the write into the
    closed file raises; creating an existing group raises. *)
Definition perform (d : disk) (a : action) : option disk :=
  match a with
  | Sync _ => Some d
  | Create f => Some (match d f with Some _ => d | None => dset d f (Some []) end)
  | Put f g => match d f with Some l => if mem g l then None else Some (dset d f (Some (g :: l))) | None => None end
  | Save f => Some (dset d f (Some []))
  | Fetch f gs => match d f with Some l => if forallb (fun g => mem g l) gs then Some d else None | None => None end
  | Clean f => Some (dset d f None)
  | Fail => None
  end.

(** * The ranks together *)
Record job := { j_disk : disk; j_done : nat -> list action; j_todo : nat -> list action }.
Definition syncs (l : list action) : list coll := flat_map (fun a => match a with Sync c => [c] | _ => [] end) l.
(** the MPI operations a rank has entered: those it has left and the one it is in *)
Definition entered (j : job) (q : nat) : list coll :=
  syncs (j_done j q) ++ match j_todo j q with Sync c :: _ => [c] | _ => [] end.
(** the operation [c] of rank [p] needs rank [q]: the weakest dependence MPI guarantees *)
Definition waits (c : coll) (p q : nat) : bool :=
  match c with CBarrier | CAllreduce => true | CGather => Nat.eqb p 0 | CScatter | CBcast => Nat.eqb q 0 end.
Definition upd {B} (f : nat -> B) (i : nat) (b : B) : nat -> B := fun j => if Nat.eqb j i then b else f j.
Definition advance (j : job) (r : nat) (a : action) (l : list action) (d : disk) : job :=
  {| j_disk := d; j_done := upd (j_done j) r (j_done j r ++ [a]); j_todo := upd (j_todo j) r l |}.
(** One step: a rank performs a local action that does not raise, or leaves its next MPI operation, the [k]-th one, when all ranks it needs have
    entered their [k]-th one and that is of the same kind. *)
Inductive step (n : nat) : job -> job -> Prop :=
| step_local : forall j r a l d, r < n -> j_todo j r = a :: l -> (forall c, a <> Sync c) -> perform (j_disk j) a = Some d ->
    step n j (advance j r a l d)
| step_sync : forall j r c l, r < n -> j_todo j r = Sync c :: l ->
    (forall q, q < n -> waits c r q = true -> nth_error (entered j q) (List.length (syncs (j_done j r))) = Some c) ->
    step n j (advance j r (Sync c) l (j_disk j)).
Definition start (d : disk) (prog : nat -> list action) : job := {| j_disk := d; j_done := fun _ => []; j_todo := prog |}.
Inductive run_of (n : nat) (d : disk) (prog : nat -> list action) : job -> Prop :=
| run_init : run_of n d prog (start d prog)
| run_next : forall j j', run_of n d prog j -> step n j j' -> run_of n d prog j'.

(** * The program *)
(** The configuration, equal on all ranks (it is broadcast, config.py:50-51): flags of config.py:386-387, 435-436, 494, 540-546; [optics_section]:
    'optics' in conf_file, with [optics_me]: 'max_ent' in it; [me_section]: 'max_ent' in conf_file and the parts in it ('loc': the key is there; the
    others: the key is there and do_cont is set). *)
Record flags := { do_pairing : bool; do_eliash : bool; do_bubble : bool; do_vertex : bool; save_fq : bool; save_vrg : bool; verbose : bool;
                  poly : bool; keep_rank_files : bool; keep_fq_optics : bool; keep_pairing : bool; optics_section : bool; optics_me : bool;
                  me_section : bool; me_loc : bool; me_s : bool; me_g : bool; me_chi_d : bool; me_chi_m : bool }.
Definition when (b : bool) (l : list action) : list action := if b then l else [].
Definition root (r : nat) (l : list action) : list action := when (Nat.eqb r 0) l.
Definition saves (names : list string) : list action := map (fun x => Save (RunFile x)) names.
Definition fetch (name : string) : action := Fetch (RunFile name) [].
(** mpi_aux.py:134-151 [scatter]; 126-132 [gather]; 157-160 [allreduce] *)
Definition scatter : list action := [Sync CBcast; Sync CBcast; Sync CScatter].
Definition gather : list action := [Sync CGather].
Definition allreduce : list action := [Sync CAllreduce].
Definition barrier : list action := [Sync CBarrier].

Section Prog.
Variable fl : flags.
Variable n : nat.

(** dga_main.py:45 (config.py:39-54), 56 (config.py:639-647; one broadcast for each of the three folders), 58-60, 74, 77, 80, 96, 99-102 *)
Definition prog_setup (r : nat) : list action :=
  [Sync CBcast] ++
  barrier ++ [Sync CBcast; Sync CBcast; Sync CBcast] ++ barrier ++
  root r (saves ["dmft_input.npy"]) ++
  barrier ++
  root r (saves ["wannier_hr.dat"; "dga_config.yaml"]) ++
  root r (when (poly fl) (saves ["PolyFits/Giwk_dmft_poly_cont_.npy"; "PolyFits/Siw_DMFT_polyfit.txt"])) ++
  root r (when (verbose fl) (saves ["gamma_dens.npy"; "gamma_magn.npy"; "siw_sde_full.npy"; "chi_dens_loc.npy"; "chi_magn_loc.npy"])) ++
  barrier.
(** high_level_routines.py:106-113 for one channel: the groups of the pairing vertex, the optics vertex and the full vertex in the file of the rank.  One
    name stands for the groups of all momenta of the rank. *)
Definition write_components (r : nat) (channel : string) : list action :=
  when (do_pairing fl) [Put (RankFile r) ("pv_" ++ channel)] ++
  when (do_vertex fl) [Put (RankFile r) ("f_" ++ channel)] ++
  when (save_fq fl) [Put (RankFile r) ("fq_" ++ channel)].
(** dga_main.py:111-114, 129-134, 139-141, 148-149, 166-177 *)
Definition prog_ladder (r : nat) : list action :=
  [Create (RankFile r)] ++ barrier ++
  write_components r "dens" ++ write_components r "magn" ++
  root r (when (save_vrg fl) (saves ["vrg_q_magn.npy"; "vrg_q_dens.npy"])) ++
  gather ++ gather ++
  root r (saves ["chi_dens_lam.npy"; "chi_magn_lam.npy"; "lambda.txt"; "UniformStaticSusceptibility.txt"]).
(** pairing_vertex.py:100-120, optics.py:254-272, four_point.py:313-335: the files of all ranks, both channels *)
Definition fetch_ranks (name : string) : list action :=
  map (fun q => Fetch (RankFile q) [name ++ "magn"; name ++ "dens"]%string) (seq 0 n).
(** dga_main.py:184-200 *)
Definition prog_vertices (r : nat) : list action :=
  barrier ++
  root r (when (do_pairing fl) (fetch_ranks "pv_" ++ saves ["Eliashberg/F_sing_pp.npy"; "Eliashberg/F_trip_pp.npy"])) ++
  root r (when (do_vertex fl) (fetch_ranks "f_" ++ saves ["Optics/F_cond.npy"])) ++
  root r (when (save_fq fl) (fetch_ranks "fq_" ++ saves ["F_dens.npy"; "F_magn.npy"])) ++
  root r ([fetch "chi_magn_lam.npy"] ++ saves ["oz_coeff.txt"]).
(** dga_main.py:204-205, 219, 227-235, 249, 258 (dga_io.py:221), 265 (dga_io.py:240-242), 268, 278, 283 (dga_io.py:250-264) *)
Definition prog_sde (r : nat) : list action :=
  gather ++ gather ++ barrier ++ scatter ++ scatter ++ scatter ++ scatter ++ gather ++ scatter ++ allreduce ++
  root r (saves ["siwk_dga.npy"; "giwk_dga.npy"; "mu.txt"]) ++
  when (negb (keep_rank_files fl)) [Clean (RankFile r)] ++
  root r (saves ["energies.txt"]) ++
  root r (when (poly fl) (saves ["PolyFits/Siwk_poly_cont_.npy"; "PolyFits/Giwk_dga_poly_cont_.npy"])).
(** dga_main.py:286-317; eliashberg_equation.py:169 *)
Definition prog_eliash (r : nat) : list action :=
  root r (when (do_eliash fl)
    (saves ["Eliashberg/eliashberg_config.yaml"] ++ [fetch "Eliashberg/F_sing_pp.npy"; fetch "Eliashberg/F_trip_pp.npy"] ++
     saves ["Eliashberg/eliashberg.npy"; "Eliashberg/eigenvalues.txt"; "Eliashberg/eigenvalues_s.txt"] ++
     when (negb (keep_pairing fl)) [Clean (RunFile "Eliashberg/F_sing_pp.npy"); Clean (RunFile "Eliashberg/F_trip_pp.npy")])).
(** dga_main.py:320-382.  Line 359 raises when the bubble has not been computed ([np.shape(None)[0]], optics.py:278, matsubara_frequencies.py:237). *)
Definition prog_optics (r : nat) : list action :=
  root r (when (optics_section fl) (saves ["Optics/optics_config.yaml"])) ++
  root r (when (do_bubble fl) (saves ["Optics/chijj_bubble.npy"])) ++
  when (do_vertex fl)
    (root r [fetch "Optics/F_cond.npy"] ++ scatter ++ allreduce ++ root r (saves ["Optics/chijj_vert.npy"])) ++
  root r (when (optics_section fl)
    (when (negb (do_bubble fl)) [Fail] ++
     when (optics_me fl)
       (saves ["Optics/sigma_bubble_cont.npy"; "Optics/sigma_full_cont.npy"; "Optics/w.npy"] ++
        when (negb (keep_fq_optics fl)) [Clean (RunFile "Optics/F_cond.npy")]))).
(** analytic_continuation.py:351-360, 363-366, 375-378: a continued quantity *)
Definition continue_k (r : nat) (load : list action) (out : list string) : list action :=
  root r load ++ scatter ++ gather ++ root r (saves out).
(** dga_main.py:385-390 with dga_max_ent.py:35-190; all ranks read dmft_input.npy (lines 44-46).  "MaxEnt/dmft_cont.npy" and "MaxEnt/dga_cont.npy" stand
    for the files of all blur widths, of the mesh and of the optimal width (C102). *)
Definition prog_max_ent (r : nat) : list action :=
  when (me_section fl)
    (root r [fetch "dga_config.yaml"] ++ [Sync CBcast] ++ [fetch "dmft_input.npy"] ++
     root r (when (me_loc fl) (saves ["MaxEnt/dmft_cont.npy"])) ++
     root r [fetch "siwk_dga.npy"] ++ barrier ++
     root r (when (me_loc fl) (saves ["MaxEnt/dga_cont.npy"])) ++
     when (me_s fl) (continue_k r [] ["MaxEntSiwk/swk_dga_cont_fbz.npy"; "MaxEntSiwk/w.npy"; "MaxEntSiwk/gwk_dga_cont_fbz.npy"; "MaxEntSiwk/sigma_bub.npy"; "MaxEntSiwk/w_bub.npy"]) ++
     when (me_g fl) (continue_k r [] ["MaxEntGiwk/gwk_dga_cont_fbz.npy"; "MaxEntGiwk/w.npy"]) ++
     when (me_chi_d fl) (continue_k r [fetch "chi_dens_lam.npy"] ["MaxEntChiDens/chi_dens_cont_fbz.npy"; "MaxEntChiDens/w.npy"]) ++
     when (me_chi_m fl) (continue_k r [fetch "chi_magn_lam.npy"] ["MaxEntChiMagn/chi_magn_cont_fbz.npy"; "MaxEntChiMagn/w.npy"])).
(** dga_main.py:42-396 *)
Definition dga_prog (r : nat) : list action :=
  prog_setup r ++ prog_ladder r ++ prog_vertices r ++ prog_sde r ++ prog_eliash r ++ prog_optics r ++ prog_max_ent r ++ barrier.
End Prog.
(** no file is there in the fresh output folder *)
Definition no_files : disk := fun _ => None.
