(** Model of the analytic-continuation run, /repo/src/dga/dga_max_ent.py lines 83-194 (after the input has been read and the local quantities
    have been continued): the sections s_dga, g_dga, chi_d and chi_m of the configuration and the arrays they save.
    Not modelled: the local continuation (lines 58-81), the Green's function, the optical conductivity and the figures made from a saved array
    (they come after the array has been saved; that they may raise is the parameter [after]), logging, and the folders (C96). *)
From Coq Require Import ZArith Reals List String.
From Verif Require Import Base.PyBase Base.Arr Model.MpiAux Model.BrillouinZone Model.MaxEnt.
Import ListNotations.
Local Open Scope R_scope.

(** an array over the mesh whose entries are the values along the frequency axis *)
Definition kmesh := list (list (list (list C))).
(** what the run has read: [d_siw n] is [sigma_dga.get_siw(n)] with its Hartree term [d_smom0] (lines 69-71, 96), [d_giw] is [giwk_dga.g_full()]
    (lines 73, 136), the susceptibilities are the contents of chi_dens_lam.npy and chi_magn_lam.npy, or the error of loading them (lines 157, 180) *)
Record me_data := { d_beta : R; d_kgrid : kgrid; d_qgrid : kgrid; d_siw : Z -> kmesh; d_smom0 : R; d_giw : kmesh;
                    d_chi_dens : res kmesh; d_chi_magn : res kmesh }.
(** numpy arithmetic with a number, entry by entry *)
Definition add_num (r : R) (v : list C) : list C := map (fun z => (fst z + r, snd z)) v.
Definition map_mesh (f : list C -> list C) (m : kmesh) : kmesh := map (map (map f)) m.

Section Run.
Variable solve : request -> res (list R).
Variable gf_kkt : list R -> list R -> list C.

(** keyword arguments of a call [MaxEnt(beta, kernel, comm=comm, me_config=..., **section)], analytic_continuation.py line 228: a section must be a
    mapping and must not name one of the arguments given already *)
Definition section_kwargs (v : val) : res dict :=
  match v with
  | VDict kw => if existsb (fun e => existsb (String.eqb (fst e)) ["self"; "beta"; "kernel_mode"; "comm"; "me_config"]%string) kw then Raise TypeError else Ok kw
  | _ => Raise TypeError
  end.
(** the body common to lines 88-104, 128-144, 149-165 and 172-188.  [g] is the grid of the quantity, [ntasks] is what the distributor of lines 84-85 was
    made with, [load] the array (with the Hartree term removed) and [post] what happens to a continued row.  [None]: nothing saved. *)
Definition me_section (beta : R) (ntasks mpi_size : Z) (cfg : dict) (name kernel : string) (g : kgrid) (load : controller -> res kmesh)
    (post : list C -> list C) : res (option (list R * kmesh)) :=
  match lookup cfg name with
  | None => Ok None
  | Some v =>
    let! kw := section_kwargs v in
    let! c := maxent_init beta kernel (Some cfg) kw in
    let! do_cont := attr (c_attr c) "do_cont" in
    if truthy do_cont then
      let! mat := load c in
      let! irr := map_fbz2irrk g mat in
      let! cont := mpi_ana_cont solve gf_kkt c ntasks mpi_size irr in
      let! full := map_irrk2fbz g (a_rows cont) in
      Ok (Some (c_w c, map_mesh post full))
    else Ok None
  end.
(** lines 96-97: [sigma_dga.get_siw(me_controller.n_fit) - sigma_dga.smom0] *)
Definition load_siw (d : me_data) (c : controller) : res kmesh :=
  let! n := attr (c_attr c) "n_fit" in let! n := as_int n in Ok (map_mesh (add_num (- d_smom0 d)) (d_siw d n)).
(** lines 88-104, 128-144, 149-165, 172-188: the files in the order in which they are written *)
Definition me_sections (d : me_data) (cfg : dict) (mpi_size : Z) : list (string * res (option (list R * kmesh))) :=
  let sec := me_section (d_beta d) (nk_irr (d_qgrid d)) mpi_size cfg in
  [("MaxEntSiwk/swk_dga_cont_fbz.npy", sec "s_dga" "freq_fermionic" (d_kgrid d) (load_siw d) (add_num (d_smom0 d)));
   ("MaxEntGiwk/gwk_dga_cont_fbz.npy", sec "g_dga" "freq_fermionic" (d_kgrid d) (fun _ => Ok (d_giw d)) (fun v => v));
   ("MaxEntChiDens/chi_dens_cont_fbz.npy", sec "chi_d" "freq_bosonic" (d_qgrid d) (fun _ => d_chi_dens d) (fun v => v));
   ("MaxEntChiMagn/chi_magn_cont_fbz.npy", sec "chi_m" "freq_bosonic" (d_qgrid d) (fun _ => d_chi_magn d) (fun v => v))]%string.
(** the files that are there at the end, and the error that ended the run *)
Fixpoint run_sections (after : string -> option exn) (l : list (string * res (option (list R * kmesh)))) : list (string * (list R * kmesh)) * option exn :=
  match l with
  | [] => ([], None)
  | (_, Raise e) :: _ => ([], Some e)
  | (_, Ok None) :: l' => run_sections after l'
  | (name, Ok (Some x)) :: l' =>
    match after name with
    | Some e => ([(name, x)], Some e)
    | None => let (files, e) := run_sections after l' in ((name, x) :: files, e)
    end
  end.
Definition max_ent_run (d : me_data) (cfg : dict) (mpi_size : Z) (after : string -> option exn) : list (string * (list R * kmesh)) * option exn :=
  run_sections after (me_sections d cfg mpi_size).
End Run.
