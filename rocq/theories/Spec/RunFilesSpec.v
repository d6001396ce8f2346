(** Vocabulary for the files of a whole run. *)
From Coq Require Import List String Bool Arith.
From Verif Require Import Model.RunFiles.
Import ListNotations.
Local Open Scope string_scope.
Local Open Scope list_scope.
Local Open Scope nat_scope.

(** The rank has ended normally. *)
Definition finished (j : job) (r : nat) : Prop := j_todo j r = [].
(** The next thing the rank does is an action that raises. *)
Definition raises (j : job) (r : nat) : Prop :=
  exists a l, j_todo j r = a :: l /\ (forall c, a <> Sync c) /\ perform (j_disk j) a = None.
(** The rank is in an MPI operation. *)
Definition waiting (j : job) (r : nat) : Prop := exists c l, j_todo j r = Sync c :: l.
(** Nothing can happen any more. *)
Definition stuck (n : nat) (j : job) : Prop := forall j', ~ step n j j'.
(** The settings fit together: the Eliashberg equation needs the pairing vertex, and an optics section needs the bubble. *)
Definition fitting (fl : flags) : Prop :=
  (do_eliash fl = true -> do_pairing fl = true) /\ (optics_section fl = true -> do_bubble fl = true).
(** Runs with their number of steps. *)
Inductive run_len (n : nat) (d : disk) (prog : nat -> list action) : nat -> job -> Prop :=
| len_0 : run_len n d prog 0 (start d prog)
| len_S : forall k j j', run_len n d prog k j -> step n j j' -> run_len n d prog (S k) j'.
(** All actions of all ranks. *)
Definition total_len (n : nat) (prog : nat -> list action) : nat := list_sum (map (fun r => List.length (prog r)) (seq 0 n)).

(** * The files a user finds after the run *)
Definition given (b : bool) (names : list string) : list string := if b then names else [].
(** everything that is written in the output folder at some time *)
Definition written_files (fl : flags) : list string :=
  ["dmft_input.npy"; "wannier_hr.dat"; "dga_config.yaml"] ++
  given (poly fl) ["PolyFits/Giwk_dmft_poly_cont_.npy"; "PolyFits/Siw_DMFT_polyfit.txt"] ++
  given (verbose fl) ["gamma_dens.npy"; "gamma_magn.npy"; "siw_sde_full.npy"; "chi_dens_loc.npy"; "chi_magn_loc.npy"] ++
  given (save_vrg fl) ["vrg_q_magn.npy"; "vrg_q_dens.npy"] ++
  ["chi_dens_lam.npy"; "chi_magn_lam.npy"; "lambda.txt"; "UniformStaticSusceptibility.txt"] ++
  given (do_pairing fl) ["Eliashberg/F_sing_pp.npy"; "Eliashberg/F_trip_pp.npy"] ++
  given (do_vertex fl) ["Optics/F_cond.npy"] ++
  given (save_fq fl) ["F_dens.npy"; "F_magn.npy"] ++
  ["oz_coeff.txt"; "siwk_dga.npy"; "giwk_dga.npy"; "mu.txt"; "energies.txt"] ++
  given (poly fl) ["PolyFits/Siwk_poly_cont_.npy"; "PolyFits/Giwk_dga_poly_cont_.npy"] ++
  given (do_eliash fl) ["Eliashberg/eliashberg_config.yaml"; "Eliashberg/eliashberg.npy"; "Eliashberg/eigenvalues.txt"; "Eliashberg/eigenvalues_s.txt"] ++
  given (optics_section fl) ["Optics/optics_config.yaml"] ++
  given (do_bubble fl) ["Optics/chijj_bubble.npy"] ++
  given (do_vertex fl) ["Optics/chijj_vert.npy"] ++
  given (optics_section fl && optics_me fl) ["Optics/sigma_bubble_cont.npy"; "Optics/sigma_full_cont.npy"; "Optics/w.npy"] ++
  given (me_section fl && me_loc fl) ["MaxEnt/dmft_cont.npy"; "MaxEnt/dga_cont.npy"] ++
  given (me_section fl && me_s fl) ["MaxEntSiwk/swk_dga_cont_fbz.npy"; "MaxEntSiwk/w.npy"; "MaxEntSiwk/gwk_dga_cont_fbz.npy"; "MaxEntSiwk/sigma_bub.npy"; "MaxEntSiwk/w_bub.npy"] ++
  given (me_section fl && me_g fl) ["MaxEntGiwk/gwk_dga_cont_fbz.npy"; "MaxEntGiwk/w.npy"] ++
  given (me_section fl && me_chi_d fl) ["MaxEntChiDens/chi_dens_cont_fbz.npy"; "MaxEntChiDens/w.npy"] ++
  given (me_section fl && me_chi_m fl) ["MaxEntChiMagn/chi_magn_cont_fbz.npy"; "MaxEntChiMagn/w.npy"].
(** what is removed again *)
Definition removed_files (fl : flags) : list string :=
  given (do_eliash fl && negb (keep_pairing fl)) ["Eliashberg/F_sing_pp.npy"; "Eliashberg/F_trip_pp.npy"] ++
  given (optics_section fl && optics_me fl && negb (keep_fq_optics fl)) ["Optics/F_cond.npy"].
(** the groups in the file of a rank *)
Definition rank_groups (fl : flags) : list string :=
  given (do_pairing fl) ["pv_dens"; "pv_magn"] ++ given (do_vertex fl) ["f_dens"; "f_magn"] ++ given (save_fq fl) ["fq_dens"; "fq_magn"].
