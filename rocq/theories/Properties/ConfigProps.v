(** C42, C61: configuration (config.py). *)
From Coq Require Import String.
From Verif Require Import Base.PyBase Base.PyFacts Model.BrillouinZone Model.Config Spec.BZSpec Proofs.BrillouinZoneP Proofs.ConfigP.
Set Implicit Arguments.
Open Scope Z_scope.

(** ** C42: frequency boxes *)
(** Unset cores are taken from the data, set ones are kept, and whatever is
    returned fits into the data. *)
Theorem C42_set_from_lfp (b b' : box) (lfp_niv len_wn : Z) : set_from_lfp b lfp_niv len_wn = Ok b' ->
  niv_core b' = (if niv_core b =? -1 then lfp_niv else niv_core b) /\
  niw_core b' = (if niw_core b =? -1 then len_wn / 2 else niw_core b) /\
  niv_shell b' = niv_shell b /\
  niv_asympt b' = (if niv_asympt b <=? 0 then niv_core b' + niv_shell b' + 2 * niw_core b' else niv_asympt b) /\
  niv_core b' <= lfp_niv /\ niw_core b' <= len_wn / 2.
Proof. exact (@lfp_ok b lfp_niv len_wn b'). Qed.
Print Assumptions C42_set_from_lfp.
(** A configured core that exceeds the data is refused, and nothing else is. *)
Theorem C42_too_large_refused (b : box) (lfp_niv len_wn : Z) :
  (niv_core b <> -1 /\ lfp_niv < niv_core b) \/ (niw_core b <> -1 /\ len_wn / 2 < niw_core b) <->
  set_from_lfp b lfp_niv len_wn = Raise ValueError.
Proof. exact (lfp_raises b lfp_niv len_wn). Qed.
Print Assumptions C42_too_large_refused.
(** Default asymptotic window: niv_full + 2 niw_core, provided both cores are
    configured, or the value computed at construction is not positive. *)
Theorem C42_default_asympt (c : box_conf) (lfp_niv len_wn : Z) (b' : box) :
  c_niv_asympt c = None -> set_from_lfp (box_init c) lfp_niv len_wn = Ok b' ->
  (c_niw_core c <> None /\ c_niw_core c <> Some (-1) /\ c_niv_core c <> None /\ c_niv_core c <> Some (-1))
  \/ niv_asympt (box_init c) <= 0 ->
  niv_asympt b' = niv_full b' + 2 * niw_core b'.
Proof. exact (@default_asympt c lfp_niv len_wn b'). Qed.
Print Assumptions C42_default_asympt.
(** ... and refuted otherwise: only niv_shell (resp. only niv_core) configured. *)
Theorem C42_default_asympt_refuted :
  (exists b', set_from_lfp (box_init (BoxConf None None (Some 100) None)) 60 121 = Ok b' /\
     niv_asympt b' = 97 /\ niv_full b' + 2 * niw_core b' = 280) /\
  (exists b', set_from_lfp (box_init (BoxConf None (Some 40) None None)) 60 121 = Ok b' /\
     niv_asympt b' = 38 /\ niv_full b' + 2 * niw_core b' = 160).
Proof. split; eexists; (split; [reflexivity|split; reflexivity]). Qed.
Print Assumptions C42_default_asympt_refuted.
(** The pairing window: for v, v' in it, v - v' is a stored bosonic frequency and
    both lie in the core. *)
Theorem C42_pairing_window_fits (b : box) (v v' : Z) :
  - niv_pp b <= v < niv_pp b -> - niv_pp b <= v' < niv_pp b ->
  - niw_core b <= v - v' <= niw_core b /\ - niv_core b <= v < niv_core b /\ - niv_core b <= v' < niv_core b.
Proof. exact (@pp_fits b v v'). Qed.
Print Assumptions C42_pairing_window_fits.
(** Optics: defaults, refusals, and the windows they give. *)
Theorem C42_optics (o o' : optics) (b b' : box) : set_frequency_ranges o b = Ok (o', b') ->
  niw_vert o' = (if niw_vert o =? -1 then niw_core b else niw_vert o) /\ niw_vert o' <= niw_core b /\
  niw_cond o' = (if niw_cond o =? -1 then niw_core b / 2 else niw_cond o) /\
  niw_bubble o' = (if niw_bubble o =? -1 then niw_cond o' else niw_bubble o) /\
  niv_bubble o' = (if niv_bubble o =? -1 then niv_asympt b - 2 * niw_cond o' else niv_bubble o) /\
  niv_vert o' = niv_core b - niw_cond o' /\
  niw_core b' = niw_core b /\ niv_core b' = niv_core b /\ niv_shell b' = niv_shell b /\
  niv_asympt b' = Z.max (niv_asympt b) (niv_bubble o' + niw_bubble o').
Proof. exact (@optics_ok o b o' b'). Qed.
Print Assumptions C42_optics.
Theorem C42_optics_refused (o : optics) (b : box) :
  (niw_vert o <> -1 /\ niw_core b < niw_vert o) \/ (niw_cond o <> -1 /\ niv_core b <= niw_cond o) <->
  set_frequency_ranges o b = Raise AssertionError.
Proof. exact (optics_raises o b). Qed.
Print Assumptions C42_optics_refused.
Theorem C42_optics_vertex_window (o o' : optics) (b b' : box) (v w : Z) : set_frequency_ranges o b = Ok (o', b') ->
  0 <= w <= niw_cond o' -> - niv_vert o' <= v < niv_vert o' ->
  - niv_core b <= v < niv_core b /\ - niv_core b <= v - w < niv_core b.
Proof. exact (@optics_window o b o' b' v w). Qed.
Print Assumptions C42_optics_vertex_window.
Theorem C42_optics_bubble_window (o o' : optics) (b b' : box) (v w : Z) : set_frequency_ranges o b = Ok (o', b') ->
  - niv_bubble o' <= v < niv_bubble o' -> - niw_bubble o' <= w <= niw_bubble o' ->
  - niv_asympt b' <= v + w < niv_asympt b'.
Proof. exact (@optics_bubble_fits o b o' b' v w). Qed.
Print Assumptions C42_optics_bubble_window.
(** The vertex window is non-empty when niw_cond is configured or the default is small enough ... *)
Theorem C42_optics_vertex_nonempty (o o' : optics) (b b' : box) : set_frequency_ranges o b = Ok (o', b') ->
  niw_cond o <> -1 \/ niw_core b / 2 < niv_core b -> 0 < niv_vert o'.
Proof. exact (@optics_vert_positive o b o' b'). Qed.
Print Assumptions C42_optics_vertex_nonempty.
(** ... the default itself is not checked. *)
Theorem C42_optics_vertex_nonempty_refuted :
  exists o' b', set_frequency_ranges (Optics (-1) (-1) (-1) (-1) (-1)) (Box 80 30 0 190) = Ok (o', b') /\ niv_vert o' = -10.
Proof. do 2 eexists; split; reflexivity. Qed.
Print Assumptions C42_optics_vertex_nonempty_refuted.
Example ex_C42 : set_from_lfp (box_init (BoxConf (Some 20) (Some 30) (Some 50) None)) 60 121 = Ok (Box 20 30 50 120) /\
  set_frequency_ranges (Optics 10 (-1) (-1) (-1) (-1)) (Box 20 30 50 120) = Ok (Optics 10 10 20 100 20, Box 20 30 50 120).
Proof. split; reflexivity. Qed.

(** ** C61: lattice symmetries from the configuration *)
(** The symmetry names a user may write and what they stand for: the table of the
    documentation.  Any other name is refused. *)
Inductive named_symmetry : string -> list string -> Prop :=
| NSquare : named_symmetry "two_dimensional_square" ["x-inv"; "y-inv"; "x-y-sym"]%string
| NQuasi1D : named_symmetry "quasi_one_dimensional_square" ["x-inv"; "y-inv"]%string
| NSimul : named_symmetry "simultaneous_x_y_inversion" ["x-y-inv"]%string
| NNone : named_symmetry "none" []
| NEmpty : named_symmetry "" [].
Theorem C61_named_symmetry (s : string) (l : list string) :
  check_symmetries (SymStr s) = Ok l <-> named_symmetry s l.
Proof.
  split.
  - unfold check_symmetries; repeat destruct string_dec; try discriminate; intros [= <-]; subst; constructor.
  - intros []; reflexivity.
Qed.
Print Assumptions C61_named_symmetry.
Theorem C61_other_name_refused (s : string) : (forall l, ~ named_symmetry s l) -> check_symmetries (SymStr s) = Raise NotImplementedError.
Proof.
  intros H. unfold check_symmetries; repeat destruct string_dec; try reflexivity; subst; exfalso; eapply H; constructor.
Qed.
Print Assumptions C61_other_name_refused.
(** Every named symmetry is one the Brillouin-zone code knows, so that the grid can be built. *)
Theorem C61_named_symmetry_known (s : string) (l : list string) :
  check_symmetries (SymStr s) = Ok l -> Forall (fun x => In x KNOWN_SYMMETRIES) l.
Proof. intros h; apply Forall_forall; exact (check_str_known s h). Qed.
Print Assumptions C61_named_symmetry_known.
(** No configuration with an unknown symmetry yields a momentum grid. *)
Theorem C61_unknown_never_a_grid (nx ny nz : Z) (si : sym_input) (syms rest : list string) (s : string) :
  0 < nx -> 0 < ny -> 0 < nz -> Forall known syms -> ~ known s ->
  si = SymTuple (syms ++ s :: rest) \/ si = SymList (syms ++ s :: rest) ->
  forall l g, check_symmetries si = Ok l -> make_kgrid nx ny nz l <> Ok g.
Proof.
  intros hx hy hz hk hs [-> | ->] l g; cbn [check_symmetries].
  - intros [= <-]. rewrite (unknown_raises rest hx hy hz hk hs); discriminate.
  - destruct syms; discriminate.
Qed.
Print Assumptions C61_unknown_never_a_grid.
(** Finding: the configuration check itself lets an unknown symmetry in a tuple
    pass (it is caught only when the grid is built), and refuses every non-empty
    list, which is what a YAML sequence is loaded as, even of known symmetries. *)
Theorem C61_list_of_known_refused_finding (x : string) (l : list string) :
  check_symmetries (SymList (x :: l)) = Raise NotImplementedError.
Proof. reflexivity. Qed.
Print Assumptions C61_list_of_known_refused_finding.
Theorem C61_unknown_tuple_passes_check_finding (l : list string) : check_symmetries (SymTuple l) = Ok l.
Proof. reflexivity. Qed.
Print Assumptions C61_unknown_tuple_passes_check_finding.
Example ex_C61 : check_symmetries (SymStr "two_dimensional_square") = Ok ["x-inv"; "y-inv"; "x-y-sym"]%string /\
  check_symmetries (SymStr "hexagonal") = Raise NotImplementedError.
Proof. split; reflexivity. Qed.
