(** Vocabulary for the configuration file (C97): what the file says, what the manual documents. *)
From Coq Require Import String.
From Verif Require Import Base.PyBase Model.ConfigFile.
Set Implicit Arguments.
Local Open Scope string_scope.
Local Open Scope list_scope.
Local Open Scope Z_scope.

(** A mapping as a YAML loader returns it: no key twice. *)
Definition mapping {V} (d : list (string * V)) : Prop := NoDup (map fst d).
(** The file: a mapping whose sections, where they are mappings, have no key twice. *)
Definition config_file (conf : list (string * yaml)) : Prop :=
  mapping conf /\ forall s e, In (s, YDict e) conf -> mapping e.

(** The file gives the value [v] to [key] in the section [s]; the section [s] is silent about [key]. *)
Definition says (conf : list (string * yaml)) (s key : string) (v : yaml) : Prop :=
  exists e, In (s, YDict e) conf /\ In (key, v) e.
Definition silent (conf : list (string * yaml)) (s key : string) : Prop := forall v, ~ says conf s key v.
Definition absent {V} (conf : list (string * V)) (s : string) : Prop := forall v, ~ In (s, v) conf.

(** The documented settings that end up as attributes of the configuration itself: section, key, default. *)
Inductive documented : string -> string -> yaml -> Prop :=
| D_n_fit : documented "poly_fitting" "n_fit" (YInt 4)
| D_o_fit : documented "poly_fitting" "o_fit" (YInt 3)
| D_type : documented "dmft_input" "type" (YStr "w2dyn")
| D_input_path : documented "dmft_input" "input_path" (YStr "./")
| D_fname_1p : documented "dmft_input" "fname_1p" (YStr "1p-data.hdf5")
| D_fname_2p : documented "dmft_input" "fname_2p" (YStr "g4iw_sym.hdf5")
| D_do_sym : documented "dmft_input" "do_sym_v_vp" (YBool true)
| D_save_vrg : documented "output" "save_vrg" (YBool false)
| D_save_fq : documented "output" "save_fq" (YBool false)
| D_keep_fq : documented "output" "keep_fq_optics" (YBool false)
| D_keep_pv : documented "output" "keep_pairing_vertex" (YBool true)
| D_verbosity : documented "output" "verbosity" (YInt 1)
| D_lambda : documented "dga" "lambda_corr" (YStr "spch").
(** These four sections share one name space; the order in which they are read. *)
Definition shared_sections : list string := ["poly_fitting"; "dmft_input"; "output"; "dga"].
Inductive read_after : string -> string -> Prop :=
| RA (l m r : list string) s t : shared_sections = l ++ s :: m ++ t :: r -> read_after t s.

(** The settings of the sections that build an object of their own: section, attribute, key, default. *)
Inductive documented_sub : string -> string -> string -> yaml -> Prop :=
| S_niw : documented_sub "box_sizes" "box" "niw_core" (YInt (-1))
| S_niv : documented_sub "box_sizes" "box" "niv_core" (YInt (-1))
| S_shell : documented_sub "box_sizes" "box" "niv_shell" (YInt 0)
| S_nk : documented_sub "lattice" "lattice" "nk" (YList [YInt 16; YInt 16; YInt 1])
| S_hr : documented_sub "lattice" "lattice" "hr_input" YNull
| S_ltype : documented_sub "lattice" "lattice" "type" YNull
| S_dopv : documented_sub "pairing" "eliash" "do_pairing_vertex" (YBool false)
| S_doel : documented_sub "pairing" "eliash" "do_eliash" (YBool false)
| S_neig : documented_sub "pairing" "eliash" "n_eig" (YInt 2)
| S_ksym : documented_sub "pairing" "eliash" "k_sym" (YStr "random")
| S_ssym : documented_sub "pairing" "eliash" "sym_sing" (YBool true)
| S_tsym : documented_sub "pairing" "eliash" "sym_trip" (YBool true)
| S_eps : documented_sub "pairing" "eliash" "eps" (YFloat "1e-06")
| S_max : documented_sub "pairing" "eliash" "max_count" (YInt 10000)
| S_dob : documented_sub "optics" "optics" "do_bubble" (YBool false)
| S_dov : documented_sub "optics" "optics" "do_vertex" (YBool false)
| S_dera : documented_sub "optics" "optics" "der_a" (YInt 0)
| S_derb : documented_sub "optics" "optics" "der_b" (YInt 0)
| S_niwc : documented_sub "optics" "optics" "niw_cond" (YInt (-1))
| S_niwb : documented_sub "optics" "optics" "niw_bubble" (YInt (-1))
| S_niwv : documented_sub "optics" "optics" "niw_vert" (YInt (-1))
| S_nivb : documented_sub "optics" "optics" "niv_bubble" (YInt (-1))
| S_nivv : documented_sub "optics" "optics" "niv_vert" (YInt (-1))
| S_keep : documented_sub "debug" "debug" "keep_rank_files" (YBool false).

(** The attribute [a] of the configuration [o] has the value [v]. *)
Definition attribute (o : dict attr) (a : string) (v : yaml) : Prop := get o a = Some (AY v).
(** The attribute [a] is an object whose attribute [key] is [v]. *)
Definition sub_attribute (o : dict attr) (a key : string) (v : yaml) : Prop :=
  exists d n, (get o a = Some (ABox d) \/ get o a = Some (ALattice d n) \/ get o a = Some (AEliash d) \/ get o a = Some (AOptics d)
               \/ get o a = Some (ADebug d)) /\ get d key = Some v.
Definition section_names : list string :=
  ["box_sizes"; "lattice"; "pairing"; "optics"; "debug"; "poly_fitting"; "dmft_input"; "output"; "dga"].

(** The value of a setting of one section with default [d]. *)
Definition setting (e : list (string * yaml)) (key : string) (d v : yaml) : Prop := In (key, v) e \/ (absent e key /\ v = d).
(** What the section [s] says, when it is there: a missing section, and one without content (null), says nothing. *)
Definition contents (conf : list (string * yaml)) (s : string) (e : list (string * yaml)) : Prop :=
  (absent conf s /\ e = []) \/ (In (s, YNull) conf /\ e = []) \/ In (s, YDict e) conf.
(** A section that may be missing but not empty. *)
Definition missing_or_mapping (conf : list (string * yaml)) (s : string) : Prop := absent conf s \/ exists e, In (s, YDict e) conf.

(** The names of symmetry groups (see C61). *)
Definition symmetry_names : list (string * list string) :=
  [("two_dimensional_square", ["x-inv"; "y-inv"; "x-y-sym"]); ("quasi_one_dimensional_square", ["x-inv"; "y-inv"]);
   ("simultaneous_x_y_inversion", ["x-y-inv"]); ("none", []); ("", [])].
Definition no_symmetry (y : yaml) : Prop := y = YNull \/ y = YBool false \/ y = YInt 0 \/ y = YFloat "0.0" \/ y = YList [] \/ y = YDict [].
Definition sequence (y : yaml) : Prop := (exists l, y = YList l) \/ (exists s, y = YStr s) \/ (exists l, y = YDict l).
Definition three_values (y : yaml) : Prop :=
  (exists a b c, y = YList [a; b; c]) \/ (exists s, y = YStr s /\ String.length s = 3%nat) \/ (exists a b c, y = YDict [a; b; c]).

(** An acceptable lattice section with [n] irreducible k points. *)
Definition lattice_acceptable (kgrid : yaml -> list string -> res Z) (read_hr : string -> res unit) (e : list (string * yaml)) (n : Z) : Prop :=
  exists nk nq sy hr ty syms m,
    setting e "nk" (YList [YInt 16; YInt 16; YInt 1]) nk /\ setting e "nq" nk nq /\ setting e "symmetries" (YList []) sy /\
    setting e "hr_input" YNull hr /\ setting e "type" YNull ty /\
    ((exists s, sy = YStr s /\ In (s, syms) symmetry_names) \/ (no_symmetry sy /\ syms = [])) /\
    sequence nk /\ sequence nq /\ kgrid nk syms = Ok n /\ kgrid nq syms = Ok m /\
    ((ty = YStr "t_tp_tpp" /\ three_values hr) \/ (ty = YStr "from_wannier90" /\ exists f, hr = YStr f /\ read_hr f = Ok tt)).
(** An integer; true and false count as 1 and 0. *)
Definition integer (y : yaml) (z : Z) : Prop := y = YInt z \/ (exists b, y = YBool b /\ z = Z.b2z b).
(** An acceptable box: if the asymptotic range is to be computed, the others are integers. *)
Definition box_acceptable (e : list (string * yaml)) : Prop :=
  exists a, setting e "niv_asympt" (YInt (-1)) a /\
    (a <> YInt (-1) \/ exists c w s c' w' s', setting e "niv_core" (YInt (-1)) c /\ setting e "niw_core" (YInt (-1)) w /\
                               setting e "niv_shell" (YInt 0) s /\ integer c c' /\ integer w w' /\ integer s s').
(** The configurations that are accepted, on [size] processes ([None]: without MPI). *)
Definition acceptable (kgrid : yaml -> list string -> res Z) (read_hr : string -> res unit) (conf : list (string * yaml)) (size : option Z) : Prop :=
  (exists e, contents conf "box_sizes" e /\ box_acceptable e) /\
  (exists e, contents conf "pairing" e) /\ (exists e, contents conf "optics" e) /\ (exists e, contents conf "debug" e) /\
  Forall (missing_or_mapping conf) shared_sections /\
  exists e n, In ("lattice", YDict e) conf /\ lattice_acceptable kgrid read_hr e n /\
    match size with None => True | Some p => p <= n /\ Forall (fun s => silent conf s "lattice") shared_sections end.

(** [conf'] is [conf] with the entry [k : v] added to the section [s], which is there and does not have that key. *)
Definition one_more_key (conf : list (string * yaml)) (s k : string) (v : yaml) (conf' : list (string * yaml)) : Prop :=
  exists l e r, conf = l ++ (s, YDict e) :: r /\ absent e k /\ conf' = l ++ (s, YDict (e ++ [(k, v)])) :: r.
(** The keys the object sections know. *)
Inductive known_sub : string -> string -> Prop :=
| K_doc s a key d : documented_sub s a key d -> known_sub s key
| K_asympt : known_sub "box_sizes" "niv_asympt"
| K_nq : known_sub "lattice" "nq"
| K_symm : known_sub "lattice" "symmetries".
(** Two configurations with the same attributes. *)
Definition same_object (x y : attr) : Prop :=
  match x, y with
  | ABox _, ABox _ | ALattice _ _, ALattice _ _ | AEliash _, AEliash _ | AOptics _, AOptics _ | ADebug _, ADebug _ => True
  | _, _ => x = y
  end.
