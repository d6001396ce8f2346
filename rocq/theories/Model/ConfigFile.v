(** Model of the evaluation of the configuration file: the config classes of /repo/src/dga/config.py. *)
From Coq Require Import String Ascii.
From Verif Require Import Base.PyBase Model.Config.
Set Implicit Arguments.
Local Open Scope string_scope.
Local Open Scope list_scope.
Local Open Scope Z_scope.

(** * Values and objects *)
(** What the YAML loader returns; [YFloat] keeps the text of the number.  Dictionary keys are strings (other keys are
    not modelled). *)
Inductive yaml :=
| YNull | YBool (b : bool) | YInt (z : Z) | YFloat (s : string) | YStr (s : string)
| YList (l : list yaml) | YDict (l : list (string * yaml)).

(** A Python dictionary, in insertion order. *)
Definition dict (V : Type) := list (string * V).
Fixpoint get {V} (d : dict V) (k : string) : option V :=
  match d with [] => None | (k', v) :: d' => if String.eqb k k' then Some v else get d' k end.
Fixpoint put {V} (d : dict V) (k : string) (v : V) : dict V :=
  match d with [] => [(k, v)] | (k', v') :: d' => if String.eqb k k' then (k, v) :: d' else (k', v') :: put d' k v end.
(** [d.update(e)] *)
Definition update {V} (d e : dict V) : dict V := fold_left (fun d kv => put d (fst kv) (snd kv)) e d.
Definition has {V} (d : dict V) (k : string) : bool := match get d k with Some _ => true | None => false end.

(** config.py:70-76 [ConfigBase.update_dict]: [self.__dict__.update(kwargs)]; [**x] needs a mapping. *)
Definition update_dict (o : dict yaml) (kwargs : yaml) : res (dict yaml) :=
  match kwargs with YDict e => Ok (update o e) | _ => Raise TypeError end.
(** [if config_dict is not None: self.update_dict( **config_dict)] *)
Definition update_opt (o : dict yaml) (kwargs : yaml) : res (dict yaml) :=
  match kwargs with YNull => Ok o | _ => update_dict o kwargs end.

(** [x == n] for an integer [n], and [x + y], [x * 2] on numbers; floats are not modelled (not equal to an
    integer, TypeError in sums); booleans count as 0 and 1. *)
Definition is_int (x : option yaml) (n : Z) : bool := match x with Some (YInt z) => z =? n | _ => false end.
Definition as_int (x : option yaml) : res Z :=
  match x with Some (YInt z) => Ok z | Some (YBool b) => Ok (Z.b2z b) | _ => Raise TypeError end.

(** config.py:162-172 [BoxSizes.__init__] *)
Definition box_default : dict yaml :=
  [("niw_core", YInt (-1)); ("niv_core", YInt (-1)); ("niv_shell", YInt 0); ("niv_asympt", YInt (-1))].
Definition box_sizes (config_dict : yaml) : res (dict yaml) :=
  let! o := update_opt box_default config_dict in
  if is_int (get o "niv_asympt") (-1) then
    let! s := as_int (get o "niv_shell") in
    let! c := as_int (get o "niv_core") in
    let! w := as_int (get o "niw_core") in
    Ok (put o "niv_asympt" (YInt (s + c + w * 2)))
  else Ok o.

(** Python truth value. *)
Definition truthy (x : yaml) : bool :=
  match x with
  | YNull => false | YBool b => b | YInt z => negb (z =? 0)
  | YFloat s => negb (String.eqb s "0.0")
  | YStr s => negb (String.eqb s "") | YList l => match l with [] => false | _ => true end
  | YDict l => match l with [] => false | _ => true end
  end.
(** config.py:244-261 [check_symmetries] on what the loader returns (lists are not tuples); a falsy value is kept,
    [KGrid] then has no symmetry to loop over. *)
Definition check_syms (x : yaml) : res (list string) :=
  match x with
  | YStr s => check_symmetries (SymStr s)
  | _ => if truthy x then Raise NotImplementedError else Ok []
  end.
Definition iterable (x : yaml) : bool := match x with YList _ | YStr _ | YDict _ => true | _ => false end.

Section Cfg.
(** [kgrid nk symmetries]: building [bz.KGrid], giving the number of irreducible points; [read_hr f]: loading a
    Wannier90 file; both are modelled elsewhere and arbitrary here. *)
Variable kgrid : yaml -> list string -> res Z.
Variable read_hr : string -> res unit.

(** config.py:271-281 [set_hr] *)
Definition set_hr (type hr_input : yaml) : res unit :=
  match type with
  | YStr t =>
      if String.eqb t "t_tp_tpp" then
        match hr_input with
        | YList l => if (Z.of_nat (List.length l) =? 3) then Ok tt else Raise TypeError
        | YStr s => if (Z.of_nat (String.length s) =? 3) then Ok tt else Raise TypeError
        | YDict l => if (Z.of_nat (List.length l) =? 3) then Ok tt else Raise TypeError
        | _ => Raise TypeError
        end
      else if String.eqb t "from_wannier90" then match hr_input with YStr f => read_hr f | _ => Raise AssertionError end
      else Raise NotImplementedError
  | _ => Raise NotImplementedError
  end.

(** config.py:216-242 [LatticeConfig.__init__]: the attributes and [k_grid.nk_irr].  Simplifications: the hopping
    values themselves are not checked here; [nk], [nq] keep their list form, a tuple of symmetries is a list. *)
Definition lattice_default : dict yaml :=
  [("nk", YList [YInt 16; YInt 16; YInt 1]); ("nq", YList [YInt 16; YInt 16; YInt 1]); ("symmetries", YList []);
   ("hr_input", YNull); ("type", YNull)].
Definition dget (o : dict yaml) (k : string) : yaml := match get o k with Some v => v | None => YNull end.
Definition lattice_config (config_dict : yaml) : res (dict yaml * Z) :=
  let! o := update_dict lattice_default config_dict in
  let o := match config_dict with YDict e => if has e "nq" then o else put o "nq" (dget o "nk") | _ => o end in
  let! syms := check_syms (dget o "symmetries") in
  let o := match dget o "symmetries" with
           | YStr s => if String.eqb s "" then o else put o "symmetries" (YList (map YStr syms))
           | _ => o end in
  if negb (iterable (dget o "nk")) then Raise TypeError else
  if negb (iterable (dget o "nq")) then Raise TypeError else
  let! nk_irr := kgrid (dget o "nk") syms in
  let! _ := kgrid (dget o "nq") syms in
  match dget o "type" with
  | YNull => Raise ValueError
  | t => let! _ := set_hr t (dget o "hr_input") in Ok (o, nk_irr)
  end.

(** config.py:384-425 [EliashbergConfig.__init__], [set_gap0]: a non-string [k_sym] counts as an unknown name. *)
Definition eliash_default : dict yaml :=
  [("output_path", YNull); ("do_pairing_vertex", YBool false); ("do_eliash", YBool false); ("gap0_sing", YNull); ("gap0_trip", YNull);
   ("n_eig", YInt 2); ("k_sym", YStr "random"); ("sym_sing", YBool true); ("sym_trip", YBool true); ("eps", YFloat "1e-06"); ("max_count", YInt 10000)].
Definition gap0 (v_of : string -> string) (k_sym : yaml) : yaml :=
  YDict [("k", k_sym); ("v", YStr (match k_sym with YStr s => v_of s | _ => "random" end))].
Definition eliash_config (config_dict : yaml) : res (dict yaml) :=
  let! o := update_opt eliash_default config_dict in
  let o := put o "gap0_sing" (gap0 gap0_sing_v (dget o "k_sym")) in
  Ok (put o "gap0_trip" (gap0 gap0_trip_v (dget o "k_sym"))).

(** config.py:433-444 [OpticsConfig.__init__]; 492-496 [DebugConfig.__init__] *)
Definition optics_default : dict yaml :=
  [("output_path", YNull); ("do_bubble", YBool false); ("do_vertex", YBool false); ("der_a", YInt 0); ("der_b", YInt 0); ("niw_cond", YInt (-1));
   ("niw_bubble", YInt (-1)); ("niw_vert", YInt (-1)); ("niv_bubble", YInt (-1)); ("niv_vert", YInt (-1))].
Definition optics_config (config_dict : yaml) : res (dict yaml) := update_opt optics_default config_dict.
Definition debug_config (config_dict : yaml) : res (dict yaml) := update_opt [("keep_rank_files", YBool false)] config_dict.

(** * DgaConfig *)
(** The attributes of the configuration object. *)
Inductive attr :=
| AY (y : yaml) | ABox (d : dict yaml) | ALattice (d : dict yaml) (nk_irr : Z) | AEliash (d : dict yaml) | AOptics (d : dict yaml)
| ADebug (d : dict yaml) | AComm (size : option Z).
Definition lift (d : dict yaml) : dict attr := map (fun kv => (fst kv, AY (snd kv))) d.
(** [if section in conf_file: self.update_dict( **conf_file[section])] *)
Definition section (conf : dict yaml) (name : string) (o : dict attr) : res (dict attr) :=
  match get conf name with
  | None => Ok o
  | Some (YDict e) => Ok (update o (lift e))
  | Some _ => Raise TypeError
  end.
Definition sub (conf : dict yaml) (name : string) : yaml := match get conf name with Some y => y | None => YNull end.

(** config.py:513-595 [DgaConfig.__init__]; [size] is [comm.size], [None] without communicator.  The class attributes
    (504-511) appear as [do_poly_fitting = False]; the choice of the plotting backend is not modelled (but [in] on
    something that is not a mapping raises before, in [section]). *)
Definition dga_config (conf_file : yaml) (size : option Z) : res (dict attr) :=
  match conf_file with
  | YDict conf =>
      let! box := box_sizes (sub conf "box_sizes") in
      let! lat := (match get conf "lattice" with Some l => lattice_config l | None => Raise ValueError end) in
      let! eli := eliash_config (sub conf "pairing") in
      let! opt := optics_config (sub conf "optics") in
      let! dbg := debug_config (sub conf "debug") in
      let o := [("do_poly_fitting", AY (YBool false)); ("output_path", AY YNull); ("comm", AComm size); ("box", ABox box);
                ("lattice", ALattice (fst lat) (snd lat)); ("eliash", AEliash eli); ("optics", AOptics opt); ("debug", ADebug dbg);
                ("n_fit", AY (YInt 4)); ("o_fit", AY (YInt 3))] in
      let o := if has conf "poly_fitting" then put o "do_poly_fitting" (AY (YBool true)) else o in
      let! o := section conf "poly_fitting" o in
      let o := update o (lift [("type", YStr "w2dyn"); ("input_path", YStr "./"); ("fname_1p", YStr "1p-data.hdf5");
                               ("fname_2p", YStr "g4iw_sym.hdf5"); ("do_sym_v_vp", YBool true)]) in
      let! o := section conf "dmft_input" o in
      let o := update o (lift [("save_vrg", YBool false); ("save_fq", YBool false); ("keep_fq_optics", YBool false);
                               ("keep_pairing_vertex", YBool true); ("verbosity", YInt 1)]) in
      let! o := section conf "output" o in
      let o := put o "lambda_corr" (AY (YStr "spch")) in
      let! o := section conf "dga" o in
      match size with
      | None => Ok o
      | Some n => match get o "lattice" with
                  | Some (ALattice _ nk_irr) => if nk_irr <? n then Raise ValueError else Ok o
                  | _ => Raise AttributeError
                  end
      end
  | _ => Raise TypeError
  end.

(** config.py:84-100 [as_dict] on an object with plain values: the attributes whose name does not start with "_". *)
Definition underscored (k : string) : bool := match k with String c _ => Ascii.eqb c "_" | EmptyString => false end.
Definition as_dict (o : dict yaml) : dict yaml := filter (fun kv => negb (underscored (fst kv))) o.

(** config.py:39-54 [parse_config_file]: rank 0 reads [file], everybody evaluates what rank 0 broadcasts. *)
Definition parse_config_file (file : nat -> yaml) (size : Z) (rank : nat) : res (dict attr * yaml) :=
  let conf_file := if Nat.eqb rank 0 then file rank else YNull in
  let conf_file := if Nat.eqb rank 0 then conf_file else file 0%nat in
  let! o := dga_config conf_file (Some size) in Ok (o, conf_file).
End Cfg.

(** config.py:685-736 [get_default_config_dict] with its 'box' section replaced by [box]. *)
Definition default_config (box : yaml) : dict yaml :=
  [("box", box);
   ("lattice", YDict [("symmetries", YStr "two_dimensional_square"); ("type", YStr "t_tp_tpp");
                      ("hr_input", YList [YFloat "1.0"; YFloat "-0.2"; YFloat "0.1"]); ("nk", YList [YInt 24; YInt 24; YInt 1])]);
   ("dga", YDict [("lambda_corr", YStr "spch"); ("gui", YStr "Agg")]);
   ("dmft_input", YDict [("fname_1p", YStr "1p-data.hdf5"); ("fname_2p", YStr "g4iw_sym.hdf5"); ("input_path", YStr "./"); ("type", YStr "w2dyn")]);
   ("poly_fitting", YDict [("n_fit", YInt 4); ("o_fit", YInt 3)]);
   ("optics", YDict [("do_bubble", YBool false); ("do_vertex", YBool false); ("der_a", YInt 0); ("der_b", YInt 0); ("niw_cond", YInt (-1));
                     ("niw_vert", YInt (-1)); ("niv_bubble", YInt (-1)); ("niv_vert", YInt (-1))]);
   ("pairing", YDict [("do_eliash", YBool false); ("do_pairing_vertex", YBool false); ("k_sym", YStr "random")]);
   ("output", YDict [("save_vrg", YBool false); ("save_fq", YBool false)]);
   ("debug", YDict [("keep_rank_files", YBool false)])].
