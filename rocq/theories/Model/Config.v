(** Model of the size and symmetry bookkeeping in /repo/src/dga/config.py. *)
From Coq Require Import String.
From Verif Require Import Base.PyBase Model.BrillouinZone.
Set Implicit Arguments.
Open Scope Z_scope.

(** config.py:157-170 [BoxSizes]: the four integers.  [box_conf] is the user's
    dictionary: [None] for an absent key (other keys are not modelled). *)
Record box := Box { niw_core : Z; niv_core : Z; niv_shell : Z; niv_asympt : Z }.
Record box_conf := BoxConf { c_niw_core : option Z; c_niv_core : option Z; c_niv_shell : option Z; c_niv_asympt : option Z }.
Definition dflt (o : option Z) (d : Z) : Z := match o with Some x => x | None => d end.

(** config.py:176-178 [niv_full]; 184-187 [niv_pp]. *)
Definition niv_full (b : box) : Z := niv_shell b + niv_core b.
Definition niv_pp (b : box) : Z := Z.min (niw_core b / 2) (niv_core b / 2).

(** config.py:162-174 [BoxSizes.__init__]. *)
Definition box_init (c : box_conf) : box :=
  let b := Box (dflt (c_niw_core c) (-1)) (dflt (c_niv_core c) (-1)) (dflt (c_niv_shell c) 0) (dflt (c_niv_asympt c) (-1)) in
  if niv_asympt b =? -1
  then Box (niw_core b) (niv_core b) (niv_shell b) (niv_full b + niw_core b * 2)
  else b.

(** config.py:193-211 [BoxSizes.set_from_lfp]; [lfp_niv = lfp.niv],
    [len_wn = len(lfp.wn)]. *)
Definition set_from_lfp (b : box) (lfp_niv len_wn : Z) : res box :=
  let! b1 :=
    if niv_core b =? -1 then Ok (Box (niw_core b) lfp_niv (niv_shell b) (niv_asympt b))
    else if lfp_niv <? niv_core b then Raise ValueError else Ok b in
  let! b2 :=
    if niw_core b1 =? -1 then Ok (Box (len_wn / 2) (niv_core b1) (niv_shell b1) (niv_asympt b1))
    else if len_wn / 2 <? niw_core b1 then Raise ValueError else Ok b1 in
  Ok (if niv_asympt b2 <=? 0
      then Box (niw_core b2) (niv_core b2) (niv_shell b2) (niv_full b2 + niw_core b2 * 2)
      else b2).

(** config.py:430-445 [OpticsConfig]: the frequency sizes; -1 when not configured. *)
Record optics := Optics { niw_cond : Z; niw_bubble : Z; niw_vert : Z; niv_bubble : Z; niv_vert : Z }.

(** config.py:458-484 [OpticsConfig.set_frequency_ranges]; returns the new optics
    settings and the (possibly enlarged) box. *)
Definition set_frequency_ranges (o : optics) (b : box) : res (optics * box) :=
  let! nw_vert :=
    if niw_vert o =? -1 then Ok (niw_core b)
    else if niw_vert o <=? niw_core b then Ok (niw_vert o) else Raise AssertionError in
  let! nw_cond :=
    if niw_cond o =? -1 then Ok (niw_core b / 2)
    else if niw_cond o <? niv_core b then Ok (niw_cond o) else Raise AssertionError in
  let nv_bubble := if niv_bubble o =? -1 then niv_asympt b - nw_cond * 2 else niv_bubble o in
  let nv_vert := niv_core b - nw_cond in
  let nw_bubble := if niw_bubble o =? -1 then nw_cond else niw_bubble o in
  let b' := if niv_asympt b <=? nv_bubble + nw_bubble
            then Box (niw_core b) (niv_core b) (niv_shell b) (nv_bubble + nw_bubble) else b in
  Ok (Optics nw_cond nw_bubble nw_vert nv_bubble nv_vert, b').

(** config.py:244-262 [LatticeConfig.check_symmetries]: the user's entry is a
    string, a tuple or a (YAML) list of strings.  The result is the list of
    symmetries passed on to [KGrid]. *)
Inductive sym_input := SymStr (s : string) | SymTuple (l : list string) | SymList (l : list string).
Definition check_symmetries (s : sym_input) : res (list string) :=
  match s with
  | SymStr s =>
      if string_dec s "two_dimensional_square" then Ok two_dimensional_square_symmetries
      else if string_dec s "quasi_one_dimensional_square" then Ok quasi_one_dimensional_square_symmetries
      else if string_dec s "simultaneous_x_y_inversion" then Ok simultaneous_x_y_inversion
      else if string_dec s "" then Ok []          (* [not self.symmetries]: no k loop over "" *)
      else if string_dec s "none" then Ok []
      else Raise NotImplementedError
  | SymTuple l => Ok l  (* line 259-260: the exception is constructed but not raised *)
  | SymList [] => Ok []
  | SymList _ => Raise NotImplementedError
  end.

(** config.py:403-427 [EliashbergConfig.set_gap0_sing]/[set_gap0_trip]: the
    frequency symmetry chosen for the k symmetry [k_sym]. *)
Definition gap0_sing_v (k_sym : string) : string :=
  if string_dec k_sym "d-wave" then "even"
  else if string_dec k_sym "p-wave-x" then "odd"
  else if string_dec k_sym "p-wave-y" then "odd" else "random".
Definition gap0_trip_v (k_sym : string) : string :=
  if string_dec k_sym "d-wave" then "odd"
  else if string_dec k_sym "p-wave-x" then "even"
  else if string_dec k_sym "p-wave-y" then "even" else "random".
