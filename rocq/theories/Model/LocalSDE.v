(** Model of /repo/src/dga/local_four_point.py lines 152-155, 176-178, 225-252 and 561-613: the routines that combine
    several transferred frequencies.  Arrays are nested lists [w][v][vp] over an arbitrary field F (complex128 in the
    code); F must have 2 <> 0 where a theorem says so. *)
From mathcomp Require Import all_ssreflect all_algebra.
From Coq Require Import String.
From Verif Require Import Base.PyBase Model.Matsubara Model.LocalFourPoint.
Set Implicit Arguments. Unset Strict Implicit. Unset Printing Implicit Defensive.
Import GRing.Theory.
Local Open Scope ring_scope.

Section Model.
Variable F : fieldType.
(** np.sum of a one-dimensional array, and np.sum(axis=0) of an array with [n] columns *)
Definition lsum (l : list F) : F := \sum_(x <- l) x.
Definition sum_axis0 (n : Z) (rows : list (list F)) : list F := List.map (fun j => lsum (col j rows)) (range n).
(** shape[-1] of a two-dimensional array *)
Definition ncols T (m : list (list T)) : Z := match m with r :: _ => zlen r | [::] => 0%Z end.
(** elementwise operation with numpy's broadcasting of a right operand of length one *)
Definition np_map2b A B C (f : A -> B -> C) (l : list A) (m : list B) : res (list C) :=
  if (zlen l =? zlen m)%Z then Ok (map2 f l m)
  else match m with b :: nil => Ok (List.map (fun a => f a b) l) | _ => Raise ValueError end.
Fixpoint sequence A (l : list (res A)) : res (list A) :=
  match l with nil => Ok nil | x :: xs => let! a := x in let! b := sequence xs in Ok (a :: b) end.

(** lines 152-155 [contract_legs] of a four-point array: 1/beta^2 times the sum over the axes 1 and 2. *)
Definition contract_legs (beta : F) (m : list (list (list F))) : list F :=
  List.map (fun mw => 1 / beta ^+ 2 * lsum (List.map lsum mw)) m.

(** lines 176-178 [symmetrize_v_vp], one w; the array is square [n x n]. *)
Definition symmetrize_v_vp (n : Z) (m : list (list F)) : res (list (list F)) :=
  let! rows := np_map2 (np_map2 (fun a b => 1 / 2%:R * (a + b))) m (transpose n m) in sequence rows.

(** lines 225-232 [get_ggv]. *)
Definition get_ggv (giw : list F) (niv_ggv : Z) : list (list F) :=
  let niv := (zlen giw / 2)%Z in
  let niv_ggv := if (niv_ggv =? -1)%Z then niv else niv_ggv in
  let g := slice giw (niv - niv_ggv) (niv + niv_ggv) in
  List.map (fun a => List.map (fun b => a * b) g) g.

(** [mat[wn == 0]] combined with [ggv] (broadcast over the selected frequencies); the mask must have the length of
    axis 0 (IndexError otherwise). *)
Definition at_w0 (wn : list Z) (f g : list (list F) -> res (list (list F))) (m : list (list (list F))) : res (list (list (list F))) :=
  if (zlen wn =? zlen m)%Z then sequence (map2 (fun w mw => if (w =? 0)%Z then f mw else g mw) wn m) else Raise IndexError.
Definition comb2 (f : F -> F -> F) (a b : list (list F)) : res (list (list F)) :=
  let! rows := np_map2b (np_map2b f) a b in sequence rows.
Definition map22 (f : F -> F) (m : list (list F)) : list (list F) := List.map (List.map f) m.
(** niv of a [w,v,vp] array (lines 138-140): half of shape[-1] *)
Definition niv3 (m : list (list (list F))) : Z := niv_from_len (last_dim m) false.

(** lines 235-242 [gchir_from_g2]. *)
Definition gchir_from_g2 (channel : string) (beta : F) (wn : list Z) (g2 : list (list (list F))) (giw : list F) : res (list (list (list F))) :=
  if String.eqb channel "dens" && existsb (Z.eqb 0) wn then
    let ggv := get_ggv giw (niv3 g2) in
    at_w0 wn (fun m => comb2 (fun x y => beta * (x - 2%:R * y)) m ggv) (fun m => Ok (map22 (fun x => beta * x) m)) g2
  else Ok (List.map (map22 (fun x => beta * x)) g2).
(** lines 245-252 [g2_from_chir]. *)
Definition g2_from_chir (channel : string) (beta : F) (wn : list Z) (chir : list (list (list F))) (giw : list F) : res (list (list (list F))) :=
  if String.eqb channel "dens" && existsb (Z.eqb 0) wn then
    let ggv := get_ggv giw (niv3 chir) in
    at_w0 wn (fun m => comb2 (fun x y => 1 / beta * x + 2%:R * y) m ggv) (fun m => Ok (map22 (fun x => 1 / beta * x) m)) chir
  else Ok (List.map (map22 (fun x => 1 / beta * x)) chir).

(** two_point.py:19-22 [get_smom0]. *)
Definition get_smom0 (u n : F) : F := u * n / 2%:R.

(** sum over w of rows [k_w * g_w] (pointwise), as np.sum(kernel * mat_grid, axis=0) *)
Definition sum_w (n : Z) (kernel grid : list (list F)) : res (list F) :=
  let! rows := np_map2 (np_map2 (fun k g => k * g)) kernel grid in
  let! rows := sequence rows in Ok (sum_axis0 n rows).

(** lines 561-568 [schwinger_dyson_vrg]; [u_r] and niv are those of the vrg object, whose array is [w][v]. *)
Definition schwinger_dyson_vrg (beta ur : F) (wn : list Z) (vrg : list (list F)) (chir : list F) (giw : list F) : res (list F) :=
  let niv := niv_from_len (ncols vrg) false in
  let! grid := wn_slices_gen giw niv wn in
  let! kernel := np_map2 (fun c row => List.map (fun g => 1 - (1 - ur * c) * g) row) chir vrg in
  let! s := sum_w (ncols vrg) kernel grid in
  Ok (List.map (fun x => ur / 2%:R * 1 / beta * x) s).

(** lines 571-576 [schwinger_dyson_shell]. *)
Definition schwinger_dyson_shell (beta u : F) (wn : list Z) (chir : list F) (giw : list F) (n_shell n_core : Z) : res (list F) :=
  let! grid := wn_slices_shell giw n_shell n_core wn in
  let! rows := np_map2 (fun c row => List.map (fun g => u * c * g) row) chir grid in
  Ok (List.map (fun x => u / 2%:R * 1 / beta * x) (sum_axis0 (2 * n_shell) rows)).

(** lines 588-595 [schwinger_dyson_core_urange]. *)
Definition schwinger_dyson_core_urange (beta u ur : F) (wn : list Z) (vrg : list (list F)) (chir : list F) (giw : list F) (niv_shell : Z) : res (list F) :=
  let! siw_core := schwinger_dyson_vrg beta ur wn vrg chir giw in
  if (niv_shell =? 0)%Z then Ok siw_core
  else
    let! siw_shell := schwinger_dyson_shell beta u wn chir giw niv_shell (niv_from_len (ncols vrg) false) in
    Ok (concatenate_core_asmypt siw_core siw_shell).

(** lines 579-585 [schwinger_dyson_full]. *)
Definition schwinger_dyson_full (beta u : F) (wn : list Z) (vrg_dens vrg_magn : list (list F)) (chi_dens chi_magn : list F)
    (giw : list F) (n : F) (niv_shell : Z) : res (list F) :=
  let! urd := get_ur u "dens" in
  let! urm := get_ur u "magn" in
  let! siw_dens := schwinger_dyson_core_urange beta u urd wn vrg_dens chi_dens giw niv_shell in
  let! siw_magn := schwinger_dyson_core_urange beta u urm wn vrg_magn chi_magn giw niv_shell in
  let hartree := get_smom0 u n in
  np_map2 (fun d m => d + m) (List.map (fun d => hartree + d) siw_dens) siw_magn.

(** lines 598-603 [schwinger_dyson_f]; [f] is [w][v][vp], [gchi0] is [w][vp]. *)
Definition schwinger_dyson_f (beta u : F) (wn : list Z) (f : list (list (list F))) (gchi0 : list (list F)) (giw : list F) : res (list F) :=
  let! q := np_map2 (fun fw x0 => sequence (List.map (fun row =>
              let! t := np_map2 (fun a b => 1 / beta * u * a * b) row x0 in Ok (lsum t)) fw)) f gchi0 in
  let! q := sequence q in
  let! grid := wn_slices_gen giw (niv3 f) wn in
  sum_w (last_dim f) q grid.

(** lines 606-613 [get_f_diag]. *)
Definition get_f_diag (chi_dens chi_magn : list F) (channel : string) : res (list (list F)) :=
  if String.eqb channel "magn" then
    let! d := w_to_vmvp chi_dens in let! m := w_to_vmvp chi_magn in
    comb2 (fun x y => x - y) (map22 (fun x => 1 / 2%:R * x) d) (map22 (fun x => 1 / 2%:R * x) m)
  else if String.eqb channel "dens" then
    let! d := w_to_vmvp chi_dens in let! m := w_to_vmvp chi_magn in
    comb2 (fun x y => x + y) (map22 (fun x => 1 / 2%:R * x) d) (map22 (fun x => 3%:R / 2%:R * x) m)
  else Raise NotImplementedError.
End Model.
