(** Model of /repo/src/dga/matsubara_frequencies.py.

    Arrays are lists along the frequency axis the routine works on; the "..."
    axes of numpy are covered by the element type [A] being arbitrary (an
    element may itself be an array) when the frequency axis is the first one, and by
    mapping over the leading axes when it is the last one. *)
From Coq Require Import String.
From Verif Require Import Base.PyBase.
Set Implicit Arguments.
Local Open Scope string_scope.
Local Open Scope Z_scope.

(** matsubara_frequencies.py:17-38 [get_freq_shift].  Python's // and % on
    integers are floor division and modulus, i.e. [Z.div] and [Z.modulo]. *)
Definition get_freq_shift (iwn : Z) (freq_notation : string) : res (Z * Z) :=
  if String.eqb freq_notation "plus" then Ok (0, iwn)
  else if String.eqb freq_notation "minus" then Ok (0, - iwn)
  else if String.eqb freq_notation "center" then Ok (iwn / 2, - (iwn / 2 + iwn mod 2))
  else Raise NotImplementedError.

(** matsubara_frequencies.py:198-207 [vn(n, shift, pos)]. *)
Definition vn (n shift : Z) (pos : bool) : list Z :=
  if pos then arange shift (n + shift) else arange (- n + shift) (n + shift).

(** matsubara_frequencies.py:305-313 [wn(n, shift, pos)]. *)
Definition wn (n shift : Z) (pos : bool) : list Z :=
  if pos then arange shift (n + shift + 1) else arange (- n + shift) (n + shift + 1).

(** matsubara_frequencies.py:181-189 [niv_from_mat] / 271-279 [niw_from_mat] on an axis of length [len]. *)
Definition niv_from_len (len : Z) (pos : bool) : Z := if pos then len else len / 2.
Definition niw_from_len (len : Z) (pos : bool) : Z := if pos then len - 1 else len / 2.

(** matsubara_frequencies.py:215-218, 321-324: grids deduced from an array axis. *)
Definition vn_from_mat {A} (mat : list A) (shift : Z) (pos : bool) : list Z := vn (niv_from_len (zlen mat) pos) shift pos.
Definition wn_from_mat {A} (mat : list A) (shift : Z) (pos : bool) : list Z := wn (niw_from_len (zlen mat) pos) shift pos.

(** matsubara_frequencies.py:44-53 [append_v_vp_shell] for the last two axes:
    the array filled with [val], then the centre block overwritten by [mat]. *)
Definition append_v_vp_shell {A} (mat : list (list A)) (val : A) (niv_shell : Z) (ncols : Z) : res (list (list A)) :=
  let niv := ncols / 2 in
  let niv_full := niv + niv_shell in
  let full := repeat (repeat val (Z.to_nat (niv_full * 2))) (Z.to_nat (niv_full * 2)) in
  let target := slice full (niv_full - niv) (niv_full + niv) in
  let! rows := (if zlen target =? zlen mat then
                  mapM (fun tm => assign_slice (fst tm) (niv_full - niv) (niv_full + niv) (snd tm)) (combine target mat)
                else Raise ValueError) in
  assign_slice full (niv_full - niv) (niv_full + niv) rows.

(** matsubara_frequencies.py:57-68 [w_to_vmvp]: column [i] of the result is a slice of the
    bosonic axis; a slice of the wrong length cannot be stored. *)
Definition w_to_vmvp {A} (mat : list A) : res (list (list A)) :=
  let niw := zlen mat / 2 in
  let niv := niw / 2 in
  let! cols := mapM (fun ivp =>
                 let s := slice mat (niw - niv - ivp) (niw + niv - ivp) in
                 if zlen s =? 2 * niv then Ok s else Raise ValueError) (vn niv 0 false) in
  Ok (transpose (2 * niv) cols).

(** matsubara_frequencies.py:73-78 [cen2lin], [wn_cen2lin]. *)
Definition cen2lin (val start : Z) : Z := val - start.
Definition wn_cen2lin (w niw : Z) : Z := cen2lin w (- niw).

(** [np.array] of a list of rows: they need a common length (numpy >= 1.24 raises ValueError on ragged input). *)
Definition np_array_rows {A} (rows : list (list A)) : res (list (list A)) :=
  match rows with
  | [] => Ok []
  | r :: rs => if forallb (fun r' => zlen r' =? zlen r) rs then Ok rows else Raise ValueError
  end.

(** matsubara_frequencies.py:81-84 [wn_slices_gen]. *)
Definition wn_slices_gen {A} (mat : list A) (n_cut : Z) (w : list Z) : res (list (list A)) :=
  let n := zlen mat / 2 in
  np_array_rows (map (fun iwn => slice mat (n - n_cut - iwn) (n + n_cut - iwn)) w).

(** matsubara_frequencies.py:87-92 [wn_slices_shell]. *)
Definition wn_slices_shell {A} (mat : list A) (n_shell n_core : Z) (w : list Z) : res (list (list A)) :=
  let n := niv_from_len (zlen mat) false in
  let! mat_grid := np_array_rows (map (fun iwn => slice mat (n + n_core - iwn) (n + n_core + n_shell - iwn)) w) in
  let! mat_grid_m := np_array_rows (map (fun iwn => slice mat (n - n_core - n_shell - iwn) (n - n_core - iwn)) w) in
  Ok (map2 (fun a b => a ++ b)%list mat_grid_m mat_grid).

(** matsubara_frequencies.py:96-101 [cut_iv_with_iw_shift_1d]; lines 104-109 apply it along each
    listed axis. *)
Definition cut_iv_with_iw_shift_1d {A} (mat : list A) (niv_cut iwn : Z) : list A :=
  let niv := zlen mat / 2 in
  let niv_cut := if niv_cut =? -1 then niv - Z.abs iwn else niv_cut in
  slice mat (niv - niv_cut - iwn) (niv + niv_cut - iwn).

(** matsubara_frequencies.py:112-116 [cut_v_1d_pos]. *)
Definition cut_v_1d_pos {A} (arr : list A) (niv_cut niv_min : Z) : list A :=
  let niv := zlen arr / 2 in
  let niv_cut := if niv_cut =? -1 then niv else niv_cut in
  slice arr (niv + niv_min) (niv + niv_min + niv_cut).

(** matsubara_frequencies.py:119-121 [fermionic_full_nu_range] along the axis. *)
Definition fermionic_full_nu_range {A} (conj : A -> A) (mat : list A) : list A := map conj (flip mat) ++ mat.

(** matsubara_frequencies.py:124-129 [bosonic_full_nu_range] with freq_axes=None (flip along the bosonic axis
    only).  [np.take(mat, arange(1,n))] drops the first entry. *)
Definition bosonic_full_nu_range {A} (conj : A -> A) (mat : list A) : list A :=
  map conj (flip (slice mat 1 (zlen mat))) ++ mat.

(** The same with freq_axes = (axis, last axis): both axes are flipped before conjugation (used by
    bubble.py:30, 53). *)
Definition bosonic_full_nu_range_2 {A} (conj : A -> A) (mat : list (list A)) : list (list A) :=
  map (fun row => map conj (flip row)) (flip (slice mat 1 (zlen mat))) ++ mat.

(** matsubara_frequencies.py:132-135 [concatenate_core_asmypt] along the last axis. *)
Definition concatenate_core_asmypt {A} (core asympt : list A) : list A :=
  let niv_asympt := zlen asympt / 2 in
  slice_to asympt niv_asympt ++ core ++ slice_from asympt niv_asympt.

(** matsubara_frequencies.py:140-147 [cut_v_1d]. *)
Definition cut_v_1d {A} (arr : list A) (niv_cut : Z) : list A :=
  let niv := zlen arr / 2 in
  let niv_cut := if niv_cut =? -1 then niv else niv_cut in
  slice arr (niv - niv_cut) (niv + niv_cut).

(** matsubara_frequencies.py:150-159 [cut_v] with axes=(-2,-1) on a [v,vp] array
    (axes are visited in descending order: last axis first). *)
Definition cut_v_2 {A} (arr : list (list A)) (niv_cut : Z) : list (list A) :=
  cut_v_1d (map (fun row => cut_v_1d row niv_cut) arr) niv_cut.

(** matsubara_frequencies.py:162-169 [inv_cut_v_1d]. *)
Definition inv_cut_v_1d {A} (arr : list A) (niv_core niv_shell : Z) : list A :=
  let niv := zlen arr / 2 in
  let niv_shell := if niv_shell =? -1 then niv else niv_shell in
  slice arr (niv - niv_shell - niv_core) (niv - niv_core) ++ slice arr (niv + niv_core) (niv + niv_core + niv_shell).

(** matsubara_frequencies.py:191-194 [clip_pos_mf_vn]. *)
Definition clip_pos_mf_vn {A} (mat : list A) : list A := slice_from mat (niv_from_len (zlen mat) false).

(** matsubara_frequencies.py:233-248 [add_bosonic] along axis 0. *)
Definition add_into {A} (add : A -> A -> A) (big small : list A) (nl nu : Z) : res (list A) :=
  let! s := np_map2 add (slice big nl nu) small in assign_slice big nl nu s.
Definition add_bosonic {A} (add : A -> A -> A) (mat1 mat2 : list A) : res (list A) :=
  let niw_1 := niw_from_len (zlen mat1) false in
  let niw_2 := niw_from_len (zlen mat2) false in
  if niw_2 <=? niw_1 then add_into add mat1 mat2 (niw_1 - niw_2) (niw_1 + niw_2 + 1)
  else add_into add mat2 mat1 (niw_2 - niw_1) (niw_2 + niw_1 + 1).

(** matsubara_frequencies.py:251-257 [cut_v_1d_wn] (and [cut_w], 260-268, which applies it along axes). *)
Definition cut_w_1d {A} (arr : list A) (niw_cut : Z) : list A :=
  let niv := zlen arr / 2 in
  slice arr (niv - niw_cut) (niv + niw_cut + 1).

(** matsubara_frequencies.py:282-290 [mat_at_w0] and 293-301 [get_mat_at_iwn]; [np.take] with an integer. *)
Definition mat_at_w0 {A} (mat : list A) (pos : bool) : res A :=
  py_get mat (if pos then 0 else niw_from_len (zlen mat) pos).
Definition get_mat_at_iwn {A} (mat : list A) (iwn : Z) (pos : bool) : res A :=
  py_get mat (if pos then iwn else niw_from_len (zlen mat) pos + iwn).

(** matsubara_frequencies.py:337-345 [vn_centered_sum_wn]: [sum] and [scale] stand for numpy's sum and the
    multiplication by 1/beta^2. *)
Definition window {A} (mat : list (list A)) (ncols a b : Z) : list (list A) :=
  map (fun row => slice row a b) (slice mat a b).
Definition vn_centered_sum_wn {A} (scale : A -> A) (sum : list A -> A) (mat : list (list A)) (ncols iwn niv_sum : Z) : A :=
  let niv := ncols / 2 in
  if niv_sum =? -1 then scale (sum (concat mat))
  else let shift := iwn / 2 in
       scale (sum (concat (window mat ncols (niv - niv_sum + shift) (niv + niv_sum + shift)))).

(** matsubara_frequencies.py:348-353 [vn_centered_sum]. *)
Definition vn_centered_sum {A} (scale : A -> A) (sum : list A -> A) (mat : list (list (list A))) (ncols : Z) (w_n : list Z) (niv_sum : Z) : res (list A) :=
  mapM (fun iw => let! m := py_get mat (fst iw) in Ok (vn_centered_sum_wn scale sum m ncols (snd iw) niv_sum)) (enumerate w_n).

(** matsubara_frequencies.py:356-362 [wn_sum]. *)
Definition wn_sum {A} (scale : A -> A) (sum : list A -> A) (mat : list A) (niw_sum : Z) : A :=
  let niw := zlen mat / 2 in
  if niw_sum =? -1 then scale (sum mat) else scale (sum (slice mat (niw - niw_sum) (niw + niw_sum + 1))).

(** Three-dimensional arrays [w,v,vp] as nested lists. *)
Definition py_get3 {A} (m : list (list (list A))) (i j k : Z) : res A :=
  let! a := py_get m i in let! b := py_get a j in py_get b k.
(** shape[-1] of a nested list *)
Definition last_dim {A} (m : list (list (list A))) : Z :=
  match m with (r :: _) :: _ => zlen r | _ => 0 end.

(** matsubara_frequencies.py:367-384 [ph2pp_iwn]. *)
Definition ph2pp_iwn {A} (mat_ph : list (list (list A))) (iwn_pp : Z) : res (list (list A)) :=
  let niw := zlen mat_ph / 2 in
  let niv := last_dim mat_ph / 2 in
  let niv_pp := Z.min (niw / 3) (niv / 3) in
  let iv := arange (- niv_pp) niv_pp in
  mapM (fun vi => mapM (fun vip =>
          py_get3 mat_ph (niw + vi + vip + 1 - iwn_pp) (niv + vi) (niv + vip)) iv) iv.

(** matsubara_frequencies.py:387-394 [ph2pp]. *)
Definition ph2pp {A} (mat_ph : list (list (list A))) : res (list (list (list A))) :=
  let niw_pp := zlen mat_ph / 6 in
  mapM (ph2pp_iwn mat_ph) (wn niw_pp 0 false).

(** matsubara_frequencies.py:397-414 [ph2pp_iwn_wc]. *)
Definition ph2pp_iwn_wc {A} (opp : A -> A) (mat_ph : list (list (list A))) (iwn_pp : Z) : res (list (list A)) :=
  let niw := zlen mat_ph / 2 in
  let niv := last_dim mat_ph / 2 in
  let niv_pp := Z.min (niw / 2) (niv / 2) in
  let iv := arange (- niv_pp) niv_pp in
  mapM (fun vi => mapM (fun vip =>
          rmap opp (py_get3 mat_ph (niw + vi - vip) (niv + vi) (niv + iwn_pp - (vip + 1)))) iv) iv.

(** matsubara_frequencies.py:417-424 [ph2pp_wc]. *)
Definition ph2pp_wc {A} (opp : A -> A) (mat_ph : list (list (list A))) : res (list (list (list A))) :=
  let niw_pp := zlen mat_ph / 4 in
  mapM (ph2pp_iwn_wc opp mat_ph) (wn niw_pp 0 false).
