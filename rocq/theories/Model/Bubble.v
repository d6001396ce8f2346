(** Model of /repo/src/dga/bubble.py (lines 17-88 and the methods of BubbleGenerator
    that do not concern asymptotics; those are in Model/BubbleAsympt.v).

    Numbers as in Model/TwoPoint.v.  An array [kx,ky,kz,v] is a function from the
    mesh points to the list along the last axis. *)
From mathcomp Require Import all_ssreflect all_algebra.
From mathcomp.real_closed Require Import complex.
From Coq Require Import String ZArith.
From Verif Require Import Base.PyBase Model.Matsubara Model.TwoPoint.
Import GRing.Theory Num.Theory.
Set Implicit Arguments. Unset Strict Implicit. Unset Printing Implicit Defensive.
Local Open Scope ring_scope.
Local Open Scope complex_scope.

(** * np.roll on the mesh *)
(** entry i of np.roll(l, q) is entry (i - q) mod n of l (PyFacts.zget_roll) *)
Lemma roll_ord_subproof n (q : Z) (i : 'I_n) : (Z.to_nat ((Z.of_nat i - q) mod Z.of_nat n) < n)%nat.
Proof.
  have Hi : (i < n)%nat by []. apply/ssrnat.ltP. have /ssrnat.ltP Hn := Hi.
  have H := Z.mod_pos_bound (Z.of_nat i - q) (Z.of_nat n). Lia.lia.
Qed.
Definition roll_ord n (q : Z) (i : 'I_n) : 'I_n := Ordinal (roll_ord_subproof q i).
Notation mesh nx ny nz := ('I_nx * 'I_ny * 'I_nz)%type.
(** brillouin_zone.py:542-544 [shift_mat_by_ind]: np.roll by (qx,qy,qz) *)
Definition shift_mat_by_ind (A : Type) nx ny nz (mat : mesh nx ny nz -> A) (ind : Z * Z * Z) : mesh nx ny nz -> A :=
  fun k => mat (roll_ord ind.1.1 k.1.1, roll_ord ind.1.2 k.1.2, roll_ord ind.2 k.2).
(** [ind=[-iq for iq in q]] *)
Definition neg_ind (q : Z * Z * Z) : Z * Z * Z := ((- q.1.1)%Z, (- q.1.2)%Z, (- q.2)%Z).

Section Bubble.
Variable R : rcfType.
Notation C := R[i].

(** bubble.py:17-23 [get_gchi0] *)
Definition get_gchi0 (giw : list C) (beta : R) (niv iwn : Z) (freq_notation : string) : res (list C) :=
  let niv_giw := (zlen giw / 2)%Z in
  let! s := get_freq_shift iwn freq_notation in
  let (iws, iws2) := s in
  np_map2 (fun a b => - beta%:C * a * b) (slice giw (niv_giw - niv + iws) (niv_giw + niv + iws)) (slice giw (niv_giw - niv + iws2) (niv_giw + niv + iws2)).
(** bubble.py:26-32 [vec_get_gchi0] *)
Definition vec_get_gchi0 (giw : list C) (beta : R) (niv : Z) (wn : list Z) (freq_notation : string) (is_full_wn : bool) : res (list (list C)) :=
  if is_full_wn then
    let wn_pos := Matsubara.wn (niw_from_len (zlen wn) false) 0 true in
    let! rows := mapM (fun iwn => get_gchi0 giw beta niv iwn freq_notation) wn_pos in
    let! gchi0 := np_array_rows rows in
    Ok (bosonic_full_nu_range_2 (@conjc R) gchi0)
  else let! rows := mapM (fun iwn => get_gchi0 giw beta niv iwn freq_notation) wn in np_array_rows rows.

(** bubble.py:76-79 [get_chi0_sum], 82-88 [vec_get_chi0_sum] *)
Definition get_chi0_sum (giw : list C) (beta : R) (niv iwn : Z) (freq_notation : string) : res C :=
  let niv_giw := (zlen giw / 2)%Z in
  let! s := get_freq_shift iwn freq_notation in
  let (iws, iws2) := s in
  let! p := np_map2 (fun a b => a * b) (slice giw (niv_giw - niv + iws) (niv_giw + niv + iws)) (slice giw (niv_giw - niv + iws2) (niv_giw + niv + iws2)) in
  Ok (- 1 / beta%:C * lsum p).
Definition vec_get_chi0_sum (giw : list C) (beta : R) (niv : Z) (wn : list Z) (freq_notation : string) (is_full_wn : bool) : res (list C) :=
  if is_full_wn then
    let wn_pos := Matsubara.wn (niw_from_len (zlen wn) false) 0 true in
    let! chi0 := mapM (fun iwn => get_chi0_sum giw beta niv iwn freq_notation) wn_pos in
    Ok (bosonic_full_nu_range (@conjc R) chi0)
  else mapM (fun iwn => get_chi0_sum giw beta niv iwn freq_notation) wn.

(** bubble.py:155-157 [contract_legs], 159-161 [get_gchi0_vvp_full] for one w *)
Definition contract_legs (beta : R) (gchi : list C) : C := 1 / beta%:C ^+ 2 * lsum gchi.
Definition diag_row (gchi0 : list C) (i : nat) : list C := map (fun j => if Nat.eqb i j then List.nth i gchi0 0 else 0) (List.seq 0 (length gchi0)).
Definition gchi0_vvp (gchi0 : list C) : list (list C) := map (diag_row gchi0) (List.seq 0 (length gchi0)).

Section Lattice.
Variables nx ny nz : nat.
Notation K := (mesh nx ny nz).
(** Python's slice of an axis of length n: its length *)
Definition slice_len (n a b : Z) : Z := Z.max 0 (clampi n b - clampi n a).
(** bubble.py:36-44 [get_gchi0_q]; n is the length of the last axis.  The products broadcast if the two slices have equal
    lengths (the same for all k); slices of length one are not modelled as broadcasting. *)
Definition gchi0_q_row (giwk : K -> list C) (n : Z) (niv iws iws2 : Z) (q : Z * Z * Z) : res (list C) :=
  let niv_giw := (n / 2)%Z in
  let giwkpq := shift_mat_by_ind giwk (neg_ind q) in
  let l1 := slice_len n (niv_giw - niv + iws) (niv_giw + niv + iws) in
  let l2 := slice_len n (niv_giw - niv + iws2) (niv_giw + niv + iws2) in
  if Z.eqb l1 l2 then
    Ok (kmean_v (Z.to_nat l1) (fun k => map2 (fun a b => a * b) (slice (giwk k) (niv_giw - niv + iws) (niv_giw + niv + iws))
                                                               (slice (giwkpq k) (niv_giw - niv + iws2) (niv_giw + niv + iws2))))
  else Raise ValueError.
Definition get_gchi0_q (giwk : K -> list C) (n : Z) (beta : R) (niv iwn : Z) (q : Z * Z * Z) (freq_notation : string) : res (list C) :=
  let! s := get_freq_shift iwn freq_notation in
  let! m := gchi0_q_row giwk n niv s.1 s.2 q in
  Ok (map (fun x => - beta%:C * x) m).
(** bubble.py:56-64 [get_chi0_q] *)
Definition get_chi0_q (giwk : K -> list C) (n : Z) (beta : R) (niv iwn : Z) (q : Z * Z * Z) (freq_notation : string) : res C :=
  let! s := get_freq_shift iwn freq_notation in
  let! m := gchi0_q_row giwk n niv s.1 s.2 q in
  Ok (- 1 / beta%:C * lsum m).
(** np.max(np.abs(wn)); ValueError on an empty array *)
Definition max_abs (wn : list Z) : res Z :=
  match wn with nil => Raise ValueError | w :: wn => Ok (fold_left (fun m x => Z.max m (Z.abs x)) wn (Z.abs w)) end.
Definition wn_bub (wn : list Z) (is_full_wn : bool) : list Z := if is_full_wn then Matsubara.wn (niw_from_len (zlen wn) false) 0 true else wn.
(** assignment into a row of the zero array of last axis 2*niv *)
Definition fits (m : Z) (l : list C) : res (list C) := if Z.eqb (zlen l) m then Ok l else Raise ValueError.
(** bubble.py:47-53 [vec_get_gchi0_q] *)
Definition vec_get_gchi0_q (giwk : K -> list C) (n : Z) (beta : R) (niv : Z) (wn : list Z) (q_list : list (Z * Z * Z)) (freq_notation : string) (is_full_wn : bool)
    : res (list (list (list C))) :=
  let wb := wn_bub wn is_full_wn in
  let! m := max_abs wb in
  let giwk := fun k => cut_v_1d (giwk k) (niv + m) in
  let c := (if Z.eqb (niv + m) (-1) then n / 2 else niv + m)%Z in
  let n := slice_len n (n / 2 - c) (n / 2 + c) in
  mapM (fun q =>
    let! rows := mapM (fun iwn => let! r := get_gchi0_q giwk n beta niv iwn q freq_notation in fits (2 * niv) r) wb in
    Ok (if is_full_wn then bosonic_full_nu_range_2 (@conjc R) rows else rows)) q_list.
(** bubble.py:67-73 [vec_get_chi0_q] *)
Definition vec_get_chi0_q (giwk : K -> list C) (n : Z) (beta : R) (niv : Z) (wn : list Z) (q_list : list (Z * Z * Z)) (freq_notation : string) (is_full_wn : bool)
    : res (list (list C)) :=
  let wb := wn_bub wn is_full_wn in
  let! m := max_abs wb in
  let giwk := fun k => cut_v_1d (giwk k) (niv + m) in
  let c := (if Z.eqb (niv + m) (-1) then n / 2 else niv + m)%Z in
  let n := slice_len n (n / 2 - c) (n / 2 + c) in
  mapM (fun q =>
    let! rows := mapM (fun iwn => get_chi0_q giwk n beta niv iwn q freq_notation) wb in
    Ok (if is_full_wn then bosonic_full_nu_range (@conjc R) rows else rows)) q_list.
End Lattice.
End Bubble.
