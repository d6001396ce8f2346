(** Model of /repo/src/dga/optics.py lines 45-98: the optical conductivity from the real-frequency Green function
    ([fermi_function], [vec_get_chijj_bubble_realf], [get_sigma_from_chijj_realf], [vec_get_sigma_bub_realf]).

    The frequencies are a list of reals, the Green function a function from mesh points to the list along the frequency axis (of the
    same length).  The exponential and pi are parameters.  Products of slices of different lengths raise ValueError; slices of length
    one are not modelled as broadcasting.  scipy's cubic interpolation is a parameter. *)
From mathcomp Require Import all_ssreflect all_algebra.
From mathcomp.real_closed Require Import complex.
From Coq Require Import ZArith.
From Verif Require Import Base.PyBase Model.TwoPoint Model.Bubble.
Import GRing.Theory Num.Theory.
Set Implicit Arguments. Unset Strict Implicit. Unset Printing Implicit Defensive.
Local Open Scope ring_scope.
Local Open Scope complex_scope.

Section OpticsReal.
Variable R : rcfType.
Notation C := R[i].
Variables nx ny nz : nat.
Notation K := (mesh nx ny nz).
Variable rexp : R -> R.
Variable cpi : R.

(** [np.argmin]: index of the first minimal element, ValueError for an empty array *)
Fixpoint argminr_from (best : R) (ibest i : Z) (l : list R) : Z :=
  match l with [::] => ibest | x :: l' => if x < best then argminr_from x i (i + 1) l' else argminr_from best ibest (i + 1) l' end.
Definition argminr (l : list R) : res Z := match l with [::] => Raise ValueError | x :: l' => Ok (argminr_from x 0 1 l') end.
(** [np.max] *)
Definition maxr (l : list R) : res R := match l with [::] => Raise ValueError | x :: l' => Ok (foldl (fun m y => if m < y then y else m) x l') end.
(** [np.trapz(y, x)] for complex y *)
Fixpoint ctrapz (y : list C) (x : list R) : C :=
  match y, x with
  | y0 :: ((y1 :: _) as y'), x0 :: ((x1 :: _) as x') => (x1 - x0)%:C * (y0 + y1) / 2%:R + ctrapz y' x'
  | _, _ => 0
  end.

(** lines 45-46 *)
Definition fermi_function (w beta : R) : R := 1 / (rexp (beta * w) + 1).

(** lines 71-74 [get_chijj_bubble_realf_iw] *)
Definition chijj_realf_i (w : list R) (gwk : K -> list C) (lv2 : K -> C) (beta : R) (nl nu i : Z) : res C :=
  let n := zlen w in
  let w_int := slice w nl nu in
  let nf := List.map (fun x => fermi_function x beta) w_int in
  let l0 := slice_len n nl nu in
  let l1 := slice_len n (nl + i) (nu + i) in
  let l2 := slice_len n (nl - i) (nu - i) in
  if Z.eqb l1 l2 && Z.eqb l0 l1 then
    Ok (- 2%:R * ((\sum_(k : K) lv2 k *
          ctrapz (map2 (fun (a : R) (b : C) => a%:C * b) (map2 (fun a b => a * b) nf (slice (awk cpi (gwk k)) nl nu))
                       (map2 (fun a b => a + b) (slice (gwk k) (nl + i) (nu + i)) (slice (List.map (@conjc R) (gwk k)) (nl - i) (nu - i)))) w_int) / #|{: K}|%:R))
  else Raise ValueError.
(** lines 49-77 [vec_get_chijj_bubble_realf]: (chi_jj, w_bub) *)
Definition vec_get_chijj_bubble_realf (w : list R) (gwk : K -> list C) (lv_a lv_b : K -> C) (beta w_max_bub : R) : res (list C * list R) :=
  let! mx := maxr w in
  if w_max_bub < mx then
    let! w_0_ind := argminr (List.map (fun x => `|x|) w) in
    let! w_mbub_ind := argminr (List.map (fun x => `|x - w_max_bub|) w) in
    let w_int_ind := (zlen w - w_mbub_ind)%Z in
    let nu := (w_0_ind + w_int_ind)%Z in
    let nl := (w_0_ind - w_int_ind + zlen w mod 2)%Z in
    let lv2 := fun k => lv_a k * lv_b k in
    let w_bub := slice w (w_0_ind + 1) w_mbub_ind in
    let! chi := mapM (fun iw => chijj_realf_i w gwk lv2 beta nl nu (iw.1 + 1)) (enumerate w_bub) in
    Ok (chi, w_bub)
  else Raise AssertionError.

(** lines 80-86 [get_sigma_from_chijj_realf]; [interp1d(x, y, kind='cubic')] is the parameter [interp x y] *)
Variable interp : list R -> list R -> R -> R.
Definition get_sigma_from_chijj_realf (chi_jj : list C) (w : list R) : list R * list R :=
  let w_full := List.map (fun x => - x) (List.rev w) ++ w in
  let chi_full := List.map (fun z : C => complex.Im z) (List.rev (List.map (@conjc R) chi_jj)) ++ List.map (fun z : C => complex.Im z) chi_jj in
  let f := interp w_full (map2 (fun a b => a / b) chi_full w_full) in
  let w_new := 0 :: w in
  (List.map f w_new, w_new).
(** lines 89-98 *)
Definition vec_get_sigma_bub_realf (w : list R) (gwk : K -> list C) (lv_a lv_b : K -> C) (beta w_max_bub : R) : res (list R * list R) :=
  let! cw := vec_get_chijj_bubble_realf w gwk lv_a lv_b beta w_max_bub in
  Ok (get_sigma_from_chijj_realf cw.1 cw.2).
End OpticsReal.
