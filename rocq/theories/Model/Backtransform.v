(** Model of /repo/src/dga/analytic_continuation.py lines 131-203 and 389-392: the kernel of the transformation from the real to the
    imaginary axis, the transformation, the Kramers-Kronig transformation and the filling of a spectrum.

    Floating-point numbers are elements of a real closed field; pi is a parameter.  A division by zero, which numpy turns into inf or nan with a
    (suppressed) warning, is the total division of the field; the theorems exclude it or show that the entry is overwritten. *)
From mathcomp Require Import all_ssreflect all_algebra.
From mathcomp.real_closed Require Import complex.
From Coq Require Import ZArith String.
From Verif Require Import Base.PyBase Model.OpticsReal.
Import GRing.Theory Num.Theory.
Set Implicit Arguments. Unset Strict Implicit. Unset Printing Implicit Defensive.
Local Open Scope ring_scope.
Local Open Scope complex_scope.

Section Backtransform.
Variable R : rcfType.
Notation C := R[i].
Variable cpi : R.

(** [np.where(x == 0.0)[0]] *)
Definition where0 (l : list R) : list Z := List.map fst (List.filter (fun p => p.2 == 0) (enumerate l)).
(** fancy assignment [kernel[rows, cols] = v]: the index arrays are broadcast against each other, IndexError if impossible *)
Definition assign_pairs (ker : list (list C)) (rows cols : list Z) (v : C) : res (list (list C)) :=
  let pairs := if (zlen rows =? zlen cols)%Z then Ok (List.combine rows cols)
               else match rows, cols with
                    | [:: r], _ => Ok (List.map (fun c => (r, c)) cols)
                    | _, [:: c] => Ok (List.map (fun r => (r, c)) rows)
                    | _, _ => Raise IndexError
                    end in
  let! ps := pairs in
  Ok (List.map (fun ir => List.map (fun jx => if List.existsb (fun p => (p.1 =? ir.1)%Z && (p.2 =? jx.1)%Z) ps then v else jx.2) (enumerate ir.2)) (enumerate ker)).

(** lines 131-150; rows are imaginary frequencies, columns real ones.  Line 145 tests [len(a == 1) and len(b == 1)], which is true when both index
    arrays are non-empty.  The bosonic kernel is real; it is stored as complex here (line 161 converts). *)
Definition get_backtransform_kernel (re_axis im_axis : list R) (kind : string) : res (list (list C)) :=
  if String.eqb kind "freq_fermionic" then
    Ok (List.map (fun v : R => List.map (fun x : R => 1 / ('i * v%:C - x%:C)) re_axis) im_axis)
  else if String.eqb kind "freq_bosonic" then
    let kernel := List.map (fun v : R => List.map (fun x : R => (x ^+ 2 / (x ^+ 2 + v ^+ 2))%:C) re_axis) im_axis in
    let where_is_iwn_0 := where0 im_axis in
    let where_is_w_0 := where0 re_axis in
    if ((0 <? zlen where_is_iwn_0) && (0 <? zlen where_is_w_0))%Z then assign_pairs kernel where_is_iwn_0 where_is_w_0 1 else Ok kernel
  else Raise NotImplementedError.
(** line 131: the default value of the argument [kind] *)
Definition kernel_default_kind : string := "freq-fermionic".

(** lines 155-161; [inl] a real array ([mat.dtype == float]), [inr] a complex one.  Arrays of different length than the real axis raise ValueError
    (length one, which would be broadcast, is not modelled). *)
Definition transform_from_real_to_imag (mat : list R + list C) (re_axis im_axis : list R) (kind : string) : res (list C) :=
  let spectrum := match mat with inl m => List.map (fun x => - x / cpi) m | inr m => List.map (fun z : C => - complex.Im z / cpi) m end in
  let! kernel := get_backtransform_kernel re_axis im_axis kind in
  if (zlen spectrum =? zlen re_axis)%Z then Ok (List.map (fun row => ctrapz (map2 (fun (k : C) (s : R) => k * s%:C) row spectrum) re_axis) kernel)
  else Raise ValueError.

(** lines 164-203.  [dw] are the widths of the cells around the mesh points.  The printed warnings are not modelled. *)
Definition np_diff (l : list R) : list R := map2 (fun a b => b - a) l (List.tl l).
Definition cell_widths (wgrid : list R) : res (list R) :=
  let! wmin := py_get wgrid 0 in let! wmax := py_get wgrid (-1) in
  Ok (np_diff ([:: wmin] ++ map2 (fun a b => (a + b) / 2%:R) (List.tl wgrid) wgrid ++ [:: wmax])).
Definition kkt (spectrum wgrid : list R) (kind : string) : res (list C) :=
  let! dw := cell_widths wgrid in
  if negb (zlen spectrum =? zlen wgrid)%Z then Raise ValueError else
  let cells := List.combine dw (List.combine wgrid spectrum) in
  let! m := (if String.eqb kind "fermionic_phsym" || String.eqb kind "symmetric" then
               Ok (List.map (fun c : R * (R * R) => List.map (fun w => 2%:R * c.1 * c.2.1 * c.2.2 / (w ^+ 2 - c.2.1 ^+ 2)) wgrid) cells)
             else if String.eqb kind "bosonic" || String.eqb kind "antisymmetric" then
               Ok (List.map (fun c : R * (R * R) => List.map (fun w => 2%:R * c.1 * w * c.2.2 / (w ^+ 2 - c.2.1 ^+ 2)) wgrid) cells)
             else if String.eqb kind "fermionic" || String.eqb kind "general" then
               Ok (List.map (fun c : R * (R * R) => List.map (fun w => c.1 * c.2.2 / (w - c.2.1)) wgrid) cells)
             else Raise ValueError) in
  let m := List.map (fun ir => List.map (fun jx => if (ir.1 =? jx.1)%Z then 0 else jx.2) (enumerate ir.2)) (enumerate m) in
  let g_real := List.map (fun j => \sum_(row <- m) match zget row j with Some x => x | None => 0 end) (range (zlen wgrid)) in
  let g_imag := List.map (fun a => - a * cpi) spectrum in
  Ok (map2 (fun a b : R => a%:C + 'i * b%:C) g_real g_imag).

(** lines 389-392 *)
Definition check_filling (v_real : list R) (gloc_cont : list C) : res C :=
  if (zlen v_real =? zlen gloc_cont)%Z then
    let sel := List.filter (fun p : R * C => p.1 < 0) (List.combine v_real gloc_cont) in
    Ok (ctrapz (List.map (fun p : R * C => (- 1 / cpi * complex.Im p.2)%:C) sel) (List.map fst sel) * 2%:R)
  else Raise IndexError.
End Backtransform.
