(** Model of the object GreensFunction of /repo/src/dga/two_point.py:318-464 as a mutable object: its attributes,
    the constructor, [set_g_asympt], and what the object reports.

    Arrays and numbers as in Model/TwoPoint.v.  An operation on a whole array that fails for the row of some
    momentum fails as a whole.  A method that may raise returns the state it leaves behind. *)
From mathcomp Require Import all_ssreflect all_algebra.
From mathcomp.real_closed Require Import complex.
From Coq Require Import String ZArith.
From Verif Require Import Base.PyBase Model.Matsubara Model.TwoPoint.
Import GRing.Theory Num.Theory.
Set Implicit Arguments. Unset Strict Implicit. Unset Printing Implicit Defensive.
Local Open Scope ring_scope.
Local Open Scope complex_scope.

(** numpy evaluates all momenta at once: the whole array, or the exception of some row *)
Definition raised (A : Type) (x : res A) : option exn := match x with Ok _ => None | Raise e => Some e end.
Definition whole (K : finType) (A : Type) (d : A) (f : K -> res A) : res (K -> A) :=
  match [pick k : K | isSome (raised (f k))] with
  | Some k => match f k with Raise e => Raise e | Ok _ => Raise ValueError end
  | None => Ok (fun k => match f k with Ok a => a | Raise _ => d end)
  end.

Section GFObject.
Variable R : rcfType.
Notation C := R[i].
Variables (K KS : finType) (bc : K -> KS).

(** two_point.py:325-353 the attributes; [sigma], [ek] and [beta] are never reassigned and stay parameters here.
    [None] is Python's None. *)
Record gf_obj := GFObj {
  o_mu : R; o_n : R; o_core : K -> list C;
  o_asympt : option (K -> list C); o_niv_asympt : option Z; o_full : option (K -> list C); o_g_loc : option (list C) }.

(** length of the last axis of an array [K, n] *)
Definition row_len (a : K -> list C) : nat := match [pick k : K] with Some k => length (a k) | None => O end.

Variables (s : selfenergy R KS) (ek : K -> R) (beta : R).

(** two_point.py:412-417 [g_full] (pi_shift=False) *)
Definition o_g_full (o : gf_obj) : K -> list C :=
  match o_asympt o with
  | None => o_core o
  | Some a => fun k => concatenate_core_asmypt (o_core o k) (a k)
  end.
(** two_point.py:422-430 [k_mean] *)
Definition o_k_mean (o : gf_obj) (iv_range : string) : res (list C) :=
  if String.eqb iv_range "core" then Ok (kmean_v (row_len (o_core o)) (o_core o))
  else if String.eqb iv_range "full" then
    match o_full o with None => Raise ValueError | Some f => Ok (kmean_v (row_len f) f) end
  else Raise ValueError.
(** two_point.py:432-433 [set_gloc] *)
Definition o_set_gloc (o : gf_obj) : gf_obj * option exn :=
  match o_k_mean o "full" with
  | Raise e => (o, Some e)
  | Ok l => (GFObj (o_mu o) (o_n o) (o_core o) (o_asympt o) (o_niv_asympt o) (o_full o) (Some l), None)
  end.
(** two_point.py:435-439 [set_g_asympt], assignment by assignment *)
Definition o_set_g_asympt (o : gf_obj) (niv_asympt : Z) : gf_obj * option exn :=
  match whole [::] (build_asympt bc s ek (o_mu o) niv_asympt) with
  | Raise e => (o, Some e)
  | Ok a =>
      let o1 := GFObj (o_mu o) (o_n o) (o_core o) (Some a) (o_niv_asympt o) (o_full o) (o_g_loc o) in
      let o2 := GFObj (o_mu o1) (o_n o1) (o_core o1) (o_asympt o1) (Some niv_asympt) (o_full o1) (o_g_loc o1) in
      let o3 := GFObj (o_mu o2) (o_n o2) (o_core o2) (o_asympt o2) (o_niv_asympt o2) (Some (o_g_full o2)) (o_g_loc o2) in
      o_set_gloc o3
  end.
(** two_point.py:325-353 the constructor.  [rexp], [newton] as in Model/TwoPoint.v. *)
Definition make_gf (rexp : R -> R) (newton : (R -> R) -> R -> option R) (mu n : option R) (niv_asympt niv_shell_mu_find : Z) : res gf_obj :=
  let niv_mu_find := (se_core s + niv_shell_mu_find)%Z in
  let! mn := gf_mu_n rexp newton mu n (ivs (se_pb s) niv_mu_find) ek (fun k => get_siw s niv_mu_find (bc k)) beta (se_smom0 s) in
  let! core := whole [::] (build_g_core bc s ek mn.1) in
  let o := GFObj mn.1 mn.2 core None None None None in
  match o_set_g_asympt o niv_asympt with
  | (_, Some e) => Raise e
  | (o', None) => match o_set_gloc o' with (_, Some e) => Raise e | (o'', None) => Ok o'' end
  end.
(** a history of calls of [set_g_asympt]: exceptions are caught by the caller, the object lives on *)
Definition o_history (o : gf_obj) (calls : list Z) : gf_obj := List.fold_left (fun o n => (o_set_g_asympt o n).1) calls o.

(** ** What the object reports; [None + int] is a TypeError *)
(** two_point.py:395-397 [niv_full] *)
Definition o_niv_full (o : gf_obj) : res Z := match o_niv_asympt o with Some n => Ok (se_core s + n)%Z | None => Raise TypeError end.
(** two_point.py:379-385 [v], [vn]; 375-377 [v_core] *)
Definition o_v (o : gf_obj) : res (list R) := let! n := o_niv_full o in Ok (map (nu (se_pb s)) (vn n 0 false)).
Definition o_vn (o : gf_obj) : res (list Z) := let! n := o_niv_full o in Ok (vn n 0 false).
Definition o_v_core (o : gf_obj) : list R := map (nu (se_pb s)) (vn (se_core s) 0 false).
(** two_point.py:355-360 [size]; an array [K, n] has #K * n entries *)
Definition o_size (o : gf_obj) : nat :=
  match o_full o with None => Nat.mul #|K| (row_len (o_core o)) | Some f => Nat.mul #|K| (row_len f) end.
(** two_point.py:362-367 [itemsize]: complex128 has 16 bytes *)
Definition o_itemsize (o : gf_obj) : nat := 16.
(** two_point.py:399-406 [mem] in units of 1e-9 bytes: the number of bytes *)
Definition o_bytes (o : gf_obj) : nat :=
  match o_full o with None => Nat.mul (Nat.mul #|K| (row_len (o_core o))) 16 | Some f => Nat.mul (Nat.mul #|K| (row_len f)) 16 end.
(** two_point.py:409-410 [fs]; indexing the last axis of the full array *)
Definition o_fs (cpi : R) (o : gf_obj) (k : K) : res R :=
  let! n := o_niv_full o in
  let! x := py_get (o_g_full o k) n in
  Ok (- complex.Im x / cpi).
(** two_point.py:451-455 [e_kin] and 457-464 [e_pot] with their assertions; [tol] is the literal 1e-8 *)
Definition tol : R := (10%:R ^+ 8)^-1.
Definition o_e_kin (o : gf_obj) : res R :=
  let x := e_kin_c beta ek (o_g_full o) (row_len (o_g_full o)) in
  if `|complex.Im x| < tol then Ok (complex.Re x) else Raise AssertionError.
Definition o_e_pot (o : gf_obj) : res R :=
  match o_niv_asympt o with
  | None => Raise TypeError
  | Some n =>
      let g := o_g_full o in
      if `|complex.Im (e_pot_c bc beta s n g (row_len g))| < tol then Ok (e_pot bc beta s n g (row_len g) (o_n o)) else Raise AssertionError
  end.
End GFObject.

(** ** The primitive search for the chemical potential *)
Section Primitive.
Variables (R : rcfType) (K : finType).
Notation C := R[i].
(** [x[0]] of a numpy scalar: "invalid index to scalar variable" *)
Definition scalar_index0 (x : C) : res C := Raise IndexError.
(** two_point.py:228-231 [root_fun_primitive] *)
Definition root_fun_primitive (target : R) (ivl : list C) (hk : K -> R) (siwk : K -> list C) (beta mu : R) : res C :=
  let! x := scalar_index0 (get_fill_primitive (get_gloc ivl hk siwk mu) beta) in Ok (x - target%:C).
(** two_point.py:234-255 [update_mu_primitive] with verbose=False: scipy.optimize.newton evaluates the function at the
    start value before anything else; [rest] is what it does with that value (returns a number, or raises).  Only
    RuntimeError is caught.  The result has to be real within 1e-8. *)
Definition update_mu_primitive (rest : C -> res C) (mu0 target : R) (ivl : list C) (hk : K -> R) (siwk : K -> list C) (beta : R) : res R :=
  let! mu := match (let! y := root_fun_primitive target ivl hk siwk beta mu0 in rest y) with
             | Ok mu => Ok mu
             | Raise RuntimeError => Ok mu0%:C
             | Raise e => Raise e
             end in
  if `|complex.Im mu| < (10%:R ^+ 8)^-1 then Ok (complex.Re mu) else Raise ValueError.
End Primitive.

(** ** A constant self-energy *)
(** two_point.py:65-68 [sigma_const]: -1j*delta at all momenta and len(v) frequencies; default arguments of the constructor *)
Definition sigma_const (R : rcfType) (KS : finType) (pb delta : R) (len_v : nat) (err : R) : selfenergy R KS :=
  make_selfenergy (fun _ : KS => repeat (Complex 0 (- delta)) len_v) len_v pb false None None err None.
