(** Model of a path through the Brillouin zone as it is given and shown: corner names, labels, ticks, values along the path, and the search for crossings
    with the Fermi surface (/repo/src/dga/brillouin_zone.py 11-31, 354-372, 391-459, 524-527; /repo/src/postproc/util.py 4-14).

    Numbers are real numbers.  Parameter [float_of]: Python's float() of a string (ValueError if it is not a number).  The segments themselves are modelled in
    Model/KPath.v.  Paths with their own kx, ky, kz are left out: the axes are those of lines 384-389 for None. *)
From Coq Require Import ZArith Reals List String Ascii.
From Verif Require Import Base.PyBase Model.Util Model.KPath Model.RankFiles.
Import ListNotations.
Set Implicit Arguments.
Local Open Scope Z_scope.

(** [s.split(d)] for a delimiter of one character *)
Fixpoint split_on (d : ascii) (s : string) : list string :=
  match s with
  | EmptyString => [EmptyString]
  | String c s' => if Ascii.eqb c d then EmptyString :: split_on d s'
                   else match split_on d s' with [] => [String c EmptyString] | w :: ws => String c w :: ws end
  end.

(** brillouin_zone.py:11-31, KNOWN_K_POINTS and LABELS *)
Definition known_points : list (string * (rpoint * string)) :=
  [("Gamma", ((0, 0, 0)%R, "$\Gamma$")); ("X", ((1/2, 0, 0)%R, "X")); ("Y", ((0, 1/2, 0)%R, "Y")); ("M", ((1/2, 1/2, 0)%R, "M"));
   ("M2", ((1/4, 1/4, 0)%R, "M/2")); ("Z", ((0, 0, 1/2)%R, "Z")); ("R", ((1/2, 0, 1/2)%R, "R")); ("A", ((1/2, 1/2, 1/2)%R, "A"))]%string.
Fixpoint lookup {A} (l : list (string * A)) (k : string) : option A :=
  match l with [] => None | (a, v) :: l' => if String.eqb a k then Some v else lookup l' k end.

(** lines 396-408 [labels] *)
Fixpoint labels_from (count : nat) (ckps : list string) : list string :=
  match ckps with
  | [] => []
  | k :: rest => match lookup known_points k with Some (_, l) => l | None => String "K" (str_of_nat count) end :: labels_from (S count) rest
  end.
Definition labels (ckps : list string) : list string := labels_from 0 ckps.

Section Float.
Variable float_of : string -> res R.

(** lines 524-527 *)
Definition get_k_point_from_string (s : string) : res (list R) := mapM float_of (split_on " " s).
(** [ckp[i, :] = coords] for a row of three entries: one value is broadcast *)
Definition assign_row3 (l : list R) : res rpoint :=
  match l with [a; b; c] => Ok (a, b, c) | [a] => Ok (a, a, a) | _ => Raise ValueError end.
(** lines 446-455 *)
Definition corner_k_points (ckps : list string) : res (list rpoint) :=
  mapM (fun k => match lookup known_points k with Some (p, _) => Ok p | None => let! l := get_k_point_from_string k in assign_row3 l end) ckps.

(** The attributes of a KPath. *)
Record kpath := { kp_names : list string; kp_corners : list rpoint; kp_nk : zpoint; kp_pts : list zpoint; kp_nkp : list Z; kp_val : list R * list R * list R }.
(** lines 360-378; with a single corner [kpts] is a Python list and cannot be indexed by [[:, 0]] (381) *)
Definition make_kpath (nk : zpoint) (path : string) (delim : ascii) : res kpath :=
  let ckps := split_on delim path in
  let! ckp := corner_k_points ckps in
  let '(kpts, nkp) := build_k_path ckp nk in
  match nkp with
  | [] => Raise TypeError
  | _ => let! kv := get_kpath_val nk kpts in
         Ok {| kp_names := ckps; kp_corners := ckp; kp_nk := nk; kp_pts := kpts; kp_nkp := nkp; kp_val := kv |}
  end.
End Float.

(** lines 435-437 *)
Definition nk_tot (nkp : list Z) : Z := zsum nkp.
(** lines 431-433: [np.linspace(0, 1, n, endpoint=True)] *)
Definition path_axis (nkp : list Z) : list R := map (fun t => IZR t / IZR (nk_tot nkp - 1))%R (range (nk_tot nkp)).
(** lines 410-413 *)
Definition x_ticks (nkp : list Z) : res (list R) := take (path_axis nkp) (cind nkp).
(** lines 439-441 [np.diff(self.cind)] *)
Fixpoint diff (l : list Z) : list Z :=
  match l with a :: ((b :: _) as rest) => (b - a) :: diff rest | _ => [] end.
Definition nk_seg (nkp : list Z) : list Z := diff (cind nkp).
(** lines 457-459 *)
Definition map_to_kpath {A} (kpts : list zpoint) (mat : list (list (list A))) : res (list A) :=
  mapM (fun p => let '(x, y, z) := p in let! a := py_get mat x in let! b := py_get a y in py_get b z) kpts.

(** [np.min] and [np.argmin] of a list; [argmin] of Model/KPath.v is the first minimum *)
Definition np_min (l : list R) : res R := match l with [] => Raise ValueError | x :: l' => Ok (fold_left Rmin l' x) end.
Definition np_argmin (l : list R) : res Z := match l with [] => Raise ValueError | _ => Ok (argmin l) end.
(** postproc/util.py:11 [np.linalg.norm(k_points_fermi - k, axis=1)] for one point *)
Definition dist2 (p k : R * R) : R := sqrt (Rsqr (fst p - fst k) + Rsqr (snd p - snd k)).
(** util.py:4-14 *)
Definition find_fermi_crossing (k_points_fermi : list (R * R)) (k_val : list R * list R * list R) (nkp : list Z) : res (list Z) :=
  let '(k0, k1, _) := k_val in
  mapM (fun j =>
    let! n := py_get (nk_seg nkp) j in
    let! dist_to_fermi := mapM (fun i =>
      let! c := py_get (cind nkp) j in
      let ind := i + c in
      let! a := py_get k0 ind in let! b := py_get k1 ind in
      np_min (map (fun p => dist2 p (a, b)) k_points_fermi)) (range n) in
    let! m := np_argmin dist_to_fermi in
    let! c := py_get (cind nkp) j in
    Ok (m + c)) (range (zlen (nk_seg nkp))).
