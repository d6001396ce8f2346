(** Model of the real-frequency meshes of /repo/src/dga/analytic_continuation.py lines 81-126.
    Floating-point numbers are real numbers; a division by zero (a mesh of one point, where numpy returns nan) is Coq's total division. *)
From Coq Require Import ZArith Reals List String.
From Verif Require Import Base.PyBase.
Import ListNotations.
Local Open Scope R_scope.

(** [np.linspace(a, b, n)] *)
Definition linspace (a b : R) (n : Z) : res (list R) :=
  if (n <? 0)%Z then Raise ValueError else Ok (map (fun i => a + IZR i * ((b - a) / IZR (n - 1))) (arange 0 n)).
(** [(w - w[0]) / (w[-1] - w[0])], used by three of the meshes *)
Definition unit_scale (w : list R) : res (list R) :=
  let! w0 := py_get w 0 in let! w1 := py_get w (-1) in Ok (map (fun x => (x - w0) / (w1 - w0)) w).
(** [np.sign] *)
Definition rsign (x : R) : R := if Rlt_dec 0 x then 1 else if Rlt_dec x 0 then -1 else 0.

(** lines 83-91 *)
Definition lorentzian_w_mesh (wmin wmax : R) (n_points : Z) (cut : R) : res (list R) :=
  let! u := linspace 0 1 (n_points + 1) in
  let temp := map (fun u => tan (PI * (u * (1 - 2 * cut) + cut - 0.5))) u in
  let! t := unit_scale temp in
  let w := map (fun t => wmin + (wmax - wmin) * t) t in
  let w := map2 (fun a b => (a + b) / 2) (slice w 0 (-1)) (slice w 1 (zlen w)) in
  let! s := unit_scale w in
  Ok (map (fun s => s * (wmax - wmin) + wmin) s).
(** lines 94-99; the numerator is multiplied by (wmax - wmin) before the division, which is the same real number *)
Definition hyperbolic_w_mesh (wmin wmax : R) (n_points : Z) : res (list R) :=
  let! u := linspace (-1) 1 n_points in
  let w := map (fun u => rsign u * (sqrt (1 + u ^ 2) - 1)) u in
  let! s := unit_scale w in
  Ok (map (fun s => wmin + (wmax - wmin) * s) s).
(** lines 102-104 *)
Definition linear_w_mesh (wmin wmax : R) (n_points : Z) : res (list R) := linspace wmin wmax n_points.
(** lines 107-111 *)
Definition tan_w_mesh (wmin wmax : R) (n_points : Z) : res (list R) :=
  let! u := linspace (- PI / 2.5) (PI / 2.5) n_points in
  let w := map (fun u => tan u * 1 / tan (PI / 2.5)) u in
  let! s := unit_scale w in
  Ok (map (fun s => wmin + (wmax - wmin) * s) s).
(** lines 114-126 *)
Definition get_w_mesh (mesh_type : string) (wmin wmax : R) (nwr : Z) (cut : option R) : res (list R) :=
  if String.eqb mesh_type "lorentzian" then
    match cut with None => Raise AssertionError | Some c => lorentzian_w_mesh wmin wmax nwr c end
  else if String.eqb mesh_type "hyperbolic" then hyperbolic_w_mesh wmin wmax nwr
  else if String.eqb mesh_type "linear" then linear_w_mesh wmin wmax nwr
  else if String.eqb mesh_type "tan" then tan_w_mesh wmin wmax nwr
  else Raise ValueError.
