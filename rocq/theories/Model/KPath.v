(** Model of the k-path and of the momentum axes of /repo/src/dga/brillouin_zone.py, over the real numbers
    (floating-point rounding is not modelled). *)
From Coq Require Import Reals.
From Verif Require Import Base.PyBase.
Set Implicit Arguments.
Local Open Scope Z_scope.

(** [np.round]: nearest integer, ties to even. *)
Definition np_round (x : R) : Z :=
  let f := Int_part x in
  let d := (x - IZR f)%R in
  if Rlt_dec d (1/2) then f else if Rlt_dec (1/2) d then f + 1 else if Z.even f then f else f + 1.

(** [np.linspace(0, 2*np.pi, n, endpoint=False)] (brillouin_zone.py:243-246, 384-389). *)
Definition k_axis_val (n i : Z) : R := (2 * PI * IZR i / IZR n)%R.
Definition k_axis (n : Z) : list R := map (k_axis_val n) (arange 0 n).

Definition rpoint := (R * R * R)%type.
Definition zpoint := (Z * Z * Z)%type.

(** brillouin_zone.py:516-520 for one axis: the index at parameter t/nkp, wrapped once. *)
Definition segment_index (s e : R) (n nkp t : Z) : Z :=
  let k := np_round (s * IZR n + IZR t / IZR nkp * ((e - s) * IZR n))%R in
  if n <=? k then k - n else k.

(** brillouin_zone.py:515: number of points of a segment. *)
Definition segment_nkp (s e : rpoint) (nk : zpoint) : Z :=
  let '(s1, s2, s3) := s in let '(e1, e2, e3) := e in let '(n1, n2, n3) := nk in
  np_round (sqrt (Rsqr (s1 * IZR n1 - e1 * IZR n1) + Rsqr (s2 * IZR n2 - e2 * IZR n2) + Rsqr (s3 * IZR n3 - e3 * IZR n3)))%R.

(** brillouin_zone.py:514-521 [kpath_segment]. *)
Definition kpath_segment (s e : rpoint) (nk : zpoint) : list zpoint * Z :=
  let nkp := segment_nkp s e nk in
  let '(s1, s2, s3) := s in let '(e1, e2, e3) := e in let '(n1, n2, n3) := nk in
  (map (fun t => (segment_index s1 e1 n1 nkp t, segment_index s2 e2 n2 nkp t, segment_index s3 e3 n3 nkp t)) (arange 0 nkp), nkp).

(** brillouin_zone.py:461-472 [KPath.build_k_path]. *)
Fixpoint build_k_path (ckp : list rpoint) (nk : zpoint) : list zpoint * list Z :=
  match ckp with
  | a :: ((b :: _) as rest) =>
      let '(seg, n) := kpath_segment a b nk in
      let '(p, ns) := build_k_path rest nk in (seg ++ p, n :: ns)
  | _ => ([], [])
  end.

(** brillouin_zone.py:415-417 [KPath.cind]. *)
Definition cind (nkp : list Z) : list Z := 0 :: map (fun c => c - 1) (cumsum nkp).

(** brillouin_zone.py:380-382 [KPath.get_kpath_val]: the x axis is indexed for all three directions. *)
Definition get_kpath_val (nk : zpoint) (kpts : list zpoint) : res (list R * list R * list R) :=
  let '(n1, n2, n3) := nk in
  let kx := k_axis n1 in
  let! a := take kx (map (fun p => fst (fst p)) kpts) in
  let! b := take kx (map (fun p => snd (fst p)) kpts) in
  let! c := take kx (map snd kpts) in
  Ok (a, b, c).

(** [np.argmin]: index of the first minimal element. *)
Fixpoint argmin_from (best : R) (ibest i : Z) (l : list R) : Z :=
  match l with
  | [] => ibest
  | x :: l' => if Rlt_dec x best then argmin_from x i (i + 1) l' else argmin_from best ibest (i + 1) l'
  end.
Definition argmin (l : list R) : Z :=
  match l with [] => 0 | x :: l' => argmin_from x 0 1 l' end.

(** brillouin_zone.py:322-327 [find_q_ind] for one axis. *)
Definition find_q_ind_1 (n : Z) (q : R) : Z := argmin (map (fun k => Rabs (k - q)) (k_axis n)).

(** brillouin_zone.py:313-316 [shift_mat_by_q]: roll by the indices of the mesh momentum found for q. *)
From Verif Require Import Model.BrillouinZone.
Definition shift_mat_by_q {A} (nk : zpoint) (mat : list (list (list A))) (q : rpoint) : list (list (list A)) :=
  let '(n1, n2, n3) := nk in let '(q1, q2, q3) := q in
  shift_mat_by_ind mat (find_q_ind_1 n1 q1) (find_q_ind_1 n2 q2) (find_q_ind_1 n3 q3).
