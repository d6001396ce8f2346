(** Model of /repo/src/dga/wannier.py: real-space Hamiltonians and their
    transformation to momentum space.

    Floating-point numbers are real numbers of Coq's standard library, complex
    numbers pairs of them.  Arrays are functions of their indices together with
    their lengths.  *)
From Coq Require Import Reals List ZArith.
Import ListNotations.
Local Open Scope R_scope.

Definition cpx : Type := (R * R)%type.
Definition cadd (a b : cpx) : cpx := (fst a + fst b, snd a + snd b).
Definition cmul (a b : cpx) : cpx := (fst a * fst b - snd a * snd b, fst a * snd b + snd a * fst b).
Definition cre (x : R) : cpx := (x, 0).
Definition ci : cpx := (0, 1).
(** division by a real number *)
Definition cdivr (a : cpx) (x : R) : cpx := (fst a / x, snd a / x).
(** np.exp(1j*x) *)
Definition expi (x : R) : cpx := (cos x, sin x).
(** np.sum(..., axis=0) *)
Fixpoint csum (n : nat) (f : nat -> cpx) : cpx :=
  match n with O => (0, 0) | S m => cadd (csum m f) (f m) end.

(** wannier.py:14-22 class WannierHr: hr [n_r,n_orbs,n_orbs], r_grid
    [n_r,n_orbs,n_orbs,3], r_weights [n_r,1], orbs [n_r,n_orbs,n_orbs,2].  *)
Record wannier := { n_r : nat; n_orbs : nat;
  hr : nat -> nat -> nat -> cpx;
  r_grid : nat -> nat -> nat -> nat -> R;
  r_weights : nat -> R;
  orbs : nat -> nat -> nat -> nat -> R }.

Definition kvec := nat -> R. (* components 0, 1, 2 *)
(** np.matmul(r_grid, kmesh) for one k point: the scalar product over the last axis of length 3. *)
Definition rdotk (r : nat -> R) (k : kvec) : R := r 0%nat * k 0%nat + r 1%nat * k 1%nat + r 2%nat * k 2%nat.

(** wannier.py:478-486 [convham], one k point and one pair of orbitals. *)
Definition convham (w : wannier) (k : kvec) (a b : nat) : cpx :=
  csum (n_r w) (fun r => cmul (cdivr (expi (rdotk (r_grid w r a b) k)) (r_weights w r)) (hr w r a b)).

(** wannier.py:456-472 [convham2]: np.dot of the squeezed arrays is the same
    scalar product (for n_r = 1 squeezing removes the axis that is summed). *)
Definition convham2 (w : wannier) (k : kvec) (a b : nat) : cpx :=
  csum (n_r w) (fun r => cmul (cdivr (expi (rdotk (r_grid w r a b) k)) (r_weights w r)) (hr w r a b)).

(** wannier.py:491-498 [light_vertex] *)
Definition light_vertex (w : wannier) (der : nat) (k : kvec) (a b : nat) : cpx :=
  csum (n_r w) (fun r =>
    cmul (cmul (cmul (cdivr (expi (rdotk (r_grid w r a b) k)) (r_weights w r)) ci) (cre (r_grid w r a b der))) (hr w r a b)).

(** brillouin_zone.py:244-246: np.linspace(0, 2 pi, nk, endpoint=False) and
    lines 211-220: kmesh with indexing 'ij', flattened in C order. *)
Definition kaxis (nk i : nat) : R := 2 * PI * INR i / INR nk.
Definition kpoint (nkx nky nkz ix iy iz : nat) : kvec :=
  fun d => match d with O => kaxis nkx ix | S O => kaxis nky iy | _ => kaxis nkz iz end.
(** wannier.py:24-30 [get_ek] / 32-38 [get_light_vertex]: the flattened C-order mesh is
    transformed and reshaped back, so entry (ix,iy,iz) belongs to that k point. *)
Definition get_ek_all (w : wannier) (nkx nky nkz : nat) (ix iy iz a b : nat) : cpx :=
  let lin := ((ix * nky + iy) * nkz + iz)%nat in
  convham w (kpoint nkx nky nkz (lin / (nky * nkz)) (lin / nkz mod nky) (lin mod nkz)) a b.
Definition get_ek (w : wannier) (nkx nky nkz : nat) (ix iy iz : nat) : cpx :=
  get_ek_all w nkx nky nkz ix iy iz 0 0.
Definition get_light_vertex (w : wannier) (der : nat) (nkx nky nkz : nat) (ix iy iz : nat) : cpx :=
  let lin := ((ix * nky + iy) * nkz + iz)%nat in
  light_vertex w der (kpoint nkx nky nkz (lin / (nky * nkz)) (lin / nkz mod nky) (lin mod nkz)) 0 0.

(** numpy literal arrays *)
Definition vec3 (x y z : R) (d : nat) : R := match d with O => x | S O => y | _ => z end.
Definition square_r : list (nat -> R) :=
  [vec3 1 0 0; vec3 0 1 0; vec3 (-1) 0 0; vec3 0 (-1) 0;
   vec3 1 1 0; vec3 1 (-1) 0; vec3 (-1) 1 0; vec3 (-1) (-1) 0;
   vec3 2 0 0; vec3 0 2 0; vec3 (-2) 0 0; vec3 0 (-2) 0].
(** wannier.py:182-189 [wannier_one_band_2d_t_tp_tpp] *)
Definition wannier_one_band_2d_t_tp_tpp (t tp tpp : R) : wannier :=
  {| n_r := 12; n_orbs := 1;
     hr := fun r _ _ => cre (- nth r [t; t; t; t; tp; tp; tp; tp; tpp; tpp; tpp; tpp] 0);
     r_grid := fun r _ _ => nth r square_r (vec3 0 0 0);
     r_weights := fun _ => 1; orbs := fun _ _ _ _ => 1 |}.
(** wannier.py:204-211 [wannier_one_band_2d_nematic] *)
Definition wannier_one_band_2d_nematic (tx ty tppx tppy tpxy : R) : wannier :=
  {| n_r := 12; n_orbs := 1;
     hr := fun r _ _ => cre (- nth r [tx; ty; tx; ty; tpxy; tpxy; tpxy; tpxy; tppx; tppy; tppx; tppy] 0);
     r_grid := fun r _ _ => nth r square_r (vec3 0 0 0);
     r_weights := fun _ => 1; orbs := fun _ _ _ _ => 1 |}.

(** wannier.py:57-63 [create_r_grid]: [vecs] lists the keys of r2ind in the order of their indices 0,1,... *)
Definition create_r_grid (vecs : list (Z * Z * Z)) : nat -> nat -> nat -> nat -> R :=
  fun r _ _ => match nth r vecs (0, 0, 0)%Z with (x, y, z) => vec3 (IZR x) (IZR y) (IZR z) end.
(** wannier.py:66-72 [create_orbs]: orbs[io1, io2, :] indexes the first TWO of the four axes. *)
Definition create_orbs (n_orbs : nat) : nat -> nat -> nat -> nat -> R :=
  fun r a b d => if andb (Nat.ltb r n_orbs) (Nat.ltb a n_orbs) then (match d with O => INR (r + 1) | _ => INR (a + 1) end) else 0.

(** wannier.py:75-79 [insert_hr_elemend] (1-based orbitals; r2ind gives the position of r_vec). *)
Definition v3eq (a b : Z * Z * Z) : bool :=
  match a, b with (x, y, z), (x', y', z') => andb (Z.eqb x x') (andb (Z.eqb y y') (Z.eqb z z')) end.
Fixpoint index_of (v : Z * Z * Z) (vecs : list (Z * Z * Z)) : nat :=
  match vecs with [] => O | u :: t => if v3eq u v then O else S (index_of v t) end.
Definition insert_hr (vecs : list (Z * Z * Z)) (v : Z * Z * Z) (o1 o2 : nat) (x : R)
    (h : nat -> nat -> nat -> R) : nat -> nat -> nat -> R :=
  fun r a b => if andb (Nat.eqb r (index_of v vecs)) (andb (Nat.eqb a (o1 - 1)) (Nat.eqb b (o2 - 1))) then x else h r a b.
Definition emery_vecs : list (Z * Z * Z) :=
  [(0,0,0); (1,0,0); (0,1,0); (-1,0,0); (0,-1,0); (1,-1,0); (-1,1,0)]%Z.
(** wannier.py:103-179 [wannier_emery_model]: the insertions in program order. *)
Definition emery_inserts (ed ep tpd tpp tpp_p : R) : list ((Z * Z * Z) * nat * nat * R) :=
  [((0,0,0)%Z, 1%nat, 1%nat, ed); ((0,0,0)%Z, 2%nat, 2%nat, ep); ((0,0,0)%Z, 3%nat, 3%nat, ep);
   ((0,0,0)%Z, 1%nat, 2%nat, tpd); ((0,0,0)%Z, 2%nat, 1%nat, tpd); ((0,0,0)%Z, 1%nat, 3%nat, tpd); ((0,0,0)%Z, 3%nat, 1%nat, tpd);
   ((-1,0,0)%Z, 1%nat, 2%nat, -tpd); ((0,-1,0)%Z, 1%nat, 3%nat, -tpd); ((1,0,0)%Z, 2%nat, 1%nat, -tpd); ((0,1,0)%Z, 3%nat, 1%nat, -tpd);
   ((0,0,0)%Z, 2%nat, 3%nat, tpp); ((0,0,0)%Z, 3%nat, 2%nat, tpp);
   ((1,0,0)%Z, 2%nat, 3%nat, -tpp); ((0,1,0)%Z, 3%nat, 2%nat, -tpp); ((-1,0,0)%Z, 3%nat, 2%nat, -tpp); ((0,-1,0)%Z, 2%nat, 3%nat, -tpp);
   ((-1,1,0)%Z, 3%nat, 2%nat, tpp); ((1,-1,0)%Z, 2%nat, 3%nat, tpp);
   ((1,0,0)%Z, 2%nat, 2%nat, tpp_p); ((0,1,0)%Z, 3%nat, 3%nat, tpp_p); ((-1,0,0)%Z, 2%nat, 2%nat, tpp_p); ((0,-1,0)%Z, 3%nat, 3%nat, tpp_p)].
Definition wannier_emery_model (ed ep tpd tpp tpp_p : R) : wannier :=
  let h := fold_left (fun h e => match e with (v, o1, o2, x) => insert_hr emery_vecs v o1 o2 x h end)
                     (emery_inserts ed ep tpd tpp tpp_p) (fun _ _ _ => 0) in
  {| n_r := 7; n_orbs := 3; hr := fun r a b => cre (h r a b);
     r_grid := create_r_grid emery_vecs; r_weights := fun _ => 1; orbs := create_orbs 3 |}.
(** wannier.py:82-100 [emery_model_ek], one k point *)
Definition emery_hk (kx ky ed ep tpp tpd tpp_p : R) (a b : nat) : cpx :=
  let one_m e := cadd (cre 1) (cmul (cre (-1)) e) in
  match a, b with
  | 0%nat, 0%nat => cre ed
  | 0%nat, 1%nat => cmul (cre tpd) (one_m (expi (- kx)))
  | 0%nat, 2%nat => cmul (cre tpd) (one_m (expi (- ky)))
  | 1%nat, 0%nat => cmul (cre tpd) (one_m (expi kx))
  | 1%nat, 1%nat => cre (ep + 2 * tpp_p * cos kx)
  | 1%nat, 2%nat => cmul (cmul (cre tpp) (one_m (expi kx))) (one_m (expi (- ky)))
  | 2%nat, 0%nat => cmul (cre tpd) (one_m (expi ky))
  | 2%nat, 1%nat => cmul (cmul (cre tpp) (one_m (expi (- kx)))) (one_m (expi ky))
  | 2%nat, 2%nat => cre (ep + 2 * tpp_p * cos ky)
  | _, _ => cre 0
  end.

(** wannier.py:328-330 [ek_square], 333-335 [del_ek_del_kx_square] *)
Definition ek_square (kx ky t tp tpp : R) : R :=
  - 2 * t * (cos kx + cos ky) - 4 * tp * cos kx * cos ky - 2 * tpp * (cos (2 * kx) + cos (2 * ky)).
Definition del_ek_del_kx_square (kx ky t tp tpp : R) : R :=
  - 2 * t * (- sin kx) + 4 * tp * sin kx * cos ky - 2 * tpp * (- 2 * sin (2 * kx)).
(** wannier.py:338-345 [ekpq_3d], 348-355 [ek_3d], 358-365 [ek_3d_klist]: t_mat as a function of (row,column) *)
Definition ek_3d (h : nat -> nat -> R) (kx ky kz : R) : R :=
  let ek := - 2 * (h 0%nat 0%nat * cos kx + h 0%nat 1%nat * cos ky + h 0%nat 2%nat * cos kz) in
  let ek := ek - 2 * (h 1%nat 0%nat * cos (kx + ky) + h 1%nat 1%nat * cos (kx - ky)) in
  ek - 2 * (h 2%nat 0%nat * cos (2 * kx) + h 2%nat 1%nat * cos (2 * ky) + h 2%nat 2%nat * cos kz).
Definition ekpq_3d (kx ky kz qx qy qz : R) (h : nat -> nat -> R) : R :=
  let kx := kx + qx in let ky := ky + qy in let kz := kz + qz in
  let ek := - 2 * (h 0%nat 0%nat * cos kx + h 0%nat 1%nat * cos ky + h 0%nat 2%nat * cos kz) in
  let ek := ek - 2 * (h 1%nat 0%nat * cos (kx + ky) + h 1%nat 1%nat * cos (kx - ky)) in
  ek - 2 * (h 2%nat 0%nat * cos (2 * kx) + h 2%nat 1%nat * cos (2 * ky) + h 2%nat 2%nat * cos kz).
Definition mat3 (a b c d e f g h i : R) (r s : nat) : R :=
  nth s (nth r [[a; b; c]; [d; e; f]; [g; h; i]] []) 0.
(** wannier.py:192-193 [one_band_2d_t_tp_tpp], 196-201 [one_band_2d_quasi1d], [one_band_2d_nematic] *)
Definition one_band_2d_t_tp_tpp (t tp tpp : R) : nat -> nat -> R := mat3 t t 0 tp tp 0 tpp tpp 0.
Definition one_band_2d_nematic (tx ty tppx tppy tpxy : R) : nat -> nat -> R := mat3 tx ty 0 tpxy tpxy 0 tppx tppy 0.
