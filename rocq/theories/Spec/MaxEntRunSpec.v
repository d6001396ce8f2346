(** Vocabulary for the analytic-continuation run: its four quantities. *)
From Coq Require Import ZArith Reals List String.
From Verif Require Import Base.PyBase Base.Arr Spec.BZSpec Model.MpiAux Model.BrillouinZone Model.MaxEnt Model.MaxEntRun.
Import ListNotations.
Local Open Scope R_scope.

Inductive quantity := SelfEnergy | GreensFunction | ChiDensity | ChiMagnetic.
Definition all_quantities : list quantity := [SelfEnergy; GreensFunction; ChiDensity; ChiMagnetic].
(** the section of the configuration file, the file with the result, and the kernel *)
Definition section_name (q : quantity) : string := match q with SelfEnergy => "s_dga" | GreensFunction => "g_dga" | ChiDensity => "chi_d" | ChiMagnetic => "chi_m" end.
Definition file_name (q : quantity) : string :=
  match q with SelfEnergy => "MaxEntSiwk/swk_dga_cont_fbz.npy" | GreensFunction => "MaxEntGiwk/gwk_dga_cont_fbz.npy"
             | ChiDensity => "MaxEntChiDens/chi_dens_cont_fbz.npy" | ChiMagnetic => "MaxEntChiMagn/chi_magn_cont_fbz.npy" end.
Definition kernel (q : quantity) : string := match q with SelfEnergy | GreensFunction => "freq_fermionic" | ChiDensity | ChiMagnetic => "freq_bosonic" end.
(** the constant taken out before the continuation and put back afterwards *)
Definition constant_part (d : me_data) (q : quantity) : R := match q with SelfEnergy => d_smom0 d | _ => 0 end.
(** the Matsubara data; the self-energy is given on as many frequencies as are fitted *)
Definition matsubara_data (d : me_data) (q : quantity) (n_fit : Z) : res kmesh :=
  match q with SelfEnergy => Ok (d_siw d n_fit) | GreensFunction => Ok (d_giw d) | ChiDensity => d_chi_dens d | ChiMagnetic => d_chi_magn d end.
Definition grid_of {A} (k q' : A) (q : quantity) : A := match q with SelfEnergy | GreensFunction => k | ChiDensity | ChiMagnetic => q' end.
Definition shift_by (r : R) (v : list C) : list C := map (fun z => (fst z + r, snd z)) v.
(** what the controller makes of the data of one momentum; zeros if the continuation fails *)
Definition continued solve gf_kkt (c : controller) (data : list C) : list C :=
  match snd (cont_single_ind solve gf_kkt c data) with Ok r => row_vals r | Raise _ => map (fun _ => (0, 0)) (c_w c) end.
(** the section of a quantity is there and asks for the continuation with the controller [c] *)
Definition requested (d : me_data) (cfg : dict) (q : quantity) (c : controller) : Prop :=
  exists kw v, lookup cfg (section_name q) = Some (VDict kw) /\ maxent_init (d_beta d) (kernel q) (Some cfg) kw = Ok c /\
    attr (c_attr c) "do_cont" = Ok v /\ truthy v = true.
(** the data of a mesh: an array of its shape with equally many frequencies everywhere *)
Definition mesh_data (m : kmesh) (n : Z * Z * Z) : Prop :=
  let '(nx, ny, nz) := n in shape3 m nx ny nz /\ exists L, forall k v, at3 m k = Some v -> zlen v = L.
Definition symmetric (m : kmesh) (n : Z * Z * Z) (syms : list string) : Prop :=
  let '(nx, ny, nz) := n in forall s k, In s syms -> on_mesh nx ny nz k -> at3 m (point_op nx ny nz s k) = at3 m k.
(** the grid made of a mesh and a list of symmetries *)
Definition grid (g : kgrid) (n : Z * Z * Z) (syms : list string) : Prop :=
  let '(nx, ny, nz) := n in (0 < nx)%Z /\ (0 < ny)%Z /\ (0 < nz)%Z /\ Forall known syms /\ make_kgrid nx ny nz syms = Ok g.
Definition mesh_point (n : Z * Z * Z) (k : point) : Prop := let '(nx, ny, nz) := n in on_mesh nx ny nz k.
Definition equivalent (n : Z * Z * Z) (syms : list string) (k k' : point) : Prop := let '(nx, ny, nz) := n in equiv nx ny nz syms k k'.
(** library conventions: a spectrum on every point of the mesh *)
Definition on_the_mesh (solve : request -> res (list R)) (gf_kkt : list R -> list R -> list C) : Prop :=
  (forall q A, solve q = Ok A -> zlen A = zlen (q_re_axis q)) /\ (forall w A, zlen (gf_kkt w A) = zlen w).
