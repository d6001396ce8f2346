(** Model of the MaxEnt controller, /repo/src/dga/analytic_continuation.py lines 203-361, of the MPI continuation built on it (lines 341-350)
    and of the local mesh of [MaxEntConfig], /repo/src/dga/config.py lines 324-360.

    Floating-point numbers are real numbers (division by zero is total), complex numbers are pairs.  The library ana_cont is a parameter:
    [solve] is [AnalyticContinuationProblem(...).solve(...)] and returns the optimal spectrum or raises, [gf_kkt] is [GreensFunction(...).kkt()].
    Attributes are kept in an association list (python's [__dict__]); settings that shadow methods are not modelled.  Warnings, printing,
    logging and the communicator are not modelled. *)
From Coq Require Import ZArith Reals List String.
From Verif Require Import Base.PyBase Model.MpiAux Model.RealMesh.
Import ListNotations.
Local Open Scope R_scope.

(** values of settings (as read from the YAML file or given as keyword) *)
Inductive val := VNum (x : R) | VInt (n : Z) | VStr (s : string) | VBool (b : bool) | VNone | VDict (d : list (string * val)).
Definition dict := list (string * val).
Fixpoint lookup (d : dict) (k : string) : option val := match d with [] => None | (k', v) :: d' => if String.eqb k k' then Some v else lookup d' k end.
(** [d.update(e)]: entries of [e] shadow those of [d] *)
Definition update (d e : dict) : dict := (e ++ d)%list.
(** [self.k] *)
Definition attr (d : dict) (k : string) : res val := match lookup d k with Some v => Ok v | None => Raise AttributeError end.
(** numbers: python's bool is an int *)
Definition as_num (v : val) : res R :=
  match v with VNum x => Ok x | VInt n => Ok (IZR n) | VBool b => Ok (if b then 1 else 0) | _ => Raise TypeError end.
Definition as_int (v : val) : res Z := match v with VInt n => Ok n | VBool b => Ok (if b then 1%Z else 0%Z) | _ => Raise TypeError end.
Definition as_str (v : val) : res string := match v with VStr s => Ok s | _ => Raise ValueError end.
(** [v == 0] *)
Definition is_zero (v : val) : bool := match as_num v with Ok x => if Req_EM_T x 0 then true else false | Raise _ => false end.
(** [bool(v)] *)
Definition truthy (v : val) : bool :=
  match v with VNum _ | VInt _ => negb (is_zero v) | VStr s => negb (String.eqb s "") | VBool b => b | VNone => false | VDict d => match d with [] => false | _ => true end end.

(** lines 205-221 *)
Definition MAX_ENT_DEFAULT_SETTINGS : dict :=
  [("cut", VNum 0.04); ("n_fit", VInt 20); ("bw", VNum 0.01); ("nwr", VInt 501); ("wmax", VInt 15); ("wmin", VInt (-15)); ("err", VNum 0.001);
   ("alpha_det_method", VStr "chi2kink"); ("optimizer", VStr "newton"); ("mesh_type", VStr "tan"); ("method", VStr "maxent_svd");
   ("alpha_start", VInt 1000000000); ("alpha_end", VNum 0.001); ("fit_position", VNum 2.5); ("alpha_div", VInt 10)]%string.
(** line 223 *)
Definition SUPPORTED_KERNELS : list string := ["freq_fermionic"; "freq_bosonic"]%string.
(** lines 233-250: attributes declared before the settings are read *)
Definition declared : dict := [("do_cont", VBool true); ("force_preblur", VBool false)]%string.

(** the controller: attributes, and the mesh [self.w] *)
Record controller := Controller { c_attr : dict; c_w : list R }.

(** [self.beta]; a setting of that name replaces it *)
Definition beta_of (d : dict) : res R := let! b := attr d "beta" in as_num b.
(** lines 284-286; [cut] is only used for the Lorentzian mesh *)
Definition set_w_mesh (d : dict) : res (list R) :=
  let! m := attr d "mesh_type" in let! m := as_str m in
  let! wmin := attr d "wmin" in let! wmin := as_num wmin in
  let! wmax := attr d "wmax" in let! wmax := as_num wmax in
  let! nwr := attr d "nwr" in let! nwr := as_int nwr in
  let! cut := attr d "cut" in
  get_w_mesh m wmin wmax nwr (match as_num cut with Ok c => Some c | Raise _ => None end).
(** lines 231-275; the comparisons use the argument [kernel_mode], not the attribute *)
Definition maxent_init (beta : R) (kernel_mode : string) (me_config : option dict) (kwargs : dict) : res controller :=
  if existsb (String.eqb kernel_mode) SUPPORTED_KERNELS then
    let d := update (update declared [("beta", VNum beta)]%string) [("kernel_mode", VStr kernel_mode)]%string in
    let d := update d MAX_ENT_DEFAULT_SETTINGS in
    let d := match me_config with Some m => update d m | None => d end in
    let d := update d kwargs in
    let! d :=
      (if String.eqb kernel_mode "freq_bosonic" then
         let! bw := attr d "bw" in
         let! force := attr d "force_preblur" in
         let d := if negb (is_zero bw) && negb (truthy force) then update d [("bw", VNum 0)]%string else d in
         let! wmin := attr d "wmin" in
         let! x := as_num wmin in
         Ok (if Rlt_dec x 0 then update d [("wmin", VNum 0)]%string else d)
       else Ok d) in
    let! w := set_w_mesh d in
    Ok (Controller d w)
  else Raise AssertionError.

(** lines 277-282 *)
Definition use_preblur (c : controller) : res bool := let! bw := attr (c_attr c) "bw" in Ok (negb (is_zero bw)).
(** matsubara_frequencies.py [vn(beta, n, pos=True)] and [wn(beta, n, pos=True)] *)
Definition vn_pos (beta : R) (n : Z) : list R := map (fun i => PI / beta * (2 * IZR i + 1)) (arange 0 n).
Definition wn_pos (beta : R) (n : Z) : list R := map (fun i => PI / beta * (2 * IZR i)) (arange 0 (n + 1)).
(** lines 288-294 *)
Definition get_im_freq (c : controller) : res (list R) :=
  let! k := attr (c_attr c) "kernel_mode" in let! k := as_str k in
  let! beta := beta_of (c_attr c) in
  let! n := attr (c_attr c) "n_fit" in let! n := as_int n in
  if String.eqb k "freq_fermionic" then Ok (vn_pos beta n)
  else if String.eqb k "freq_bosonic" then Ok (wn_pos beta n) else Raise ValueError.
Definition C := (R * R)%type.
(** lines 296-307; the controller may change its [n_fit], also if the body raises afterwards *)
Definition cut_matrix (c : controller) (mat : list C) : controller * res (list C) :=
  let niv_mat := (zlen mat / 2)%Z in
  match (let! n := attr (c_attr c) "n_fit" in as_int n) with
  | Raise e => (c, Raise e)
  | Ok n =>
    let c := if (niv_mat <? n)%Z then Controller (update (c_attr c) [("n_fit", VInt niv_mat)]%string) (c_w c) else c in
    let n := if (niv_mat <? n)%Z then niv_mat else n in
    (c, let! k := attr (c_attr c) "kernel_mode" in let! k := as_str k in
        if String.eqb k "freq_fermionic" then Ok (slice mat niv_mat (niv_mat + n))
        else if String.eqb k "freq_bosonic" then Ok (slice mat niv_mat (niv_mat + n + 1)) else Raise ValueError)
  end.
(** [np.trapz(y, x)] *)
Fixpoint trapz (y x : list R) : R :=
  match y, x with
  | y0 :: ((y1 :: _) as y'), x0 :: ((x1 :: _) as x') => (x1 - x0) * (y0 + y1) / 2 + trapz y' x'
  | _, _ => 0
  end.
(** lines 309-319 *)
Definition get_model (c : controller) (mat : list C) : res (list R) :=
  let! k := attr (c_attr c) "kernel_mode" in let! k := as_str k in
  let ones := map (fun _ => 1) (c_w c) in
  if String.eqb k "freq_fermionic" then Ok (map (fun m => m / trapz ones (c_w c)) ones)
  else if String.eqb k "freq_bosonic" then
    let! m0 := py_get mat 0 in Ok (map (fun m => m * (fst m0 / trapz ones (c_w c))) ones)
  else Raise ValueError.

(** what is handed to ana_cont, lines 325-333 *)
Record request := Request { q_im_axis : list R; q_re_axis : list R; q_im_data : list C; q_kernel : string; q_beta : R;
  q_method : val; q_model : list R; q_stdev : list R; q_alpha_det : val; q_optimizer : val; q_preblur : bool; q_blur_width : val;
  q_alpha_start : val; q_alpha_end : val; q_alpha_div : val; q_fit_position : val }.
(** a one-dimensional array of real or complex numbers *)
Inductive row := RRow (l : list R) | CRow (l : list C).

Section Cont.
Variable solve : request -> res (list R).
Variable gf_kkt : list R -> list R -> list C.

(** lines 321-345; the first component is the controller afterwards, also if the body raises *)
Definition cont_single_ind (c : controller) (mat : list C) : controller * res row :=
  match cut_matrix c mat with
  | (c, Raise e) => (c, Raise e)
  | (c, Ok mat_plus) =>
    (c, let! im_axis := get_im_freq c in
        let! model := get_model c mat in
        let! err := attr (c_attr c) "err" in let! err := as_num err in
        let error_s := map (fun _ => 1 * err) im_axis in
        let! k := attr (c_attr c) "kernel_mode" in let! k := as_str k in
        let! beta := beta_of (c_attr c) in
        let! method := attr (c_attr c) "method" in
        let! alpha_det := attr (c_attr c) "alpha_det_method" in
        let! optimizer := attr (c_attr c) "optimizer" in
        let! preblur := use_preblur c in
        let! bw := attr (c_attr c) "bw" in
        let! a_start := attr (c_attr c) "alpha_start" in
        let! a_end := attr (c_attr c) "alpha_end" in
        let! a_div := attr (c_attr c) "alpha_div" in
        let! fpos := attr (c_attr c) "fit_position" in
        let! A_opt := solve (Request im_axis (c_w c) mat_plus k beta method model error_s alpha_det optimizer preblur bw a_start a_end a_div fpos) in
        if String.eqb k "freq_fermionic" then Ok (CRow (gf_kkt (c_w c) A_opt))
        else if String.eqb k "freq_bosonic" then Ok (RRow (map (fun a => a * PI / 2) A_opt))
        else Raise ValueError)
  end.
(** lines 347-355: a failed index gives a row of real zeros *)
Fixpoint cont_list (c : controller) (mats : list (list C)) : list row :=
  match mats with
  | [] => []
  | mat :: mats' =>
    let (c', r) := cont_single_ind c mat in
    (match r with Ok x => x | Raise _ => RRow (map (fun _ => 0) (c_w c')) end) :: cont_list c' mats'
  end.
End Cont.

(** a two-dimensional array: whether its entries are complex, and its rows ([np.array([])] has one dimension and no rows) *)
Record arr2 := Arr2 { a_complex : bool; a_rows : list (list C) }.
Definition row_complex (r : row) : bool := match r with RRow _ => false | CRow _ => true end.
Definition row_vals (r : row) : list C := match r with RRow l => map (fun x => (x, 0)) l | CRow l => l end.
(** [np.array(cont_list)]: complex as soon as one row is; rows of different lengths raise *)
Definition np_array (rows : list row) : res arr2 :=
  let vals := map row_vals rows in
  match vals with
  | [] => Ok (Arr2 false [])
  | v :: _ => if forallb (fun u => (zlen u =? zlen v)%Z) vals then Ok (Arr2 (existsb row_complex rows) vals) else Raise ValueError
  end.
Definition analytic_continuation solve gf_kkt (c : controller) (mats : list (list C)) : res arr2 := np_array (cont_list solve gf_kkt c mats).

(** mpi_aux.py 130-136 [gather] of arrays, as called by all ranks together; [bufs] in rank order, rank 0 is the root.  The root allocates from the
    shape and type of its own part: without rows the counts are floats (np.prod(()) = 1.0), which mpi4py rejects.  Parts that differ from the root's
    type or row length make the MPI call erroneous; this is a RuntimeError here. *)
Definition gather_arr (ntasks mpi_size : Z) (bufs : list arr2) : res arr2 :=
  match bufs with
  | [] => Raise RuntimeError
  | r :: _ =>
    match a_rows r with
    | [] => Raise TypeError
    | row0 :: _ =>
      if forallb (fun b => match a_rows b with [] => true | _ => Bool.eqb (a_complex b) (a_complex r) && forallb (fun v => (zlen v =? zlen row0)%Z) (a_rows b) end) bufs then
        let! rows := gather ntasks mpi_size (map a_rows bufs) in
        let! rows := mapM (fun o => match o with Some x => Ok x | None => Raise RuntimeError end) rows in
        Ok (Arr2 (a_complex r) rows)
      else Raise RuntimeError
    end
  end.
(** lines 341-350 (logging left out): what the root gets; every rank has its own copy of the same controller *)
Definition mpi_ana_cont solve gf_kkt (c : controller) (ntasks mpi_size : Z) (mat : list (list C)) : res arr2 :=
  let! parts := scatter ntasks mpi_size mat in
  let! results := mapM (analytic_continuation solve gf_kkt c) parts in
  gather_arr ntasks mpi_size results.

(** config.py 329-360 [MaxEntConfig(t, beta, config_dict).mesh]: assigning [mesh_type] in the constructor runs the property setter, which stores the mesh;
    [update_dict] writes to [__dict__], so neither the setter runs again nor can an entry [mesh_type] be read *)
Definition maxent_config_dict (config_dict : dict) : dict :=
  update [("cut", VNum 0.04); ("nwr", VInt 501); ("wmax", VInt 15); ("_mesh_type", VStr "tan")]%string config_dict.
Inductive mesh_value := Mesh (l : list R) | MeshSetting (v : val).
Definition maxent_config_mesh (config_dict : dict) : res mesh_value :=
  let! m := get_w_mesh "tan" (- IZR 15) (IZR 15) 501 (Some 0.04) in
  Ok (match lookup config_dict "mesh" with Some v => MeshSetting v | None => Mesh m end).
(** [get_omega_mesh()] called afterwards *)
Definition maxent_config_get_mesh (config_dict : dict) : res (list R) :=
  let d := maxent_config_dict config_dict in
  let! m := attr d "_mesh_type" in let! m := as_str m in
  let! wmax := attr d "wmax" in let! wmax := as_num wmax in
  let! nwr := attr d "nwr" in let! nwr := as_int nwr in
  let! cut := attr d "cut" in
  get_w_mesh m (- wmax) wmax nwr (match as_num cut with Ok c => Some c | Raise _ => None end).
