(** Model of the continuation of local Green's functions for a range of blur widths: /repo/src/dga/analytic_continuation.py lines 389-460 and the settings
    it reads, /repo/src/dga/config.py lines 329-376.

    Numbers are real numbers, complex numbers pairs.  Parameters: [solve] is [AnalyticContinuationProblem(...).solve(...)] of ana_cont and gives the
    optimal spectrum and chi2 or raises; [gf_kkt] is [GreensFunction(...).kkt()]; [curve_fit] is scipy's least-squares fit of the four parameters, or raises;
    [show] is python's text of a float.  Figures are left out. *)
From Coq Require Import ZArith Reals List String.
From Verif Require Import Base.PyBase Model.RealMesh Model.MaxEnt.
Import ListNotations.
Local Open Scope string_scope.
Local Open Scope list_scope.
Local Open Scope R_scope.

(** python's [int(x)] of a float: towards zero *)
Definition py_int (x : R) : Z := if Rle_dec 0 x then Int_part x else (- Int_part (- x))%Z.

(** config.py:329-347: the attributes that are read here.  [mesh] is that of the constructor whatever the settings are (Model/MaxEnt.v,
    [maxent_config_mesh]); [bw_range_loc] from the settings is a list. *)
Record me_conf := MeConf { m_beta : R; m_t : R; m_n_fit : Z; m_err : R; m_alpha_det : val; m_preblur : val; m_mesh : list R; m_bw_range : list R; m_fit_pos : R }.
Definition default_bw_range : list R := [0.001; 0.01; 0.05; 0.1; 0.15; 0.2; 0.25; 0.35; 0.5; 0.75; 1].
(** config.py:329-347 with [update_dict]; [bw_range]: the setting bw_range_loc if it is there.  A setting [beta] or [t] replaces the argument. *)
Definition me_conf_init (t beta : R) (config_dict : dict) (bw_range : option (list R)) : res me_conf :=
  let d := update [("t", VNum t); ("use_preblur", VBool true); ("err", VNum 0.001); ("beta", VNum beta); ("alpha_det_method", VStr "chi2kink");
                   ("n_fit", VInt (py_int (beta * 3 + 10))); ("bw_fit_position", VInt 10)] config_dict in
  let! b := attr d "beta" in let! b := as_num b in
  let! t' := attr d "t" in let! t' := as_num t' in
  let! n := attr d "n_fit" in let! n := as_int n in
  let! e := attr d "err" in let! e := as_num e in
  let! a := attr d "alpha_det_method" in
  let! p := attr d "use_preblur" in
  let! f := attr d "bw_fit_position" in let! f := as_num f in
  let! m := maxent_config_mesh config_dict in
  match m with
  | Mesh w => Ok (MeConf b t' n e a p w (match bw_range with Some l => l | None => default_bw_range end) f)
  | MeshSetting _ => Raise TypeError
  end.
(** config.py:362-368 *)
Definition get_n_fit_opt (c : me_conf) (n_fit_min n_fit_max : Z) : Z := Z.min (Z.max n_fit_min (py_int (m_beta c * 4 * m_t c))) n_fit_max.
Definition get_bw_opt (c : me_conf) : R := PI / (m_beta c * m_t c).

(** what is handed to ana_cont, lines 411-419 *)
Record loc_request := LocRequest { l_im_axis : list R; l_re_axis : list R; l_im_data : list C; l_kernel : string; l_beta : R; l_method : string;
  l_model : list R; l_stdev : list R; l_alpha_det : val; l_optimizer : string; l_preblur : val; l_blur_width : R }.
(** contents of a file: an array of complex numbers, of real numbers, or a number as text *)
Inductive content := CArr (l : list C) | RArr (l : list R) | CText (x : R).
(** the files of a folder *)
Definition folder := string -> option content.
Definition fput (s : folder) (k : string) (c : content) : folder := fun k' => if String.eqb k k' then Some c else s k'.

(** lines 389-392: [v_real < 0] selects frequencies and values *)
Definition check_filling (v_real : list R) (gloc : list C) : R :=
  let sel := filter (fun p => if Rlt_dec (fst p) 0 then true else false) (combine v_real gloc) in
  trapz (map (fun p => - (1) / PI * snd (snd p)) sel) (map fst sel) * 2.

Section Cont.
Variable solve : loc_request -> res (list R * R).
Variable gf_kkt : list R -> list R -> list C.
Variable curve_fit : list R -> list R -> res (R * R * R * R).
Variable show : R -> string.

(** lines 408-419: the problem for a blur width; [np.ones] of a negative length raises *)
Definition loc_problem (c : me_conf) (mat : list C) (bw : R) : res loc_request :=
  let niv_mat := (zlen mat / 2)%Z in
  let n_fit := m_n_fit c in
  let mat_plus := slice mat niv_mat (niv_mat + n_fit) in
  let ones := map (fun _ => 1) (m_mesh c) in
  let model := map (fun m => m / trapz ones (m_mesh c)) ones in
  if (n_fit <? 0)%Z then Raise ValueError
  else Ok (LocRequest (vn_pos (m_beta c) n_fit) (m_mesh c) mat_plus "freq_fermionic" (m_beta c) "maxent_svd" model
             (map (fun _ => 1 * m_err c) (arange 0 n_fit)) (m_alpha_det c) "newton" (m_preblur c) bw).
(** lines 395-428 [max_ent_loc], [max_ent] with return_chi2 *)
Definition max_ent_loc (c : me_conf) (mat : list C) (bw : R) : res (list C * R) :=
  let! p := loc_problem c mat bw in
  let! sol := solve p in
  Ok (gf_kkt (m_mesh c) (fst sol), snd sol).
(** lines 435-443: the files afterwards, also if a width raises, and the list of chi2 *)
Fixpoint bw_loop (c : me_conf) (mat : list C) (name : string) (bws : list R) (s : folder) : folder * res (list R) :=
  match bws with
  | [] => (s, Ok [])
  | bw :: bws' =>
    match max_ent_loc c mat bw with
    | Raise e => (s, Raise e)
    | Ok (mat_cont, chi2) =>
      let s := fput s (name ++ "_cont_bw" ++ show bw ++ ".npy") (CArr mat_cont) in
      let s := fput s "w.npy" (RArr (m_mesh c)) in
      let (s, r) := bw_loop c mat name bws' s in
      (s, let! l := r in Ok (chi2 :: l))
    end
  end.
(** lines 431-460.  What is done in the [try] after the fit cannot raise here. *)
Definition max_ent_loc_bw_range (c : me_conf) (mat : list C) (name : string) (s : folder) : folder * res R :=
  let (s, r) := bw_loop c mat name (m_bw_range c) s in
  match r with
  | Raise e => (s, Raise e)
  | Ok chi2 =>
    match curve_fit (map ln (m_bw_range c)) (map ln chi2) with
    | Ok (_, _, cc, d) =>
      let bw_opt := exp (cc - m_fit_pos c / d) in
      (fput s ("bw_opt_" ++ name ++ ".txt") (CText bw_opt), Ok bw_opt)
    | Raise _ => (s, Ok 0)
    end
  end.
End Cont.
(** lines 447-448 [fitfun] *)
Definition fitfun (x a b c d : R) : R := a + b / (1 + exp (- d * (x - c))).
(** dga_max_ent.py:60-66, 77-79: both local Green's functions, continued into the same folder *)
Definition local_run solve gf_kkt curve_fit show (c : me_conf) (g_dmft g_dga : list C) (s : folder) : folder * res (R * R) :=
  match max_ent_loc_bw_range solve gf_kkt curve_fit show c g_dmft "dmft" s with
  | (s, Raise e) => (s, Raise e)
  | (s, Ok b1) =>
    match max_ent_loc_bw_range solve gf_kkt curve_fit show c g_dga "dga" s with
    | (s, Raise e) => (s, Raise e)
    | (s, Ok b2) => (s, Ok (b1, b2))
    end
  end.
