(** Model of the checks a run writes to its log, /repo/src/dga/config.py:654-682 and loggers.py:83-90.
    Real arithmetic; complex numbers are pairs.  The estimates are printed with [repr], which is left out: the numbers themselves are the result. *)
From Coq Require Import ZArith Reals List String.
From Verif Require Import Base.PyBase Model.Matsubara Model.RankFiles Model.RunLog Model.CliTools Model.Config.
Import ListNotations.
Local Open Scope R_scope.

(** [f'{x:.4f}'] *)
Definition fmt_4f (x : R) : string :=
  let m := py_round (Rabs x * 10000) in
  ((if Rlt_dec x 0 then "-" else "") ++ fmt0 0 (m / 10000) ++ "." ++ fmt0 4 (m mod 10000))%string.
(** [np.max] *)
Definition np_max (l : list R) : res R := match l with [] => Raise ValueError | x :: l' => Ok (fold_left Rmax l' x) end.

(** config.py:662-664: the number in the message *)
Definition gloc_diff (giw g_loc : list (R * R)) : res R :=
  let niv_min := Z.min (niv_from_len (zlen giw) false) (niv_from_len (zlen g_loc) false) in
  np_max (map2 (fun a b => cabs (fst a - fst b, snd a - snd b)) (cut_v_1d giw niv_min) (cut_v_1d g_loc niv_min)).
(** config.py:662-666 [check_gloc_dmft]: the two messages; the second only if the first could be made *)
Definition check_gloc_dmft (giw g_loc : list (R * R)) (mu_dmft mu : R) : res (list string) :=
  let! d := gloc_diff giw g_loc in
  Ok ["Checking gloc: max_diff=" ++ fmt_4f d; "Checking mu: mu_input=" ++ fmt_4f mu_dmft ++ "; mu_dmft=" ++ fmt_4f mu]%string.
(** config.py:658-660 [log_sys_params], the part with mu; n, beta and u are printed with [repr] *)
Definition sys_mu (mu_dmft : R) : string := ("mu_dmft=" ++ fmt_4f mu_dmft)%string.

(** config.py:668-679 [log_estimated_memory_consumption]: GB per object *)
Record estimates := Est { e_giwk : R; e_vrg : R; e_chi0q : R; e_fcond : R }.
Definition estimated_memory (nq_tot nk_tot : Z) (b : box) : estimates :=
  let vn_size_core := (niv_core b * 2)%Z in
  let wn_size_core := (niw_core b * 2 + 1)%Z in
  let vn_size_full := (niv_full b * 2)%Z in
  let vn_size_asympt := ((niv_full b + niv_asympt b) * 2)%Z in
  let size_complex := 16%Z in
  Est (IZR (nk_tot * vn_size_asympt * size_complex) / 1000000000)
      (IZR (nq_tot * wn_size_core * vn_size_core * size_complex) / 1000000000)
      (IZR (nq_tot * wn_size_core * vn_size_full * size_complex) / 1000000000)
      (IZR (nq_tot * wn_size_core * vn_size_core ^ 3 * size_complex) / 1000000000).
