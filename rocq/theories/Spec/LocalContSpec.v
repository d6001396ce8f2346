(** Vocabulary for the continuation of local Green's functions. *)
From Coq Require Import ZArith Reals List String Sorted.
From Verif Require Import Base.PyBase Model.MaxEnt Model.LocalCont.
Import ListNotations.
Local Open Scope string_scope.
Local Open Scope list_scope.
Local Open Scope R_scope.

(** The problem that belongs to the Green's function [mat] (given on 2*niv frequencies, the negative ones first) and the blur width [bw]: the first
    [n_fit] positive fermionic frequencies with the values there, a constant error, and a constant model with integral one. *)
Definition asked (c : me_conf) (mat : list C) (bw : R) (q : loc_request) : Prop :=
  let niv := (zlen mat / 2)%Z in
  zlen (l_im_axis q) = m_n_fit c /\ zlen (l_im_data q) = m_n_fit c /\ zlen (l_stdev q) = m_n_fit c /\
  (forall i, (0 <= i < m_n_fit c)%Z -> zget (l_im_axis q) i = Some ((2 * IZR i + 1) * PI / m_beta c) /\ zget (l_im_data q) i = zget mat (niv + i) /\
                                       zget (l_stdev q) i = Some (m_err c)) /\
  l_re_axis q = m_mesh c /\ zlen (l_model q) = zlen (m_mesh c) /\ trapz (l_model q) (m_mesh c) = 1 /\ (forall x y, In x (l_model q) -> In y (l_model q) -> x = y) /\
  (forall x, In x (l_model q) -> 0 < x) /\
  l_kernel q = "freq_fermionic" /\ l_beta q = m_beta c /\ l_method q = "maxent_svd" /\ l_alpha_det q = m_alpha_det c /\ l_optimizer q = "newton" /\
  l_preblur q = m_preblur c /\ l_blur_width q = bw.
(** The file with the result for one blur width, and the one with the optimal width. *)
Definition cont_file (show : R -> string) (name : string) (bw : R) : string := name ++ "_cont_bw" ++ show bw ++ ".npy".
Definition opt_file (name : string) : string := "bw_opt_" ++ name ++ ".txt".
(** A solver that refuses data which do not belong to its frequencies, as ana_cont does. *)
Definition checks_sizes (solve : loc_request -> res (list R * R)) : Prop :=
  forall q, zlen (l_im_axis q) <> zlen (l_im_data q) -> exists e, solve q = Raise e.
(** A mesh of at least two increasing frequencies. *)
Definition real_mesh (w : list R) : Prop := StronglySorted Rlt w /\ (2 <= zlen w)%Z.
(** Distinct widths have distinct texts. *)
Definition distinct_texts (show : R -> string) (l : list R) : Prop := forall x y, In x l -> In y l -> show x = show y -> x = y.
