(** C06-C16, C46, C47: Matsubara frequency bookkeeping (matsubara_frequencies.py).

    Reading guide.  A fermionic axis of length [2*niv] stores the indices -niv..niv-1, index [v]
    at position [niv + v]; a bosonic axis of length [2*niw+1] stores -niw..niw, index [w] at
    position [niw + w].  [zget l i] is the entry of [l] at position [i], [None] outside
    [0, len): it never wraps.  [get2 m i j], [get3 m i j k] are the nested versions and
    [shape2 m a b] / [shape3 m a b c] say that [m] is rectangular with these dimensions. *)
From Coq Require Import String.
From Verif Require Import Base.PyBase Base.PyFacts Base.Arr Spec.FreqSpec Model.Matsubara Proofs.MatsubaraP.
Local Open Scope Z_scope.

(** ** C06 *)
Theorem C06_vn_grid : forall n s, 0 <= n ->
  zlen (vn n s false) = 2 * n /\ (forall i, 0 <= i < 2 * n -> zget (vn n s false) i = Some (i - n + s)).
Proof. exact vn_grid. Qed.
Print Assumptions C06_vn_grid.
Theorem C06_wn_grid : forall n s, 0 <= n ->
  zlen (wn n s false) = 2 * n + 1 /\ (forall i, 0 <= i <= 2 * n -> zget (wn n s false) i = Some (i - n + s)).
Proof. exact wn_grid. Qed.
Print Assumptions C06_wn_grid.
(** reading the fermionic grid backwards maps v to -v-1, i.e. (2v+1) to -(2v+1) *)
Theorem C06_vn_antisymmetric : forall n, 0 <= n -> rev (vn n 0 false) = map (fun v => - v - 1) (vn n 0 false).
Proof. exact vn_flip. Qed.
Print Assumptions C06_vn_antisymmetric.
Theorem C06_wn_antisymmetric : forall n, 0 <= n -> rev (wn n 0 false) = map Z.opp (wn n 0 false).
Proof. exact wn_flip. Qed.
Print Assumptions C06_wn_antisymmetric.
Theorem C06_vn_pos : forall n s, 0 <= n -> vn n s true = filter (fun v => s <=? v) (vn n s false).
Proof. exact vn_pos. Qed.
Print Assumptions C06_vn_pos.
Theorem C06_wn_pos : forall n s, 0 <= n -> wn n s true = filter (fun v => s <=? v) (wn n s false).
Proof. exact wn_pos. Qed.
Print Assumptions C06_wn_pos.
(** the grid deduced from an array has the length of the array *)
Theorem C06_vn_of_array : forall A (mat : list A) n, 0 <= n -> zlen mat = 2 * n -> zlen (vn_from_mat mat 0 false) = zlen mat.
Proof. exact vn_from_mat_inv. Qed.
Print Assumptions C06_vn_of_array.
Theorem C06_wn_of_array : forall A (mat : list A) n, 0 <= n -> zlen mat = 2 * n + 1 -> zlen (wn_from_mat mat 0 false) = zlen mat.
Proof. exact wn_from_mat_inv. Qed.
Print Assumptions C06_wn_of_array.
(** ... also for arrays that hold the non-negative frequencies only *)
Theorem C06_of_positive_array : forall A (mat : list A), 0 < zlen mat ->
  vn_from_mat mat 0 true = arange 0 (zlen mat) /\ wn_from_mat mat 0 true = arange 0 (zlen mat).
Proof. exact from_mat_pos. Qed.
Print Assumptions C06_of_positive_array.
Example C06_example : vn 3 0 false = [-3;-2;-1;0;1;2] /\ wn 2 0 false = [-2;-1;0;1;2] /\ vn 3 1 true = [1;2;3] /\ wn 2 0 true = [0;1;2].
Proof. repeat split. Qed.

(** ** C07 *)
Theorem C07_freq_shift : forall iwn a b s, get_freq_shift iwn s = Ok (a, b) ->
  Z.abs a <= Z.abs iwn /\ Z.abs b <= Z.abs iwn /\
  ((s = "plus"%string /\ a = 0 /\ b - a = iwn) \/
   (s = "minus"%string /\ a = 0 /\ a - b = iwn) \/
   (s = "center"%string /\ a - b = iwn /\ (a + b = 0 \/ a + b = -1))).
Proof. exact freq_shift_spec. Qed.
Print Assumptions C07_freq_shift.
Theorem C07_known_notations : forall iwn s, (s = "plus" \/ s = "minus" \/ s = "center")%string -> exists ab, get_freq_shift iwn s = Ok ab.
Proof. exact freq_shift_known. Qed.
Print Assumptions C07_known_notations.
Theorem C07_unknown_notation : forall iwn s, s <> "plus"%string -> s <> "minus"%string -> s <> "center"%string ->
  get_freq_shift iwn s = Raise NotImplementedError.
Proof. exact freq_shift_unknown. Qed.
Print Assumptions C07_unknown_notation.
Example C07_example : get_freq_shift 5 "center" = Ok (2, -3) /\ get_freq_shift (-5) "center" = Ok (-3, 2) /\
  get_freq_shift 5 "minus" = Ok (0, -5) /\ get_freq_shift 5 "ph" = Raise NotImplementedError.
Proof. repeat split. Qed.

(** ** C08 *)
Theorem C08_completion : forall A (conj : A -> A) m,
  zlen (fermionic_full_nu_range conj m) = 2 * zlen m /\
  (forall v, 0 <= v < zlen m -> zget (fermionic_full_nu_range conj m) (zlen m + v) = zget m v) /\
  (forall v, 0 <= v < zlen m -> zget (fermionic_full_nu_range conj m) (zlen m + (- v - 1)) = option_map conj (zget m v)).
Proof. exact fermionic_completion. Qed.
Print Assumptions C08_completion.
Theorem C08_symmetric : forall A (conj : A -> A) m, (forall a, conj (conj a) = a) -> forall v, - zlen m <= v < zlen m ->
  zget (fermionic_full_nu_range conj m) (zlen m + (- v - 1)) = option_map conj (zget (fermionic_full_nu_range conj m) (zlen m + v)).
Proof. exact fermionic_sym. Qed.
Print Assumptions C08_symmetric.
Theorem C08_positive_half : forall A (conj : A -> A) m, clip_pos_mf_vn (fermionic_full_nu_range conj m) = m.
Proof. exact clip_pos_full. Qed.
Print Assumptions C08_positive_half.
Theorem C08_recover : forall A (conj : A -> A) f n, zlen f = 2 * n ->
  (forall v, 0 <= v < n -> zget f (n + (- v - 1)) = option_map conj (zget f (n + v))) ->
  fermionic_full_nu_range conj (clip_pos_mf_vn f) = f.
Proof. exact fermionic_recover. Qed.
Print Assumptions C08_recover.
(** complex numbers as pairs, to show that the hypotheses are met *)
Example C08_example : let conj := fun z : Z * Z => (fst z, - snd z) in
  fermionic_full_nu_range conj [(1,2);(3,4)] = [(3,-4);(1,-2);(1,2);(3,4)] /\ (forall a, conj (conj a) = a).
Proof. split; [reflexivity|]. intros [x y]. cbn. f_equal. lia. Qed.

(** ** C09 *)
Theorem C09_completion : forall A (conj : A -> A) m, 0 < zlen m ->
  zlen (bosonic_full_nu_range conj m) = 2 * (zlen m - 1) + 1 /\
  (forall w, 0 <= w < zlen m -> zget (bosonic_full_nu_range conj m) (zlen m - 1 + w) = zget m w) /\
  (forall w, 0 < w < zlen m -> zget (bosonic_full_nu_range conj m) (zlen m - 1 + - w) = option_map conj (zget m w)).
Proof. exact bosonic_completion. Qed.
Print Assumptions C09_completion.
Theorem C09_recover : forall A (conj : A -> A) f n, 0 <= n -> zlen f = 2 * n + 1 ->
  (forall w, 0 < w <= n -> zget f (n - w) = option_map conj (zget f (n + w))) ->
  bosonic_full_nu_range conj (slice f n (2 * n + 1)) = f.
Proof. exact bosonic_recover. Qed.
Print Assumptions C09_recover.
(** version flipping the fermionic axis too: f(-w,-v-1) = conj f(w,v) *)
Theorem C09_completion_two_axes : forall A (conj : A -> A) m niw niv, 0 <= niw -> 0 <= niv -> shape2 m (niw + 1) (2 * niv) ->
  shape2 (bosonic_full_nu_range_2 conj m) (2 * niw + 1) (2 * niv) /\
  (forall w v, 0 <= w <= niw -> - niv <= v < niv ->
     get2 (bosonic_full_nu_range_2 conj m) (niw + w) (niv + v) = get2 m w (niv + v)) /\
  (forall w v, 0 < w <= niw -> - niv <= v < niv ->
     get2 (bosonic_full_nu_range_2 conj m) (niw - w) (niv + (- v - 1)) = option_map conj (get2 m w (niv + v))).
Proof. exact bosonic2_completion. Qed.
Print Assumptions C09_completion_two_axes.
Example C09_example : let conj := fun z : Z * Z => (fst z, - snd z) in
  bosonic_full_nu_range conj [(5,0);(1,2);(3,4)] = [(3,-4);(1,-2);(5,0);(1,2);(3,4)] /\
  bosonic_full_nu_range_2 conj [[(5,1);(6,1)];[(1,2);(3,4)]] = [[(3,-4);(1,-2)];[(5,1);(6,1)];[(1,2);(3,4)]].
Proof. split; reflexivity. Qed.

(** ** C10 *)
Theorem C10_cut_v : forall A (arr : list A) niv c, zlen arr = 2 * niv -> 0 <= c <= niv ->
  zlen (cut_v_1d arr c) = 2 * c /\ forall v, - c <= v < c -> zget (cut_v_1d arr c) (c + v) = zget arr (niv + v).
Proof. exact cut_v_spec. Qed.
Print Assumptions C10_cut_v.
Theorem C10_cut_v_pos : forall A (arr : list A) niv niv_cut niv_min, zlen arr = 2 * niv -> 0 <= niv_min -> 0 <= niv_cut -> niv_min + niv_cut <= niv ->
  zlen (cut_v_1d_pos arr niv_cut niv_min) = niv_cut /\
  forall v, niv_min <= v < niv_min + niv_cut -> zget (cut_v_1d_pos arr niv_cut niv_min) (v - niv_min) = zget arr (niv + v).
Proof. exact cut_v_pos_spec. Qed.
Print Assumptions C10_cut_v_pos.
Theorem C10_cut_v_pos_default : forall A (arr : list A) niv, zlen arr = 2 * niv -> cut_v_1d_pos arr (-1) 0 = clip_pos_mf_vn arr.
Proof. exact cut_v_pos_default. Qed.
Print Assumptions C10_cut_v_pos_default.
Theorem C10_cut_v_two_axes : forall A (arr : list (list A)) niv c, shape2 arr (2 * niv) (2 * niv) -> 0 <= c <= niv ->
  shape2 (cut_v_2 arr c) (2 * c) (2 * c) /\
  forall v vp, - c <= v < c -> - c <= vp < c -> get2 (cut_v_2 arr c) (c + v) (c + vp) = get2 arr (niv + v) (niv + vp).
Proof. exact cut_v_2_spec. Qed.
Print Assumptions C10_cut_v_two_axes.
Theorem C10_cut_w : forall A (arr : list A) niw c, zlen arr = 2 * niw + 1 -> 0 <= c <= niw ->
  zlen (cut_w_1d arr c) = 2 * c + 1 /\ forall w, - c <= w <= c -> zget (cut_w_1d arr c) (c + w) = zget arr (niw + w).
Proof. exact cut_w_spec. Qed.
Print Assumptions C10_cut_w.
Theorem C10_cuts_compose : forall A (arr : list A) niv a b, zlen arr = 2 * niv -> 0 <= b <= a -> a <= niv ->
  cut_v_1d (cut_v_1d arr a) b = cut_v_1d arr b.
Proof. exact cut_v_compose. Qed.
Print Assumptions C10_cuts_compose.
Theorem C10_default_is_identity : forall A (arr : list A) niv, zlen arr = 2 * niv -> cut_v_1d arr (-1) = arr.
Proof. exact cut_v_minus_one. Qed.
Print Assumptions C10_default_is_identity.
(** Finding: a cut larger than the grid is not rejected.  The negative start wraps around and only the
    tail of the axis comes back (the first 3*niv-c positions are lost). *)
Theorem C10_cut_larger_than_grid_finding : forall A (arr : list A) niv c, zlen arr = 2 * niv -> niv < c <= 3 * niv ->
  cut_v_1d arr c = slice arr (3 * niv - c) (2 * niv).
Proof. exact cut_v_too_large. Qed.
Print Assumptions C10_cut_larger_than_grid_finding.
Example C10_example : cut_v_1d [10;11;12;13;14;15] 2 = [11;12;13;14] /\ cut_w_1d [10;11;12;13;14] 1 = [11;12;13] /\
  cut_v_1d [10;11;12;13;14;15] 4 = [15].
Proof. repeat split. Qed.

(** ** C11 *)
Theorem C11_shell : forall A (arr : list A) niv core shell, zlen arr = 2 * niv -> 0 <= core -> 0 <= shell -> core + shell <= niv ->
  zlen (inv_cut_v_1d arr core shell) = 2 * shell /\
  (forall v, - (core + shell) <= v < - core -> zget (inv_cut_v_1d arr core shell) (core + shell + v) = zget arr (niv + v)) /\
  (forall v, core <= v < core + shell -> zget (inv_cut_v_1d arr core shell) (shell - core + v) = zget arr (niv + v)).
Proof. exact inv_cut_spec. Qed.
Print Assumptions C11_shell.
Theorem C11_core_and_shell_rebuild : forall A (arr : list A) niv core shell, zlen arr = 2 * niv -> 0 <= core -> 0 <= shell ->
  core + shell = niv ->
  concatenate_core_asmypt (cut_v_1d arr core) (inv_cut_v_1d arr core shell) = arr.
Proof. exact core_shell_identity. Qed.
Print Assumptions C11_core_and_shell_rebuild.
Theorem C11_core_and_shell_rebuild_window : forall A (arr : list A) niv core shell, zlen arr = 2 * niv -> 0 <= core -> 0 <= shell ->
  core + shell <= niv ->
  concatenate_core_asmypt (cut_v_1d arr core) (inv_cut_v_1d arr core shell) = cut_v_1d arr (core + shell).
Proof. exact core_shell_rebuild. Qed.
Print Assumptions C11_core_and_shell_rebuild_window.
Theorem C11_concatenate_then_split : forall A (core asympt : list A) c s, zlen core = 2 * c -> zlen asympt = 2 * s ->
  cut_v_1d (concatenate_core_asmypt core asympt) c = core /\ inv_cut_v_1d (concatenate_core_asmypt core asympt) c s = asympt.
Proof. exact concat_then_cut. Qed.
Print Assumptions C11_concatenate_then_split.
Theorem C11_append_shell : forall A (mat : list (list A)) val niv shell, shape2 mat (2 * niv) (2 * niv) -> 0 <= niv -> 0 <= shell ->
  exists r, append_v_vp_shell mat val shell (2 * niv) = Ok r /\
    shape2 r (2 * (niv + shell)) (2 * (niv + shell)) /\
    forall v vp, - (niv + shell) <= v < niv + shell -> - (niv + shell) <= vp < niv + shell ->
      get2 r (niv + shell + v) (niv + shell + vp) =
      if (- niv <=? v) && (v <? niv) && ((- niv <=? vp) && (vp <? niv)) then get2 mat (niv + v) (niv + vp) else Some val.
Proof. exact append_shell_spec. Qed.
Print Assumptions C11_append_shell.
Theorem C11_append_then_cut : forall A (mat : list (list A)) val niv shell, shape2 mat (2 * niv) (2 * niv) -> 0 <= niv -> 0 <= shell ->
  exists r, append_v_vp_shell mat val shell (2 * niv) = Ok r /\ cut_v_2 r niv = mat.
Proof. exact append_then_cut. Qed.
Print Assumptions C11_append_then_cut.
(** Finding: the default niv_shell=-1 of inv_cut_v does not mean "everything outside the core": the
    whole negative-frequency shell is silently dropped. *)
Theorem C11_default_shell_drops_negative_finding : forall A (arr : list A) niv core, zlen arr = 2 * niv -> 0 < core <= niv ->
  inv_cut_v_1d arr core (-1) = slice arr (niv + core) (2 * niv).
Proof. exact inv_cut_default. Qed.
Print Assumptions C11_default_shell_drops_negative_finding.
Example C11_example : inv_cut_v_1d [10;11;12;13;14;15] 1 2 = [10;11;14;15] /\ inv_cut_v_1d [10;11;12;13;14;15] 1 (-1) = [14;15] /\
  concatenate_core_asmypt [12;13] [10;11;14;15] = [10;11;12;13;14;15] /\
  append_v_vp_shell [[1;2];[3;4]] 0 1 2 = Ok [[0;0;0;0];[0;1;2;0];[0;3;4;0];[0;0;0;0]].
Proof. repeat split. Qed.

(** ** C12 *)
Theorem C12_w_to_vmvp : forall A (mat : list A) niw, 0 <= niw -> zlen mat = 2 * niw + 1 ->
  exists r, w_to_vmvp mat = Ok r /\ shape2 r (2 * (niw / 2)) (2 * (niw / 2)) /\
    forall v vp, - (niw / 2) <= v < niw / 2 -> - (niw / 2) <= vp < niw / 2 ->
      get2 r (niw / 2 + v) (niw / 2 + vp) = zget mat (niw + (v - vp)) /\ 0 <= niw + (v - vp) < zlen mat.
Proof. exact w_to_vmvp_spec. Qed.
Print Assumptions C12_w_to_vmvp.
Example C12_example : w_to_vmvp [-2;-1;0;1;2] = Ok [[0;-1];[1;0]].
Proof. reflexivity. Qed.

(** ** C13 *)
Theorem C13_slices_core : forall A (mat : list A) niv n_cut w, zlen mat = 2 * niv -> 0 <= n_cut ->
  (forall iwn, In iwn w -> n_cut + Z.abs iwn <= niv) ->
  exists r, wn_slices_gen mat n_cut w = Ok r /\ shape2 r (zlen w) (2 * n_cut) /\
    forall j iwn v, zget w j = Some iwn -> - n_cut <= v < n_cut ->
      get2 r j (n_cut + v) = zget mat (niv + (v - iwn)) /\ 0 <= niv + (v - iwn) < zlen mat.
Proof. exact wn_slices_gen_spec. Qed.
Print Assumptions C13_slices_core.
Theorem C13_slices_shell : forall A (mat : list A) niv n_shell n_core w, zlen mat = 2 * niv -> 0 <= n_shell -> 0 <= n_core ->
  (forall iwn, In iwn w -> n_core + n_shell + Z.abs iwn <= niv) ->
  exists r, wn_slices_shell mat n_shell n_core w = Ok r /\ shape2 r (zlen w) (2 * n_shell) /\
    forall j iwn, zget w j = Some iwn ->
     (forall v, - (n_core + n_shell) <= v < - n_core ->
      get2 r j (n_core + n_shell + v) = zget mat (niv + (v - iwn)) /\ 0 <= niv + (v - iwn) < zlen mat) /\
     (forall v, n_core <= v < n_core + n_shell ->
      get2 r j (n_shell - n_core + v) = zget mat (niv + (v - iwn)) /\ 0 <= niv + (v - iwn) < zlen mat).
Proof. exact wn_slices_shell_spec. Qed.
Print Assumptions C13_slices_shell.
Theorem C13_cut_with_shift : forall A (mat : list A) niv c iwn, zlen mat = 2 * niv -> 0 <= c -> c + Z.abs iwn <= niv ->
  zlen (cut_iv_with_iw_shift_1d mat c iwn) = 2 * c /\
  forall v, - c <= v < c -> zget (cut_iv_with_iw_shift_1d mat c iwn) (c + v) = zget mat (niv + (v - iwn)) /\ 0 <= niv + (v - iwn) < zlen mat.
Proof. exact cut_iv_spec. Qed.
Print Assumptions C13_cut_with_shift.
Theorem C13_cut_with_shift_default : forall A (mat : list A) niv iwn, zlen mat = 2 * niv -> Z.abs iwn <= niv ->
  cut_iv_with_iw_shift_1d mat (-1) iwn = cut_iv_with_iw_shift_1d mat (niv - Z.abs iwn) iwn.
Proof. exact cut_iv_default. Qed.
Print Assumptions C13_cut_with_shift_default.
Example C13_example : wn_slices_gen [-3;-2;-1;0;1;2] 1 [-2;0;2] = Ok [[1;2];[-1;0];[-3;-2]] /\
  wn_slices_shell [-3;-2;-1;0;1;2] 1 1 [-1;0;1] = Ok [[-1;2];[-2;1];[-3;0]].
Proof. split; reflexivity. Qed.

(** ** C14.  [bos m w] is the value of the bosonic array [m] at index [w] ([None] outside its grid);
    [addo] adds two values, a missing one counting as nothing. *)
Theorem C14_add_bosonic : forall A (add : A -> A -> A) m1 m2 n1 n2,
  (forall x y, add x y = add y x) ->
  0 <= n1 -> 0 <= n2 -> zlen m1 = 2 * n1 + 1 -> zlen m2 = 2 * n2 + 1 ->
  exists r, add_bosonic add m1 m2 = Ok r /\ zlen r = 2 * Z.max n1 n2 + 1 /\
    forall w, bos r w = addo add (bos m1 w) (bos m2 w).
Proof. exact add_bosonic_spec. Qed.
Print Assumptions C14_add_bosonic.
Theorem C14_add_bosonic_comm : forall A (add : A -> A -> A) m1 m2 n1 n2,
  (forall x y, add x y = add y x) ->
  0 <= n1 -> 0 <= n2 -> zlen m1 = 2 * n1 + 1 -> zlen m2 = 2 * n2 + 1 -> add_bosonic add m1 m2 = add_bosonic add m2 m1.
Proof. exact add_bosonic_comm. Qed.
Print Assumptions C14_add_bosonic_comm.
Example C14_example : add_bosonic Z.add [1;2;3;4;5] [10;20;30] = Ok [1;12;23;34;5] /\
  add_bosonic Z.add [10;20;30] [1;2;3;4;5] = Ok [1;12;23;34;5].
Proof. split; reflexivity. Qed.

(** ** C15 *)
Theorem C15_ph2pp : forall A (m : list (list (list A))) niw niv, 0 <= niw -> 0 <= niv ->
  shape3 m (2 * niw + 1) (2 * niv) (2 * niv) ->
  let n := Z.min (niw / 3) (niv / 3) in
  let nw := (2 * niw + 1) / 6 in
  exists r, ph2pp m = Ok r /\ shape3 r (2 * nw + 1) (2 * n) (2 * n) /\
    forall w v vp, - nw <= w <= nw -> - n <= v < n -> - n <= vp < n ->
      (exists x, get3 r (nw + w) (n + v) (n + vp) = Some x /\ get3 m (niw + (v + vp + 1 - w)) (niv + v) (niv + vp) = Some x).
Proof. exact ph2pp_spec. Qed.
Print Assumptions C15_ph2pp.
(** a test array whose entry at (w,v,vp) is 10000 w + 100 v + vp *)
Definition probe3 (niw niv : Z) : list (list (list Z)) :=
  map (fun w => map (fun v => map (fun vp => 10000 * w + 100 * v + vp) (vn niv 0 false)) (vn niv 0 false)) (wn niw 0 false).
Example C15_example : shape3 (probe3 3 3) 7 6 6 /\
  match ph2pp (probe3 3 3) with Ok r => get3 r 1 0 1 = Some (10000 * 0 + 100 * (-1) + 0) | Raise _ => False end.
Proof.
  split; [apply shape3b_ok|]; vm_compute; reflexivity.
Qed.

(** ** C16 *)
Theorem C16_ph2pp_wc_ok : forall A opp (m : list (list (list A))) niw niv, 0 <= niw -> 0 <= niv ->
  shape3 m (2 * niw + 1) (2 * niv) (2 * niv) ->
  let n := Z.min (niw / 2) (niv / 2) in
  let nw := niw / 2 in
  n = 0 \/ nw + n <= niv ->
  exists r, ph2pp_wc opp m = Ok r /\ shape3 r (2 * nw + 1) (2 * n) (2 * n) /\
    forall w v vp, - nw <= w <= nw -> - n <= v < n -> - n <= vp < n ->
      (exists x, get3 r (nw + w) (n + v) (n + vp) = Some (opp x) /\ get3 m (niw + (v - vp)) (niv + v) (niv + (w - vp - 1)) = Some x).
Proof. exact ph2pp_wc_ok. Qed.
Print Assumptions C16_ph2pp_wc_ok.
Theorem C16_ph2pp_wc_fails : forall A opp (m : list (list (list A))) niw niv, 0 <= niw -> 0 <= niv ->
  shape3 m (2 * niw + 1) (2 * niv) (2 * niv) ->
  let n := Z.min (niw / 2) (niv / 2) in
  let nw := niw / 2 in
  n <> 0 -> niv < nw + n -> ph2pp_wc opp m = Raise IndexError.
Proof. exact ph2pp_wc_fails. Qed.
Print Assumptions C16_ph2pp_wc_fails.
Example C16_example :
  match ph2pp_wc Z.opp (probe3 2 2) with Ok r => get3 r 0 0 1 = Some (- (10000 * (-1) + 100 * (-1) + (-2))) | Raise _ => False end /\
  ph2pp_wc Z.opp (probe3 4 2) = Raise IndexError.
Proof. split; vm_compute; reflexivity. Qed.

(** ** C46: centred frequency sums.  The window summed for bosonic index w and box niv_sum holds exactly the
    entries with both fermionic indices in [-niv_sum + w//2, niv_sum + w//2), nothing else. *)
Theorem C46_centered_window : forall A (scale : A -> A) (sum : list A -> A) (mat : list (list A)) niv w c,
  shape2 mat (2 * niv) (2 * niv) -> 0 <= c -> c + Z.abs (w / 2) <= niv ->
  exists box, vn_centered_sum_wn scale sum mat (2 * niv) w c = scale (sum (concat box)) /\
    shape2 box (2 * c) (2 * c) /\
    forall v vp, - c <= v < c -> - c <= vp < c -> get2 box (c + v) (c + vp) = get2 mat (niv + (v + w / 2)) (niv + (vp + w / 2)).
Proof. exact centered_sum_box. Qed.
Print Assumptions C46_centered_window.
Theorem C46_default_sums_all : forall A (scale : A -> A) (sum : list A -> A) (mat : list (list A)) ncols w,
  vn_centered_sum_wn scale sum mat ncols w (-1) = scale (sum (concat mat)).
Proof. exact centered_sum_default. Qed.
Print Assumptions C46_default_sums_all.
Theorem C46_wn_sum : forall A (scale : A -> A) (sum : list A -> A) (mat : list A) niw c,
  zlen mat = 2 * niw + 1 -> 0 <= c <= niw ->
  exists box, wn_sum scale sum mat c = scale (sum box) /\ zlen box = 2 * c + 1 /\
    forall w, - c <= w <= c -> zget box (c + w) = zget mat (niw + w).
Proof. exact wn_sum_box. Qed.
Print Assumptions C46_wn_sum.
Example C46_example : vn_centered_sum_wn (fun x => x) zsum [[1;2;3;4];[5;6;7;8];[9;10;11;12];[13;14;15;16]] 4 2 1 = 54 /\
  wn_sum (fun x => x) zsum [1;2;3;4;5] 1 = 9.
Proof. split; reflexivity. Qed.

(** ** C47: look-up by bosonic index. *)
Theorem C47_lookup : forall A (m : list A) niw w, 0 <= niw -> zlen m = 2 * niw + 1 -> - niw <= w <= niw ->
  exists x, get_mat_at_iwn m w false = Ok x /\ zget m (niw + w) = Some x.
Proof. exact get_mat_at_iwn_spec. Qed.
Print Assumptions C47_lookup.
Theorem C47_w0 : forall A (m : list A) niw, 0 <= niw -> zlen m = 2 * niw + 1 ->
  exists x, mat_at_w0 m false = Ok x /\ zget m niw = Some x.
Proof. exact mat_at_w0_spec. Qed.
Print Assumptions C47_w0.
(** Finding: a frequency below the stored range is not rejected; numpy's negative indexing returns the value
    at w + 2 niw + 1 instead (above the range IndexError is raised). *)
Theorem C47_below_range_wraps_refuted : forall A (m : list A) niw w, 0 <= niw -> zlen m = 2 * niw + 1 -> - (3 * niw + 1) <= w < - niw ->
  exists x, get_mat_at_iwn m w false = Ok x /\ zget m (niw + (w + (2 * niw + 1))) = Some x.
Proof. exact get_mat_at_iwn_wrap. Qed.
Print Assumptions C47_below_range_wraps_refuted.
Theorem C47_above_range_raises : forall A (m : list A) niw w, 0 <= niw -> zlen m = 2 * niw + 1 -> niw < w ->
  get_mat_at_iwn m w false = Raise IndexError.
Proof. exact get_mat_at_iwn_above. Qed.
Print Assumptions C47_above_range_raises.
Example C47_example : get_mat_at_iwn [10;11;12;13;14] (-2) false = Ok 10 /\ get_mat_at_iwn [10;11;12;13;14] (-3) false = Ok 14 /\
  get_mat_at_iwn [10;11;12;13;14] 3 false = Raise IndexError.
Proof. repeat split. Qed.
