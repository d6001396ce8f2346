(** C94: the averaged Pade continuation and PadeSolver (pade_aux.py). *)
From mathcomp Require Import all_ssreflect all_algebra.
From mathcomp Require Import complex.
From Verif Require Import Base.PyBase Model.Pade Model.PadeAvg Spec.PadeAvgSpec Proofs.PadeP Proofs.PadeAvgP Properties.PadeProps.
Import GRing.Theory Num.Theory.
Set Implicit Arguments. Unset Strict Implicit. Unset Printing Implicit Defensive.
Local Open Scope nat_scope.
Local Open Scope ring_scope.

(** The continuations pade() performs: 321 of them, every one with an even number N of coefficients, 40 <= N <= 80, N not
    larger than the number M of input points, 50 <= M <= 98, and one to three mirrored points. *)
Theorem C94_plan : size plan = 321%nat /\ forall nmin M N, List.In (nmin, M, N) plan ->
  [/\ (-3 <= nmin <= -1)%Z, ~~ odd N, (40 <= N <= 80)%nat, (N <= M)%nat & (50 <= M <= 98)%nat].
Proof.
  split; first by rewrite plan_size. move=> nmin M N h. have := all_In plan_all h.
  by move=> /and5P[/andP[/Z.leb_le h1 /Z.leb_le h2] h3 h4 h5 /and3P[h6 h7 h8]]; split=> //; apply/andP.
Qed.
Print Assumptions C94_plan.

Section C94.
Variable R : rcfType.
Notation C := (complex R).
Notation Im := (@complex.Im R).

(** Picking points with nmin = -a < 0: the complex conjugates of the first a entries in reverse order, then the first
    M - a entries; M points in all when the input is long enough, all different if the input points are different points
    of the upper half plane. *)
Theorem C94_pick_mirror (z : list C) (a b : nat) : (0 < a <= size z)%nat -> (b <= size z)%nat ->
  let zp := pick z (- Z.of_nat a) (Z.of_nat a + Z.of_nat b) in
  [/\ size zp = (a + b)%nat,
      forall k, (k < a)%nat -> seq.nth 0 zp k = conjc (seq.nth 0 z (a - k.+1)),
      forall k, (k < b)%nat -> seq.nth 0 zp (a + k) = seq.nth 0 z k &
      seq.uniq z -> upper z -> seq.uniq zp].
Proof.
  move=> h hb zp. have [ha haz] := andP h. split; first exact: pick_size.
  - move=> k hk. have hs : size [seq conjc x | x <- seq.take a z] = a by rewrite size_map size_takel.
    rewrite /zp pick_neg // nth_cat size_rev hs hk nth_rev ?hs // (nth_map 0) ?size_takel //; last by rewrite ltn_subrL ha.
    by rewrite nth_take // ltn_subrL ha.
  - move=> k hk. have hs : size [seq conjc x | x <- seq.take a z] = a by rewrite size_map size_takel.
    by rewrite /zp pick_neg // nth_cat size_rev hs ltnNge leq_addr /= addKn nth_take.
  - move=> hu hup. exact: pick_uniq.
Qed.
Print Assumptions C94_pick_mirror.
Theorem C94_pick_nonneg (l : list C) (a b : nat) : pick l (Z.of_nat a) (Z.of_nat b) = seq.take b (seq.drop a l).
Proof. exact: pick_nonneg. Qed.
Print Assumptions C94_pick_nonneg.
(** Points and values stay paired: if the values are those of a function with f(z* ) = f(z)*, then so are the picked ones. *)
Theorem C94_pick_pairs (h : C -> C) (z : list C) (a b : nat) : (0 < a)%nat -> (forall w, w \in z -> h (conjc w) = conjc (h w)) ->
  let p := pick_points z [seq h w | w <- z] (- Z.of_nat a) (Z.of_nat a + Z.of_nat b) in p.2 = [seq h w | w <- p.1].
Proof. exact: pick_map. Qed.
Print Assumptions C94_pick_pairs.

(** acPade: an odd number of coefficients, an unknown method, or Thiele's method with a number of points other than N ends
    the program; all other calls return one value per output point. *)
Theorem C94_acPade_dispatch lstsq nonlin (z f zout : list C) N s :
  (exists g, acPade lstsq nonlin z f N zout s = Ok g /\ size g = size zout) <->
  [/\ ~~ odd N, (0 <= s <= 2)%Z & s = 1%Z -> N = size z].
Proof.
  split.
  - move=> [g [+ _]]. rewrite /acPade. case: ifP => // ho.
    case: ifP => [/Z.eqb_eq -> _|_]; first by split=> //; lia.
    case: ifP => [/Z.eqb_eq ->|_]; first by case: ifP => // /eqP-> _; split=> //; lia.
    case: ifP => [/Z.eqb_eq -> _|_] //.
  - move=> [ho hs h1]. rewrite /acPade (negbTE ho).
    case: ifP => [_|/Z.eqb_neq h0]; first by eexists; split; [reflexivity|rewrite size_map].
    case: ifP => [/Z.eqb_eq e1|/Z.eqb_neq e1].
    + rewrite (h1 e1) eqxx. eexists; split; first reflexivity. by rewrite /padeThiele size_map size_iota.
    + have -> : (s =? 2)%Z = true by apply/Z.eqb_eq; lia. by eexists; split; [reflexivity|rewrite size_map].
Qed.
Print Assumptions C94_acPade_dispatch.
(** With Thiele's method the values are those of the continued fraction (C41). *)
Theorem C94_acPade_thiele lstsq nonlin (z f zout : list C) : ~~ odd (size z) ->
  acPade lstsq nonlin z f (size z) zout 1 = Ok (padeThiele z f zout).
Proof. by move=> h; rewrite /acPade (negbTE h) eqxx. Qed.
Print Assumptions C94_acPade_thiele.
(** Beach's method recovers a rational function exactly: any p/q, q monic, deg p < deg q <= N/2, from N or more different
    points, at every output point that is not a zero of a denominator. *)
Theorem C94_acPade_recovers lstsq nonlin (p q : {poly C}) (z zout : list C) N :
  lstsq_ok lstsq -> ~~ odd N -> (0 < N)%nat -> (N <= size z)%nat -> seq.uniq z ->
  q \is monic -> (size p < size q)%nat -> (size q <= N./2.+1)%nat ->
  (forall w, w \in z -> q.[w] != 0) -> (forall w, w \in zout -> q.[w] != 0) ->
  (forall w, w \in zout -> pden (lstsq (pm_rows N z [seq ratf p q w | w <- z]) (pm_rhss N z [seq ratf p q w | w <- z])) w != 0) ->
  acPade lstsq nonlin z [seq ratf p q w | w <- z] N zout 0 = Ok [seq ratf p q w | w <- zout].
Proof. exact: acPade_recovers. Qed.
Print Assumptions C94_acPade_recovers.
(** End to end: for exact data of a physical rational function with real coefficients and at most 20 poles, at 97 or more
    different points of the upper half plane, pade() returns that function at the output points, from 321 accepted
    continuations. *)
Theorem C94_pade_recovers ar lstsq nonlin (p q : {poly R}) (zin zout : list C) :
  argsort_ok ar -> lstsq_ok lstsq -> (97 <= size zin)%nat -> seq.uniq zin -> upper zin ->
  q \is monic -> (size p < size q)%nat -> (size q <= 21)%nat ->
  (forall w, w \in zin -> (toC q).[w] != 0) -> (forall w, w \in zout -> (toC q).[w] != 0) ->
  (forall w, w \in zout -> Im (ratf (toC p) (toC q) w) <= 0) ->
  let f := ratf (toC p) (toC q) in let fin := [seq f w | w <- zin] in
  (forall nmin M N w, List.In (nmin, M, N) plan -> w \in zout ->
     let zp := pick zin nmin (Z.of_nat M) in let fp := pick fin nmin (Z.of_nat M) in
     pden (lstsq (pm_rows N zp fp) (pm_rhss N zp fp)) w != 0) ->
  exists m, pade ar (fun zo z f N => acPade lstsq nonlin z f N zo 0) zin fin zout =
    Ok (Some [seq f w | w <- zout], nseq 321 [seq f w | w <- zout], m).
Proof. exact: pade_recovers. Qed.
Print Assumptions C94_pade_recovers.

(** What enters the average: every continuation in the second result was produced by the method for one of the planned
    choices and has Im <= 0 at every output point; an average that is returned has one entry per output point, each with
    Im <= 0 (a non-negative spectral function). *)
Theorem C94_physical ar ac (zin fin zout : list C) g fs m :
  (forall z f N h, ac zout z f N = Ok h -> size h = size zout) ->
  pade ar ac zin fin zout = Ok (Some g, fs, m) ->
  [/\ size g = size zout, (forall k, (k < size g)%nat -> Im (seq.nth 0 g k) <= 0) &
      forall h, h \in fs -> (forall k, (k < size h)%nat -> Im (seq.nth 0 h k) <= 0) /\
        exists nmin M N, List.In (nmin, M, N) plan /\ ac zout (pick zin nmin (Z.of_nat M)) (pick fin nmin (Z.of_nat M)) N = Ok h].
Proof.
  move=> hs hp. have [/allP hg hsg] := pade_physical hs hp. split=> //; first by move=> k hk; apply: hg; exact: mem_nth.
  case E : (continuations (ac zout) zin fin plan) => [fs'|e]; last by move: hp; rewrite /pade E.
  have -> : fs = fs' by move: hp; rewrite (pade_cases ar E); case: fs' E => [|a' [|b' l]] E //; [case=> _ <-|case=> _ <-].
  move=> h hh. have [/allP h1 h2] := continuations_in E hh. split=> // k hk. apply: h1. exact: mem_nth.
Qed.
Print Assumptions C94_physical.
(** No physical continuation ends the program; a single one is returned unchanged. *)
Theorem C94_none_or_one ar ac (zin fin zout : list C) fs : continuations (ac zout) zin fin plan = Ok fs ->
  (fs = [::] -> pade ar ac zin fin zout = Raise RuntimeError) /\
  (forall f, fs = [:: f] -> pade ar ac zin fin zout = Ok (Some f, fs, [:: true])).
Proof. move=> h. rewrite (pade_cases ar h). by split=> [->|f ->]. Qed.
Print Assumptions C94_none_or_one.
(** The weight of continuation i is its summed distance to all the others. *)
Theorem C94_distances (f : list (list C)) n i : (forall g, g \in f -> size g = n) -> (i < size f)%nat ->
  seq.nth 0 (ds f) i = \sum_(j < size f | val j != i) im_distance n (seq.nth [::] f i) (seq.nth [::] f j).
Proof.
  move=> hs hi. rewrite nth_ds // delta_sym_sum // -[in iota _ _](subn0 (size f)) -/(index_iota 0 _) big_mkord.
  apply: eq_bigr => j _. have hj := ltn_ord j.
  have hn : forall k, (k < size f)%nat -> size (seq.nth [::] f k) = n by move=> k hk; apply: hs; exact: mem_nth.
  rewrite /im_distance /dist1. case: (leqP i j) => h; rewrite hn // ?sum_iota //. apply: eq_bigr => k _. exact: distrC.
Qed.
Print Assumptions C94_distances.
(** Which continuations are averaged: those among the first floor(51 n / 100) in the order of increasing distance whose
    distance is at most 99/100 of the mean; there is one exactly when some distance is at most 99/100 of the mean. *)
Theorem C94_mask ar (f : list (list C)) : argsort_ok ar -> (2 <= size f)%nat ->
  [/\ size (mask ar f) = size f,
      forall i, (i < size f)%nat -> seq.nth false (mask ar f) i =
        (seq.nth 0 (ds f) i <= 99%:R / 100%:R * ((\sum_(x <- ds f) x) / (size f)%:R)) && (i \in seq.take (51 * size f %/ 100) (ar (ds f))),
      (seq.count id (mask ar f) <= 51 * size f %/ 100)%nat &
      (exists i, (i < size f)%nat /\ seq.nth false (mask ar f) i) <->
      (exists i, (i < size f)%nat /\ seq.nth 0 (ds f) i <= 99%:R / 100%:R * ((\sum_(x <- ds f) x) / (size f)%:R))].
Proof.
  move=> ha hf. split; first exact: size_mask.
  - move=> i hi. by rewrite nth_mask // nth_ds // /rmean size_ds.
  - exact: count_mask.
  - have := mask_nonempty ha hf. rewrite /rmean size_ds. move=> [h1 h2]. split.
    + move=> /h1 [i [hi h]]. exists i. by rewrite nth_ds.
    + move=> [i [hi h]]. apply: h2. exists i. by rewrite -nth_ds.
Qed.
Print Assumptions C94_mask.
(** Finding: if exactly two different physical continuations are found (their imaginary parts differ somewhere), both are
    rejected and the average is over nothing (nan everywhere, after a RuntimeWarning). *)
Theorem C94_two_continuations_finding ar ac (zin fin zout : list C) a b :
  continuations (ac zout) zin fin plan = Ok [:: a; b] -> im_distance (size a) a b != 0 ->
  pade ar ac zin fin zout = Ok (None, [:: a; b], [:: false; false]).
Proof.
  move=> h hd. rewrite (pade_cases ar h). have hd' : dist1 a b != 0 by move: hd; rewrite /im_distance /dist1 sum_iota.
  by rewrite two_empty.
Qed.
Print Assumptions C94_two_continuations_finding.

(** PadeSolver: solve() and check() always return; the spectral function is -Im/pi of the interpolant, and check() at the
    Matsubara points used for the interpolation returns the data. *)
Theorem C94_solver (pi : R) (im_axis : list R) (im_data : list C) (re_axis : list C) (fine : list R) :
  (exists g A, [/\ ps_solve pi im_axis im_data re_axis = Ok (g, A), size g = size re_axis, size A = size re_axis &
     forall k, (k < size re_axis)%nat -> seq.nth 0 A k = - Im (seq.nth 0 g k) / pi]) /\
  exists c, [/\ ps_check im_axis im_data fine = Ok c, size c = size fine &
    distinct_points (iax im_axis) -> regular_table (iax im_axis) im_data ->
    forall j k, (j < size fine)%nat -> (k < size im_axis)%nat -> seq.nth 0 fine j = seq.nth 0 im_axis k ->
      (exists2 d, evalB (seq.nth 0 (iax im_axis) k) (iax im_axis) (compute_coefficients (iax im_axis) im_data) (size im_axis) = Ok d & d != 0) ->
      seq.nth 0 c j = seq.nth 0 im_data k].
Proof.
  split.
  - have [g [hg hs]] := mapM_ok re_axis (fun x => evalC_total x (iax im_axis) im_data). exists g, [seq - Im x / pi | x <- g].
    rewrite /ps_solve hg /= size_map; split=> // k hk. by rewrite (nth_map 0) ?hs.
  - have [c [hc hs]] := mapM_ok (iax fine) (fun x => evalC_total x (iax im_axis) im_data). exists c.
    rewrite /ps_check hc hs /iax size_map; split=> // hd hr j k hj hk e [d hB hd0].
    have hj' : (j < size (iax fine))%nat by rewrite size_map.
    have := mapM_nth 0 hc hj'. have -> : seq.nth 0 (iax fine) j = seq.nth 0 (iax im_axis) k by rewrite /iax !(nth_map 0) // e.
    rewrite (C41_thiele_interpolates hd hr); [by case|by rewrite size_map|]. exists d => //. by rewrite size_map.
Qed.
Print Assumptions C94_solver.

(** The Jacobian used by the non-linear fit: column k (k < r) is the slope of the approximant in numerator coefficient k,
    column r + k the derivative in denominator coefficient k (the difference quotient, up to the factor den/den' that tends
    to 1), and columns 2 r + k, 3 r + k are i times these (changes of the imaginary parts). *)
Theorem C94_jacobian (x : list C) k t z : let r := (size x)./2 in (k < r)%nat -> pden x z != 0 ->
  [/\ epade z (bump x k t) - epade z x = t * seq.nth 0 (jac_row x z) k,
      pden (bump x (r + k) t) z = pden x z + t * z ^+ k,
      pden (bump x (r + k) t) z != 0 ->
        epade z (bump x (r + k) t) - epade z x = t * seq.nth 0 (jac_row x z) (r + k) * (pden x z / pden (bump x (r + k) t) z),
      seq.nth 0 (jac_row x z) (2 * r + k) = 'i * seq.nth 0 (jac_row x z) k &
      seq.nth 0 (jac_row x z) (3 * r + k) = 'i * seq.nth 0 (jac_row x z) (r + k)].
Proof.
  move=> r hk hd. have [_ _ h3 h4] := jac_nth z hk. split=> //.
  - exact: jac_num.
  - exact: pden_bump_den.
  - exact: jac_den.
Qed.
Print Assumptions C94_jacobian.
(** The fit starts at the free propagator 1/z. *)
Theorem C94_nonlinear_start N (z : C) : ~~ odd N -> (0 < N)%nat -> z != 0 -> epade z (nl_start R N) = z^-1.
Proof. exact: nl_start_epade. Qed.
Print Assumptions C94_nonlinear_start.
End C94.

(** Non-vacuity. *)
Section Examples.
Variable R : rcfType.
Notation C := (complex R).
Notation Im := (@complex.Im R).
(* an argsort: insertion of positions by value *)
Definition ex_argsort (d : list R) : list nat := sort (fun i j => seq.nth 0 d i <= seq.nth 0 d j) (iota 0 (size d)).
Lemma ex_argsort_ok : argsort_ok ex_argsort.
Proof.
  move=> d. split; first by rewrite /ex_argsort perm_sort. apply: sort_sorted => i j. exact: Num.Theory.real_leVge (num_real _) (num_real _).
Qed.
(* an exact solver of linear systems *)
Definition ex_solve (rows : list (list C)) (y : list C) : list C :=
  let n := size (seq.head [::] rows) in let m := size rows in
  let A : 'M[C]_(n, m) := \matrix_(i, j) seq.nth 0 (seq.nth [::] rows j) i in
  let b : 'rV[C]_m := \row_j seq.nth 0 y j in
  [seq (b *m pinvmx A) ord0 i | i <- enum 'I_n].
Lemma ex_solve_ok : lstsq_ok ex_solve.
Proof.
  move=> rows y n hr hy hs [x [hx hsol]]. rewrite /ex_solve.
  have hn : size (seq.head [::] rows) = n by case: rows hr hs {hy hsol} => //= r rows _ h; apply: h; rewrite inE eqxx.
  rewrite hn. set A : 'M_(n, _) := \matrix_(i, j) _. set b : 'rV_ _ := \row_j _.
  have hb : (b <= A)%MS.
  { apply/submxP. exists (\row_i seq.nth 0 x i). apply/rowP => j. rewrite !mxE -(hsol j (ltn_ord j)) /dot hs ?mem_nth ?ltn_ord // sum_iota.
    apply: eq_bigr => i _. by rewrite !mxE mulrC. }
  split; first by rewrite size_map size_enum_ord. move=> k hk.
  have := mulmxKpV hb. move=> /rowP/(_ (Ordinal hk)). rewrite !mxE /= => <-.
  rewrite /dot hs ?mem_nth // sum_iota. apply: eq_bigr => i _.
  rewrite (nth_map i) ?size_enum_ord // nth_ord_enum !mxE mulrC. by [].
Qed.
(* data of 1/z at the points i, 2i, ..., 97i; a solver that prefers the coefficients of z^(r-1)/z^r *)
Definition ex_zin : list C := [seq k.+1%:R * 'i | k <- iota 0 97].
Definition ex_lstsq (rows : list (list C)) (y : list C) : list C :=
  let x := nl_start R (size (seq.head [::] rows)) in
  if [seq dot r x | r <- rows] == y then x else ex_solve rows y.
Lemma ex_lstsq_ok : lstsq_ok ex_lstsq.
Proof.
  move=> rows y n hr hy hs hex. rewrite /ex_lstsq.
  have hn : size (seq.head [::] rows) = n by case: rows hr hs {hy hex} => //= r rows _ h; apply: h; rewrite inE eqxx.
  case: eqP => [<-|_]; last exact: ex_solve_ok. rewrite /nl_start size_map size_iota hn; split=> // k hk. by rewrite (nth_map [::]).
Qed.
Lemma Im_ki k : Im (k%:R * 'i) = k%:R.
Proof.
  have -> : (k%:R : C) = ((k%:R : R)%:C)%C by rewrite rmorph_nat. by rewrite /= mulr0 mulr1 addr0 ?add0r.
Qed.
Lemma ex_inv (w : C) : ratf (toC (1 : {poly R})) (toC 'X) w = w^-1.
Proof. by rewrite /ratf /toC rmorph1 map_polyX hornerC hornerX mul1r. Qed.
(* exactly two physical continuations: -i and -2i for the largest M and N and three or two mirrored points *)
Definition ex_ac (zo z f : list C) (N : nat) : res (list C) :=
  Ok (if (size z == 98)%nat && (N == 80)%nat then
        if seq.head 0 z == - (3%:R * 'i) then [:: - 'i] else if seq.head 0 z == - (2%:R * 'i) then [:: - (2%:R * 'i)] else [:: 'i]
      else [:: 'i]).
Example C94_two_example ar zout : let a := [:: - 'i] in let b := [:: - (2%:R * 'i)] in
  continuations (ex_ac zout) ex_zin [seq w^-1 | w <- ex_zin] plan = Ok [:: a; b] /\ im_distance (size a) a b != 0 /\
  pade ar ex_ac ex_zin [seq w^-1 | w <- ex_zin] zout = Ok (None, [:: a; b], [:: false; false]).
Proof.
  move=> a b.
  have hneq : forall i j, (i != j)%nat -> - (i%:R * 'i) != - (j%:R * 'i) :> C.
  { move=> i j h. rewrite eqr_opp. apply: contraNneq h => /(congr1 (@complex.Im R)). rewrite !Im_ki => /eqP. by rewrite eqr_nat. }
  have hd : im_distance (size a) a b != 0.
  { rewrite /im_distance big_ord_recl big_ord0 addr0 /= normr_eq0 subr_eq0.
    rewrite eqr_opp. have -> : 1 = 1%:R :> R by []. have := Im_ki 2. rewrite /= => ->. by rewrite eqr_nat. }
  have hc : continuations (ex_ac zout) ex_zin [seq w^-1 | w <- ex_zin] plan = Ok [:: a; b].
  { pose h (t : Z * nat * nat) : list C := let '(nmin, M, N) := t in
      if (M == 98)%nat && (N == 80)%nat then (if (nmin =? -3)%Z then a else if (nmin =? -2)%Z then b else [:: 'i]) else [:: 'i].
    rewrite (@continuations_table _ _ _ _ _ h).
    - congr Ok. have hp : forall t, physical (h t) = (let '(nmin, M, N) := t in (M == 98)%nat && (N == 80)%nat && ((nmin =? -3) || (nmin =? -2))%Z).
      { have Ni : forall x : C, Im (- x) = - Im x by case.
        have pi : physical [:: 'i : C] = false by rewrite /physical /= ler10.
        have pa : physical a = true by rewrite /physical /= lerN10.
        have pb : physical b = true by apply/allP => w; rewrite inE => /eqP->; rewrite Ni Im_ki oppr_le0 ler0n.
        move=> [[nmin M] N]. rewrite /h. case: (_ && _); last exact: pi.
        case: (_ =? -3)%Z; first by rewrite pa. case: (_ =? -2)%Z; [by rewrite pb|exact: pi]. }
      rewrite seq.filter_map (eq_filter hp).
      have -> : [seq t <- plan | let '(nmin, M, N) := t in (M == 98)%nat && (N == 80)%nat && ((nmin =? -3) || (nmin =? -2))%Z] =
        [:: (-3, 98%nat, 80%nat); (-2, 98%nat, 80%nat)]%Z by vm_compute. by [].
    - move=> nmin M N hin. rewrite /ex_ac /h.
      have [_ hplan] := C94_plan. have [hn ho /andP[hN _] hNM /andP[_ hM]] := hplan _ _ _ hin.
      set c := Z.to_nat (- nmin). have ec : nmin = (- Z.of_nat c)%Z by rewrite /c; lia.
      have hc0 : (0 < c)%nat by apply/ltP; rewrite /c; lia. have hc3 : (c <= 3)%nat by apply/leP; rewrite /c; lia.
      have hcM : (c <= M)%nat by rewrite (leq_trans hc3) // (leq_trans _ hNM) // (leq_trans _ hN).
      have eM : Z.of_nat M = (Z.of_nat c + Z.of_nat (M - c))%Z.
      { rewrite -Nat2Z.inj_add. congr Z.of_nat. by rewrite -[RHS]/(c + (M - c))%nat subnKC. }
      have hz : size ex_zin = 97%nat by rewrite size_map size_iota.
      have h1 : (0 < c <= size ex_zin)%nat by rewrite hz hc0 (leq_trans hc3).
      have h2 : (M - c <= size ex_zin)%nat by rewrite hz leq_subLR (leq_trans hM) // -(add1n 97) leq_add2r.
      have [hsz hhd _ _] := C94_pick_mirror h1 h2. rewrite ec eM hsz subnKC //.
      have -> : seq.head 0 (pick ex_zin (- Z.of_nat c) (Z.of_nat c + Z.of_nat (M - c))) = - (c%:R * 'i).
      { rewrite -nth0 hhd // (nth_map 0%nat) ?size_iota; last by rewrite ltn_subLR // (leq_ltn_trans hc3).
        rewrite nth_iota; last by rewrite ltn_subLR // (leq_ltn_trans hc3).
        rewrite add0n subn1 prednK // rmorphM rmorph_nat. by rewrite conjCi mulrN. }
      congr Ok. case: (_ && _) => //.
      have e3 : (- Z.of_nat c =? -3)%Z = (c == 3)%nat by apply/Z.eqb_spec/eqP; lia.
      have e2 : (- Z.of_nat c =? -2)%Z = (c == 2)%nat by apply/Z.eqb_spec/eqP; lia.
      rewrite e3 e2. case: (c =P 3%nat) => [->|/eqP n3]; first by rewrite eqxx. rewrite (negbTE (hneq _ _ n3)).
      case: (c =P 2%nat) => [->|/eqP n2]; first by rewrite eqxx. by rewrite (negbTE (hneq _ _ n2)). }
  exact: (conj hc (conj hd (C94_two_continuations_finding ar hc hd))).
Qed.
Example C94_recovers_1_over_z nonlin :
  let zout := [:: 1; 'i] in
  exists m, pade ex_argsort (fun zo z f N => acPade ex_lstsq nonlin z f N zo 0) ex_zin [seq w^-1 | w <- ex_zin] zout =
    Ok (Some [:: 1; - 'i], nseq 321 [:: 1; - 'i], m).
Proof.
  move=> zout.
  have hup : upper ex_zin by apply/allP => w /mapP[k _ ->]; rewrite Im_ki ltr0n.
  have hne : forall w, w \in ex_zin -> w != 0.
  { move=> w /(allP hup). by apply: contraTneq => ->; rewrite /= Order.POrderTheory.ltxx. }
  have hzo : forall w, w \in zout -> w != 0.
  { move=> w. rewrite !inE => /orP[/eqP->|/eqP->]; first exact: oner_neq0. by rewrite eq_complex /= oner_eq0 andbF. }
  have Ei : ('i : C)^-1 = - 'i by rewrite invCi.
  have E1 : [:: 1; - 'i] = [seq ratf (toC (1 : {poly R})) (toC 'X) w | w <- zout] by rewrite /= !ex_inv invr1 Ei.
  have E2 : [seq w^-1 | w <- ex_zin] = [seq ratf (toC (1 : {poly R})) (toC 'X) w | w <- ex_zin] by apply: eq_map => w; rewrite ex_inv.
  rewrite E1 E2.
  refine (@C94_pade_recovers R ex_argsort ex_lstsq nonlin 1 'X ex_zin zout ex_argsort_ok ex_lstsq_ok _ _ _ _ _ _ _ _ _ _).
  - by rewrite size_map size_iota.
  - rewrite map_inj_in_uniq ?iota_uniq // => i j _ _ /(congr1 (@complex.Im R)). rewrite !Im_ki => /eqP. by rewrite eqr_nat eqSS => /eqP.
  - exact: hup.
  - exact: monicX.
  - by rewrite size_poly1 size_polyX.
  - by rewrite size_polyX.
  - move=> w hw. by rewrite /toC map_polyX hornerX hne.
  - move=> w hw. by rewrite /toC map_polyX hornerX hzo.
  - move=> w. rewrite ex_inv !inE => /orP[/eqP->|/eqP->]; first by rewrite invr1. by rewrite Ei /= lerN10.
  - move=> nmin M N w hin hw.
    have [_ hplan] := C94_plan. have [hn ho /andP[hN _] hNM _] := hplan _ _ _ hin.
    have hN0 : (0 < N)%nat by apply: leq_trans hN.
    set a := Z.to_nat (- nmin). have ea : nmin = (- Z.of_nat a)%Z by rewrite /a; lia.
    have ha0 : (0 < a)%nat by apply/ltP; rewrite /a; lia. have ha3 : (a <= 3)%nat by apply/leP; rewrite /a; lia.
    have eM : Z.of_nat M = (Z.of_nat a + Z.of_nat (M - a))%Z.
    { rewrite -Nat2Z.inj_add. congr Z.of_nat. rewrite -[RHS]/(a + (M - a))%nat subnKC // (leq_trans ha3) // (leq_trans _ hNM) // (leq_trans _ hN) //. }
    rewrite -E2 ea eM. cbv zeta. rewrite (@pick_map R (fun w => w^-1)) //; last by move=> v _; rewrite fmorphV.
    have hzp : forall v, v \in pick ex_zin (- Z.of_nat a) (Z.of_nat a + Z.of_nat (M - a)) -> v != 0.
    { move=> v /(pick_mem ha0) [/hne//|[u /hne hu ->]]. by rewrite conjc_eq0. }
    have hsz : (0 < size (pick ex_zin (- Z.of_nat a) (Z.of_nat a + Z.of_nat (M - a))))%nat.
    { have h97 : (a <= size ex_zin)%nat by rewrite /ex_zin size_map size_iota (leq_trans ha3).
      by rewrite pick_neg // size_cat size_rev size_map (size_takel h97) addn_gt0 ha0. }
    move: (pick ex_zin _ _) hzp hsz => zp hzp hsz.
    have hrows : pm_rows N zp [seq v^-1 | v <- zp] = [seq pm_row N./2 v v^-1 | v <- zp] by rewrite /pm_rows zip_mapr -map_comp.
    have hrhs : pm_rhss N zp [seq v^-1 | v <- zp] = [seq pm_rhs N./2 v v^-1 | v <- zp] by rewrite /pm_rhss zip_mapr -map_comp.
    have hN2 : N = (N./2).*2 by rewrite -[LHS]odd_double_half (negbTE ho).
    rewrite hrows hrhs /ex_lstsq.
    have -> : size (seq.head [::] [seq pm_row N./2 v v^-1 | v <- zp]) = N.
    { case: zp hsz {hzp hrows hrhs} => //= v zp _. by rewrite /pm_row size_cat !size_map !size_iota addnn -hN2. }
    have -> : ([seq dot r (nl_start R N) | r <- [seq pm_row N./2 v v^-1 | v <- zp]] == [seq pm_rhs N./2 v v^-1 | v <- zp]) = true.
    { apply/eqP. rewrite -map_comp. apply/eq_in_map => v hv /=. apply/eqP. rewrite dot_poly; last by rewrite size_map size_iota.
      rewrite -pnum_xnum -pden_xden nl_start_num // nl_start_den //.
      have hr : (0 < N./2)%nat by rewrite half_gt0 (leq_trans _ hN). rewrite -{2}(prednK hr) exprS mulKf //. exact: hzp. }
    by rewrite nl_start_den // expf_neq0 // hzo.
Qed.
End Examples.
