(** C93: the one-particle input and the two-particle objects built from the input. *)
From mathcomp Require Import all_ssreflect all_algebra.
From Coq Require Import String Lia ZArith.
From Verif Require Import Base.PyBase Base.PyFacts Base.Arr Base.FieldTac Model.Matsubara Model.LocalFourPoint Model.LocalSDE Model.Config Model.InputBuild Spec.SdeSpec
  Proofs.MatsubaraP Proofs.ConfigP Proofs.LocalSDEP Proofs.LocalG2P Proofs.InputBuildP.
Set Implicit Arguments. Unset Strict Implicit. Unset Printing Implicit Defensive.
Import GRing.Theory.
Local Open Scope ring_scope.

Section S.
Variable F : fieldType.
Notation arr1 := (list F).
Notation arr2 := (list (list F)).
Notation arr3 := (list (list (list F))).

Lemma col_map n m (l : arr2) j : shape2 l n m -> (0 <= j < m)%Z -> col j l = List.map (fun i => val2 l i j) (range n).
Proof.
  move=> s hj. have hn : (0 <= n)%Z by case: s => <- _; exact: zlen_nonneg. apply: zget_ext.
  - by rewrite (zlen_col s hj) zlen_map /range zlen_arange; lia.
  - move=> i. rewrite (zlen_col s hj) => hi. rewrite (zget_col s hj hi) zget_map /range zget_arange /=; last lia. by rewrite (get2_val s hi hj).
Qed.
Lemma ncols_sh n m (l : arr2) : (0 < n)%Z -> shape2 l n m -> ncols l = m.
Proof. move=> hn [h r]. case: l h r => [|x l] h r; first by rewrite zlen_nil in h; lia. by apply: r; left. Qed.
Lemma lsum_map T (f : T -> F) l : lsum (List.map f l) = \sum_(x <- l) f x.
Proof. rewrite /lsum. elim: l => [|x l IH] /=; first by rewrite !big_nil. by rewrite !big_cons IH. Qed.
Lemma mean0P ns m (l : arr2) : (0 < ns)%Z -> (0 <= m)%Z -> shape2 l ns m ->
  zlen (mean0 l) = m /\ forall v, (0 <= v < m)%Z -> val (mean0 l) v = (\sum_(s <- range ns) val2 l s v) / (Z.to_nat ns)%:R.
Proof.
  move=> hn hm s. rewrite /mean0 (ncols_sh hn s). split; first by rewrite zlen_map /range zlen_arange; lia.
  move=> v hv. rewrite /val zget_map /range zget_arange /=; last lia. rewrite (col_map s hv) lsum_map. have -> : Z.to_nat ns = length l; last by [].
  case: s => <- _. by rewrite /zlen Nat2Z.id.
Qed.
Lemma occ_sumP (o : list (list arr2)) o0 ns : zget o 0 = Some o0 -> zlen o0 = ns -> (0 < ns)%Z -> (forall x, List.In x o0 -> exists r, zget x 0 = Some r /\ zlen r = ns) ->
  occ_sum o = Ok (\sum_(s <- range ns) odflt 0 (obind (zget o0 s) (fun x => get2 x 0 s))).
Proof.
  move=> h0 hl hn hx. rewrite /occ_sum. have P T (l : list T) i : (0 <= i)%Z -> py_get l i = if zget l i is Some x then Ok x else Raise IndexError.
  { move=> hi. rewrite /py_get. by have -> : (i <? 0)%Z = false by lia. }
  rewrite P // h0 /=. have tot x : List.In x o0 -> exists y, py_get x 0 = Ok y by move=> /hx [r [e _]]; exists r; rewrite P // e.
  have [rows e] := mapM_build _ _ tot. rewrite e /=. have [L G] := mapM_zget _ _ e.
  have S : shape2 rows ns ns.
  { split; first by rewrite L. move=> r hin. have [i [hi ei]] := In_zget _ _ hin. rewrite L in hi. have [x ex] := @zget_in_range _ o0 i hi. have [y [ey e2]] := G i x ex.
    have ? : y = r by congruence. subst y. have [r' [er lr]] := hx x (zget_In _ _ ex). rewrite P // er in e2. by case: e2 => <-. }
  rewrite (ncols_sh hn S) L hl Z.min_id. have K : forall l, (forall s, List.In s l -> (0 <= s < ns)%Z) ->
    mapM (fun s : Z => let! r := py_get rows s in py_get r s) l = Ok (List.map (fun s => odflt 0 (obind (zget o0 s) (fun x => get2 x 0 s))) l).
  { elim=> [|s l IH] hs //=. have hs0 := hs s (or_introl erefl). have [x ex] := @zget_in_range _ o0 s ltac:(lia). have [y [ey e2]] := G s x ex.
    rewrite P; last lia. rewrite ey /= P; last lia. have ly : zlen y = ns by apply: (proj2 S); exact: zget_In ey. have [a ea] := @zget_in_range _ y s ltac:(lia). rewrite ea /= IH /=; last by move=> t ht; apply: hs; right.
    rewrite ex /= /get2. move: e2. rewrite P //. case E : (zget x 0) => [r|] // -[?]; subst r. by rewrite /= ea. }
  rewrite K /=; last by move=> s /In_arange. by rewrite lsum_map.
Qed.

Lemma two_rows (a b : arr1) v : \sum_(s <- range 2) val2 [:: a; b] s v = val a v + val b v.
Proof. have -> : range 2 = [:: 0; 1]%Z by []. by rewrite !big_cons big_nil addr0. Qed.
Lemma four_rows (a b c d : arr1) v : \sum_(s <- range 4) val2 [:: a; b; c; d] s v = val a v + val b v + (val c v + val d v).
Proof. have -> : range 4 = [:: 0; 1; 2; 3]%Z by []. by rewrite !big_cons big_nil addr0 !addrA. Qed.

(** G and Sigma are the spin averages of the first band; the filling is the configured
    one, or the sum of the occupations of the first band if that is 0. *)
Theorem C93_one_particle (f : w2dyn F) (g s : arr3) (g0 s0 : arr2) ns m :
  w_giw f = Some g -> w_siw f = Some s -> zget g 0 = Some g0 -> zget s 0 = Some s0 -> (0 < ns)%Z -> (0 <= m)%Z -> shape2 g0 ns m -> shape2 s0 ns m ->
  let mean (x : arr2) v := (\sum_(t <- range ns) val2 x t v) / (Z.to_nat ns)%:R in
  (w_totdens f != 0 -> exists d, load_1p_data_w2dyn f None = Ok d /\ d_n d = w_totdens f /\ d_beta d = w_beta f /\ d_u d = w_udd f /\ d_mu d = w_mu f /\
     zlen (d_giw d) = m /\ zlen (d_siw d) = m /\ forall v, (0 <= v < m)%Z -> val (d_giw d) v = mean g0 v /\ val (d_siw d) v = mean s0 v) /\
  (w_totdens f = 0 -> forall o o0, w_occ f = Some o -> zget o 0 = Some o0 -> zlen o0 = ns -> (forall x, List.In x o0 -> exists r, zget x 0 = Some r /\ zlen r = ns) ->
     exists d, load_1p_data_w2dyn f None = Ok d /\ d_n d = \sum_(t <- range ns) odflt 0 (obind (zget o0 t) (fun x => get2 x 0 t)) /\
     forall v, (0 <= v < m)%Z -> val (d_giw d) v = mean g0 v /\ val (d_siw d) v = mean s0 v) /\
  (w_totdens f = 0 -> w_occ f = None -> load_1p_data_w2dyn f None = Raise KeyError).
Proof.
  move=> eg es e0 e1 hn hm sg ss mean. have P T (l : list T) x : zget l 0 = Some x -> py_get l 0 = Ok x by rewrite /py_get /= => ->.
  have [lg vg] := mean0P hn hm sg. have [ls vs] := mean0P hn hm ss. split; [|split].
  - move=> h. eexists. rewrite /load_1p_data_w2dyn eg es /= (P _ _ _ e0) /= (P _ _ _ e1) /= (negbTE h) /=. split; first reflexivity. do 4!(split; first by []). split; first exact: lg. split; first exact: ls. by move=> v hv; split; [apply: vg|apply: vs].
  - move=> h o o0 eo eo0 lo ho. eexists. rewrite /load_1p_data_w2dyn eg es /= (P _ _ _ e0) /= (P _ _ _ e1) /= h eqxx eo /= (occ_sumP eo0 lo hn ho) /=. split; first reflexivity. split=> // v hv. by split; [apply: vg|apply: vs].
  - move=> h eo. by rewrite /load_1p_data_w2dyn eg es /= (P _ _ _ e0) /= (P _ _ _ e1) /= h eqxx eo.
Qed.
(** With a two-particle file the same dictionary is completed by the two channels, the density under g4iw_dens and the magnetic one
    under g4iw_magn; a failure of either channel ends the call. *)
Theorem C93_with_vertex (f : w2dyn F) (gd gm : arr3) : 
  (forall d, load_1p_data_w2dyn f None = Ok d -> d_dens d = None /\ d_magn d = None /\
     exists d', load_1p_data_w2dyn f (Some (Ok gd, Ok gm)) = Ok d' /\ d_dens d' = Some gd /\ d_magn d' = Some gm /\
     d_giw d' = d_giw d /\ d_siw d' = d_siw d /\ d_n d' = d_n d /\ d_beta d' = d_beta d /\ d_u d' = d_u d /\ d_mu d' = d_mu d) /\
  (forall e g4, load_1p_data_w2dyn f None = Raise e -> load_1p_data_w2dyn f (Some g4) = Raise e) /\
  (forall d e, load_1p_data_w2dyn f None = Ok d -> (forall m, load_1p_data_w2dyn f (Some (Raise e, m)) = Raise e) /\ load_1p_data_w2dyn f (Some (Ok gd, Raise e)) = Raise e).
Proof.
  rewrite /load_1p_data_w2dyn. case: (dataset (w_giw f)) => [g|e0]; last by split=> [d //|]; split=> [e [rd rm] //|d e //].
  cbn [bind]. case: (py_get g 0) => [g0|e0]; last by split=> [d //|]; split=> [e [rd rm] //|d e //].
  cbn [bind]. case: (dataset (w_siw f)) => [s|e0]; last by split=> [d //|]; split=> [e [rd rm] //|d e //].
  cbn [bind]. case: (py_get s 0) => [s0|e0]; last by split=> [d //|]; split=> [e [rd rm] //|d e //].
  cbn [bind]. set nn := (if _ then _ else _). case: nn => [n|e0]; last by split=> [d //|]; split=> [e [rd rm] //|d e //].
  cbn [bind]. split; [|by split=> // e [rd rm]]. move=> d [<-]. split=> //. split=> //. by eexists; split; first reflexivity.
Qed.
(** For a paramagnet the average is the common value. *)
Theorem C93_paramagnet (f : w2dyn F) (g s : arr3) (r t : arr1) d : (2%:R : F) != 0 -> w_totdens f != 0 ->
  w_giw f = Some g -> w_siw f = Some s -> zget g 0 = Some [:: r; r] -> zget s 0 = Some [:: t; t] ->
  load_1p_data_w2dyn f None = Ok d -> d_giw d = r /\ d_siw d = t.
Proof.
  move=> h2 hn eg es e0 e1. have P T (l : list T) x : zget l 0 = Some x -> py_get l 0 = Ok x by rewrite /py_get /= => ->.
  rewrite /load_1p_data_w2dyn eg es /= (P _ _ _ e0) /= (P _ _ _ e1) /= (negbTE hn) /= => -[<-] /=.
  have K (l : arr1) : mean0 [:: l; l] = l; last by rewrite !K.
  have sl : shape2 [:: l; l] 2 (zlen l) by split=> // x [<-|[<-|[]]]. have [L V] := mean0P (ltac:(lia) : (0 < 2)%Z) (zlen_nonneg l) sl.
  apply: val_ext; first exact: L. move=> v hv. rewrite L in hv. rewrite V // two_rows. have E x : x + x = 2%:R * x :> F by rewrite mulr_natl mulr2n. by rewrite E mulrC mulKf.
Qed.

Lemma axis0P n m (l : arr2) : (0 <= m)%Z -> shape2 l n m -> zlen (sum_axis0 m l) = m /\ forall v, (0 <= v < m)%Z -> val (sum_axis0 m l) v = \sum_(s <- range n) val2 l s v.
Proof.
  move=> hm sl. split; first by rewrite /sum_axis0 zlen_map /range zlen_arange; lia.
  move=> v hv. rewrite {1}/val /sum_axis0 zget_map /range zget_arange /=; last lia. by rewrite (col_map sl hv) lsum_map.
Qed.
(** The older loader load_dmft1p_w2dyn (diagonal arrays) for two spins: half the sum over
    all bands and spins. *)
Lemma sum2_one (a b : arr1) m : zlen a = m -> zlen b = m -> zlen (sum2 [:: [:: a; b]]) = m /\ forall v, (0 <= v < m)%Z -> val (sum2 [:: [:: a; b]]) v = val a v + val b v.
Proof.
  move=> la lb. have hm : (0 <= m)%Z by rewrite -la; exact: zlen_nonneg. have sl : shape2 [:: a; b] 2 m by split=> // x [<-|[<-|[]]].
  rewrite /sum2 /= la. have [L V] := axis0P hm sl. split=> // v hv. by rewrite V // two_rows.
Qed.
Lemma sum2_two (a b c d : arr1) m : zlen a = m -> zlen b = m -> zlen c = m -> zlen d = m -> zlen (sum2 [:: [:: a; b]; [:: c; d]]) = m /\ forall v, (0 <= v < m)%Z -> val (sum2 [:: [:: a; b]; [:: c; d]]) v = val a v + val b v + (val c v + val d v).
Proof.
  move=> la lb lc ld. have hm : (0 <= m)%Z by rewrite -la; exact: zlen_nonneg. have sl : shape2 [:: a; b; c; d] 4 m by split=> // x [<-|[<-|[<-|[<-|[]]]]].
  rewrite /sum2 /= la. have [L V] := axis0P hm sl. split=> // v hv. by rewrite V // four_rows.
Qed.
Lemma half_val (l : arr1) v : val (half l) v = 1 / 2%:R * val l v.
Proof. rewrite /val /half zget_map. by case: (zget l v) => //=; rewrite mulr0. Qed.
Lemma zlen_half (l : arr1) : zlen (half l) = zlen l.
Proof. exact: zlen_map. Qed.
(** For one band, two spins and a configured filling the two loaders agree. *)
Theorem C93_loaders_agree (f : w2dyn F) (gu gd su sd : arr1) d p m : (2%:R : F) != 0 -> w_totdens f != 0 ->
  zlen gu = m -> zlen gd = m -> zlen su = m -> zlen sd = m ->
  w_giw f = Some [:: [:: gu; gd]] -> w_siw f = Some [:: [:: su; sd]] -> w_giw_full f = None -> w_siw_full f = None ->
  load_1p_data_w2dyn f None = Ok d -> load_dmft1p_w2dyn f = Ok p ->
  p_gloc p = d_giw d /\ p_sloc p = d_siw d /\ p_n p = d_n d /\ p_beta p = d_beta d /\ p_u p = d_u d /\ p_mu p = d_mu d /\ p_niv p = (m / 2)%Z /\ p_hartree p = d_n d * d_u d / 2%:R.
Proof.
  move=> h2 hn l1 l2 l3 l4 eg es ef1 ef2. rewrite /load_1p_data_w2dyn /load_dmft1p_w2dyn eg es ef1 ef2 /= (negbTE hn) /= => -[<-] -[<-] /=.
  have hm : (0 <= m)%Z by rewrite -l1; exact: zlen_nonneg.
  have K (a b : arr1) : zlen a = m -> zlen b = m -> half (sum2 [:: [:: a; b]]) = mean0 [:: a; b].
  { move=> la lb. have [L V] := sum2_one la lb. have sl : shape2 [:: a; b] 2 m by split=> // x [<-|[<-|[]]]. have [L' V'] := mean0P (ltac:(lia) : (0 < 2)%Z) hm sl.
    apply: val_ext; first by rewrite zlen_half L L'. move=> v. rewrite zlen_half L => hv. rewrite half_val V // V' // two_rows mul1r. by rewrite mulrC. }
  rewrite !K //. do 6!(split=> //). by rewrite (proj1 (mean0P (ltac:(lia) : (0 < 2)%Z) hm _)) //; split=> // x [<-|[<-|[]]].
Qed.
(** Finding: otherwise they differ.  With two bands the older loader adds the bands,
    and with totdens = 0 it reports the filling 0 and a vanishing Hartree term. *)
Theorem C93_loaders_differ_finding (f : w2dyn F) (a b c e : arr1) (su : arr3) d p m : (2%:R : F) != 0 ->
  zlen a = m -> zlen b = m -> zlen c = m -> zlen e = m ->
  w_giw f = Some [:: [:: a; b]; [:: c; e]] -> w_siw f = Some su -> w_giw_full f = None -> w_siw_full f = None ->
  load_1p_data_w2dyn f None = Ok d -> load_dmft1p_w2dyn f = Ok p ->
  (forall v, (0 <= v < m)%Z -> val (p_gloc p) v = val (d_giw d) v + (val c v + val e v) / 2%:R) /\
  (w_totdens f = 0 -> p_n p = 0 /\ p_hartree p = 0 /\ exists o, w_occ f = Some o /\ Ok (d_n d) = occ_sum o).
Proof.
  move=> h2 l1 l2 l3 l4 eg es ef1 ef2. have hm : (0 <= m)%Z by rewrite -l1; exact: zlen_nonneg.
  rewrite /load_1p_data_w2dyn /load_dmft1p_w2dyn eg es ef1 ef2 /=. case: (py_get su 0) => [s0|] //=.
  case E : (w_totdens f == 0).
  - case eo : (w_occ f) => [o|] //=. case eos : (occ_sum o) => [n|] //= -[<-] -[<-] /=. split.
    + move=> v hv. have [L V] := sum2_two l1 l2 l3 l4. have sl : shape2 [:: a; b] 2 m by split=> // x [<-|[<-|[]]]. have [L' V'] := mean0P (ltac:(lia) : (0 < 2)%Z) hm sl.
      rewrite half_val V // V' // two_rows mul1r mulrC -mulrDl //.
    + move=> h. rewrite h !mul0r. do 2!(split=> //). by exists o.
  - move=> [<-] [<-] /=. split.
    + move=> v hv. have [L V] := sum2_two l1 l2 l3 l4. have sl : shape2 [:: a; b] 2 m by split=> // x [<-|[<-|[]]]. have [L' V'] := mean0P (ltac:(lia) : (0 < 2)%Z) hm sl.
      rewrite half_val V // V' // two_rows mul1r mulrC -mulrDl //.
    + move=> h. by rewrite h eqxx in E.
Qed.
(** The impurity susceptibility: sum (density) or difference (magnetic) of the two spin
    components; the disconnected part is taken off the density channel at the
    frequency zero and nowhere else. *)
Theorem C93_chi (f : w2dyn F) (uu ud : arr1) niw : (0 <= niw)%Z -> w_p2_upup f = Some uu -> w_p2_updn f = Some ud -> zlen uu = (2 * niw + 1)%Z -> zlen ud = (2 * niw + 1)%Z ->
  (exists r, get_chi f "dens" = Ok r /\ zlen r = (2 * niw + 1)%Z /\ forall w, (- niw <= w <= niw)%Z ->
     val r (niw + w) = val uu (niw + w) + val ud (niw + w) - (if (w =? 0)%Z then 2%:R * w_beta f * (w_totdens f / 2%:R - 1) ^+ 2 else 0)) /\
  (exists r, get_chi f "magn" = Ok r /\ zlen r = (2 * niw + 1)%Z /\ forall w, (- niw <= w <= niw)%Z -> val r (niw + w) = val uu (niw + w) - val ud (niw + w)) /\
  forall ch, ch <> "dens"%string -> ch <> "magn"%string -> get_chi f ch = Raise ValueError.
Proof.
  move=> hn eu ed lu ld. have hh : ((2 * niw + 1) / 2 = niw)%Z by (symmetry; apply: (Z.div_unique _ _ _ 1); lia).
  move: lu ld hh. have [N hN] : exists N, N = (2 * niw + 1)%Z by eexists. rewrite -hN => lu ld hh.
  have X (l : arr1) i : zlen l = N -> (- niw <= i <= niw)%Z -> zget l (niw + i) = Some (val l (niw + i)) by move=> e hi; rewrite zget_val //; lia.
  split; [|split].
  - eexists. rewrite /get_chi eu ed /= /np_map2 lu ld Z.eqb_refl /= hh zlen_map2 lu ld zlen_arange. have -> : (Z.max 0 (niw + 1 - - niw) =? Z.min N N)%Z = true by lia.
    split; first reflexivity. split; first by rewrite !zlen_map2 lu ld zlen_arange; lia. move=> w hw.
    rewrite {1}/val zget_map2 zget_arange; last lia. rewrite zget_map2 !X //=. have -> : (- niw + (niw + w) = w)%Z by lia. case: Z.eqb_spec => _ /=; last by rewrite subr0.
    congr (_ - _). by rewrite mulrC (mulrC _ (w_beta f)) mulrA.
  - eexists. rewrite /get_chi eu ed /= /np_map2 lu ld Z.eqb_refl /=. split; first reflexivity. split; first by rewrite zlen_map2 lu ld; lia. move=> w hw. by rewrite {1}/val zget_map2 !X.
  - move=> ch h1 h2. rewrite /get_chi eu ed /=. case: String.eqb_spec => // _. by case: String.eqb_spec.
Qed.
(** An even number of frequencies is refused (density channel). *)
Theorem C93_chi_even (f : w2dyn F) (uu ud : arr1) n : (0 <= n)%Z -> w_p2_upup f = Some uu -> w_p2_updn f = Some ud -> zlen uu = (2 * n)%Z -> zlen ud = (2 * n)%Z -> get_chi f "dens" = Raise IndexError.
Proof.
  move=> hn eu ed lu ld. rewrite /get_chi eu ed /= /np_map2 lu ld Z.eqb_refl /= zlen_map2 lu ld zlen_arange. have -> : (2 * n / 2 = n)%Z by (symmetry; apply: (Z.div_unique _ _ _ 0); lia).
  by have -> : (Z.max 0 (n + 1 - - n) =? Z.min (2 * n) (2 * n))%Z = false by lia.
Qed.
(** Finding: with totdens = 0 the loader of the self-energy uses the occupations but
    get_chi the filling 0: it subtracts 2 beta at w = 0 whatever the filling is. *)
Theorem C93_chi_filling_finding (f : w2dyn F) (uu ud : arr1) niw r : (0 <= niw)%Z -> w_p2_upup f = Some uu -> w_p2_updn f = Some ud -> zlen uu = (2 * niw + 1)%Z -> zlen ud = (2 * niw + 1)%Z ->
  w_totdens f = 0 -> get_chi f "dens" = Ok r -> val r niw = val uu niw + val ud niw - 2%:R * w_beta f.
Proof.
  move=> hn eu ed lu ld h0 e. have [[r' [e' [_ V]]] _] := C93_chi hn eu ed lu ld. have ? : r' = r by congruence. subst r'.
  have := V 0%Z ltac:(lia). rewrite Z.add_0_r /= => ->. by rewrite h0 mul0r sub0r sqrrN expr1n mulr1.
Qed.

(** ** build_g2_obj *)
(** The objects hold the input at the same Matsubara frequencies, for the core box; with
    do_sym_v_vp the mean over the exchange of v and v'. *)
Theorem C93_build b b' (sym : bool) (d : ddict F) gd gm niw niv : (0 <= niw)%Z -> (0 < niv)%Z -> (2%:R : F) != 0 ->
  d_dens d = Some gd -> d_magn d = Some gm -> shape3 gd (2 * niw + 1) (2 * niv) (2 * niv) -> shape3 gm (2 * niw + 1) (2 * niv) (2 * niv) ->
  set_from_lfp b niv (2 * niw + 1) = Ok b' -> (0 <= niw_core b')%Z -> (0 < niv_core b')%Z ->
  exists rd rm, build_g2_obj b sym d = Ok (b', rd, rm) /\
    shape3 rd (2 * niw_core b' + 1) (2 * niv_core b') (2 * niv_core b') /\ shape3 rm (2 * niw_core b' + 1) (2 * niv_core b') (2 * niv_core b') /\
    forall w v vp, (- niw_core b' <= w <= niw_core b')%Z -> (- niv_core b' <= v < niv_core b')%Z -> (- niv_core b' <= vp < niv_core b')%Z ->
      let got (r : arr3) a c := at3 r (niw_core b') (niv_core b') w a c in let inp (g : arr3) a c := at3 g niw niv w a c in
      (got rd v vp = if sym then (inp gd v vp + inp gd vp v) / 2%:R else inp gd v vp) /\
      (got rm v vp = if sym then (inp gm v vp + inp gm vp v) / 2%:R else inp gm v vp) /\
      (sym -> got rd v vp = got rd vp v /\ got rm v vp = got rm vp v).
Proof.
  move=> hw hv h2 ed em sd sm eb p1 p2. have [_ [_ [_ [_ [e5 e6]]]]] := @lfp_ok b niv (2 * niw + 1) b' eb.
  have hh : ((2 * niw + 1) / 2 = niw)%Z by (symmetry; apply: (Z.div_unique _ _ _ 1); lia). rewrite hh in e6.
  set nw := niw_core b' in p1 e6 *. set nv := niv_core b' in p2 e5 *.
  have [cd gd'] := @cut_spec F gd niw niv nw nv sd ltac:(lia) ltac:(lia). have [cm gm'] := @cut_spec F gm niw niv nw nv sm ltac:(lia) ltac:(lia).
  rewrite (build_ok sym hw hv ed em sd sm eb) -/nw -/nv. case: sym.
  - have [rd [erd [srd vrd]]] := @sym3P F (2 * nv) _ (2 * nw + 1) ltac:(lia) cd. have [rm [erm [srm vrm]]] := @sym3P F (2 * nv) _ (2 * nw + 1) ltac:(lia) cm.
    exists rd, rm. rewrite erd /= erm /=. split=> //; split=> //; split=> // w v vp a1 a2 a3 /=.
    have Vd x y : (- nv <= x < nv)%Z -> (- nv <= y < nv)%Z -> at3 rd nw nv w x y = (at3 gd niw niv w x y + at3 gd niw niv w y x) / 2%:R.
    { move=> hx hy. rewrite /at3 vrd; try lia. rewrite /val3 !gd' //. by rewrite mul1r mulrC. }
    have Vm x y : (- nv <= x < nv)%Z -> (- nv <= y < nv)%Z -> at3 rm nw nv w x y = (at3 gm niw niv w x y + at3 gm niw niv w y x) / 2%:R.
    { move=> hx hy. rewrite /at3 vrm; try lia. rewrite /val3 !gm' //. by rewrite mul1r mulrC. }
    rewrite !Vd // !Vm //. split=> //; split=> // _. by split; rewrite addrC.
  - exists (cut2 gd nv nw), (cut2 gm nv nw). split=> //; split=> //; split=> // w v vp a1 a2 a3 /=. by rewrite /at3 /val3 gd' // gm'.
Qed.
(** Restart: the dictionary saved by the program (create_dmft_ddict) fed back with the
    completed box gives the same box and the same objects. *)
Theorem C93_restart b b' (sym : bool) (d : ddict F) gd gm niw niv rd rm : (0 <= niw)%Z -> (0 < niv)%Z -> (2%:R : F) != 0 ->
  d_dens d = Some gd -> d_magn d = Some gm -> shape3 gd (2 * niw + 1) (2 * niv) (2 * niv) -> shape3 gm (2 * niw + 1) (2 * niv) (2 * niv) ->
  (-1 <= niw_core b)%Z -> (-1 <= niv_core b)%Z -> niv_core b <> 0%Z ->
  build_g2_obj b sym d = Ok (b', rd, rm) ->
  build_g2_obj b' sym (create_dmft_ddict d rd rm) = Ok (b', rd, rm) /\
  (let d' := create_dmft_ddict d rd rm in d_giw d' = d_giw d /\ d_siw d' = d_siw d /\ d_n d' = d_n d /\ d_beta d' = d_beta d /\ d_u d' = d_u d /\ d_mu d' = d_mu d).
Proof.
  move=> hw hv h2 ed em sd sm q1 q2 q3 e. split=> //.
  have [b0 eb] : exists b0, set_from_lfp b niv (2 * niw + 1) = Ok b0.
  { case E : (set_from_lfp b niv (2 * niw + 1)) => [b0|x]; first by exists b0. exfalso. move: e. rewrite /build_g2_obj ed em. have ne (m : arr3) : shape3 m (2 * niw + 1) (2 * niv) (2 * niv) -> lfp_init (Some m) = Ok m.
    { case: m => [|y m] [l _] //. rewrite zlen_nil in l. lia. }
    rewrite !ne //= /niv3 (@last_dim3 F gd (2 * niw + 1) (2 * niv) (2 * niv)) //; try lia. rewrite /niv_from_len (@len_wn3 F gd niw (2 * niv) (2 * niv)) //.
    have -> : (2 * niv / 2 = niv)%Z by (symmetry; apply: (Z.div_unique _ _ _ 0); lia). by rewrite E. }
  have [e1 [e2 [_ [_ [e5 e6]]]]] := @lfp_ok b niv (2 * niw + 1) b0 eb.
  have hh : ((2 * niw + 1) / 2 = niw)%Z by (symmetry; apply: (Z.div_unique _ _ _ 1); lia). rewrite hh in e2 e6.
  have p1 : (0 <= niw_core b0)%Z by rewrite e2; case: Z.eqb_spec; lia. have p2 : (0 < niv_core b0)%Z by rewrite e1; case: Z.eqb_spec; lia.
  have [rd' [rm' [e' [s1 [s2 V]]]]] := C93_build sym hw hv h2 ed em sd sm eb p1 p2.
  have [? [? ?]] : b' = b0 /\ rd = rd' /\ rm = rm' by move: e; rewrite e' => -[<- <- <-]. subst b0 rd' rm'.
  have sa := @set_again b b' niv (2 * niw + 1) ltac:(lia) ltac:(lia) q2 q1 eb.
  rewrite (build_ok sym p1 p2 (d := create_dmft_ddict d rd rm) (erefl _) (erefl _) s1 s2 sa) !cut_same //; try lia.
  case: sym e e' V => e e' V //. have B (r : arr3) : (r = rd \/ r = rm) -> sym3 r = Ok r.
  { move=> hr. have sr : shape3 r (2 * niw_core b' + 1) (2 * niv_core b') (2 * niv_core b') by case: hr => ->. apply: (sym_same h2 _ sr); first lia. move=> i j k hi hj hk.
    have [_ [_ /(_ isT) [t1 t2]]] := V (i - niw_core b')%Z (j - niv_core b')%Z (k - niv_core b')%Z ltac:(lia) ltac:(lia) ltac:(lia).
    move: t1 t2. rewrite /at3 !Zplus_minus. by case: hr => ->. }
  by rewrite B /=; [rewrite B /=; [|right]|left].
Qed.
(** Finding: the box is checked against the density vertex only.  A magnetic vertex with
    fewer frequencies is not refused: here the object of the magnetic channel has
    one fermionic frequency instead of four. *)
Theorem C93_magn_box_finding (gd x : F) giw :
  let dens := List.repeat (List.repeat (List.repeat gd 4) 4) 3 in
  let magn := List.repeat [:: [:: x; x]; [:: x; x]] 3 in
  exists b' rd, build_g2_obj (box_init (BoxConf None None None None)) false (DDict giw giw x x x x (Some dens) (Some magn)) = Ok (b', rd, [:: [:: [:: x]]; [:: [:: x]]; [:: [:: x]]]) /\ niv_core b' = 2%Z /\ shape3 rd 3 4 4.
Proof. do 2 eexists. split; [|split]; first reflexivity; first reflexivity. apply: shape3b_ok. reflexivity. Qed.
(** Empty or missing two-particle input is refused. *)
Theorem C93_build_empty b sym (d : ddict F) : (d_dens d = None -> build_g2_obj b sym d = Raise KeyError) /\ (d_dens d = Some [::] -> build_g2_obj b sym d = Raise AssertionError).
Proof. by split=> h; rewrite /build_g2_obj h. Qed.
(** Only the documented input types are accepted. *)
Theorem C93_input_types t (ed w sv : res (ddict F)) : load_1p_data t ed w sv = if String.eqb t "EDFermion" then ed else if String.eqb t "w2dyn" then w else if (String.eqb t "test" || String.eqb t "default")%bool then sv else Raise NotImplementedError.
Proof. rewrite /load_1p_data. do 2!case: ifP => //. by case: (String.eqb t "test"). Qed.
End S.

Print Assumptions C93_one_particle.
Print Assumptions C93_paramagnet.
Print Assumptions C93_with_vertex.
Print Assumptions C93_loaders_agree.
Print Assumptions C93_loaders_differ_finding.
Print Assumptions C93_chi.
Print Assumptions C93_chi_even.
Print Assumptions C93_chi_filling_finding.
Print Assumptions C93_build.
Print Assumptions C93_restart.
Print Assumptions C93_magn_box_finding.
Print Assumptions C93_build_empty.
Print Assumptions C93_input_types.
(** non-vacuity: one band, two spins, totdens = 0, occupations 1 and 2 *)
Example C93_ex_1p : exists d, load_1p_data_w2dyn (W2dyn 10%:Q 2%:Q 1%:Q 0%:Q (Some [:: [:: [:: 1%:Q; 2%:Q]; [:: 3%:Q; 4%:Q]]]) (Some [:: [:: [:: 0%:Q; 2%:Q]; [:: 0%:Q; 4%:Q]]]) None None
    (Some [:: [:: [:: [:: 1%:Q; 0%:Q]]; [:: [:: 0%:Q; 2%:Q]]]]) None None) None = Ok d /\ d_n d = 3%:Q /\ val (d_giw d) 1 = 3%:Q.
Proof.
  set f := W2dyn _ _ _ _ _ _ _ _ _ _ _.
  have s1 : shape2 [:: [:: 1%:Q; 2%:Q]; [:: 3%:Q; 4%:Q]] 2 2 by split=> // x [<-|[<-|[]]].
  have s2 : shape2 [:: [:: 0%:Q; 2%:Q]; [:: 0%:Q; 4%:Q]] 2 2 by split=> // x [<-|[<-|[]]].
  have ho : forall x, List.In x [:: [:: [:: 1%:Q; 0%:Q]]; [:: [:: 0%:Q; 2%:Q]]] -> exists r, zget x 0 = Some r /\ zlen r = 2%Z by move=> x [<-|[<-|[]]]; eexists; split; reflexivity.
  have [_ [H _]] := @C93_one_particle _ f _ _ _ _ 2 2 erefl erefl erefl erefl ltac:(lia) ltac:(lia) s1 s2.
  have [d [e [en V]]] := H erefl _ _ erefl erefl erefl ho. exists d. split=> //. split.
  - rewrite en. have -> : range 2 = [:: 0; 1]%Z by []. by rewrite !big_cons big_nil.
  - have [-> _] := V 1%Z ltac:(lia). by rewrite two_rows.
Qed.
(** a 3x4x4 input and a box of one bosonic and one fermionic frequency meet the hypotheses of C93_build and C93_restart *)
Example C93_ex_box : exists b', set_from_lfp (Box 1 1 0 (-1)) 2 (2 * 1 + 1) = Ok b' /\ (0 <= niw_core b')%Z /\ (0 < niv_core b')%Z /\ shape3 (List.repeat (List.repeat (List.repeat 1%:Q 4) 4) 3) (2 * 1 + 1) (2 * 2) (2 * 2).
Proof. eexists. split; first reflexivity. do 2!(split; first by rewrite /=; lia). apply: shape3b_ok. reflexivity. Qed.
