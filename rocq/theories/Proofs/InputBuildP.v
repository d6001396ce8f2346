(** C93: building the two-particle objects. *)
From mathcomp Require Import all_ssreflect all_algebra.
From Coq Require Import String Lia ZArith.
From Verif Require Import Base.PyBase Base.PyFacts Base.Arr Base.FieldTac Model.Matsubara Model.LocalFourPoint Model.LocalSDE Model.Config Model.InputBuild Spec.SdeSpec
  Proofs.MatsubaraP Proofs.ConfigP Proofs.LocalSDEP Proofs.LocalG2P.
Set Implicit Arguments. Unset Strict Implicit. Unset Printing Implicit Defensive.
Import GRing.Theory.
Local Open Scope ring_scope.

Section P.
Variable F : fieldType.
Notation arr3 := (list (list (list F))).
Definition at3 (m : arr3) (niw niv w v vp : Z) : F := val3 m (niw + w) (niv + v) (niv + vp).
Lemma last_dim3 (m : arr3) a b c : (0 < a)%Z -> (0 < b)%Z -> shape3 m a b c -> last_dim m = c.
Proof.
  move=> ha hb [l h]. case: m l h => [|x m] l h; first by rewrite zlen_nil in l; lia.
  have [lx hx] := h x (or_introl erefl). case: x l lx hx {h} => [|r x] l lx hx; first by rewrite zlen_nil in lx; lia.
  by rewrite /last_dim /=; apply: hx; left.
Qed.
Lemma len_wn3 (m : arr3) niw b c : shape3 m (2 * niw + 1) b c -> (0 <= niw)%Z -> len_wn m = (2 * niw + 1)%Z.
Proof. move=> [l _] h. rewrite /len_wn l /niw_from_len /wn. have -> : ((2 * niw + 1) / 2 = niw)%Z by (symmetry; apply: (Z.div_unique _ _ _ 1); lia). rewrite zlen_arange. lia. Qed.
(** the two cuts *)
Definition cut2 (m : arr3) nv nw : arr3 := cut_w_1d (cut_iv m nv) nw.
Lemma cut_spec (m : arr3) niw niv nw nv : shape3 m (2 * niw + 1) (2 * niv) (2 * niv) -> (0 <= nw <= niw)%Z -> (0 <= nv <= niv)%Z ->
  shape3 (cut2 m nv nw) (2 * nw + 1) (2 * nv) (2 * nv) /\
  forall w v vp, (- nw <= w <= nw)%Z -> (- nv <= v < nv)%Z -> (- nv <= vp < nv)%Z ->
    get3 (cut2 m nv nw) (nw + w) (nv + v) (nv + vp) = get3 m (niw + w) (niv + v) (niv + vp).
Proof.
  move=> [l h] hw hv. rewrite /cut2 /cut_iv.
  have [L G] := @cut_w_spec _ (List.map (fun x => cut_v_2 x nv) m) niw nw ltac:(by rewrite zlen_map) hw. split; first (split=> //).
  - move=> r hin. have [i [hi e]] := In_zget _ _ hin. rewrite L in hi. have ei : i = (nw + (i - nw))%Z by lia. rewrite ei (G (i - nw)%Z ltac:(lia)) zget_map in e.
    case E : (zget m (niw + (i - nw))) e => [x|] //= [<-]. exact: (proj1 (cut_v_2_spec (h x (zget_In _ _ E)) hv)).
  - move=> w v vp h1 h2 h3. rewrite /get3 G // zget_map. case E : (zget m (niw + w)) => [x|] //=. exact: (proj2 (cut_v_2_spec (h x (zget_In _ _ E)) hv)).
Qed.
Lemma shape3_ext (m m' : arr3) a b c : shape3 m a b c -> shape3 m' a b c ->
  (forall i j k, (0 <= i < a)%Z -> (0 <= j < b)%Z -> (0 <= k < c)%Z -> get3 m i j k = get3 m' i j k) -> m = m'.
Proof.
  move=> [l h] [l' h'] H. apply: zget_ext; first by rewrite l l'. move=> i hi. rewrite l in hi.
  have [x ex] := @zget_in_range _ m i ltac:(lia). have [y ey] := @zget_in_range _ m' i ltac:(lia). rewrite ex ey. congr Some.
  apply: (shape2_ext (h x (zget_In _ _ ex)) (h' y (zget_In _ _ ey))) => j k hj hk. have := H i j k hi hj hk. by rewrite /get3 ex ey.
Qed.
(** cutting to the size it has does nothing *)
Lemma cut_same (m : arr3) nw nv : (0 <= nw)%Z -> (0 <= nv)%Z -> shape3 m (2 * nw + 1) (2 * nv) (2 * nv) -> cut2 m nv nw = m.
Proof.
  move=> h1 h2 s. have [s' g] := cut_spec s (conj h1 (Z.le_refl nw)) (conj h2 (Z.le_refl nv)). apply: (shape3_ext s' s) => i j k hi hj hk.
  have := g (i - nw)%Z (j - nv)%Z (k - nv)%Z ltac:(lia) ltac:(lia) ltac:(lia).
  by rewrite !Zplus_minus.
Qed.
Lemma sym3P n (m : arr3) a : (0 < n)%Z -> shape3 m a n n ->
  exists r, sym3 m = Ok r /\ shape3 r a n n /\
    forall i j k, (0 <= i < a)%Z -> (0 <= j < n)%Z -> (0 <= k < n)%Z -> val3 r i j k = 1 / 2%:R * (val3 m i j k + val3 m i k j).
Proof.
  move=> hn [l h]. have nc x : List.In x m -> ncols x = n.
  { move=> hx. have [lx rx] := h x hx. case: x lx rx {hx} => [|r x] lx rx; first by rewrite zlen_nil in lx; lia. by apply: rx; left. }
  have tot x : List.In x m -> exists y, symmetrize_v_vp (ncols x) x = Ok y.
  { move=> hx. rewrite nc //. have [r [e _]] := symmP (Z.lt_le_incl _ _ hn) (h x hx). by exists r. }
  have [r e] := mapM_build _ _ tot. exists r. rewrite /sym3 e. split=> //. have [L G] := mapM_zget _ _ e. split; first (split; first by rewrite L).
  - move=> y hin. have [i [hi ey]] := In_zget _ _ hin. rewrite L in hi. have [x ex] := @zget_in_range _ m i hi. have [y' [ey' es]] := G i x ex.
    have E : y' = y by congruence. subst y'. rewrite nc in es; last exact: zget_In ex. have [z [ez [sz _]]] := symmP (Z.lt_le_incl _ _ hn) (h x (zget_In _ _ ex)). by move: es; rewrite ez => -[<-].
  - move=> i j k hi hj hk. have [x ex] := @zget_in_range _ m i ltac:(lia). have [y [ey es]] := G i x ex.
    rewrite nc in es; last exact: zget_In ex. have [z [ez [_ vz]]] := symmP (Z.lt_le_incl _ _ hn) (h x (zget_In _ _ ex)). move: es; rewrite ez => -[?]; subst y.
    rewrite /val3 /get3 ey ex /=. exact: vz.
Qed.
Lemma build_ok b b' (sym : bool) (d : ddict F) gd gm niw niv : (0 <= niw)%Z -> (0 < niv)%Z ->
  d_dens d = Some gd -> d_magn d = Some gm -> shape3 gd (2 * niw + 1) (2 * niv) (2 * niv) -> shape3 gm (2 * niw + 1) (2 * niv) (2 * niv) ->
  set_from_lfp b niv (2 * niw + 1) = Ok b' ->
  build_g2_obj b sym d = if sym then let! x := sym3 (cut2 gd (niv_core b') (niw_core b')) in let! y := sym3 (cut2 gm (niv_core b') (niw_core b')) in Ok (b', x, y)
                         else Ok (b', cut2 gd (niv_core b') (niw_core b'), cut2 gm (niv_core b') (niw_core b')).
Proof.
  move=> h1 h2 ed em sd sm eb. rewrite /build_g2_obj ed em. have ne (m : arr3) : shape3 m (2 * niw + 1) (2 * niv) (2 * niv) -> lfp_init (Some m) = Ok m.
  { case: m => [|x m] [l _] //. rewrite zlen_nil in l. lia. }
  rewrite !ne //= /niv3 (@last_dim3 gd (2 * niw + 1) (2 * niv) (2 * niv)) //; try lia. rewrite /niv_from_len (@len_wn3 gd niw (2 * niv) (2 * niv)) //.
  have -> : (2 * niv / 2 = niv)%Z by (symmetry; apply: (Z.div_unique _ _ _ 0); lia). by rewrite eb /= -/(cut2 gd _ _) -/(cut2 gm _ _).
Qed.
Lemma set_again b b' lfp_niv len : (0 <= lfp_niv)%Z -> (0 <= len)%Z -> (-1 <= niv_core b)%Z -> (-1 <= niw_core b)%Z ->
  set_from_lfp b lfp_niv len = Ok b' -> set_from_lfp b' (niv_core b') (2 * niw_core b' + 1) = Ok b'.
Proof.
  move=> h1 h2 h3 h4 e. have [e1 [e2 [e3 [e4 [e5 e6]]]]] := @lfp_ok b lfp_niv len b' e.
  have p1 : (0 <= niv_core b')%Z by rewrite e1; case: Z.eqb_spec; lia.
  have hl : (0 <= len / 2)%Z by apply: Z.div_pos.
  have p2 : (0 <= niw_core b')%Z by rewrite e2; case: Z.eqb_spec; lia.
  rewrite /set_from_lfp. have -> : (niv_core b' =? -1)%Z = false by lia. rewrite Z.ltb_irrefl /=.
  have -> : (niw_core b' =? -1)%Z = false by lia.
  have -> : ((2 * niw_core b' + 1) / 2 = niw_core b')%Z by (symmetry; apply: (Z.div_unique _ _ _ 1); lia).
  rewrite Z.ltb_irrefl /=. case: Z.leb_spec => // h. have ha : (niv_asympt b <= 0)%Z by move: e4; case: Z.leb_spec; lia.
  move: e4. case: Z.leb_spec; last lia. move=> _ e4. rewrite /niv_full. case: b' e4 {e e1 e2 e3 e5 e6 p1 p2 h} => a b0 c f /= ->. f_equal. f_equal. change (c + b0 + a * 2 = b0 + c + 2 * a)%Z. lia.
Qed.
(** symmetrising a symmetric array does nothing *)
Lemma sym_same n (m : arr3) a : (2%:R : F) != 0 -> (0 < n)%Z -> shape3 m a n n ->
  (forall i j k, (0 <= i < a)%Z -> (0 <= j < n)%Z -> (0 <= k < n)%Z -> val3 m i j k = val3 m i k j) -> sym3 m = Ok m.
Proof.
  move=> h2 hn s H. have [r [e [sr vr]]] := sym3P hn s. rewrite e. congr Ok. apply: (shape3_ext sr s) => i j k hi hj hk.
  rewrite (val3_get sr) // (val3_get s) //. congr Some. rewrite vr // -(H i j k) //. have E x : x + x = 2%:R * x :> F by rewrite mulr_natl mulr2n. by rewrite E mul1r mulKf.
Qed.
End P.
