(** Elementwise array operations and the assembly of vertices (Model/VertexBuild.v). *)
From mathcomp Require Import all_ssreflect all_algebra.
From mathcomp.real_closed Require Import complex.
From Coq Require Import String ZArith Lia.
From Verif Require Import Base.PyBase Base.PyFacts Base.Arr Base.FieldTac Model.Matsubara Model.BrillouinZone Model.RankFiles Model.VertexBuild.
From Verif Require Import Spec.BZSpec Spec.RankSpec Spec.PairingSpec Proofs.MatsubaraP Proofs.BrillouinZoneP Proofs.IrrqP Proofs.RankMainP Proofs.TwoPointFillP.
Import GRing.Theory Num.Theory.
Set Implicit Arguments. Unset Strict Implicit. Unset Printing Implicit Defensive.
Local Open Scope Z_scope.

Lemma mapM_total A B (f : A -> res B) (P : Z -> B -> Prop) l : (forall i a, zget l i = Some a -> exists b, f a = Ok b /\ P i b) ->
  exists r, mapM f l = Ok r /\ zlen r = zlen l /\ forall i a, zget l i = Some a -> exists b, zget r i = Some b /\ f a = Ok b /\ P i b.
Proof.
  move=> H. have [r E] : exists r, mapM f l = Ok r.
    apply: mapM_zget_ok => x Hx. have [i [_ Hi]] := @In_zget _ l x Hx. have [b [Hb _]] := H _ _ Hi. by exists b.
  exists r. have [L G] := mapM_zget _ _ E. split=> //. split=> // i a Hi. have [b [Hb Ef]] := G _ _ Hi. exists b. split=> //. split=> //.
  have [b' [Ef' HP]] := H _ _ Hi. congruence.
Qed.
Lemma np1_get A B D (f : A -> B -> D) a b n : zlen a = n -> zlen b = n -> exists r, np_map2 f a b = Ok r /\ zlen r = n /\
  forall i x y, zget a i = Some x -> zget b i = Some y -> zget r i = Some (f x y).
Proof.
  move=> Ha Hb. rewrite /np_map2 Ha Hb Z.eqb_refl. eexists. split; first by []. split; first by rewrite zlen_map2 Ha Hb; lia.
  move=> i x y Ex Ey. by rewrite zget_map2 Ex Ey.
Qed.
Lemma get2_row A (a : list (list A)) n m i r : shape2 a n m -> zget a i = Some r -> zlen r = m.
Proof. move=> [_ H] E. apply: H. exact: (@zget_In _ _ i). Qed.
Lemma get3_row A (a : list (list (list A))) n m l i r : shape3 a n m l -> zget a i = Some r -> shape2 r m l.
Proof. move=> [_ H] E. apply: H. exact: (@zget_In _ _ i). Qed.
Lemma np2_get A B D (f : A -> B -> D) a b n m : shape2 a n m -> shape2 b n m -> exists r, np2d f a b = Ok r /\ shape2 r n m /\
  forall i j x y, get2 a i j = Some x -> get2 b i j = Some y -> get2 r i j = Some (f x y).
Proof.
  move=> Sa Sb. have [La _] := Sa. have [Lb _] := Sb. rewrite /np2d La Lb Z.eqb_refl.
  have [|r [E [L G]]] := @mapM_total _ _ (fun p : list A * list B => np_map2 f p.1 p.2) (fun i row => zlen row = m /\ forall j x y, get2 a i j = Some x -> get2 b i j = Some y -> zget row j = Some (f x y)) (List.combine a b).
  - move=> i p. rewrite zget_combine. case Ea: (zget a i) => [ra|] //. case Eb: (zget b i) => [rb|] // [<-] /=.
    have [r [Er [Lr Gr]]] := @np1_get _ _ _ f ra rb m (get2_row Sa Ea) (get2_row Sb Eb). exists r. split=> //. split=> // j x y.
    rewrite /get2 Ea Eb /=. exact: Gr.
  exists r. split; first exact: E. rewrite zlen_combine La Lb Z.min_id in L. split.
  - split=> // row Hrow. have [i [Hi Hr]] := @In_zget _ r row Hrow. rewrite L in Hi. have [ra Ea] := @zget_in_range _ a i ltac:(lia). have [rb Eb] := @zget_in_range _ b i ltac:(lia).
    have [row' [Hr' [_ [Hl _]]]] := G i (ra, rb) ltac:(by rewrite zget_combine Ea Eb). congruence.
  - move=> i j x y Hx Hy. move: (Hx) (Hy). rewrite /get2. case Ea: (zget a i) => [ra|] //. case Eb: (zget b i) => [rb|] // _ _.
    have [row' [Hr' [_ [_ HG]]]] := G i (ra, rb) ltac:(by rewrite zget_combine Ea Eb). rewrite Hr' /=. exact: HG.
Qed.
Lemma np3_get A B D (f : A -> B -> D) a b n m l : shape3 a n m l -> shape3 b n m l -> exists r, np3d f a b = Ok r /\ shape3 r n m l /\
  forall i j k x y, get3 a i j k = Some x -> get3 b i j k = Some y -> get3 r i j k = Some (f x y).
Proof.
  move=> Sa Sb. have [La _] := Sa. have [Lb _] := Sb. rewrite /np3d La Lb Z.eqb_refl.
  have [|r [E [L G]]] := @mapM_total _ _ (fun p : list (list A) * list (list B) => np2d f p.1 p.2) (fun i row => shape2 row m l /\ forall j k x y, get3 a i j k = Some x -> get3 b i j k = Some y -> get2 row j k = Some (f x y)) (List.combine a b).
  - move=> i p. rewrite zget_combine. case Ea: (zget a i) => [ra|] //. case Eb: (zget b i) => [rb|] // [<-] /=.
    have [r [Er [Lr Gr]]] := @np2_get _ _ _ f ra rb m l (get3_row Sa Ea) (get3_row Sb Eb). exists r. split=> //. split=> // j k x y.
    rewrite /get3 Ea Eb /=. exact: Gr.
  exists r. split; first exact: E. rewrite zlen_combine La Lb Z.min_id in L. split.
  - split=> // row Hrow. have [i [Hi Hr]] := @In_zget _ r row Hrow. rewrite L in Hi. have [ra Ea] := @zget_in_range _ a i ltac:(lia). have [rb Eb] := @zget_in_range _ b i ltac:(lia).
    have [row' [Hr' [_ [Hl _]]]] := G i (ra, rb) ltac:(by rewrite zget_combine Ea Eb). congruence.
  - move=> i j k x y Hx Hy. move: (Hx) (Hy). rewrite /get3. case Ea: (zget a i) => [ra|] //. case Eb: (zget b i) => [rb|] // _ _.
    have [row' [Hr' [_ [_ HG]]]] := G i (ra, rb) ltac:(by rewrite zget_combine Ea Eb). rewrite Hr' /=. exact: HG.
Qed.
Lemma get2_map A B (f : A -> B) m i j : get2 (List.map (List.map f) m) i j = option_map f (get2 m i j).
Proof. rewrite /get2 zget_map. case: (zget m i) => //= r. exact: zget_map. Qed.
Lemma lead_get A B D (f : A -> B -> D) x b n m l : zlen x = n -> shape3 b n m l -> exists r, np_lead f x b = Ok r /\ shape3 r n m l /\
  forall i j k c y, zget x i = Some c -> get3 b i j k = Some y -> get3 r i j k = Some (f c y).
Proof.
  move=> Lx Sb. have [Lb Hb] := Sb. rewrite /np_lead Lx Lb Z.eqb_refl. eexists. split; first by []. split.
  - split; first by rewrite zlen_map zlen_combine Lx Lb; lia. move=> r /List.in_map_iff [[c rb] [<- H]] /=. apply: shape2_map. apply: Hb. exact: List.in_combine_r H.
  - move=> i j k c y Hc. rewrite /get3 zget_map zget_combine Hc. case: (zget b i) => //= rb Hy. by rewrite get2_map Hy.
Qed.
Lemma unfold_get A nx ny nz syms g (irr : list A) : 0 < nx -> 0 < ny -> 0 < nz -> List.Forall known syms -> make_kgrid nx ny nz syms = Ok g -> zlen irr = nk_irr g ->
  exists l, map_irrk2fbz_list g irr = Ok l /\ zlen l = nx * ny * nz /\ forall i j, zget (irrk_inv g) i = Some j -> zget l i = zget irr j.
Proof.
  move=> Hx Hy Hz Hk Eg Hl. have Li := zlen_inv Hx Hy Hz Hk Eg.
  have Hj : forall i, List.In i (irrk_inv g) -> 0 <= i < zlen irr.
    move=> j Hj. have [i [Hi Hg]] := @In_zget _ _ _ Hj. rewrite Li in Hi. have [k [Hkm Ek]] := @lin_surj nx ny nz i Hy Hz Hi. subst i.
    have [j' [k0 [H1 [H2 _]]]] := @rep_equiv _ _ _ _ _ Hx Hy Hz Hk Eg _ Hkm. rewrite Hl. congruence.
  have [l El] := @take_total _ irr (irrk_inv g) Hj. exists l. split=> //. have [Ll Gl] := take_get _ _ El. split; first by rewrite Ll.
  move=> i j Hij. apply: (Gl _ _ Hij). exact: (proj1 (Hj _ (zget_In _ _ Hij))).
Qed.
Section Herm.
Variable R : rcfType.
Notation C := R[i].
Local Open Scope ring_scope.
Lemma herm_comb (a b : C) A B v vp : conjc a = a -> conjc b = b ->
  herm (crossed (fun w v v' => a * A w v v' + b * B w v v')) v vp = a * herm (crossed A) v vp + b * herm (crossed B) v vp.
Proof.
  move=> Ha Hb. pose cj := RMorphism (@conjc_is_rmorphism R). rewrite /herm /crossed -![conjc _]/(cj _) !rmorphN rmorphD !rmorphM /= Ha Hb.
  move: (conjc _) (conjc _) => y z. rewrite !mulrA -mulrDl. congr (_ / _). by rewrite !opprD !mulrDr !mulrN addrACA.
Qed.
Lemma herm_ladder (ur : C) X F1 F2 k v vp : conjc ur = ur -> (forall k w, X k (- w)%Z = conjc (X k w)) ->
  herm (crossed (ladder ur X F1 F2 k)) v vp = herm (crossed (F1 k)) v vp + (1 - ur * X k (v - vp)%Z) * herm (crossed (F2 k)) v vp.
Proof.
  move=> Hu HX. pose cj := RMorphism (@conjc_is_rmorphism R). rewrite /herm /crossed /ladder -![conjc _]/(cj _) !rmorphN rmorphD rmorphM rmorphB rmorphM rmorph1 /= Hu -HX.
  have -> : (- (vp - v))%Z = (v - vp)%Z by lia. move: (conjc _) (conjc _) => y z. rewrite !mulrA -mulrDl. congr (_ / _). by rewrite !opprD !mulrDr !mulrN addrACA.
Qed.
Lemma conj_half_nat n : conjc (n%:R / 2%:R : C) = n%:R / 2%:R.
Proof. pose cj := RMorphism (@conjc_is_rmorphism R). by rewrite -[conjc _]/(cj _) rmorphM fmorphV !rmorph_nat. Qed.
End Herm.
Section Pairing.
Variable R : rcfType.
Notation C := R[i].
Local Open Scope ring_scope.
Local Open Scope complex_scope.
Lemma pairing_point_ok (u : C) niw npp f1m f2m f1d f2d xm xd : (0 <= npp)%Z -> (2 * npp - 1 <= niw)%Z -> zlen xm = (2 * niw + 1)%Z -> zlen xd = (2 * niw + 1)%Z ->
  shape2 f1m (2 * npp) (2 * npp) -> shape2 f2m (2 * npp) (2 * npp) -> shape2 f1d (2 * npp) (2 * npp) -> shape2 f2d (2 * npp) (2 * npp) ->
  exists fs ft, pairing_point u npp f1m f2m f1d f2d xm xd = Ok (fs, ft) /\ shape2 fs (2 * npp) (2 * npp) /\ shape2 ft (2 * npp) (2 * npp) /\
    forall v vp a b c d x y, (- npp <= v < npp)%Z -> (- npp <= vp < npp)%Z ->
      get2 f1m (npp + v) (npp + vp) = Some a -> get2 f2m (npp + v) (npp + vp) = Some b -> get2 f1d (npp + v) (npp + vp) = Some c -> get2 f2d (npp + v) (npp + vp) = Some d ->
      zget xm (niw + (v - vp)) = Some x -> zget xd (niw + (v - vp)) = Some y ->
      get2 fs (npp + v) (npp + vp) = Some (3%:R / 2%:R * (a + (1 + u * x) * b) - 1 / 2%:R * (c + (1 - u * y) * d)) /\
      get2 ft (npp + v) (npp + vp) = Some (1 / 2%:R * (a + (1 + u * x) * b) + 1 / 2%:R * (c + (1 - u * y) * d)).
Proof.
  move=> Hp Hw Lm Ld S1m S2m S1d S2d. rewrite /pairing_point.
  have [cm [Ecm [Scm Gcm]]] := @reshape_chi_spec _ xm niw npp Lm Hp Hw. have [cd [Ecd [Scd Gcd]]] := @reshape_chi_spec _ xd niw npp Ld Hp Hw.
  rewrite Ecm [bind _ _]/=.
  have [t [Et [St Gt]]] := np2_get (fun chi f2 : C => (1 + u * chi) * f2) Scm S2m. rewrite Et [bind _ _]/=.
  have [fm [Efm [Sfm Gfm]]] := np2_get (fun f1 x : C => f1 + x) S1m St. rewrite Efm [bind _ _]/= Ecd [bind _ _]/=.
  have [t' [Et' [St' Gt']]] := np2_get (fun chi f2 : C => (1 - u * chi) * f2) Scd S2d. rewrite Et' [bind _ _]/=.
  have [fd [Efd [Sfd Gfd]]] := np2_get (fun f1 x : C => f1 + x) S1d St'. rewrite Efd [bind _ _]/=.
  have [fs [Efs [Sfs Gfs]]] := np2_get (fun m d : C => 3%:R / 2%:R * m - 1 / 2%:R * d) Sfm Sfd. rewrite Efs [bind _ _]/=.
  have [ft [Eft [Sft Gft]]] := np2_get (fun m d : C => 1 / 2%:R * m + 1 / 2%:R * d) Sfm Sfd. rewrite Eft [bind _ _]/=.
  exists fs, ft. split=> //. split=> //. split=> // v vp a b c d x y Hv Hvp Ha Hb Hc Hd Hx Hy.
  have Im := Gfm _ _ _ _ Ha (Gt _ _ _ _ (etrans (Gcm _ _ Hv Hvp) Hx) Hb). have Id := Gfd _ _ _ _ Hc (Gt' _ _ _ _ (etrans (Gcd _ _ Hv Hvp) Hy) Hd).
  split; [exact: Gfs|exact: Gft].
Qed.

Variables (nx ny nz : Z) (syms : list string) (g : kgrid).
Hypotheses (Hx : (0 < nx)%Z) (Hy : (0 < ny)%Z) (Hz : (0 < nz)%Z) (Hk : List.Forall known syms) (Eg : make_kgrid nx ny nz syms = Ok g).
Variable (irrq : list point).
Hypothesis Eq : get_irrq_list g = Ok irrq.
Notation half := (fun x : C => 1 / 2%:R * x).
Notation opp := (fun x : C => - x).
Notation add := (fun x y : C => x + y).
Lemma rep_of k : on_mesh nx ny nz k -> exists j q, zget (irrk_inv g) (lin ny nz k) = Some j /\ zget irrq j = Some q /\ equiv nx ny nz syms k q.
Proof. have [_ [_ [ir [E [_ [_ H]]]]]] := q_lists Hx Hy Hz Hk Eg. move: E. rewrite Eq => -[->]. exact: H. Qed.
Lemma len_irrq : zlen irrq = nk_irr g.
Proof. have [_ [_ [ir [E [L _]]]]] := q_lists Hx Hy Hz Hk Eg. move: E. by rewrite Eq => -[->]. Qed.

Lemma pairing_end_to_end (c : cfg) (d : vdata C) p path name fs0 todo sched s (u : C) niwx chim chid F1m F2m F1d F2d Xm Xd :
  cfg_ok c -> data_ok c d (nk_irr g) -> (0 < p)%Z -> (do_vertex c = true -> (0 < niv_core c)%Z) ->
  written opp c d path name (nk_irr g) p fs0 todo sched s -> do_pairing c = true ->
  holds_values (f1_magn d) irrq (niw_core c) (niv_core c) F1m -> holds_values (f2_magn d) irrq (niw_core c) (niv_core c) F2m ->
  holds_values (f1_dens d) irrq (niw_core c) (niv_core c) F1d -> holds_values (f2_dens d) irrq (niw_core c) (niv_core c) F2d ->
  point_symmetric nx ny nz syms F1m -> point_symmetric nx ny nz syms F2m -> point_symmetric nx ny nz syms F1d -> point_symmetric nx ny nz syms F2d ->
  shape2 chim (nx * ny * nz) (2 * niwx + 1) -> shape2 chid (nx * ny * nz) (2 * niwx + 1) -> (2 * niv_pp c - 1 <= niwx)%Z ->
  (forall k w, on_mesh nx ny nz k -> (- niwx <= w <= niwx)%Z -> get2 chim (lin ny nz k) (niwx + w) = Some (Xm k w) /\ get2 chid (lin ny nz k) (niwx + w) = Some (Xd k w)) ->
  (forall k w, Xm k (- w)%Z = conjc (Xm k w)) -> (forall k w, Xd k (- w)%Z = conjc (Xd k w)) -> conjc u = u ->
  exists f1m f2m f1d f2d r,
    [/\ load_pairing 0 add half (@conjc R) "f1_magn" (j_fs s) path name p (nk_irr g) (niv_pp c) = Ok f1m, load_pairing 0 add half (@conjc R) "f2_magn" (j_fs s) path name p (nk_irr g) (niv_pp c) = Ok f2m,
     load_pairing 0 add half (@conjc R) "f1_dens" (j_fs s) path name p (nk_irr g) (niv_pp c) = Ok f1d, load_pairing 0 add half (@conjc R) "f2_dens" (j_fs s) path name p (nk_irr g) (niv_pp c) = Ok f2d &
     build_pairing_vertex g u (niv_pp c) f1m f2m f1d f2d chim chid = Ok r] /\ zlen r = (nx * ny * nz)%Z /\
    forall k, on_mesh nx ny nz k -> exists fs ft, zget r (lin ny nz k) = Some (fs, ft) /\ shape2 fs (2 * niv_pp c) (2 * niv_pp c) /\ shape2 ft (2 * niv_pp c) (2 * niv_pp c) /\
      forall v vp, (- niv_pp c <= v < niv_pp c)%Z -> (- niv_pp c <= vp < niv_pp c)%Z ->
        get2 fs (niv_pp c + v) (niv_pp c + vp) = Some (herm (crossed (fun w v v' => 3%:R / 2%:R * ladder (- u) Xm F1m F2m k w v v' - 1 / 2%:R * ladder u Xd F1d F2d k w v v')) v vp) /\
        get2 ft (niv_pp c + v) (niv_pp c + vp) = Some (herm (crossed (fun w v v' => 1 / 2%:R * ladder (- u) Xm F1m F2m k w v v' + 1 / 2%:R * ladder u Xd F1d F2d k w v v')) v vp).
Proof.
  move=> Hc Hd Hp Hv Hw Hdo V1m V2m V1d V2d P1m P2m P1d P2d Sm Sd Hb GX Cm Cd Cu.
  have Hn : (0 <= nk_irr g)%Z by rewrite -len_irrq; exact: zlen_nonneg.
  have Hpp : (0 <= niv_pp c)%Z /\ (2 * niv_pp c - 1 <= niw_core c)%Z /\ (niv_pp c <= niv_core c)%Z by move: Hc => [? [? [-> _]]]; lia.
  have load : forall ds a F, component d ds = Some a -> holds_values a irrq (niw_core c) (niv_core c) F -> point_symmetric nx ny nz syms F ->
    exists l m, load_pairing 0 add half (@conjc R) ds (j_fs s) path name p (nk_irr g) (niv_pp c) = Ok l /\ map_irrk2fbz_list g l = Ok m /\ zlen m = (nx * ny * nz)%Z /\
      forall k, on_mesh nx ny nz k -> exists row, zget m (lin ny nz k) = Some row /\ shape2 row (2 * niv_pp c) (2 * niv_pp c) /\
        forall v vp, (- niv_pp c <= v < niv_pp c)%Z -> (- niv_pp c <= vp < niv_pp c)%Z -> get2 row (niv_pp c + v) (niv_pp c + vp) = Some (herm (crossed (F k)) v vp).
    move=> ds a F Ea VF PF.
    have [l [El [Sl Gl]]] := @pairing_roundtrip _ _ _ Hc _ _ _ Hd Hn Hp Hv _ _ _ _ _ _ Hw _ _ Ea 0 add half (@conjc R) (fun x y z => addrA x y z) (fun x y => addrC x y) (fun x => addr0 x) Hdo.
    have [Ll Hrow] := Sl. have [m [Em [Lm Gm]]] := unfold_get Hx Hy Hz Hk Eg Ll. exists l, m. split=> //. split=> //. split=> // k Hkm.
    have [j [q [Ej [Ejq Ekq]]]] := rep_of Hkm. have Hj := zget_some_range _ _ Ejq. rewrite len_irrq in Hj.
    have [row Er] := @zget_in_range _ l j ltac:(rewrite Ll; lia). exists row. split; first by rewrite (Gm _ _ Ej). split; first by apply: Hrow; exact: (@zget_In _ _ j).
    move=> v vp H1 H2. have [x [y [Ex [Ey E]]]] := Gl j v vp ltac:(lia) H1 H2. move: E. rewrite /get3 Er /= => ->.
    rewrite (VF _ _ _ _ _ Ejq) in Ex; try lia. rewrite (VF _ _ _ _ _ Ejq) in Ey; try lia. case: Ex => <-. case: Ey => <-.
    rewrite -(@equiv_invariant _ nx ny nz syms F PF k q Ekq) /herm /crossed. f_equal. set A := F k _ _ _. set B := F k _ _ _.
    rewrite mulrDl. congr (_ + _); by rewrite mulrC mul1r.
  have [f1m [m1m [E1m [U1m [L1m G1m]]]]] := load "f1_magn"%string _ _ erefl V1m P1m. have [f2m [m2m [E2m [U2m [L2m G2m]]]]] := load "f2_magn"%string _ _ erefl V2m P2m.
  have [f1d [m1d [E1d [U1d [L1d G1d]]]]] := load "f1_dens"%string _ _ erefl V1d P1d. have [f2d [m2d [E2d [U2d [L2d G2d]]]]] := load "f2_dens"%string _ _ erefl V2d P2d.
  exists f1m, f2m, f1d, f2d. rewrite /build_pairing_vertex U1m U2m U1d U2d [bind _ _]/=.
  have [Gx [Gy Gz]] := grid_dims Hx Hy Hz Hk Eg. have Et : nk_tot g = (nx * ny * nz)%Z by rewrite /nk_tot Gx Gy Gz.
  pose Q i (ft : list (list C) * list (list C)) := forall k, on_mesh nx ny nz k -> i = lin ny nz k -> shape2 ft.1 (2 * niv_pp c) (2 * niv_pp c) /\ shape2 ft.2 (2 * niv_pp c) (2 * niv_pp c) /\
     forall v vp, (- niv_pp c <= v < niv_pp c)%Z -> (- niv_pp c <= vp < niv_pp c)%Z ->
        get2 ft.1 (niv_pp c + v) (niv_pp c + vp) = Some (herm (crossed (fun w v v' => 3%:R / 2%:R * ladder (- u) Xm F1m F2m k w v v' - 1 / 2%:R * ladder u Xd F1d F2d k w v v')) v vp) /\
        get2 ft.2 (niv_pp c + v) (niv_pp c + vp) = Some (herm (crossed (fun w v v' => 1 / 2%:R * ladder (- u) Xm F1m F2m k w v v' + 1 / 2%:R * ladder u Xd F1d F2d k w v v')) v vp).
  set body := (X in mapM X _). have [|r [Er [Lr Gr]]] := @mapM_total _ _ body Q (range (nk_tot g)); last first.
    exists r. split; first by split. split; first by rewrite Lr /range zlen_arange Et; lia.
    move=> k Hkm. have Hr := @lin_range _ _ _ _ Hkm. have [[fs ft] [Ef [_ HQ]]] := Gr (lin ny nz k) (lin ny nz k) ltac:(rewrite /range Et zget_arange; [f_equal; lia|lia]).
    exists fs, ft. split=> //. exact: (HQ k Hkm erefl).
  move=> i a. rewrite /range => Ha. have Hi := zget_some_range _ _ Ha. rewrite zlen_arange Et in Hi. rewrite zget_arange in Ha; last by rewrite Et; lia.
  have Ei : a = i by case: Ha => <-; lia. subst a. have [k [Hkm Ek]] := @lin_surj nx ny nz i Hy Hz ltac:(lia). subst i.
  have [r1m [Z1m [S1m T1m]]] := G1m k Hkm. have [r2m [Z2m [S2m T2m]]] := G2m k Hkm. have [r1d [Z1d [S1d T1d]]] := G1d k Hkm. have [r2d [Z2d [S2d T2d]]] := G2d k Hkm.
  have [Lcm _] := Sm. have [Lcd _] := Sd. have [xm Exm] := @zget_in_range _ chim (lin ny nz k) ltac:(lia). have [xd Exd] := @zget_in_range _ chid (lin ny nz k) ltac:(lia).
  have [fs [ft [Ef [Sfs [Sft Gf]]]]] := @pairing_point_ok u niwx (niv_pp c) r1m r2m r1d r2d xm xd ltac:(lia) Hb (get2_row Sm Exm) (get2_row Sd Exd) S1m S2m S1d S2d.
  exists (fs, ft). split.
  - rewrite /body. have [Hl _] := @lin_range _ _ _ _ Hkm.
    rewrite (py_get_nonneg _ Hl Z1m) [bind _ _]/= (py_get_nonneg _ Hl Z2m) [bind _ _]/= (py_get_nonneg _ Hl Z1d) [bind _ _]/= (py_get_nonneg _ Hl Z2d) [bind _ _]/= (py_get_nonneg _ Hl Exm) [bind _ _]/= (py_get_nonneg _ Hl Exd) [bind _ _]/=. exact: Ef.
  - move=> k' Hk' El. have -> : k' = k := @lin_inj nx ny nz k' k Hk' Hkm (esym El). split=> //. split=> // v vp H1 H2.
    have [Gm Gd] := GX k (v - vp)%Z Hkm ltac:(lia). rewrite /get2 Exm /= in Gm. rewrite /get2 Exd /= in Gd.
    have [-> ->] := Gf _ _ _ _ _ _ _ _ H1 H2 (T1m _ _ H1 H2) (T2m _ _ H1 H2) (T1d _ _ H1 H2) (T2d _ _ H1 H2) Gm Gd.
    have Eneg : forall al be (A B : Z -> Z -> Z -> C), herm (crossed (fun w v v' => al * A w v v' - be * B w v v')) v vp = herm (crossed (fun w v v' => al * A w v v' + (- be) * B w v v')) v vp.
      by move=> al be A B; rewrite /herm /crossed !mulNr.
    have Cn : conjc (- u) = - u by rewrite -[conjc _]/((RMorphism (@conjc_is_rmorphism R)) _) rmorphN /= Cu.
    have Eo : forall x : C, 1 - - u * x = 1 + u * x by move=> x; rewrite mulNr opprK.
    have C1 : conjc (1 / 2%:R : C) = 1 / 2%:R := conj_half_nat R 1.
    have Ch : conjc (- (1 / 2%:R) : C) = - (1 / 2%:R) by etransitivity; [exact: (rmorphN (RMorphism (@conjc_is_rmorphism R)) (1 / 2%:R))|congr (- _)].
    rewrite Eneg !herm_comb ?(conj_half_nat R 3) ?C1 ?Ch // !herm_ladder // !Eo. split; by rewrite ?mulNr.
Qed.
End Pairing.
Section Optics.
Variable R : rcfType.
Notation C := R[i].
Local Open Scope ring_scope.
Lemma f_cond_point_ok (u : C) niw nw n1 n2 f1m f2m f1d f2d xm xd : (0 <= nw <= niw)%Z -> zlen xm = (2 * niw + 1)%Z -> zlen xd = (2 * niw + 1)%Z ->
  shape3 f1m (2 * nw + 1) n1 n2 -> shape3 f2m (2 * nw + 1) n1 n2 -> shape3 f1d (2 * nw + 1) n1 n2 -> shape3 f2d (2 * nw + 1) n1 n2 ->
  exists r, f_cond_point u nw f1m f2m f1d f2d xm xd = Ok r /\ shape3 r (2 * nw + 1) n1 n2 /\
    forall w i j a b c d x y, (- nw <= w <= nw)%Z -> get3 f1m (nw + w) i j = Some a -> get3 f2m (nw + w) i j = Some b -> get3 f1d (nw + w) i j = Some c -> get3 f2d (nw + w) i j = Some d ->
      zget xm (niw + w) = Some x -> zget xd (niw + w) = Some y ->
      get3 r (nw + w) i j = Some (- 1 / 2%:R * (c + (1 - u * y) * d) - 3%:R / 2%:R * (a + (1 + u * x) * b)).
Proof.
  move=> Hw Lm Ld S1m S2m S1d S2d. rewrite /f_cond_point.
  have [Lcm Gcm] := cut_w_spec _ Lm Hw. have [Lcd Gcd] := cut_w_spec _ Ld Hw.
  have [t [Et [St Gt]]] := lead_get (fun chi f2 : C => (1 + u * chi) * f2) Lcm S2m. rewrite Et [bind _ _]/=.
  have [fm [Efm [Sfm Gfm]]] := np3_get (fun f1 x : C => f1 + x) S1m St. rewrite Efm [bind _ _]/=.
  have [t' [Et' [St' Gt']]] := lead_get (fun chi f2 : C => (1 - u * chi) * f2) Lcd S2d. rewrite Et' [bind _ _]/=.
  have [fd [Efd [Sfd Gfd]]] := np3_get (fun f1 x : C => f1 + x) S1d St'. rewrite Efd [bind _ _]/=.
  have [r [Er [Sr Gr]]] := np3_get (fun d m : C => - 1 / 2%:R * d - 3%:R / 2%:R * m) Sfd Sfm. exists r. split=> //. split=> // w i j a b c d x y Hw' Ha Hb Hc Hd Hx Hy.
  exact: (Gr _ _ _ _ _ (Gfd _ _ _ _ _ Hc (Gt' _ _ _ _ _ (etrans (Gcd _ Hw') Hy) Hd)) (Gfm _ _ _ _ _ Ha (Gt _ _ _ _ _ (etrans (Gcm _ Hw') Hx) Hb))).
Qed.
Variables (nx ny nz : Z) (syms : list string) (g : kgrid).
Hypotheses (Hx : (0 < nx)%Z) (Hy : (0 < ny)%Z) (Hz : (0 < nz)%Z) (Hk : List.Forall known syms) (Eg : make_kgrid nx ny nz syms = Ok g).
Variable (irrq : list point).
Hypothesis Eq : get_irrq_list g = Ok irrq.
Notation opp := (fun x : C => - x).
Lemma optics_end_to_end (c : cfg) (d : vdata C) p path name fs0 todo sched s (u : C) niwx chim chid F1m F2m F1d F2d Xm Xd :
  cfg_ok c -> data_ok c d (nk_irr g) -> (0 < p)%Z -> (do_vertex c = true -> (0 < niv_core c)%Z) ->
  written opp c d path name (nk_irr g) p fs0 todo sched s -> do_vertex c = true ->
  holds_values (f1_magn d) irrq (niw_core c) (niv_core c) F1m -> holds_values (f2_magn d) irrq (niw_core c) (niv_core c) F2m ->
  holds_values (f1_dens d) irrq (niw_core c) (niv_core c) F1d -> holds_values (f2_dens d) irrq (niw_core c) (niv_core c) F2d ->
  point_symmetric nx ny nz syms F1m -> point_symmetric nx ny nz syms F2m -> point_symmetric nx ny nz syms F1d -> point_symmetric nx ny nz syms F2d ->
  shape2 chim (nx * ny * nz) (2 * niwx + 1) -> shape2 chid (nx * ny * nz) (2 * niwx + 1) -> (niw_vert c <= niwx)%Z ->
  (forall k w, on_mesh nx ny nz k -> (- niwx <= w <= niwx)%Z -> get2 chim (lin ny nz k) (niwx + w) = Some (Xm k w) /\ get2 chid (lin ny nz k) (niwx + w) = Some (Xd k w)) ->
  exists f1m f2m f1d f2d r,
    [/\ load_optics 0 "f1_magn" (j_fs s) path name p (nk_irr g) (niw_vert c) (niw_cond c) (niv_vert c) = Ok f1m, load_optics 0 "f2_magn" (j_fs s) path name p (nk_irr g) (niw_vert c) (niw_cond c) (niv_vert c) = Ok f2m,
     load_optics 0 "f1_dens" (j_fs s) path name p (nk_irr g) (niw_vert c) (niw_cond c) (niv_vert c) = Ok f1d, load_optics 0 "f2_dens" (j_fs s) path name p (nk_irr g) (niw_vert c) (niw_cond c) (niv_vert c) = Ok f2d &
     build_f_cond g u (niw_vert c) f1m f2m f1d f2d chim chid = Ok r] /\ zlen r = (nx * ny * nz)%Z /\
    forall k, on_mesh nx ny nz k -> exists f, zget r (lin ny nz k) = Some f /\ shape3 f (2 * niw_vert c + 1) (niw_cond c + 1) (2 * niv_vert c) /\
      (forall w wc v, (0 <= w <= niw_vert c)%Z -> (0 <= wc <= niw_cond c)%Z -> (- niv_vert c <= v < niv_vert c)%Z ->
        get3 f (niw_vert c + w) wc (niv_vert c + v) = Some (- 1 / 2%:R * ladder u Xd F1d F2d k w v (v - wc) - 3%:R / 2%:R * ladder (- u) Xm F1m F2m k w v (v - wc))) /\
      (forall w wc v, (- niw_vert c <= w < 0)%Z -> (0 <= wc <= niw_cond c)%Z -> (- niv_vert c <= v < niv_vert c)%Z -> get3 f (niw_vert c + w) wc (niv_vert c + v) = Some 0).
Proof.
  move=> Hc Hd Hp Hv Hw Hdo V1m V2m V1d V2d P1m P2m P1d P2d Sm Sd Hb GX.
  have Hn : (0 <= nk_irr g)%Z by rewrite -(len_irrq Hx Hy Hz Hk Eg Eq); exact: zlen_nonneg.
  have Hcc : (0 <= niw_vert c <= niw_core c)%Z /\ (0 <= niw_cond c <= niv_core c)%Z /\ niv_vert c = (niv_core c - niw_cond c)%Z by move: Hc => [_ [_ [_ [? [? ?]]]]].
  have load : forall ds a F, component d ds = Some a -> holds_values a irrq (niw_core c) (niv_core c) F -> point_symmetric nx ny nz syms F ->
    exists l m, load_optics 0 ds (j_fs s) path name p (nk_irr g) (niw_vert c) (niw_cond c) (niv_vert c) = Ok l /\ map_irrk2fbz_list g l = Ok m /\ zlen m = (nx * ny * nz)%Z /\
      forall k, on_mesh nx ny nz k -> exists row, zget m (lin ny nz k) = Some row /\ shape3 row (2 * niw_vert c + 1) (niw_cond c + 1) (2 * niv_vert c) /\
        forall w wc v, (- niw_vert c <= w <= niw_vert c)%Z -> (0 <= wc <= niw_cond c)%Z -> (- niv_vert c <= v < niv_vert c)%Z ->
          get3 row (niw_vert c + w) wc (niv_vert c + v) = Some (if (0 <=? w)%Z then F k w v (v - wc)%Z else 0).
    move=> ds a F Ea VF PF.
    have [l [El [Sl [Gl Gn]]]] := @optics_roundtrip_shape _ _ _ Hc _ _ _ Hd Hn Hp Hv _ _ _ _ _ _ Hw _ _ Ea 0 Hdo.
    have [Ll Hrow] := Sl. have [m [Em [Lm Gm]]] := unfold_get Hx Hy Hz Hk Eg Ll. exists l, m. split=> //. split=> //. split=> // k Hkm.
    have [j [q [Ej [Ejq Ekq]]]] := rep_of Hx Hy Hz Hk Eg Eq Hkm. have Hj := zget_some_range _ _ Ejq. rewrite (len_irrq Hx Hy Hz Hk Eg Eq) in Hj.
    have [row Er] := @zget_in_range _ l j ltac:(rewrite Ll; lia). exists row. split; first by rewrite (Gm _ _ Ej). split; first by apply: Hrow; exact: (@zget_In _ _ j).
    move=> w wc v H1 H2 H3. case: (Z.leb_spec 0 w) => H0.
    - have := Gl j w wc v ltac:(lia) ltac:(lia) H2 H3. rewrite {1}/get4 Er /= => ->. rewrite (VF _ _ _ _ _ Ejq); try lia. by rewrite -(@equiv_invariant _ nx ny nz syms F PF k q Ekq).
    - have := Gn j w wc (niv_vert c + v)%Z ltac:(lia) ltac:(lia) H2 ltac:(lia). by rewrite {1}/get4 Er.
  have [f1m [m1m [E1m [U1m [L1m G1m]]]]] := load "f1_magn"%string _ _ erefl V1m P1m. have [f2m [m2m [E2m [U2m [L2m G2m]]]]] := load "f2_magn"%string _ _ erefl V2m P2m.
  have [f1d [m1d [E1d [U1d [L1d G1d]]]]] := load "f1_dens"%string _ _ erefl V1d P1d. have [f2d [m2d [E2d [U2d [L2d G2d]]]]] := load "f2_dens"%string _ _ erefl V2d P2d.
  exists f1m, f2m, f1d, f2d. rewrite /build_f_cond U1m U2m U1d U2d [bind _ _]/=.
  have [Gx [Gy Gz]] := grid_dims Hx Hy Hz Hk Eg. have Et : nk_tot g = (nx * ny * nz)%Z by rewrite /nk_tot Gx Gy Gz.
  pose Q i (f : list (list (list C))) := forall k, on_mesh nx ny nz k -> i = lin ny nz k -> shape3 f (2 * niw_vert c + 1) (niw_cond c + 1) (2 * niv_vert c) /\
      (forall w wc v, (0 <= w <= niw_vert c)%Z -> (0 <= wc <= niw_cond c)%Z -> (- niv_vert c <= v < niv_vert c)%Z ->
        get3 f (niw_vert c + w) wc (niv_vert c + v) = Some (- 1 / 2%:R * ladder u Xd F1d F2d k w v (v - wc) - 3%:R / 2%:R * ladder (- u) Xm F1m F2m k w v (v - wc))) /\
      (forall w wc v, (- niw_vert c <= w < 0)%Z -> (0 <= wc <= niw_cond c)%Z -> (- niv_vert c <= v < niv_vert c)%Z -> get3 f (niw_vert c + w) wc (niv_vert c + v) = Some 0).
  set body := (X in mapM X _). have [|r [Er [Lr Gr]]] := @mapM_total _ _ body Q (range (nk_tot g)); last first.
    exists r. split; first by split. split; first by rewrite Lr /range zlen_arange Et; lia.
    move=> k Hkm. have Hr := @lin_range _ _ _ _ Hkm. have [f [Ef [_ HQ]]] := Gr (lin ny nz k) (lin ny nz k) ltac:(rewrite /range Et zget_arange; [f_equal; lia|lia]).
    exists f. split=> //. exact: (HQ k Hkm erefl).
  move=> i a. rewrite /range => Ha. have Hi := zget_some_range _ _ Ha. rewrite zlen_arange Et in Hi. rewrite zget_arange in Ha; last by rewrite Et; lia.
  have Ei : a = i by case: Ha => <-; lia. subst a. have [k [Hkm Ek]] := @lin_surj nx ny nz i Hy Hz ltac:(lia). subst i.
  have [r1m [Z1m [S1m T1m]]] := G1m k Hkm. have [r2m [Z2m [S2m T2m]]] := G2m k Hkm. have [r1d [Z1d [S1d T1d]]] := G1d k Hkm. have [r2d [Z2d [S2d T2d]]] := G2d k Hkm.
  have [Lcm _] := Sm. have [Lcd _] := Sd. have [xm Exm] := @zget_in_range _ chim (lin ny nz k) ltac:(lia). have [xd Exd] := @zget_in_range _ chid (lin ny nz k) ltac:(lia).
  have [f [Ef [Sf Gf]]] := @f_cond_point_ok u niwx (niw_vert c) _ _ r1m r2m r1d r2d xm xd ltac:(lia) (get2_row Sm Exm) (get2_row Sd Exd) S1m S2m S1d S2d.
  exists f. split.
  - rewrite /body. have [Hl _] := @lin_range _ _ _ _ Hkm.
    rewrite (py_get_nonneg _ Hl Z1m) [bind _ _]/= (py_get_nonneg _ Hl Z2m) [bind _ _]/= (py_get_nonneg _ Hl Z1d) [bind _ _]/= (py_get_nonneg _ Hl Z2d) [bind _ _]/= (py_get_nonneg _ Hl Exm) [bind _ _]/= (py_get_nonneg _ Hl Exd) [bind _ _]/=. exact: Ef.
  - move=> k' Hk' El. have -> : k' = k := @lin_inj nx ny nz k' k Hk' Hkm (esym El). split=> //. split=> w wc v H0 H2 H3.
    + have H1 : (- niw_vert c <= w <= niw_vert c)%Z by lia.
      have [Gm Gd] := GX k w Hkm ltac:(lia). rewrite /get2 Exm /= in Gm. rewrite /get2 Exd /= in Gd.
      rewrite (Gf _ _ _ _ _ _ _ _ _ H1 (T1m _ _ _ H1 H2 H3) (T2m _ _ _ H1 H2 H3) (T1d _ _ _ H1 H2 H3) (T2d _ _ _ H1 H2 H3) Gm Gd).
      have -> : (0 <=? w)%Z = true by lia. have Eo : forall x : C, 1 - - u * x = 1 + u * x by move=> x; rewrite mulNr opprK. by rewrite /ladder Eo.
    + have H1 : (- niw_vert c <= w <= niw_vert c)%Z by lia.
      have [Gm Gd] := GX k w Hkm ltac:(lia). rewrite /get2 Exm /= in Gm. rewrite /get2 Exd /= in Gd.
      rewrite (Gf _ _ _ _ _ _ _ _ _ H1 (T1m _ _ _ H1 H2 H3) (T2m _ _ _ H1 H2 H3) (T1d _ _ _ H1 H2 H3) (T2d _ _ _ H1 H2 H3) Gm Gd).
      have -> : (0 <=? w)%Z = false by lia. by rewrite !mulr0 !addr0 !mulr0 subr0.
Qed.
End Optics.
