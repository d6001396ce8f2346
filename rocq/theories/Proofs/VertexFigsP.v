(** Proofs for C119. *)
From Coq Require Import ZArith Reals List Lia Lra String.
From Verif Require Import Base.PyBase Base.PyFacts Base.Arr Model.Matsubara Model.BrillouinZone Model.SwkAnalysis Model.VertexFigs Spec.VertexFigsSpec.
From Verif Require Import Proofs.MatsubaraP Proofs.Swk3P Proofs.FigMapsP.
Import ListNotations.
Local Open Scope R_scope.

Lemma fourpoint_ok (d : list (list (R * R))) c (G : Z -> Z -> R * R) : (1 <= c)%Z -> shape2 d (2 * c) (2 * c) -> (forall v v', (- c <= v < c)%Z -> (- c <= v' < c)%Z -> get2 d (c + v) (c + v') = Some (G v v')) ->
  exists re im, plot_fourpoint_nu_nup d = Ok (re, im) /\ shows re c (fun v v' => fst (G v v')) /\ shows im c (fun v v' => snd (G v v')).
Proof.
  intros C [L Sh] V. assert (D : dim1 d = (2 * c)%Z). { destruct d as [|r d']; [rewrite zlen_nil in L; lia|]. apply Sh. now left. }
  assert (One : forall g : R * R -> R, exists p, pcolormesh (map IZR (vn c 0 false)) (map IZR (vn c 0 false)) (map (map g) d) = Ok p /\ shows p c (fun v v' => g (G v v'))).
  { intros g. destruct (@pcolormesh_ok (map IZR (vn c 0 false)) (map IZR (vn c 0 false)) (map (map g) d) (2 * c) (2 * c)) as (p & E & P).
    - split; [now rewrite zlen_map|]. intros r I. apply in_map_iff in I. destruct I as (r0 & <- & I0). rewrite zlen_map. auto.
    - now rewrite zlen_map, zlen_vn by lia.
    - now rewrite zlen_map, zlen_vn by lia.
    - exists p. split; [assumption|]. intros x y z. rewrite P. split.
      + intros (i & j & X & Y & Z0). rewrite zget_map in X, Y. assert (Rj : (0 <= j < 2 * c)%Z). { destruct (zget (vn c 0 false) j) eqn:Q; [|discriminate]. pose proof (@zget_some_range _ _ _ _ Q) as B. rewrite zlen_vn in B by lia. lia. }
        assert (Ri : (0 <= i < 2 * c)%Z). { destruct (zget (vn c 0 false) i) eqn:Q; [|discriminate]. pose proof (@zget_some_range _ _ _ _ Q) as B. rewrite zlen_vn in B by lia. lia. }
        rewrite vn_get in X by lia. rewrite vn_get in Y by lia. cbn in X, Y. inversion X. inversion Y. rewrite get2_map in Z0. specialize (V (i - c)%Z (j - c)%Z ltac:(lia) ltac:(lia)). replace (c + (i - c))%Z with i in V by lia. replace (c + (j - c))%Z with j in V by lia. rewrite V in Z0. cbn in Z0. inversion Z0.
        exists (i - c)%Z, (j - c)%Z. rewrite !Z.add_0_r. repeat split; try lia.
      + intros (v & v' & Rv & Rv' & -> & -> & ->). exists (c + v)%Z, (c + v')%Z. rewrite !zget_map, !vn_get by lia. rewrite get2_map, V by assumption. cbn. repeat split; do 2 f_equal; lia. }
  unfold plot_fourpoint_nu_nup. rewrite D. replace (2 * c / 2)%Z with c by (rewrite Z.mul_comm, Z.div_mul; lia).
  destruct (One fst) as (re & Ere & Vre). destruct (One snd) as (im & Eim & Vim). rewrite Ere. cbn [bind]. rewrite Eim. cbn [bind]. exists re, im. auto.
Qed.
Lemma pick_w (n iwn : Z) : (- n <= iwn <= n)%Z -> map snd (filter (fun p => Z.eqb (fst p) iwn) (combine (wn n 0 false) (arange 0 (zlen (wn n 0 false))))) = [(n + iwn)%Z].
Proof.
  intros R. unfold wn. rewrite zlen_arange. replace (Z.max 0 (n + 0 + 1 - (- n + 0))) with (2 * n + 1)%Z by lia.
  assert (G : forall k a b, (0 <= k)%Z -> map snd (filter (fun p => Z.eqb (fst p) iwn) (combine (arange a (a + k)) (arange b (b + k)))) = if (Z.leb a iwn && Z.ltb iwn (a + k))%bool then [(b + (iwn - a))%Z] else []).
  { intros k a b K. revert a b. pattern k. apply natlike_ind; [| |assumption].
    - intros a b. rewrite !arange_empty by lia. cbn. destruct (Z.leb_spec a iwn), (Z.ltb_spec iwn (a + 0)); cbn; try reflexivity; lia.
    - intros x Hx IH a b. rewrite (@arange_cons a), (@arange_cons b) by lia. replace (a + Z.succ x)%Z with (a + 1 + x)%Z by lia. replace (b + Z.succ x)%Z with (b + 1 + x)%Z by lia. cbn [combine filter fst].
      specialize (IH (a + 1)%Z (b + 1)%Z). destruct (Z.eqb_spec a iwn) as [E|E]; cbn [map snd]; rewrite IH; destruct (Z.leb_spec a iwn), (Z.leb_spec (a + 1) iwn), (Z.ltb_spec iwn (a + 1 + x)); cbn; try lia; try reflexivity; try (f_equal; lia). }
  specialize (G (2 * n + 1)%Z (- n + 0)%Z 0%Z ltac:(lia)). replace (- n + 0 + (2 * n + 1))%Z with (n + 0 + 1)%Z in G by lia. rewrite Z.add_0_l in G. rewrite G.
  destruct (Z.leb_spec (- n + 0) iwn), (Z.ltb_spec iwn (n + 0 + 1)); cbn [andb]; try lia. f_equal. lia.
Qed.
Lemma in_wn n iwn : existsb (Z.eqb iwn) (wn n 0 false) = true <-> (- n <= iwn <= n)%Z.
Proof.
  rewrite existsb_exists. unfold wn. split.
  - intros (x & I & E). apply Z.eqb_eq in E. subst x. apply In_arange in I. lia.
  - intros R. exists iwn. split; [apply In_arange; lia|apply Z.eqb_refl].
Qed.
Lemma half1 n : ((2 * n + 1) / 2 = n)%Z.
Proof. symmetry. apply Z.div_unique with 1%Z; lia. Qed.
Definition shown_range (m niv : Z) : Z := if (niv =? -1)%Z then m else niv.
Lemma plot_ok mat n m F iwn niv : vertex_of mat n m F -> (- n <= iwn <= n)%Z -> (1 <= shown_range m niv <= m)%Z ->
  exists re im, plot mat iwn niv = Ok (re, im) /\ shows re (shown_range m niv) (fun v v' => fst (F iwn v v')) /\ shows im (shown_range m niv) (fun v v' => snd (F iwn v v')).
Proof.
  intros [[L Sh] V] Ri Rc. unfold plot. rewrite L, half1. rewrite (proj2 (in_wn n iwn) Ri). cbn [negb]. rewrite pick_w by assumption. cbn [py_get]. rewrite (@py_get_nonneg _ [(n + iwn)%Z] 0 (n + iwn)%Z ltac:(lia) eq_refl). cbn [bind].
  destruct (@zget_in_range _ mat (n + iwn) ltac:(lia)) as [p Ep]. rewrite (@py_get_nonneg _ mat (n + iwn) p ltac:(lia) Ep). cbn [bind]. pose proof (Sh p (zget_In _ _ Ep)) as Sp.
  assert (Vp : forall v v', (- m <= v < m)%Z -> (- m <= v' < m)%Z -> get2 p (m + v) (m + v') = Some (F iwn v v')). { intros v v' Rv Rv'. specialize (V iwn v v' Ri Rv Rv'). unfold get3 in V. rewrite Ep in V. exact V. }
  assert (E : cut_v_2 p niv = cut_v_2 p (shown_range m niv)).
  { unfold shown_range. destruct (Z.eqb_spec niv (-1)) as [->|]; [|reflexivity]. unfold cut_v_2. destruct Sp as [Lp Sr].
    assert (M : map (fun row : list (R * R) => cut_v_1d row (-1)) p = map (fun row => cut_v_1d row m) p). { apply map_ext_in. intros r I. rewrite (@cut_v_minus_one _ r m) by auto. rewrite (@cut_v_full _ r m) by auto. reflexivity. }
    rewrite M. rewrite (@cut_v_minus_one _ _ m) by now rewrite zlen_map. rewrite (@cut_v_full _ _ m) by now rewrite zlen_map. reflexivity. }
  rewrite E. destruct (@cut_v_2_spec _ p m (shown_range m niv) Sp ltac:(lia)) as [S2 V2]. apply fourpoint_ok; [lia|assumption|]. intros v v' Rv Rv'. rewrite V2 by assumption. apply Vp; lia.
Qed.
Lemma plot_outside (mat : vertex) n iwn niv : zlen mat = (2 * n + 1)%Z -> ~ (- n <= iwn <= n)%Z -> plot mat iwn niv = Raise AssertionError.
Proof.
  intros L N. unfold plot. rewrite L, half1. destruct (existsb (Z.eqb iwn) (wn n 0 false)) eqn:E; [apply in_wn in E; contradiction|reflexivity].
Qed.
