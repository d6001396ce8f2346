(** The lattice Schwinger-Dyson sum over the whole mesh: local limit, point symmetries, conjugation. *)
From mathcomp Require Import all_ssreflect all_algebra.
From mathcomp.real_closed Require Import complex.
From Coq Require Import String ZArith Lia.
From Verif Require Import Base.PyBase Base.PyFacts Base.FieldTac Base.Arr Model.Matsubara Proofs.MatsubaraP.
From Verif Require Import Model.LocalFourPoint Model.LocalSDE Model.Bubble.
From Verif Require Model.BrillouinZone.
From Verif Require Import Spec.BZSpec Spec.BubbleSpec Spec.LatticeSdeSpec Proofs.BrillouinZoneP Proofs.IrrqP Proofs.TwoPointP Proofs.TwoPointFillP Proofs.BubbleP Proofs.BubbleLatP Proofs.BubbleIrrP Proofs.LocalSDEP Proofs.LatticeSdeP Proofs.DgaMainP.
Set Implicit Arguments. Unset Strict Implicit. Unset Printing Implicit Defensive.
Import GRing.Theory.
Local Open Scope ring_scope.

Section Mesh.
Variable F : fieldType.
Variables nx ny nz : nat.
Notation K := (mesh nx ny nz).
Notation NX := (Z.of_nat nx). Notation NY := (Z.of_nat ny). Notation NZ := (Z.of_nat nz).
Lemma big_flat_map (A B : Type) (g : A -> list B) l (f : B -> F) : \sum_(x <- List.flat_map g l) f x = \sum_(y <- l) \sum_(x <- g y) f x.
Proof. elim: l => [|a l IH] /=; first by rewrite !big_nil. by rewrite big_cat IH big_cons. Qed.
Lemma big_range n (f : Z -> F) : \sum_(i <- range (Z.of_nat n)) f i = \sum_(i < n) f (Z.of_nat i).
Proof.
  elim: n f => [|n IH] f; first by rewrite /range /arange /= big_nil big_ord0.
  have -> : Z.of_nat n.+1 = (1 + Z.of_nat n)%Z by lia. rewrite range_S; last by lia. rewrite big_cons big_ord_recl /=. congr (_ + _).
  rewrite [LHS]big_lmap IH. apply: eq_bigr => i _. congr f. change (1 + Z.of_nat i = Z.of_nat (S i))%Z. lia.
Qed.
Lemma big_qlist (f : Z * Z * Z -> F) : \sum_(q <- BrillouinZone.kmesh_ind_list NX NY NZ) f q = \sum_(p : K) f (qpoint p).
Proof.
  rewrite /BrillouinZone.kmesh_ind_list big_flat_map big_range.
  rewrite (eq_bigr (fun p : K => f (qpoint (p.1, p.2)))) => [|[a b] _ //]. rewrite -(pair_bigA _ (fun p c => f (qpoint (p, c)))) /=.
  rewrite (eq_bigr (fun p : 'I_nx * 'I_ny => \sum_(c < nz) f (qpoint (p.1, p.2, c)))) => [|[a b] _ //]. rewrite -(pair_bigA _ (fun a b => \sum_(c < nz) f (qpoint (a, b, c)))) /=.
  apply: eq_bigr => a _. rewrite big_flat_map big_range. apply: eq_bigr => b _. by rewrite big_lmap big_range.
Qed.
Lemma big_qat qs (f : Z * Z * Z -> F) : \sum_(i < size qs) f (qat qs i) = \sum_(q <- qs) f q.
Proof. by rewrite (big_nth (0%Z, 0%Z, 0%Z)) big_mkord. Qed.
Notation qs := (BrillouinZone.kmesh_ind_list NX NY NZ).
Lemma sde_mesh nq beta wn (Ker : Z * Z * Z -> nat -> Z -> F) (G : K -> Z -> F) k v :
  lattice_sde nq beta qs wn (fun i j => Ker (qat qs i) j) G k v = (nq * beta)^-1 * \sum_(p : K) \sum_(j < size wn) Ker (qpoint p) j v * G (kplusq k (qpoint p)) (v - wat wn j)%Z.
Proof.
  rewrite /lattice_sde. congr (_ * _). rewrite (@big_qat qs (fun q => \sum_(j < size wn) Ker q j v * G (kplusq k q) (v - wat wn j)%Z)). exact: big_qlist.
Qed.
Lemma big_shift (k : K) (f : K -> F) : \sum_(p : K) f (kplusq k (qpoint p)) = \sum_(p : K) f p.
Proof. rewrite [RHS](reindex (fun p : K => kplusq k (qpoint p))) //. apply: onW_bij. apply: injF_bij. exact: kplusq_inj_r. Qed.
(** kernel independent of q *)
Lemma sde_local beta wn (Ker : nat -> Z -> F) (G : K -> Z -> F) k v : (#|{: K}|%:R : F) != 0 ->
  lattice_sde #|{: K}|%:R beta qs wn (fun _ j => Ker j) G k v =
  beta^-1 * \sum_(j < size wn) Ker j v * ((\sum_(p : K) G p (v - wat wn j)%Z) / #|{: K}|%:R).
Proof.
  move=> Hn. rewrite (@sde_mesh _ _ wn (fun _ => Ker)) exchange_big /= invfM -mulrA mulrC -!mulrA. congr (_ * _). rewrite mulrC mulr_sumr. apply: eq_bigr => j _.
  rewrite -mulr_sumr (big_shift k (fun p => G p (v - wat wn j)%Z)). by rewrite mulrA [_^-1 * _]mulrC -mulrA; congr (_ * _); rewrite mulrC.
Qed.
End Mesh.

Section Sym.
Variable R : rcfType.
Notation C := R[i].
Local Open Scope complex_scope.
Variables nx ny nz : nat.
Notation K := (mesh nx ny nz).
Notation NX := (Z.of_nat nx). Notation NY := (Z.of_nat ny). Notation NZ := (Z.of_nat nz).
Notation qs := (BrillouinZone.kmesh_ind_list NX NY NZ).
Lemma sde_symmetric (nq beta : C) wn (Ker : Z * Z * Z -> nat -> Z -> C) (G : K -> Z -> C) s : has_symmetry G s ->
  (forall q j v, on_mesh NX NY NZ q -> Ker (point_op NX NY NZ s q) j v = Ker q j v) ->
  has_symmetry (lattice_sde nq beta qs wn (fun i j => Ker (qat qs i) j) G) s.
Proof.
  move=> HG HK k k' v E. rewrite !sde_mesh. congr (_ * _).
  have Pp : (0 < NX /\ 0 < NY /\ 0 < NZ)%Z by have [? [? ?]] := qpoint_mesh k; lia. case: Pp => Px [Py Pz].
  pose S (k : K) := of_point k (point_op NX NY NZ s (qpoint k)).
  have ES : forall k, qpoint (S k) = point_op NX NY NZ s (qpoint k) by move=> p; apply: of_pointK; apply: point_op_mesh => //; exact: qpoint_mesh.
  have Sinj : injective S.
    move=> p p' Ep. apply: qpoint_inj. apply: (@point_op_inj nx ny nz s); [exact: qpoint_mesh|exact: qpoint_mesh|]. by rewrite -!ES Ep.
  rewrite (reindex S) /=; last by apply: onW_bij; exact: injF_bij.
  apply: eq_bigr => p _. apply: eq_bigr => j _. rewrite ES HK; last exact: qpoint_mesh. congr (_ * _). apply: HG.
  have -> : k' = S k by apply: qpoint_inj; rewrite ES E. symmetry. apply: point_op_add. exact: qpoint_mesh.
Qed.
Lemma sde_conj (nq beta : R) ql wn (Ker : nat -> nat -> Z -> C) (G : K -> Z -> C) k v :
  (forall k v, G k (- v - 1)%Z = conjc (G k v)) ->
  (forall j, (j < size wn)%nat -> wat wn (size wn - j.+1) = (- wat wn j)%Z) ->
  (forall i j v, (i < size ql)%nat -> (j < size wn)%nat -> Ker i (size wn - j.+1)%nat (- v - 1)%Z = conjc (Ker i j v)) ->
  lattice_sde nq%:C beta%:C ql wn Ker G k (- v - 1)%Z = conjc (lattice_sde nq%:C beta%:C ql wn Ker G k v).
Proof.
  move=> HG Hw HK. rewrite /lattice_sde conjM. congr (_ * _).
    rewrite [RHS](fmorphV (RMorphism (@conjc_is_rmorphism R))). congr (_ ^-1). symmetry. etransitivity; [exact: conjM|]. by rewrite !conjc_real.
  rewrite [RHS](rmorph_sum (RMorphism (@conjc_is_rmorphism R))). apply: eq_bigr => i _. rewrite [RHS](rmorph_sum (RMorphism (@conjc_is_rmorphism R))) (reindex_inj rev_ord_inj) /=. apply: eq_bigr => j _.
  rewrite conjM HK // Hw // -HG. congr (_ * G _ _). lia.
Qed.
End Sym.
Section Unfold.
Lemma unfold_list A nx ny nz syms g (h : Z * Z * Z -> A) irrq : (0 < nx)%Z -> (0 < ny)%Z -> (0 < nz)%Z -> List.Forall known syms -> BrillouinZone.make_kgrid nx ny nz syms = Ok g ->
  BrillouinZone.get_irrq_list g = Ok irrq -> (forall s k, List.In s syms -> on_mesh nx ny nz k -> h (point_op nx ny nz s k) = h k) ->
  BrillouinZone.map_irrk2fbz_list g (List.map h irrq) = Ok (List.map h (BrillouinZone.get_q_list g)).
Proof.
  move=> Hx Hy Hz Hk Eg Eq Hs. have [f [Ef [Sf Gf]]] := @irrq_unfold A nx ny nz syms g h irrq Hx Hy Hz Hk Eg Eq Hs.
  move: Ef. rewrite /BrillouinZone.map_irrk2fbz /BrillouinZone.map_irrk2fbz_list. case: (PyBase.take _ _) => //= l El.
  have [Ex [Ey Ez]] := grid_dims Hx Hy Hz Hk Eg. rewrite Ex Ey Ez in El.
  have F2 := @flatten_reshape _ _ _ _ _ _ Hx Hy Hz El. f_equal. have [LQ [GQ _]] := q_lists Hx Hy Hz Hk Eg. rewrite /BrillouinZone.nk_tot Ex Ey Ez in LQ.
  rewrite -F2. apply: zget_ext; first by rewrite (zlen_flatten3 Sf) zlen_map LQ; lia. rewrite (zlen_flatten3 Sf) => i Hi.
  have [k [Hkm Ek]] := @lin_surj nx ny nz i ltac:(lia) ltac:(lia) Hi. rewrite -Ek (zget_flatten3 _ Sf Hkm) (Gf k Hkm). by rewrite zget_map (GQ k Hkm).
Qed.
End Unfold.
