(** Computing a symmetric function of momentum at the irreducible points only. *)
From Coq Require Import String.
From Verif Require Import Base.PyBase Base.PyFacts Base.Arr Spec.BZSpec Model.BrillouinZone Proofs.BrillouinZoneP.
Set Implicit Arguments.
Local Open Scope Z_scope.

Lemma point_op_mesh nx ny nz s k : 0 < nx -> 0 < ny -> 0 < nz -> on_mesh nx ny nz k -> on_mesh nx ny nz (point_op nx ny nz s k).
Proof.
  destruct k as [[x y] z]. unfold on_mesh, point_op. intros Hx Hy Hz (H1 & H2 & H3).
  pose proof (Z.mod_pos_bound (- x) nx Hx). pose proof (Z.mod_pos_bound (- y) ny Hy). pose proof (Z.mod_pos_bound (- z) nz Hz).
  repeat (destruct (String.eqb _ _); [try (destruct (Z.eqb_spec nx ny)); repeat split; lia|]). repeat split; lia.
Qed.
Lemma equiv_invariant A nx ny nz syms (F : point -> A) : (forall s k, In s syms -> on_mesh nx ny nz k -> F (point_op nx ny nz s k) = F k) ->
  forall k k', equiv nx ny nz syms k k' -> F k = F k'.
Proof. intros H k k' E. induction E; try congruence. symmetry. now apply H. Qed.
Lemma irrq_unfold A nx ny nz syms g (F : point -> A) irrq : 0 < nx -> 0 < ny -> 0 < nz -> Forall known syms -> make_kgrid nx ny nz syms = Ok g ->
  get_irrq_list g = Ok irrq -> (forall s k, In s syms -> on_mesh nx ny nz k -> F (point_op nx ny nz s k) = F k) ->
  exists f, map_irrk2fbz g (map F irrq) = Ok f /\ shape3 f nx ny nz /\ forall k, on_mesh nx ny nz k -> at3 f k = Some (F k).
Proof.
  intros Hx Hy Hz Hk E Ei H. destruct (q_lists Hx Hy Hz Hk E) as (_ & _ & irrq' & Ei' & L & _ & Hrep). rewrite Ei in Ei'. injection Ei' as <-.
  destruct (@unfold_spec A nx ny nz syms g (map F irrq) Hx Hy Hz Hk E) as (f & Ef & Sf & Gf); [now rewrite zlen_map|].
  exists f. split; [assumption|]. split; [assumption|]. intros k Hkm. destruct (Hrep k Hkm) as (j & q & Hj & Hq & Hkq).
  rewrite (Gf k j Hkm Hj), zget_map. unfold point in *. rewrite Hq. cbn. f_equal. symmetry. now apply (@equiv_invariant A nx ny nz syms).
Qed.
