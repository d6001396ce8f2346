(** The DGA self-energy from the ranks' data on the irreducible momenta (Model/DgaMain.v). *)
From mathcomp Require Import all_ssreflect all_algebra.
From Coq Require Import String ZArith Lia Permutation.
From Verif Require Import Base.PyBase Base.PyFacts Base.FieldTac Base.Arr Model.Matsubara Model.MpiAux Proofs.MatsubaraP Proofs.MpiAuxP.
From Verif Require Import Model.LocalFourPoint Model.LocalSDE Model.Bubble Model.FourPoint Model.DgaMain.
From Verif Require Model.BrillouinZone.
From Verif Require Import Spec.BZSpec Spec.BubbleSpec Spec.LatticeSdeSpec Spec.SdeSpec Proofs.BrillouinZoneP Proofs.BubbleP Proofs.LocalSDEP Proofs.LatticeSdeP Proofs.DgaMainP Proofs.LatticeSymP.
Set Implicit Arguments. Unset Strict Implicit. Unset Printing Implicit Defensive.
Import GRing.Theory.
Local Open Scope ring_scope.

Lemma filled_some A (l : list A) : filled (List.map Some l) = Ok l.
Proof. rewrite /filled. elim: l => //= a l ->. by []. Qed.
Lemma size_map_nth A B (d : A) (h : A -> B) l : List.map h l = mkseq (fun i => h (seq.nth d l i)) (size l).
Proof. exact: map_mkseq. Qed.

Section Main.
Variable F : fieldType.
Variables nx ny nz : nat.
Notation K := (mesh nx ny nz).
Notation NX := (Z.of_nat nx). Notation NY := (Z.of_nat ny). Notation NZ := (Z.of_nat nz).
Variables (syms : list string) (g : BrillouinZone.kgrid) (irrq : list (Z * Z * Z)).
Hypotheses (Px : (0 < nx)%nat) (Py : (0 < ny)%nat) (Pz : (0 < nz)%nat) (Hknown : List.Forall known syms) (Eg : BrillouinZone.make_kgrid NX NY NZ syms = Ok g)
  (Ei : BrillouinZone.get_irrq_list g = Ok irrq).
Let Zx : (0 < NX)%Z. Proof. move/ltP: Px; lia. Qed.
Let Zy : (0 < NY)%Z. Proof. move/ltP: Py; lia. Qed.
Let Zz : (0 < NZ)%Z. Proof. move/ltP: Pz; lia. Qed.
Notation qs := (BrillouinZone.kmesh_ind_list NX NY NZ).
Lemma gqs : BrillouinZone.get_q_list g = qs.
Proof. have [Ex [Ey Ez]] := grid_dims Zx Zy Zz Hknown Eg. by rewrite /BrillouinZone.get_q_list Ex Ey Ez. Qed.
Lemma size_qs : Z.of_nat (size qs) = BrillouinZone.nk_tot g.
Proof. have [L _] := q_lists Zx Zy Zz Hknown Eg. by rewrite -L gqs. Qed.
(** a quantity given on the irreducible momenta of the ranks *)
Lemma gather_unfold_ok A p (h : Z * Z * Z -> A) parts : (0 < p)%Z -> (forall s k, List.In s syms -> on_mesh NX NY NZ k -> h (point_op NX NY NZ s k) = h k) ->
  scatter (BrillouinZone.nk_irr g) p (List.map h irrq) = Ok parts -> gather_unfold g p parts = Ok (mkseq (fun i => h (qat qs i)) (size qs)).
Proof.
  move=> Hp Hs Es. have [_ [_ [irrq' [Ei' [Li _]]]]] := q_lists Zx Zy Zz Hknown Eg. have E : irrq' = irrq by rewrite Ei in Ei'; case: Ei'. subst irrq'.
  have Hn : (0 <= BrillouinZone.nk_irr g)%Z by rewrite -Li; exact: zlen_nonneg.
  have [parts' [E1 [_ E2]]] := @scatter_map_gather _ _ (BrillouinZone.nk_irr g) p id (List.map h irrq) Hn Hp ltac:(by rewrite zlen_map).
  have E : parts' = parts by rewrite Es in E1; case: E1. subst parts'.
  have M : forall T (x : list T), List.map id x = x by move=> T; elim=> //= a l ->.
  have M2 : List.map (List.map id) parts = parts by elim: parts {Es E1 E2} => //= a l ->; rewrite M. rewrite M M2 in E2.
  rewrite /gather_unfold E2 [bind _ _]/= filled_some [bind _ _]/= (@unfold_list _ _ _ _ _ _ _ _ Zx Zy Zz Hknown Eg Ei Hs) gqs. f_equal. exact: map_mkseq.
Qed.
Lemma mesh_list A (m : list (list (list A))) (h : Z * Z * Z -> A) : shape3 m NX NY NZ -> (forall q, on_mesh NX NY NZ q -> at3 m q = Some (h q)) ->
  BrillouinZone.flatten3 m = mkseq (fun i => h (qat qs i)) (size qs).
Proof.
  move=> S H. rewrite -[RHS](map_mkseq h (0%Z, 0%Z, 0%Z)). have [L [G _]] := q_lists Zx Zy Zz Hknown Eg. have [Ex [Ey Ez]] := grid_dims Zx Zy Zz Hknown Eg. rewrite /BrillouinZone.nk_tot Ex Ey Ez gqs in L. rewrite gqs in G.
  apply: zget_ext; first by rewrite (zlen_flatten3 S) (zlen_map h) L; lia. rewrite (zlen_flatten3 S) => i Hi.
  have [k [Hkm Ek]] := @lin_surj NX NY NZ i ltac:(lia) ltac:(lia) Hi. by rewrite -Ek (zget_flatten3 _ S Hkm) (H k Hkm) (zget_map h) (G k Hkm).
Qed.
Variables (N : Z) (G : K -> Z -> F) (giwk : K -> list F).
Hypothesis Hgiwk : forall k, giwk k = frow N (G k).
Variables (beta u n : F) (wn : list Z) (nc ns N1 : Z) (Sig Sde : Z -> F).
Hypotheses (Hwn : wn <> nil) (Hbox : fits_box nc N wn) (HN1 : (nc <= N1)%Z) (Hns : (0 <= ns)%Z).
Let nw := size wn.
Lemma assemble_ok S : assemble_siwk (frow nc S) (frow N1 Sig) (frow (nc + ns) Sde) nc u n = Ok (frow nc (fun v => S v + (Sig v - Sde v) + u * n / 2%:R)).
Proof.
  have Hn : (0 <= nc)%Z by case: Hbox. rewrite /assemble_siwk. rewrite !frow_cut; try lia. rewrite frow_np2 // [bind _ _]/= /iadd frow_np2 // [bind _ _]/=. by rewrite frow_map.
Qed.
Variables (chid chim : Z * Z * Z -> nat -> F) (vrgd vrgm kdc : Z * Z * Z -> nat -> Z -> F).
Definition sym_inv T (h : Z * Z * Z -> T) : Prop := forall s k, List.In s syms -> on_mesh NX NY NZ k -> h (point_op NX NY NZ s k) = h k.
Hypotheses (Sd : forall j v, sym_inv (fun q => vrgd q j v)) (Sm : forall j v, sym_inv (fun q => vrgm q j v)) (Sk : forall j v, sym_inv (fun q => kdc q j v)).
Lemma from_ranks_ok p order pd pm pk cd cm k : (0 < p)%Z -> Permutation order (arange 0 p) ->
  scatter (BrillouinZone.nk_irr g) p (List.map (fun q => mkseq (fun j => frow nc (vrgd q j)) nw) irrq) = Ok pd ->
  scatter (BrillouinZone.nk_irr g) p (List.map (fun q => mkseq (fun j => frow nc (vrgm q j)) nw) irrq) = Ok pm ->
  scatter (BrillouinZone.nk_irr g) p (List.map (fun q => mkseq (fun j => frow nc (kdc q j)) nw) irrq) = Ok pk ->
  shape3 cd NX NY NZ -> (forall q, on_mesh NX NY NZ q -> at3 cd q = Some (mkseq (chid q) nw)) ->
  shape3 cm NX NY NZ -> (forall q, on_mesh NX NY NZ q -> at3 cm q = Some (mkseq (chim q) nw)) ->
  dga_siwk_from_ranks (2 * nc) g pd pm cd cm pk giwk beta u wn p order (frow N1 Sig) (frow (nc + ns) Sde) n nc k =
  Ok (frow nc (fun v => lattice_sde (size qs)%:R beta qs wn
     (dga_kernel u (fun i => chid (qat qs i)) (fun i => chim (qat qs i)) (fun i => vrgd (qat qs i)) (fun i => vrgm (qat qs i)) (fun i => kdc (qat qs i))) G k v
     + (Sig v - Sde v) + u * n / 2%:R)).
Proof.
  move=> Hp Ho Ed Em Ek Shd Hd Shm Hm.
  have S3 : forall f : Z * Z * Z -> nat -> Z -> F, (forall j v, sym_inv (fun q => f q j v)) -> sym_inv (fun q => mkseq (fun j => frow nc (f q j)) nw).
    move=> f Hf s q Hs Hq. apply: eq_mkseq => j. apply: frow_ext => v _. exact: (Hf j v s q Hs Hq).
  rewrite /dga_siwk_from_ranks (gather_unfold_ok Hp (S3 _ Sd) Ed) [bind _ _]/= (gather_unfold_ok Hp (S3 _ Sm) Em) [bind _ _]/= (gather_unfold_ok Hp (S3 _ Sk) Ek) [bind _ _]/=.
  rewrite (mesh_list Shd Hd) (mesh_list Shm Hm) gqs -size_qs /dga_siwk.
  have L := @nonlocal_sde_ok F nx ny nz N G giwk Hgiwk beta u qs wn nc (fun i => chid (qat qs i)) (fun i => chim (qat qs i)) (fun i => vrgd (qat qs i)) (fun i => vrgm (qat qs i)) (fun i => kdc (qat qs i)) k Hwn Hbox p order Hp Ho.
  rewrite /arr3 /arr2 in L. rewrite L. cbn [bind]. exact: assemble_ok.
Qed.
End Main.
