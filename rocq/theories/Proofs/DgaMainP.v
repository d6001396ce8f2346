(** Results about Model/DgaMain.v: the distributed non-local Schwinger-Dyson equation. *)
From mathcomp Require Import all_ssreflect all_algebra.
From Coq Require Import String ZArith Lia Permutation.
From Verif Require Import Base.PyBase Base.PyFacts Base.FieldTac Base.Arr Model.Matsubara Model.MpiAux Proofs.MatsubaraP Proofs.MpiAuxP.
From Verif Require Import Model.LocalFourPoint Model.LocalSDE Model.Bubble Model.FourPoint Model.DgaMain.
From Verif Require Import Spec.BubbleSpec Spec.LatticeSdeSpec Spec.SdeSpec Proofs.BubbleP Proofs.LocalSDEP Proofs.LatticeSdeP.
Set Implicit Arguments. Unset Strict Implicit. Unset Printing Implicit Defensive.
Import GRing.Theory.
Local Open Scope ring_scope.

Lemma slice_mkseq A (f : nat -> A) n a b : (0 <= a)%Z -> (a <= b)%Z -> (b <= Z.of_nat n)%Z ->
  slice (mkseq f n) a b = mkseq (fun i => f (Z.to_nat a + i)%nat) (Z.to_nat (b - a)).
Proof.
  move=> H1 H2 H3. apply: zget_ext; first by rewrite zlen_mkseq zlen_slice_in ?zlen_mkseq; lia.
  move=> i. rewrite zlen_slice_in ?zlen_mkseq; try lia. move=> Hi. rewrite zget_slice_in ?zlen_mkseq; try lia.
  have -> : (a + i = Z.of_nat (Z.to_nat a + Z.to_nat i)%nat)%Z by rewrite -plusE; lia.
  rewrite zget_mkseq; last by apply/ltP; rewrite -plusE; lia.
  have {2}-> : i = Z.of_nat (Z.to_nat i) by lia. rewrite zget_mkseq //. apply/ltP. lia.
Qed.
Lemma slice_list A (d : A) (l : list A) a b : (0 <= a)%Z -> (a <= b)%Z -> (b <= zlen l)%Z ->
  slice l a b = mkseq (fun i => seq.nth d l (Z.to_nat a + i)%nat) (Z.to_nat (b - a)).
Proof.
  move=> H1 H2 H3. have E : l = mkseq (seq.nth d l) (size l) by rewrite mkseq_nth. rewrite {1}E. exact: slice_mkseq.
Qed.
Section Sums.
Variable F : fieldType.
Lemma big_perm (A : Type) (l m : list A) (f : A -> F) : Permutation l m -> \sum_(x <- l) f x = \sum_(x <- m) f x.
Proof.
  elim=> [|x l1 l2 _ IH|x y l1|l1 l2 l3 _ IH1 _ IH2] //.
  - by rewrite !big_cons IH.
  - by rewrite !big_cons addrCA.
  - by rewrite IH1.
Qed.
Lemma big_zget (A : Type) (d : A) (l : list A) (f : A -> F) : \sum_(x <- l) f x = \sum_(i <- range (zlen l)) f (odflt d (zget l i)).
Proof.
  elim: l => [|x l IH]; first by rewrite /range /= !big_nil.
  rewrite big_cons IH zlen_cons range_S; last exact: zlen_nonneg. rewrite big_cons zget_cons_0 /=. congr (_ + _).
  rewrite [RHS]big_lmap. apply: big_ext_in => i /In_arange Hi. rewrite zget_cons. have -> : (1 + i =? 0)%Z = false by lia. by have -> : (1 + i - 1 = i)%Z by lia.
Qed.
Lemma big_intervals (S : nat -> F) acc s : (forall x, List.In x s -> 0 <= x)%Z -> (0 <= acc)%Z ->
  \sum_(ab <- intervals acc s) \sum_(Z.to_nat ab.1 <= i < Z.to_nat ab.2) S i = \sum_(Z.to_nat acc <= i < Z.to_nat (acc + zsum s)) S i.
Proof.
  elim: s acc => [|x s IH] acc Hs Ha /=; first by rewrite big_nil Z.add_0_r big_geq.
  have Hx : (0 <= x)%Z by apply: Hs; left. have Hz : (0 <= zsum s)%Z by apply: zsum_nonneg => y Hy; apply: Hs; right.
  rewrite big_cons IH; [|by move=> y Hy; apply: Hs; right|lia]. rewrite /=.
  have -> : (acc + zsum (x :: s) = acc + x + zsum s)%Z. { rewrite /zsum /=. fold (zsum s). lia. }
  rewrite -big_cat_nat //=; apply/leP; lia.
Qed.
End Sums.

Section Main.
Variable F : fieldType.
Variables nx ny nz : nat.
Notation K := (mesh nx ny nz).
Variables (N : Z) (G : K -> Z -> F) (giwk : K -> list F).
Hypothesis Hgiwk : forall k, giwk k = frow N (G k).
Variables (beta u : F) (qs : list (Z * Z * Z)) (wn : list Z) (nc : Z) (chid chim : nat -> nat -> F) (vrgd vrgm kdc : nat -> nat -> Z -> F) (k : K).
Hypotheses (Hwn : wn <> nil) (Hbox : fits_box nc N wn).
Let nq := size qs.
Let nw := size wn.
Let term v i := \sum_(j < nw) dga_kernel u chid chim vrgd vrgm kdc i j v * G (kplusq k (qat qs i)) (v - wat wn j)%Z.
Let c : F := (nq%:R * beta)^-1.
Lemma slice_arr2 T a b (f : nat -> nat -> T) : (0 <= a)%Z -> (a <= b)%Z -> (b <= Z.of_nat nq)%Z ->
  slice (arr2 nq nw f) a b = arr2 (Z.to_nat (b - a)) nw (fun i => f (Z.to_nat a + i)%nat).
Proof. exact: slice_mkseq. Qed.
Lemma rank_part a b : (0 <= a)%Z -> (a <= b)%Z -> (b <= Z.of_nat nq)%Z ->
  schwinger_dyson_full_q (2 * nc) (slice (arr3 nq nw nc vrgd) a b) (slice (arr3 nq nw nc vrgm) a b) (slice (arr2 nq nw chid) a b) (slice (arr2 nq nw chim) a b)
    (slice (arr3 nq nw nc kdc) a b) giwk beta u (slice qs a b) wn nq%:R 0 k =
  Ok (frow nc (fun v => c * \sum_(Z.to_nat a <= i < Z.to_nat b) term v i)).
Proof.
  move=> H1 H2 H3. rewrite !slice_arr2 // (@slice_list _ (0%Z, 0%Z, 0%Z) qs) //.
  set q' := mkseq _ _. have Es : Z.to_nat (b - a) = size q' by rewrite size_mkseq. rewrite {1 2 3 4 5}Es /nw.
  have L := @sde_full_ok F nx ny nz N G giwk Hgiwk beta u nq%:R q' wn nc (fun i => chid (Z.to_nat a + i)%nat) (fun i => chim (Z.to_nat a + i)%nat)
    (fun i => vrgd (Z.to_nat a + i)%nat) (fun i => vrgm (Z.to_nat a + i)%nat) (fun i => kdc (Z.to_nat a + i)%nat) k Hwn Hbox.
  rewrite /arr3 in L *. rewrite L. f_equal. apply: frow_ext => v _. rewrite /lattice_sde -/c. congr (_ * _).
  rewrite -[in RHS](add0n (Z.to_nat a)) big_addn big_mkord. rewrite -Es.
  have -> : Z.to_nat (b - a) = (Z.to_nat b - Z.to_nat a)%nat by rewrite -minusE; lia.
  apply: eq_bigr => i _. rewrite /term addnC. apply: eq_bigr => j _. rewrite /qat /q' nth_mkseq //.
  case: i => i /= Hi. have Em : (Z.to_nat b - Z.to_nat a)%nat = Nat.sub (Z.to_nat b) (Z.to_nat a) by []. rewrite Em in Hi. move/ltP: Hi => Hi. apply/ltP. lia.
Qed.
Lemma nonlocal_sde_ok p order : (0 < p)%Z -> Permutation order (arange 0 p) ->
  nonlocal_sde (2 * nc) (arr3 nq nw nc vrgd) (arr3 nq nw nc vrgm) (arr2 nq nw chid) (arr2 nq nw chim) (arr3 nq nw nc kdc) giwk beta u qs wn (Z.of_nat nq) p order k =
  Ok (frow nc (lattice_sde nq%:R beta qs wn (dga_kernel u chid chim vrgd vrgm kdc) G k)).
Proof.
  move=> Hp Hperm. have Hn : (0 <= nc)%Z by case: Hbox.
  rewrite /nonlocal_sde !scatter_eq ?zlen_mkseq //; try lia. cbn [bind].
  set iv := intervals 0 (sizes (Z.of_nat nq) p).
  have Hiv : forall r ab, zget iv r = Some ab -> (0 <= ab.1)%Z /\ (ab.1 <= ab.2)%Z /\ (ab.2 <= Z.of_nat nq)%Z.
    move=> r [a b] /intervals_range [|H1 [H2 [H3 _]]]; first by move=> x; apply: sizes_nonneg; lia. rewrite zsum_sizes in H3; try lia. rewrite /=. lia.
  have Liv : zlen iv = p by rewrite /iv zlen_intervals zlen_sizes.
  set P := fun ab : Z * Z => frow nc (fun v => c * \sum_(Z.to_nat ab.1 <= i < Z.to_nat ab.2) term v i).
  have -> : mapM (rank_siwk (2 * nc) (List.map (fun ab => slice (arr3 nq nw nc vrgd) ab.1 ab.2) iv) (List.map (fun ab => slice (arr3 nq nw nc vrgm) ab.1 ab.2) iv)
     (List.map (fun ab => slice (arr2 nq nw chid) ab.1 ab.2) iv) (List.map (fun ab => slice (arr2 nq nw chim) ab.1 ab.2) iv)
     (List.map (fun ab => slice (arr3 nq nw nc kdc) ab.1 ab.2) iv) giwk beta u qs wn (Z.of_nat nq) p k) (range p) = Ok (List.map P iv).
    apply: mapM_zget_total; first by rewrite /range zlen_arange zlen_map Liv; lia.
    move=> r r' x Hr Hx. have Hrr := zget_some_range _ _ Hr. rewrite /range zlen_arange in Hrr. rewrite /range zget_arange in Hr; last by lia.
    case: Hr => Er. have {Er} Er : r' = r by lia. subst r'. rewrite zget_map in Hx. case Eab: (zget iv r) Hx => [ab|] //= [<-].
    have [h1 [h2 h3]] := Hiv _ _ Eab. rewrite /rank_siwk /my_slice /slices slices_of_intervals -/iv.
    rewrite (@py_get_nonneg _ iv r ab) //; last by lia. rewrite [bind (Ok _) _]/=.
    have GM : forall T (g : Z * Z -> T), py_get (List.map g iv) r = Ok (g ab) by move=> T g; apply: py_get_nonneg; [lia|rewrite zget_map Eab].
    rewrite !GM. cbn [bind].
    rewrite Nat2Z.id. exact: rank_part.
  rewrite [bind (Ok _) _]/= /allreduce_rows zeros_frow //.
  set Q := fun (r : Z) v => c * \sum_(Z.to_nat (odflt (0%Z, 0%Z) (zget iv r)).1 <= i < Z.to_nat (odflt (0%Z, 0%Z) (zget iv r)).2) term v i.
  have fold : forall o f, (forall r, List.In r o -> (0 <= r < p)%Z) ->
     foldM (fun s r => let! x := py_get (List.map P iv) r in iadd s x) o (frow nc f) = Ok (frow nc (fun v => f v + \sum_(r <- o) Q r v)).
    elim=> [|r o IH] f Ho /=; first by f_equal; apply: frow_ext => v _; rewrite big_nil addr0.
    have Hr : (0 <= r < p)%Z by apply: Ho; left. have [ab Eab] : exists ab, zget iv r = Some ab by apply: zget_in_range; rewrite Liv.
    rewrite (@py_get_nonneg _ (List.map P iv) r (P ab)); [|lia|by rewrite zget_map Eab]. rewrite [bind (Ok _) _]/= /iadd {1}/P frow_np2 // [bind (Ok _) _]/=.
    rewrite IH; last by move=> r' H'; apply: Ho; right. f_equal. apply: frow_ext => v _. by rewrite big_cons addrA /Q Eab.
  rewrite fold; last by move=> r /(Permutation_in _ Hperm) /In_arange.
  f_equal. apply: frow_ext => v _. rewrite add0r (big_perm _ Hperm) /lattice_sde -/c.
  transitivity (\sum_(ab <- iv) c * \sum_(Z.to_nat ab.1 <= i < Z.to_nat ab.2) term v i).
    by rewrite (@big_zget F _ (0%Z, 0%Z) iv) Liv.
  rewrite -mulr_sumr /iv big_intervals //; last by move=> x; apply: sizes_nonneg; lia. rewrite zsum_sizes; try lia. rewrite Z.add_0_l Nat2Z.id big_mkord. by [].
Qed.
End Main.
