(** Proofs about Model/GFObject.v. *)
From mathcomp Require Import all_ssreflect all_algebra.
From mathcomp.real_closed Require Import complex.
From Coq Require Import String ZArith Lia.
From Verif Require Import Base.PyBase Base.PyFacts Model.Matsubara Proofs.MatsubaraP Model.TwoPoint Model.GFObject Spec.TwoPointSpec.
From Verif Require Import Proofs.TwoPointP Proofs.TwoPointFillP.
Import Order.TTheory GRing.Theory Num.Theory.
Set Implicit Arguments. Unset Strict Implicit. Unset Printing Implicit Defensive.
Local Open Scope ring_scope.
Local Open Scope complex_scope.

Lemma whole_ok (K : finType) (A : Type) (d : A) (f : K -> res A) (g : K -> A) : (forall k, f k = Ok (g k)) ->
  exists h, whole d f = Ok h /\ forall k, h k = g k.
Proof.
  move=> H. rewrite /whole. case: pickP => [k|_]; first by case: (f k) (H k) => [a _|e]; [|discriminate].
  eexists; split; [reflexivity|]. move=> k /=. by rewrite H.
Qed.
Lemma whole_inv (K : finType) (A : Type) (d : A) (f : K -> res A) (h : K -> A) : whole d f = Ok h -> forall k, f k = Ok (h k).
Proof.
  rewrite /whole. case: pickP => [k|H]; first by case E: (f k) => [a|e] //.
  move=> [<-] k. have := H k. by case: (f k).
Qed.
Lemma whole_raise (K : finType) (A : Type) (d : A) (f : K -> res A) e : (0 < #|K|)%nat -> (forall k, f k = Raise e) -> whole d f = Raise e.
Proof.
  move=> HK H. rewrite /whole. case: pickP => [k _|H0]; first by rewrite H.
  move/card_gt0P: HK => [k _]. have := H0 k. by rewrite H.
Qed.

Lemma row_len_grid (R : rcfType) (K : finType) (a : K -> list R[i]) n (f : K -> Z -> R[i]) : (0 < #|K|)%nat -> (forall k, on_grid (a k) n (f k)) -> row_len a = Z.to_nat (2 * n).
Proof.
  move=> HK H. rewrite /row_len. case: pickP => [k _|H0].
  - have [L _] := H k. move: L. rewrite /zlen. lia.
  - move/card_gt0P: HK => [k _]. by have := H0 k.
Qed.
Lemma row_len_eq (R : rcfType) (K : finType) (a b : K -> list R[i]) : (forall k, a k = b k) -> row_len a = row_len b.
Proof. move=> H. rewrite /row_len. by case: pickP => [k _|//]; rewrite H. Qed.

Section P.
Variable R : rcfType.
Notation C := R[i].
Variables (K KS : finType) (bc : K -> KS) (s : selfenergy R KS) (ek : K -> R) (beta : R).

(** building the tail succeeds for every integer *)
Lemma build_asympt_any mu n k : exists p, build_asympt bc s ek mu n k = Ok (ffull p) /\ zlen p = Z.max 0 n.
Proof.
  rewrite /build_asympt /get_asympt.
  have [||g [E [L V]]] := @build_g_row_ok R mu (map (iv (se_pb s)) (vn n (se_core s) true)) (tail_row (se_pb s) (se_smom0 s) (se_smom1 s) n (se_core s)) (ek k) (Z.max 0 n).
  - rewrite zlen_map /vn zlen_arange. lia.
  - rewrite /tail_row zlen_map /vn zlen_arange. lia.
  - exists g. by rewrite E.
Qed.
Definition asympt_of mu n : K -> list C := fun k => match build_asympt bc s ek mu n k with Ok a => a | Raise _ => [::] end.
Lemma asympt_ofE mu n k : build_asympt bc s ek mu n k = Ok (asympt_of mu n k).
Proof. rewrite /asympt_of. have [p [E _]] := build_asympt_any mu n k. by rewrite E. Qed.
Lemma whole_asympt mu n : whole [::] (build_asympt bc s ek mu n) = Ok (asympt_of mu n).
Proof.
  rewrite /whole. case: pickP => [k|_]; last by [].
  by rewrite asympt_ofE.
Qed.
(** the state after set_g_asympt depends on mu, n and core only *)
Definition after (mu n : R) (core : K -> list C) (niv : Z) : gf_obj R K :=
  let f := fun k => concatenate_core_asmypt (core k) (asympt_of mu niv k) in
  GFObj mu n core (Some (asympt_of mu niv)) (Some niv) (Some f) (Some (kmean_v (row_len f) f)).
Lemma set_ok (o : gf_obj R K) niv : o_set_g_asympt bc s ek o niv = (after (o_mu o) (o_n o) (o_core o) niv, None).
Proof. by rewrite /o_set_g_asympt whole_asympt. Qed.
Lemma history_ok (mu n : R) core niv0 calls :
  o_history bc s ek (after mu n core niv0) calls = after mu n core (List.last calls niv0).
Proof.
  rewrite /o_history. elim: calls niv0 => [//|c calls IH] niv0. rewrite [LHS]/=. rewrite set_ok.
  rewrite [LHS](IH c). f_equal. clear. case: calls => [//|d l]. cbn [List.last]. elim: l d => [//|e l IH] d. by cbn; apply: IH.
Qed.
Lemma make_inv rexp newton mu n niv shell o : make_gf bc s ek beta rexp newton mu n niv shell = Ok o ->
  exists m f core, gf_mu_n rexp newton mu n (ivs (se_pb s) (se_core s + shell)) ek (fun k => get_siw s (se_core s + shell) (bc k)) beta (se_smom0 s) = Ok (m, f) /\
    whole [::] (build_g_core bc s ek m) = Ok core /\ o = after m f core niv.
Proof.
  rewrite /make_gf. case: gf_mu_n => [[m f]|//] /=. case E: whole => [core|//] /=. rewrite set_ok /= => -[<-]. by exists m, f, core.
Qed.
Lemma make_ok rexp newton mu n niv shell m f core :
  gf_mu_n rexp newton mu n (ivs (se_pb s) (se_core s + shell)) ek (fun k => get_siw s (se_core s + shell) (bc k)) beta (se_smom0 s) = Ok (m, f) ->
  whole [::] (build_g_core bc s ek m) = Ok core -> make_gf bc s ek beta rexp newton mu n niv shell = Ok (after m f core niv).
Proof. move=> E1 E2. by rewrite /make_gf E1 /= E2 /= set_ok. Qed.

(** ** values *)
Section Values.
Variables (mu n : R) (core : K -> list C).
Hypothesis Hs : se_ok s.
Hypothesis Hcore : whole [::] (build_g_core bc s ek mu) = Ok core.
Lemma core_grid k : on_grid (core k) (se_core s) (g_value bc s ek mu k).
Proof. have [g [E G]] := build_core_ok bc ek mu k Hs. move: (whole_inv Hcore k). by rewrite E => -[<-]. Qed.
Lemma full_is niv k : g_full bc s ek mu niv k = Ok (concatenate_core_asmypt (core k) (asympt_of mu niv k)).
Proof. by rewrite /g_full (whole_inv Hcore k) asympt_ofE. Qed.
Lemma full_grid niv k : (0 <= niv)%Z -> on_grid (concatenate_core_asmypt (core k) (asympt_of mu niv k)) (se_core s + niv) (g_value bc s ek mu k).
Proof. move=> Hn. have [g [E G]] := g_full_ok bc ek mu k Hs Hn. move: (full_is niv k). by rewrite E => -[<-]. Qed.
Lemma full_neg niv k : (niv <= 0)%Z -> concatenate_core_asmypt (core k) (asympt_of mu niv k) = core k.
Proof.
  move=> Hn. have [p [E L]] := build_asympt_any mu niv k. move: (asympt_ofE mu niv k). rewrite E => -[<-].
  have {L} L : zlen p = 0%Z by lia. have -> : p = [::] by case: (p) L.
  by rewrite /concatenate_core_asmypt /=; apply: app_nil_r.
Qed.
End Values.
End P.

(** ** the constant self-energy *)
Section Const.
Variable R : rcfType.
Notation C := R[i].
Lemma sum_list (l : list R) m (f : nat -> R) : zlen l = Z.of_nat m -> (forall i, (i < m)%nat -> zget l (Z.of_nat i) = Some (f i)) -> \sum_(x <- l) x = \sum_(0 <= i < m) f i.
Proof.
  move=> L H. rewrite (big_nth 0). have Hn : size l = m by move: L; rewrite /zlen => /Nat2Z.inj.
  rewrite Hn. apply: eq_big_nat => i /andP[_ Hi]. rewrite nthE.
  have := zget_eq_nth 0 (H i Hi). by rewrite Nat2Z.id.
Qed.
Lemma sum_nu (pb : R) (a m : nat) : \sum_(0 <= i < m) nu pb (Z.of_nat (a + i)) = (m * (a + a + m))%nat%:R * pb.
Proof.
  elim: m => [|m IH]; first by rewrite big_nil mul0n mul0r.
  rewrite big_nat_recr //= IH /nu zR_nneg; last lia. rewrite -mulrDl -natrD. congr (_%:R * _).
  have -> : Z.to_nat (2 * Z.of_nat (a + m) + 1) = ((a + m) + (a + m) + 1)%nat by rewrite -?plusE; lia.
  rewrite -?plusE -?multE. lia.
Qed.
Lemma entry_repeat (c : C) n v : (0 <= v < Z.of_nat n)%Z -> entry (repeat c n) v = c.
Proof. move=> H. exact: (zget_eq_nth 0 (@zget_repeat _ c n v H)). Qed.
Lemma mean_const (K : finType) (x : C) : (0 < #|K|)%nat -> (\sum_(k : K) x) / #|K|%:R = x.
Proof. move=> HK. rewrite sumr_const -(mulr_natr x) mulfK // pnatr_eq0. by rewrite -lt0n. Qed.
Lemma fit_const (K : finType) (pb delta : R) (n : nat) (siwk : K -> list C) : (0 < #|K|)%nat -> (4 <= n)%nat ->
  (forall k v, (0 <= v < Z.of_nat n)%Z -> entry (siwk k) v = Complex 0 (- delta)) ->
  fit_smom (map (iv pb) (vn (Z.of_nat n) 0 true)) n siwk = (0, - (delta * (zR R (2 * Z.of_nat n - fit_window n) * pb))).
Proof.
  move=> HK Hn H. rewrite /fit_smom. have Hn' : (4 <= Z.of_nat n)%Z by move/ssrnat.leP: Hn; lia.
  have HW : Z.of_nat (Nat.max 4 (n / 5)) = fit_window n by rewrite /fit_window Nat2Z.inj_max Nat2Z.inj_div.
  set start := (_ - _)%Z. have Hs : start = (Z.of_nat n - fit_window n)%Z by rewrite /start HW.
  have Hw : (4 <= fit_window n <= Z.of_nat n)%Z.
  { rewrite /fit_window. have := Z.div_le_upper_bound (Z.of_nat n) 5 (Z.of_nat n). lia. }
  have Hd : forall i, (0 <= i < fit_window n)%Z -> zget (slice_from (kmean_v n siwk) start) i = Some (Complex 0 (- delta)).
  { move=> i Hi. rewrite /slice_from zlen_kmean zget_slice_in; [|lia|rewrite ?zlen_kmean; lia|lia]. rewrite zget_kmean; [|lia].
    rewrite (eq_bigr (fun _ => Complex 0 (- delta))); [by rewrite mean_const|]. move=> k _. apply: H. lia. }
  have Hv : zlen (map (iv pb) (vn (Z.of_nat n) 0 true)) = Z.of_nat n by rewrite zlen_map /vn zlen_arange; lia.
  have He : forall i, (0 <= i < fit_window n)%Z -> zget (slice_from (map (iv pb) (vn (Z.of_nat n) 0 true)) start) i = Some (iv pb (start + i)).
  { move=> i Hi. rewrite /slice_from Hv zget_slice_in; [|lia|rewrite ?Hv; lia|lia]. by rewrite zget_map /vn zget_arange /=; [|lia]. }
  have L1 : zlen (slice_from (kmean_v n siwk) start) = fit_window n by rewrite /slice_from zlen_kmean zlen_slice_in ?zlen_kmean; lia.
  have L2 : zlen (slice_from (map (iv pb) (vn (Z.of_nat n) 0 true)) start) = fit_window n by rewrite /slice_from Hv zlen_slice_in ?Hv; lia.
  congr (_, _).
  - apply: rmean_const; [rewrite zlen_map L1; lia|]. move=> i a Ha. have := @zget_some_range _ _ _ _ Ha. rewrite zlen_map L1 => Hi.
    move: Ha. by rewrite zget_map Hd //= => -[<-].
  - set l := map _ _. have L : zlen l = fit_window n by rewrite /l zlen_map zlen_combine L1 L2; lia.
    have Ll : length l = Z.to_nat (fit_window n) by move: L; rewrite /zlen; lia.
    rewrite /rmean Ll (@sum_list l (Z.to_nat (fit_window n)) (fun i => - delta * nu pb (Z.of_nat (Z.to_nat start + i)))); last first.
    + move=> i /ssrnat.ltP Hi. rewrite /l zget_map zget_combine Hd ?He; [|lia|lia]. move=> /=. do 3 f_equal. rewrite -plusE. lia.
    + rewrite L. lia.
    + rewrite -mulr_sumr sum_nu mulNr mulNr. congr (- _). rewrite -!mulrA. congr (_ * _). rewrite natrM.
      have HN : (Z.to_nat (fit_window n))%:R != 0 :> R by rewrite pnatr_eq0; apply/eqP; lia.
      rewrite [X in X * _]mulrC -!mulrA [X in _ * X]mulrCA mulfV // mulr1. congr (_ * _).
      rewrite zR_nneg; last lia. congr (_%:R). rewrite -!plusE. lia.
Qed.
Lemma const_se (K : finType) (pb delta err : R) (n : nat) : (0 < #|K|)%nat -> (20 <= n)%nat ->
  let s := sigma_const K pb delta (n + n) err in
  se_ok s /\ se_niv s = n /\ se_smom0 s = 0 /\ se_smom1 s = - (delta * (zR R (2 * Z.of_nat n - fit_window n) * pb)) /\ se_pb s = pb /\ (20 <= se_core s)%Z /\
  forall k v, (0 <= v < Z.of_nat n)%Z -> entry (se_sigma s k) v = Complex 0 (- delta).
Proof.
  move=> HK Hn s. have Hn' : (20 <= Z.of_nat n)%Z by move/ssrnat.leP: Hn; lia.
  have Hhalf : Nat.div (n + n) 2 = n. { rewrite -plusE. replace (Nat.add n n) with (Nat.mul n 2) by lia. by apply: Nat.div_mul. }
  have Hsub : Nat.sub (n + n) (Nat.div (n + n) 2) = n by rewrite Hhalf -plusE; lia.
  have HZ : (Z.of_nat (n + n) / 2)%Z = Z.of_nat n by rewrite -[LHS](Nat2Z.inj_div _ 2) Hhalf.
  pose sg := fun _ : K => slice_from (repeat (Complex 0 (- delta)) (n + n)) (Z.of_nat n).
  have HL : forall k, zlen (sg k) = Z.of_nat n.
  { move=> k. rewrite /sg /slice_from zlen_repeat zlen_slice_in ?zlen_repeat -?plusE; lia. }
  have HE : forall k v, (0 <= v < Z.of_nat n)%Z -> entry (sg k) v = Complex 0 (- delta).
  { move=> k v Hv. apply: (zget_eq_nth 0). rewrite /sg /slice_from zlen_repeat zget_slice_in ?zlen_repeat -?plusE; try lia.
    rewrite zget_repeat //. lia. }
  have Hfit := @fit_const K pb delta n sg HK ltac:(apply/ssrnat.leP; lia) HE.
  have Es : s = SelfEnergy sg n pb 0 (- (delta * (zR R (2 * Z.of_nat n - fit_window n) * pb)))
     (estimate_niv_core sg n pb 0 (- (delta * (zR R (2 * Z.of_nat n - fit_window n) * pb))) err).
  { rewrite /s /sigma_const /make_selfenergy HZ Hsub -/sg. by rewrite Hfit. }
  rewrite Es. have B1 := @estimate_ge R K sg n pb 0 (- (delta * (zR R (2 * Z.of_nat n - fit_window n) * pb))) err.
  have B2 := @estimate_le R K sg n pb 0 (- (delta * (zR R (2 * Z.of_nat n - fit_window n) * pb))) err.
  split.
  { split; first exact: HL. cbn [se_core se_niv]. split.
    - move: B1. set x := estimate_niv_core _ _ _ _ _ _. lia.
    - move: B2. set x := estimate_niv_core _ _ _ _ _ _. lia. }
  do 5 (split; first by []). exact: HE.
Qed.
End Const.
