(** What the loaders return. *)
From Coq Require Import String Ascii Sorting.Sorted.
From Verif Require Import Base.PyBase Base.PyFacts Base.Arr Model.Util Model.Matsubara Model.MpiAux Model.RankFiles
  Proofs.UtilP Proofs.MpiAuxP Proofs.MatsubaraP Proofs.StrP Proofs.MaskP Proofs.RankFilesP Proofs.RankOpsP Proofs.RankLoadP Spec.RankSpec.
Set Implicit Arguments.
Local Open Scope string_scope.
Local Open Scope list_scope.
Local Open Scope Z_scope.

Definition pair_eqb (a b : Z * Z) : bool := (fst a =? fst b) && (snd a =? snd b).
Lemma pair_eqb_eq a b : pair_eqb a b = true <-> a = b.
Proof. destruct a as [a1 a2], b as [b1 b2]. unfold pair_eqb. cbn. rewrite andb_true_iff, !Z.eqb_eq. split; [intros [-> ->]; reflexivity|intros E; injection E; auto]. Qed.

Section Monoid.
Variables (A : Type) (zero : A) (add : A -> A -> A).
Hypothesis add_assoc : forall x y z, add x (add y z) = add (add x y) z.
Hypothesis add_comm : forall x y, add x y = add y x.
Hypothesis add_zero : forall x, add x zero = x.
Variables (p1 p2 : Z * Z) (a b : A).
Definition step2 (x : A) (p : Z * Z) : A :=
  let x1 := if pair_eqb p p1 then add x a else x in if pair_eqb p p2 then add x1 b else x1.
Let sel (t : bool) (v : A) := if t then v else zero.
Lemma step2_sel x p : step2 x p = add x (add (sel (pair_eqb p p1) a) (sel (pair_eqb p p2) b)).
Proof.
  unfold step2, sel. destruct (pair_eqb p p1), (pair_eqb p p2); rewrite ?add_zero; auto.
  now rewrite (add_comm zero b), add_zero.
Qed.
Lemma two_hits l : forall x, NoDup l ->
  fold_left step2 l x = add x (add (sel (existsb (fun p => pair_eqb p p1) l) a) (sel (existsb (fun p => pair_eqb p p2) l) b)).
Proof.
  induction l as [|p l IH]; intros x Hn; cbn [fold_left existsb]; [unfold sel; now rewrite !add_zero|].
  inversion Hn as [|? ? Hp Hn']; subst. rewrite IH by assumption. rewrite step2_sel.
  assert (S : forall pk v, sel (pair_eqb p pk || existsb (fun p0 => pair_eqb p0 pk) l) v = add (sel (pair_eqb p pk) v) (sel (existsb (fun p0 => pair_eqb p0 pk) l) v)).
  { intros pk v. destruct (pair_eqb p pk) eqn:E1, (existsb (fun p0 => pair_eqb p0 pk) l) eqn:E2; cbn [orb sel].
    - exfalso. apply existsb_exists in E2. destruct E2 as [p' [Hin E2]]. apply pair_eqb_eq in E1, E2. congruence.
    - unfold sel. now rewrite add_zero.
    - unfold sel. now rewrite add_comm, add_zero.
    - unfold sel. now rewrite add_zero. }
  rewrite !S. generalize (sel (pair_eqb p p1) a) (sel (pair_eqb p p2) b) (sel (existsb (fun p0 => pair_eqb p0 p1) l) a) (sel (existsb (fun p0 => pair_eqb p0 p2) l) b).
  intros e1 e2 m1 m2. rewrite <- !add_assoc. f_equal. f_equal. rewrite !add_assoc. f_equal. apply add_comm.
Qed.
Lemma two_hits_in l : NoDup l -> In p1 l -> In p2 l -> fold_left step2 l zero = add a b.
Proof.
  intros Hn H1 H2. rewrite two_hits by assumption.
  assert (E : forall pk, In pk l -> existsb (fun p => pair_eqb p pk) l = true).
  { intros pk Hin. apply existsb_exists. exists pk. split; [assumption|now apply pair_eqb_eq]. }
  rewrite !E by assumption. unfold sel. now rewrite add_comm, add_zero.
Qed.
End Monoid.

Lemma zget_zeros3 A (z : A) a b c q i j : 0 <= q < a -> 0 <= i < b -> 0 <= j < c -> get3 (zeros3 z a b c) q i j = Some z.
Proof.
  intros Hq Hi Hj. unfold get3, get2, zeros3. rewrite zget_repeat by lia. cbn. rewrite zget_repeat by lia. cbn. now rewrite zget_repeat by lia.
Qed.
Lemma shape3_zeros3 A (z : A) a b c : 0 <= a -> 0 <= b -> 0 <= c -> shape3 (zeros3 z a b c) a b c.
Proof.
  intros. unfold zeros3. split; [rewrite zlen_repeat; lia|]. intros r Hr. apply repeat_spec in Hr. subst.
  split; [rewrite zlen_repeat; lia|]. intros r Hr. apply repeat_spec in Hr. subst. rewrite zlen_repeat; lia.
Qed.
Lemma set_row3 A (acc : list (list (list A))) a b c q m : shape3 acc a b c -> shape2 m b c -> 0 <= q < a ->
  exists acc', py_set acc q m = Ok acc' /\ shape3 acc' a b c /\
    forall q' i j, 0 <= q' < a -> get3 acc' q' i j = if q' =? q then get2 m i j else get3 acc q' i j.
Proof.
  intros [Hl Hr] Hm Hq. destruct (@py_set_ok _ acc q m ltac:(lia)) as [acc' [E [L G]]]. exists acc'. split; [assumption|]. split; [split; [lia|]|].
  - intros r Hin. apply In_zget in Hin. destruct Hin as [k [Hk Hg]]. rewrite G in Hg by lia. destruct (k =? q); [congruence|].
    apply Hr. eapply zget_In; eauto.
  - intros q' i j Hq'. unfold get3. rewrite G by lia. destruct (q' =? q); reflexivity.
Qed.

Section P.
Variable A : Type.
Variables (zero : A) (add : A -> A -> A) (opp half conj : A -> A).
Variable c : cfg.
Hypothesis Hc : cfg_ok c.
Variable d : vdata A.
Variables nq p : Z.
Hypothesis Hd : data_ok c d nq.
Hypothesis Hnq : 0 <= nq.
Hypothesis Hp : 0 < p.
Hypothesis Hvp : vertex_pos c.
Variables (path name : string) (fs : fsys A).
Hypothesis Hfiles : forall r, 0 <= r < p -> exists tasks f, rank_file opp c d nq p path name fs r tasks f.
Variable ds : string.
Hypothesis Hds : In ds names4.
Let a4 := comp d ds.
Let n := 2 * niv_pp c.

(** ** pairing vertex *)
Definition X (q i j : Z) : A :=
  match get4 a4 q (niw_core c + (i - j)) (niv_core c + (i - niv_pp c)) (niv_core c + (- (j - niv_pp c) - 1)) with
  | Some x => opp x | None => zero end.
Definition pstep (q i j : Z) : A -> Z * Z -> A :=
  step2 add (q, i - j) (q, j - i) (half (X q i j)) (half (conj (X q j i))).
Definition pInv (done : list (Z * Z)) (acc : list (list (list A))) : Prop :=
  shape3 acc nq n n /\ forall q i j, 0 <= q < nq -> 0 <= i < n -> 0 <= j < n ->
    get3 acc q i j = Some (fold_left (pstep q i j) done zero).

Lemma pairing_step r tasks f q w done acc : 0 <= r < p -> rank_file opp c d nq p path name fs r tasks f -> In q tasks -> in_dom c "pv_" w ->
  pInv done acc -> exists acc', pairing_body add half conj ds f acc (group_name "pv_" q w) = Ok acc' /\ pInv (done ++ [(q, w)]) acc'.
Proof.
  intros Hr Hf Hq D [Hs HI]. destruct (rank_contents Hc Hd Hnq Hp Hvp Hr Hf) as [C1 [C2 [C3 C4]]]. pose proof (C4 q Hq) as Hq'.
  assert (Hw : Z.abs w < n). { destruct D as [_ [_ D]]. unfold wok in D. cbn in D. apply Z.ltb_lt in D. exact D. }
  assert (Hw' : - niw_core c <= w <= niw_core c). { destruct D as [_ [D _]]. now apply In_wn in D. }
  pose proof (npp_le Hc) as Hpp.
  unfold pairing_body. rewrite findall_group by (try reflexivity; lia).
  change (py_get [q; Z.abs w] 0) with (@Ok Z q). cbn [bind]. unfold lookup. rewrite (C2 q w D Hq). cbn [bind as_mask].
  rewrite (C1 "pv_" q w ds D Hq Hds). unfold V. change (String.eqb "pv_" "pv_") with true. cbv iota. cbn [bind as_vec].
  destruct (M_get Hd w Hds Hq' Hw') as [_ [SM GM]] || destruct (M_get Hd Hds Hq' Hw') as [_ [SM GM]].
  destruct (@pp_slice_spec _ opp (M c d ds q w) (niv_core c) (niv_pp c) w SM ltac:(lia) Hw) as [s [Es [Ls Gs]]]. rewrite Es.
  destruct Hs as [Hl Hrows]. destruct (@zget_in_range _ acc q ltac:(lia)) as [m Em].
  pose proof (Hrows m (zget_In _ _ Em)) as Sm. rewrite (@py_get_nonneg _ acc q m) by (auto; lia). cbn [bind].
  rewrite condition_mat. fold n. fold n in Ls, Gs, Hpp.
  assert (Hcols : match cond_mat n w with r0 :: _ => zlen r0 | [] => 0 end = n).
  { destruct (@cond_shape n w ltac:(lia)) as [L1 L2]. destruct (cond_mat n w) as [|r0 l0]; [rewrite zlen_nil in L1; lia|]. apply L2. now left. }
  rewrite Hcols, cond_transpose by lia.
  destruct (@mask_add_cond _ add n w m (map half s) Sm ltac:(lia) Hw ltac:(rewrite zlen_map; exact Ls)) as [m1 [E1 [S1 G1]]].
  rewrite E1. cbn [bind].
  destruct (@mask_add_cond _ add n (- w) m1 (map (fun x => half (conj x)) s) S1 ltac:(lia) ltac:(lia) ltac:(rewrite zlen_map; lia)) as [m2 [E2 [S2 G2]]].
  rewrite E2. cbn [bind].
  destruct (@set_row3 _ acc nq n n q m2 (Logic.conj Hl Hrows) S2 Hq') as [acc' [Ea [Sa Ga]]]. exists acc'. split; [assumption|]. split; [assumption|].
  intros q' i j Hq0 Hi Hj. rewrite Ga by assumption. rewrite fold_left_app. cbn [fold_left].
  unfold pstep at 1, step2, pair_eqb. cbn [fst snd]. destruct (Z.eqb_spec q' q) as [->|N].
  2:{ destruct (Z.eqb_spec q q'); [lia|]. cbn [andb]. apply HI; assumption. }
  rewrite Z.eqb_refl. cbn [andb].
  assert (Hm : get2 m i j = Some (fold_left (pstep q i j) done zero)).
  { rewrite <- (HI q i j) by assumption. unfold get3. rewrite Em. reflexivity. }
  assert (Xv : forall i' j', 0 <= i' < n -> 0 <= j' < n -> i' - j' = w -> zget s (i' - Z.max 0 w) = Some (X q i' j')).
  { intros i' j' Hi' Hj' Ew. rewrite Gs by lia. rewrite GM. unfold X, a4. rewrite Ew. replace (i' - w - niv_pp c) with (j' - niv_pp c) by lia.
    destruct (comp_shape Hd Hds) as [Lc Rc].
    destruct (@get4 _ (comp d ds) q (niw_core c + w) (niv_core c + (i' - niv_pp c)) (niv_core c + (- (j' - niv_pp c) - 1))) eqn:Eg; [reflexivity|].
    exfalso. rewrite <- GM in Eg. destruct (@get2_range _ _ _ _ (niv_core c + (i' - niv_pp c)) (niv_core c + (- (j' - niv_pp c) - 1)) SM) as [x Hx]; [lia|lia|congruence]. }
  rewrite G2 by assumption. rewrite G1 by assumption. rewrite !zget_map.
  destruct (Z.eqb_spec (i - j) w) as [Ew|Nw], (Z.eqb_spec w (i - j)); try lia.
  - rewrite Hm, (Xv i j) by assumption. cbn [option_map].
    destruct (Z.eqb_spec (i - j) (- w)) as [Ew2|Nw2], (Z.eqb_spec w (j - i)); try lia; [|reflexivity].
    replace (i - Z.max 0 (- w)) with (j - Z.max 0 w) by lia. rewrite (Xv j i) by (try assumption; lia). reflexivity.
  - rewrite Hm. destruct (Z.eqb_spec (i - j) (- w)) as [Ew2|Nw2], (Z.eqb_spec w (j - i)); try lia; [|reflexivity].
    replace (i - Z.max 0 (- w)) with (j - Z.max 0 w) by lia. rewrite (Xv j i) by (try assumption; lia). reflexivity.
Qed.

Hypothesis add_assoc : forall x y z, add x (add y z) = add (add x y) z.
Hypothesis add_comm : forall x y, add x y = add y x.
Hypothesis add_zero : forall x, add x zero = x.

Lemma load_pairing_val : do_pairing c = true ->
  exists res, load_pairing zero add half conj ds fs path name p nq (niv_pp c) = Ok res /\ shape3 res nq n n /\
    forall q i j, 0 <= q < nq -> 0 <= i < n -> 0 <= j < n -> get3 res q i j = Some (add (half (X q i j)) (half (conj (X q j i)))).
Proof.
  intros Hdo. pose proof (npp_le Hc) as Hpp.
  destruct (@order_exists A opp c Hc d nq p Hd Hnq Hp Hvp path name fs Hfiles "pv_" ltac:(cbn; tauto)) as [L HL].
  destruct (@for_keys_inv A opp c d nq p path name fs _ (pairing_body add half conj ds) "pv_" L (zeros3 zero nq n n) pInv HL) as [res [E [Sr Gr]]].
  - split; [apply shape3_zeros3; lia|]. intros q i j Hq Hi Hj. cbn. apply zget_zeros3; assumption.
  - intros. eapply pairing_step; eauto.
  - exists res. split; [exact E|]. split; [assumption|]. intros q i j Hq Hi Hj. rewrite Gr by assumption. f_equal.
    assert (Dom : forall w, Z.abs w < n -> in_dom c "pv_" w).
    { intros w Hw. split; [unfold prefixes; rewrite Hdo; now left|]. split; [apply In_wn; lia|]. unfold wok. cbn. apply Z.ltb_lt. exact Hw. }
    apply two_hits_in; try assumption.
    + eapply order_NoDup; eauto.
    + apply (order_In Hc Hd Hnq Hp Hvp Hfiles q (i - j) HL). split; [assumption|]. apply Dom. lia.
    + apply (order_In Hc Hd Hnq Hp Hvp Hfiles q (j - i) HL). split; [assumption|]. apply Dom. lia.
Qed.

End P.

(** ** full vertex and optics vertex *)
Section PV.
Variable A : Type.
Variables (zero : A) (opp : A -> A).
Variable c : cfg.
Hypothesis Hc : cfg_ok c.
Variable d : vdata A.
Variables nq p : Z.
Hypothesis Hd : data_ok c d nq.
Hypothesis Hnq : 0 <= nq.
Hypothesis Hp : 0 < p.
Hypothesis Hvp : vertex_pos c.
Variables (path name : string) (fs : fsys A).
Hypothesis Hfiles : forall r, 0 <= r < p -> exists tasks f, rank_file opp c d nq p path name fs r tasks f.
Variable ds : string.
Hypothesis Hds : In ds names4.
Section Vertex.
Variables (pf : string) (rows cols niw : Z) (F : Z -> Z -> list (list A)).
Hypothesis Hpf : In pf ["f_"; "fq_"].
Hypothesis Hrows : 0 <= rows.
Hypothesis Hcols : 0 <= cols.
Hypothesis HF : forall q w, 0 <= q < nq -> in_dom c pf w -> V opp c d pf ds q w = DMat (F q w) /\ shape2 (F q w) rows cols.
Hypothesis Hdom : forall w, in_dom c pf w <-> - niw <= w <= niw.
Hypothesis Hniw : 0 <= niw.
Let zmat := repeat (repeat zero (Z.to_nat cols)) (Z.to_nat rows).
Definition vstep (q s : Z) (m : list (list A)) (p0 : Z * Z) : list (list A) :=
  if (fst p0 =? q) && (Z.abs (snd p0) + niw =? s) then F (fst p0) (snd p0) else m.
Definition get_mat (acc : arr4 A) (q s : Z) : option (list (list A)) := obind (zget acc q) (fun r => zget r s).
Definition vInv (done : list (Z * Z)) (acc : arr4 A) : Prop :=
  zlen acc = nq /\ (forall r, In r acc -> zlen r = 2 * niw + 1) /\
  forall q s, 0 <= q < nq -> 0 <= s < 2 * niw + 1 -> get_mat acc q s = Some (fold_left (vstep q s) done zmat).

Lemma shape_is_ok (m : list (list A)) : shape2 m rows cols -> shape_is m rows cols = true.
Proof.
  intros [Hl Hr]. unfold shape_is. apply andb_true_iff. split; [now apply Z.eqb_eq|]. apply forallb_forall. intros r Hin. apply Z.eqb_eq. auto.
Qed.
Lemma vertex_step r tasks f q w done acc : 0 <= r < p -> rank_file opp c d nq p path name fs r tasks f -> In q tasks -> in_dom c pf w ->
  vInv done acc -> exists acc', vertex_body rows cols niw ds f acc (group_name pf q w) = Ok acc' /\ vInv (done ++ [(q, w)]) acc'.
Proof.
  intros Hr Hf Hq D [Hl [Hrs HI]]. destruct (rank_contents Hc Hd Hnq Hp Hvp Hr Hf) as [C1 [C2 [C3 C4]]]. pose proof (C4 q Hq) as Hq'.
  pose proof (proj1 (Hdom w) D) as Hw. destruct (HF q w Hq' D) as [EV SF] || destruct (HF Hq' D) as [EV SF].
  unfold vertex_body. rewrite findall_group by (try lia; destruct Hpf as [<-|[<-|[]]]; reflexivity).
  change (py_get [q; Z.abs w] 0) with (@Ok Z q). change (py_get [q; Z.abs w] 1) with (@Ok Z (Z.abs w)). cbn [bind].
  unfold lookup. rewrite (C1 pf q w ds D Hq Hds), EV. cbn [bind as_mat].
  destruct (@zget_in_range _ acc q ltac:(lia)) as [row Er]. rewrite (@py_get_nonneg _ acc q row) by (auto; lia). cbn [bind].
  rewrite shape_is_ok by assumption. pose proof (Hrs row (zget_In _ _ Er)) as Lr.
  destruct (@py_set_ok _ row (Z.abs w + niw) (F q w) ltac:(lia)) as [row' [E1 [L1 G1]]]. rewrite E1. cbn [bind].
  destruct (@py_set_ok _ acc q row' ltac:(lia)) as [acc' [E2 [L2 G2]]]. exists acc'. split; [assumption|]. split; [lia|]. split.
  - intros r0 Hin. apply In_zget in Hin. destruct Hin as [k [Hk Hg]]. rewrite G2 in Hg by lia. destruct (k =? q); [injection Hg as <-; lia|].
    apply Hrs. eapply zget_In; eauto.
  - intros q' s Hq0 Hs. rewrite fold_left_app. cbn [fold_left]. unfold get_mat. rewrite G2 by lia. unfold vstep at 1. cbn [fst snd].
    destruct (Z.eqb_spec q' q) as [->|N].
    + rewrite Z.eqb_refl. cbn [andb obind]. rewrite G1 by lia. destruct (Z.eqb_spec s (Z.abs w + niw)), (Z.eqb_spec (Z.abs w + niw) s); try lia; [reflexivity|].
      rewrite <- (HI q s) by assumption. unfold get_mat. now rewrite Er.
    + destruct (Z.eqb_spec q q'); [lia|]. cbn [andb]. apply HI; assumption.
Qed.
Lemma vstep_nohit q s l m : (forall q' w', In (q', w') l -> ~ (q' = q /\ Z.abs w' + niw = s)) -> fold_left (vstep q s) l m = m.
Proof.
  revert m; induction l as [|[q' w'] l IH]; intros m H; cbn [fold_left]; [reflexivity|]. rewrite IH by (intros; apply H; now right).
  unfold vstep. cbn [fst snd]. destruct (Z.eqb_spec q' q), (Z.eqb_spec (Z.abs w' + niw) s); cbn [andb]; try reflexivity. exfalso. eapply H; [now left|auto].
Qed.
Lemma load_vertex_val : exists res, load_vertex_gen zero pf rows cols ds fs path name p nq niw = Ok res /\
  zlen res = nq /\ (forall r, In r res -> zlen r = 2 * niw + 1) /\
  (forall q w, 0 <= q < nq -> 0 <= w <= niw -> get_mat res q (niw + w) = Some (F q w)) /\
  (forall q w, 0 <= q < nq -> - niw <= w < 0 -> get_mat res q (niw + w) = Some zmat).
Proof.
  destruct (@order_exists A opp c Hc d nq p Hd Hnq Hp Hvp path name fs Hfiles pf ltac:(destruct Hpf as [<-|[<-|[]]]; cbn; tauto)) as [L HL].
  destruct (@for_keys_inv A opp c d nq p path name fs _ (vertex_body rows cols niw ds) pf L
             (repeat (repeat zmat (Z.to_nat (2 * niw + 1))) (Z.to_nat nq)) vInv HL) as [res [E [L1 [R1 G1]]]].
  - split; [rewrite zlen_repeat; lia|]. split.
    + intros r Hr. apply repeat_spec in Hr. subst r. rewrite zlen_repeat. lia.
    + intros q s Hq Hs. unfold get_mat. rewrite zget_repeat by lia. cbn [obind]. now rewrite zget_repeat by lia.
  - intros. eapply vertex_step; eauto.
  - exists res. split; [exact E|]. split; [assumption|]. split; [assumption|]. split.
    + intros q w Hq Hw. rewrite G1 by lia. f_equal.
      assert (Hin : In (q, w) L) by (apply (order_In Hc Hd Hnq Hp Hvp Hfiles q w HL); split; [assumption|apply Hdom; lia]).
      apply in_split in Hin. destruct Hin as [l1 [l2 EL]]. rewrite EL, fold_left_app. cbn [fold_left].
      rewrite vstep_nohit.
      * unfold vstep. cbn [fst snd]. rewrite Z.eqb_refl. destruct (Z.eqb_spec (Z.abs w + niw) (niw + w)); [reflexivity|lia].
      * intros q' w' Hin [-> Hs]. assert (Hww : w' = w \/ w' = - w) by lia. destruct Hww as [-> | ->].
        -- pose proof (order_NoDup Hnq Hp HL) as HN. rewrite EL in HN. apply NoDup_remove_2 in HN. apply HN. rewrite in_app_iff. now right.
        -- apply (@order_last A opp c Hc d nq p Hd Hnq Hp Hvp path name fs Hfiles pf L q w l1 l2 HL ltac:(lia) EL). exact Hin.
    + intros q w Hq Hw. rewrite G1 by lia. f_equal. apply vstep_nohit. intros q' w' Hin [-> Hs]. lia.
Qed.
End Vertex.
End PV.
