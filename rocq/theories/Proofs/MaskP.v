(** Boolean-mask indexing: facts about the pairing-vertex masks. *)
From Coq Require Import String Ascii.
From Verif Require Import Base.PyBase Base.PyFacts Base.Arr Model.Matsubara Model.RankFiles Proofs.MatsubaraP.
Set Implicit Arguments.
Local Open Scope Z_scope.
Local Open Scope list_scope.

Lemma flat_map_ext' A B (f g : A -> list B) l : (forall x, In x l -> f x = g x) -> flat_map f l = flat_map g l.
Proof. induction l as [|a l IH]; cbn; intros H; [reflexivity|]. rewrite H by (now left). rewrite IH; auto. Qed.
Lemma flat_map_nil A B (f : A -> list B) l : (forall x, In x l -> f x = []) -> flat_map f l = [].
Proof. induction l as [|a l IH]; cbn; intros H; [reflexivity|]. rewrite H by (now left). rewrite IH; auto. Qed.
Lemma flat_map_single A B (f : A -> B) (g : A -> list B) l : (forall x, In x l -> g x = [f x]) -> flat_map g l = map f l.
Proof. induction l as [|a l IH]; cbn; intros H; [reflexivity|]. rewrite H by (now left). rewrite IH; auto. Qed.
Lemma enumerate_arange n : enumerate (arange 0 n) = map (fun i => (i, i)) (arange 0 n).
Proof.
  apply zget_ext; [rewrite zlen_enumerate, zlen_map; reflexivity|]. rewrite zlen_enumerate. intros i Hi.
  rewrite zget_enumerate, zget_map. rewrite zlen_arange in Hi. rewrite zget_arange by lia. reflexivity.
Qed.
Lemma enumerate_map A B (f : A -> B) l : enumerate (map f l) = map (fun ix => (fst ix, f (snd ix))) (enumerate l).
Proof.
  apply zget_ext; [rewrite zlen_enumerate, !zlen_map, zlen_enumerate; reflexivity|]. intros i Hi.
  rewrite zget_enumerate, !zget_map, zget_enumerate. now destruct (zget l i).
Qed.
Lemma flat_map_map A B C (f : A -> B) (g : B -> list C) l : flat_map g (map f l) = flat_map (fun x => g (f x)) l.
Proof. induction l as [|a l IH]; cbn; [reflexivity|]. now rewrite IH. Qed.

Lemma arange_hit A a b (x : Z) (y : A) : flat_map (fun j => if j =? x then [y] else []) (arange a b) = if (a <=? x) && (x <? b) then [y] else [].
Proof.
  destruct (Z.leb_spec a x), (Z.ltb_spec x b); cbn [andb].
  2,3,4: apply flat_map_nil; intros j Hj; apply In_arange in Hj; destruct (Z.eqb_spec j x); [lia|reflexivity].
  rewrite <- (@arange_app a x b) by lia. rewrite flat_map_app. rewrite (@arange_cons x b) by lia. cbn [flat_map]. rewrite Z.eqb_refl.
  rewrite !flat_map_nil; [reflexivity|..]; intros j Hj; apply In_arange in Hj; destruct (Z.eqb_spec j x); try lia; reflexivity.
Qed.

(** arange written from 0 *)
Lemma arange_shift a b : arange a b = map (fun i => a + i) (arange 0 (b - a)).
Proof. rewrite arange_map_add. f_equal; lia. Qed.

Definition cond_row (n i w : Z) : list bool := map (fun j => i - j =? w) (arange 0 n).
Definition cond_mat (n w : Z) : list (list bool) := map (fun i => cond_row n i w) (arange 0 n).
Lemma condition_mat p w : condition p w = cond_mat (2 * p) w.
Proof.
  unfold condition, get_omega_condition, cond_mat, cond_row. rewrite map_map.
  rewrite (arange_shift (-p) p). replace (p - - p) with (2 * p) by lia. rewrite !map_map. apply map_ext. intros i.
  rewrite !map_map. apply map_ext. intros j. f_equal; lia.
Qed.
Lemma cond_shape n w : 0 <= n -> shape2 (cond_mat n w) n n.
Proof.
  intros Hn. unfold cond_mat, cond_row. split; [rewrite zlen_map, zlen_arange; lia|].
  intros r Hr. apply in_map_iff in Hr. destruct Hr as [i [<- _]]. rewrite zlen_map, zlen_arange. lia.
Qed.
Lemma cond_get n w i j : 0 <= i < n -> 0 <= j < n -> get2 (cond_mat n w) i j = Some (i - j =? w).
Proof.
  intros Hi Hj. unfold get2, cond_mat, cond_row. rewrite zget_map, zget_arange by lia. cbn. rewrite zget_map, zget_arange by lia. cbn.
  f_equal; f_equal; lia.
Qed.
Lemma cond_transpose n w : 0 <= n -> transpose n (cond_mat n w) = cond_mat n (- w).
Proof.
  intros Hn. apply (@shape2_ext _ _ _ n n).
  - apply transpose_shape; [lia|]. now apply cond_shape.
  - now apply cond_shape.
  - intros i j Hi Hj. rewrite (@get2_transpose _ _ n n) by (auto using cond_shape). rewrite !cond_get by lia.
    f_equal. destruct (Z.eqb_spec (j - i) w), (Z.eqb_spec (i - j) (- w)); lia.
Qed.

Lemma true_idx_cond n w : 0 <= n -> true_idx (cond_mat n w) = map (fun i => (i, i - w)) (arange (Z.max 0 w) (Z.min n (n + w))).
Proof.
  intros Hn. unfold true_idx, cond_mat, cond_row. rewrite enumerate_map, enumerate_arange, map_map, flat_map_map. cbn [fst snd].
  transitivity (flat_map (fun i => if (0 <=? i - w) && (i - w <? n) then [(i, i - w)] else []) (arange 0 n)).
  { apply flat_map_ext'. intros i Hi. rewrite enumerate_map, enumerate_arange, map_map, flat_map_map. cbn [fst snd].
    rewrite <- (@arange_hit _ 0 n (i - w) (i, i - w)). apply flat_map_ext'. intros j Hj.
    destruct (Z.eqb_spec (i - j) w), (Z.eqb_spec j (i - w)); try lia; [|reflexivity]. do 2 f_equal. lia. }
  destruct (Z_le_gt_dec (Z.max 0 w) (Z.min n (n + w))) as [H|H].
  - rewrite <- (@arange_app 0 (Z.max 0 w) n) by lia. rewrite <- (@arange_app (Z.max 0 w) (Z.min n (n + w)) n) by lia.
    rewrite !flat_map_app. rewrite (@flat_map_single _ _ (fun i => (i, i - w)) _ (arange (Z.max 0 w) (Z.min n (n + w)))).
    + rewrite !flat_map_nil; [cbn; now rewrite app_nil_r|..]; intros j Hj; apply In_arange in Hj;
      destruct (Z.leb_spec 0 (j - w)), (Z.ltb_spec (j - w) n); try lia; reflexivity.
    + intros j Hj. apply In_arange in Hj. destruct (Z.leb_spec 0 (j - w)), (Z.ltb_spec (j - w) n); try lia; reflexivity.
  - rewrite (@arange_empty (Z.max 0 w)) by lia. cbn. apply flat_map_nil. intros j Hj. apply In_arange in Hj.
    destruct (Z.leb_spec 0 (j - w)), (Z.ltb_spec (j - w) n); try lia; reflexivity.
Qed.

Lemma same_shape_ok A B (l : list (list A)) (m : list (list B)) a b : shape2 l a b -> shape2 m a b -> same_shape l m = true.
Proof.
  intros [Hl Hlr] [Hm Hmr]. unfold same_shape. apply andb_true_iff. split; [apply Z.eqb_eq; lia|].
  apply forallb_forall. intros [x y] Hin. cbn. apply Z.eqb_eq.
  rewrite (Hlr x), (Hmr y); [reflexivity|eapply in_combine_r; eauto|eapply in_combine_l; eauto].
Qed.
Lemma py_get2_ok A (m : list (list A)) i j x : get2 m i j = Some x -> py_get2 m i j = Ok x.
Proof.
  unfold get2, py_get2. destruct (zget m i) as [r|] eqn:E; [|discriminate]. cbn. intros H.
  rewrite (@py_get_nonneg _ m i r); [|apply zget_some_range in E; lia|assumption]. cbn.
  apply py_get_nonneg; [apply zget_some_range in H; lia|assumption].
Qed.

Lemma mask_take_cond A n w (m : list (list A)) : shape2 m n n -> 0 <= n -> Z.abs w < n ->
  exists v, mask_take (cond_mat n w) m = Ok v /\ zlen v = n - Z.abs w /\
    forall k, 0 <= k < n - Z.abs w -> zget v k = get2 m (Z.max 0 w + k) (Z.max 0 w + k - w).
Proof.
  intros Hs Hn Hw. unfold mask_take. rewrite (@same_shape_ok _ _ _ _ n n) by (auto using cond_shape).
  rewrite true_idx_cond by assumption.
  set (idx := map _ _).
  assert (Li : zlen idx = n - Z.abs w) by (unfold idx; rewrite zlen_map, zlen_arange; lia).
  assert (Gi : forall k, 0 <= k < n - Z.abs w -> zget idx k = Some (Z.max 0 w + k, Z.max 0 w + k - w)).
  { intros k Hk. unfold idx. rewrite zget_map, zget_arange by lia. reflexivity. }
  destruct (@mapM_build _ _ (fun ij => py_get2 m (fst ij) (snd ij)) idx) as [v Hv].
  { intros [i j] Hin. apply In_zget in Hin. destruct Hin as [k [Hk Hg]]. rewrite Gi in Hg by lia. injection Hg as <- <-. cbn.
    destruct (@get2_range _ m n n (Z.max 0 w + k) (Z.max 0 w + k - w) Hs) as [x Hx]; [lia|lia|]. exists x. now apply py_get2_ok. }
  exists v. split; [assumption|]. apply mapM_zget in Hv. destruct Hv as [Lv Gv]. split; [lia|].
  intros k Hk. destruct (Gv k _ (Gi k Hk)) as [x [Hx Hp]]. cbn in Hp. rewrite Hx.
  destruct (@get2_range _ m n n (Z.max 0 w + k) (Z.max 0 w + k - w) Hs) as [y Hy]; [lia|lia|]. rewrite (py_get2_ok _ _ _ Hy) in Hp. congruence.
Qed.

Lemma py_set2_ok A (m : list (list A)) a b i j x : shape2 m a b -> 0 <= i < a -> 0 <= j < b ->
  exists r, py_set2 m i j x = Ok r /\ shape2 r a b /\
    forall i' j', 0 <= i' < a -> 0 <= j' < b -> get2 r i' j' = if (i' =? i) && (j' =? j) then Some x else get2 m i' j'.
Proof.
  intros [Hl Hr] Hi Hj. unfold py_set2. destruct (@zget_in_range _ m i ltac:(lia)) as [row E].
  rewrite (@py_get_nonneg _ m i row) by (auto; lia). cbn.
  pose proof (Hr row (zget_In _ _ E)) as Lrow.
  destruct (@py_set_ok _ row j x ltac:(lia)) as [row' [Er [Lr Gr]]]. rewrite Er. cbn.
  destruct (@py_set_ok _ m i row' ltac:(lia)) as [m' [Em [Lm Gm]]]. exists m'. split; [assumption|].
  split; [split; [lia|]|].
  - intros q Hq. apply In_zget in Hq. destruct Hq as [k [Hk Hg]]. rewrite Gm in Hg by lia. destruct (k =? i); [injection Hg as <-; lia|].
    apply Hr. eapply zget_In; eauto.
  - intros i' j' Hi' Hj'. unfold get2. rewrite Gm by lia. destruct (Z.eqb_spec i' i) as [->|N]; cbn [andb]; [|reflexivity].
    rewrite E. cbn. rewrite Gr by lia. reflexivity.
Qed.

Section Add.
Variables (A : Type) (add : A -> A -> A).
Lemma mask_add_cond n w (m : list (list A)) (v : list A) : shape2 m n n -> 0 <= n -> Z.abs w < n -> zlen v = n - Z.abs w ->
  exists r, mask_add add (cond_mat n w) m v = Ok r /\ shape2 r n n /\
    forall i j, 0 <= i < n -> 0 <= j < n ->
      get2 r i j = if i - j =? w then
                     match get2 m i j, zget v (i - Z.max 0 w) with Some x, Some y => Some (add x y) | _, _ => None end
                   else get2 m i j.
Proof.
  intros Hs Hn Hw Hv. unfold mask_add. rewrite (@same_shape_ok _ _ _ _ n n) by (auto using cond_shape).
  rewrite true_idx_cond by assumption. rewrite zlen_map, zlen_arange, Hv. rewrite (proj2 (Z.eqb_eq _ _)) by lia.
  set (lo := Z.max 0 w) in *. set (hi := Z.min n (n + w)) in *.
  (* generalise over the starting point of the loop *)
  assert (G : forall d a v m, Z.to_nat (hi - a) = d -> lo <= a -> zlen v = Z.max 0 (hi - a) -> shape2 m n n ->
    exists r, foldM (fun m ijv => let '((i, j), v) := ijv in let! x := py_get2 m i j in py_set2 m i j (add x v))
                    (combine (map (fun i => (i, i - w)) (arange a hi)) v) m = Ok r /\ shape2 r n n /\
      forall i j, 0 <= i < n -> 0 <= j < n ->
        get2 r i j = if (i - j =? w) && (a <=? i) then
                       match get2 m i j, zget v (i - a) with Some x, Some y => Some (add x y) | _, _ => None end
                     else get2 m i j).
  { clear m v Hs Hv. induction d as [|d IH]; intros a v m Hd Ha Hv Hs.
    - rewrite (@arange_empty a) by lia. cbn. exists m. split; [reflexivity|]. split; [assumption|].
      intros i j Hi Hj. destruct (Z.eqb_spec (i - j) w); [|reflexivity]. destruct (Z.leb_spec a i); [lia|reflexivity].
    - rewrite (@arange_cons a) by lia. destruct v as [|y v]; [rewrite zlen_nil in Hv; lia|]. rewrite zlen_cons in Hv.
      cbn [map combine foldM].
      destruct (@get2_range _ m n n a (a - w) Hs) as [x Hx]; [lia|lia|]. rewrite (py_get2_ok _ _ _ Hx). cbn [bind].
      destruct (@py_set2_ok _ m n n a (a - w) (add x y) Hs) as [m1 [E1 [S1 G1]]]; [lia|lia|]. rewrite E1. cbn [bind].
      destruct (IH (a + 1) v m1) as [r [Er [Sr Gr]]]; try lia; try assumption. exists r. split; [assumption|]. split; [assumption|].
      intros i j Hi Hj. rewrite Gr by assumption. rewrite !G1 by assumption. rewrite zget_cons.
      destruct (Z.eqb_spec (i - j) w); cbn [andb].
      + destruct (Z.leb_spec (a + 1) i), (Z.leb_spec a i); try lia.
        * destruct (Z.eqb_spec i a); [lia|]. cbn [andb]. destruct (Z.eqb_spec (i - a) 0); [lia|]. now replace (i - (a + 1)) with (i - a - 1) by lia.
        * assert (Ei : i = a) by lia. assert (Ej : j = a - w) by lia. rewrite Ei, Ej in *. rewrite !Z.eqb_refl. cbn [andb]. rewrite Hx. replace (a - a =? 0) with true; [reflexivity|]. symmetry. apply Z.eqb_eq. lia.
        * destruct (Z.eqb_spec i a); [lia|]. reflexivity.
      + destruct (Z.eqb_spec i a), (Z.eqb_spec j (a - w)); cbn [andb]; try reflexivity. lia. }
  destruct (G _ lo v m eq_refl) as [r [Er [Sr Gr]]]; try lia; try assumption.
  exists r. split; [assumption|]. split; [assumption|]. intros i j Hi Hj. rewrite Gr by assumption.
  destruct (Z.eqb_spec (i - j) w); cbn [andb]; [|reflexivity]. destruct (Z.leb_spec lo i); [reflexivity|lia].
Qed.
End Add.

(** [get_pp_slice_4pt]: entry k of the slice for w is -mat(v, -v'-1) along v - v' = w *)
Lemma pp_slice_spec A (opp : A -> A) (mat : list (list A)) niv p w : shape2 mat (2 * niv) (2 * niv) -> 0 <= p <= niv -> Z.abs w < 2 * p ->
  exists s, get_pp_slice_4pt opp mat (condition p w) p = Ok s /\ zlen s = 2 * p - Z.abs w /\
    forall i, 0 <= i < 2 * p -> 0 <= i - w < 2 * p ->
      zget s (i - Z.max 0 w) = option_map opp (get2 mat (niv + (i - p)) (niv + (- (i - w - p) - 1))).
Proof.
  intros Hs Hp Hw. unfold get_pp_slice_4pt. rewrite condition_mat.
  set (fl := map (@flip A) mat).
  assert (Sf : shape2 fl (2 * niv) (2 * niv)).
  { destruct Hs as [Hl Hr]. split; [unfold fl; now rewrite zlen_map|]. intros r Hin. apply in_map_iff in Hin. destruct Hin as [r' [<- Hin]].
    unfold flip. rewrite zlen_rev. auto. }
  assert (Gf : forall i j, 0 <= j < 2 * niv -> 0 <= i < 2 * niv -> get2 fl i j = get2 mat i (2 * niv - 1 - j)).
  { intros i j Hj Hi. unfold get2, fl. rewrite zget_map. destruct (zget mat i) as [r|] eqn:E; [|reflexivity]. cbn.
    unfold flip. rewrite zget_rev. destruct Hs as [Hl Hr]. rewrite (Hr r (zget_In _ _ E)). reflexivity. }
  destruct (@cut_v_2_spec _ fl niv p Sf ltac:(lia)) as [Sc Gc].
  destruct (@mask_take_cond _ (2 * p) w _ Sc) as [v [Ev [Lv Gv]]]; [lia|lia|]. rewrite Ev. cbn [rmap].
  eexists; split; [reflexivity|]. rewrite zlen_map. split; [assumption|]. intros i Hi Hj. rewrite zget_map.
  rewrite Gv by lia.
  f_equal. replace (Z.max 0 w + (i - Z.max 0 w)) with (p + (i - p)) by lia.
  replace (p + (i - p) - w) with (p + (i - w - p)) by lia. rewrite Gc by lia. rewrite Gf by lia. f_equal. lia.
Qed.
