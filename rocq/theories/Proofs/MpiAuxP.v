From Verif Require Import Base.PyBase Base.PyFacts Model.MpiAux.
From Coq Require Import ZifyBool ZifyNat Permutation.
Set Implicit Arguments.
Ltac Zify.zify_post_hook ::= Z.div_mod_to_equations.

Lemma zlen_sizes nt p : 0 < p -> zlen (sizes nt p) = p.
Proof.
  intros Hp. unfold sizes. cbv zeta. destruct (_ =? 0); [rewrite zlen_repeat; lia|].
  rewrite zlen_app, zlen_map, zlen_firstn, zlen_skipn, !zlen_repeat.
  match goal with |- context [clampi ?a ?b] => pose proof (@clampi_range a b ltac:(lia)) end. lia.
Qed.

Lemma sizes_get nt p r : 0 <= nt -> 0 < p -> 0 <= r < p ->
  zget (sizes nt p) r = Some (nt / p + (if p - nt mod p <=? r then 1 else 0)).
Proof.
  intros Hn Hp Hr.
  assert (Hm : nt - nt / p * p = nt mod p) by (pose proof (Z.div_mod nt p ltac:(lia)); lia).
  pose proof (Z.mod_pos_bound nt p Hp) as Hb.
  unfold sizes; cbv zeta. rewrite Hm.
  destruct (Z.eqb_spec (nt mod p) 0) as [E|E].
  - rewrite zget_repeat by lia. destruct (Z.leb_spec (p - nt mod p) r); [lia|]. f_equal; lia.
  - rewrite zlen_repeat. replace (Z.of_nat (Z.to_nat p)) with p by lia.
    assert (Ha : clampi p (- (nt mod p)) = p - nt mod p).
    { unfold clampi. destruct (Z.ltb_spec (- (nt mod p)) 0); lia. }
    rewrite Ha. rewrite zget_app, zlen_firstn, zlen_repeat.
    replace (Z.min (Z.of_nat (Z.to_nat (p - nt mod p))) (Z.of_nat (Z.to_nat p))) with (p - nt mod p) by lia.
    destruct (Z.ltb_spec r (p - nt mod p)), (Z.leb_spec (p - nt mod p) r); try lia.
    + rewrite zget_firstn by lia. rewrite zget_repeat by lia. f_equal; lia.
    + rewrite zget_map, zget_skipn by lia. rewrite zget_repeat by lia. reflexivity.
Qed.

Lemma zsum_app l m : zsum (l ++ m) = zsum l + zsum m.
Proof. unfold zsum. induction l as [|x l IH]; cbn [app fold_right]; [reflexivity|]. rewrite IH; lia. Qed.
Lemma zsum_repeat x k : zsum (repeat x k) = Z.of_nat k * x.
Proof. unfold zsum. induction k as [|k IH]; cbn [repeat fold_right]; [reflexivity|]. rewrite IH; lia. Qed.
Lemma firstn_repeat A (x : A) k m : firstn k (repeat x m) = repeat x (Nat.min k m).
Proof. revert m; induction k as [|k IH]; intros [|m]; cbn [firstn repeat Nat.min]; try reflexivity. now rewrite IH. Qed.
Lemma skipn_repeat A (x : A) k m : skipn k (repeat x m) = repeat x (m - k).
Proof. revert m; induction k as [|k IH]; intros [|m]; cbn [skipn repeat Nat.sub]; try reflexivity. now rewrite IH. Qed.
Lemma map_repeat A B (f : A -> B) x k : map f (repeat x k) = repeat (f x) k.
Proof. induction k as [|k IH]; cbn [repeat map]; [reflexivity|now rewrite IH]. Qed.

Lemma zsum_sizes nt p : 0 <= nt -> 0 < p -> zsum (sizes nt p) = nt.
Proof.
  intros Hn Hp.
  assert (Hm : nt - nt / p * p = nt mod p) by (pose proof (Z.div_mod nt p ltac:(lia)); lia).
  pose proof (Z.mod_pos_bound nt p Hp) as Hb.
  unfold sizes; cbv zeta. rewrite Hm.
  destruct (Z.eqb_spec (nt mod p) 0) as [E|E].
  - rewrite zsum_repeat. lia.
  - rewrite zlen_repeat. replace (Z.of_nat (Z.to_nat p)) with p by lia.
    assert (Ha : clampi p (- (nt mod p)) = p - nt mod p).
    { unfold clampi. destruct (Z.ltb_spec (- (nt mod p)) 0); lia. }
    rewrite Ha, firstn_repeat, skipn_repeat, map_repeat, zsum_app, !zsum_repeat. 
    set (q := nt / p) in *. set (m := nt mod p) in *.
    replace (Z.of_nat (Nat.min (Z.to_nat (p - m)) (Z.to_nat p))) with (p - m) by lia.
    replace (Z.of_nat (Z.to_nat p - Z.to_nat (p - m))) with m by lia. nia.
Qed.

Lemma sizes_nonneg nt p x : 0 <= nt -> 0 < p -> In x (sizes nt p) -> 0 <= x.
Proof.
  intros Hn Hp Hin. apply In_zget in Hin. destruct Hin as [i [Hi Hg]].
  rewrite zlen_sizes in Hi by assumption. rewrite sizes_get in Hg by assumption.
  injection Hg as <-. assert (0 <= nt / p) by (apply Z.div_pos; lia). destruct (_ <=? _); lia.
Qed.

(** slices as consecutive intervals *)
Fixpoint intervals (acc : Z) (s : list Z) : list (Z * Z) :=
  match s with [] => [] | x :: xs => (acc, acc + x) :: intervals (acc + x) xs end.

Lemma slices_intervals_from acc s :
  map2 pair (map2 Z.sub (cumsum_from acc s) s) (cumsum_from acc s) = intervals acc s.
Proof.
  revert acc; induction s as [|x s IH]; intros acc; cbn [cumsum_from map2 intervals]; [reflexivity|].
  rewrite IH. repeat f_equal; lia.
Qed.
Lemma slices_of_intervals s : slices_of s = intervals 0 s.
Proof. apply slices_intervals_from. Qed.
Lemma zlen_intervals acc s : zlen (intervals acc s) = zlen s.
Proof. revert acc; induction s as [|x s IH]; intros acc; cbn [intervals]; [reflexivity|]. rewrite !zlen_cons, IH; reflexivity. Qed.

Lemma zsum_nonneg s : (forall x, In x s -> 0 <= x) -> 0 <= zsum s.
Proof.
  induction s as [|x s IH]; intros H; cbn [zsum fold_right]; [lia|]. fold (zsum s).
  assert (0 <= x) by (apply H; now left). assert (0 <= zsum s) by (apply IH; intros y Hy; apply H; now right). lia.
Qed.

Lemma concat_intervals A (data : list A) acc s :
  (forall x, In x s -> 0 <= x) -> 0 <= acc -> acc + zsum s <= zlen data ->
  concat (map (fun ab => slice data (fst ab) (snd ab)) (intervals acc s)) = slice data acc (acc + zsum s).
Proof.
  revert acc; induction s as [|x s IH]; intros acc Hs Ha Hl; cbn [intervals map concat zsum fold_right fst snd] in *.
  - symmetry. replace (acc + 0) with acc by lia.
    apply zget_ext; [rewrite zlen_slice_in by lia; rewrite zlen_nil; lia|].
    intros i Hi. rewrite zlen_slice_in in Hi by lia. lia.
  - fold (zsum s) in *. assert (0 <= x) by (apply Hs; now left).
    assert (0 <= zsum s) by (apply zsum_nonneg; intros y Hy; apply Hs; now right).
    rewrite IH; [|intros y Hy; apply Hs; now right|lia|lia].
    rewrite slice_split by lia. f_equal; lia.
Qed.

(** all ranks' task lists *)
Definition all_my_tasks nt p := mapM (my_tasks nt p) (range p).

Lemma my_tasks_get nt p r : 0 < p -> 0 <= r < p ->
  exists ab, zget (intervals 0 (sizes nt p)) r = Some ab /\
             my_tasks nt p r = Ok (slice (arange 0 nt) (fst ab) (snd ab)).
Proof.
  intros Hp Hr. unfold my_tasks, my_slice, slices. rewrite slices_of_intervals.
  destruct (@py_get_total _ (intervals 0 (sizes nt p)) r) as [ab [Hab Hg]].
  { rewrite zlen_intervals, zlen_sizes; lia. }
  exists ab. rewrite Hab. split; [assumption|reflexivity].
Qed.

Lemma map_ext_zget A B C (f : A -> C) (g : B -> C) (l : list A) (m : list B) :
  zlen l = zlen m -> (forall i a b, zget l i = Some a -> zget m i = Some b -> f a = g b) -> map f l = map g m.
Proof.
  intros Hl H. apply zget_ext; rewrite ?zlen_map; [assumption|]. intros i Hi. rewrite !zget_map.
  destruct (@zget_in_range _ l i ltac:(lia)) as [a Ha]. destruct (@zget_in_range _ m i ltac:(lia)) as [b Hb].
  rewrite Ha, Hb. cbn. f_equal. eauto.
Qed.

Lemma mapM_zget_total A B (f : A -> res B) l r :
  zlen l = zlen r -> (forall i a b, zget l i = Some a -> zget r i = Some b -> f a = Ok b) -> mapM f l = Ok r.
Proof. intros Hl H. apply mapM_ok, Forall2_zget. split; assumption. Qed.

Lemma all_my_tasks_eq nt p : 0 < p ->
  all_my_tasks nt p = Ok (map (fun ab => slice (arange 0 nt) (fst ab) (snd ab)) (intervals 0 (sizes nt p))).
Proof.
  intros Hp. apply mapM_zget_total.
  - unfold range. rewrite zlen_arange, zlen_map, zlen_intervals, zlen_sizes; lia.
  - intros i a b Ha Hb. pose proof (zget_some_range _ _ Ha) as Hr. unfold range in Ha, Hr. rewrite zlen_arange in Hr.
    rewrite zget_arange in Ha by lia. injection Ha as <-.
    destruct (@my_tasks_get nt p i Hp ltac:(lia)) as [ab [Hab Hm]].
    rewrite zget_map, Hab in Hb. injection Hb as <-. replace (0 + i) with i by lia. exact Hm.
Qed.

Lemma tasks_partition nt p : 0 <= nt -> 0 < p ->
  exists ts, mapM (my_tasks nt p) (arange 0 p) = Ok ts /\ concat ts = arange 0 nt.
Proof.
  intros Hn Hp. eexists; split; [apply (all_my_tasks_eq nt Hp)|].
  rewrite concat_intervals.
  - rewrite zsum_sizes by assumption. transitivity (slice (arange 0 nt) 0 (zlen (arange 0 nt))); [f_equal; rewrite zlen_arange; lia|apply slice_full].
  - intros x; now apply sizes_nonneg.
  - lia.
  - rewrite zsum_sizes, zlen_arange by assumption; lia.
Qed.

Lemma intervals_range acc s r a b : (forall x, In x s -> 0 <= x) ->
  zget (intervals acc s) r = Some (a, b) -> acc <= a /\ a <= b /\ b <= acc + zsum s /\ zget s r = Some (b - a).
Proof.
  revert acc r; induction s as [|x s IH]; intros acc r Hs H; cbn [intervals] in H; [now rewrite zget_nil in H|].
  assert (0 <= x) by (apply Hs; now left).
  assert (Hz : 0 <= zsum s) by (apply zsum_nonneg; intros y Hy; apply Hs; now right).
  rewrite zget_cons in H. rewrite zget_cons. cbn [zsum fold_right]. fold (zsum s).
  destruct (r =? 0).
  - injection H as <- <-. repeat split; try lia. f_equal; lia.
  - apply IH in H; [|intros y Hy; apply Hs; now right]. destruct H as (?&?&?&?). repeat split; try lia. assumption.
Qed.

Lemma my_tasks_size nt p r : 0 <= nt -> 0 < p -> 0 <= r < p ->
  exists ts k, my_tasks nt p r = Ok ts /\ my_size nt p r = Ok k /\ zlen ts = k.
Proof.
  intros Hn Hp Hr. destruct (@my_tasks_get nt p r Hp Hr) as [[a b] [Hab Hm]].
  destruct (@intervals_range 0 (sizes nt p) r a b) as (?&?&Hb&Hsz); [intros x; now apply sizes_nonneg|assumption|].
  rewrite zsum_sizes in Hb by assumption.
  exists (slice (arange 0 nt) a b), (b - a). split; [exact Hm|]. split.
  - unfold my_size. apply py_get_nonneg; [lia|assumption].
  - rewrite zlen_slice_in; rewrite ?zlen_arange; lia.
Qed.

Lemma my_size_val nt p r : 0 <= nt -> 0 < p -> 0 <= r < p ->
  my_size nt p r = Ok (nt / p + (if p - nt mod p <=? r then 1 else 0)).
Proof. intros. unfold my_size. apply py_get_nonneg; [lia|]. now apply sizes_get. Qed.

(** scatter / gather *)
Lemma map2_displs A (data : list A) acc s :
  map2 (fun d c => slice data d (d + c)) (map2 Z.sub (cumsum_from acc s) s) s =
  map (fun ab => slice data (fst ab) (snd ab)) (intervals acc s).
Proof.
  revert acc; induction s as [|x s IH]; intros acc; cbn [cumsum_from map2 intervals map fst snd]; [reflexivity|].
  rewrite IH. f_equal. f_equal; lia.
Qed.

Lemma scatter_eq A nt p (data : list A) : 0 <= nt -> 0 < p -> zlen data = nt ->
  scatter nt p data = Ok (map (fun ab => slice data (fst ab) (snd ab)) (intervals 0 (sizes nt p))).
Proof.
  intros Hn Hp Hl. unfold scatter, scatterv. rewrite zsum_sizes by assumption.
  destruct (Z.leb_spec nt (zlen data)); [|lia]. f_equal. unfold displs. apply map2_displs.
Qed.

Lemma gather_from A (s : list Z) (bufs : list (list A)) acc tot :
  (forall x, In x s -> 0 <= x) -> 0 <= acc -> acc + zsum s = zlen tot ->
  Forall2 (fun c b => zlen b = c) s bufs ->
  exists r, foldM (fun tot dcb =>
           let '(d, c, b) := dcb in
           if zlen b =? c then assign_slice tot d (d + c) (map Some b) else Raise ValueError)
        (combine (combine (map2 Z.sub (cumsum_from acc s) s) s) bufs) tot = Ok r
   /\ r = firstn (Z.to_nat acc) tot ++ map Some (concat bufs).
Proof.
  intros Hs Ha Hl HF. revert acc tot Hs Ha Hl; induction HF as [|c b s bufs Hcb HF IH]; intros acc tot Hs Ha Hl;
    cbn [cumsum_from map2 combine foldM concat map zsum fold_right] in *.
  - eexists; split; [reflexivity|]. rewrite app_nil_r. symmetry. apply firstn_all2. unfold zlen in Hl; lia.
  - fold (zsum s) in *. assert (0 <= c) by (apply Hs; now left).
    assert (0 <= zsum s) by (apply zsum_nonneg; intros y Hy; apply Hs; now right).
    replace (acc + c - c) with acc by lia.
    destruct (Z.eqb_spec (zlen b) c); [|lia].
    destruct (@assign_slice_ok _ tot acc (acc + c) (map Some b)) as (r & Hr & Hrl & Hrg); [lia|lia|lia|rewrite zlen_map; lia|].
    rewrite Hr. cbn [bind].
    destruct (IH (acc + c) r) as (r2 & Hr2 & Er2); [intros y Hy; apply Hs; now right|lia|lia|].
    rewrite Hr2. eexists; split; [reflexivity|]. subst r2.
    rewrite map_app, app_assoc. f_equal.
    apply zget_ext.
    + rewrite zlen_app, !zlen_firstn, zlen_map. lia.
    + intros i Hi. rewrite zlen_firstn in Hi. rewrite zget_firstn by lia. rewrite Hrg by lia.
      rewrite zget_app, zlen_firstn.
      replace (Z.min (Z.of_nat (Z.to_nat acc)) (zlen tot)) with acc by lia.
      destruct (Z.leb_spec acc i), (Z.ltb_spec i (acc + c)), (Z.ltb_spec i acc); cbn [andb]; try lia.
      * reflexivity.
      * rewrite zget_firstn by lia. reflexivity.
Qed.

Lemma gather_eq A nt p (bufs : list (list A)) : 0 <= nt -> 0 < p ->
  Forall2 (fun c b => zlen b = c) (sizes nt p) bufs ->
  gather nt p bufs = Ok (map Some (concat bufs)).
Proof.
  intros Hn Hp HF. unfold gather, gatherv, displs, cumsum.
  destruct (@gather_from A (sizes nt p) bufs 0 (repeat None (Z.to_nat nt))) as (r & Hr & Er).
  - intros x; now apply sizes_nonneg.
  - lia.
  - rewrite zsum_sizes, zlen_repeat by assumption; lia.
  - assumption.
  - rewrite Hr. rewrite Er. reflexivity.
Qed.

Lemma intervals_lengths A (data : list A) acc s :
  (forall x, In x s -> 0 <= x) -> 0 <= acc -> acc + zsum s <= zlen data ->
  Forall2 (fun c b => zlen b = c) s (map (fun ab => slice data (fst ab) (snd ab)) (intervals acc s)).
Proof.
  revert acc; induction s as [|x s IH]; intros acc Hs Ha Hl; cbn [intervals map zsum fold_right fst snd] in *; constructor.
  - fold (zsum s) in *. assert (0 <= x) by (apply Hs; now left).
    assert (0 <= zsum s) by (apply zsum_nonneg; intros y Hy; apply Hs; now right).
    rewrite zlen_slice_in; lia.
  - fold (zsum s) in *. assert (0 <= x) by (apply Hs; now left).
    apply IH; [intros y Hy; apply Hs; now right|lia|lia].
Qed.

Lemma scatter_map_gather A B nt p (f : A -> B) (data : list A) :
  0 <= nt -> 0 < p -> zlen data = nt ->
  exists pieces, scatter nt p data = Ok pieces /\ zlen pieces = p /\
    gather nt p (map (map f) pieces) = Ok (map Some (map f data)).
Proof.
  intros Hn Hp Hl. eexists; split; [now apply scatter_eq|]. split.
  { now rewrite zlen_map, zlen_intervals, zlen_sizes. }
  rewrite gather_eq; [|assumption|assumption|].
  - rewrite <- concat_map. rewrite concat_intervals.
    + rewrite zsum_sizes by assumption. rewrite <- Hl. replace (0 + zlen data) with (zlen data) by lia. now rewrite slice_full.
    + intros x; now apply sizes_nonneg.
    + lia.
    + rewrite zsum_sizes by assumption; lia.
  - pose proof (@intervals_lengths A data 0 (sizes nt p)) as HF.
    specialize (HF (fun x => @sizes_nonneg nt p x Hn Hp) ltac:(lia)).
    rewrite zsum_sizes in HF by assumption. specialize (HF ltac:(lia)).
    revert HF. generalize (map (fun ab : Z * Z => slice data (fst ab) (snd ab)) (intervals 0 (sizes nt p))).
    generalize (sizes nt p). intros s l HF. induction HF as [|c b s l Hcb HF IH]; cbn [map]; constructor; [now rewrite zlen_map|assumption].
Qed.

(** reductions *)
Lemma fold_right_concat M (op : M -> M -> M) e (l : list (list M)) :
  (forall a b c, op a (op b c) = op (op a b) c) -> (forall a, op e a = a) ->
  fold_right op e (map (fold_right op e) l) = fold_right op e (concat l).
Proof.
  intros Ha He. induction l as [|x l IH]; cbn [map fold_right concat]; [reflexivity|].
  rewrite IH. clear IH. induction x as [|y x IHx]; cbn [fold_right app].
  - apply He.
  - rewrite <- Ha, IHx. reflexivity.
Qed.
Lemma fold_right_perm M (op : M -> M -> M) e (l m : list M) :
  (forall a b c, op a (op b c) = op (op a b) c) -> (forall a b, op a b = op b a) ->
  Permutation l m -> fold_right op e l = fold_right op e m.
Proof.
  intros Ha Hc HP; induction HP as [|x l m HP IH|x y l|l m k HP1 IH1 HP2 IH2]; cbn [fold_right].
  - reflexivity.
  - now rewrite IH.
  - rewrite !Ha. f_equal. apply Hc.
  - congruence.
Qed.

Lemma allreduce_serial M (op : M -> M -> M) e (f : Z -> M) nt p order :
  (forall a b c, op a (op b c) = op (op a b) c) -> (forall a b, op a b = op b a) -> (forall a, op e a = a) ->
  0 <= nt -> 0 < p -> Permutation order (arange 0 p) ->
  allreduce op e order (rank_partial op e f nt p) = fold_right op e (map f (arange 0 nt)).
Proof.
  intros Ha Hc He Hn Hp HP. unfold allreduce.
  rewrite (@fold_right_perm M op e _ (map (rank_partial op e f nt p) (arange 0 p)) Ha Hc).
  2:{ now apply Permutation_map. }
  destruct (@tasks_partition nt p Hn Hp) as (ts & Hts & Hcat).
  assert (E : map (rank_partial op e f nt p) (arange 0 p) = map (fold_right op e) (map (map f) ts)).
  { apply mapM_ok in Hts. clear -Hts. induction Hts as [|r t rs ts Hr HF IH]; cbn [map]; [reflexivity|].
    rewrite IH. f_equal. unfold rank_partial. now rewrite Hr. }
  rewrite E. rewrite fold_right_concat by assumption. rewrite <- concat_map, Hcat. reflexivity.
Qed.
