(** Lemmas about the primitives of [PyBase]. *)
From Verif Require Import Base.PyBase.
From Coq Require Import ZifyBool ZifyNat FinFun.
Set Implicit Arguments.
Ltac Zify.zify_post_hook ::= Z.div_mod_to_equations.

(** * [zlen], [zget] *)
Lemma zlen_nonneg A (l : list A) : 0 <= zlen l.
Proof. unfold zlen; lia. Qed.
Lemma zlen_nil A : zlen (@nil A) = 0. Proof. reflexivity. Qed.
Lemma zlen_cons A (a : A) l : zlen (a :: l) = 1 + zlen l.
Proof. unfold zlen; cbn [length]; lia. Qed.
Lemma zlen_app A (l m : list A) : zlen (l ++ m) = zlen l + zlen m.
Proof. unfold zlen; rewrite app_length; lia. Qed.
Lemma zlen_map A B (f : A -> B) l : zlen (map f l) = zlen l.
Proof. unfold zlen; now rewrite map_length. Qed.
Lemma zlen_rev A (l : list A) : zlen (rev l) = zlen l.
Proof. unfold zlen; now rewrite rev_length. Qed.
Lemma zlen_firstn A k (l : list A) : zlen (firstn k l) = Z.min (Z.of_nat k) (zlen l).
Proof. unfold zlen; rewrite firstn_length; lia. Qed.
Lemma zlen_skipn A k (l : list A) : zlen (skipn k l) = Z.max 0 (zlen l - Z.of_nat k).
Proof. unfold zlen; rewrite skipn_length; lia. Qed.
Lemma zlen_repeat A (a : A) k : zlen (repeat a k) = Z.of_nat k.
Proof. unfold zlen; now rewrite repeat_length. Qed.
Lemma zlen_map2 A B C (f : A -> B -> C) l m : zlen (map2 f l m) = Z.min (zlen l) (zlen m).
Proof.
  revert m; induction l as [|a l IH]; intros [|b m]; cbn [map2]; rewrite ?zlen_nil, ?zlen_cons; try (pose proof (zlen_nonneg l)); try (pose proof (zlen_nonneg m)); try lia.
  rewrite IH; lia.
Qed.

Lemma zget_neg A (l : list A) i : i < 0 -> zget l i = None.
Proof. intros H; unfold zget; destruct (Z.ltb_spec i 0); [reflexivity|lia]. Qed.
Lemma zget_ge A (l : list A) i : zlen l <= i -> zget l i = None.
Proof.
  intros H; unfold zget, zlen in *; destruct (Z.ltb_spec i 0); [reflexivity|].
  apply nth_error_None; lia.
Qed.
Lemma zget_nil A i : zget (@nil A) i = None.
Proof. unfold zget; destruct (i <? 0); [reflexivity|]; destruct (Z.to_nat i); reflexivity. Qed.
Lemma zget_some_range A (l : list A) i a : zget l i = Some a -> 0 <= i < zlen l.
Proof.
  intros H; destruct (Z_lt_le_dec i 0) as [Hn|Hn]; [now rewrite zget_neg in H|].
  destruct (Z_lt_le_dec i (zlen l)) as [Hl|Hl]; [lia|now rewrite zget_ge in H].
Qed.
Lemma zget_in_range A (l : list A) i : 0 <= i < zlen l -> exists a, zget l i = Some a.
Proof.
  unfold zget, zlen; intros H; destruct (Z.ltb_spec i 0); [lia|].
  destruct (nth_error l (Z.to_nat i)) eqn:E; [eauto|].
  apply nth_error_None in E; lia.
Qed.
Lemma zget_nth A (l : list A) i d : 0 <= i < zlen l -> zget l i = Some (nth (Z.to_nat i) l d).
Proof.
  intros H. unfold zget, zlen in *. destruct (Z.ltb_spec i 0); [lia|].
  apply nth_error_nth'; lia.
Qed.
Lemma zget_cons A (a : A) l i : zget (a :: l) i = if i =? 0 then Some a else zget l (i - 1).
Proof.
  unfold zget. destruct (Z.ltb_spec i 0), (Z.eqb_spec i 0); try lia.
  - destruct (Z.ltb_spec (i-1) 0); [reflexivity|lia].
  - subst; reflexivity.
  - destruct (Z.ltb_spec (i-1) 0); [lia|].
    replace (Z.to_nat i) with (S (Z.to_nat (i - 1))) by lia. reflexivity.
Qed.
Lemma zget_cons_0 A (a : A) l : zget (a :: l) 0 = Some a.
Proof. now rewrite zget_cons. Qed.
Lemma zget_app A (l m : list A) i :
  zget (l ++ m) i = if i <? zlen l then zget l i else zget m (i - zlen l).
Proof.
  unfold zget, zlen. destruct (Z.ltb_spec i 0), (Z.ltb_spec i (Z.of_nat (length l))); try lia.
  - reflexivity.
  - apply nth_error_app1; lia.
  - destruct (Z.ltb_spec (i - Z.of_nat (length l)) 0); [lia|].
    rewrite nth_error_app2 by lia. f_equal; lia.
Qed.
Lemma zget_map A B (f : A -> B) l i : zget (map f l) i = option_map f (zget l i).
Proof. unfold zget. destruct (i <? 0); [reflexivity|apply nth_error_map]. Qed.
Lemma nth_error_rev A (l : list A) k : (k < length l)%nat -> nth_error (rev l) k = nth_error l (length l - S k).
Proof.
  intros H. destruct l as [|a l]; [cbn in H; lia|].
  rewrite (nth_error_nth' (rev (a::l)) a) by (rewrite rev_length; assumption).
  rewrite rev_nth by assumption.
  rewrite (nth_error_nth' (a::l) a) by lia. reflexivity.
Qed.
Lemma zget_rev A (l : list A) i : zget (rev l) i = zget l (zlen l - 1 - i).
Proof.
  destruct (Z_lt_le_dec i 0) as [Hn|Hn].
  { rewrite zget_neg by assumption. symmetry; apply zget_ge; lia. }
  destruct (Z_lt_le_dec i (zlen l)) as [Hl|Hl].
  2:{ rewrite zget_ge by (rewrite zlen_rev; assumption). symmetry; apply zget_neg; lia. }
  unfold zget, zlen in *. destruct (Z.ltb_spec i 0), (Z.ltb_spec (Z.of_nat (length l) - 1 - i) 0); try lia.
  rewrite nth_error_rev by lia. f_equal; lia.
Qed.
Lemma nth_error_skipn A k (l : list A) j : nth_error (skipn k l) j = nth_error l (k + j).
Proof. revert l; induction k as [|k IH]; intros [|a l]; cbn [skipn Nat.add nth_error]; try reflexivity; [destruct j; reflexivity|apply IH]. Qed.
Lemma nth_error_firstn A k (l : list A) j : (j < k)%nat -> nth_error (firstn k l) j = nth_error l j.
Proof.
  revert l j; induction k as [|k IH]; intros [|a l] [|j] H; cbn [firstn nth_error]; try lia; try reflexivity.
  apply IH; lia.
Qed.
Lemma zget_skipn A k (l : list A) i : 0 <= i -> zget (skipn k l) i = zget l (Z.of_nat k + i).
Proof.
  intros H. unfold zget. destruct (Z.ltb_spec i 0), (Z.ltb_spec (Z.of_nat k + i) 0); try lia.
  rewrite nth_error_skipn. f_equal; lia.
Qed.
Lemma zget_firstn A k (l : list A) i : i < Z.of_nat k -> zget (firstn k l) i = zget l i.
Proof.
  intros H. unfold zget. destruct (Z.ltb_spec i 0); [reflexivity|].
  apply nth_error_firstn; lia.
Qed.
Lemma zget_map2 A B C (f : A -> B -> C) l m i :
  zget (map2 f l m) i =
  match zget l i, zget m i with Some a, Some b => Some (f a b) | _, _ => None end.
Proof.
  revert m i; induction l as [|a l IH]; intros m i.
  - cbn [map2]; rewrite !zget_nil; reflexivity.
  - destruct m as [|b m]; cbn [map2].
    + rewrite !zget_nil. destruct (zget _ i); reflexivity.
    + rewrite !zget_cons. destruct (i =? 0); [reflexivity|apply IH].
Qed.
Lemma zget_repeat A (a : A) k i : 0 <= i < Z.of_nat k -> zget (repeat a k) i = Some a.
Proof.
  intros H. rewrite (@zget_nth A (repeat a k) i a) by (rewrite zlen_repeat; lia).
  f_equal. apply nth_repeat.
Qed.

Lemma zget_ext A (l m : list A) :
  zlen l = zlen m -> (forall i, 0 <= i < zlen l -> zget l i = zget m i) -> l = m.
Proof.
  revert m; induction l as [|a l IH]; intros [|b m] Hl H.
  - reflexivity.
  - rewrite zlen_nil, zlen_cons in Hl; pose proof (zlen_nonneg m); lia.
  - rewrite zlen_nil, zlen_cons in Hl; pose proof (zlen_nonneg l); lia.
  - rewrite !zlen_cons in Hl. pose proof (zlen_nonneg l).
    assert (Hh := H 0 ltac:(rewrite zlen_cons; lia)). rewrite !zget_cons_0 in Hh.
    injection Hh as ->. f_equal. apply IH; [lia|].
    intros i Hi. specialize (H (i + 1) ltac:(rewrite zlen_cons; lia)).
    rewrite !zget_cons in H. destruct (Z.eqb_spec (i+1) 0); [lia|].
    replace (i + 1 - 1) with i in H by lia. exact H.
Qed.
Lemma zget_In A (l : list A) i a : zget l i = Some a -> In a l.
Proof. unfold zget; destruct (i <? 0); [discriminate|apply nth_error_In]. Qed.
Lemma In_zget A (l : list A) a : In a l -> exists i, 0 <= i < zlen l /\ zget l i = Some a.
Proof.
  intros H. apply In_nth_error in H. destruct H as [n Hn]. exists (Z.of_nat n).
  assert (n < length l)%nat by (apply nth_error_Some; congruence).
  split; [unfold zlen; lia|]. unfold zget. destruct (Z.ltb_spec (Z.of_nat n) 0); [lia|].
  now rewrite Nat2Z.id.
Qed.

(** * python indexing *)
Lemma py_get_nonneg A (l : list A) i a : 0 <= i -> zget l i = Some a -> py_get l i = Ok a.
Proof. intros H E; unfold py_get. destruct (Z.ltb_spec i 0); [lia|]. now rewrite E. Qed.
Lemma py_get_ok_inv A (l : list A) i a :
  0 <= i -> py_get l i = Ok a -> zget l i = Some a.
Proof.
  intros H; unfold py_get. destruct (Z.ltb_spec i 0); [lia|].
  destruct (zget l i); [intros E; now injection E as ->|discriminate].
Qed.
Lemma py_get_total A (l : list A) i : 0 <= i < zlen l -> exists a, py_get l i = Ok a /\ zget l i = Some a.
Proof. intros H. destruct (zget_in_range l H) as [a E]. exists a; split; [apply py_get_nonneg; [lia|assumption]|assumption]. Qed.
Lemma py_get_out A (l : list A) i : zlen l <= i -> py_get l i = Raise IndexError.
Proof. intros H; pose proof (zlen_nonneg l); unfold py_get. destruct (Z.ltb_spec i 0); [lia|]. now rewrite zget_ge. Qed.

(** * slices *)
Lemma clampi_range n i : 0 <= n -> 0 <= clampi n i <= n.
Proof. unfold clampi; intros; destruct (i <? 0); lia. Qed.
Lemma clampi_id n i : 0 <= i <= n -> clampi n i = i.
Proof. unfold clampi; intros; destruct (Z.ltb_spec i 0); lia. Qed.

Lemma zlen_slice A (l : list A) a b :
  zlen (slice l a b) = Z.max 0 (clampi (zlen l) b - clampi (zlen l) a).
Proof.
  unfold slice. rewrite zlen_firstn, zlen_skipn.
  pose proof (clampi_range a (zlen_nonneg l)); pose proof (clampi_range b (zlen_nonneg l)). lia.
Qed.
Lemma zlen_slice_in A (l : list A) a b : 0 <= a <= b -> b <= zlen l -> zlen (slice l a b) = b - a.
Proof. intros; rewrite zlen_slice, !clampi_id by lia; lia. Qed.
Lemma zget_slice A (l : list A) a b i :
  0 <= i < zlen (slice l a b) -> zget (slice l a b) i = zget l (clampi (zlen l) a + i).
Proof.
  intros H. rewrite zlen_slice in H. unfold slice.
  pose proof (clampi_range a (zlen_nonneg l)); pose proof (clampi_range b (zlen_nonneg l)).
  rewrite zget_firstn by lia. rewrite zget_skipn by lia. f_equal; lia.
Qed.
Lemma zget_slice_in A (l : list A) a b i :
  0 <= a <= b -> b <= zlen l -> 0 <= i < b - a -> zget (slice l a b) i = zget l (a + i).
Proof.
  intros. rewrite zget_slice by (rewrite zlen_slice_in; lia). now rewrite clampi_id by lia.
Qed.
Lemma slice_full A (l : list A) : slice l 0 (zlen l) = l.
Proof.
  pose proof (zlen_nonneg l). apply zget_ext.
  - rewrite zlen_slice_in; lia.
  - intros i Hi. rewrite zlen_slice_in in Hi by lia. now rewrite zget_slice_in by lia.
Qed.
Lemma slice_map A B (f : A -> B) (l : list A) a b : slice (map f l) a b = map f (slice l a b).
Proof. unfold slice. rewrite zlen_map, skipn_map, firstn_map. reflexivity. Qed.
Lemma slice_slice_in A (l : list A) a b c d :
  0 <= a -> a <= b -> b <= zlen l -> 0 <= c -> c <= d -> d <= b - a ->
  slice (slice l a b) c d = slice l (a + c) (a + d).
Proof.
  intros. apply zget_ext.
  - rewrite !zlen_slice_in; rewrite ?zlen_slice_in; lia.
  - intros i Hi. rewrite zlen_slice_in in Hi; rewrite ?zlen_slice_in; try lia.
    rewrite !zget_slice_in; rewrite ?zlen_slice_in; try lia. f_equal; lia.
Qed.
Lemma slice_app_l A (l m : list A) : slice (l ++ m) 0 (zlen l) = l.
Proof.
  pose proof (zlen_nonneg l); pose proof (zlen_nonneg m). apply zget_ext.
  - rewrite zlen_slice_in; rewrite ?zlen_app; lia.
  - intros i Hi. rewrite zlen_slice_in in Hi; rewrite ?zlen_app; try lia.
    rewrite zget_slice_in; rewrite ?zlen_app; try lia. rewrite zget_app.
    destruct (Z.ltb_spec (0 + i) (zlen l)); [f_equal; lia|lia].
Qed.
Lemma slice_app_r A (l m : list A) : slice (l ++ m) (zlen l) (zlen l + zlen m) = m.
Proof.
  pose proof (zlen_nonneg l); pose proof (zlen_nonneg m). apply zget_ext.
  - rewrite zlen_slice_in; rewrite ?zlen_app; lia.
  - intros i Hi. rewrite zlen_slice_in in Hi; rewrite ?zlen_app; try lia.
    rewrite zget_slice_in; rewrite ?zlen_app; try lia. rewrite zget_app.
    destruct (Z.ltb_spec (zlen l + i) (zlen l)); [lia|f_equal; lia].
Qed.
Lemma slice_split A (l : list A) a b c :
  0 <= a -> a <= b -> b <= c -> c <= zlen l -> slice l a b ++ slice l b c = slice l a c.
Proof.
  intros. apply zget_ext.
  - rewrite zlen_app, !zlen_slice_in; lia.
  - intros i Hi. rewrite zlen_app, !zlen_slice_in in Hi by lia.
    rewrite zget_app, zlen_slice_in by lia.
    destruct (Z.ltb_spec i (b - a)); rewrite !zget_slice_in by lia; f_equal; lia.
Qed.

(** * slice assignment *)
Lemma assign_slice_ok A (l : list A) a b src :
  0 <= a -> a <= b -> b <= zlen l -> zlen src = b - a ->
  exists r, assign_slice l a b src = Ok r /\ zlen r = zlen l /\
    forall i, 0 <= i < zlen l ->
      zget r i = if (a <=? i) && (i <? b) then zget src (i - a) else zget l i.
Proof.
  intros Ha Hab Hb Hs. unfold assign_slice. rewrite !clampi_id by lia.
  replace (Z.max a b) with b by lia. destruct (Z.eqb_spec (zlen src) (b - a)); [|lia].
  eexists; split; [reflexivity|]. split.
  - rewrite !zlen_app, zlen_firstn, zlen_skipn; lia.
  - intros i Hi. rewrite !zget_app. rewrite !zlen_firstn.
    replace (Z.min (Z.of_nat (Z.to_nat a)) (zlen l)) with a by lia.
    destruct (Z.ltb_spec i a), (Z.leb_spec a i); try lia; cbn [andb].
    + rewrite zget_firstn by lia. reflexivity.
    + destruct (Z.ltb_spec (i - a) (zlen src)), (Z.ltb_spec i b); try lia; [reflexivity|].
      rewrite zget_skipn by lia. f_equal; lia.
Qed.

Lemma py_set_ok A (l : list A) i x :
  0 <= i < zlen l ->
  exists r, py_set l i x = Ok r /\ zlen r = zlen l /\
    forall j, 0 <= j < zlen l -> zget r j = if j =? i then Some x else zget l j.
Proof.
  intros Hi. unfold py_set. destruct (Z.ltb_spec i 0); [lia|].
  destruct (Z.leb_spec 0 i), (Z.ltb_spec i (zlen l)); try lia. cbn [andb].
  eexists; split; [reflexivity|]. split.
  - rewrite zlen_app, zlen_cons, zlen_firstn, zlen_skipn; lia.
  - intros j Hj. rewrite zget_app, zlen_firstn.
    replace (Z.min (Z.of_nat (Z.to_nat i)) (zlen l)) with i by lia.
    destruct (Z.ltb_spec j i), (Z.eqb_spec j i); try lia.
    + rewrite zget_firstn by lia; reflexivity.
    + subst. now replace (i - i) with 0 by lia.
    + rewrite zget_cons. destruct (Z.eqb_spec (j - i) 0); [lia|].
      rewrite zget_skipn by lia. f_equal; lia.
Qed.

(** * arange / enumerate *)
Lemma zlen_arange a b : zlen (arange a b) = Z.max 0 (b - a).
Proof. unfold arange. rewrite zlen_map. unfold zlen; rewrite seq_length; lia. Qed.
Lemma zget_arange a b i : 0 <= i < b - a -> zget (arange a b) i = Some (a + i).
Proof.
  intros H. unfold arange. rewrite zget_map. unfold zget. destruct (Z.ltb_spec i 0); [lia|].
  rewrite (nth_error_nth' _ 0%nat) by (rewrite seq_length; lia). rewrite seq_nth by lia.
  cbn [option_map]. f_equal. lia.
Qed.
Lemma In_arange a b x : In x (arange a b) <-> a <= x < b.
Proof.
  unfold arange. rewrite in_map_iff. split.
  - intros [n [<- Hn]]. apply in_seq in Hn. lia.
  - intros H. exists (Z.to_nat (x - a)). split; [lia|]. apply in_seq. lia.
Qed.
Lemma NoDup_arange a b : NoDup (arange a b).
Proof.
  unfold arange. apply FinFun.Injective_map_NoDup; [intros x y; lia|apply seq_NoDup].
Qed.
Lemma arange_cons a b : a < b -> arange a b = a :: arange (a + 1) b.
Proof.
  intros H. apply zget_ext.
  - rewrite zlen_cons, !zlen_arange; lia.
  - intros i Hi. rewrite zlen_arange in Hi. rewrite zget_cons.
    destruct (Z.eqb_spec i 0).
    + subst. rewrite zget_arange by lia. f_equal; lia.
    + rewrite !zget_arange by lia. f_equal; lia.
Qed.
Lemma arange_app a b c : a <= b -> b <= c -> arange a b ++ arange b c = arange a c.
Proof.
  intros. apply zget_ext.
  - rewrite zlen_app, !zlen_arange; lia.
  - intros i Hi. rewrite zlen_app, !zlen_arange in Hi. rewrite zget_app, zlen_arange.
    destruct (Z.ltb_spec i (Z.max 0 (b - a))); rewrite !zget_arange by lia; f_equal; lia.
Qed.
Lemma arange_empty a b : b <= a -> arange a b = [].
Proof. intros. unfold arange. now replace (Z.to_nat (b - a)) with 0%nat by lia. Qed.
Lemma arange_map_add a b c : map (fun x => c + x) (arange a b) = arange (c + a) (c + b).
Proof.
  apply zget_ext; [rewrite zlen_map, !zlen_arange; lia|].
  intros i Hi. rewrite zlen_map, zlen_arange in Hi. rewrite zget_map, !zget_arange by lia. cbn. f_equal; lia.
Qed.
Lemma slice_arange n a b : 0 <= a -> a <= b -> b <= n -> slice (arange 0 n) a b = arange a b.
Proof.
  intros. apply zget_ext.
  - rewrite zlen_slice_in; rewrite ?zlen_arange; lia.
  - intros i Hi. rewrite zlen_slice_in in Hi; rewrite ?zlen_arange; try lia.
    rewrite zget_slice_in; rewrite ?zlen_arange; try lia. rewrite !zget_arange by lia. f_equal; lia.
Qed.
Lemma zget_combine A B (l : list A) (m : list B) i :
  zget (combine l m) i = match zget l i, zget m i with Some a, Some b => Some (a, b) | _, _ => None end.
Proof.
  revert m i; induction l as [|a l IH]; intros m i; cbn [combine].
  - rewrite !zget_nil; reflexivity.
  - destruct m as [|b m].
    + rewrite !zget_nil. destruct (zget _ i); reflexivity.
    + rewrite !zget_cons. destruct (i =? 0); [reflexivity|apply IH].
Qed.
Lemma zlen_combine A B (l : list A) (m : list B) : zlen (combine l m) = Z.min (zlen l) (zlen m).
Proof. unfold zlen. rewrite combine_length. lia. Qed.
Lemma zlen_enumerate A (l : list A) : zlen (enumerate l) = zlen l.
Proof. unfold enumerate, range. rewrite zlen_combine, zlen_arange. pose proof (zlen_nonneg l). lia. Qed.
Lemma zget_enumerate A (l : list A) i : zget (enumerate l) i = option_map (fun a => (i, a)) (zget l i).
Proof.
  unfold enumerate, range. rewrite zget_combine.
  destruct (Z_lt_le_dec i 0) as [Hn|Hn]. { rewrite (zget_neg l) by lia. destruct (zget _ i); reflexivity. }
  destruct (Z_lt_le_dec i (zlen l)) as [Hl|Hl].
  - rewrite zget_arange by lia. destruct (zget l i); reflexivity.
  - rewrite (zget_ge l) by lia. destruct (zget _ i); reflexivity.
Qed.

(** * monadic map *)
Lemma mapM_ok A B (f : A -> res B) l r :
  mapM f l = Ok r <-> Forall2 (fun x y => f x = Ok y) l r.
Proof.
  revert r; induction l as [|x l IH]; intros r; cbn [mapM].
  - split; [intros E; injection E as <-; constructor|]. intros H; inversion H; reflexivity.
  - split.
    + unfold bind. destruct (f x) eqn:Ef; [|discriminate]. destruct (mapM f l) eqn:El; [|discriminate].
      intros E; injection E as <-. constructor; [assumption|]. now apply IH.
    + intros H; inversion H as [|? ? ? ? Hx Hl]; subst. rewrite Hx. cbn [bind].
      apply IH in Hl. rewrite Hl. reflexivity.
Qed.
Lemma mapM_total A B (f : A -> res B) (g : A -> B) l :
  (forall x, In x l -> f x = Ok (g x)) -> mapM f l = Ok (map g l).
Proof.
  intros H. apply mapM_ok. induction l as [|x l IH]; cbn [map]; constructor.
  - apply H; now left.
  - apply IH. intros y Hy; apply H; now right.
Qed.
Lemma Forall2_zget A B (P : A -> B -> Prop) l r :
  Forall2 P l r <-> zlen l = zlen r /\ forall i a b, zget l i = Some a -> zget r i = Some b -> P a b.
Proof.
  split.
  - intros H; induction H as [|x y l r Hxy H IH].
    + split; [reflexivity|]. intros i a b; now rewrite zget_nil.
    + destruct IH as [IHl IH]. split; [rewrite !zlen_cons; lia|].
      intros i a b. rewrite !zget_cons. destruct (i =? 0).
      * intros E1 E2; injection E1 as <-; injection E2 as <-; assumption.
      * apply IH.
  - revert r; induction l as [|x l IH]; intros [|y r] [Hl H].
    + constructor.
    + rewrite zlen_nil, zlen_cons in Hl; pose proof (zlen_nonneg r); lia.
    + rewrite zlen_nil, zlen_cons in Hl; pose proof (zlen_nonneg l); lia.
    + constructor.
      * apply (H 0); apply zget_cons_0.
      * apply IH. rewrite !zlen_cons in Hl. split; [lia|].
        intros i a b Ha Hb. apply (H (i + 1)); rewrite zget_cons;
        (destruct (Z.eqb_spec (i+1) 0); [pose proof (zget_some_range _ _ Ha); lia|]);
        now replace (i + 1 - 1) with i by lia.
Qed.
Lemma mapM_zget A B (f : A -> res B) l r :
  mapM f l = Ok r -> zlen r = zlen l /\
  forall i a, zget l i = Some a -> exists b, zget r i = Some b /\ f a = Ok b.
Proof.
  intros H. apply mapM_ok in H. apply Forall2_zget in H. destruct H as [Hl H].
  split; [congruence|]. intros i a Ha. pose proof (zget_some_range _ _ Ha) as Hr.
  destruct (@zget_in_range _ r i) as [b Hb]; [lia|]. exists b; split; [assumption|]. now apply (H i).
Qed.
Lemma mapM_raise A B (f : A -> res B) l :
  (exists x e, In x l /\ f x = Raise e) -> exists e, mapM f l = Raise e.
Proof.
  induction l as [|y l IH]; intros [x [e [Hin Hx]]]; [destruct Hin|]. cbn [mapM].
  destruct Hin as [->|Hin].
  - rewrite Hx. eexists; reflexivity.
  - destruct (f y); cbn [bind]; [|eexists; reflexivity].
    destruct IH as [e' He']; [eauto|]. rewrite He'. eexists; reflexivity.
Qed.

(** * roll *)
Lemma zlen_roll A (l : list A) s : zlen (roll l s) = zlen l.
Proof.
  pose proof (zlen_nonneg l). unfold roll.
  destruct (Z.eq_dec (zlen l) 0) as [E|E].
  - rewrite zlen_app, !zlen_slice. rewrite E.
    repeat match goal with |- context [clampi 0 ?i] => pose proof (@clampi_range 0 i ltac:(lia)); generalize dependent (clampi 0 i); intros end.
    lia.
  - assert (0 <= s mod zlen l < zlen l) by (apply Z.mod_pos_bound; lia).
    rewrite zlen_app, !zlen_slice_in by lia. lia.
Qed.
Lemma zget_roll A (l : list A) s i : 0 <= i < zlen l -> zget (roll l s) i = zget l ((i - s) mod zlen l).
Proof.
  intros Hi. unfold roll. set (n := zlen l) in *.
  assert (Hk : 0 <= s mod n < n) by (apply Z.mod_pos_bound; lia).
  rewrite zget_app, zlen_slice_in by lia.
  destruct (Z.ltb_spec i (n - (n - s mod n))).
  - rewrite zget_slice_in by lia. f_equal.
    apply Z.mod_unique with (q := - (s / n) - 1); [lia|].
    pose proof (Z.div_mod s n ltac:(lia)). nia.
  - rewrite zget_slice_in by (rewrite ?zlen_slice_in; lia). f_equal.
    apply Z.mod_unique with (q := - (s / n)); [lia|].
    pose proof (Z.div_mod s n ltac:(lia)). nia.
Qed.

(** * cumsum *)
Lemma zlen_cumsum_from acc l : zlen (cumsum_from acc l) = zlen l.
Proof. revert acc; induction l as [|x l IH]; intros acc; cbn [cumsum_from]; [reflexivity|]. rewrite !zlen_cons, IH; reflexivity. Qed.

(** * unique *)
Lemma In_insert_uniq x y l : In y (insert_uniq x l) <-> y = x \/ In y l.
Proof.
  induction l as [|z l IH]; cbn [insert_uniq In]; [intuition|].
  destruct (Z.ltb_spec x z); [cbn [In]; intuition|].
  destruct (Z.eqb_spec x z); [subst; cbn [In]; intuition|]. cbn [In]. rewrite IH. intuition.
Qed.
Lemma In_uniq y l : In y (uniq l) <-> In y l.
Proof.
  induction l as [|x l IH]; cbn [uniq fold_right In]; [reflexivity|].
  change (fold_right insert_uniq [] l) with (uniq l). rewrite In_insert_uniq, IH. intuition.
Qed.
Inductive sorted_lt : list Z -> Prop :=
| sl_nil : sorted_lt []
| sl_cons x l : (forall y, In y l -> x < y) -> sorted_lt l -> sorted_lt (x :: l).
Lemma sorted_insert x l : sorted_lt l -> sorted_lt (insert_uniq x l).
Proof.
  induction 1 as [|z l Hz Hs IH]; cbn [insert_uniq].
  - constructor; [intros y []|constructor].
  - destruct (Z.ltb_spec x z).
    + constructor; [|constructor; assumption]. intros y [<-|Hy]; [assumption|]. specialize (Hz y Hy); lia.
    + destruct (Z.eqb_spec x z); [constructor; assumption|].
      constructor; [|assumption]. intros y Hy. apply In_insert_uniq in Hy. destruct Hy as [->|Hy]; [lia|auto].
Qed.
Lemma sorted_uniq l : sorted_lt (uniq l).
Proof. induction l as [|x l IH]; cbn [uniq fold_right]; [constructor|now apply sorted_insert]. Qed.
Lemma sorted_NoDup l : sorted_lt l -> NoDup l.
Proof.
  induction 1 as [|x l Hx Hs IH]; constructor; [|assumption].
  intros Hin. specialize (Hx x Hin). lia.
Qed.
Lemma NoDup_uniq l : NoDup (uniq l).
Proof. apply sorted_NoDup, sorted_uniq. Qed.

Lemma first_index_In x l : In x l -> 0 <= first_index x l < zlen l /\ zget l (first_index x l) = Some x.
Proof.
  induction l as [|y l IH]; intros H; [destruct H|]. cbn [first_index]. rewrite zlen_cons.
  pose proof (zlen_nonneg l).
  destruct (Z.eqb_spec x y) as [->|E].
  - split; [lia|apply zget_cons_0].
  - destruct H as [->|H]; [congruence|]. specialize (IH H). destruct IH as [IH1 IH2].
    split; [lia|]. rewrite zget_cons. destruct (Z.eqb_spec (1 + first_index x l) 0); [lia|].
    now replace (1 + first_index x l - 1) with (first_index x l) by lia.
Qed.
Lemma first_index_min x l j : zget l j = Some x -> first_index x l <= j.
Proof.
  revert j; induction l as [|y l IH]; intros j H; [now rewrite zget_nil in H|].
  pose proof (zget_some_range _ _ H). cbn [first_index]. destruct (Z.eqb_spec x y); [lia|].
  rewrite zget_cons in H. destruct (Z.eqb_spec j 0).
  - injection H as ->. congruence.
  - specialize (IH _ H). lia.
Qed.
Lemma first_index_NoDup x l j : NoDup l -> zget l j = Some x -> first_index x l = j.
Proof.
  intros Hnd H. pose proof (zget_some_range _ _ H) as Hj.
  destruct (first_index_In x l (zget_In _ _ H)) as [Hr Hg].
  assert (Hn : (Z.to_nat (first_index x l) = Z.to_nat j)%nat).
  { apply (proj1 (NoDup_nth_error l) Hnd); [unfold zlen in *; lia|].
    unfold zget in H, Hg. destruct (Z.ltb_spec j 0), (Z.ltb_spec (first_index x l) 0); try lia; congruence. }
  lia.
Qed.

Lemma mapM_build A B (f : A -> res B) l : (forall x, In x l -> exists y, f x = Ok y) -> exists r, mapM f l = Ok r.
Proof.
  induction l as [|x l IH]; intros H; [eexists; reflexivity|]. cbn [mapM].
  destruct (H x (or_introl eq_refl)) as [y ->]. cbn [bind].
  destruct IH as [r ->]; [intros z Hz; apply H; now right|]. eexists; reflexivity.
Qed.
Lemma mapM_err A B (f : A -> res B) l e (P : exn -> Prop) : (forall x e', f x = Raise e' -> P e') -> mapM f l = Raise e -> P e.
Proof.
  intros H. induction l as [|x l IH]; cbn [mapM]; [discriminate|]. unfold bind at 1. destruct (f x) eqn:E.
  - unfold bind. destruct (mapM f l) eqn:E2; [discriminate|]. intros E3; injection E3 as <-. now apply IH.
  - intros E3; injection E3 as <-. eauto.
Qed.

