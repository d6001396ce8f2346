(** Proofs about the continuation of local Green's functions (Model/LocalCont.v). *)
From Coq Require Import ZArith Reals List String Sorted Lra Lia.
From Verif Require Import Base.PyBase Base.PyFacts Model.MaxEnt Model.LocalCont Spec.LocalContSpec.
Import ListNotations.
Local Open Scope string_scope.
Local Open Scope list_scope.
Local Open Scope R_scope.

(** * The problem *)
Lemma trapz_ones_pos w0 w1 w : StronglySorted Rlt (w0 :: w1 :: w) -> 0 < trapz (map (fun _ => 1) (w0 :: w1 :: w)) (w0 :: w1 :: w).
Proof.
  revert w0 w1. induction w as [|w2 w IH]; intros w0 w1 H.
  - cbn. inversion H; subst. inversion H3; subst. lra.
  - change (trapz (map (fun _ => 1) (w0 :: w1 :: w2 :: w)) (w0 :: w1 :: w2 :: w)) with ((w1 - w0) * (1 + 1) / 2 + trapz (map (fun _ => 1) (w1 :: w2 :: w)) (w1 :: w2 :: w)).
    inversion H as [|? ? H1 H2]; subst. specialize (IH w1 w2 H1). inversion H2; subst. lra.
Qed.
Lemma trapz_scale k y : forall x, trapz (map (fun m => m / k) y) x = trapz y x / k.
Proof.
  induction y as [|y0 y IH]; intros x; [cbn; lra|]. destruct y as [|y1 y]; [destruct x as [|? [|? ?]]; cbn; lra|]. destruct x as [|x0 [|x1 x]]; [cbn; lra|cbn; lra|].
  change (trapz (map (fun m => m / k) (y0 :: y1 :: y)) (x0 :: x1 :: x)) with ((x1 - x0) * (y0 / k + y1 / k) / 2 + trapz (map (fun m => m / k) (y1 :: y)) (x1 :: x)).
  rewrite IH. change (trapz (y0 :: y1 :: y) (x0 :: x1 :: x)) with ((x1 - x0) * (y0 + y1) / 2 + trapz (y1 :: y) (x1 :: x)). unfold Rdiv. ring.
Qed.
Lemma mesh_pos w : real_mesh w -> 0 < trapz (map (fun _ => 1) w) w.
Proof. intros [S L]. destruct w as [|w0 [|w1 w]]; [unfold zlen in L; cbn in L; lia|unfold zlen in L; cbn in L; lia|]. now apply trapz_ones_pos. Qed.
Lemma zget_vn beta n i : (0 <= i < n)%Z -> zget (vn_pos beta n) i = Some ((2 * IZR i + 1) * PI / beta).
Proof. intros H. unfold vn_pos. rewrite zget_map, zget_arange by lia. cbn. f_equal. rewrite Z.add_0_l || idtac. unfold Rdiv. ring. Qed.
Lemma problem_asked c mat bw : real_mesh (m_mesh c) -> (0 <= m_n_fit c <= zlen mat / 2)%Z -> exists q, loc_problem c mat bw = Ok q /\ asked c mat bw q.
Proof.
  intros M N. unfold loc_problem. destruct (Z.ltb_spec (m_n_fit c) 0); [lia|]. eexists. split; [reflexivity|]. unfold asked. cbn [l_im_axis l_im_data l_stdev l_re_axis l_model l_kernel l_beta l_method l_alpha_det l_optimizer l_preblur l_blur_width].
  assert (Z2 : (2 * (zlen mat / 2) <= zlen mat)%Z) by (apply Z.mul_div_le; lia). pose proof (zlen_nonneg mat) as Z0.
  assert (P := mesh_pos _ M).
  repeat match goal with |- _ /\ _ => split end; try reflexivity.
  - unfold vn_pos. rewrite zlen_map, zlen_arange. lia.
  - rewrite zlen_slice_in by lia. lia.
  - rewrite zlen_map, zlen_arange. lia.
  - intros i Hi. split; [now apply zget_vn|]. split; [rewrite zget_slice_in by lia; reflexivity|]. rewrite zget_map, zget_arange by lia. cbn. f_equal. ring.
  - now rewrite !zlen_map.
  - rewrite trapz_scale. field. lra.
  - intros x y Hx Hy. rewrite map_map in Hx, Hy. apply in_map_iff in Hx, Hy. destruct Hx as (? & <- & _), Hy as (? & <- & _). reflexivity.
  - intros x Hx. rewrite map_map in Hx. apply in_map_iff in Hx. destruct Hx as (? & <- & _). apply Rdiv_lt_0_compat; lra.
Qed.

(** * The loop over the widths *)
Section Run.
Variable solve : loc_request -> res (list R * R).
Variable gf_kkt : list R -> list R -> list C.
Variable curve_fit : list R -> list R -> res (R * R * R * R).
Variable show : R -> string.
Notation loop := (bw_loop solve gf_kkt show).
Notation one := (max_ent_loc solve gf_kkt).

Lemma fput_same s k v : fput s k v k = Some v. Proof. unfold fput. now rewrite String.eqb_refl. Qed.
Lemma fput_other s k v k' : k <> k' -> fput s k v k' = s k'. Proof. intros H. unfold fput. apply String.eqb_neq in H. now rewrite H. Qed.
Lemma len_app a b : String.length (a ++ b)%string = (String.length a + String.length b)%nat. Proof. induction a; cbn; auto. Qed.
Lemma cont_not_w name bw : cont_file show name bw <> "w.npy".
Proof. intros H. apply (f_equal String.length) in H. unfold cont_file in H. rewrite !len_app in H. cbn in H. lia. Qed.
Lemma app_head_cancel a b c : (a ++ b = a ++ c)%string -> b = c. Proof. induction a; cbn; intros H; [assumption|injection H; auto]. Qed.
Lemma app_tail_cancel a b c : (a ++ c = b ++ c)%string -> a = b.
Proof.
  revert b. induction a as [|x a IH]; intros [|y b] H; auto.
  - apply (f_equal String.length) in H. cbn in H. rewrite len_app in H. lia.
  - apply (f_equal String.length) in H. cbn in H. rewrite len_app in H. lia.
  - cbn in H. injection H as -> H. f_equal. auto.
Qed.
Lemma cont_file_inj name x y : cont_file show name x = cont_file show name y -> show x = show y.
Proof. unfold cont_file. intros H. apply app_head_cancel in H. cbn in H. injection H as H. now apply app_tail_cancel in H. Qed.
(** nothing but the files of the widths and the mesh is written *)
Lemma loop_other c mat name bws : forall s k, k <> "w.npy" -> (forall bw, In bw bws -> k <> cont_file show name bw) -> fst (loop c mat name bws s) k = s k.
Proof.
  induction bws as [|bw bws IH]; intros s k Hw Hk; [reflexivity|]. cbn [bw_loop]. destruct (one c mat bw) as [[m x]|e]; [|reflexivity].
  specialize (IH (fput (fput s (name ++ "_cont_bw" ++ show bw ++ ".npy") (CArr m)) "w.npy" (RArr (m_mesh c))) k Hw (fun b I => Hk b (or_intror I))).
  destruct (loop c mat name bws _) as [s' r]. cbn [fst] in *. rewrite IH, fput_other by congruence. apply fput_other. intros E. apply (Hk bw (or_introl eq_refl)). now rewrite <- E.
Qed.
Lemma loop_mesh c mat name bws : forall s, s "w.npy" = Some (RArr (m_mesh c)) -> fst (loop c mat name bws s) "w.npy" = Some (RArr (m_mesh c)).
Proof.
  induction bws as [|bw bws IH]; intros s Hs; [assumption|]. cbn [bw_loop]. destruct (one c mat bw) as [[m x]|e]; [|assumption].
  specialize (IH (fput (fput s (name ++ "_cont_bw" ++ show bw ++ ".npy") (CArr m)) "w.npy" (RArr (m_mesh c))) (fput_same _ _ _)). destruct (loop c mat name bws _) as [s' r]. exact IH.
Qed.
Definition known (c : me_conf) (mat : list C) (name : string) (s : folder) (bw : R) : Prop := exists m x, one c mat bw = Ok (m, x) /\ s (cont_file show name bw) = Some (CArr m).
Lemma loop_keeps c mat name bws : forall s bw, (forall b, In b bws -> show b = show bw -> b = bw) -> known c mat name s bw -> known c mat name (fst (loop c mat name bws s)) bw.
Proof.
  induction bws as [|b bws IH]; intros s bw Hd K; [assumption|]. cbn [bw_loop]. destruct (one c mat b) as [[m x]|e] eqn:E; [|assumption].
  assert (K' : known c mat name (fput (fput s (name ++ "_cont_bw" ++ show b ++ ".npy") (CArr m)) "w.npy" (RArr (m_mesh c))) bw).
  { destruct K as (m' & x' & E' & S'). exists m', x'. split; [assumption|]. rewrite fput_other by (intros H; now apply (cont_not_w name bw)).
    destruct (string_dec (cont_file show name b) (cont_file show name bw)) as [F|F].
    - pose proof (Hd b (or_introl eq_refl) (cont_file_inj _ _ _ F)) as ->. rewrite E in E'. injection E' as <- <-. apply fput_same.
    - rewrite fput_other by exact F. assumption. }
  specialize (IH _ bw (fun b' I => Hd b' (or_intror I)) K'). destruct (loop c mat name bws _) as [s' r]. exact IH.
Qed.
(** the outcome: the files of all widths before the first failing one *)
Lemma loop_spec c mat name bws : forall s, distinct_texts show bws ->
  match snd (loop c mat name bws s) with
  | Ok chis => (forall bw, In bw bws -> known c mat name (fst (loop c mat name bws s)) bw) /\ map (fun bw => match one c mat bw with Ok (_, x) => Some x | Raise _ => None end) bws = map Some chis
  | Raise e => exists l1 bw l2, bws = l1 ++ bw :: l2 /\ one c mat bw = Raise e /\ forall b, In b l1 -> known c mat name (fst (loop c mat name bws s)) b
  end.
Proof.
  induction bws as [|bw bws IH]; intros s D; [cbn; split; [intros ? []|reflexivity]|]. cbn [bw_loop]. destruct (one c mat bw) as [[m x]|e] eqn:E.
  - set (s1 := fput (fput s (name ++ "_cont_bw" ++ show bw ++ ".npy") (CArr m)) "w.npy" (RArr (m_mesh c))).
    assert (D' : distinct_texts show bws) by (intros a b Ha Hb; apply D; now right).
    specialize (IH s1 D').
    assert (K : known c mat name (fst (loop c mat name bws s1)) bw).
    { apply loop_keeps; [intros b I; apply D; [now right|now left]|]. exists m, x. split; [assumption|]. unfold s1. rewrite fput_other by (intros H; now apply (cont_not_w name bw)). apply fput_same. }
    destruct (loop c mat name bws s1) as [s' r] eqn:L. cbn [fst snd] in *. destruct r as [chis|e]; cbn [bind] in *.
    + destruct IH as [IH1 IH2]. split; [intros b [<-|I]; auto|]. cbn [map]. rewrite E, IH2. reflexivity.
    + destruct IH as (l1 & b & l2 & -> & Eb & IH). exists (bw :: l1), b, l2. split; [reflexivity|]. split; [assumption|]. intros b' [<-|I]; auto.
  - cbn. exists [], bw, bws. split; [reflexivity|]. split; [assumption|]. intros ? [].
Qed.
End Run.

(** * The whole range *)
Section Range.
Variable solve : loc_request -> res (list R * R).
Variable gf_kkt : list R -> list R -> list C.
Variable curve_fit : list R -> list R -> res (R * R * R * R).
Variable show : R -> string.
Notation range := (max_ent_loc_bw_range solve gf_kkt curve_fit show).
Notation one := (max_ent_loc solve gf_kkt).
Lemma opt_not_cont name n2 bw : name = "dmft" \/ name = "dga" -> n2 = "dmft" \/ n2 = "dga" -> opt_file n2 <> cont_file show name bw.
Proof. intros [-> | ->] [-> | ->]; discriminate. Qed.
Lemma opt_not_w name : opt_file name <> "w.npy". Proof. discriminate. Qed.
Lemma range_loop c mat name s : exists s1, fst (range c mat name s) = s1 /\
  (forall k, k <> opt_file name -> s1 k = fst (bw_loop solve gf_kkt show c mat name (m_bw_range c) s) k) /\
  match snd (range c mat name s) with
  | Raise e => snd (bw_loop solve gf_kkt show c mat name (m_bw_range c) s) = Raise e /\ s1 = fst (bw_loop solve gf_kkt show c mat name (m_bw_range c) s)
  | Ok b => exists chis, snd (bw_loop solve gf_kkt show c mat name (m_bw_range c) s) = Ok chis /\
      ((exists a0 b0 c0 d0, curve_fit (map ln (m_bw_range c)) (map ln chis) = Ok (a0, b0, c0, d0) /\ b = exp (c0 - m_fit_pos c / d0) /\ s1 (opt_file name) = Some (CText b)) \/
       (exists e, curve_fit (map ln (m_bw_range c)) (map ln chis) = Raise e /\ b = 0 /\ s1 (opt_file name) = fst (bw_loop solve gf_kkt show c mat name (m_bw_range c) s) (opt_file name)))
  end.
Proof.
  unfold max_ent_loc_bw_range. destruct (bw_loop solve gf_kkt show c mat name (m_bw_range c) s) as [s0 [chis|e]] eqn:L; cbn [fst snd].
  - destruct (curve_fit (map ln (m_bw_range c)) (map ln chis)) as [[[[a0 b0] c0] d0]|e] eqn:F; cbn [fst snd].
    + eexists. split; [reflexivity|]. split.
      * intros k Hk. apply fput_other. intros E. apply Hk. now rewrite <- E.
      * exists chis. split; [reflexivity|]. left. exists a0, b0, c0, d0. split; [exact F|]. split; [reflexivity|]. apply fput_same.
    + exists s0. split; [reflexivity|]. split; [reflexivity|]. exists chis. split; [reflexivity|]. right. exists e. auto.
  - exists s0. split; [reflexivity|]. split; [reflexivity|]. auto.
Qed.
End Range.

(** * Filling *)
Lemma filter_neg (neg pos : list R) (g : list C) : Forall (fun x => x < 0) neg -> Forall (fun x => 0 <= x) pos -> List.length g = List.length (neg ++ pos) ->
  filter (fun p => if Rlt_dec (fst p) 0 then true else false) (combine (neg ++ pos) g) = combine neg (firstn (List.length neg) g).
Proof.
  intros Hn Hp. revert g. induction neg as [|x neg IH]; intros g L.
  - cbn [app firstn List.length combine] in *. clear Hn. revert g L. induction pos as [|y pos IH]; intros g L; [reflexivity|]. destruct g as [|z g]; [reflexivity|]. cbn [combine filter fst].
    inversion Hp; subst. destruct (Rlt_dec y 0); [lra|]. apply IH; [assumption|]. cbn in L. lia.
  - destruct g as [|z g]; [cbn in L; lia|]. inversion Hn; subst. cbn [app combine filter fst firstn List.length]. destruct (Rlt_dec x 0); [|lra]. f_equal. apply IH; [assumption|]. cbn in L. lia.
Qed.
Lemma map_fst_combine {A B} (l : list A) (m : list B) : List.length l = List.length m -> map fst (combine l m) = l.
Proof. revert m. induction l as [|a l IH]; intros [|b m] H; cbn in *; try lia; [reflexivity|]. f_equal. apply IH. lia. Qed.
Lemma map_snd_combine {A B} (l : list A) (m : list B) : List.length l = List.length m -> map snd (combine l m) = m.
Proof. revert m. induction l as [|a l IH]; intros [|b m] H; cbn in *; try lia; [reflexivity|]. f_equal. apply IH. lia. Qed.
Lemma filling_neg neg pos g : Forall (fun x => x < 0) neg -> Forall (fun x => 0 <= x) pos -> List.length g = List.length (neg ++ pos) ->
  check_filling (neg ++ pos) g = 2 * trapz (map (fun z => - snd z / PI) (firstn (List.length neg) g)) neg.
Proof.
  intros Hn Hp L. unfold check_filling. rewrite filter_neg by assumption.
  assert (L2 : List.length neg = List.length (firstn (List.length neg) g)) by (rewrite firstn_length, L, app_length; lia).
  rewrite map_fst_combine by exact L2. rewrite <- (map_map snd (fun z => - (1) / PI * snd z)), map_snd_combine by exact L2. rewrite Rmult_comm. f_equal. f_equal. apply map_ext. intros z. unfold Rdiv. ring.
Qed.
Lemma trapz_nonneg y : forall x, Forall (fun v => 0 <= v) y -> StronglySorted Rlt x -> 0 <= trapz y x.
Proof.
  induction y as [|y0 y IH]; intros x Hy Hx; [cbn; lra|]. destruct y as [|y1 y]; [destruct x as [|? [|? ?]]; cbn; lra|]. destruct x as [|x0 [|x1 x]]; [cbn; lra|cbn; lra|].
  change (trapz (y0 :: y1 :: y) (x0 :: x1 :: x)) with ((x1 - x0) * (y0 + y1) / 2 + trapz (y1 :: y) (x1 :: x)).
  inversion Hy as [|? ? H1 H2]; subst. inversion H2 as [|? ? H3 H4]; subst. inversion Hx as [|? ? H5 H6]; subst. inversion H6; subst. specialize (IH (x1 :: x) H2 H5).
  assert (0 <= (x1 - x0) * (y0 + y1)) by (apply Rmult_le_pos; lra). lra.
Qed.
Lemma trapz_app_le y1 y2 : forall x1 x2, List.length y1 = List.length x1 -> Forall (fun v => 0 <= v) (y1 ++ y2) -> StronglySorted Rlt (x1 ++ x2) -> trapz y1 x1 <= trapz (y1 ++ y2) (x1 ++ x2).
Proof.
  induction y1 as [|a y1 IH]; intros x1 x2 L Hy Hx.
  - destruct x1; [|cbn in L; lia]. cbn [app trapz]. now apply trapz_nonneg.
  - destruct x1 as [|b x1]; [cbn in L; lia|]. destruct y1 as [|a1 y1]; destruct x1 as [|b1 x1]; try (cbn in L; lia).
    + cbn [app]. change (trapz [a] [b]) with 0. apply trapz_nonneg; [exact Hy|exact Hx].
    + change (trapz (a :: a1 :: y1) (b :: b1 :: x1)) with ((b1 - b) * (a + a1) / 2 + trapz (a1 :: y1) (b1 :: x1)).
      change (trapz ((a :: a1 :: y1) ++ y2) ((b :: b1 :: x1) ++ x2)) with ((b1 - b) * (a + a1) / 2 + trapz ((a1 :: y1) ++ y2) ((b1 :: x1) ++ x2)).
      apply Rplus_le_compat_l. apply IH; [cbn in *; lia| |]; [now inversion Hy|now inversion Hx].
Qed.
Lemma trapz_flat a w0 w : trapz (map (fun _ => a) (w0 :: w)) (w0 :: w) = a * (last (w0 :: w) 0 - w0).
Proof.
  revert w0. induction w as [|w1 w IH]; intros w0; [cbn; ring|]. change (trapz (map (fun _ => a) (w0 :: w1 :: w)) (w0 :: w1 :: w)) with ((w1 - w0) * (a + a) / 2 + trapz (map (fun _ => a) (w1 :: w)) (w1 :: w)).
  rewrite IH. change (last (w0 :: w1 :: w) 0) with (last (w1 :: w) 0). field.
Qed.
Lemma py_int_nonneg x : 0 <= x -> IZR (py_int x) <= x < IZR (py_int x) + 1.
Proof. intros H. unfold py_int. destruct (Rle_dec 0 x); [|lra]. pose proof (base_Int_part x). lra. Qed.
