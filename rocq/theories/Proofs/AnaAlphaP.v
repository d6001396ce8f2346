(** Proofs for Model/AnaAlpha.v. *)
From Coq Require Import Reals Lra Lia List String.
From Verif Require Import Base.PyBase Base.RSum Model.AnaSolver Model.AnaAlpha Spec.AnaSolverSpec Spec.AnaAlphaSpec Proofs.RSumP Proofs.AnaSolverP.
Import ListNotations.
Local Open Scope R_scope.

Lemma weight_S start div k : weight_k (start / div) div k = weight_k start div (S k).
Proof. unfold weight_k. cbn [pow]. unfold Rdiv. rewrite Rinv_mult. ring. Qed.
Lemma weight_0 start div : weight_k start div 0 = start.
Proof. unfold weight_k. cbn [pow]. field. Qed.
Lemma weights_S start div K : weights start div (S K) = start :: weights (start / div) div K.
Proof.
  unfold weights. change (seq 0 (S (S K))) with (0%nat :: seq 1 (S K)). cbn [map]. rewrite weight_0. f_equal. rewrite <- seq_shift, map_map. apply map_ext. intros k. symmetry. apply weight_S.
Qed.
Lemma weights_0 start div : weights start div 0 = [start].
Proof. unfold weights. cbn. rewrite weight_0. reflexivity. Qed.
Lemma last_tried_S start stop div K : last_tried start stop div (S K) -> stop <= start / div /\ last_tried (start / div) stop div K.
Proof.
  intros [H1 H2]. split.
  - specialize (H1 0%nat ltac:(lia)). unfold weight_k in H1. cbn [pow] in H1. rewrite Rmult_1_r in H1. exact H1.
  - split; [intros k Hk; rewrite weight_S; apply H1; lia|rewrite weight_S; exact H2].
Qed.
Lemma last_tried_0 start stop div : last_tried start stop div 0 -> start / div < stop.
Proof. intros [_ H]. unfold weight_k in H. cbn [pow] in H. rewrite Rmult_1_r in H. exact H. Qed.

Section K.
Variable opt : R -> vec -> res result.
Definition extend (t : trail) (l : list (R * result)) : trail :=
  Trail (t_chi t ++ map (fun p => r_chi2 (snd p)) l) (t_alphas t ++ map fst l) (t_opt t ++ map snd l).
Lemma extend_nil t : extend t [] = t.
Proof. destruct t. unfold extend. cbn. rewrite !app_nil_r. reflexivity. Qed.
Lemma extend_cons t a o l : extend t ((a, o) :: l) = extend (Trail (t_chi t ++ [r_chi2 o]) (t_alphas t ++ [a]) (t_opt t ++ [o])) l.
Proof. unfold extend. cbn. rewrite <- !app_assoc. reflexivity. Qed.
Lemma kink_ends K : forall start stop div u t fuel, last_tried start stop div K -> (K < fuel)%nat ->
  kink_loop opt fuel start stop div u t = Some (extend t (successes opt (weights start div K) u)).
Proof.
  induction K as [|K IH]; intros start stop div u t fuel H Hf; (destruct fuel as [|fuel]; [lia|]); cbn [kink_loop].
  - apply last_tried_0 in H. rewrite weights_0. cbn [successes]. destruct (opt start u) as [o|e]; (destruct (Rlt_dec (start / div) stop) as [|N]; [|contradiction]).
    + rewrite extend_cons, extend_nil. reflexivity.
    + rewrite extend_nil. reflexivity.
  - apply last_tried_S in H. destruct H as [H1 H2]. rewrite weights_S. cbn [successes]. destruct (opt start u) as [o|e]; (destruct (Rlt_dec (start / div) stop) as [L|N]; [lra|]).
    + rewrite (IH _ _ _ _ _ fuel H2 ltac:(lia)), extend_cons. reflexivity.
    + rewrite (IH _ _ _ _ _ fuel H2 ltac:(lia)). reflexivity.
Qed.
Lemma kink_never fuel : forall start stop div u t, 0 < div <= 1 -> 0 < start -> stop <= start -> kink_loop opt fuel start stop div u t = None.
Proof.
  induction fuel as [|fuel IH]; intros start stop div u t Hd Hs Hst; cbn [kink_loop]; [reflexivity|].
  assert (G : start <= start / div). { apply Rmult_le_reg_r with div; [lra|]. unfold Rdiv. rewrite Rmult_assoc, Rinv_l by lra. nra. }
  destruct (opt start u); (destruct (Rlt_dec (start / div) stop) as [L|N]; [lra|]); apply IH; lra.
Qed.
End K.
Lemma ends_somewhere start stop div : 0 < stop -> 1 < div -> exists K, last_tried start stop div K.
Proof.
  intros Hs Hd.
  assert (E : exists N, weight_k start div (S N) < stop).
  { destruct (Rle_dec start 0) as [L|L].
    - exists 0%nat. unfold weight_k. cbn [pow]. rewrite Rmult_1_r. assert (0 < / div) by (apply Rinv_0_lt_compat; lra). unfold Rdiv. nra.
    - destruct (Pow_x_infinity div ltac:(rewrite Rabs_pos_eq; lra) (start / stop + 1)) as [N HN]. exists N. specialize (HN (S N) ltac:(lia)).
      assert (P : 0 < div ^ S N) by (apply pow_lt; lra). rewrite Rabs_pos_eq in HN by lra. unfold weight_k. apply Rmult_lt_reg_r with (div ^ S N); [exact P|].
      unfold Rdiv. rewrite Rmult_assoc, Rinv_l, Rmult_1_r by lra. assert (start = stop * (start / stop)) by (field; lra). nra. }
  destruct E as [N HN].
  assert (D : forall q, (exists K, last_tried start stop div K) \/ forall k, (k < q)%nat -> stop <= weight_k start div (S k)).
  { induction q as [|q [X|X]]; [right; intros; lia|left; exact X|]. destruct (Rlt_dec (weight_k start div (S q)) stop) as [L|L]; [left; exists q; split; assumption|].
    right. intros k Hk. destruct (Nat.eq_dec k q) as [->|]; [lra|apply X; lia]. }
  destruct (D (S N)) as [X|X]; [exact X|]. specialize (X N ltac:(lia)). lra.
Qed.
Lemma last_tried_unique start stop div K K' : last_tried start stop div K -> last_tried start stop div K' -> K = K'.
Proof.
  intros [A B] [A' B']. destruct (Nat.lt_trichotomy K K') as [L|[E|L]]; [|exact E|]; exfalso.
  - specialize (A' K L). lra.
  - specialize (A K' L). lra.
Qed.
Lemma argmin_from_spec l : forall i best m, let r := argmin_from i best m l in
  (r = best /\ forall j, (j < List.length l)%nat -> m <= nth j l 0) \/
  (exists k, (k < List.length l)%nat /\ r = (i + k)%nat /\ nth k l 0 < m /\ (forall j, (j < List.length l)%nat -> nth k l 0 <= nth j l 0) /\ (forall j, (j < k)%nat -> nth k l 0 < nth j l 0)).
Proof.
  induction l as [|x l IH]; intros i best m; cbn [argmin_from List.length]; [left; split; [reflexivity|intros; lia]|].
  destruct (Rlt_dec x m) as [L|L].
  - right. destruct (IH (S i) i x) as [[E H]|(k & Hk & E & Hm & H1 & H2)].
    + exists 0%nat. rewrite E. cbn [nth]. repeat split; try lia; try exact L. intros [|j] Hj; [lra|apply H; lia].
    + exists (S k). rewrite E. cbn [nth]. repeat split; try lia; [lra|intros [|j] Hj; [lra|apply H1; lia]|intros [|j] Hj; [lra|apply H2; lia]].
  - destruct (IH (S i) best m) as [[E H]|(k & Hk & E & Hm & H1 & H2)].
    + left. split; [exact E|]. intros [|j] Hj; cbn [nth]; [lra|apply H; lia].
    + right. exists (S k). rewrite E. cbn [nth]. repeat split; try lia; [exact Hm|intros [|j] Hj; [lra|apply H1; lia]|intros [|j] Hj; [lra|apply H2; lia]].
Qed.
Lemma argmin_spec l : l <> [] -> exists i, argmin l = Ok i /\ first_smallest l i.
Proof.
  destruct l as [|x l]; [contradiction|]. intros _. cbn [argmin]. eexists. split; [reflexivity|].
  destruct (argmin_from_spec l 1 0 x) as [[E H]|(k & Hk & E & Hm & H1 & H2)]; rewrite E; unfold first_smallest; cbn [List.length].
  - split; [lia|]. split; [intros [|j] Hj; cbn [nth]; [lra|apply H; lia]|intros; lia].
  - cbn [plus nth]. split; [lia|]. split; [intros [|j] Hj; [lra|apply H1; lia]|intros [|j] Hj; [lra|apply H2; lia]].
Qed.
Lemma last_item_spec {A} (l : list A) : match last_item l with Ok x => exists l', l = l' ++ [x] | Raise e => l = [] /\ e = IndexError end.
Proof.
  unfold last_item. destruct (rev l) as [|x r] eqn:E.
  - split; [|reflexivity]. rewrite <- (rev_involutive l), E. reflexivity.
  - exists (rev r). rewrite <- (rev_involutive l), E. reflexivity.
Qed.

(** historic *)
Lemma historic_never opt niw : (forall a, exists o, opt a zeros = Ok o /\ niw / r_chi2 o < 1) -> forall fuel alpha conv acc, conv < 1 -> historic_loop opt fuel niw alpha conv acc = None.
Proof.
  intros H. induction fuel as [|fuel IH]; intros alpha conv acc Hc; cbn [historic_loop]; [reflexivity|]. destruct (Rlt_dec conv 1) as [_|N]; [|contradiction].
  destruct (H alpha) as (o & -> & Ho). apply IH, Ho.
Qed.

(** Bryan *)
Lemma bryan_never optb p : 0 <= p -> (forall a, exists A, optb a = Ok (A, p)) -> forall fuel alpha div m acc, (m = 0 \/ m = p) -> bryan_loop optb fuel alpha div m acc = None.
Proof.
  intros Hp H. induction fuel as [|fuel IH]; intros alpha div m acc Hm; cbn [bryan_loop]; [reflexivity|]. destruct (H alpha) as (A & ->).
  destruct (Rlt_dec m p) as [L|L]; [apply IH; right; reflexivity|]. destruct (Rlt_dec p (0.01 * m)) as [L'|L']; [destruct Hm; lra|]. apply IH, Hm.
Qed.
Definition sampled (optb : R -> res (vec * R)) (s : sample) : Prop := optb (b_alpha s) = Ok (b_A s, b_prob s).
Lemma bryan_inv optb : forall fuel alpha div m acc out, 0 <= m ->
  (forall s, In s acc -> b_prob s <= m) -> (0 < m -> exists s, In s acc /\ b_prob s = m) ->
  (forall i, (i < List.length acc)%nat -> b_alpha (nth i acc (Sample 0 zeros 0)) = weight_k 500 div i) -> (Forall (sampled optb) acc) -> alpha = weight_k 500 div (List.length acc) ->
  bryan_loop optb fuel alpha div m acc = Some (Ok out) ->
  (forall i, (i < List.length out)%nat -> b_alpha (nth i out (Sample 0 zeros 0)) = weight_k 500 div i) /\ Forall (sampled optb) out /\
  exists pre s best, out = pre ++ [s] /\ b_prob s < 0.01 * best /\ 0 <= best /\ (forall x, In x pre -> b_prob x <= best) /\ (0 < best -> exists x, In x pre /\ b_prob x = best).
Proof.
  induction fuel as [|fuel IH]; intros alpha div m acc out Hm0 Hle Hin Hal Hs Ha H; cbn [bryan_loop] in H; [discriminate|].
  destruct (optb alpha) as [[A p]|e] eqn:Eo; [|discriminate].
  assert (Hal' : forall i, (i < List.length (acc ++ [Sample alpha A p]))%nat -> b_alpha (nth i (acc ++ [Sample alpha A p]) (Sample 0 zeros 0)) = weight_k 500 div i).
  { intros i Hi. rewrite app_length in Hi. cbn [List.length] in Hi. destruct (Nat.eq_dec i (List.length acc)) as [->|N].
    - rewrite app_nth2, Nat.sub_diag by lia. exact Ha.
    - rewrite app_nth1 by lia. apply Hal. lia. }
  assert (Hs' : Forall (sampled optb) (acc ++ [Sample alpha A p])) by (apply Forall_app; split; [exact Hs|constructor; [exact Eo|constructor]]).
  assert (Ha' : alpha / div = weight_k 500 div (List.length (acc ++ [Sample alpha A p]))).
  { rewrite app_length. cbn [List.length]. rewrite Nat.add_1_r, Ha. unfold weight_k. cbn [pow]. unfold Rdiv. rewrite Rinv_mult. ring. }
  destruct (Rlt_dec m p) as [L|L].
  - apply (IH (alpha / div) div p (acc ++ [Sample alpha A p])); try assumption; [lra| |].
    + intros s I. apply in_app_or in I. destruct I as [I|[<-|[]]]; [specialize (Hle s I); lra|cbn; lra].
    + intros _. exists (Sample alpha A p). split; [apply in_or_app; right; left; reflexivity|reflexivity].
  - destruct (Rlt_dec p (0.01 * m)) as [L'|L'].
    + injection H as <-. split; [exact Hal'|]. split; [exact Hs'|]. exists acc, (Sample alpha A p), m. repeat split; try assumption.
    + apply (IH (alpha / div) div m (acc ++ [Sample alpha A p])); try assumption.
      * intros s I. apply in_app_or in I. destruct I as [I|[<-|[]]]; [apply Hle, I|cbn; lra].
      * intros P. destruct (Hin P) as (s & I & E). exists s. split; [apply in_or_app; left; exact I|exact E].
Qed.
(** weights of the trapezoid rule on a decreasing mesh *)
Lemma dw_opp n x i : (i < n)%nat -> dw_of n (fun j => - x j) i = - dw_of n x i.
Proof. intros Hi. destruct n as [|m]; [lia|]. rewrite !dw_split by exact Hi. unfold dwR, dwL. destruct (Nat.ltb i m), i; lra. Qed.
Lemma average_weights (acc : list sample) : (2 <= List.length acc)%nat -> (forall s, In s acc -> 0 < b_prob s) ->
  (forall i, (S i < List.length acc)%nat -> b_alpha (nth (S i) acc (Sample 0 zeros 0)) < b_alpha (nth i acc (Sample 0 zeros 0))) ->
  exists om : nat -> R, (forall i, (i < List.length acc)%nat -> 0 < om i) /\ rsum (List.length acc) om = 1 /\
    forall l, bryan_average acc l = rsum (List.length acc) (fun i => om i * b_A (nth i acc (Sample 0 zeros 0)) l).
Proof.
  intros H2 Hp Hd. set (n := List.length acc) in *. set (al := nthR (map b_alpha acc)). set (pr := nthR (map b_prob acc)).
  assert (Eal : forall i, (i < n)%nat -> al i = b_alpha (nth i acc (Sample 0 zeros 0))).
  { intros i Hi. unfold al, nthR. rewrite (nth_indep _ 0 (b_alpha (Sample 0 zeros 0))) by (rewrite map_length; exact Hi). apply map_nth. }
  assert (Epr : forall i, (i < n)%nat -> pr i = b_prob (nth i acc (Sample 0 zeros 0))).
  { intros i Hi. unfold pr, nthR. rewrite (nth_indep _ 0 (b_prob (Sample 0 zeros 0))) by (rewrite map_length; exact Hi). apply map_nth. }
  assert (Ppr : forall i, (i < n)%nat -> 0 < pr i) by (intros i Hi; rewrite (Epr i Hi); apply Hp, nth_In; exact Hi).
  set (wt := fun i => - dw_of n al i).
  assert (Pwt : forall i, (i < n)%nat -> 0 < wt i).
  { intros i Hi. unfold wt. rewrite <- dw_opp by exact Hi. apply dw_pos; [exact H2| |exact Hi]. intros j Hj. rewrite !Eal by lia. specialize (Hd j Hj). lra. }
  assert (T : forall y, - trapz n y al = rsum n (fun i => wt i * y i)).
  { intros y. rewrite trapz_dw. replace (- rsum n (fun i => dw_of n al i * y i)) with (- 1 * rsum n (fun i => dw_of n al i * y i)) by ring. rewrite <- rsum_scal. apply rsum_ext. intros; unfold wt; ring. }
  set (Z := - trapz n pr al). assert (PZ : 0 < Z).
  { unfold Z. rewrite T. replace 0 with (rsum n (fun _ => 0)) by (apply rsum_zero; reflexivity). apply rsum_lt with 0%nat; [|lia|].
    - intros i Hi. apply Rlt_le, Rmult_lt_0_compat; [apply Pwt|apply Ppr]; exact Hi.
    - apply Rmult_lt_0_compat; [apply Pwt|apply Ppr]; lia. }
  exists (fun i => wt i * pr i / Z). split; [|split].
  - intros i Hi. apply Rdiv_lt_0_compat; [apply Rmult_lt_0_compat; [apply Pwt|apply Ppr]; exact Hi|exact PZ].
  - rewrite (rsum_ext _ _ (fun i => wt i * pr i * / Z)) by reflexivity. rewrite rsum_scal_r, <- T. fold Z. apply Rinv_r. lra.
  - intros l. unfold bryan_average. fold n. fold al. fold pr. fold Z. rewrite T. apply rsum_ext. intros i Hi.
    replace (nthR (map (fun s => b_A s l) acc) i) with (b_A (nth i acc (Sample 0 zeros 0)) l).
    + field. lra.
    + unfold nthR. rewrite (nth_indep _ 0 ((fun s => b_A s l) (Sample 0 zeros 0))) by (rewrite map_length; exact Hi). symmetry. exact (map_nth (fun s => b_A s l) acc (Sample 0 zeros 0) i).
Qed.
