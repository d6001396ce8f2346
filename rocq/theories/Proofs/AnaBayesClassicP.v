(** The 'classic' choice. *)
From Coq Require Import Reals Lra Lia List String.
From Verif Require Import Base.PyBase Base.RSum Model.AnaSolver Model.AnaAlpha Model.AnaBayes Spec.AnaSolverSpec Spec.AnaAlphaSpec Spec.AnaBayesSpec Proofs.RSumP Proofs.AnaSolverP Proofs.AnaSolverOptP Proofs.AnaSolverMainP Proofs.AnaSolverRepP Proofs.AnaAlphaP Proofs.AnaBayesEigP Proofs.AnaBayesP Proofs.AnaBayesTraceP.
Import ListNotations.
Local Open Scope R_scope.

Lemma below_spec c : below_one c = true <-> under_one c.
Proof. destruct c as [x| | |]; cbn; try (split; [discriminate|tauto]); try tauto. destruct (Rlt_dec x 1); split; auto; discriminate. Qed.
Lemma below_false c : below_one c = false <-> ~ under_one c.
Proof. rewrite <- below_spec. destruct (below_one c); split; congruence. Qed.
Section C.
Variable opt : R -> vec -> res bresult.
Lemma weight_next k : weight_k (10 ^ 6) 10 k / 10 = weight_k (10 ^ 6) 10 (S k).
Proof. unfold weight_k. cbn [pow]. field. apply pow_nonzero. lra. Qed.
Lemma weight_first : weight_k (10 ^ 6) 10 0 = 10 ^ 6.
Proof. unfold weight_k. cbn [pow]. field. Qed.
Lemma weight_pos k : 0 < weight_k (10 ^ 6) 10 k.
Proof. unfold weight_k. apply Rdiv_lt_0_compat; apply pow_lt; lra. Qed.
Notation w := (weight_k (10 ^ 6) 10).
Lemma loop_spec : forall fuel k acc c, under_one c ->
  match classic_loop opt fuel (w k) c acc with
  | None => forall j, (S j < fuel)%nat -> exists o, opt (w (k + j)%nat) zeros = Ok o /\ under_one (br_conv o)
  | Some (Raise e) => exists n, opt (w (k + n)%nat) zeros = Raise e /\ forall j, (j < n)%nat -> exists o, opt (w (k + j)%nat) zeros = Ok o /\ under_one (br_conv o)
  | Some (Ok out) => exists news lst, out = acc ++ news ++ [lst] /\ (forall j, (j < S (List.length news))%nat -> opt (w (k + j)%nat) zeros = Ok (nth j (news ++ [lst]) lst)) /\
      (forall j, (j < List.length news)%nat -> under_one (br_conv (nth j news lst))) /\ ~ under_one (br_conv lst)
  end.
Proof.
  induction fuel as [|fuel IH]; intros k acc c Hc; cbn [classic_loop]; [intros j Hj; lia|].
  rewrite (proj2 (below_spec c) Hc). destruct (opt (w k) zeros) as [o|e] eqn:E.
  2: { exists 0%nat. rewrite Nat.add_0_r. split; [exact E|]. intros; lia. }
  rewrite weight_next. destruct (below_one (br_conv o)) eqn:B.
  - apply below_spec in B. specialize (IH (S k) (acc ++ [o]) (br_conv o) B). destruct (classic_loop _ _ _ _ _) as [[out|e]|].
    + destruct IH as (news & lst & X1 & X2 & X3 & X4). exists (o :: news), lst. split; [rewrite X1, <- app_assoc; reflexivity|]. split; [|split; [|exact X4]].
      * intros [|j] Hj; cbn [List.length app nth] in *; [rewrite Nat.add_0_r; exact E|]. replace (k + S j)%nat with (S k + j)%nat by lia. apply X2. lia.
      * intros [|j] Hj; cbn [List.length nth] in *; [exact B|apply X3; lia].
    + destruct IH as (n & X1 & X2). exists (S n). replace (k + S n)%nat with (S k + n)%nat by lia. split; [exact X1|]. intros [|j] Hj; [rewrite Nat.add_0_r; eauto|].
      replace (k + S j)%nat with (S k + j)%nat by lia. apply X2. lia.
    + intros [|j] Hj; [rewrite Nat.add_0_r; eauto|]. replace (k + S j)%nat with (S k + j)%nat by lia. apply IH. lia.
  - destruct fuel as [|fuel]; cbn [classic_loop]; [intros j Hj; lia|]. rewrite B. exists [], o. split; [reflexivity|]. split; [|split; [cbn; intros; lia|apply below_false, B]].
    intros [|j] Hj; cbn in *; [rewrite Nat.add_0_r; exact E|lia].
Qed.
Lemma loop_never : (forall k, exists o, opt (w k) zeros = Ok o /\ under_one (br_conv o)) -> forall fuel k acc c, under_one c -> classic_loop opt fuel (w k) c acc = None.
Proof.
  intros H. induction fuel as [|fuel IH]; intros k acc c Hc; cbn [classic_loop]; [reflexivity|]. rewrite (proj2 (below_spec c) Hc).
  destruct (H k) as (o & -> & Ho). rewrite weight_next. apply IH, Ho.
Qed.
Lemma removelast_app1 {A} (l : list A) x : removelast (l ++ [x]) = l.
Proof. rewrite removelast_app by discriminate. apply app_nil_r. Qed.
Lemma last_app1 {A} (l : list A) x : last_item (l ++ [x]) = Ok x.
Proof. unfold last_item. rewrite rev_app_distr. reflexivity. Qed.
Lemma under_zero : under_one (Fin 0).
Proof. cbn. lra. Qed.
Variable sci : option R -> vec -> res (R * list bresult).
Definition final_u (u2 : vec) (extra : list bresult) : vec := match rev extra with [] => u2 | b :: _ => r_u (br b) end.
Lemma classic_eq pre o2 o1 : (if Nat.leb (List.length (pre ++ [o2; o1])) 1 then Raise RuntimeError
          else
            let! x1 := last_item (pre ++ [o2; o1]) in
            let! x2 := last_item (removelast (pre ++ [o2; o1])) in
            let u2 := r_u (br x2) in
            let! an := sci (predict x2 x1) u2 in
            let u := match rev (snd an) with [] => u2 | b :: _ => r_u (br b) end in
            let all := (removelast (removelast (pre ++ [o2; o1])) ++ [bwith_u x2 u; x1] ++ snd an)%list in
            let! sol := opt (fst an) u in
            Ok (sol, all)) =
  (let! an := sci (predict o2 o1) (r_u (br o2)) in let! sol := opt (fst an) (final_u (r_u (br o2)) (snd an)) in
   Ok (sol, pre ++ [bwith_u o2 (final_u (r_u (br o2)) (snd an)); o1] ++ snd an)).
Proof.
  rewrite app_length. cbn [List.length]. replace (Nat.leb (List.length pre + 2) 1) with false by (symmetry; apply Nat.leb_gt; lia).
  change [o2; o1] with ([o2] ++ [o1]). rewrite app_assoc, last_app1. cbn [bind]. rewrite !removelast_app1, last_app1. cbn [bind]. reflexivity.
Qed.
Lemma classic_spec fuel :
  match solve_classic opt sci fuel with
  | None => forall j, (S j < fuel)%nat -> exists o, opt (w j) zeros = Ok o /\ under_one (br_conv o)
  | Some (Raise e) =>
     (exists n, opt (w n) zeros = Raise e /\ forall j, (j < n)%nat -> exists o, opt (w j) zeros = Ok o /\ under_one (br_conv o)) \/
     (e = RuntimeError /\ exists o, opt (10 ^ 6) zeros = Ok o /\ ~ under_one (br_conv o)) \/
     (exists pre o2 o1, descent opt (pre ++ [o2; o1]) o1 /\ (sci (predict o2 o1) (r_u (br o2)) = Raise e \/
        exists a extra, sci (predict o2 o1) (r_u (br o2)) = Ok (a, extra) /\ opt a (final_u (r_u (br o2)) extra) = Raise e))
  | Some (Ok (sol, all)) => exists pre o2 o1 a extra, descent opt (pre ++ [o2; o1]) o1 /\ sci (predict o2 o1) (r_u (br o2)) = Ok (a, extra) /\
      opt a (final_u (r_u (br o2)) extra) = Ok sol /\ all = pre ++ [bwith_u o2 (final_u (r_u (br o2)) extra); o1] ++ extra
  end.
Proof.
  unfold solve_classic. pose proof (loop_spec fuel 0 [] (Fin 0) under_zero) as X. rewrite weight_first in X. destruct (classic_loop _ _ _ _ _) as [[out|e]|]; [| |exact X].
  2: { left. exact X. }
  destruct X as (news & lst & -> & X2 & X3 & X4). cbn [app Nat.add] in *.
  destruct (rev news) as [|o2 r] eqn:Er.
  { assert (news = []) by (rewrite <- (rev_involutive news), Er; reflexivity). subst news. cbn [app List.length Nat.leb].
    right. left. split; [reflexivity|]. exists lst. split; [rewrite <- weight_first; apply (X2 0%nat); cbn; lia|exact X4]. }
  assert (En : news = rev r ++ [o2]) by (rewrite <- (rev_involutive news), Er; reflexivity).
  set (pre := rev r) in *; clearbody pre; subst news.
  assert (D : descent opt (pre ++ [o2; lst]) lst).
  1: (assert (Eq : (pre ++ [o2; lst]) = (pre ++ [o2]) ++ [lst]) by (rewrite <- app_assoc; reflexivity);
    split; [intros i Hi; rewrite Eq; apply X2; rewrite app_length in *; cbn [List.length] in *; lia|];
    split; [intros i Hi; rewrite Eq, app_nth1 by (rewrite app_length in *; cbn [List.length] in *; lia); apply X3; rewrite app_length in *; cbn [List.length] in *; lia|];
    split; [exists (pre ++ [o2]); exact Eq|exact X4]).
  rewrite <- app_assoc; cbn [app]; rewrite classic_eq; destruct (sci _ _) as [[a extra]|e] eqn:Es; cbn [bind fst snd].
  1: destruct (opt a _) as [sol|e] eqn:Eo; cbn [bind]; [exists pre, o2, lst, a, extra; auto|right; right; exists pre, o2, lst; split; [exact D|right; eauto]].
  all: right; right; exists pre, o2, lst; auto.
Qed.
Lemma classic_never : (forall k, exists o, opt (w k) zeros = Ok o /\ under_one (br_conv o)) -> forall fuel, solve_classic opt sci fuel = None.
Proof. intros H fuel. unfold solve_classic. rewrite <- weight_first, (loop_never H fuel 0 [] (Fin 0) under_zero). reflexivity. Qed.
End C.

(** the prediction *)
Lemma log10_lt a b : 0 < a -> a < b -> log10 a < log10 b.
Proof.
  intros H1 H2. unfold log10, Rdiv. apply Rmult_lt_compat_r; [apply Rinv_0_lt_compat; rewrite <- ln_1; apply ln_increasing; lra|apply ln_increasing; assumption].
Qed.
Lemma log10_1 : log10 1 = 0.
Proof. unfold log10. rewrite ln_1. lra. Qed.
Lemma log10_Rpower x : log10 (Rpower 10 x) = x.
Proof. unfold log10, Rpower. rewrite ln_exp. field. assert (ln 1 < ln 10) by (apply ln_increasing; lra). rewrite ln_1 in *. lra. Qed.
Lemma Rpower_log10 a : 0 < a -> Rpower 10 (log10 a) = a.
Proof. intros H. unfold log10, Rpower. replace (ln a / ln 10 * ln 10) with (ln a); [apply exp_ln, H|]. field. assert (ln 1 < ln 10) by (apply ln_increasing; lra). rewrite ln_1 in *. lra. Qed.
Lemma Rpower10_le x y : x <= y -> Rpower 10 x <= Rpower 10 y.
Proof. intros H. apply Rle_Rpower; lra. Qed.
Lemma Rpower10_lt x y : x < y -> Rpower 10 x < Rpower 10 y.
Proof. intros H. apply Rpower_lt; lra. Qed.
Lemma predict_spec o2 o1 c2 c1 a2 a1 : br_conv o2 = Fin c2 -> br_conv o1 = Fin c1 -> r_alpha (br o2) = a2 -> r_alpha (br o1) = a1 -> 0 < c2 < 1 -> 1 <= c1 -> 0 < a1 < a2 ->
  exists a, predict o2 o1 = Some a /\ a1 <= a < a2 /\ (log10 a - log10 a2) * (log10 c1 - log10 c2) = (log10 1 - log10 c2) * (log10 a1 - log10 a2).
Proof.
  intros E2 E1 A2 A1 H2 H1 HA. unfold predict. rewrite E2, E1, A1, A2. cbn [log_of]. destruct (Rlt_dec 0 c2); [|lra]. destruct (Rlt_dec 0 c1); [|lra].
  assert (L2 : log10 c2 < 0) by (rewrite <- log10_1; apply log10_lt; lra).
  assert (L1 : 0 <= log10 c1) by (rewrite <- log10_1; destruct (Req_dec 1 c1) as [<-|]; [lra|apply Rlt_le, log10_lt; lra]).
  assert (LA : log10 a1 < log10 a2) by (apply log10_lt; lra).
  destruct (Req_EM_T (log10 c1 - log10 c2) 0); [lra|]. eexists. split; [reflexivity|]. rewrite log10_Rpower, log10_1.
  set (x1 := log10 a1) in *. set (x2 := log10 a2) in *. set (y1 := log10 c1) in *. set (y2 := log10 c2) in *.
  assert (B : x1 <= x2 - y2 * (x1 - x2) / (y1 - y2) < x2).
  { assert (E : x2 - y2 * (x1 - x2) / (y1 - y2) = x2 - (- y2 / (y1 - y2)) * (x2 - x1)) by (field; lra). rewrite E.
    assert (T : 0 < - y2 / (y1 - y2) <= 1).
    { split; [apply Rdiv_lt_0_compat; lra|]. apply Rmult_le_reg_r with (y1 - y2); [lra|]. unfold Rdiv. rewrite Rmult_assoc, Rinv_l by lra. lra. }
    nra. }
  split; [|field; lra]. rewrite <- (Rpower_log10 a1), <- (Rpower_log10 a2) by lra. fold x1 x2. split; [apply Rpower10_le|apply Rpower10_lt]; lra.
Qed.
Lemma predict_none o2 o1 : predict o2 o1 = None <-> ~ exists c2 c1, br_conv o2 = Fin c2 /\ br_conv o1 = Fin c1 /\ 0 < c2 /\ 0 < c1 /\ c1 <> c2.
Proof.
  unfold predict. split.
  - intros H (c2 & c1 & E2 & E1 & P2 & P1 & N). rewrite E2, E1 in H. cbn [log_of] in H. destruct (Rlt_dec 0 c2); [|lra]. destruct (Rlt_dec 0 c1); [|lra].
    destruct (Req_EM_T (log10 c1 - log10 c2) 0) as [Z|Z]; [|discriminate]. apply N. rewrite <- (Rpower_log10 c1), <- (Rpower_log10 c2) by assumption. f_equal. lra.
  - intros H. destruct (br_conv o2) as [c2| | |]; try reflexivity. cbn [log_of]. destruct (Rlt_dec 0 c2) as [P2|]; [|reflexivity].
    destruct (br_conv o1) as [c1| | |]; try reflexivity. cbn [log_of]. destruct (Rlt_dec 0 c1) as [P1|]; [|reflexivity].
    destruct (Req_EM_T (log10 c1 - log10 c2) 0) as [Z|Z]; [reflexivity|]. exfalso. apply H. exists c2, c1. repeat (split; [assumption || reflexivity|]). intros ->. lra.
Qed.
