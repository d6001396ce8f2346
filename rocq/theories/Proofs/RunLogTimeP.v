(** Times and lines of the log file (Model/RunLog.v). *)
From Coq Require Import ZArith Reals List String Ascii Lra Lia.
From Verif Require Import Base.PyBase Model.Util Model.RankFiles Model.RunLog Spec.RunLogSpec Proofs.StrP Proofs.UtilP Proofs.RunLogP.
Import ListNotations.
Local Open Scope R_scope.

(** * The calls since the construction *)
Lemma current_shape h : current h = [] \/ exists e r, current h = e :: r /\ l_call e = CInit /\ Forall (fun x => l_call x <> CInit) r.
Proof.
  induction h as [|e h IH] using rev_ind.
  - now left.
  - rewrite current_snoc. destruct (l_call e) eqn:Ec; [right; exists e, []; repeat split; auto|..];
    (destruct IH as [IH|(e0 & r & IH & A & B)]; [rewrite IH; now left|]; right; rewrite IH; exists e0, (r ++ [e]); repeat split; auto;
     apply Forall_app; split; [assumption|constructor; [rewrite Ec; discriminate|constructor]]).
Qed.
Lemma current_pre h pre e post : current h = pre ++ e :: post -> l_call e <> CInit -> exists e0 r, pre = e0 :: r /\ l_call e0 = CInit /\ Forall (fun x => l_call x <> CInit) r.
Proof.
  intros H Hc. destruct (current_shape h) as [E|(e0 & r & E & A & B)]; rewrite E in H.
  - destruct pre; discriminate.
  - destruct pre as [|p pre]; cbn in H; injection H as <- ->; [congruence|]. apply Forall_app in B. exists e0, pre. tauto.
Qed.

(** * The clock *)
Lemma clock_prefix a b : clock_ok (a ++ b) -> clock_ok a.
Proof. intros [H1 H2]. split; [apply Forall_app in H1; tauto|]. intros x e1 e2 y ->. apply (H2 x e1 e2 (y ++ b)). now rewrite <- app_assoc. Qed.
Lemma clock_self h e i j : clock_ok h -> In e h -> (i <= j)%nat -> now (l_read e) i <= now (l_read e) j.
Proof. intros [H _] Hi. rewrite Forall_forall in H. apply (H e Hi). Qed.
Lemma clock_before pre : forall e x i j, clock_ok (pre ++ [e]) -> In x pre -> now (l_read x) i <= now (l_read e) j.
Proof.
  induction pre as [|y pre IH] using rev_ind; intros e x i j H Hx; [destruct Hx|]. apply in_app_iff in Hx. destruct Hx as [Hx|[<-|[]]].
  - apply Rle_trans with (now (l_read y) 0).
    + apply IH; [|assumption]. apply clock_prefix in H. exact H.
    + destruct H as [_ H]. apply (H pre y e []). now rewrite <- app_assoc.
  - destruct H as [_ H]. apply (H pre y e []). now rewrite <- app_assoc.
Qed.
Lemma task_start_in pre : pre <> [] -> exists x k, In x pre /\ task_start pre = now (l_read x) k.
Proof.
  intros H. unfold task_start. destruct (find _ _) as [x|] eqn:F.
  - apply find_some in F. destruct F as [F _]. apply in_rev in F. now exists x, 2%nat.
  - destruct pre as [|x pre]; [congruence|]. exists x, 1%nat. split; [now left|reflexivity].
Qed.
Lemma task_start_before pre e j : pre <> [] -> clock_ok (pre ++ [e]) -> task_start pre <= now (l_read e) j.
Proof. intros H Hc. destruct (task_start_in pre H) as (x & k & Hx & ->). now apply clock_before with (pre := pre). Qed.
Lemma start_before pre e j : pre <> [] -> clock_ok (pre ++ [e]) -> start_of pre <= now (l_read e) j.
Proof. intros H Hc. destruct pre as [|x pre]; [congruence|]. apply clock_before with (pre := x :: pre); [assumption|now left]. Qed.
Lemma sum_snoc h e : forall pre, sum_tasks pre (h ++ [e]) = sum_tasks pre h + (if ends_task (l_call e) then task_at (pre ++ h) e else 0).
Proof.
  induction h as [|x h IH]; intros pre.
  - cbn. rewrite app_nil_r. lra.
  - change (sum_tasks pre ((x :: h) ++ [e])) with ((if ends_task (l_call x) then task_at pre x else 0) + sum_tasks (pre ++ [x]) (h ++ [e])).
    change (sum_tasks pre (x :: h)) with ((if ends_task (l_call x) then task_at pre x else 0) + sum_tasks (pre ++ [x]) h).
    rewrite IH, <- app_assoc. cbn [app]. lra.
Qed.
Lemma sum_le e0 : l_call e0 = CInit -> forall r, clock_ok (e0 :: r) -> Forall (fun x => l_call x <> CInit) r ->
  sum_tasks [] (e0 :: r) <= task_start (e0 :: r) - start_of (e0 :: r).
Proof.
  intros E0. induction r as [|e r IH] using rev_ind; intros Hc Hf.
  - unfold task_start. cbn. rewrite E0. cbn. pose proof (clock_self _ e0 0 1 Hc (or_introl eq_refl) ltac:(lia)). lra.
  - change (e0 :: r ++ [e]) with ((e0 :: r) ++ [e]) in *. rewrite sum_snoc, start_snoc, task_start_snoc by discriminate. cbn [app] in *.
    specialize (IH (clock_prefix (e0 :: r) [e] Hc)). apply Forall_app in Hf. destruct Hf as [Hf _]. specialize (IH Hf).
    destruct (ends_task _); [|lra]. unfold task_at. pose proof (clock_self _ e 1 2 Hc) as X.
    assert (now (l_read e) 1 <= now (l_read e) 2) by (apply X; [right; apply in_app_iff; right; now left|lia]). lra.
Qed.

(** * Rounding *)
Lemma Int_part_bounds x : IZR (Int_part x) <= x < IZR (Int_part x) + 1.
Proof. pose proof (base_Int_part x). lra. Qed.
Lemma Int_part_mono x y : x <= y -> (Int_part x <= Int_part y)%Z.
Proof.
  intros H. pose proof (Int_part_bounds x). pose proof (Int_part_bounds y). apply Z.lt_succ_r, lt_IZR. rewrite succ_IZR. lra.
Qed.
Lemma py_round_near x : Rabs (IZR (py_round x) - x) <= 1 / 2.
Proof.
  unfold py_round. pose proof (Int_part_bounds x). destruct (total_order_T _ _) as [[Hl|Hl]|Hl]; [|destruct (Z.even _)|]; rewrite ?plus_IZR; unfold Rabs; destruct (Rcase_abs _); lra.
Qed.
Lemma py_round_tie x n : x = IZR n + 1 / 2 -> Z.even (py_round x) = true.
Proof.
  intros ->. unfold py_round. assert (E : Int_part (IZR n + 1 / 2) = n).
  { pose proof (Int_part_bounds (IZR n + 1 / 2)) as [A B]. assert (A' : IZR (Int_part (IZR n + 1 / 2)) < IZR (n + 1)) by (rewrite plus_IZR; lra).
    assert (B' : IZR n < IZR (Int_part (IZR n + 1 / 2) + 1)) by (rewrite plus_IZR; lra). apply lt_IZR in A', B'. lia. }
  rewrite E. destruct (total_order_T _ _) as [[Hl|Hl]|Hl]; try (exfalso; lra). destruct (Z.even n) eqn:Ev; [assumption|].
  rewrite Z.even_add, Ev. reflexivity.
Qed.
Lemma py_round_int n : py_round (IZR n) = n.
Proof. pose proof (py_round_near (IZR n)) as H. rewrite <- minus_IZR in H. rewrite <- abs_IZR in H. assert (X : IZR (Z.abs (py_round (IZR n) - n)) < 1) by lra. apply lt_IZR in X. lia. Qed.
Lemma py_round_mono x y : x <= y -> (py_round x <= py_round y)%Z.
Proof.
  intros H. pose proof (Int_part_mono x y H) as M. unfold py_round.
  assert (L : forall z, let r := match total_order_T (z - IZR (Int_part z)) (1 / 2) with inleft (left _) => Int_part z | inleft (right _) => if Z.even (Int_part z) then Int_part z else (Int_part z + 1)%Z | inright _ => (Int_part z + 1)%Z end in (Int_part z <= r <= Int_part z + 1)%Z).
  { intros z. cbv zeta. destruct (total_order_T _ _) as [[?|?]|?]; [|destruct (Z.even _)|]; lia. }
  destruct (Z.eq_dec (Int_part x) (Int_part y)) as [E|N].
  - rewrite E. destruct (total_order_T _ _) as [[Hx|Hx]|Hx], (total_order_T _ _) as [[Hy|Hy]|Hy]; try (exfalso; rewrite ?E in *; lra); destruct (Z.even (Int_part y)); lia.
  - pose proof (L x). pose proof (L y). cbv zeta in *. lia.
Qed.
Lemma py_round_nonneg x : 0 <= x -> (0 <= py_round x)%Z.
Proof. intros H. rewrite <- (py_round_int 0). now apply py_round_mono. Qed.

(** * Times as text *)
Lemma fmt0_pos w z : (0 <= z)%Z -> fmt0 w z = pad0 w (str_of_nat (Z.to_nat z)).
Proof. intros H. unfold fmt0. destruct (Z.ltb_spec z 0); [lia|reflexivity]. Qed.
Lemma timedelta_explicit d h m s : (0 <= h < 24)%Z -> (0 <= m < 60)%Z -> (0 <= s < 60)%Z ->
  str_timedelta (86400 * d + 3600 * h + 60 * m + s) =
  ((if (d =? 0)%Z then "" else fmt0 0 d ++ " day" ++ (if (Z.abs d =? 1)%Z then "" else "s") ++ ", ") ++ fmt0 0 h ++ ":" ++ fmt0 2 m ++ ":" ++ fmt0 2 s)%string.
Proof.
  intros Hh Hm Hs. unfold str_timedelta.
  assert (E1 : ((86400 * d + 3600 * h + 60 * m + s) / 86400 = d)%Z).
  { symmetry. apply Z.div_unique with (r := (3600 * h + 60 * m + s)%Z); lia. }
  assert (E2 : ((86400 * d + 3600 * h + 60 * m + s) mod 86400 = 3600 * h + 60 * m + s)%Z).
  { symmetry. apply Z.mod_unique with (q := d); lia. }
  assert (E3 : ((3600 * h + 60 * m + s) / 60 = 60 * h + m)%Z) by (symmetry; apply Z.div_unique with (r := s); lia).
  assert (E4 : ((3600 * h + 60 * m + s) mod 60 = s)%Z) by (symmetry; apply Z.mod_unique with (q := (60 * h + m)%Z); lia).
  assert (E5 : ((60 * h + m) / 60 = h)%Z) by (symmetry; apply Z.div_unique with (r := m); lia).
  assert (E6 : ((60 * h + m) mod 60 = m)%Z) by (symmetry; apply Z.mod_unique with (q := h); lia).
  rewrite E1, E2, E3, E4, E5, E6. destruct (d =? 0)%Z; [reflexivity|]. repeat (rewrite append_assoc; cbn [String.append]). reflexivity.
Qed.
Lemma hms_inj h m s h' m' s' : (0 <= h)%Z -> (0 <= m)%Z -> (0 <= s)%Z -> (0 <= h')%Z -> (0 <= m')%Z -> (0 <= s')%Z ->
  (fmt0 0 h ++ ":" ++ fmt0 2 m ++ ":" ++ fmt0 2 s = fmt0 0 h' ++ ":" ++ fmt0 2 m' ++ ":" ++ fmt0 2 s')%string -> h = h' /\ m = m' /\ s = s'.
Proof.
  intros. rewrite (fmt0_pos 0 h), (fmt0_pos 0 h'), (fmt0_pos 2 m), (fmt0_pos 2 m') in * by assumption.
  apply digits_cancel in H5; [|apply pad0_digits|apply pad0_digits|reflexivity|reflexivity]. destruct H5 as [A H5]. apply pad0_inj in A.
  injection H5 as H5. apply digits_cancel in H5; [|apply pad0_digits|apply pad0_digits|reflexivity|reflexivity]. destruct H5 as [B H5]. apply pad0_inj in B.
  injection H5 as H5. apply fmt0_inj in H5. lia.
Qed.
Lemma timedelta_decomp n : exists d h m s, n = (86400 * d + 3600 * h + 60 * m + s)%Z /\ (0 <= h < 24)%Z /\ (0 <= m < 60)%Z /\ (0 <= s < 60)%Z /\ ((0 <= n)%Z -> (0 <= d)%Z).
Proof.
  exists (n / 86400)%Z, ((n mod 86400) / 3600)%Z, (((n mod 86400) mod 3600) / 60)%Z, (((n mod 86400) mod 3600) mod 60)%Z.
  pose proof (Z.mod_pos_bound n 86400 ltac:(lia)). pose proof (Z.mod_pos_bound (n mod 86400) 3600 ltac:(lia)). pose proof (Z.mod_pos_bound ((n mod 86400) mod 3600) 60 ltac:(lia)).
  repeat split; try lia.
Qed.
Lemma timedelta_inj a b : (0 <= a)%Z -> (0 <= b)%Z -> str_timedelta a = str_timedelta b -> a = b.
Proof.
  intros Ha Hb. destruct (timedelta_decomp a) as (d & h & m & s & Ea & Hh & Hm & Hs & Hd). destruct (timedelta_decomp b) as (d' & h' & m' & s' & Eb & Hh' & Hm' & Hs' & Hd').
  specialize (Hd Ha). specialize (Hd' Hb). rewrite Ea, Eb. rewrite !timedelta_explicit by assumption. intros H.
  destruct (Z.eqb_spec d 0) as [D|D], (Z.eqb_spec d' 0) as [D'|D'].
  - cbn [String.append] in H. apply hms_inj in H; [|lia..]. lia.
  - exfalso. rewrite (fmt0_pos 0 d'), (fmt0_pos 0 h) in H by lia. cbn [String.append] in H. repeat rewrite append_assoc in H.
    apply digits_cancel in H; [|apply pad0_digits|apply pad0_digits|reflexivity|reflexivity]. destruct H as [_ H]. discriminate.
  - exfalso. rewrite (fmt0_pos 0 d), (fmt0_pos 0 h') in H by lia. cbn [String.append] in H. repeat rewrite append_assoc in H.
    apply digits_cancel in H; [|apply pad0_digits|apply pad0_digits|reflexivity|reflexivity]. destruct H as [_ H]. discriminate.
  - rewrite (fmt0_pos 0 d), (fmt0_pos 0 d') in H by lia. rewrite !(append_assoc (pad0 _ _)) in H.
    apply digits_cancel in H; [|apply pad0_digits|apply pad0_digits|reflexivity|reflexivity]. destruct H as [A H]. apply pad0_inj in A.
    assert (d = d') by lia. subst d'. apply append_inj_l in H. apply hms_inj in H; [|lia..]. lia.
Qed.
Lemma two_digits m : (0 <= m < 60)%Z -> String.length (fmt0 2 m) = 2%nat.
Proof.
  intros H. assert (C : forallb (fun k => Nat.eqb (String.length (fmt0 2 (Z.of_nat k))) 2) (seq 0 60) = true) by (vm_compute; reflexivity).
  rewrite forallb_forall in C. specialize (C (Z.to_nat m)). rewrite Z2Nat.id in C by lia. apply Nat.eqb_eq, C, in_seq. lia.
Qed.

(** * Lines *)
Lemma no_newline_app a b : no_newline (a ++ b)%string = no_newline a && no_newline b.
Proof. induction a as [|c a IH]; cbn; [reflexivity|]. now rewrite IH, andb_assoc. Qed.
Lemma digits_no_newline s : all_digits s = true -> no_newline s = true.
Proof.
  induction s as [|c s IH]; cbn; [reflexivity|]. destruct (digit_val c) eqn:E; [|discriminate]. intros H. rewrite (IH H), andb_true_r.
  destruct (Ascii.eqb_spec c "010"); [|reflexivity]. subst c. discriminate E.
Qed.
Lemma fmt0_no_newline w z : no_newline (fmt0 w z) = true.
Proof. unfold fmt0. destruct (_ <? _)%Z; cbn [no_newline Ascii.eqb negb andb Bool.eqb]; apply digits_no_newline, pad0_digits. Qed.
Lemma timedelta_no_newline n : no_newline (str_timedelta n) = true.
Proof.
  unfold str_timedelta. cbv zeta. destruct (_ =? 0)%Z; [|destruct (_ =? 1)%Z]; rewrite ?no_newline_app; rewrite !fmt0_no_newline; reflexivity.
Qed.
Lemma fmt_6f_no_newline x : no_newline (fmt_6f x) = true.
Proof. unfold fmt_6f. cbv zeta. destruct (Rlt_dec _ _); rewrite !no_newline_app, !fmt0_no_newline; reflexivity. Qed.
Lemma lines_from_app s t : forall cur, no_newline s = true -> lines_from cur (s ++ newline ++ t)%string = (cur ++ s)%string :: lines_from "" t.
Proof.
  induction s as [|c s IH]; intros cur H; cbn in *.
  - now rewrite app_empty.
  - apply andb_true_iff in H. destruct H as [H1 H2]. apply negb_true_iff in H1. rewrite H1. rewrite (IH _ H2), append_assoc. reflexivity.
Qed.
Lemma text_line pre e : printable (l_call e) = true -> plain e = true -> exists body, text_of pre e = (body ++ newline)%string /\ no_newline body = true.
Proof.
  intros Hp Hq. unfold plain in Hq. apply andb_true_iff in Hq. destruct Hq as [Hs Hq]. unfold text_of.
  assert (Assoc : forall a b c : string, (a ++ b ++ c)%string = ((a ++ b) ++ c)%string) by (intros; now rewrite append_assoc).
  destruct (l_call e) as [|[m|]|[m|]|[m|]|n [b|] k]; try discriminate Hp.
  - eexists. split; [reflexivity|]. reflexivity.
  - exists (stamp (l_read e) ++ " : " ++ str_timedelta (py_round (total_at pre e)) ++ " : " ++ str_timedelta (py_round (task_at pre e)) ++ " : " ++ m)%string.
    split; [repeat (rewrite append_assoc; cbn [String.append]); reflexivity|]. rewrite !no_newline_app, Hs, !timedelta_no_newline, Hq. reflexivity.
  - exists (stamp (l_read e) ++ " : " ++ str_timedelta (py_round (total_at pre e)) ++ " : " ++ str_timedelta (py_round (task_at pre e)) ++ " : " ++ m)%string.
    split; [repeat (rewrite append_assoc; cbn [String.append]); reflexivity|]. rewrite !no_newline_app, Hs, !timedelta_no_newline, Hq. reflexivity.
  - exists (stamp (l_read e) ++ " : " ++ m)%string. split; [repeat (rewrite append_assoc; cbn [String.append]); reflexivity|]. rewrite !no_newline_app, Hs, Hq. reflexivity.
  - exists (stamp (l_read e) ++ " : " ++ n ++ " uses (GB): " ++ fmt_6f (IZR (b * k) / 1000000000))%string.
    split; [repeat (rewrite append_assoc; cbn [String.append]); reflexivity|]. rewrite !no_newline_app, Hs, Hq, fmt_6f_no_newline. reflexivity.
Qed.
Lemma lines_texts h : forall pre, Forall (fun e => printable (l_call e) = true /\ plain e = true) h ->
  map (fun l => l ++ newline)%string (lines (concat_all (texts_from pre h))) = texts_from pre h.
Proof.
  induction h as [|e h IH]; intros pre H; [reflexivity|]. inversion H as [|? ? [H1 H2] H3]; subst.
  destruct (text_line pre e H1 H2) as (body & E & N). change (concat_all (texts_from pre (e :: h))) with (text_of pre e ++ concat_all (texts_from (pre ++ [e]) h))%string.
  unfold lines. rewrite E, append_assoc, (lines_from_app _ _ _ N). cbn [String.append map texts_from]. fold (lines (concat_all (texts_from (pre ++ [e]) h))). rewrite (IH _ H3), E. reflexivity.
Qed.
(** * Memory *)
Lemma fmt_6f_bytes z : (0 <= z)%Z -> exists k, fmt_6f (IZR z / 1000000000) = (fmt0 0 (k / 1000000) ++ "." ++ fmt0 6 (k mod 1000000))%string /\ (2 * Z.abs (1000 * k - z) <= 1000)%Z.
Proof.
  intros H. assert (P : 0 <= IZR z) by now apply IZR_le. assert (Q : 0 <= IZR z / 1000000000) by lra.
  exists (py_round (IZR z / 1000)). unfold fmt_6f. destruct (Rlt_dec _ _); [lra|]. rewrite (Rabs_pos_eq _ Q).
  replace (IZR z / 1000000000 * 1000000) with (IZR z / 1000) by field. split; [reflexivity|].
  pose proof (py_round_near (IZR z / 1000)) as N. apply le_IZR. rewrite mult_IZR, abs_IZR, minus_IZR, mult_IZR.
  replace (1000 * IZR (py_round (IZR z / 1000)) - IZR z) with (1000 * (IZR (py_round (IZR z / 1000)) - IZR z / 1000)) by field.
  rewrite Rabs_mult, (Rabs_pos_eq 1000) by lra. lra.
Qed.
