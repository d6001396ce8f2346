(** Proofs about Model/RunLog.v. *)
From Coq Require Import ZArith Reals List String Ascii Lra Lia.
From Verif Require Import Base.PyBase Model.Util Model.RankFiles Model.RunLog Spec.RunLogSpec Proofs.StrP Proofs.UtilP.
Import ListNotations.
Local Open Scope R_scope.

Lemma app_empty (s : string) : (s ++ "")%string = s. Proof. induction s; cbn; congruence. Qed.
Lemma concat_app a b : concat_all (a ++ b) = (concat_all a ++ concat_all b)%string.
Proof. induction a as [|x a IH]; [reflexivity|]. change (concat_all ((x :: a) ++ b)) with (x ++ concat_all (a ++ b))%string. rewrite IH. cbn. now rewrite append_assoc. Qed.
Lemma texts_snoc h e : forall pre, texts_from pre (h ++ [e]) = texts_from pre h ++ [text_of (pre ++ h) e].
Proof.
  induction h as [|x h IH]; intros pre; [cbn; now rewrite app_nil_r|]. cbn [texts_from app]. rewrite IH. f_equal. f_equal. f_equal. f_equal. now rewrite <- app_assoc.
Qed.
Lemma root_snoc h e : root_calls (h ++ [e]) = root_calls h ++ (if Nat.eqb (l_rank e) 0 then [e] else []).
Proof. unfold root_calls. rewrite filter_app. cbn. destruct (Nat.eqb _ _); reflexivity. Qed.
Lemma current_snoc h e : current (h ++ [e]) = match l_call e with CInit => [e] | _ => match current h with [] => [] | _ => current h ++ [e] end end.
Proof. unfold current at 1. rewrite fold_left_app. cbn. reflexivity. Qed.
Lemma start_snoc h e : h <> [] -> start_of (h ++ [e]) = start_of h.
Proof. destruct h; [congruence|reflexivity]. Qed.
Lemma task_start_snoc h e : h <> [] -> task_start (h ++ [e]) = if ends_task (l_call e) then now (l_read e) 2 else task_start h.
Proof.
  intros Hh. unfold task_start. rewrite rev_app_distr. cbn [rev app find]. destruct (ends_task (l_call e)); [reflexivity|]. destruct h; [congruence|reflexivity].
Qed.
Lemma last_snoc A (l : list A) x d : last (l ++ [x]) d = x.
Proof. induction l as [|a l IH]; [reflexivity|]. cbn. destruct (l ++ [x]) eqn:E; [destruct l; discriminate|exact IH]. Qed.

(** One call of rank 0 that is no construction. *)
Lemma do_call_root rt (e : logcall) cur out rt' : l_call e <> CInit -> cur <> [] -> ts rt = start_of cur -> tl rt = task_start cur ->
  do_call 0 rt (l_read e) (l_call e) = (out, rt') ->
  ts rt' = start_of (cur ++ [e]) /\ tl rt' = task_start (cur ++ [e]) /\
  match out with Ok (Some s) => s = text_of cur e | Ok None => False | Raise _ => text_of cur e = ""%string end /\
  (printable (l_call e) = true <-> exists s, out = Ok (Some s)).
Proof.
  intros Hi Hc Hts Htl H. rewrite (start_snoc cur e Hc), (task_start_snoc cur e Hc). unfold text_of, total_at, task_at.
  assert (Ev : forall m, log_event 0 rt (l_read e) m = (out, rt') ->
    ts rt' = start_of cur /\ tl rt' = now (l_read e) 2 /\
    match out with Ok (Some s) => s = match m with Str m => (stamp (l_read e) ++ " : " ++ str_timedelta (py_round (now (l_read e) 0 - start_of cur)) ++ " : " ++ str_timedelta (py_round (now (l_read e) 1 - task_start cur)) ++ " : " ++ m ++ newline)%string | NotStr => ""%string end | Ok None => False | Raise _ => match m with Str _ => False | NotStr => True end end /\
    (match m with Str _ => True | NotStr => False end <-> exists s, out = Ok (Some s))).
  { intros m. unfold log_event. cbn [is_root Nat.eqb]. unfold task_time, tot_time, measure_time. cbn [tm ts tl]. rewrite last_snoc, Hts, Htl.
    destruct m as [m|]; cbn [with_message rmap]; intros [= <- <-]; cbn [ts tl]; (split; [congruence|]); (split; [reflexivity|]); split.
    - repeat (rewrite append_assoc; cbn [String.append]). reflexivity.
    - split; eauto.
    - exact I.
    - split; [tauto|]. intros [s Hs]. discriminate. }
  destruct (l_call e) as [|m|m|m|n [b|] k] eqn:Ec; [congruence| | | | | ]; cbn [do_call ends_task printable] in *.
  - destruct (Ev m H) as (A & B & C & D). repeat split; try assumption.
    + destruct m as [x|]; destruct out as [[s|]|]; auto; try tauto.
    + intros X. apply D. destruct m; [exact I|discriminate X].
    + intros X. apply D in X. destruct m; [reflexivity|tauto].
  - unfold log_cpu_time in H. cbn [is_root Nat.eqb] in H. destruct (Ev m H) as (A & B & C & D). repeat split; try assumption.
    + destruct m as [x|]; destruct out as [[s|]|]; auto; try tauto.
    + intros X. apply D. destruct m; [exact I|discriminate X].
    + intros X. apply D in X. destruct m; [reflexivity|tauto].
  - unfold log_message in H. cbn [is_root Nat.eqb] in H. destruct m as [m|]; cbn [with_message rmap] in H; injection H as <- <-; repeat split; try assumption; try discriminate.
    + repeat (rewrite append_assoc; cbn [String.append]). reflexivity.
    + eauto.
    + intros [s Hs]. discriminate.
  - unfold log_memory_usage in H. cbn [is_root Nat.eqb] in H. injection H as <- <-; repeat split; try assumption.
    + replace (IZR (b * k) / 1000000000) with (IZR b * / 1000000000 * IZR k) by (rewrite mult_IZR; field).
      repeat (rewrite append_assoc; cbn [String.append]). reflexivity.
    + eauto.
  - unfold log_memory_usage in H. cbn [is_root Nat.eqb] in H. injection H as <- <-; repeat split; try assumption; try discriminate.
    intros [s Hs]. discriminate.
Qed.
Lemma do_call_other r rt t c : r <> 0%nat -> c <> CInit -> do_call r rt t c = (Ok None, rt).
Proof.
  intros Hr Hc. assert (E : is_root r = false) by (unfold is_root; now apply Nat.eqb_neq).
  destruct c; cbn; unfold log_event, log_cpu_time, log_message, log_memory_usage; rewrite ?E; congruence.
Qed.
Lemma do_init r rt t : do_call r rt t CInit = (Ok (if is_root r then Some header else None), rt_init t).
Proof. reflexivity. Qed.

Definition inv (old : option string) (hc : list logcall) (w : world) : Prop :=
  let cur := current hc in
  match cur with
  | [] => hc = [] /\ w_rt w 0%nat = None /\ w_pending w = ""%string /\ w_file w = old
  | _ => exists rt done part, w_rt w 0%nat = Some rt /\ ts rt = start_of cur /\ tl rt = task_start cur /\
         texts cur = done ++ [(part ++ w_pending w)%string] /\ w_file w = Some (concat_all done ++ part)%string
  end.
Lemma inv_run old h w : log_run old h w -> inv old (root_calls (map fst h)) w.
Proof.
  induction 1 as [|h w e w' _ IH Hs|h w w' _ IH Hs].
  - cbn. auto.
  - rewrite map_app. cbn [map]. rewrite root_snoc. inversion Hs as [w0 e0 rt out rt' Hp Hrt Hd|]; subst. cbn [fst].
    destruct (Nat.eqb_spec (l_rank e0) 0) as [Hr|Hr].
    + assert (Er : is_root (l_rank e0) = true) by (unfold is_root; now rewrite Hr). rewrite Er in *. specialize (Hp eq_refl).
      rewrite Hr in Hrt, Hd. unfold inv. rewrite current_snoc. set (hc := root_calls (map fst h)) in *.
      destruct (l_call e0) eqn:Ec;
        [ | assert (Hi : l_call e0 <> CInit) by (rewrite Ec; discriminate) ..].
      { rewrite do_init in Hd. cbn in Hd. injection Hd as <- <-. cbn [w_rt w_file w_pending]. exists (rt_init (l_read e0)), [], ""%string. rewrite Hr. cbn [set_rt Nat.eqb].
        repeat split.
        - unfold task_start. cbn [rev app find]. rewrite Ec. reflexivity.
        - unfold texts; cbn [texts_from]. unfold text_of. rewrite Ec. reflexivity. }
      all: destruct Hrt as [Hrt|Hrt]; [discriminate|];
        destruct (current hc) as [|c0 cur0] eqn:Ecur;
        [ unfold inv in IH; rewrite Ecur in IH; destruct IH as (_ & IH & _); congruence |];
        unfold inv in IH; rewrite Ecur in IH; destruct IH as (rt0 & done & part & E0 & E1 & E2 & E3 & E4);
        rewrite E0 in Hrt; injection Hrt as <-;
        rewrite <- Ec in Hd;
        destruct (do_call_root rt0 e0 (c0 :: cur0) out rt' Hi ltac:(discriminate) E1 E2 Hd) as (A1 & A2 & A3 & _);
        cbn [app]; change (c0 :: cur0 ++ [e0]) with ((c0 :: cur0) ++ [e0]);
        exists rt', (texts (c0 :: cur0)), ""%string; cbn [w_rt w_file w_pending]; rewrite Hr; cbn [set_rt Nat.eqb];
        (split; [reflexivity|]); (split; [assumption|]); (split; [assumption|]); rewrite E3, E4, Hp, app_empty; split;
        [ unfold texts; rewrite texts_snoc; fold (texts (c0 :: cur0)); rewrite E3, Hp, app_empty; do 2 f_equal; cbn [app];
          destruct out as [[s|]|]; [now rewrite A3|tauto|now rewrite A3]
        | cbn [file_text]; rewrite app_empty, concat_app; cbn; now rewrite app_empty ].
    + assert (Er : is_root (l_rank e0) = false) by (unfold is_root; now apply Nat.eqb_neq). rewrite Er in *. rewrite app_nil_r.
      assert (Hout : out = Ok None).
      { destruct (l_call e0) eqn:Ec; [rewrite do_init, Er in Hd; congruence|..];
        (rewrite (do_call_other (l_rank e0) rt (l_read e0) _ Hr) in Hd by discriminate); congruence. }
      subst out. unfold inv in *. cbn [w_rt w_file w_pending]. unfold set_rt. assert (E0 : Nat.eqb 0 (l_rank e0) = false) by (apply Nat.eqb_neq; congruence).
      rewrite E0. exact IH.
  - inversion Hs as [|w0 a b Ha Hp]; subst. unfold inv in *. cbn [w_rt w_file w_pending]. destruct (current _) as [|c0 cur0].
    + destruct IH as (_ & _ & IH & _). rewrite IH in Hp. destruct a; [congruence|discriminate].
    + destruct IH as (rt0 & done & part & E0 & E1 & E2 & E3 & E4). exists rt0, done, (part ++ a)%string. repeat split; try assumption.
      * rewrite E3, Hp, append_assoc. reflexivity.
      * rewrite E4. cbn. now rewrite append_assoc.
Qed.

Lemma contents old h w : log_run old h w -> current (root_calls (map fst h)) <> [] ->
  exists done part, texts (current (root_calls (map fst h))) = done ++ [(part ++ w_pending w)%string] /\ w_file w = Some (concat_all done ++ part)%string.
Proof.
  intros H Hc. pose proof (inv_run old h w H) as I. unfold inv in I. destruct (current _) as [|c cur]; [congruence|].
  destruct I as (rt & done & part & _ & _ & _ & A & B). now exists done, part.
Qed.
Lemma untouched old h w : log_run old h w -> current (root_calls (map fst h)) = [] -> root_calls (map fst h) = [] /\ w_pending w = ""%string /\ w_file w = old.
Proof. intros H Hc. pose proof (inv_run old h w H) as I. unfold inv in I. rewrite Hc in I. tauto. Qed.
Lemma complete old h w : log_run old h w -> current (root_calls (map fst h)) <> [] -> w_pending w = ""%string ->
  w_file w = Some (log_text (current (root_calls (map fst h)))).
Proof.
  intros H Hc Hp. destruct (contents old h w H Hc) as (done & part & A & B). rewrite B. unfold log_text. rewrite A, concat_app, Hp, app_empty. cbn. now rewrite app_empty.
Qed.
Lemma results old h w : log_run old h w -> Forall (fun p => snd p = Ok tt <-> (l_rank (fst p) <> 0%nat \/ printable (l_call (fst p)) = true)) h.
Proof.
  induction 1 as [|h w e w' Hr IH Hs|h w w' _ IH Hs]; [constructor| |assumption].
  apply Forall_app. split; [assumption|]. constructor; [|constructor]. inversion Hs as [w0 e0 rt out rt' Hp Hrt Hd|]; subst. cbn [fst snd].
  destruct (Nat.eqb_spec (l_rank e0) 0) as [Hz|Hz].
  - rewrite Hz in Hd, Hrt. destruct (l_call e0) eqn:Ec; [rewrite do_init in Hd; cbn in Hd; injection Hd as <- <-; cbn; tauto|..];
    (assert (Hi : l_call e0 <> CInit) by (rewrite Ec; discriminate));
    (destruct Hrt as [Hrt|Hrt]; [discriminate|]);
    pose proof (inv_run _ _ _ Hr) as I; unfold inv in I;
    (destruct (current _) as [|c0 cur0]; [destruct I as (_ & I & _); congruence|]);
    destruct I as (rt0 & done & part & E0 & E1 & E2 & E3 & E4);
    rewrite E0 in Hrt; injection Hrt as <-; rewrite <- Ec in Hd |- *;
    destruct (do_call_root rt0 e0 (c0 :: cur0) out rt' Hi ltac:(discriminate) E1 E2 Hd) as (_ & _ & A3 & A4);
    rewrite A4; (destruct out as [[s|]|]; cbn; [split; eauto | tauto | split; [discriminate|]; intros [X|[s X]]; [congruence|discriminate]]).
  - assert (Er : is_root (l_rank e0) = false) by (unfold is_root; now apply Nat.eqb_neq).
    assert (Hout : out = Ok None).
    { destruct (l_call e0) eqn:Ec; [rewrite do_init, Er in Hd; congruence|..];
      (rewrite (do_call_other (l_rank e0) rt (l_read e0) _ Hz) in Hd by discriminate); congruence. }
    subst out. cbn. tauto.
Qed.

Lemma step_call_eq rt w e r w' out rt' :
  (is_root (l_rank e) = true -> w_pending w = ""%string) ->
  (l_call e = CInit \/ w_rt w (l_rank e) = Some rt) ->
  do_call (l_rank e) rt (l_read e) (l_call e) = (out, rt') ->
  r = rmap (fun _ => tt) out ->
  w' = {| w_file := if is_root (l_rank e) then Some (match l_call e with CInit => ""%string | _ => file_text (w_file w) end) else w_file w;
          w_pending := match out with Ok (Some s) => s | _ => w_pending w end;
          w_rt := set_rt (w_rt w) (l_rank e) rt' |} ->
  log_step w (Some (e, r)) w'.
Proof. intros. subst. econstructor; eassumption. Qed.
