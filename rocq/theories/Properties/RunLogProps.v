(** C99: the log file of a run. *)
From Coq Require Import ZArith Reals List String Ascii Lra Lia.
From Verif Require Import Base.PyBase Model.Util Model.RankFiles Model.RunLog Spec.RunLogSpec Proofs.RunLogP Proofs.RunLogTimeP.
Import ListNotations.
Local Open Scope R_scope.

(** At every moment of a run, for every interleaving of the ranks and wherever the run is interrupted, the file holds the texts of all calls rank 0
    has made since it constructed the logger, in order; only the last one may be incomplete, and what is missing of it is still to be written. *)
Theorem C99_contents : forall old h w, log_run old h w ->
  current (root_calls (map fst h)) <> [] ->
  exists done part, texts (current (root_calls (map fst h))) = done ++ [(part ++ w_pending w)%string] /\
                    w_file w = Some (concat_all done ++ part)%string.
Proof. exact contents. Qed.
Print Assumptions C99_contents.

(** When no text is pending the file is complete. *)
Theorem C99_complete : forall old h w, log_run old h w -> current (root_calls (map fst h)) <> [] -> w_pending w = ""%string ->
  w_file w = Some (log_text (current (root_calls (map fst h)))).
Proof. exact complete. Qed.
Print Assumptions C99_complete.

(** Before rank 0 has constructed its logger the file is as it was. *)
Theorem C99_untouched : forall old h w, log_run old h w -> current (root_calls (map fst h)) = [] ->
  root_calls (map fst h) = [] /\ w_pending w = ""%string /\ w_file w = old.
Proof. exact untouched. Qed.
Print Assumptions C99_untouched.

(** The other ranks do not matter: neither their calls nor where they come in the run. *)
Theorem C99_other_ranks : forall old1 old2 h1 h2 w1 w2, log_run old1 h1 w1 -> log_run old2 h2 w2 ->
  root_calls (map fst h1) = root_calls (map fst h2) -> current (root_calls (map fst h1)) <> [] ->
  w_pending w1 = ""%string -> w_pending w2 = ""%string -> w_file w1 = w_file w2.
Proof.
  intros old1 old2 h1 h2 w1 w2 H1 H2 E N P1 P2. rewrite (complete _ _ _ H1 N P1). rewrite E in N |- *. now rewrite (complete _ _ _ H2 N P2).
Qed.
Print Assumptions C99_other_ranks.

(** A call raises exactly when it is made on rank 0 with a message that is no string or an object without a size. *)
Theorem C99_raises : forall old h w, log_run old h w ->
  Forall (fun p => snd p = Ok tt <-> (l_rank (fst p) <> 0%nat \/ printable (l_call (fst p)) = true)) h.
Proof. exact results. Qed.
Print Assumptions C99_raises.

(** If no message contains a newline the file has one line per call. *)
Theorem C99_lines : forall old h w, log_run old h w -> w_pending w = ""%string ->
  current (root_calls (map fst h)) <> [] ->
  Forall (fun e => printable (l_call e) = true /\ plain e = true) (current (root_calls (map fst h))) ->
  exists f, w_file w = Some f /\ map (fun l => l ++ newline)%string (lines f) = texts (current (root_calls (map fst h))).
Proof.
  intros old h w H P N F. exists (log_text (current (root_calls (map fst h)))). split; [now apply complete with old|]. now apply lines_texts.
Qed.
Print Assumptions C99_lines.

(** With a clock that does not go back, total times are not negative and do not decrease from event to event, also as printed; task times are not
    negative and those up to an event add up to at most the time since the start (read when the task time is taken). *)
Theorem C99_times : forall hc pre e post, current hc = pre ++ e :: post -> clock_ok (current hc) -> ends_task (l_call e) = true ->
  0 <= total_at pre e /\ 0 <= task_at pre e /\
  sum_tasks [] (pre ++ [e]) <= now (l_read e) 1 - start_of (current hc) /\
  (forall mid e' post', post = mid ++ e' :: post' ->
     total_at pre e <= total_at (pre ++ e :: mid) e' /\
     (py_round (total_at pre e) <= py_round (total_at (pre ++ e :: mid) e'))%Z).
Proof.
  intros hc pre e post E Hc He. assert (Hi : l_call e <> CInit) by (intros X; rewrite X in He; discriminate).
  destruct (current_pre hc pre e post E Hi) as (e0 & r & -> & E0 & Fr).
  rewrite E in Hc. assert (Hc1 : clock_ok ((e0 :: r) ++ [e])).
  { apply clock_prefix with post. now rewrite <- app_assoc. }
  assert (Hp : clock_ok (e0 :: r)) by (now apply clock_prefix with [e]).
  split; [|split; [|split]].
  - unfold total_at. pose proof (start_before (e0 :: r) e 0 ltac:(discriminate) Hc1). lra.
  - unfold task_at. pose proof (task_start_before (e0 :: r) e 1 ltac:(discriminate) Hc1). lra.
  - rewrite sum_snoc, He, E. cbn [app]. pose proof (sum_le e0 E0 r Hp Fr). unfold task_at. change (start_of (e0 :: r ++ e :: post)) with (start_of (e0 :: r)). lra.
  - intros mid e' post' ->. assert (L : total_at (e0 :: r) e <= total_at ((e0 :: r) ++ e :: mid) e').
    { unfold total_at. change (start_of ((e0 :: r) ++ e :: mid)) with (start_of (e0 :: r)).
      assert (now (l_read e) 0 <= now (l_read e') 0); [|lra].
      apply clock_before with (pre := (e0 :: r) ++ e :: mid).
      - apply clock_prefix with post'. cbn [app] in *. repeat (rewrite <- app_assoc; cbn [app]). exact Hc.
      - apply in_app_iff. right. now left. }
    split; [exact L|]. now apply py_round_mono.
Qed.
Print Assumptions C99_times.

(** The printed number of seconds is within half a second of the time; in a tie it is even. *)
Theorem C99_rounding : forall x, Rabs (IZR (py_round x) - x) <= 1 / 2 /\ (forall n, x = IZR n + 1 / 2 -> Z.even (py_round x) = true).
Proof. intros x. split; [apply py_round_near|intros n; apply py_round_tie]. Qed.
Print Assumptions C99_rounding.

(** A time is printed as [d day(s), ]h:mm:ss and can be read back. *)
Theorem C99_readable : (forall d h m s, (0 <= h < 24)%Z -> (0 <= m < 60)%Z -> (0 <= s < 60)%Z ->
    str_timedelta (86400 * d + 3600 * h + 60 * m + s) =
    ((if (d =? 0)%Z then "" else fmt0 0 d ++ " day" ++ (if (Z.abs d =? 1)%Z then "" else "s") ++ ", ") ++ fmt0 0 h ++ ":" ++ fmt0 2 m ++ ":" ++ fmt0 2 s)%string /\
    String.length (fmt0 2 m) = 2%nat /\ String.length (fmt0 2 s) = 2%nat) /\
  (forall a b, (0 <= a)%Z -> (0 <= b)%Z -> str_timedelta a = str_timedelta b -> a = b).
Proof. split; [intros d h m s Hh Hm Hs; split; [now apply timedelta_explicit|split; now apply two_digits]|exact timedelta_inj]. Qed.
Print Assumptions C99_readable.

(** The memory is printed in GB with six decimals: the kilobytes [k] nearest to the number of bytes. *)
Theorem C99_memory : forall z, (0 <= z)%Z -> exists k,
  fmt_6f (IZR z / 1000000000) = (fmt0 0 (k / 1000000) ++ "." ++ fmt0 6 (k mod 1000000))%string /\ (2 * Z.abs (1000 * k - z) <= 1000)%Z.
Proof. exact fmt_6f_bytes. Qed.
Print Assumptions C99_memory.

(** A run of two ranks: 90 seconds after the start rank 0 logs an event and a message, rank 1 calls the logger with nonsense. *)
Definition at_time (t : Z) (s : string) : readings := {| now := fun _ => IZR t; stamp := s |}.
Definition case_h : list (logcall * res unit) :=
  [({| l_rank := 0; l_call := CInit; l_read := at_time 100 "12:00:00" |}, Ok tt);
   ({| l_rank := 1; l_call := CInit; l_read := at_time 500 "12:00:00" |}, Ok tt);
   ({| l_rank := 0; l_call := CEvent (Str "set up done"); l_read := at_time 190 "12:01:30" |}, Ok tt);
   ({| l_rank := 1; l_call := CEvent NotStr; l_read := at_time 600 "12:01:31" |}, Ok tt);
   ({| l_rank := 0; l_call := CEvent NotStr; l_read := at_time 200 "12:01:40" |}, Raise TypeError);
   ({| l_rank := 0; l_call := CMessage (Str "go"); l_read := at_time 200 "12:01:40" |}, Ok tt)].
Example C99_case : exists w, log_run (Some "old text"%string) case_h w /\
  w_file w = Some (" Local-T : Total-T : Ctask-T :  Comment " ++ newline ++ "12:01:30 : 0:01:30 : 0:01:30 : set up done" ++ newline ++ "12:01:4")%string /\
  w_pending w = ("0 : go" ++ newline)%string /\
  current (root_calls (map fst case_h)) <> [] /\ clock_ok (current (root_calls (map fst case_h))).
Proof.
  eexists. split; [|split; [|split; [|split]]].
  - eapply run_flush;
    [ eapply (run_call _ (firstn 5 case_h));
      [ eapply (run_call _ (firstn 4 case_h));
        [ eapply (run_call _ (firstn 3 case_h));
          [ eapply run_flush;
            [ eapply (run_call _ (firstn 2 case_h));
              [ eapply run_flush;
                [ eapply (run_call _ (firstn 1 case_h));
                  [ eapply (run_call _ []);
                    [ apply run_start
                    | eapply (step_call_eq (rt_init (at_time 0 ""))); [intros _; reflexivity|left; reflexivity|cbn; reflexivity|cbn; reflexivity|cbn; reflexivity] ]
                  | eapply (step_call_eq (rt_init (at_time 0 ""))); [intros H; discriminate H|left; reflexivity|cbn; reflexivity|cbn; reflexivity|cbn; reflexivity] ]
                | eapply step_flush with (a := header) (b := ""%string); [discriminate|cbn; reflexivity] ]
              | eapply step_call_eq; [intros _; reflexivity|right; cbn; reflexivity|cbn; reflexivity|cbn; reflexivity|cbn; reflexivity] ]
            | eapply step_flush with (b := ""%string); [|cbn; symmetry; apply app_empty]; discriminate ]
          | eapply step_call_eq; [intros H; discriminate H|right; cbn; reflexivity|cbn; reflexivity|cbn; reflexivity|cbn; reflexivity] ]
        | eapply step_call_eq; [intros _; reflexivity|right; cbn; reflexivity|cbn; reflexivity|cbn; reflexivity|cbn; reflexivity] ]
      | eapply step_call_eq; [intros _; reflexivity|right; cbn; reflexivity|cbn; reflexivity|cbn; reflexivity|cbn; reflexivity] ]
    | eapply step_flush with (a := "12:01:4"%string) (b := ("0 : go" ++ newline)%string); [discriminate|cbn; reflexivity] ].
  - cbn [w_file]. unfold tot_time. cbn - [str_timedelta py_round].
    replace (190 - 100) with (IZR 90) by (simpl; lra). rewrite py_round_int. reflexivity.
  - reflexivity.
  - discriminate.
  - split.
    + repeat constructor; intros; cbn; lra.
    + intros a e1 e2 b H i j. cbn in H. destruct a as [|a0 [|a1 [|a2 a]]].
      * injection H; intros; subst; cbn; lra.
      * injection H; intros; subst; cbn; lra.
      * injection H; intros; subst; cbn; lra.
      * apply (f_equal (@List.length _)) in H. cbn in H. rewrite app_length in H. cbn in H. lia.
Qed.
