(** Vocabulary for the log file of a run: what a reader expects in it, from the calls made. *)
From Coq Require Import ZArith Reals List String Ascii Sorted.
From Verif Require Import Base.PyBase Model.Util Model.RankFiles Model.RunLog.
Import ListNotations.
Local Open Scope R_scope.

Definition newline : string := String "010" "".
(** The calls of rank 0. *)
Definition root_calls (h : list logcall) : list logcall := filter (fun e => Nat.eqb (l_rank e) 0) h.
(** Calls that end a task: events (also when the message is no string). *)
Definition ends_task (c : call) : bool := match c with CEvent _ | CCpuTime _ => true | _ => false end.
(** The calls since the logger in use was made, its construction first. *)
Definition current (h : list logcall) : list logcall :=
  fold_left (fun acc e => match l_call e with CInit => [e] | _ => match acc with [] => [] | _ => acc ++ [e] end end) h [].
(** When the logger was made. *)
Definition start_of (h : list logcall) : R := match h with e :: _ => now (l_read e) 0 | [] => 0 end.
(** When the task running after the calls [h] began: the last reading in the last call that ended a task, or in the construction. *)
Definition task_start (h : list logcall) : R :=
  match find (fun e => ends_task (l_call e)) (rev h) with
  | Some e => now (l_read e) 2
  | None => match h with e :: _ => now (l_read e) 1 | [] => 0 end
  end.
(** Total and task time of the event [e] after the calls [pre]. *)
Definition total_at (pre : list logcall) (e : logcall) : R := now (l_read e) 0 - start_of pre.
Definition task_at (pre : list logcall) (e : logcall) : R := now (l_read e) 1 - task_start pre.
(** The text the call [e] after the calls [pre] adds to the file. *)
Definition text_of (pre : list logcall) (e : logcall) : string :=
  (match l_call e with
   | CInit => " Local-T : Total-T : Ctask-T :  Comment " ++ newline
   | CEvent (Str m) | CCpuTime (Str m) =>
     stamp (l_read e) ++ " : " ++ str_timedelta (py_round (total_at pre e)) ++ " : " ++ str_timedelta (py_round (task_at pre e)) ++ " : " ++ m ++ newline
   | CMessage (Str m) => stamp (l_read e) ++ " : " ++ m ++ newline
   | CMemory name (Some bytes) n =>
     stamp (l_read e) ++ " : " ++ name ++ " uses (GB): " ++ fmt_6f (IZR (bytes * n) / 1000000000) ++ newline
   | _ => ""
   end)%string.
Fixpoint texts_from (pre h : list logcall) : list string :=
  match h with [] => [] | e :: h' => text_of pre e :: texts_from (pre ++ [e]) h' end.
Definition texts (h : list logcall) : list string := texts_from [] h.
Definition concat_all (l : list string) : string := fold_right String.append ""%string l.
Definition log_text (h : list logcall) : string := concat_all (texts h).

(** The calls whose arguments the logger can print. *)
Definition printable (c : call) : bool :=
  match c with CInit | CEvent (Str _) | CCpuTime (Str _) | CMessage (Str _) | CMemory _ (Some _) _ => true | _ => false end.
(** The clock does not go back: the readings in a call, and from call to call. *)
Definition clock_ok (h : list logcall) : Prop :=
  Forall (fun e => forall i j, (i <= j)%nat -> now (l_read e) i <= now (l_read e) j) h /\
  (forall a e1 e2 b, h = a ++ e1 :: e2 :: b -> forall i j, now (l_read e1) i <= now (l_read e2) j).
(** Sum of the task times of all events in [h]. *)
Definition sum_tasks (pre h : list logcall) : R :=
  (fix go pre h := match h with [] => 0 | e :: h' => (if ends_task (l_call e) then task_at pre e else 0) + go (pre ++ [e]) h' end) pre h.
(** The lines of a text: what stands before each newline; the rest is dropped. *)
Fixpoint lines_from (cur s : string) : list string :=
  match s with
  | EmptyString => []
  | String c s' => if Ascii.eqb c "010" then cur :: lines_from ""%string s' else lines_from (cur ++ String c "")%string s'
  end.
Definition lines (s : string) : list string := lines_from ""%string s.
Fixpoint no_newline (s : string) : bool := match s with EmptyString => true | String c s' => negb (Ascii.eqb c "010") && no_newline s' end.
(** All texts in the call are without newline. *)
Definition plain (e : logcall) : bool :=
  no_newline (stamp (l_read e)) &&
  match l_call e with CEvent (Str m) | CCpuTime (Str m) | CMessage (Str m) => no_newline m | CMemory n _ _ => no_newline n | _ => true end.
