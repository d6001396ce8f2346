(** Model of the log file of a run, /repo/src/dga/loggers.py lines 18-114, and of the ranks that share it.
    Not modelled: RealTime.print_time, string_time, create_file, open_file, close_file and write_time_to_file (lines 27-36, 42-48, 57-64), which
    nothing in the repository calls. *)
From Coq Require Import ZArith Reals List String Ascii.
From Verif Require Import Base.PyBase Model.Util Model.RankFiles.
Import ListNotations.
Local Open Scope R_scope.

(** * Numbers as text *)
(** Python's [round(x)]: to the nearest integer, ties to the even one *)
Definition py_round (x : R) : Z :=
  let n := Int_part x in
  match total_order_T (x - IZR n) (1 / 2) with
  | inleft (left _) => n
  | inleft (right _) => if Z.even n then n else (n + 1)%Z
  | inright _ => (n + 1)%Z
  end.
(** [str(datetime.timedelta(seconds=n))]; OverflowError beyond 999999999 days is not modelled *)
Definition str_timedelta (n : Z) : string :=
  let days := (n / 86400)%Z in
  let mm := ((n mod 86400) / 60)%Z in
  let ss := ((n mod 86400) mod 60)%Z in
  let s := (fmt0 0 (mm / 60) ++ ":" ++ fmt0 2 (mm mod 60) ++ ":" ++ fmt0 2 ss)%string in
  if (days =? 0)%Z then s else (fmt0 0 days ++ " day" ++ (if (Z.abs days =? 1)%Z then "" else "s") ++ ", " ++ s)%string.
(** [f'{x:.6f}'] *)
Definition fmt_6f (x : R) : string :=
  let m := py_round (Rabs x * 1000000) in
  ((if Rlt_dec x 0 then "-" else "") ++ fmt0 0 (m / 1000000) ++ "." ++ fmt0 6 (m mod 1000000))%string.

(** * RealTime, lines 18-54 *)
Record real_time := { ts : R; tl : R; tm : list R }.
(** What the k-th call of [time.time()] returns during one call of the logger, and what [local_time] (lines 110-112) returns in it. *)
Record readings := { now : nat -> R; stamp : string }.
(** lines 21-25 *)
Definition rt_init (t : readings) : real_time := {| ts := now t 0; tl := now t 1; tm := [0] |}.
(** lines 38-40; the readings from number [k] on *)
Definition measure_time (rt : real_time) (t : readings) (k : nat) : real_time :=
  {| ts := ts rt; tl := now t (S k); tm := tm rt ++ [now t k - tl rt] |}.
(** lines 50-51 *)
Definition tot_time (rt : real_time) (t : readings) (k : nat) : string := str_timedelta (py_round (now t k - ts rt)).
(** lines 53-55 *)
Definition task_time (rt : real_time) (t : readings) (k : nat) : string * real_time :=
  let rt' := measure_time rt t k in (str_timedelta (py_round (last (tm rt') 0)), rt').

(** * MpiLogger, lines 67-112 *)
(** an argument [message]: a string or anything else *)
Inductive pyobj := Str (s : string) | NotStr.
(** the calls; the object of log_memory_usage is [Some (size * itemsize)], or [None] without these attributes (it is an array or None in the code) *)
Inductive call :=
| CInit
| CEvent (message : pyobj)
| CCpuTime (task : pyobj)
| CMessage (message : pyobj)
| CMemory (obj_name : string) (obj : option Z) (n_exists : Z).
(** [s + message + '\n'] *)
Definition with_message (s : string) (m : pyobj) : res string :=
  match m with Str x => Ok (s ++ x ++ String "010" "")%string | NotStr => Raise TypeError end.
Definition header : string := (" Local-T : Total-T : Ctask-T :  Comment " ++ String "010" "")%string.
Definition is_root (rank : nat) : bool := Nat.eqb rank 0.
(** lines 92-97: the line, and the logger afterwards.  The line is concatenated from the left, so a message that is not a string raises after the
    timer has been read. *)
Definition log_event (rank : nat) (rt : real_time) (t : readings) (m : pyobj) : res (option string) * real_time :=
  if is_root rank then
    let tot := tot_time rt t 0 in
    let (task, rt') := task_time rt t 1 in
    (rmap Some (with_message (stamp t ++ " : " ++ tot ++ " : " ++ task ++ " : ")%string m), rt')
  else (Ok None, rt).
(** lines 106-110 *)
Definition log_cpu_time (rank : nat) (rt : real_time) (t : readings) (task : pyobj) : res (option string) * real_time :=
  if is_root rank then log_event rank rt t task else (Ok None, rt).
(** lines 99-104 *)
Definition log_message (rank : nat) (rt : real_time) (t : readings) (m : pyobj) : res (option string) * real_time :=
  if is_root rank then (rmap Some (with_message (stamp t ++ " : ")%string m), rt) else (Ok None, rt).
(** lines 83-90; exact arithmetic *)
Definition log_memory_usage (rank : nat) (rt : real_time) (t : readings) (obj_name : string) (obj : option Z) (n_exists : Z) : res (option string) * real_time :=
  if is_root rank then
    (match obj with
     | None => Raise AttributeError
     | Some bytes =>
       let mem := IZR bytes * / 1000000000 * IZR n_exists in
       Ok (Some (stamp t ++ " : " ++ (obj_name ++ " uses (GB): " ++ fmt_6f mem) ++ String "010" "")%string)
     end, rt)
  else (Ok None, rt).
Definition do_call (rank : nat) (rt : real_time) (t : readings) (c : call) : res (option string) * real_time :=
  match c with
  | CInit => (Ok (if is_root rank then Some header else None), rt_init t)
  | CEvent m => log_event rank rt t m
  | CCpuTime m => log_cpu_time rank rt t m
  | CMessage m => log_message rank rt t m
  | CMemory n o e => log_memory_usage rank rt t n o e
  end.

(** * The ranks and the file *)
(** [w_file]: the bytes in the file, [None]: there is no file; [w_pending]: what rank 0 has passed to [file.write] and is not in the file yet (the
    file is closed, and so written, at the end of every call); [w_rt r]: the timer of the logger of rank [r], [None] before it is constructed. *)
Record world := { w_file : option string; w_pending : string; w_rt : nat -> option real_time }.
Definition set_rt (f : nat -> option real_time) (r : nat) (rt : real_time) : nat -> option real_time := fun q => if Nat.eqb q r then Some rt else f q.
Record logcall := { l_rank : nat; l_call : call; l_read : readings }.
Definition file_text (o : option string) : string := match o with Some s => s | None => ""%string end.
(** One step: a rank makes a call (rank 0 only when its previous call has returned), or a part of the pending text reaches the file.  Mode 'w' of the
    constructor (line 75) empties the file, mode 'a' (lines 85, 94, 101) keeps it and creates it when it is missing.  The step of a call carries
    what the call returns. *)
Inductive log_step : world -> option (logcall * res unit) -> world -> Prop :=
| step_call : forall w e rt out rt',
    (is_root (l_rank e) = true -> w_pending w = ""%string) ->
    (l_call e = CInit \/ w_rt w (l_rank e) = Some rt) ->
    do_call (l_rank e) rt (l_read e) (l_call e) = (out, rt') ->
    log_step w (Some (e, rmap (fun _ => tt) out))
      {| w_file := if is_root (l_rank e) then Some (match l_call e with CInit => ""%string | _ => file_text (w_file w) end) else w_file w;
         w_pending := match out with Ok (Some s) => s | _ => w_pending w end;
         w_rt := set_rt (w_rt w) (l_rank e) rt' |}
| step_flush : forall w a b, a <> ""%string -> w_pending w = (a ++ b)%string ->
    log_step w None {| w_file := Some (file_text (w_file w) ++ a)%string; w_pending := b; w_rt := w_rt w |}.
(** The calls made so far (latest last) with their results, and the world they lead to; before the run the file may be there with any contents. *)
Inductive log_run (old : option string) : list (logcall * res unit) -> world -> Prop :=
| run_start : log_run old [] {| w_file := old; w_pending := ""%string; w_rt := fun _ => None |}
| run_call : forall h w e w', log_run old h w -> log_step w (Some e) w' -> log_run old (h ++ [e]) w'
| run_flush : forall h w w', log_run old h w -> log_step w None w' -> log_run old h w'.
