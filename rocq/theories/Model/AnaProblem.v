(** Model of /repo/src/ana_cont/continuation.py (all of it): the statement of a continuation problem, its solution and the Kramers-Kronig transformation.

    Floating-point numbers are real numbers; a division by zero gives no number ([None]).  Arrays are functions of their indices with the sizes beside
    them.  The solver (Model/AnaSolver.v, Model/AnaAlpha.v) is a parameter.  Left out: printing. *)
From Coq Require Import Reals List String.
From Verif Require Import Base.PyBase Base.RSum Model.AnaSolver Model.AnaKernel.
Import ListNotations.
Local Open Scope R_scope.

(** [np.allclose(x, 0)] for the parts of an array *)
Definition near0 (x : R) : bool := if Rle_dec (Rabs x) 1e-8 then true else false.
Definition all_near0 (n : nat) (p : cpx -> R) (x : nat -> cpx) : bool := forallb (fun i => near0 (p (x i))) (seq 0 n).
Definition cscale (c : R) (x : nat -> cpx) : nat -> cpx := fun i => (c * fst (x i), c * snd (x i)).

Record problem := Problem { p_mode : string; p_nim : nat; p_im : nat -> cpx; p_nre : nat; p_re : vec; p_data : nat -> cpx; p_beta : option R }.
(** how the constructor can end: lines 67-70 end the interpreter *)
Inductive made := Made (p : problem) | Exit | Failed (e : exn).
(** lines 45-80; a missing inverse temperature cannot divide *)
Definition problem_init (nim : nat) (im : nat -> cpx) (nre : nat) (re : vec) (data : nat -> cpx) (mode : string) (beta : option R) : made :=
  if all_near0 nim snd im then
    if String.eqb mode "freq_bosonic" then Made (Problem mode nim im nre re data None)
    else if String.eqb mode "time_bosonic" then
      match beta with
      | Some b => Made (Problem mode nim (cscale (/ b) im) nre (fun l => re l * b) (cscale b data) (Some b))
      | None => Failed TypeError
      end
    else if String.eqb mode "freq_fermionic" then Made (Problem mode nim im nre re data None)
    else if String.eqb mode "freq_fermionic_phsym" then
      if all_near0 nim fst im then Made (Problem mode nim im nre re (fun k => (snd (data k), 0)) None)
      else if all_near0 nim snd im then Made (Problem mode nim im nre re (fun k => (fst (data k), 0)) None)
      else Exit
    else if (String.eqb mode "time_fermionic" || String.eqb mode "time_fermionic_phsym")%bool then
      match beta with
      | Some b => Made (Problem mode nim (cscale (/ b) im) nre (fun l => re l * b) data (Some b))
      | None => Failed TypeError
      end
    else Failed ValueError
  else Failed ValueError.

(** the parts of an optimization result that are changed afterwards *)
Record outcome := Outcome { o_A : vec; o_back : vec }.
(** what the solver returns: the chosen result, the list of all results, and the position in the list of the chosen one if it is one of them (the same object) *)
Record solution := Solution { s_best : outcome; s_all : list outcome; s_alias : option nat }.
(** lines 99-103 and 131-135 *)
Definition rescale (p : problem) (o : outcome) : res outcome :=
  if String.eqb (p_mode p) "time_fermionic" then
    match p_beta p with Some b => Ok (Outcome (fun l => o_A o l * b) (o_back o)) | None => Raise AttributeError end
  else if String.eqb (p_mode p) "time_bosonic" then
    match p_beta p with Some b => Ok (Outcome (fun l => o_A o l * b) (fun k => o_back o k / b)) | None => Raise AttributeError end
  else Ok o.
Fixpoint replace_at {A} (i : nat) (x : A) (l : list A) : list A :=
  match l, i with [], _ => [] | _ :: l', O => x :: l' | y :: l', S i' => y :: replace_at i' x l' end.
Section Solve.
(** constructing the solver and [self.solver.solve(kwargs)] *)
Variable maxent : problem -> res solution.
(** constructing the solver and [self.solver.maxent_optimization(kwargs)] *)
Variable maxent_one : problem -> res outcome.
(** lines 83-114; solvers.py has no [PadeSolver] *)
Definition solve (p : problem) (method : string) : res solution :=
  if String.eqb method "maxent_svd" then
    let! s := maxent p in
    let! o := rescale p (s_best s) in
    Ok (Solution o (match s_alias s with Some i => replace_at i o (s_all s) | None => s_all s end) (s_alias s))
  else if String.eqb method "maxent_mc" then Raise NotImplementedError
  else if String.eqb method "pade" then Raise AttributeError
  else Raise ValueError.
(** what [partial_solution] hands back: a result, or an exception as a value *)
Inductive answer := Result_of (o : outcome) | Exception_object (e : exn).
(** lines 116-138 *)
Definition partial_solution (p : problem) (method : string) : res answer :=
  if String.eqb method "maxent_svd" then
    let! o := maxent_one p in let! o := rescale p o in Ok (Result_of o)
  else Ok (Exception_object ValueError).
End Solve.

(** lines 148-172: the Green's function object is its spectrum, mesh and kind *)
Record green := Green { g_n : nat; g_w : vec; g_spec : vec; g_kind : string }.
(** [np.sum(m, axis=0)] of a square array whose diagonal has been filled with zeros; a sum with something that is no number is none *)
Definition filled (m : nat -> nat -> num) : nat -> nat -> num := fun a b => if Nat.eqb a b then Some 0 else m a b.
Definition column_sum (n : nat) (m : nat -> nat -> num) (b : nat) : num :=
  if forallb (fun a => match m a b with Some _ => true | None => false end) (seq 0 n)
  then Some (rsum n (fun a => match m a b with Some x => x | None => 0 end)) else None.
(** lines 174-199 [kkt]; [m a b]: [a] is the index of the integration *)
Definition kkt (g : green) : res (nat -> num * R) :=
  let w := g_w g in let dw := dw_of (g_n g) w in let A := g_spec g in
  let! m := (if (String.eqb (g_kind g) "fermionic_phsym" || String.eqb (g_kind g) "symmetric")%bool
             then Ok (fun a b => div (2 * dw a * w a * A a) (w b ^ 2 - w a ^ 2))
             else if (String.eqb (g_kind g) "bosonic" || String.eqb (g_kind g) "antisymmetric")%bool
             then Ok (fun a b => div (2 * dw a * w b * A a) (w b ^ 2 - w a ^ 2))
             else if (String.eqb (g_kind g) "fermionic" || String.eqb (g_kind g) "general")%bool
             then Ok (fun a b => div (dw a * A a) (w b - w a))
             else Raise ValueError) in
  Ok (fun b => (column_sum (g_n g) (filled m) b, - A b * PI)).
