(** Model of the root finder of the maximum-entropy solver, /repo/src/ana_cont/solvers.py lines 993-1081.

    Floating-point numbers are real numbers, so the check for nan (lines 1063-1064) is left out.  [np.linalg.pinv] is a parameter; [None] stands
    for [LinAlgError].  The [RuntimeWarning] raised by line 1066 is written [RuntimeError].  The loop is bounded by a number of iterations ([fuel]);
    [None] means that it has not ended by then. *)
From Coq Require Import Reals List ZArith.
From Verif Require Import Base.PyBase Base.RSum Model.AnaSolver.
Import ListNotations.
Local Open Scope R_scope.

(** [np.max] of [m] + 1 numbers *)
Fixpoint rmax (m : nat) (g : vec) : R := match m with O => g 0%nat | S m' => Rmax (rmax m' g) (g (S m')) end.
(** [np.max(np.abs(x))] of an array with [n] entries; numpy refuses an empty one *)
Definition np_max_abs (n : nat) (x : vec) : res R := match n with O => Raise ValueError | S m => Ok (rmax m (fun i => Rabs (x i))) end.
Definition lmax (l : list R) : R := match l with [] => 0 | x :: l' => fold_left Rmax l' x end.

Section Newton.
Variable pinv : nat -> mat -> option mat.
(** line 1029 *)
Definition significance_limit : R := 1e-4.
Definition significant (x : R) : bool := if Rlt_dec significance_limit (Rabs x) then true else false.
(** lines 1023-1027 *)
Definition increment (n : nat) (f : vec) (J : mat) : vec := match pinv n J with Some P => fun i => - rsum n (fun j => P i j * f j) | None => fun _ => 0 end.
(** lines 1028-1034 *)
Definition step_reduction (n : nat) (proposal inc : vec) : R :=
  if existsb (fun i => significant (proposal i)) (seq 0 n) then
    let max_ratio := lmax (map (fun i => Rabs (inc i / proposal i)) (filter (fun i => significant (proposal i)) (seq 0 n))) in
    if Rlt_dec 1 max_ratio then 1 / max_ratio else 1
  else 1.
(** lines 1014-1036 *)
Definition iteration_function (n : nat) (proposal f : vec) (J : mat) : vec :=
  let inc := increment n f J in let r := step_reduction n proposal inc in fun i => proposal i + r * inc i.

Variable n max_iter : nat.
Variable fJ : vec -> R -> vec * mat.
Variable alpha : R.
Definition iterate (x : vec) : vec := let '(f, J) := fJ x alpha in iteration_function n x f J.
(** lines 1072-1081: the last proposal mixed with the last result (the history is not used) *)
Definition get_proposal (prop result : vec) : vec := fun i => prop i + 1 / 2 * (result i - prop i).
(** lines 1055-1070: the loop, with the last proposal and the last result *)
Fixpoint newton_loop (fuel counter : nat) (prop result : vec) : option (res (vec * nat)) :=
  match fuel with
  | O => None
  | S fuel' =>
    let prop := get_proposal prop result in
    let result := iterate prop in
    match (if Nat.ltb max_iter counter then Ok true
           else let! m := np_max_abs n (fun i => result i - prop i) in Ok (if Rlt_dec m 1e-4 then true else false)) with
    | Raise e => Some (Raise e)
    | Ok converged =>
      let counter := S counter in
      if converged then Some (if Nat.ltb max_iter counter then Raise RuntimeError else Ok (result, counter))
      else newton_loop fuel' counter prop result
    end
  end.
(** lines 1038-1070 *)
Definition newton_call (fuel : nat) (ustart : vec) : option (res (vec * nat)) := newton_loop fuel 0 ustart (iterate ustart).
End Newton.
(** line 996 *)
Definition default_max_iter : nat := Z.to_nat 20000.
(** lines 535-537: the root finder as it is used; it has always ended after [max_iter] + 2 iterations (C106) *)
Definition newton (pinv : nat -> mat -> option mat) (n : nat) (fJ : vec -> R -> vec * mat) (ustart : vec) (alpha : R) : res vec :=
  match newton_call pinv n default_max_iter fJ alpha (default_max_iter + 2) ustart with Some (Ok (x, _)) => Ok x | Some (Raise e) => Raise e | None => Raise RuntimeError end.
