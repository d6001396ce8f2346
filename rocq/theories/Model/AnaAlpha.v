(** Model of the choices of the weight of the entropy, /repo/src/ana_cont/solvers.py lines 606-654 (historic), 731-792 (Bryan), 794-905 (kink of
    the misfit) and 920-937 (dispatch).

    Floating-point numbers are real numbers.  The optimization at one alpha (Model/AnaSolver.v) is a parameter; so are scipy's [curve_fit] and
    [newton].  Loops are bounded by a number of rounds ([fuel]); [None] means that they have not ended by then.  The plots and the texts are left
    out.  The 'classic' choice (lines 657-728) is modelled in Model/AnaBayes.v. *)
From Coq Require Import Reals List String.
From Verif Require Import Base.PyBase Base.RSum Model.AnaSolver.
Import ListNotations.
Local Open Scope R_scope.

Definition log10 (x : R) : R := ln x / ln 10.
Definition zeros : vec := fun _ => 0.

Section Kink.
(** [self.maxent_optimization(alpha, ustart)] *)
Variable opt : R -> vec -> res result.
(** lines 838-857: what the loop collects: misfits, alphas and results *)
Record trail := Trail { t_chi : list R; t_alphas : list R; t_opt : list result }.
Fixpoint kink_loop (fuel : nat) (alpha alpha_end alpha_div : R) (ustart : vec) (t : trail) : option trail :=
  match fuel with
  | O => None
  | S fuel' =>
    let '(ustart, t) := match opt alpha ustart with
      | Ok o => (r_u o, Trail (t_chi t ++ [r_chi2 o]) (t_alphas t ++ [alpha]) (t_opt t ++ [o])%list)
      | Raise _ => (ustart, t) end in
    let alpha := alpha / alpha_div in
    if Rlt_dec alpha alpha_end then Some t else kink_loop fuel' alpha alpha_end alpha_div ustart t
  end.
(** [np.argmin]: the first position of a smallest entry *)
Fixpoint argmin_from (i best : nat) (m : R) (l : list R) : nat :=
  match l with [] => best | x :: l' => if Rlt_dec x m then argmin_from (S i) i x l' else argmin_from (S i) best m l' end.
Definition argmin (l : list R) : res nat := match l with [] => Raise ValueError | x :: l' => Ok (argmin_from 1 0 x l') end.
(** [l[-1]] *)
Definition last_item {A} (l : list A) : res A := match rev l with [] => Raise IndexError | x :: _ => Ok x end.
(** [opt.curve_fit(fitfun, log10(alphas), log10(chis), p0=...)[0]], lines 862-870 *)
Variable curve_fit : list R -> list R -> res (R * R * R * R).
(** lines 865-905 *)
Definition kink_choice (fit_position : R) (t : trail) : res (result * list result) :=
  match curve_fit (map log10 (t_alphas t)) (map log10 (t_chi t)) with
  | Raise ValueError => let! o := last_item (t_opt t) in Ok (o, t_opt t)
  | Raise e => Raise e
  | Ok (a, b, c, d) =>
    if Rlt_dec d 0 then Raise RuntimeError
    else
      let a_opt := c - fit_position / d in
      let alpha_opt := Rpower 10 a_opt in
      let! i := argmin (map (fun x => Rabs (log10 x - a_opt)) (t_alphas t)) in
      let! o := (match nth_error (t_opt t) i with Some o => Ok o | None => Raise IndexError end) in
      let! sol := opt alpha_opt (r_u o) in
      Ok (sol, t_opt t)
  end.
(** lines 794-905 *)
Definition solve_chi2kink (fuel : nat) (alpha_start alpha_end alpha_div fit_position : R) : option (res (result * list result)) :=
  match kink_loop fuel alpha_start alpha_end alpha_div zeros (Trail [] [] []) with Some t => Some (kink_choice fit_position t) | None => None end.

(** lines 631-639 of [solve_historic]: always started from zeros; an exception of the optimization ends it *)
Fixpoint historic_loop (fuel : nat) (niw alpha conv : R) (acc : list result) : option (res (list result)) :=
  match fuel with
  | O => None
  | S fuel' =>
    if Rlt_dec conv 1 then
      match opt alpha zeros with
      | Raise e => Some (Raise e)
      | Ok o => historic_loop fuel' niw (alpha / 10) (niw / r_chi2 o) (acc ++ [o])%list
      end
    else Some (Ok acc)
  end.
(** scipy's [newton(root_fun, x0, args=(ustart,))]: the root and the results appended by the evaluations of [root_fun] *)
Variable sci_newton : R -> vec -> res (R * list result).
Definition with_u (r : result) (u : vec) : result := Result u (r_A r) (r_blur r) (r_alpha r) (r_entropy r) (r_chi2 r) (r_norm r) (r_Q r).
(** lines 606-654; the array [ustart] given to [newton] is that of the last but one result and is overwritten by every evaluation (line 645), so it
    ends as the last solution *)
Definition solve_historic (fuel : nat) (niw : R) : option (res (result * list result)) :=
  match historic_loop fuel niw (10 ^ 6) 0 [] with
  | None => None
  | Some (Raise e) => Some (Raise e)
  | Some (Ok acc) =>
    Some (if Nat.leb (List.length acc) 1 then Raise RuntimeError
          else
            let! o := last_item acc in
            let! o2 := last_item (removelast acc) in
            let! an := sci_newton (r_alpha o) (r_u o2) in
            let u := match rev (snd an) with [] => r_u o2 | r :: _ => r_u r end in
            let all := (removelast (removelast acc) ++ [with_u o2 u; o] ++ snd an)%list in
            let! sol := opt (fst an) u in
            Ok (sol, all))
  end.
End Kink.

Section Bryan.
(** [self.maxent_optimization(alpha, zeros, use_bayes=True)]: spectrum and probability *)
Variable optb : R -> res (vec * R).
Record sample := Sample { b_alpha : R; b_A : vec; b_prob : R }.
(** lines 764-776 *)
Fixpoint bryan_loop (fuel : nat) (alpha alphadiv maxprob : R) (acc : list sample) : option (res (list sample)) :=
  match fuel with
  | O => None
  | S fuel' =>
    match optb alpha with
    | Raise e => Some (Raise e)
    | Ok (A, prob) =>
      let acc := (acc ++ [Sample alpha A prob])%list in
      if Rlt_dec maxprob prob then bryan_loop fuel' (alpha / alphadiv) alphadiv prob acc
      else if Rlt_dec prob (0.01 * maxprob) then Some (Ok acc)
      else bryan_loop fuel' (alpha / alphadiv) alphadiv maxprob acc
    end
  end.
Definition nthR (l : list R) : vec := fun i => nth i l 0.
(** lines 778-789: the average spectrum *)
Definition bryan_average (acc : list sample) : vec :=
  let n := List.length acc in
  let alpharr := nthR (map b_alpha acc) in
  let probarr := fun i => nthR (map b_prob acc) i / - trapz n (nthR (map b_prob acc)) alpharr in
  fun l => - trapz n (fun i => nthR (map (fun s => b_A s l) acc) i * probarr i) alpharr.
(** lines 731-792 with the default values *)
Definition solve_bryan (fuel : nat) : option (res (vec * list sample)) :=
  match bryan_loop fuel 500 1.1 0 [] with
  | None => None
  | Some (Raise e) => Some (Raise e)
  | Some (Ok acc) => Some (Ok (bryan_average acc, acc))
  end.
End Bryan.

(** lines 920-937: the choice asked for *)
Inductive choice := Historic | Classic | Bryan | Kink.
Definition solve_dispatch (alpha_determination : option string) : res choice :=
  match alpha_determination with
  | None => Raise KeyError
  | Some m => if String.eqb m "historic" then Ok Historic else if String.eqb m "classic" then Ok Classic
              else if String.eqb m "bryan" then Ok Bryan else if String.eqb m "chi2kink" then Ok Kink else Raise ValueError
  end.
