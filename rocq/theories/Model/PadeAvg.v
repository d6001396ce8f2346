(** Model of the averaged Pade continuation and of PadeSolver in /repo/src/dga/pade_aux.py.

    Complex numbers are R[i] over an arbitrary real closed field R (no rounding; 0.99 and 0.51 are the exact decimal
    numbers).  sys.exit is [Raise RuntimeError].  The names np.complex, np.bool, which newer numpy releases do not have,
    are taken to exist.  Only the column cols = [0] that pade() uses is modelled. *)
From mathcomp Require Import all_ssreflect all_algebra.
From mathcomp Require Import complex.
From Verif Require Import Base.PyBase Model.Pade.
Import GRing.Theory Num.Theory.
Set Implicit Arguments. Unset Strict Implicit. Unset Printing Implicit Defensive.
Local Open Scope ring_scope.

Section Model.
Variable R : rcfType.
Notation C := (complex R).
Notation Im := (@complex.Im R).

(** pade_aux.py:449-472 [pick_points] (z and one column f are treated alike): l[nmin:nmin+M], or the conjugated first
    nadd entries in reverse order followed by l[:M-nadd] (a negative bound counts from the end). *)
Definition pick (l : list C) (nmin M : Z) : list C :=
  if (0 <=? nmin)%Z then slice l nmin (nmin + M)
  else let nadd := (- nmin)%Z in
       (seq.rev [seq conjc x | x <- seq.take (Z.to_nat nadd) l] ++ slice l 0 (M - nadd))%SEQ.
Definition pick_points (z f : list C) (nmin M : Z) : list C * list C := (pick z nmin M, pick f nmin M).

(** pade_aux.py:412-446 [acPade] for one column: the matrix method (lstsq is the parameter [lstsq], which gets the rows
    and the right-hand sides of padeMatrix), Thiele's algorithm, or the non-linear method (parameter). *)
Definition acPade (lstsq : list (list C) -> list C -> list C) (nonlin : list C -> list C -> nat -> list C)
    (z f : list C) (N : nat) (zout : list C) (solver : Z) : res (list C) :=
  if odd N then Raise RuntimeError
  else if (solver =? 0)%Z then
    let r := N./2 in
    let x := lstsq [seq pm_row r p.1 p.2 | p <- zip z f] [seq pm_rhs r p.1 p.2 | p <- zip z f] in
    Ok [seq epade w x | w <- zout]
  else if (solver =? 1)%Z then (if N == size z then Ok (padeThiele z f zout) else Raise RuntimeError)
  else if (solver =? 2)%Z then Ok [seq epade w (nonlin z f N) | w <- zout]
  else Raise RuntimeError.

(** pade_aux.py:482-526: the continuations to perform, in order: nmins, Ms = arange(50,101,4), Ns = arange(40,81,4) with
    N <= M. *)
Definition steps (a b s : nat) : list nat := [seq (a + s * i)%nat | i <- iota 0 (((b - a)%nat + s)%nat.-1 %/ s)%nat].
Definition Ms : list nat := steps 50 101 4.
Definition Ns : list nat := steps 40 81 4.
Definition plan : list (Z * nat * nat) :=
  flatten [seq flatten [seq [seq (nmin, M, N) | N <- [seq N <- Ns | (N <= M)%nat]] | M <- Ms] | nmin <- [:: (-3)%Z; (-2)%Z; (-1)%Z]].
(** pade_aux.py:526-527: [np.all(np.imag(f) <= 0)]. *)
Definition physical (f : list C) : bool := all (fun w => Im w <= 0) f.
Fixpoint continuations (ac : list C -> list C -> nat -> res (list C)) (zin fin : list C) (l : list (Z * nat * nat)) : res (list (list C)) :=
  match l with
  | [::] => Ok [::]
  | (nmin, M, N) :: l' =>
      let p := pick_points zin fin nmin (Z.of_nat M) in
      let! f := ac p.1 p.2 N in
      let! fs := continuations ac zin fin l' in
      Ok (if physical f then f :: fs else fs)
  end.

(** pade_aux.py:548-555: delta[i,j] for j > i (zero elsewhere) and the accumulated distances. *)
Definition dist1 (a b : list C) : R := \sum_(k <- iota 0 (size a)) `|Im (seq.nth 0 a k) - Im (seq.nth 0 b k)|.
Definition delta (f : list (list C)) (i j : nat) : R := if (i < j)%nat then dist1 (seq.nth [::] f i) (seq.nth [::] f j) else 0.
Definition dacc (f : list (list C)) (i : nat) : R :=
  \sum_(k <- iota 0 i) delta f k i + \sum_(k <- iota i.+1 (size f - i.+1)) delta f i k.
Definition ds (f : list (list C)) : list R := [seq dacc f i | i <- iota 0 (size f)].
Definition rmean (l : list R) : R := (\sum_(x <- l) x) / (size l)%:R.
(** pade_aux.py:556-561; [argsort] is numpy's (ties in any order). *)
Definition mask (argsort : list R -> list nat) (f : list (list C)) : list bool :=
  let d := ds f in
  let ind := seq.take (51 * size d %/ 100) (argsort d) in
  [seq (seq.nth 0 d i <= 99%:R / 100%:R * rmean d) && (i \in ind) | i <- iota 0 (size d)].
(** np.mean(axis=0); [None] for the mean over no rows, which numpy answers with nan. *)
Definition vmean (n : nat) (rows : list (list C)) : option (list C) :=
  if rows is [::] then None else Some [seq (\sum_(r <- rows) seq.nth 0 r k) / (size rows)%:R | k <- iota 0 n].
Definition select T (m : list bool) (l : list T) : list T := [seq p.2 | p <- zip m l & p.1].
(** pade_aux.py:475-567 [pade]: (average, all physical continuations, mask). *)
Definition pade (argsort : list R -> list nat) (ac : list C -> list C -> list C -> nat -> res (list C)) (zin fin zout : list C)
  : res (option (list C) * list (list C) * list bool) :=
  let! fs := continuations (ac zout) zin fin plan in
  match fs with
  | [::] => Raise RuntimeError
  | [:: f] => Ok (Some f, fs, [:: true])
  | _ => let m := mask argsort fs in Ok (vmean (size zout) (select m fs), fs, m)
  end.

(** pade_aux.py:71-157 [PadeSolver]: the interpolant through the points i*w; its check values and the spectral function
    -Im/pi ([pi] is a parameter). *)
Definition iax (w : list R) : list C := [seq 'i * (x%:C)%C | x <- w].
Definition ps_check (im_axis : list R) (im_data : list C) (fine : list R) : res (list C) :=
  mapM (fun z => evalC z (iax im_axis) (compute_coefficients (iax im_axis) im_data)) (iax fine).
Definition ps_solve (pi : R) (im_axis : list R) (im_data : list C) (re_axis : list C) : res (list C * list R) :=
  let! g := mapM (fun z => evalC z (iax im_axis) (compute_coefficients (iax im_axis) im_data)) re_axis in
  Ok (g, [seq - Im x / pi | x <- g]).

(** pade_aux.py:355-386 [jac]: the columns of the Jacobian at one point z, before the split into real and imaginary
    parts: derivatives with respect to the real parts of the numerator and denominator coefficients, then the imaginary
    parts. *)
Definition pnum (x : list C) (z : C) : C := \sum_(i <- iota 0 ((size x)./2)) seq.nth 0 x i * z ^+ i.
Definition pden (x : list C) (z : C) : C := \sum_(i <- iota 0 ((size x)./2)) seq.nth 0 x ((size x)./2 + i) * z ^+ i + z ^+ ((size x)./2).
Definition jac_row (x : list C) (z : C) : list C :=
  let r := (size x)./2 in
  ([seq z ^+ i / pden x z | i <- iota 0 r] ++ [seq - pnum x z * z ^+ i / (pden x z) ^+ 2 | i <- iota 0 r] ++
   [seq 'i * z ^+ i / pden x z | i <- iota 0 r] ++ [seq - pnum x z * 'i * z ^+ i / (pden x z) ^+ 2 | i <- iota 0 r])%SEQ.
(** pade_aux.py:398-399: the starting point of the non-linear fit (the N complex coefficients, imaginary parts zero). *)
Definition nl_start (N : nat) : list C := [seq (if k == N./2.-1 then 1 else 0) | k <- iota 0 N].
End Model.
