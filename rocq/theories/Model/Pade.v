(** Model of the Thiele/Pade routines of /repo/src/dga/pade_aux.py.

    Values live in an arbitrary field (numpy: complex128/complex256 without
    rounding); a division by zero, which numpy answers with nan, is the field's
    total division here, so every theorem that depends on a quotient assumes the
    divisor non-zero. *)
From mathcomp Require Import all_ssreflect all_algebra.
From Verif Require Import Base.PyBase.
Import GRing.Theory.
Set Implicit Arguments. Unset Strict Implicit. Unset Printing Implicit Defensive.
Local Open Scope ring_scope.

Section Pade.
Variable F : fieldType.
Implicit Types (zi ui a : list F).

(** pade_aux.py:162-169 [compute_coefficients].  Row [i] of [g] is filled from
    left to right (lines 167-168); rows above are complete.  Entries right of
    the diagonal stay 0 and are never read. *)
Definition row_step zi (rows : list (list F)) (i : nat) (row : list F) (j : nat) : list F :=
  rcons row ((seq.nth 0 (seq.nth [::] rows j.-1) j.-1 - seq.nth 0 row j.-1)
             / ((seq.nth 0 zi i - seq.nth 0 zi j.-1) * seq.nth 0 row j.-1)).
(** While row [i] is built, [g[j-1,j-1]] with [j-1 < i] is in an earlier row. *)
Definition make_row zi ui (rows : list (list F)) (i : nat) : list F :=
  foldl (row_step zi rows i) [:: seq.nth 0 ui i] (iota 1 i).
Definition g_rows zi ui : list (list F) :=
  foldl (fun rows i => rcons rows (make_row zi ui rows i)) [::] (iota 0 (size zi)).
Definition compute_coefficients zi ui : list F :=
  [seq seq.nth 0 (seq.nth [::] (g_rows zi ui) i) i | i <- iota 0 (size zi)].

(** pade_aux.py:184-199 [A], [B]: two-term recursions; [None] when the index of
    [a] or [zi] is out of range (IndexError). *)
Fixpoint pA (zr : F) zi a (n : nat) : F * F :=   (* (A_n, A_{n-1}) *)
  match n with
  | O => (0, 0)
  | S n' =>
      match n' with
      | O => (seq.nth 0 a 0, 0)
      | S n'' => let '(x, y) := pA zr zi a n' in (x + (zr - seq.nth 0 zi n'') * seq.nth 0 a n' * y, x)
      end
  end.
Fixpoint pB (zr : F) zi a (n : nat) : F * F :=
  match n with
  | O => (1, 1)
  | S n' =>
      match n' with
      | O => (1, 1)
      | S n'' => let '(x, y) := pB zr zi a n' in (x + (zr - seq.nth 0 zi n'') * seq.nth 0 a n' * y, x)
      end
  end.
(** Reading [a[k]] for [k <= n-1] and [zi[k]] for [k <= n-2] raises IndexError
    when the lists are too short. *)
Definition AB_ok zi a (n : nat) : bool := (n <= size a)%nat && (n.-1 <= size zi)%nat.
Definition evalA zr zi a n : res F := if AB_ok zi a n then Ok (pA zr zi a n).1 else Raise IndexError.
Definition evalB zr zi a n : res F := if AB_ok zi a n then Ok (pB zr zi a n).1 else Raise IndexError.
(** pade_aux.py:201-203 [C]. *)
Definition evalC zr zi a : res F :=
  let n := size zi in
  let! x := evalA zr zi a n in
  let! y := evalB zr zi a n in
  Ok (x / y).

(** pade_aux.py:178-182 [g], 1-based in both indices. *)
Fixpoint g_rec zi ui (p i : nat) : F :=
  match p with
  | O => 0
  | S p' =>
      match p' with
      | O => seq.nth 0 ui i.-1
      | S p'' => (g_rec zi ui p' p' - g_rec zi ui p' i) / ((seq.nth 0 zi i.-1 - seq.nth 0 zi p'') * g_rec zi ui p' i)
      end
  end.
(** pade_aux.py:171-176 [a]: only n-1 coefficients. *)
Definition a_list zi ui : list F := [seq g_rec zi ui i i | i <- iota 1 (size zi).-1].

(** pade_aux.py:208-251 [padeThiele]: all rows of [g] have full length; the
    approximant is evaluated at every point of [zut]. *)
Definition thiele_row (z : list F) (i : nat) (prev : list F) : list F :=
  [seq (seq.nth 0 prev i.-1 - seq.nth 0 prev j) / ((seq.nth 0 z j - seq.nth 0 z i.-1) * seq.nth 0 prev j) | j <- iota 0 (size z)].
Definition thiele_g (z f : list F) : list (list F) :=
  foldl (fun rows i => rcons rows (thiele_row z i (seq.last [::] rows))) [:: f] (iota 1 (size z).-1).
Definition thiele_c (z f : list F) : list F :=
  [seq seq.nth 0 (seq.nth [::] (thiele_g z f) i) i | i <- iota 0 (size z)].
Definition thiele_step (zut z c : list F) (AB : list (list F)) (n : nat) : list (list F) :=
  rcons AB [seq seq.nth 0 (seq.nth [::] AB n) k + (seq.nth 0 zut k - seq.nth 0 z n.-1) * seq.nth 0 c n * seq.nth 0 (seq.nth [::] AB n.-1) k
           | k <- iota 0 (size zut)].
Definition padeThiele (z f zut : list F) : list F :=
  let N := size z in
  let c := thiele_c z f in
  let A := foldl (thiele_step zut z c) [:: nseq (size zut) 0; nseq (size zut) (seq.nth 0 c 0)] (iota 1 N.-1) in
  let B := foldl (thiele_step zut z c) [:: nseq (size zut) 1; nseq (size zut) 1] (iota 1 N.-1) in
  [seq seq.nth 0 (seq.last [::] A) k / seq.nth 0 (seq.last [::] B) k | k <- iota 0 (size zut)].

(** pade_aux.py:254-286 [padeMatrix]: the linear system, row by row, for an even
    number [N = 2 r] of coefficients; the solution itself comes from
    [np.linalg.lstsq], which is not modelled. *)
Definition pm_row (r : nat) (z f : F) : list F :=
  [seq z ^+ k | k <- iota 0 r] ++ [seq - f * z ^+ k | k <- iota 0 r].
Definition pm_rhs (r : nat) (z f : F) : F := f * z ^+ r.
Definition dot (x y : list F) : F := \sum_(k <- iota 0 (size x)) seq.nth 0 x k * seq.nth 0 y k.
(** pade_aux.py:289-304 [epade] at one point. *)
Definition epade (z : F) (x : list F) : F :=
  let r := (size x)./2 in
  let num := foldl (fun acc i => acc + seq.nth 0 x i * z ^+ i) 0 (iota 0 r) in
  let den := foldl (fun acc i => acc + seq.nth 0 x (r + i) * z ^+ i) 0 (iota 0 r) in
  num / (den + z ^+ r).
End Pade.
