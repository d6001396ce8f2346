(** Model of the kernels of the vendored analytic-continuation package, /repo/src/ana_cont/kernels.py (all of it), and of the part of the solver's
    constructor that prepares kernel, data and errors, /repo/src/ana_cont/solvers.py lines 119-169.

    Floating-point numbers are real numbers; a division by zero gives no number ([None]: nan or infinity).  Arrays are functions of their indices,
    with the sizes beside them.  Left out: that the imaginary axis could be an array of complex numbers with vanishing imaginary parts. *)
From Coq Require Import Reals List String.
From Verif Require Import Base.PyBase Base.RSum Model.AnaSolver.
Import ListNotations.
Local Open Scope R_scope.

(** a floating-point number: [None] is nan or infinity *)
Definition num := option R.
Definition cnum := option cpx.
Definition div (a b : R) : num := if Req_EM_T b 0 then None else Some (a / b).
Definition real (x : num) : cnum := match x with Some r => Some (r, 0) | None => None end.
(** [1. / (1j * nu - om)] *)
Definition cinv (nu om : R) : cnum := if Req_EM_T (om * om + nu * nu) 0 then None else Some (- om / (om * om + nu * nu), - nu / (om * om + nu * nu)).

Definition kmat := nat -> nat -> cnum.
(** positions of the zeros of an axis, lines 59-60 *)
Definition zeros_of (n : nat) (x : vec) : list nat := filter (fun i => if Req_EM_T (x i) 0 then true else false) (seq 0 n).
(** the entries addressed by [kernel[rows, cols]] with two lists of indices, which are broadcast against each other *)
Definition fancy (rows cols : list nat) : res (list (nat * nat)) :=
  match rows, cols with
  | [r], _ => Ok (map (fun c => (r, c)) cols)
  | _, [c] => Ok (map (fun r => (r, c)) rows)
  | _, _ => if Nat.eqb (List.length rows) (List.length cols) then Ok (combine rows cols) else Raise IndexError
  end.
Definition mem (p : nat * nat) (l : list (nat * nat)) : bool := existsb (fun q => Nat.eqb (fst p) (fst q) && Nat.eqb (snd p) (snd q)) l.

(** lines 54-62 *)
Definition freq_bosonic (nim nre : nat) (im re : vec) : res kmat :=
  let kernel := fun i j => real (div (re j * re j) (re j * re j + im i * im i)) in
  let zi := zeros_of nim im in let zw := zeros_of nre re in
  if (Nat.ltb 0 (List.length zi) && Nat.ltb 0 (List.length zw))%bool
  then let! l := fancy zi zw in Ok (fun i j => if mem (i, j) l then Some (1, 0) else kernel i j)
  else Ok kernel.
(** lines 63-69 *)
Definition time_bosonic (nim nre : nat) (im re : vec) : res kmat :=
  let kernel := fun i j => real (div (0.5 * re j * (exp (- re j * im i) + exp (- re j * (1 - im i)))) (1 - exp (- re j))) in
  if Nat.eqb nre 0 then Raise IndexError else Ok (fun i j => if Nat.eqb j 0 then Some (1, 0) else kernel i j).
(** lines 70-73 *)
Definition freq_bosonic_xyz (nim nre : nat) (im re : vec) : res kmat :=
  let kernel := fun i j => real (div (- im i) (re j * re j + im i * im i)) in
  if Nat.eqb nim 0 then Raise IndexError
  else Ok (if Req_EM_T (im 0%nat) 0 then fun i j => if Nat.eqb i 0 then Some (0, 0) else kernel i j else kernel).
(** lines 74-75 *)
Definition freq_fermionic (nim nre : nat) (im re : vec) : res kmat := Ok (fun i j => cinv (im i) (re j)).
(** lines 77-92 *)
Definition time_kernel (tau om : R) : R :=
  if Rlt_dec 1.0E8 (exp (- om)) then exp (- (tau - 1) * om) else exp (- tau * om) / (1 + exp (- om)).
(** lines 93-95; [np.vectorize] refuses arrays without entries *)
Definition time_fermionic (nim nre : nat) (im re : vec) : res kmat :=
  if (Nat.eqb nim 0 || Nat.eqb nre 0)%bool then Raise ValueError else Ok (fun i j => Some (time_kernel (im i) (re j), 0)).
(** lines 100-104 *)
Definition freq_fermionic_phsym (nim nre : nat) (im re : vec) : res kmat :=
  Ok (fun i j => real (div (-2 * im i) (im i * im i + re j * re j))).
(** lines 105-109 *)
Definition time_fermionic_phsym (nim nre : nat) (im re : vec) : res kmat :=
  Ok (fun i j => real (div (cosh (im i * re j) + cosh ((1 - im i) * re j)) (1 + cosh (re j)))).
(** lines 49-112 [kernel_matrix] *)
Definition kernel_matrix (kind : string) (nim nre : nat) (im re : vec) : res kmat :=
  if String.eqb kind "freq_bosonic" then freq_bosonic nim nre im re
  else if String.eqb kind "time_bosonic" then time_bosonic nim nre im re
  else if String.eqb kind "freq_bosonic_xyz" then freq_bosonic_xyz nim nre im re
  else if String.eqb kind "freq_fermionic" then freq_fermionic nim nre im re
  else if String.eqb kind "time_fermionic" then time_fermionic nim nre im re
  else if String.eqb kind "freq_fermionic_phsym" then freq_fermionic_phsym nim nre im re
  else if String.eqb kind "time_fermionic_phsym" then time_fermionic_phsym nim nre im re
  else Raise ValueError.

(** an array given to the constructor: its size and entries *)
Definition axis := (nat * vec)%type.
(** the object; [k_blur] is the width if the Gaussian has been computed (lines 138-140), so that [blur] can run *)
Record kernel := Kernel { k_kind : string; k_im : axis; k_re : axis; k_original : kmat; k_matrix : kmat; k_gauss : option R }.
(** lines 11-47 *)
Definition kernel_init (kind : option string) (re_axis im_axis : option axis) : res kernel :=
  match kind, re_axis, im_axis with
  | Some kind, Some re, Some im => let! m := kernel_matrix kind (fst im) (fst re) (snd im) (snd re) in Ok (Kernel kind im re m m None)
  | _, _, _ => Raise ValueError
  end.

(** line 138: [np.linspace(-5b, 5b, num=201)] *)
Definition w_integration (b : R) (j : nat) : R := -5 * b + INR j * (10 * b / 200).
(** lines 139-140 *)
Definition gaussian (b : R) (j : nat) : R := 1 / (b * sqrt (2 * PI)) * exp (-0.5 * (w_integration b j / b) ^ 2).
(** [integ.simps(y, x=w_integration)] on 201 equally spaced points: the composite Simpson rule *)
Definition simpson_coef (j : nat) : R := if (Nat.eqb j 0 || Nat.eqb j 200)%bool then 1 else if Nat.even j then 2 else 4.
Definition simps (b : R) (y : nat -> R) : R := rsum 201 (fun j => 10 * b / 200 / 3 * simpson_coef j * y j).
(** a sum that contains something that is no number is none *)
Definition all_numbers (y : nat -> cnum) : bool := forallb (fun j => match y j with Some _ => true | None => false end) (seq 0 201).
Definition part (p : cpx -> R) (z : cnum) : R := match z with Some z => p z | None => 0 end.
Definition csimps (b : R) (y : nat -> cnum) : cnum :=
  if all_numbers y then Some (simps b (fun j => part fst (y j)), simps b (fun j => part snd (y j))) else None.
Definition times (c : R) (z : cnum) : cnum := match z with Some (x, y) => Some (c * x, c * y) | None => None end.
Definition plus (z z' : cnum) : cnum := match z, z' with Some (x, y), Some (x', y') => Some (x + x', y + y') | _, _ => None end.
(** lines 143-144 *)
Definition integrand_fermionic (b : R) (im re : vec) (i l j : nat) : cnum := times (gaussian b j) (cinv (im i) (re l + w_integration b j)).
(** lines 145-156; the rows of frequency zero are replaced *)
Definition integrand_bosonic (b : R) (im re : vec) (i l j : nat) : cnum :=
  let x := w_integration b j in let g := gaussian b j in
  if Req_EM_T (im i) 0 then Some (0.5 * (g + g), 0)
  else times 0.5 (plus (real (div (g * (x + re l) ^ 2) ((x + re l) ^ 2 + im i ^ 2))) (real (div (g * (x - re l) ^ 2) ((x - re l) ^ 2 + im i ^ 2)))).
(** lines 122-159 [convolve_kernel] *)
Definition convolve_kernel (k : kernel) (b : R) : res kmat :=
  if String.eqb (k_kind k) "freq_fermionic" then Ok (fun i l => csimps b (integrand_fermionic b (snd (k_im k)) (snd (k_re k)) i l))
  else if String.eqb (k_kind k) "freq_bosonic" then Ok (fun i l => csimps b (integrand_bosonic b (snd (k_im k)) (snd (k_re k)) i l))
  else Raise NotImplementedError.
(** lines 114-120 *)
Definition preblur (k : kernel) (b : R) : res kernel :=
  if Rlt_dec 0 b then
    if (String.eqb (k_kind k) "freq_fermionic" || String.eqb (k_kind k) "freq_bosonic")%bool
    then let! m := convolve_kernel k b in Ok (Kernel (k_kind k) (k_im k) (k_re k) (k_original k) m (Some b))
    else Ok (Kernel (k_kind k) (k_im k) (k_re k) (k_original k) (k_original k) (k_gauss k))
  else Ok (Kernel (k_kind k) (k_im k) (k_re k) (k_original k) (k_original k) (k_gauss k)).
(** lines 161-177: [interpolate xs ys] is the spline through the points (scipy's, zero outside); for 'freq_bosonic' the mirror image of the spectrum is
    put in front (without its first point) *)
Section Blur.
Variable interpolate : list R -> list R -> R -> R.
Definition values (n : nat) (x : vec) : list R := map x (seq 0 n).
Definition mirrored (s : R) (n : nat) (x : vec) : list R := (map (Rmult s) (rev (tl (values n x))) ++ values n x)%list.
Definition spline (k : kernel) (h : vec) : R -> R :=
  let n := fst (k_re k) in
  if String.eqb (k_kind k) "freq_bosonic" then interpolate (mirrored (-1) n (snd (k_re k))) (mirrored 1 n h)
  else interpolate (values n (snd (k_re k))) (values n h).
Definition blur (k : kernel) (h : vec) : res vec :=
  match k_gauss k with
  | None => Raise AttributeError
  | Some b => Ok (fun l => simps b (fun j => gaussian b j * spline k h (snd (k_re k) l + w_integration b j)))
  end.
End Blur.

Definition csum (n : nat) (f : nat -> cpx) : cpx := (rsum n (fun i => fst (f i)), rsum n (fun i => snd (f i))).
Definition cmul (z z' : cpx) : cpx := (fst z * fst z' - snd z * snd z', fst z * snd z' + snd z * fst z').
Definition conj (z : cpx) : cpx := (fst z, - snd z).
Definition csub (z z' : cpx) : cpx := (fst z - fst z', snd z - snd z').
Definition cmat := nat -> nat -> cpx.
(** [np.dot(ucov.T.conj(), x)] *)
Definition rotate (n : nat) (ucov : cmat) (x : nat -> cpx) : nat -> cpx := fun k => csum n (fun i => cmul (conj (ucov i k)) (x i)).
(** lines 186-189 [rotate_to_cov_eb] for a matrix of numbers *)
Definition rotate_to_cov_eb (n : nat) (ucov : cmat) (m : nat -> nat -> cpx) : nat -> nat -> cpx := fun k l => rotate n ucov (fun i => m i l) k.

(** solvers.py lines 138-149: the errors, from standard deviations or from a covariance matrix, whose eigenvalues and eigenvectors are [eigh] *)
Section Errors.
Variable eigh : nat -> cmat -> vec * cmat.
Definition errors (nim : nat) (stdev : option vec) (cov : option cmat) : res (vec * cmat) :=
  match cov, stdev with
  | None, Some s => Ok (fun k => s k ^ 2, fun i j => (eye i j, 0))
  | Some c, None => let '(v, u) := eigh nim c in Ok (fun k => Rabs (v k), u)
  | _, _ => Raise AttributeError
  end.
(** solvers.py lines 138-169: [kernel] is the (possibly blurred) kernel matrix *)
Definition prepare (nim nw : nat) (re : vec) (kernel : nat -> nat -> cpx) (fermi : bool) (model : vec) (data : nat -> cpx)
    (stdev : option vec) (cov : option cmat) (offdiag : bool) : res setup :=
  let! e := errors nim stdev cov in
  Ok (Setup nim nw re (rotate_to_cov_eb nim (snd e) kernel) fermi model (rotate nim (snd e) data) (fst e) offdiag).
End Errors.
