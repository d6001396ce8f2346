(** Model of the two-particle input files: W2dynG4iwFile of /repo/src/dga/w2dyn_aux_dga.py and the writer of
    symmetrize.py for target 3freq.  An HDF5 file is a finite list of (path, two-dimensional dataset); [A] is the type
    of the entries. *)
From Coq Require Import String.
From Verif Require Import Base.PyBase Model.Util Model.Matsubara Model.MpiAux Model.RankFiles.
Set Implicit Arguments.
Local Open Scope string_scope.
Local Open Scope list_scope.
Local Open Scope Z_scope.

Section H5.
Variable A : Type.
Definition mat2 := list (list A).
Definition h5 := list (string * mat2).
(** [f[path][()]]: KeyError for a missing dataset; [path in f]. *)
Fixpoint h5_get (f : h5) (p : string) : res mat2 :=
  match f with [] => Raise KeyError | (q, d) :: f' => if String.eqb p q then Ok d else h5_get f' p end.
Definition h5_in (f : h5) (p : string) : bool := existsb (fun e => String.eqb p (fst e)) f.
(** shape[1]; [.T] *)
Definition cols (d : mat2) : Z := match d with [] => 0 | r :: _ => zlen r end.
Definition tr (d : mat2) : mat2 := transpose (cols d) d.

(** w2dyn_aux_dga.py:259, 273, 286, 296: the path of the dataset; [None + str] is a TypeError. *)
Definition g2_path (ineq : Z) (channel : option string) (wn spinband : Z) : res string :=
  match channel with
  | None => Raise TypeError
  | Some ch => Ok ("/ineq-" ++ (fmt0 3 ineq ++ ("/" ++ (ch ++ ("/" ++ (fmt0 5 wn ++ ("/" ++ (fmt0 5 spinband ++ "/value"))))))))%string
  end.
Definition g2_read (f : h5) (ineq : Z) (channel : option string) (wn spinband : Z) : res mat2 :=
  let! p := g2_path ineq channel wn spinband in let! d := h5_get f p in Ok (tr d).
(** np.array of a list of two-dimensional arrays: one common shape, else ValueError (numpy >= 1.24) *)
Definition same_shape (a b : mat2) : bool := (zlen a =? zlen b) && (cols a =? cols b).
Definition np_array_3 (l : list mat2) : res (list mat2) :=
  match l with [] => Ok [] | a :: t => if forallb (same_shape a) t then Ok l else Raise ValueError end.

(** w2dyn_aux_dga.py:265-278 [read_g2_full]: a while loop ended by any exception; [None]: the fuel is used up. *)
Fixpoint read_loop (f : h5) (ineq : Z) (channel : option string) (spinband : Z) (fuel : nat) (wn : Z) (g2 : list mat2) : option (list mat2) :=
  match fuel with
  | O => None
  | S fuel' => match g2_read f ineq channel wn spinband with
               | Ok d => read_loop f ineq channel spinband fuel' (wn + 1) (g2 ++ [d])
               | Raise _ => Some g2
               end
  end.
Definition read_g2_full (f : h5) (ineq : Z) (channel : option string) (spinband : Z) : option (res (list mat2)) :=
  match read_loop f ineq channel spinband (S (length f)) 0 [] with Some l => Some (np_array_3 l) | None => None end.

(** w2dyn_aux_dga.py:293-299 [get_niw]; the path is built before the test, so a missing channel is a TypeError. *)
Fixpoint count_loop (f : h5) (ineq : Z) (ch : string) (spinband : Z) (fuel : nat) (wn : Z) : option Z :=
  match fuel with
  | O => None
  | S fuel' => match g2_path ineq (Some ch) wn spinband with
               | Ok p => if h5_in f p then count_loop f ineq ch spinband fuel' (wn + 1) else Some wn
               | Raise _ => Some wn
               end
  end.
Definition get_niw (f : h5) (ineq : Z) (channel : option string) (spinband : Z) : option (res Z) :=
  match channel with
  | None => Some (Raise TypeError)
  | Some ch => match count_loop f ineq ch spinband (S (length f)) 0 with Some wn => Some (Ok (wn / 2)) | None => None end
  end.

(** w2dyn_aux_dga.py:281-290 [read_g2_iw]; iw is an integer array. *)
Definition read_g2_iw (f : h5) (ineq : Z) (channel : option string) (spinband : Z) (iw : list Z) : option (res (list mat2)) :=
  match get_niw f ineq channel spinband with
  | None => None
  | Some r => Some (let! niw := r in
                    let! l := mapM (fun w => g2_read f ineq channel (cen2lin w (- niw)) spinband) iw in np_array_3 l)
  end.

(** w2dyn_aux_dga.py:253-262 [read_g2]: the block is stored in an array of shape (2 niv, 2 niv); numpy broadcasts
    axes of length one. *)
Definition bcast {X} (n : Z) (l : list X) : res (list X) :=
  if zlen l =? n then Ok l else match l with [x] => Ok (repeat x (Z.to_nat n)) | _ => Raise ValueError end.
Definition bcast2 (n : Z) (d : mat2) : res mat2 := let! rows := mapM (bcast n) d in bcast n rows.
Definition read_g2 (f : h5) (ineq : Z) (channel : option string) (niw niv spinband : Z) : res (list mat2) :=
  mapM (fun wn => let! d := g2_read f ineq channel wn spinband in bcast2 (2 * niv) d) (range (2 * niw + 1)).

(** symmetrize.py:159-176 and 250-263: the datasets written for one channel and one band group from the (symmetrised)
    array [x] with the axes [v,vp,w]: at the bosonic position iwb the transpose of x[...,iwb].  (How x is put together
    from the band-spin groups is the model Symmetrize.v.) *)
Definition x_at (x : list (list (list A))) (iwb : Z) : res mat2 := mapM (fun row => mapM (fun t => py_get t iwb) row) x.
Definition sym_write (ineq : Z) (ch : string) (n4iwb bgr : Z) (x : list (list (list A))) : res h5 :=
  mapM (fun iwb => let! d := x_at x iwb in
                   let! p := g2_path ineq (Some ch) iwb bgr in Ok (p, tr d)) (range (2 * n4iwb + 1)).
End H5.
