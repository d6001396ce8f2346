(** Model of /repo/src/dga/symmetrize.py (symmetrisation of w2dynamics output).

    HDF5 files are modelled by the values stored at one frequency cell: the
    input maps a band-spin group number to a value, the output maps a band
    group number to a value ([None] when the dataset does not exist).  The
    [numpy.int_] arrays are mathematical integers (no 64-bit overflow). *)
From mathcomp Require Import all_ssreflect all_algebra.
From Verif Require Import Base.PyBase.
Import GRing.Theory.
Set Implicit Arguments.
Unset Strict Implicit.
Unset Printing Implicit Defensive.
Local Open Scope Z_scope.

(** symmetrize.py:12-29 [index2component_general]: the loop of lines 23-27 with
    state [(bs, b, s, ind_tmp)]; [tmp[i+1] = (2*Nbands)**(N-i-1)] (lines 19-21). *)
Definition i2c_step (Nbands N : Z) (st : list Z * list Z * list Z * Z) (i : Z)
  : list Z * list Z * list Z * Z :=
  let '(bs, b, s, ind_tmp) := st in
  let tmp := (2 * Nbands) ^ (N - (i + 1)) in
  let bsi := ind_tmp / tmp in
  let si := bsi mod 2 in
  let bi := (bsi - si) / 2 in
  (bs ++ [bsi], b ++ [bi], s ++ [si], ind_tmp - tmp * bsi)%list.
Definition index2component_general (Nbands N ind : Z) : list Z * list Z * list Z :=
  let '(bs, b, s, _) :=
    fold_left (i2c_step Nbands N) (range N) ([], [], [], ind - 1) in
  (bs, b, s).

(** symmetrize.py:32-36 [component2index_band]. *)
Definition component2index_band (Nbands N : Z) (b : list Z) : res Z :=
  foldM (fun ind i => let! bi := py_get b i in Ok (ind + Nbands ^ (N - i - 1) * bi))
        (range N) 1.

(** symmetrize.py:39-44 [index2component_band]. *)
Definition index2component_band (Nbands N ind : Z) : list Z :=
  fst (fold_left (fun (st : list Z * Z) i =>
                    let '(b, ind_tmp) := st in
                    let bi := ind_tmp / (Nbands ^ (N - i - 1)) in
                    (b ++ [bi], ind_tmp - bi * (Nbands ^ (N - i - 1)))%list)
                 (range N) ([], ind - 1)).

(** symmetrize.py:101-108 [get_groups]: one entry of [groups] per group number
    present in the input, and the list of distinct band groups in order of
    first appearance.  (Reading the group names from the file and the
    interactive warning of lines 90-95 are not modelled.) *)
Record group := Group { gr_group : Z; gr_spins : list Z; gr_bands : list Z; gr_bs : list Z }.
Definition group_of (Nbands gr : Z) : group :=
  let '(bs, b, s) := index2component_general Nbands 4 gr in
  Group gr s b bs.
Definition get_groups (Nbands : Z) (gr_str : list Z) : res (list group * list Z) :=
  foldM (fun (st : list group * list Z) gr =>
           let g := group_of Nbands gr in
           let! bgr := component2index_band Nbands 4 (gr_bands g) in
           let bg := if existsb (Z.eqb bgr) (snd st) then snd st else (snd st ++ [bgr])%list in
           Ok (fst st ++ [g], bg)%list)
        gr_str ([], []).

(** symmetrize.py:115-124 [check_sym] for one atom: [true] when the program
    goes on, [false] when it exits. [set(a) != set(b)] is compared as sets. *)
Definition set_eqb (a b : list Z) : bool :=
  forallb (fun x => existsb (Z.eqb x) b) a && forallb (fun x => existsb (Z.eqb x) a) b.
Definition check_sym (Nbands : Z) (sym : list (list Z)) : res bool :=
  foldM (fun ok i =>
           let! si := py_get sym i in
           foldM (fun ok j => let! sj := py_get sym (j - 1) in Ok (ok && set_eqb si sj)) si ok)
        (range Nbands) true.

Inductive channel := Dens | Magn.
Inductive action := Plus | Minus | Zero.

(** symmetrize.py:178-195: the sign with which a spin combination enters a
    channel; [sys.exit()] is [Raise RuntimeError]. *)
Definition spin_in (s : list Z) (l : list (list Z)) : bool :=
  existsb (fun t => if list_eq_dec Z.eq_dec s t then true else false) l.
Definition get_action (ch : channel) (s : list Z) : res action :=
  match ch with
  | Dens =>
      if spin_in s [[0;0;0;0];[0;0;1;1];[1;1;0;0];[1;1;1;1]] then Ok Plus
      else if spin_in s [[0;1;1;0];[1;0;0;1]] then Ok Zero else Raise RuntimeError
  | Magn =>
      if spin_in s [[0;0;0;0];[0;1;1;0];[1;0;0;1];[1;1;1;1]] then Ok Plus
      else if spin_in s [[0;0;1;1];[1;1;0;0]] then Ok Minus else Raise RuntimeError
  end.

(** symmetrize.py:196-228: the band groups a group is distributed over;
    [sy] is the user input (1-based band numbers). *)
Definition pairs_ne (li lj : list Z) (mk : Z -> Z -> list Z) : list (list Z) :=
  flat_map (fun i => flat_map (fun j => if (i - 1) =? (j - 1) then [] else [mk (i - 1) (j - 1)]) lj) li.
Definition sym_bands (sy : list (list Z)) (bands : list Z) : res (list (list Z)) :=
  match bands with
  | [b1; b2; b3; b4] =>
      let! s1 := py_get sy b1 in
      let! s2 := py_get sy b2 in
      let! s3 := py_get sy b3 in
      let! s4 := py_get sy b4 in
      if (zlen s1 =? 1) && (zlen s2 =? 1) && (zlen s3 =? 1) && (zlen s4 =? 1)
      then Ok [bands]
      else if (b1 =? b2) && (b1 =? b3) && (b1 =? b4)
      then Ok (map (fun i => let i' := i - 1 in [i'; i'; i'; i']) s1)
      else if (b1 =? b2) && (b3 =? b4) && negb (b2 =? b3)
      then Ok (pairs_ne s1 s3 (fun i j => [i; i; j; j]))
      else if (b1 =? b3) && (b2 =? b4) && negb (b1 =? b2)
      then Ok (pairs_ne s1 s2 (fun i j => [i; j; i; j]))
      else if (b1 =? b4) && (b2 =? b3) && negb (b1 =? b2)
      then Ok (pairs_ne s1 s2 (fun i j => [i; j; j; i]))
      else Ok []
  | _ => Raise ValueError
  end.
(** symmetrize.py:178-230 [get_symgroups]. *)
Definition get_symgroups (ch : channel) (gr : group) (sy : list (list Z)) (nd : Z)
  : res (action * list Z) :=
  let! a := get_action ch (gr_spins gr) in
  let! bb := sym_bands sy (gr_bands gr) in
  let! sg := mapM (component2index_band nd 4) bb in
  Ok (a, sg).

Section Values.
Variable F : fieldType.

Definition otab := list (Z * F).
Definition oget (t : otab) (k : Z) : option F :=
  match List.find (fun e => Z.eqb k (fst e)) t with Some e => Some (snd e) | None => None end.
(** [h5out[key][...] += v]: a missing dataset raises KeyError. *)
Fixpoint oadd (t : otab) (k : Z) (v : F) : res otab :=
  match t with
  | [] => Raise KeyError
  | (k', w) :: t' => if Z.eqb k k' then Ok ((k', (w + v)%R) :: t')
                     else let! r := oadd t' k v in Ok ((k', w) :: r)
  end.

(** symmetrize.py:232-263 [read_and_add] at one frequency cell: the value read,
    divided by [prefactor*len(symgroups)], is added to or subtracted from every
    band group listed.  (The two fermionic axes are transposed on the way,
    line 258; a NaN is replaced by 0, lines 252-254: not modelled.  For an empty
    list numpy divides by 0.0 but nothing is written.) *)
Definition prefactor (ch : channel) : F := match ch with Dens => 2%:R | Magn => 4%:R end%R.
Definition read_and_add (h5in : Z -> F) (out : otab) (igr : Z) (ch : channel) (a : action)
    (symgroups : list Z) : res otab :=
  let x := (h5in igr / (prefactor ch * (length symgroups)%:R))%R in
  foldM (fun t k => match a with
                    | Plus => oadd t k x
                    | Minus => oadd t k (- x)%R
                    | Zero => Ok t
                    end) symgroups out.

(** symmetrize.py:139-176 [initialize_output] (zeros for every band group) and
    symmetrize.py:300-304, the loop of [main] for one atom and one channel. *)
Definition symmetrize_channel (h5in : Z -> F) (Nbands : Z) (gr_str : list Z) (sy : list (list Z))
    (ch : channel) : res otab :=
  let! gg := get_groups Nbands gr_str in
  foldM (fun t gr =>
           let! asg := get_symgroups ch gr sy Nbands in
           read_and_add h5in t (gr_group gr) ch (fst asg) (snd asg))
        (fst gg) (map (fun k => (k, 0%R)) (snd gg)).

(** symmetrize.py:282-287, the one-frequency case at one frequency: [g[band][spin]];
    the result is [sum_{symband} mean_spin(g[symband-1]/len(sym[band]))], the same
    for both spins. *)
Definition fsum (l : list F) : F := fold_right +%R 0%R l.
Definition spin_mean (l : list F) : F := (fsum l / (length l)%:R)%R.
Definition sym_1freq (g : list (list F)) (sym : list (list Z)) (band : Z) : res (list F) :=
  let! sb := py_get sym band in
  let! gb := py_get g band in
  let! v := foldM (fun acc symband =>
           let! gs := py_get g (symband - 1) in
           Ok (acc + spin_mean (map (fun x => x / (length sb)%:R)%R gs))%R) sb 0%R in
  Ok (map (fun _ => v) gb).
End Values.
