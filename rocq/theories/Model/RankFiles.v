(** Model of the per-rank HDF5 files: the writers and loaders in pairing_vertex.py, four_point.py and optics.py, the
    file naming of mpi_aux.py, and the interleaving of the ranks.

    [A] is the type of array entries (complex numbers in the program); only the operations the code applies to the
    entries are assumed. *)
From Coq Require Import String Ascii.
From Verif Require Import Base.PyBase Model.Util Model.Matsubara Model.MpiAux.
Set Implicit Arguments.
Local Open Scope string_scope.
Local Open Scope list_scope.
Local Open Scope Z_scope.

(** * Python strings *)
(** CPython's format spec [{z:0<width>d}]: zero padding after the sign, the sign counts towards the width. *)
Fixpoint zeros (n : nat) : string := match n with O => EmptyString | S n' => String "0" (zeros n') end.
Definition pad0 (width : nat) (s : string) : string := (zeros (width - String.length s) ++ s)%string.
Definition fmt0 (width : nat) (z : Z) : string :=
  if z <? 0 then String "-" (pad0 (width - 1) (str_of_nat (Z.to_nat (- z)))) else pad0 width (str_of_nat (Z.to_nat z)).

(** [np.array(re.findall(r'\d+', s), dtype=int)]: the values of the maximal digit runs, left to right.  [cur] is the
    value of the run being read, if any. *)
Definition digit_val (c : ascii) : option Z :=
  let n := Z.of_nat (nat_of_ascii c) in if (48 <=? n) && (n <=? 57) then Some (n - 48) else None.
Fixpoint findall_from (cur : option Z) (s : string) : list Z :=
  match s with
  | EmptyString => match cur with Some v => [v] | None => [] end
  | String c s' =>
      match digit_val c, cur with
      | Some d, None => findall_from (Some d) s'
      | Some d, Some v => findall_from (Some (10 * v + d)) s'
      | None, Some v => v :: findall_from None s'
      | None, None => findall_from None s'
      end
  end.
Definition findall_int (s : string) : list Z := findall_from None s.

(** Order of h5py group names: byte-wise (strcmp). *)
Fixpoint str_ltb (a b : string) : bool :=
  match a, b with
  | EmptyString, EmptyString => false
  | EmptyString, String _ _ => true
  | String _ _, EmptyString => false
  | String x a', String y b' => Nat.ltb (nat_of_ascii x) (nat_of_ascii y) || (Ascii.eqb x y && str_ltb a' b')
  end.
Fixpoint str_insert (x : string) (l : list string) : list string :=
  match l with
  | [] => [x]
  | y :: ys => if str_ltb x y then x :: l else if String.eqb x y then l else y :: str_insert x ys
  end.

(** * Boolean-mask indexing (numpy: [x[mask]] is [x[mask.nonzero()]], C order) *)
Definition true_idx (mask : list (list bool)) : list (Z * Z) :=
  flat_map (fun ir => flat_map (fun jb => if snd jb : bool then [(fst ir, fst jb)] else []) (enumerate (snd ir))) (enumerate mask).
Definition py_get2 {A} (m : list (list A)) (i j : Z) : res A := let! r := py_get m i in py_get r j.
Definition py_set2 {A} (m : list (list A)) (i j : Z) (x : A) : res (list (list A)) :=
  let! r := py_get m i in let! r' := py_set r j x in py_set m i r'.
(** [m[mask]]; a mask of another shape raises IndexError. *)
Definition same_shape {A B} (l : list (list A)) (m : list (list B)) : bool :=
  (zlen l =? zlen m) && forallb (fun ab => zlen (fst ab) =? zlen (snd ab)) (combine l m).
Definition mask_take {A} (mask : list (list bool)) (m : list (list A)) : res (list A) :=
  if same_shape mask m then mapM (fun ij => py_get2 m (fst ij) (snd ij)) (true_idx mask) else Raise IndexError.
(** [m[mask] += vals]; the number of values has to match (broadcasting is not modelled). *)
Definition mask_add {A} (add : A -> A -> A) (mask : list (list bool)) (m : list (list A)) (vals : list A) : res (list (list A)) :=
  if same_shape mask m then
    let idx := true_idx mask in
    if zlen vals =? zlen idx then
      foldM (fun m ijv => let '((i, j), v) := ijv in let! x := py_get2 m i j in py_set2 m i j (add x v)) (combine idx vals) m
    else Raise ValueError
  else Raise IndexError.

Section RankFiles.
Variable A : Type.
Variables (zero : A) (add : A -> A -> A) (opp half conj : A -> A).

(** * HDF5 files: datasets addressed by (group, name) *)
Inductive dset := DVec (v : list A) | DMask (m : list (list bool)) | DMat (m : list (list A)).
Definition h5file := list ((string * string) * dset).
Definition key_eqb (a b : string * string) : bool := String.eqb (fst a) (fst b) && String.eqb (snd a) (snd b).
Fixpoint h5_get (f : h5file) (k : string * string) : option dset :=
  match f with [] => None | (k', v) :: f' => if key_eqb k k' then Some v else h5_get f' k end.
(** [file[path] = value] creates a dataset; h5py refuses an existing name. *)
Definition h5_put (f : h5file) (k : string * string) (v : dset) : res h5file :=
  match h5_get f k with Some _ => Raise ValueError | None => Ok (f ++ [(k, v)]) end.
(** [file.keys()] *)
Definition h5_keys (f : h5file) : list string := fold_right (fun kv => str_insert (fst (fst kv))) [] f.

(** * What a rank does with its file *)
Inductive op := Put (k : string * string) (v : dset) | PutIfAbsent (k : string * string) (v : dset).
Definition run_op (f : h5file) (o : op) : res h5file :=
  match o with
  | Put k v => h5_put f k v
  | PutIfAbsent k v => match h5_get f k with Some _ => Ok f | None => h5_put f k v end
  end.
Definition run_ops (ops : list op) (f : h5file) : res h5file := foldM run_op ops f.

(** pairing_vertex.py:88, four_point.py:307, optics.py:232: [f'/pv_irrq{iq:03d}wn{iw:04d}/'], [name + f'irrq..wn..'].
    The slashes are path separators. *)
Definition group_name (prefix : string) (iq iw : Z) : string :=
  (prefix ++ ("irrq" ++ (fmt0 3 iq ++ ("wn" ++ fmt0 4 iw))))%string.

(** pairing_vertex.py:63-73, 84: [omega[i,j] = v_i - v_j] for the fermionic indices v = -niv_pp .. niv_pp-1 and
    [condition = omega == iw]. *)
Definition get_omega_condition (niv_pp : Z) : list (list Z) :=
  let ivn := arange (- niv_pp) niv_pp in map (fun vi => map (fun vip => vi - vip) ivn) ivn.
Definition condition (niv_pp iw : Z) : list (list bool) := map (map (fun w => w =? iw)) (get_omega_condition niv_pp).

(** pairing_vertex.py:36-44 [get_pp_slice_4pt]. *)
Definition get_pp_slice_4pt (mat : list (list A)) (cond : list (list bool)) (niv_pp : Z) : res (list A) :=
  let mat := map (@flip A) mat in
  let mat_cut := cut_v_2 mat niv_pp in
  rmap (map opp) (mask_take cond mat_cut).

(** optics.py:275-284 [get_vmw_v_slice]; [niv_from_mat] reads the last axis; [np.diag] of a square window; a window
    of the wrong size cannot be stored. *)
Definition np_diag {B} (m : list (list B)) : list B :=
  flat_map (fun ir => match zget (snd ir) (fst ir) with Some x => [x] | None => [] end) (enumerate m).
Definition get_vmw_v_slice (mat : list (list A)) (wn : list Z) (niv_new : Z) : res (list (list A)) :=
  let niv_old := (match mat with r :: _ => zlen r | [] => 0 end) / 2 in
  mapM (fun iwn =>
          let nl := niv_old - niv_new in
          let nu := niv_old + niv_new in
          let d := np_diag (map (fun row => slice row (nl - iwn) (nu - iwn)) (slice mat nl nu)) in
          if zlen d =? 2 * niv_new then Ok d else Raise ValueError) wn.

(** The box and the switches of a run (config.py: BoxSizes.niw_core, niv_core, niv_pp, wn; OpticsConfig). *)
Record cfg := {
  niw_core : Z; niv_core : Z; niv_pp : Z;
  do_pairing : bool; do_vertex : bool; save_fq : bool;
  niw_vert : Z; niw_cond : Z; niv_vert : Z }.

(** A ladder-vertex array [q, w, v, vp] of one component (f1 or f2) of one channel. *)
Definition arr4 := list (list (list (list A))).

Definition concatM {B C} (f : B -> res (list C)) (l : list B) : res (list C) := rmap (@concat C) (mapM f l).

(** pairing_vertex.py:75-97 [write_pairing_vertex_components]: the dataset writes of one rank for one channel.
    Simplification: [f1], [f2] are the results of [ladder_vertex_from_chi_aux_components] for the rank's q points
    (that routine is modelled separately), and a slice that cannot be computed raises before the first
    write rather than between writes. *)
Definition pairing_ops (c : cfg) (channel : string) (tasks : list Z) (f1 f2 : arr4) : res (list op) :=
  concatM (fun iq => concatM (fun jw =>
    if Z.abs (snd jw) <? 2 * niv_pp c then
      let cond := condition (niv_pp c) (snd jw) in
      let group := group_name "pv_" (snd iq) (snd jw) in
      let! m1 := py_get2 f1 (fst iq) (fst jw) in
      let! m2 := py_get2 f2 (fst iq) (fst jw) in
      let! s1 := get_pp_slice_4pt m1 cond (niv_pp c) in
      let! s2 := get_pp_slice_4pt m2 cond (niv_pp c) in
      Ok [Put (group, "f1_" ++ channel)%string (DVec s1); Put (group, "f2_" ++ channel)%string (DVec s2);
          PutIfAbsent (group, "condition"%string) (DMask cond)]
    else Ok []) (enumerate (wn (niw_core c) 0 false))) (enumerate tasks).

(** four_point.py:297-310 [write_vertex_components] with name='fq_'. *)
Definition vertex_ops (c : cfg) (channel : string) (tasks : list Z) (f1 f2 : arr4) : res (list op) :=
  concatM (fun iq => concatM (fun jw =>
    let group := group_name "fq_" (snd iq) (snd jw) in
    let! m1 := py_get2 f1 (fst iq) (fst jw) in
    let! m2 := py_get2 f2 (fst iq) (fst jw) in
    Ok [Put (group, "f1_" ++ channel)%string (DMat m1); Put (group, "f2_" ++ channel)%string (DMat m2)])
    (enumerate (wn (niw_core c) 0 false))) (enumerate tasks).

(** optics.py:205-239 [write_optics_vertex_components] with name='f_'; wn_vert = mf.wn(niw_vert),
    wn_cond(pos=True) = 0..niw_cond (config.py:452-456). *)
Definition optics_ops (c : cfg) (channel : string) (tasks : list Z) (f1 f2 : arr4) : res (list op) :=
  concatM (fun iq => concatM (fun iw =>
    let ind_w := niw_core c + iw in
    let group := group_name "f_" (snd iq) iw in
    let! m1 := py_get2 f1 (fst iq) ind_w in
    let! m2 := py_get2 f2 (fst iq) ind_w in
    let! s1 := get_vmw_v_slice m1 (wn (niw_cond c) 0 true) (niv_vert c) in
    let! s2 := get_vmw_v_slice m2 (wn (niw_cond c) 0 true) (niv_vert c) in
    Ok [Put (group, "f1_" ++ channel)%string (DMat s1); Put (group, "f2_" ++ channel)%string (DMat s2)])
    (wn (niw_vert c) 0 false)) (enumerate tasks).

(** high_level_routines.py:96-114, called for the density and then for the magnetic channel (dga_main.py). *)
Definition channel_ops (c : cfg) (channel : string) (tasks : list Z) (f1 f2 : arr4) : res (list op) :=
  let! a := (if do_pairing c then pairing_ops c channel tasks f1 f2 else Ok []) in
  let! b := (if do_vertex c then optics_ops c channel tasks f1 f2 else Ok []) in
  let! d := (if save_fq c then vertex_ops c channel tasks f1 f2 else Ok []) in
  Ok (a ++ b ++ d).

(** The four component arrays of the whole run, [q, w, v, vp]; every rank holds the rows of its [my_slice]. *)
Record vdata := { f1_dens : arr4; f2_dens : arr4; f1_magn : arr4; f2_magn : arr4 }.
Definition rank_ops (c : cfg) (d : vdata) (nq mpi_size rank : Z) : res (list op) :=
  let! tasks := my_tasks nq mpi_size rank in
  let! sl := my_slice nq mpi_size rank in
  let loc (a : arr4) := slice a (fst sl) (snd sl) in
  let! a := channel_ops c "dens" tasks (loc (f1_dens d)) (loc (f2_dens d)) in
  let! b := channel_ops c "magn" tasks (loc (f1_magn d)) (loc (f2_magn d)) in
  Ok (a ++ b).

(** * The file system and the interleaving of the ranks *)
(** mpi_aux.py:32 [fname = output_path + name + f'Rank{rank:05d}' + '.hdf5']. *)
Definition rank_fname (path name : string) (rank : Z) : string := (path ++ (name ++ ("Rank" ++ (fmt0 5 rank ++ ".hdf5"))))%string.
Definition fsys := string -> option h5file.
Definition fs_set (fs : fsys) (n : string) (f : h5file) : fsys := fun m => if String.eqb m n then Some f else fs m.

(** A state of the running job: the file system and, per rank, the writes still to be done.  One step: some rank
    performs its next write on the file it opened (mpi_aux.py:24-36, 47-50, 91-95). *)
Record job := { j_fs : fsys; j_todo : Z -> list op }.
Definition job_step (path name : string) (rank : Z) (s : job) : res job :=
  match j_todo s rank with
  | [] => Ok s
  | o :: rest =>
      match j_fs s (rank_fname path name rank) with
      | None => Raise FileNotFoundError
      | Some f => let! f' := run_op f o in
                  Ok {| j_fs := fs_set (j_fs s) (rank_fname path name rank) f';
                        j_todo := fun r => if r =? rank then rest else j_todo s r |}
      end
  end.
(** [sched]: which rank moves at each step. *)
Definition job_run (path name : string) (sched : list Z) (s : job) : res job := foldM (fun s r => job_step path name r s) sched s.

(** * Loaders *)
Definition lookup (f : h5file) (g d : string) : res dset := match h5_get f (g, d) with Some v => Ok v | None => Raise KeyError end.
(** Datasets of an unexpected kind do not occur in these files; reading one raises TypeError. *)
Definition as_vec (d : dset) : res (list A) := match d with DVec v => Ok v | _ => Raise TypeError end.
Definition as_mask (d : dset) : res (list (list bool)) := match d with DMask m => Ok m | _ => Raise TypeError end.
Definition as_mat (d : dset) : res (list (list A)) := match d with DMat m => Ok m | _ => Raise TypeError end.

(** [for ir in range(mpi_size): ... for key1 in keys: body], with keys the group names that start with [prefix]. *)
Definition for_keys {S} (body : h5file -> S -> string -> res S) (prefix : string) (fs : fsys) (path name : string) (mpi_size : Z) (s : S) : res S :=
  foldM (fun s ir =>
           match fs (rank_fname path name ir) with
           | None => Raise FileNotFoundError
           | Some f => foldM (body f) (filter (String.prefix prefix) (h5_keys f)) s
           end) (range mpi_size) s.

Definition zeros3 (a b c : Z) : list (list (list A)) := repeat (repeat (repeat zero (Z.to_nat c)) (Z.to_nat b)) (Z.to_nat a).

(** pairing_vertex.py:100-132 [load_pairing_vertex_from_rank_files], for the accumulator read from dataset [ds]
    (f1_magn, f2_magn, f1_dens or f2_dens).  The four accumulators do not interact; they are modelled one
    at a time. *)
Definition pairing_body (ds : string) (f : h5file) (acc : list (list (list A))) (key1 : string) : res (list (list (list A))) :=
  let! irrq := py_get (findall_int key1) 0 in
  let! dm := lookup f key1 "condition" in
  let! cond := as_mask dm in
  let! dv := lookup f key1 ds in
  let! v := as_vec dv in
  let! m := py_get acc irrq in
  let! m := mask_add add cond m (map half v) in
  let! m := mask_add add (transpose (match cond with r :: _ => zlen r | [] => 0 end) cond) m (map (fun x => half (conj x)) v) in
  py_set acc irrq m.
Definition load_pairing (ds : string) (fs : fsys) (path name : string) (mpi_size nq niv_pp : Z) : res (list (list (list A))) :=
  for_keys (pairing_body ds) "pv_" fs path name mpi_size (zeros3 nq (2 * niv_pp) (2 * niv_pp)).

(** four_point.py:313-335 [load_vertex_from_rank_files] (prefix 'fq_', rows = cols = 2*niv) and optics.py:242-272
    [load_optics_vertex_from_rank_files] (prefix 'f_', rows = niw_cond+1, cols = 2*niv_vert), for one of the four
    accumulators.  Storing a matrix of another shape raises ValueError (broadcasting is not modelled). *)
Definition shape_is (m : list (list A)) (rows cols : Z) : bool := (zlen m =? rows) && forallb (fun r => zlen r =? cols) m.
Definition vertex_body (rows cols niw : Z) (ds : string) (f : h5file) (acc : arr4) (key1 : string) : res arr4 :=
  let! irrq := py_get (findall_int key1) 0 in
  let! w := py_get (findall_int key1) 1 in
  let iwn := w + niw in
  let! dm := lookup f key1 ds in
  let! m := as_mat dm in
  let! row := py_get acc irrq in
  if shape_is m rows cols then let! row' := py_set row iwn m in py_set acc irrq row' else Raise ValueError.
Definition load_vertex_gen (prefix : string) (rows cols : Z) (ds : string) (fs : fsys) (path name : string) (mpi_size nq niw : Z) : res arr4 :=
  for_keys (vertex_body rows cols niw ds) prefix fs path name mpi_size
           (repeat (repeat (repeat (repeat zero (Z.to_nat cols)) (Z.to_nat rows)) (Z.to_nat (2 * niw + 1))) (Z.to_nat nq)).
Definition load_vertex (ds : string) (fs : fsys) (path name : string) (mpi_size nq niw niv : Z) : res arr4 :=
  load_vertex_gen "fq_" (2 * niv) (2 * niv) ds fs path name mpi_size nq niw.
Definition load_optics (ds : string) (fs : fsys) (path name : string) (mpi_size nq niw_vert niw_cond niv_vert : Z) : res arr4 :=
  load_vertex_gen "f_" (niw_cond + 1) (2 * niv_vert) ds fs path name mpi_size nq niw_vert.

(** pairing_vertex.py:47-60 [reshape_chi] for one k point (the code loops over v, vp and copies all k at once). *)
Definition reshape_chi (chi : list A) (niv_pp : Z) : res (list (list A)) :=
  let iv := arange (- niv_pp) niv_pp in
  let niw := zlen chi / 2 in
  mapM (fun ivn => mapM (fun ivnp => py_get chi (ivn - ivnp + niw)) iv) iv.
End RankFiles.

Arguments DVec {A} v.
Arguments DMask {A} m.
Arguments DMat {A} m.
