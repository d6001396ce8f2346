(** Property C91: the H(k) text file. *)
From Coq Require Import String Ascii Reals.
From Verif Require Import Base.PyBase Base.PyFacts Model.HrFile Model.HkFile Model.Wannier Spec.HkFileSpec Proofs.HkFileP Proofs.HkSaveP.
Set Implicit Arguments.
Local Open Scope string_scope.
Local Open Scope list_scope.
Local Open Scope Z_scope.

Section HkFile.
Variable V : Type.
Variables (str_f fmt_12f : V -> string) (num : string -> option V) (rk rh : V -> V) (d : V).
Hypothesis Hfmt : number_format str_f fmt_12f num rk rh.
Variables (nk : list Z) (n : nat) (hk : list (list (list (V * V)))) (kmesh : list (list V)).
Hypothesis Hnk : 0 <= prodZ nk.
Hypothesis Hhk : is_hk (Z.to_nat (prodZ nk)) n hk.
Hypothesis Hkm : is_kmesh (Z.to_nat (prodZ nk)) kmesh.

(** Writing succeeds; reading the file back gives the momenta as printed and all matrix elements to twelve decimals,
    each at the position of its momentum and orbitals; with spin_sym=False and an even number 2 nb of orbitals, orbital
    s*nb+b is found at band b and spin s.  For an odd number spin_sym=False is refused. *)
Theorem C91_round_trip : exists file, write_hk_wannier90 str_f fmt_12f (Z.of_nat n) hk kmesh nk = Ok file /\
  forall np_int sym,
  let ns := if sym : bool then 1%nat else 2%nat in let nb := Nat.div n ns in
  (Nat.modulo n ns <> 0%nat -> read_hk_w2k d num np_int sym file = Raise RuntimeError) /\
  (Nat.modulo n ns = 0%nat -> exists r, read_hk_w2k d num np_int sym file = Ok r
   /\ hk_shape r = squeeze [prodZ nk; Z.of_nat nb; Z.of_nat ns; Z.of_nat nb; Z.of_nat ns]
   /\ zlen (hk_data r) = prodZ nk * Z.of_nat (n * n)
   /\ hk_kpoints r = map (map rk) kmesh
   /\ forall k b1 s1 b2 s2, (k < Z.to_nat (prodZ nk))%nat -> (b1 < nb)%nat -> (s1 < ns)%nat -> (b2 < nb)%nat -> (s2 < ns)%nat ->
      nth_error (hk_data r) (pos nb ns k b1 s1 b2 s2) = hk_entry rh hk k (s1 * nb + b1) (s2 * nb + b2)
      /\ hk_entry rh hk k (s1 * nb + b1) (s2 * nb + b2) <> None).
Proof. exact (@round_trip _ _ _ _ _ _ d Hfmt _ _ _ _ Hnk Hhk Hkm). Qed.

(** The header: a comment, the old header (number of atoms, d and p orbitals) and a number [m] of momenta other than the
    one in the file.  With fewer momenta in the file than announced reading is refused; with more, the first [m] are read. *)
Theorem C91_header : exists header data, write_hk_wannier90 str_f fmt_12f (Z.of_nat n) hk kmesh nk = Ok (header :: data) /\
  forall np_int m ints comment,
  (exists x, ints = [m; Z.of_nat n; x]) \/ (exists a b c rest, ints = m :: a :: b :: c :: rest /\ a * (b + c) = Z.of_nat n) ->
  let file := header_line ints comment :: data in
  (prodZ nk < m -> read_hk_w2k d num np_int true file = Raise ValueError) /\
  (0 <= m <= prodZ nk -> exists r, read_hk_w2k d num np_int true file = Ok r
   /\ hk_shape r = squeeze [m; Z.of_nat n; 1; Z.of_nat n; 1]
   /\ hk_kpoints r = map (fun a => map rk (firstn (Z.to_nat m) a)) kmesh
   /\ forall k a b, (k < Z.to_nat m)%nat -> (a < n)%nat -> (b < n)%nat -> nth_error (hk_data r) ((k * n + a) * n + b) = hk_entry rh hk k a b).
Proof. exact (@header_variants _ _ _ _ _ _ d Hfmt _ _ _ _ Hnk Hhk Hkm). Qed.

(** Finding: the array has the documented three axes (k, band, band) exactly if there is more than one momentum and more
    than one band; np.squeeze removes the others. *)
Theorem C91_squeeze_finding file np_int r : write_hk_wannier90 str_f fmt_12f (Z.of_nat n) hk kmesh nk = Ok file ->
  read_hk_w2k d num np_int true file = Ok r ->
  (hk_shape r = [prodZ nk; Z.of_nat n; Z.of_nat n] <-> prodZ nk <> 1 /\ n <> 1%nat)
  /\ (n = 1%nat -> prodZ nk <> 1 -> hk_shape r = [prodZ nk]) /\ (n = 1%nat -> prodZ nk = 1 -> hk_shape r = []).
Proof. exact (@squeeze_shape _ _ _ _ _ _ d Hfmt _ _ _ _ Hnk Hhk Hkm file np_int r). Qed.
End HkFile.
Print Assumptions C91_round_trip.
Print Assumptions C91_header.
Print Assumptions C91_squeeze_finding.

(** A mesh with more points than the Hamiltonian has momenta is refused. *)
Theorem C91_short V (str_f fmt_12f : V -> string) n hk kmesh nk : zlen hk < prodZ nk ->
  write_hk_wannier90 str_f fmt_12f n hk kmesh nk = Raise IndexError.
Proof. exact (@write_short V str_f fmt_12f nk n kmesh hk). Qed.
Print Assumptions C91_short.

(** A token that is no number ends the reading: the file is read as if it ended there, whatever follows.  So a file of real numbers cut
    or damaged within a row is refused (the row is incomplete), unless exactly whole rows are left. *)
Theorem C91_unreadable V d (num : string -> option V) m n x comment (lines lines' : list (list string)) good bad after np_int sym :
  (forall l t, In l (lines ++ lines') -> In t l -> plain t) ->
  concat lines = good ++ bad :: after -> num bad = None -> concat lines' = good ->
  let file (ls : list (list string)) := header_line [m; n; x] comment :: map (fun l => (join " " l ++ nl)%string) ls in
  read_hk_w2k d num np_int sym (file lines) = read_hk_w2k d num np_int sym (file lines').
Proof.
  intros Hp E1 Hb E2 file. assert (W : forall ls, (forall l, In l ls -> In l (lines ++ lines')) -> split_py (String.concat "" (map (fun l => (join " " l ++ nl)%string) ls)) = concat ls).
  { intros ls H. apply split_lines. apply Forall_forall. intros l Hl. apply Forall_forall. intros t Ht. apply plain_word. eapply Hp; [apply H; eassumption|assumption]. }
  unfold read_hk_w2k, file. rewrite !read_header3. cbn [bind]. rewrite !W; [|intros; apply in_or_app; tauto|intros; apply in_or_app; tauto].
  assert (S : scan num (concat lines) = scan num (concat lines')).
  { rewrite E1, E2. clear - Hb. induction good as [|t l IH]; cbn [scan app]; [now rewrite Hb|]. destruct (num t); [now rewrite IH|reflexivity]. }
  now rewrite S.
Qed.
Print Assumptions C91_unreadable.
(** ... a two-row file whose last token is damaged is refused although the undamaged one is read *)
Example damaged : exists e r, read_hk_w2k (false, 0%N) num12 true true (map (fun l => (l ++ nl)%string) ["1 1 1"; "0.000000000000 0.000000000000 0.000000000000"; "1.000000000000 O.000000000000"]) = Raise e
  /\ read_hk_w2k (false, 0%N) num12 true true (map (fun l => (l ++ nl)%string) ["1 1 1"; "0.000000000000 0.000000000000 0.000000000000"; "1.000000000000 0.000000000000"]) = Ok r.
Proof. do 2 eexists. split; vm_compute; reflexivity. Qed.

(** Finding: a version-2 header cannot be read with a numpy that has no np.int. *)
Theorem C91_version_finding V d (num : string -> option V) sym m natoms comment rest :
  read_hk_w2k d num false sym (("VERSION 2" ++ nl)%string :: header_line [m; natoms] comment :: rest) = Raise AttributeError.
Proof. exact (version_np_int d num sym m natoms comment rest). Qed.
Print Assumptions C91_version_finding.

(** The file written by save_hk holds, at the position of mesh point (ix,iy,iz) in C order, the Bloch Hamiltonian of that
    point and its coordinates. *)
Theorem C91_save_hk (str_f fmt_12f : R -> string) num rk rh w nkx nky nkz :
  number_format str_f fmt_12f num rk rh ->
  exists file, save_hk str_f fmt_12f w nkx nky nkz = Ok file /\ forall np_int, exists r,
  read_hk_w2k 0%R num np_int true file = Ok r /\ forall ix iy iz, (ix < nkx)%nat -> (iy < nky)%nat -> (iz < nkz)%nat ->
  let k := ((ix * nky + iy) * nkz + iz)%nat in
  (forall c, (c < 3)%nat -> nth_error (nth c (hk_kpoints r) []) k = Some (rk (kpoint nkx nky nkz ix iy iz c))) /\
  forall a b, (a < n_orbs w)%nat -> (b < n_orbs w)%nat ->
  nth_error (hk_data r) ((k * n_orbs w + a) * n_orbs w + b) =
    Some (rh (fst (convham w (kpoint nkx nky nkz ix iy iz) a b)), rh (snd (convham w (kpoint nkx nky nkz ix iy iz) a b))).
Proof. exact (@save_hk_file str_f fmt_12f num rk rh w nkx nky nkz). Qed.
Print Assumptions C91_save_hk.

(** Non-vacuity: fixed-point numbers with twelve decimals (sign and modulus) are a number format; two bands and a 2x1x1
    mesh, written, read with and without spin. *)
Example fixed_format : number_format fmt12 fmt12 num12 (fun v => v) (fun v => v).
Proof. exact format12. Qed.
Example fixed_file :
  let one : fixed := (false, 1000000000000%N) in let o : fixed := (false, 0%N) in let x : fixed := (true, 25%N) in
  let hk := [[[(one, o); (x, one)]; [(x, x); (o, o)]]; [[(x, o); (o, o)]; [(o, o); (one, x)]]] in
  write_hk_wannier90 fmt12 fmt12 2 hk [[o; one]; [o; o]; [o; o]] [2; 1; 1]
    = Ok (map (fun l => (l ++ nl)%string) ["2 2 2"; "0.000000000000 0.000000000000 0.000000000000";
        "1.000000000000 0.000000000000 -0.000000000025 1.000000000000"; "-0.000000000025 -0.000000000025 0.000000000000 0.000000000000";
        "1.000000000000 0.000000000000 0.000000000000"; "-0.000000000025 0.000000000000 0.000000000000 0.000000000000";
        "0.000000000000 0.000000000000 1.000000000000 -0.000000000025"])
  /\ is_hk 2 2 hk.
Proof. split; [vm_compute; reflexivity|]. repeat constructor. Qed.
(** ... and for C91_save_hk: real numbers cut to twelve decimals. *)
Example real_format : exists str_f fmt_12f num rk rh, @number_format R str_f fmt_12f num rk rh /\ rk 0%R = 0%R /\ rk 1%R = 1%R /\ rk (/ 2)%R = (/ 2)%R.
Proof. exact real_format12. Qed.
