(** C91: from the record lemmas to the statements about the API. *)
From Coq Require Import String Ascii Arith Reals.
From Verif Require Import Base.PyBase Base.PyFacts Model.HrFile Model.HkFile Model.Wannier Spec.HkFileSpec Proofs.StrP Proofs.HrFileP Proofs.HkFileP.
Set Implicit Arguments.
Local Open Scope string_scope.
Local Open Scope list_scope.
Local Open Scope Z_scope.

Lemma plain_word s : plain s <-> word s.
Proof.
  unfold plain, word. split; intros [H1 H2]; split; try assumption.
  - clear H1. induction s as [|c s IH]; [reflexivity|]. cbn [no_ws]. rewrite IH by (intros i c' Hc; exact (H2 (S i) c' Hc)).
    destruct (H2 0%nat c eq_refl) as [A B]. unfold is_ws. apply Ascii.eqb_neq in A, B. now rewrite A, B.
  - clear H2. induction s as [|c s IH]; intros i c' Hc; [discriminate|]. cbn [no_ws] in H1. apply andb_prop in H1 as [A B]. destruct i as [|i].
    + injection Hc as <-. unfold is_ws in A. apply negb_true_iff, orb_false_iff in A as [A1 A2]. apply Ascii.eqb_neq in A1, A2. now split.
    + exact (IH B i c' Hc).
Qed.
Lemma nth_nth A (l : list A) k x : nth_error l k = Some x -> forall e, nth k l e = x.
Proof. intros H e. now apply nth_error_nth. Qed.

Lemma nth_error_ext A (l l' : list A) : (forall k, nth_error l k = nth_error l' k) -> l = l'.
Proof.
  revert l'; induction l as [|a l IH]; intros [|b l'] H; [reflexivity|discriminate (H 0%nat)|discriminate (H 0%nat)|].
  pose proof (H 0%nat) as H0. injection H0 as ->. f_equal. apply IH. intros k. exact (H (S k)).
Qed.

Lemma three V n (kmesh : list (list V)) : is_kmesh n kmesh -> exists ax ay az, kmesh = [ax; ay; az] /\ length ax = n /\ length ay = n /\ length az = n.
Proof.
  intros [L3 HK]. destruct kmesh as [|ax [|ay [|az [|]]]]; try discriminate. inversion_clear HK as [|? ? Hx HK']. inversion_clear HK' as [|? ? Hy HK]. inversion_clear HK as [|? ? Hz _].
  exists ax, ay, az. auto.
Qed.
Section HkFile.
Variable V : Type.
Variables (str_f fmt_12f : V -> string) (num : string -> option V) (rk rh : V -> V) (d : V).
Hypothesis Hfmt : number_format str_f fmt_12f num rk rh.
Variables (nk : list Z) (n : nat) (hk : list (list (list (V * V)))) (kmesh : list (list V)).
Hypothesis Hnk : 0 <= prodZ nk.
Hypothesis Hhk : is_hk (Z.to_nat (prodZ nk)) n hk.
Hypothesis Hkm : is_kmesh (Z.to_nat (prodZ nk)) kmesh.
Let H1 : forall v, word (str_f v) /\ num (str_f v) = Some (rk v).
Proof. intros v. destruct (Hfmt v) as [A [_ [B _]]]. split; [now apply plain_word|assumption]. Qed.
Let H2 : forall v, word (fmt_12f v) /\ num (fmt_12f v) = Some (rh v).
Proof. intros v. destruct (Hfmt v) as [_ [A [_ B]]]. split; [now apply plain_word|assumption]. Qed.
Let recs := mk_recs d kmesh hk.
Let data := concat (map (rec_lines str_f fmt_12f) recs).
Lemma hk_len : zlen hk = prodZ nk.
Proof. unfold zlen. rewrite (proj1 Hhk). lia. Qed.
Lemma recs_len : zlen recs = prodZ nk.
Proof. unfold recs, mk_recs, zlen. rewrite map_length, seq_length. apply hk_len. Qed.
Lemma recs_nth k : (k < Z.to_nat (prodZ nk))%nat -> exists q, nth_error recs k = Some q /\ nth_error hk k = Some (snd q)
  /\ kx q = nth k (nth 0 kmesh []) d /\ ky q = nth k (nth 1 kmesh []) d /\ kz q = nth k (nth 2 kmesh []) d.
Proof.
  intros Hk. unfold recs, mk_recs. rewrite nth_error_map. assert (E : nth_error (seq 0 (length hk)) k = Some k).
  { rewrite (nth_error_nth' _ 0%nat) by (rewrite seq_length, (proj1 Hhk); assumption). f_equal. rewrite seq_nth; [reflexivity|rewrite (proj1 Hhk); assumption]. }
  rewrite E. cbn [option_map]. eexists. split; [reflexivity|]. cbn [snd kx ky kz fst]. split; [|repeat split; reflexivity].
  apply nth_error_nth'. rewrite (proj1 Hhk). assumption.
Qed.
Lemma recs_square : Forall (square n) recs.
Proof.
  unfold recs, mk_recs. apply Forall_map, Forall_forall. intros i Hi. apply in_seq in Hi. unfold square. cbn [snd].
  apply (proj1 (Forall_forall _ _) (proj2 Hhk)). apply nth_In. lia.
Qed.
Lemma written : write_hk_wannier90 str_f fmt_12f (Z.of_nat n) hk kmesh nk = Ok (header_line [prodZ nk; Z.of_nat n; Z.of_nat n] None :: data).
Proof.
  refine (@write_records V str_f fmt_12f d nk (Z.of_nat n) kmesh hk _ _ _); [symmetry; apply hk_len|apply Hkm|]. eapply Forall_impl; [|exact (proj2 Hkm)]. intros a Ha. now rewrite Ha, (proj1 Hhk).
Qed.
Lemma rent_entry q k i j : nth_error recs k = Some q -> (k < Z.to_nat (prodZ nk))%nat -> (i < n)%nat -> (j < n)%nat ->
  Some (rent d rh n q i j) = hk_entry rh hk k i j.
Proof.
  intros Hq Hk Hi Hj. destruct (recs_nth Hk) as [q' [Hq' [Hs _]]]. rewrite Hq in Hq'. injection Hq' as <-.
  pose proof (proj1 (Forall_forall _ _) recs_square q (nth_error_In _ _ Hq)) as [S1 S2].
  unfold hk_entry, rent. rewrite Hs. rewrite (nth_error_nth' (snd q) []) by lia.
  assert (Hr : length (nth i (snd q) []) = n) by (apply (proj1 (Forall_forall _ _) S2); apply nth_In; lia).
  rewrite (nth_error_nth' (nth i (snd q) []) (d, d)) by lia. reflexivity.
Qed.
Lemma kpts_eq m : 0 <= m <= prodZ nk ->
  map (fun c => map (fun q => rk (c q)) (firstn (Z.to_nat m) recs)) [@kx V; @ky V; @kz V] = map (fun a => map rk (firstn (Z.to_nat m) a)) kmesh.
Proof.
  intros Hm. destruct (three Hkm) as [ax [ay [az [EK [Hx [Hy Hz]]]]]].
  assert (G : forall (c : krec V -> V) a, length a = Z.to_nat (prodZ nk) ->
    (forall k q, (k < Z.to_nat (prodZ nk))%nat -> nth_error recs k = Some q -> c q = nth k a d) ->
    map (fun q => rk (c q)) (firstn (Z.to_nat m) recs) = map rk (firstn (Z.to_nat m) a)).
  { intros c a La Hc. rewrite <- (map_map c rk). f_equal. assert (E : map c recs = a).
    { apply nth_error_ext. intros k. rewrite nth_error_map. destruct (Nat.lt_ge_cases k (Z.to_nat (prodZ nk))) as [Hk|Hk].
      - destruct (recs_nth Hk) as [q [Hq _]]. rewrite Hq. cbn [option_map]. rewrite (Hc k q Hk Hq). symmetry. apply nth_error_nth'. lia.
      - pose proof recs_len as RL. unfold zlen in RL. rewrite !(proj2 (nth_error_None _ _)) by lia. reflexivity. }
    rewrite <- firstn_map. now rewrite E. }
  transitivity (map (fun a => map rk (firstn (Z.to_nat m) a)) [ax; ay; az]); [|now rewrite <- EK].
  cbn [map]. f_equal; [|f_equal; [|f_equal]]; (apply G; [assumption|]); intros k q Hk Hq;
    destruct (recs_nth Hk) as [q' [Hq' [_ [X [Y Z']]]]]; rewrite Hq in Hq'; injection Hq' as <-; rewrite EK in X, Y, Z'; assumption.
Qed.
Lemma read_as np_int ints comment m sym : read_header np_int (header_line ints comment :: data) = Ok (m, Z.of_nat n, data) ->
  (sym = false -> Z.of_nat n mod 2 = 0) -> 0 <= m <= prodZ nk ->
  let ns := Z.to_nat (spins sym) in let nb := if sym then n else Nat.div n 2 in
  exists r, read_hk_w2k d num np_int sym (header_line ints comment :: data) = Ok r
   /\ hk_shape r = squeeze [m; Z.of_nat nb; Z.of_nat ns; Z.of_nat nb; Z.of_nat ns]
   /\ length (hk_data r) = (Z.to_nat m * nb * ns * nb * ns)%nat
   /\ hk_kpoints r = map (fun a => map rk (firstn (Z.to_nat m) a)) kmesh
   /\ forall k b1 s1 b2 s2, (k < Z.to_nat m)%nat -> (b1 < nb)%nat -> (s1 < ns)%nat -> (b2 < nb)%nat -> (s2 < ns)%nat ->
      nth_error (hk_data r) (pos nb ns k b1 s1 b2 s2) = hk_entry rh hk k (s1 * nb + b1) (s2 * nb + b2)
      /\ hk_entry rh hk k (s1 * nb + b1) (s2 * nb + b2) <> None.
Proof.
  intros Hh Hev Hm ns nb. assert (Hm' : 0 <= m <= zlen recs) by (rewrite recs_len; lia).
  destruct (@read_ok V str_f fmt_12f d num rk rh H1 H2 np_int (header_line ints comment :: data) m n recs Hh recs_square sym Hev Hm') as [r [R1 [R2 [R3 [R4 R5]]]]].
  exists r. split; [exact R1|]. split; [exact R2|]. split; [exact R3|]. split; [rewrite R4; now apply kpts_eq|].
  intros k b1 s1 b2 s2 Hk Hb1 Hs1 Hb2 Hs2. assert (Hk' : (k < Z.to_nat (prodZ nk))%nat) by lia.
  destruct (recs_nth Hk') as [q [Hq _]]. pose proof (R5 k b1 s1 b2 s2 q Hk Hb1 Hs1 Hb2 Hs2 Hq) as E.
  assert (Enn : (ns * nb = n)%nat).
  { unfold nb, ns. destruct sym; cbn [spins]; [cbn; lia|]. change (Z.to_nat 2) with 2%nat. specialize (Hev eq_refl).
    pose proof (Z.div_mod (Z.of_nat n) 2 ltac:(lia)) as D1. pose proof (Nat2Z.inj_div n 2) as D2. cbn [Z.of_nat Pos.of_succ_nat Pos.succ] in D2. lia. }
  assert (X1 : (s1 * nb + b1 < n)%nat) by (rewrite <- Enn; apply lt_split; assumption).
  assert (X2 : (s2 * nb + b2 < n)%nat) by (rewrite <- Enn; apply lt_split; assumption).
  rewrite <- (rent_entry Hq Hk' X1 X2). split; [exact E|discriminate].
Qed.

Lemma round_trip : exists file, write_hk_wannier90 str_f fmt_12f (Z.of_nat n) hk kmesh nk = Ok file /\
  forall np_int sym,
  let ns := if sym : bool then 1%nat else 2%nat in let nb := Nat.div n ns in
  (Nat.modulo n ns <> 0%nat -> read_hk_w2k d num np_int sym file = Raise RuntimeError) /\
  (Nat.modulo n ns = 0%nat -> exists r, read_hk_w2k d num np_int sym file = Ok r
   /\ hk_shape r = squeeze [prodZ nk; Z.of_nat nb; Z.of_nat ns; Z.of_nat nb; Z.of_nat ns]
   /\ zlen (hk_data r) = prodZ nk * Z.of_nat (n * n)
   /\ hk_kpoints r = map (map rk) kmesh
   /\ forall k b1 s1 b2 s2, (k < Z.to_nat (prodZ nk))%nat -> (b1 < nb)%nat -> (s1 < ns)%nat -> (b2 < nb)%nat -> (s2 < ns)%nat ->
      nth_error (hk_data r) (pos nb ns k b1 s1 b2 s2) = hk_entry rh hk k (s1 * nb + b1) (s2 * nb + b2)
      /\ hk_entry rh hk k (s1 * nb + b1) (s2 * nb + b2) <> None).
Proof.
  eexists. split; [apply written|]. intros np_int sym ns nb.
  assert (Hh : read_header np_int (header_line [prodZ nk; Z.of_nat n; Z.of_nat n] None :: data) = Ok (prodZ nk, Z.of_nat n, data)) by apply read_header3.
  split.
  - intros Hod. destruct sym; [exfalso; apply Hod; unfold ns; apply Nat.mod_1_r|].
    apply (@read_odd V str_f fmt_12f d num np_int _ (prodZ nk) n recs Hh). unfold ns in Hod. change 2 with (Z.of_nat 2). rewrite <- Nat2Z.inj_mod. lia.
  - intros Hmod. assert (Hev : sym = false -> Z.of_nat n mod 2 = 0).
    { intros ->. unfold ns in Hmod. change 2 with (Z.of_nat 2). rewrite <- Nat2Z.inj_mod. lia. }
    assert (Hpm : 0 <= prodZ nk <= prodZ nk) by lia. pose proof (@read_as np_int _ _ _ sym Hh Hev Hpm) as R. cbn zeta in R.
    assert (Ens : Z.to_nat (spins sym) = ns) by (unfold ns; destruct sym; reflexivity).
    assert (Enb : (if sym then n else Nat.div n 2) = nb) by (unfold nb, ns; destruct sym; [symmetry; apply Nat.div_1_r|reflexivity]).
    rewrite Ens, Enb in R. destruct R as [r [R1 [R2 [R3 [R4 R5]]]]]. exists r. split; [exact R1|]. split; [exact R2|].
    assert (Enn : n = (nb * ns)%nat).
    { unfold nb. pose proof (Nat.div_mod n ns ltac:(unfold ns; destruct sym; lia)) as D. rewrite Hmod in D. lia. }
    split; [|split].
    + unfold zlen. rewrite R3, Enn. clear - Hnk. clearbody nb ns. nia.
    + rewrite R4. destruct Hkm as [_ HK]. apply map_ext_in. intros a Ha. f_equal. rewrite <- ((proj1 (Forall_forall _ _) HK) a Ha). apply firstn_all.
    + exact R5.
Qed.
Lemma header_variants : exists header data, write_hk_wannier90 str_f fmt_12f (Z.of_nat n) hk kmesh nk = Ok (header :: data) /\
  forall np_int m ints comment,
  (exists x, ints = [m; Z.of_nat n; x]) \/ (exists a b c rest, ints = m :: a :: b :: c :: rest /\ a * (b + c) = Z.of_nat n) ->
  let file := header_line ints comment :: data in
  (prodZ nk < m -> read_hk_w2k d num np_int true file = Raise ValueError) /\
  (0 <= m <= prodZ nk -> exists r, read_hk_w2k d num np_int true file = Ok r
   /\ hk_shape r = squeeze [m; Z.of_nat n; 1; Z.of_nat n; 1]
   /\ hk_kpoints r = map (fun a => map rk (firstn (Z.to_nat m) a)) kmesh
   /\ forall k a b, (k < Z.to_nat m)%nat -> (a < n)%nat -> (b < n)%nat -> nth_error (hk_data r) ((k * n + a) * n + b) = hk_entry rh hk k a b).
Proof.
  eexists. eexists. split; [apply written|]. intros np_int m ints comment Hi file.
  assert (Hh : read_header np_int (header_line ints comment :: data) = Ok (m, Z.of_nat n, data)).
  { destruct Hi as [[x ->]|[a [b [c [rest [-> <-]]]]]]; [apply read_header3|apply read_header1]. }
  split.
  - intros Hm. apply (@read_few V str_f fmt_12f d num rk rh H1 H2 np_int file m n recs Hh recs_square true); [discriminate|]. now rewrite recs_len.
  - intros Hm. assert (Hev : true = false -> Z.of_nat n mod 2 = 0) by discriminate. pose proof (@read_as np_int _ _ _ true Hh Hev Hm) as R. cbn zeta in R. cbn [spins] in R. change (Z.to_nat 1) with 1%nat in R.
    destruct R as [r [R1 [R2 [R3 [R4 R5]]]]]. exists r. split; [exact R1|]. split; [exact R2|]. split; [exact R4|].
    intros k a b Hk Ha Hb. pose proof (R5 k a 0%nat b 0%nat Hk Ha ltac:(lia) Hb ltac:(lia)) as [R _].
    rewrite !Nat.mul_0_l, !Nat.add_0_l in R. rewrite <- R. f_equal. unfold pos. rewrite !Nat.mul_1_r, !Nat.add_0_r. reflexivity.
Qed.
Lemma squeeze_shape file np_int r : write_hk_wannier90 str_f fmt_12f (Z.of_nat n) hk kmesh nk = Ok file ->
  read_hk_w2k d num np_int true file = Ok r ->
  (hk_shape r = [prodZ nk; Z.of_nat n; Z.of_nat n] <-> prodZ nk <> 1 /\ n <> 1%nat)
  /\ (n = 1%nat -> prodZ nk <> 1 -> hk_shape r = [prodZ nk]) /\ (n = 1%nat -> prodZ nk = 1 -> hk_shape r = []).
Proof.
  intros Hw Hr. rewrite written in Hw. injection Hw as <-.
  assert (Hh : read_header np_int (header_line [prodZ nk; Z.of_nat n; Z.of_nat n] None :: data) = Ok (prodZ nk, Z.of_nat n, data)) by apply read_header3.
  assert (Hev : true = false -> Z.of_nat n mod 2 = 0) by discriminate. assert (Hpm : 0 <= prodZ nk <= prodZ nk) by lia.
  pose proof (@read_as np_int _ _ _ true Hh Hev Hpm) as R. cbn zeta in R. cbn [spins] in R. change (Z.to_nat 1) with 1%nat in R. destruct R as [r' [R1 [R2 _]]].
  rewrite Hr in R1. injection R1 as <-. rewrite R2. clear. unfold squeeze. cbn [filter]. change (Z.of_nat 1 =? 1) with true. cbn [negb].
  destruct (Z.eqb_spec (prodZ nk) 1) as [E1|E1]; destruct (Z.eqb_spec (Z.of_nat n) 1) as [E2|E2]; cbn [negb]; repeat split; intros; try lia; try discriminate; try congruence; try reflexivity.
Qed.
End HkFile.

Lemma version_np_int V d (num : string -> option V) sym m natoms comment rest :
  read_hk_w2k d num false sym (("VERSION 2" ++ nl)%string :: header_line [m; natoms] comment :: rest) = Raise AttributeError.
Proof.
  unfold read_hk_w2k, read_header.
  change (nextline (("VERSION 2" ++ nl)%string :: header_line [m; natoms] comment :: rest)) with (["VERSION"; "2"], header_line [m; natoms] comment :: rest).
  change (py_get ["VERSION"; "2"] 0) with (Ok "VERSION"). cbn [bind]. change (String.eqb "VERSION" "VERSION") with true. cbn iota.
  rewrite nextline_header, parse_ints. reflexivity.
Qed.
Lemma format12 : number_format fmt12 fmt12 num12 (fun v => v) (fun v => v).
Proof. intros v. destruct (codec12 v) as [A B]. apply plain_word in A. auto. Qed.

(** ** the mesh *)
Lemma seq_flat_nth A (f : nat -> list A) n m i j : (forall i, length (f i) = m) -> (i < n)%nat -> (j < m)%nat ->
  nth_error (flat_map f (seq 0 n)) (i * m + j) = nth_error (f i) j.
Proof.
  intros Hl. revert f Hl i. induction n as [|n IH]; intros f Hl i Hi Hj; [lia|]. cbn [seq flat_map]. destruct i as [|i].
  - cbn [Nat.mul Nat.add]. rewrite nth_error_app1 by (rewrite Hl; assumption). reflexivity.
  - rewrite nth_error_app2 by (rewrite Hl; nia). rewrite Hl. replace (S i * m + j - m)%nat with (i * m + j)%nat by nia.
    rewrite <- seq_shift, flat_map_concat_map, map_map, <- flat_map_concat_map. apply (IH (fun i => f (S i))); [intros; apply Hl|lia|assumption].
Qed.
Lemma seq_flat_len A (f : nat -> list A) n m : (forall i, length (f i) = m) -> length (flat_map f (seq 0 n)) = (n * m)%nat.
Proof. intros H. rewrite flat_map_concat_map. rewrite (@concat_len _ m); [now rewrite map_length, seq_length|]. apply Forall_map, Forall_forall. intros; apply H. Qed.
Lemma mesh_len A nx ny nz (f : nat -> nat -> nat -> A) : length (mesh_list nx ny nz f) = (nx * (ny * nz))%nat.
Proof. apply seq_flat_len. intros. apply seq_flat_len. intros. now rewrite map_length, seq_length. Qed.
Lemma mesh_nth A nx ny nz (f : nat -> nat -> nat -> A) ix iy iz : (ix < nx)%nat -> (iy < ny)%nat -> (iz < nz)%nat ->
  nth_error (mesh_list nx ny nz f) ((ix * ny + iy) * nz + iz) = Some (f ix iy iz).
Proof.
  intros Hx Hy Hz. replace ((ix * ny + iy) * nz + iz)%nat with (ix * (ny * nz) + (iy * nz + iz))%nat by nia. unfold mesh_list.
  rewrite seq_flat_nth; [|intros; apply seq_flat_len; intros; now rewrite map_length, seq_length|assumption|apply lt_split; assumption].
  rewrite seq_flat_nth; [|intros; now rewrite map_length, seq_length|assumption|assumption].
  rewrite nth_error_map. rewrite (nth_error_nth' _ 0%nat) by (now rewrite seq_length). now rewrite seq_nth.
Qed.
Lemma in_mesh A nx ny nz (f : nat -> nat -> nat -> A) x : In x (mesh_list nx ny nz f) -> exists ix iy iz, x = f ix iy iz.
Proof.
  unfold mesh_list. intros H. apply in_flat_map in H as [ix [_ H]]. apply in_flat_map in H as [iy [_ H]]. apply in_map_iff in H as [iz [<- _]]. eauto.
Qed.
Lemma ek_all w nkx nky nkz ix iy iz a b : (ix < nkx)%nat -> (iy < nky)%nat -> (iz < nkz)%nat ->
  get_ek_all w nkx nky nkz ix iy iz a b = convham w (kpoint nkx nky nkz ix iy iz) a b.
Proof.
  intros Hx Hy Hz. unfold get_ek_all. set (lin := ((ix * nky + iy) * nkz + iz)%nat).
  assert (E1 : (lin / nkz)%nat = (ix * nky + iy)%nat) by (unfold lin; rewrite Nat.div_add_l by lia; rewrite Nat.div_small by lia; lia).
  assert (E2 : (lin mod nkz)%nat = iz) by (unfold lin; rewrite Nat.add_comm, Nat.mod_add by lia; apply Nat.mod_small; lia).
  assert (E3 : (lin / (nky * nkz))%nat = ix) by (rewrite (Nat.mul_comm nky), <- Nat.div_div by lia; rewrite E1, Nat.div_add_l by lia; rewrite Nat.div_small by lia; lia).
  rewrite E3, E1, E2. rewrite (Nat.add_comm (ix * nky)), Nat.mod_add by lia. rewrite Nat.mod_small by lia. reflexivity.
Qed.
Lemma save_hk_file (str_f fmt_12f : R -> string) num rk rh w nkx nky nkz :
  number_format str_f fmt_12f num rk rh ->
  exists file, save_hk str_f fmt_12f w nkx nky nkz = Ok file /\ forall np_int, exists r,
  read_hk_w2k 0%R num np_int true file = Ok r /\ forall ix iy iz, (ix < nkx)%nat -> (iy < nky)%nat -> (iz < nkz)%nat ->
  let k := ((ix * nky + iy) * nkz + iz)%nat in
  (forall c, (c < 3)%nat -> nth_error (nth c (hk_kpoints r) []) k = Some (rk (kpoint nkx nky nkz ix iy iz c))) /\
  forall a b, (a < n_orbs w)%nat -> (b < n_orbs w)%nat ->
  nth_error (hk_data r) ((k * n_orbs w + a) * n_orbs w + b) =
    Some (rh (fst (convham w (kpoint nkx nky nkz ix iy iz) a b)), rh (snd (convham w (kpoint nkx nky nkz ix iy iz) a b))).
Proof.
  intros Hf. unfold save_hk. set (n := n_orbs w). set (ek := mesh_list nkx nky nkz _). set (km := map _ [0; 1; 2]%nat).
  assert (HP : prodZ [Z.of_nat nkx; Z.of_nat nky; Z.of_nat nkz] = Z.of_nat (nkx * (nky * nkz))) by (cbn [prodZ fold_right]; lia).
  assert (Hhk : is_hk (Z.to_nat (prodZ [Z.of_nat nkx; Z.of_nat nky; Z.of_nat nkz])) n ek).
  { rewrite HP, Nat2Z.id. split; [apply mesh_len|]. apply Forall_forall. intros M HM. apply in_mesh in HM as [ix [iy [iz ->]]].
    split; [now rewrite map_length, seq_length|]. apply Forall_map, Forall_forall. intros. now rewrite map_length, seq_length. }
  assert (Hkm : is_kmesh (Z.to_nat (prodZ [Z.of_nat nkx; Z.of_nat nky; Z.of_nat nkz])) km).
  { rewrite HP, Nat2Z.id. split; [reflexivity|]. repeat constructor; apply mesh_len. }
  assert (HP0 : 0 <= prodZ [Z.of_nat nkx; Z.of_nat nky; Z.of_nat nkz]) by (rewrite HP; lia).
  destruct (@round_trip R str_f fmt_12f num rk rh 0%R Hf _ _ _ _ HP0 Hhk Hkm) as [file [Hw Hr]].
  exists file. split; [exact Hw|]. intros np_int. destruct (Hr np_int true) as [_ Hr']. destruct (Hr' (Nat.mod_1_r n)) as [r [R1 [_ [_ [R4 R5]]]]].
  exists r. split; [exact R1|].
  intros ix iy iz Hx Hy Hz. set (k := ((ix * nky + iy) * nkz + iz)%nat).
  assert (Hk : (k < nkx * (nky * nkz))%nat).
  { unfold k. replace (nkx * (nky * nkz))%nat with ((nkx * nky) * nkz)%nat by (clear; nia). apply lt_split; [apply lt_split; assumption|assumption]. }
  split.
  - intros c Hc. rewrite R4. unfold km. destruct c as [|[|[|c]]]; [| | |lia]; cbn [map nth]; rewrite nth_error_map; unfold k; rewrite mesh_nth by assumption; reflexivity.
  - intros a b Ha Hb. specialize (R5 k a 0%nat b 0%nat). rewrite HP, Nat2Z.id in R5. rewrite Nat.div_1_r in R5.
    destruct (R5 Hk Ha ltac:(lia) Hb ltac:(lia)) as [E _]. rewrite !Nat.mul_0_l, !Nat.add_0_l in E.
    replace ((k * n + a) * n + b)%nat with (pos n 1 k a 0 b 0) by (unfold pos; rewrite !Nat.mul_1_r, !Nat.add_0_r; reflexivity). rewrite E.
    unfold hk_entry, ek, k. rewrite mesh_nth by assumption. rewrite nth_error_map, (nth_error_nth' _ 0%nat) by (now rewrite seq_length). rewrite seq_nth by assumption. cbn [option_map].
    rewrite nth_error_map, (nth_error_nth' _ 0%nat) by (now rewrite seq_length). rewrite seq_nth by assumption. cbn [option_map]. rewrite !Nat.add_0_l. now rewrite !ek_all by assumption.
Qed.

(** ** real numbers in fixed-point text *)
From Coq Require Import Lra.
Definition fix_val (x : fixed) : R := ((if fst x then -1 else 1) * (IZR (Z.of_N (snd x)) / IZR e12))%R.
Definition fixR (x : R) : fixed := let z := Int_part (x * IZR e12) in ((z <? 0), Z.to_N (Z.abs z)).
Lemma Int_part_IZR z : Int_part (IZR z) = z.
Proof. unfold Int_part. rewrite <- (tech_up (IZR z) (z + 1)); [lia| |]; rewrite plus_IZR; lra. Qed.
Lemma fix_exact (x : R) z : (x * IZR e12)%R = IZR z -> fix_val (fixR x) = x.
Proof.
  intros E. unfold fixR, fix_val. rewrite E, Int_part_IZR. cbn [fst snd]. rewrite Z2N.id by lia.
  assert (H0 : IZR e12 <> 0%R) by (apply not_0_IZR; unfold e12; lia). replace x with (IZR z / IZR e12)%R by (rewrite <- E; field; assumption).
  destruct (Z.ltb_spec z 0).
  - rewrite Z.abs_neq, opp_IZR by lia. field. assumption.
  - rewrite Z.abs_eq by lia. field. assumption.
Qed.
Lemma real_format12 : exists str_f fmt_12f num rk rh, @number_format R str_f fmt_12f num rk rh /\ rk 0%R = 0%R /\ rk 1%R = 1%R /\ rk (/ 2)%R = (/ 2)%R.
Proof.
  exists (fun x => fmt12 (fixR x)), (fun x => fmt12 (fixR x)), (fun s => option_map fix_val (num12 s)), (fun x => fix_val (fixR x)), (fun x => fix_val (fixR x)).
  split; [|split; [|split]].
  - intros v. destruct (codec12 (fixR v)) as [A B]. apply plain_word in A. rewrite B. auto.
  - apply (@fix_exact _ 0). lra.
  - apply (@fix_exact _ e12). lra.
  - apply (@fix_exact _ 500000000000). unfold e12. lra.
Qed.
