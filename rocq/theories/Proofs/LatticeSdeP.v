(** Results about the Schwinger-Dyson part of Model/FourPoint.v. *)
From mathcomp Require Import all_ssreflect all_algebra.
From Coq Require Import String ZArith Lia.
From Verif Require Import Base.PyBase Base.PyFacts Base.FieldTac Base.Arr Model.Matsubara Proofs.MatsubaraP Model.LocalFourPoint Model.LocalSDE Model.Bubble Model.FourPoint.
From Verif Require Import Spec.BubbleSpec Spec.LatticeSdeSpec Spec.SdeSpec Proofs.BubbleP Proofs.LocalSDEP.
Set Implicit Arguments. Unset Strict Implicit. Unset Printing Implicit Defensive.
Import GRing.Theory.
Local Open Scope ring_scope.

(** * Loops over enumerate *)
Lemma enumerate_mkseq A (d : A) l : enumerate l = mkseq (fun i => (Z.of_nat i, seq.nth d l i)) (size l).
Proof.
  apply: zget_ext; first by rewrite zlen_enumerate zlen_mkseq. move=> i. rewrite zlen_enumerate => Hi.
  rewrite zget_enumerate. have [n [En Hn]] : exists n, i = Z.of_nat n /\ (n < size l)%nat.
    exists (Z.to_nat i). move: Hi. rewrite /zlen -/(size l) => Hi. split; first by lia. apply/ltP. have : length l = size l by []. lia.
  subst i. by rewrite (@zget_seq _ _ d) // zget_mkseq.
Qed.
Lemma foldM_mkseq S A (f : S -> A -> res S) (g : nat -> A) n (P : nat -> S) :
  (forall i, (i < n)%nat -> f (P i) (g i) = Ok (P i.+1)) -> foldM f (mkseq g n) (P 0%nat) = Ok (P n).
Proof.
  elim: n => [|n IH] H //. rewrite /mkseq -addn1 iotaD map_cat /= add0n.
  have E : foldM f (mkseq g n) (P 0%nat) = Ok (P n) by apply: IH => i Hi; apply: H; exact: ltnW.
  have app : forall l1 l2 s s1, foldM f l1 s = Ok s1 -> foldM f (l1 ++ l2) s = foldM f l2 s1.
    move=> l1 l2. elim: l1 => [|x l1 IH1] s s1 /=; first by case=> ->. case: (f s x) => //= s'. exact: IH1.
  rewrite (app _ _ _ _ E) /= H //. by rewrite addn1.
Qed.
Lemma py_get_nat A (l : list A) d i : (i < size l)%nat -> py_get l (Z.of_nat i) = Ok (seq.nth d l i).
Proof.
  move=> Hi. have Hz : (0 <= Z.of_nat i < zlen l)%Z. { move/ltP: Hi => Hi. rewrite /zlen. have : length l = size l by []. lia. }
  apply: py_get_nonneg; first by lia. exact: zget_seq.
Qed.
Lemma py_get2_arr2 T (nq nw : nat) (f : nat -> nat -> T) i j : (i < nq)%nat -> (j < nw)%nat -> py_get2 (arr2 nq nw f) (Z.of_nat i) (Z.of_nat j) = Ok (f i j).
Proof.
  move=> Hi Hj. rewrite /py_get2 (@py_get_nat _ _ [::]) ?size_mkseq // /= /arr2 nth_mkseq //.
  have d : T := f 0%nat 0%nat. by rewrite (@py_get_nat _ _ d) ?size_mkseq // nth_mkseq.
Qed.
Lemma py_get_arr2 T (nq nw : nat) (f : nat -> nat -> T) i : (i < nq)%nat -> py_get (arr2 nq nw f) (Z.of_nat i) = Ok (mkseq (f i) nw).
Proof. move=> Hi. by rewrite (@py_get_nat _ _ [::]) ?size_mkseq // nth_mkseq. Qed.

(** * Rows indexed by frequencies *)
Section Rows.
Variable F : fieldType.
Implicit Types f g : Z -> F.
Lemma np_map2_eq A B C (h : A -> B -> C) l m : zlen l = zlen m -> np_map2 h l m = Ok (map2 h l m).
Proof. move=> E. by rewrite /np_map2 E Z.eqb_refl. Qed.
Lemma frow_np2 A B C n (f : Z -> A) (g : Z -> B) (h : A -> B -> C) : (0 <= n)%Z -> np_map2 h (frow n f) (frow n g) = Ok (frow n (fun v => h (f v) (g v))).
Proof. move=> Hn. rewrite np_map2_eq ?zlen_frow //. by rewrite frow_map2. Qed.
Lemma zeros_frow n : (0 <= n)%Z -> np_zeros F (2 * n) = frow n (fun _ => 0).
Proof.
  move=> Hn. apply: zget_ext; first by rewrite zlen_frow // /np_zeros /zlen repeat_length; lia. move=> i. rewrite /np_zeros {1}/zlen repeat_length => Hi.
  rewrite zget_frow; last by lia. rewrite zget_repeat //; lia.
Qed.
Lemma cut_iv_frow A N n w (f : Z -> A) : (0 <= n)%Z -> (n + Z.abs w <= N)%Z -> cut_iv_with_iw_shift_1d (frow N f) n w = frow n (fun v => f (v - w)%Z).
Proof.
  move=> Hn Hw. rewrite /cut_iv_with_iw_shift_1d zlen_frow; last by lia. rewrite BubbleP.half2.
  have -> : (n =? -1)%Z = false by lia.
  have -> : (N - n - w = N - n + (- w))%Z by lia. have -> : (N + n - w = N + n + (- w))%Z by lia.
  by rewrite frow_window; [|lia|lia].
Qed.
(** the 2 ns frequencies outside the core *)
Definition srow A (nc ns : Z) (f : Z -> A) : list A := (List.map f (arange (- (nc + ns)) (- nc)) ++ List.map f (arange nc (nc + ns)))%list.
Lemma zlen_srow A nc ns (f : Z -> A) : (0 <= ns)%Z -> zlen (srow nc ns f) = (2 * ns)%Z.
Proof. move=> H. rewrite /srow zlen_app !(zlen_map f) !zlen_arange. lia. Qed.
Lemma srow_np2 A B C nc ns (f : Z -> A) (g : Z -> B) (h : A -> B -> C) : (0 <= ns)%Z -> np_map2 h (srow nc ns f) (srow nc ns g) = Ok (srow nc ns (fun v => h (f v) (g v))).
Proof.
  move=> Hn. rewrite np_map2_eq ?zlen_srow //. f_equal. rewrite /srow. have E : forall l, map2 h (List.map f l) (List.map g l) = List.map (fun v => h (f v) (g v)) l.
    by elim=> //= x l ->.
  have E2 : forall l1 l2, map2 h (List.map f l1 ++ List.map f l2) (List.map g l1 ++ List.map g l2) = (List.map (fun v => h (f v) (g v)) l1 ++ List.map (fun v => h (f v) (g v)) l2)%list.
    move=> l1 l2. elim: l1 => [|x l1 IH] /=; first exact: E. by rewrite IH.
  exact: E2.
Qed.
Lemma srow_map A B nc ns (f : Z -> A) (h : A -> B) : List.map h (srow nc ns f) = srow nc ns (fun v => h (f v)).
Proof. by rewrite /srow map_app !map_map. Qed.
Lemma srow_ext A nc ns (f g : Z -> A) : (forall v, (nc <= v < nc + ns)%Z \/ (- (nc + ns) <= v < - nc)%Z -> f v = g v) -> srow nc ns f = srow nc ns g.
Proof. move=> H. rewrite /srow. f_equal; apply: map_ext_in => v /In_arange Hv; apply: H; lia. Qed.
Lemma zeros_srow nc ns : (0 <= ns)%Z -> np_zeros F (2 * ns) = srow nc ns (fun _ => 0).
Proof.
  move=> H. rewrite /np_zeros /srow. have E : forall l : list Z, List.map (fun _ => (0 : F)) l = List.repeat 0 (length l) by elim=> //= x l ->.
  rewrite !E -repeat_app. f_equal. have := zlen_arange (- (nc + ns)) (- nc). have := zlen_arange nc (nc + ns). rewrite /zlen. lia.
Qed.
Lemma frow_split A nc ns (f : Z -> A) : (0 <= nc)%Z -> (0 <= ns)%Z ->
  frow (nc + ns) f = (List.map f (arange (- (nc + ns)) (- nc)) ++ frow nc f ++ List.map f (arange nc (nc + ns)))%list.
Proof.
  move=> H1 H2. rewrite /frow -!map_app. f_equal.
  apply: zget_ext; first by rewrite !zlen_app !zlen_arange; lia. move=> i Hi. rewrite zlen_arange in Hi. rewrite zget_arange; last by lia.
  rewrite !zget_app !zlen_arange. case: Z.ltb_spec => Hc; first by rewrite zget_arange; [f_equal|]; lia.
  case: Z.ltb_spec => Hc2; rewrite zget_arange; try lia; f_equal; lia.
Qed.
Lemma concat_rows A nc ns (f g : Z -> A) : (0 <= nc)%Z -> (0 <= ns)%Z ->
  concatenate_core_asmypt (frow nc f) (srow nc ns g) = frow (nc + ns) (fun v => if (- nc <=? v)%Z && (v <? nc)%Z then f v else g v).
Proof.
  move=> H1 H2. rewrite (@concat_core_spec _ _ _ ns) ?zlen_srow //. rewrite frow_split // /srow.
  set L := List.map g _. set R := List.map g _.
  have LL : zlen L = ns by rewrite /L (zlen_map g) zlen_arange; lia. have LR : zlen R = ns by rewrite /R (zlen_map g) zlen_arange; lia.
  have -> : slice (L ++ R)%list 0 ns = L by rewrite -[X in slice _ _ X]LL slice_app_l.
  have -> : slice (L ++ R)%list ns (2 * ns) = R. { have -> : (2 * ns = zlen L + zlen R)%Z by lia. by rewrite -[X in slice _ X _]LL slice_app_r. }
  rewrite /L /R.
  f_equal; [|f_equal].
  - apply: map_ext_in => v /In_arange Hv. have -> // : (- nc <=? v)%Z && (v <? nc)%Z = false by lia.
  - apply: frow_ext => v Hv. have -> // : (- nc <=? v)%Z && (v <? nc)%Z = true by lia.
  - apply: map_ext_in => v /In_arange Hv. have -> // : (- nc <=? v)%Z && (v <? nc)%Z = false by lia.
Qed.
End Rows.

Section Values.
Variable F : fieldType.
Add Field Fls : (@Kft F).
Variables nx ny nz : nat.
Notation K := (mesh nx ny nz).
Variables (N : Z) (G : K -> Z -> F) (giwk : K -> list F).
Hypothesis Hgiwk : forall k, giwk k = frow N (G k).
Implicit Types (beta u nq : F) (qs : list (Z * Z * Z)) (wn : list Z).
Lemma wat_in wn j : (j < size wn)%nat -> List.In (wat wn j) wn.
Proof.
  elim: wn j => [|w wn IH] [|j] //= Hj; first by left. right. exact: IH.
Qed.
(** the double loop over q and w, adding rows t i j *)
Lemma double_loop qs wn niv (body : list F -> Z * (Z * Z * Z) -> Z * Z -> res (list F)) (t : nat -> nat -> Z -> F) :
  (forall i j f, (i < size qs)%nat -> (j < size wn)%nat ->
     body (frow niv f) (Z.of_nat i, qat qs i) (Z.of_nat j, wat wn j) = Ok (frow niv (fun v => f v + t i j v))) ->
  foldM (fun s iq => foldM (fun s jw => body s iq jw) (enumerate wn) s) (enumerate qs) (frow niv (fun _ => 0)) =
  Ok (frow niv (fun v => \sum_(i < size qs) \sum_(j < size wn) t i j v)).
Proof.
  move=> H. rewrite (@enumerate_mkseq _ (0%Z, 0%Z, 0%Z) qs) (@enumerate_mkseq _ 0%Z wn).
  have := @foldM_mkseq (list F) _ (fun s iq => foldM (fun s jw => body s iq jw) (mkseq (fun j => (Z.of_nat j, seq.nth 0%Z wn j)) (size wn)) s)
     (fun i => (Z.of_nat i, qat qs i)) (size qs) (fun m => frow niv (fun v => \sum_(i < m) \sum_(j < size wn) t i j v)).
  have E : frow niv (fun _ => (0 : F)) = frow niv (fun v => \sum_(i < 0) \sum_(j < size wn) t i j v) by apply: frow_ext => v _; rewrite big_ord0.
  rewrite E. apply=> i Hi.
  have := @foldM_mkseq (list F) _ (fun s jw => body s (Z.of_nat i, qat qs i) jw) (fun j => (Z.of_nat j, wat wn j)) (size wn)
     (fun m => frow niv (fun v => \sum_(i0 < i) \sum_(j < size wn) t i0 j v + \sum_(j < m) t i j v)).
  have E2 : frow niv (fun v => \sum_(i0 < i) \sum_(j < size wn) t i0 j v) = frow niv (fun v => \sum_(i0 < i) \sum_(j < size wn) t i0 j v + \sum_(j < 0) t i j v)
    by apply: frow_ext => v _; rewrite big_ord0 addr0.
  rewrite E2 => ->; first by f_equal; apply: frow_ext => v _; rewrite big_ord_recr.
  move=> j Hj. rewrite H //. f_equal. apply: frow_ext => v _. by rewrite big_ord_recr addrA.
Qed.
Lemma half_frow A n (f : Z -> A) : (0 <= n)%Z -> (zlen (frow n f) / 2)%Z = n.
Proof. move=> H. by rewrite zlen_frow // BubbleP.half2. Qed.

(** lines 93-102 *)
Lemma sde_kernel_ok beta nq qs wn niv Ker k : wn <> nil -> fits_box niv N wn ->
  schwinger_dyson_kernel_q (2 * niv) (arr3 (size qs) (size wn) niv Ker) giwk beta qs wn nq k = Ok (frow niv (lattice_sde nq beta qs wn Ker G k)).
Proof.
  move=> Hwn [Hn Hb]. rewrite /schwinger_dyson_kernel_q BubbleP.half2.
  have [m [-> Hm [w0 [Hw0 Em]]]] := max_abs_ok Hwn. rewrite [bind _ _]/=. rewrite zeros_frow //.
  have HmN : (niv + m <= N)%Z by rewrite Em; exact: Hb.
  have Hm0 : (0 <= m)%Z by rewrite Em; exact: Z.abs_nonneg.
  have L := @double_loop qs wn niv (fun s iq jw => let! row := py_get2 (arr3 (size qs) (size wn) niv Ker) iq.1 jw.1 in
      let! t := np_map2 (fun x y => x * y) row (cut_iv_with_iw_shift_1d (shift_mat_by_ind (fun k => cut_v_1d (giwk k) (niv + m)) (neg_ind iq.2) k) niv jw.2) in iadd s t)
     (fun i j v => Ker i j v * G (kplusq k (qat qs i)) (v - wat wn j)%Z).
  rewrite L; first by rewrite /= frow_map; f_equal; apply: frow_ext => v _; rewrite /lattice_sde !mulr1 mul1r invfM.
  move=> i j f Hi Hj /=. rewrite py_get2_arr2 //=. rewrite shift_kplusq Hgiwk frow_cut; last by lia.
  have := Hm _ (wat_in Hj) => Hmj. rewrite cut_iv_frow; [|lia|lia]. rewrite frow_np2 //= /iadd frow_np2 //.
Qed.
(** lines 24-35 *)
Lemma sde_vrg_ok beta u nq ur ch qs dup wn niv vrg chi k : get_ur u ch = Ok ur -> size dup = size qs -> fits_box niv N wn ->
  schwinger_dyson_vrg_q (2 * niv) (arr3 (size qs) (size wn) niv vrg) (arr2 (size qs) (size wn) chi) giwk beta u ch qs dup wn nq k =
  Ok (frow niv (lattice_sde nq beta qs wn (fun i j v => seq.nth 0 dup i * (ur / 2%:R * (1 - (1 - ur * chi i j) * vrg i j v))) G k)).
Proof.
  move=> Hur Hd [Hn Hb]. rewrite /schwinger_dyson_vrg_q Hur [bind _ _]/= BubbleP.half2 zeros_frow //.
  have L := @double_loop qs wn niv (fun s iq jw => let! c := py_get2 (arr2 (size qs) (size wn) chi) iq.1 jw.1 in
      let! row := py_get2 (arr3 (size qs) (size wn) niv vrg) iq.1 jw.1 in let! d := py_get dup iq.1 in
      let! t := np_map2 (fun g x => (1 - (1 - ur * c) * g) * x * d) row (cut_iv_with_iw_shift_1d (shift_mat_by_ind giwk (neg_ind iq.2) k) niv jw.2) in iadd s t)
     (fun i j v => (1 - (1 - ur * chi i j) * vrg i j v) * G (kplusq k (qat qs i)) (v - wat wn j)%Z * seq.nth 0 dup i).
  rewrite L.
  - rewrite [bind _ _]/= frow_map; f_equal; apply: frow_ext => v _. rewrite /lattice_sde !mulr1 mul1r invfM.
    rewrite !mulr_sumr. apply: eq_bigr => i _. rewrite !mulr_sumr. apply: eq_bigr => j _. set g := G _ _.
    set d := seq.nth 0 dup i. set c := chi i j. set r := vrg i j v. move: nq^-1 beta^-1 2%:R^-1 => a b h. move: d c r g => d c r g. to_K F. ring.
  - move=> i j f Hi Hj /=. rewrite !py_get2_arr2 //=. rewrite (@py_get_nat _ _ 0) ?Hd //= shift_kplusq Hgiwk.
    have := Hb _ (wat_in Hj) => Hbj. rewrite cut_iv_frow; [|lia|lia]. by rewrite frow_np2 //= /iadd frow_np2.
Qed.
(** single loop over q *)
Lemma single_loop qs (row : (Z -> F) -> list F) (body : list F -> Z * (Z * Z * Z) -> res (list F)) (t : nat -> Z -> F) :
  (forall f g, (forall v, f v = g v) -> row f = row g) ->
  (forall i f, (i < size qs)%nat -> body (row f) (Z.of_nat i, qat qs i) = Ok (row (fun v => f v + t i v))) ->
  foldM body (enumerate qs) (row (fun _ => 0)) = Ok (row (fun v => \sum_(i < size qs) t i v)).
Proof.
  move=> He H. rewrite (@enumerate_mkseq _ (0%Z, 0%Z, 0%Z) qs).
  have := @foldM_mkseq (list F) _ body (fun i => (Z.of_nat i, qat qs i)) (size qs) (fun m => row (fun v => \sum_(i < m) t i v)).
  have -> : row (fun v => \sum_(i < 0) t i v) = row (fun _ => 0) by apply: He => v; rewrite big_ord0.
  apply=> i Hi. rewrite H //. f_equal. apply: He => v. by rewrite big_ord_recr.
Qed.
Lemma slice_frow A n a b (f : Z -> A) : (- n <= a)%Z -> (a <= b)%Z -> (b <= n)%Z -> slice (frow n f) (n + a) (n + b) = List.map f (arange a b).
Proof.
  move=> H1 H2 H3. have Hn : (0 <= n)%Z by lia. apply: zget_ext; first by rewrite (zlen_map f) zlen_arange zlen_slice_in ?zlen_frow //; lia.
  move=> i. rewrite zlen_slice_in ?zlen_frow //; try lia. move=> Hi. rewrite zget_slice_in ?zlen_frow //; try lia. rewrite zget_frow; last by lia.
  rewrite (zget_map f) zget_arange; last by lia. rewrite /=. do 2 f_equal. lia.
Qed.
Lemma map_arange_shift A a b w (f : Z -> A) : List.map f (arange (a - w) (b - w)) = List.map (fun v => f (v - w)%Z) (arange a b).
Proof.
  apply: zget_ext; first by rewrite (zlen_map f) (zlen_map (fun v => f (v - w)%Z)) !zlen_arange; lia.
  move=> i. rewrite (zlen_map f) zlen_arange => Hi. rewrite (zget_map f) (zget_map (fun v => f (v - w)%Z)) !zget_arange; try lia. rewrite /=. do 2 f_equal. lia.
Qed.
Lemma rows_same A (l : list (list A)) b : (forall r, List.In r l -> zlen r = b) -> np_array_rows l = Ok l.
Proof.
  case: l => [|r l] // H. rewrite /np_array_rows. have -> // : forallb (fun r' => (zlen r' =? zlen r)%Z) l = true.
  apply/forallb_forall => r' Hr. rewrite (H r (or_introl erefl)) (H r' (or_intror Hr)). exact: Z.eqb_refl.
Qed.
Lemma map2_maps A B C D (h : B -> C -> D) (f : A -> B) (g : A -> C) l : map2 h (List.map f l) (List.map g l) = List.map (fun x => h (f x) (g x)) l.
Proof. by elim: l => //= x l ->. Qed.
Lemma shell_grid A nc ns wn (f : Z -> A) : (0 <= nc)%Z -> (0 <= ns)%Z -> (forall w, List.In w wn -> (nc + ns + Z.abs w <= N)%Z) -> (0 <= N)%Z ->
  wn_slices_shell (frow N f) ns nc wn = Ok (List.map (fun w => srow nc ns (fun v => f (v - w)%Z)) wn).
Proof.
  move=> Hc Hs Hw HN. rewrite /wn_slices_shell zlen_frow // /niv_from_len BubbleP.half2.
  have E1 : List.map (fun iwn => slice (frow N f) (N + nc - iwn) (N + nc + ns - iwn)) wn = List.map (fun w => List.map (fun v => f (v - w)%Z) (arange nc (nc + ns))) wn.
    apply: map_ext_in => w /Hw Hb. have -> : (N + nc - w = N + (nc - w))%Z by lia. have -> : (N + nc + ns - w = N + (nc + ns - w))%Z by lia.
    rewrite slice_frow; [|lia|lia|lia]. exact: map_arange_shift.
  have E2 : List.map (fun iwn => slice (frow N f) (N - nc - ns - iwn) (N - nc - iwn)) wn = List.map (fun w => List.map (fun v => f (v - w)%Z) (arange (- (nc + ns)) (- nc))) wn.
    apply: map_ext_in => w /Hw Hb. have -> : (N - nc - ns - w = N + (- (nc + ns) - w))%Z by lia. have -> : (N - nc - w = N + (- nc - w))%Z by lia.
    rewrite slice_frow; [|lia|lia|lia]. exact: map_arange_shift.
  cbv zeta. rewrite E1 E2. rewrite (@rows_same _ _ ns); last first.
    move=> r /in_map_iff [w [<- _]]. rewrite (zlen_map (fun v => f (v - w)%Z)) zlen_arange. lia.
  rewrite [bind _ _]/=. rewrite (@rows_same _ _ ns); last first.
    move=> r /in_map_iff [w [<- _]]. rewrite (zlen_map (fun v => f (v - w)%Z)) zlen_arange. lia.
  rewrite [bind _ _]/=. by rewrite map2_maps.
Qed.
Lemma map_mkseq A B (g : A -> B) d (l : list A) : List.map g l = mkseq (fun j => g (seq.nth d l j)) (size l).
Proof.
  change (List.map g l) with (seq.map g l). apply: (@eq_from_nth _ (g d)); first by rewrite size_map size_mkseq.
  move=> i. rewrite size_map => Hi. by rewrite (nth_map d) // nth_mkseq.
Qed.
Lemma map2_mkseq A B C (h : A -> B -> C) (f : nat -> A) (g : nat -> B) n : map2 h (mkseq f n) (mkseq g n) = mkseq (fun j => h (f j) (g j)) n.
Proof. rewrite /mkseq. elim: (iota 0 n) => //= x l ->. by []. Qed.
Lemma np2_mkseq A B C (h : A -> B -> C) (f : nat -> A) (g : nat -> B) n : np_map2 h (mkseq f n) (mkseq g n) = Ok (mkseq (fun j => h (f j) (g j)) n).
Proof. rewrite np_map2_eq ?zlen_mkseq //. by rewrite map2_mkseq. Qed.
Lemma sum_rows (A : Type) (idx : list A) (f : nat -> A -> F) n : (0 < n)%nat ->
  sum_axis0 (ncols (mkseq (fun j => List.map (f j) idx) n)) (mkseq (fun j => List.map (f j) idx) n) = List.map (fun a => \sum_(j < n) f j a) idx.
Proof.
  move=> Hn. have S : shape2 (mkseq (fun j => List.map (f j) idx) n) (Z.of_nat n) (zlen idx).
    split; first exact: zlen_mkseq. move=> r /in_map_iff [j [<- _]]. exact: zlen_map.
  have Hn' : (0 < Z.of_nat n)%Z by move/ltP: Hn; lia. rewrite (ncolsE Hn' S). have [L V] := sum_axis0P (zlen_nonneg idx) S.
  apply: val_ext; first by rewrite L zlen_map. move=> i. rewrite L => Hi. rewrite V //.
  have [a Ha] := zget_in_range _ Hi. rewrite /val zget_map Ha /= sum_range_ord. apply: eq_bigr => j _.
  by rewrite /val2 /get2 zget_mkseq //= zget_map Ha.
Qed.
Lemma sum_srow nc ns (f : nat -> Z -> F) n : (0 < n)%nat ->
  sum_axis0 (ncols (mkseq (fun j => srow nc ns (f j)) n)) (mkseq (fun j => srow nc ns (f j)) n) = srow nc ns (fun v => \sum_(j < n) f j v).
Proof.
  move=> Hn. have := @sum_rows Z (arange (- (nc + ns)) (- nc) ++ arange nc (nc + ns))%list f n Hn. rewrite map_app.
  have -> // : mkseq (fun j => List.map (f j) (arange (- (nc + ns)) (- nc) ++ arange nc (nc + ns))%list) n = mkseq (fun j => srow nc ns (f j)) n.
  apply: eq_mkseq => j. by rewrite map_app.
Qed.
Lemma sum_frow niv (f : nat -> Z -> F) n : (0 < n)%nat ->
  sum_axis0 (ncols (mkseq (fun j => frow niv (f j)) n)) (mkseq (fun j => frow niv (f j)) n) = frow niv (fun v => \sum_(j < n) f j v).
Proof. move=> Hn. exact: sum_rows. Qed.

(** lines 38-44 *)
Lemma sde_shell_ok beta u nq qs wn nc ns chi k : wn <> nil -> (0 <= nc)%Z -> (0 <= ns)%Z -> fits_box (nc + ns) N wn ->
  schwinger_dyson_q_shell (arr2 (size qs) (size wn) chi) giwk beta u ns nc wn qs nq k =
  Ok (srow nc ns (lattice_sde nq beta qs wn (fun i j _ => u ^+ 2 / 2%:R * chi i j) G k)).
Proof.
  move=> Hwn Hc Hs [_ Hb]. have Hnw : (0 < size wn)%nat by case: wn Hwn {Hb}.
  have HN : (0 <= N)%Z. { have := Hb _ (wat_in Hnw). lia. }
  rewrite /schwinger_dyson_q_shell (zeros_srow _ nc) //.
  rewrite (@single_loop qs (srow nc ns) _ (fun i v => 1 / nq * u ^+ 2 / 2%:R * 1 / beta * \sum_(j < size wn) chi i j * G (kplusq k (qat qs i)) (v - wat wn j)%Z)).
  - f_equal. apply: srow_ext => v _. rewrite /lattice_sde mulr_sumr. apply: eq_bigr => i _. rewrite !mulr_sumr. apply: eq_bigr => j _.
    rewrite invfM. set g := G _ _. set c := chi i j. move: nq^-1 beta^-1 2%:R^-1 c g => a b h c g. to_K F. ring.
  - move=> f g E. apply: srow_ext => v _. exact: E.
  - move=> i f Hi /=. rewrite shift_kplusq Hgiwk shell_grid // [bind _ _]/= py_get_arr2 // [bind _ _]/=.
    rewrite (map_mkseq _ 0%Z) np2_mkseq [bind _ _]/=.
    have -> : mkseq (fun j => List.map (fun g => chi i j * g) (srow nc ns (fun v => G (kplusq k (qat qs i)) (v - seq.nth 0%Z wn j)%Z))) (size wn) =
      mkseq (fun j => srow nc ns (fun v => chi i j * G (kplusq k (qat qs i)) (v - wat wn j)%Z)) (size wn) by apply: eq_mkseq => j; rewrite srow_map.
    rewrite sum_srow // srow_map /iadd srow_np2 //.
Qed.
(** lines 47-54 *)
Lemma sde_channel_ok beta u nq ur ch qs dup wn nc ns vrg chi k : wn <> nil -> get_ur u ch = Ok ur -> ur ^+ 2 = u ^+ 2 -> size dup = size qs -> (0 <= nc)%Z -> (0 < ns)%Z -> fits_box (nc + ns) N wn ->
  schwinger_dyson_channel_q (2 * nc) (arr3 (size qs) (size wn) nc vrg) (arr2 (size qs) (size wn) chi) ch giwk beta u qs dup wn nq ns k =
  Ok (frow (nc + ns) (lattice_sde nq beta qs wn (fun i j v => if (- nc <=? v)%Z && (v <? nc)%Z then seq.nth 0 dup i * (ur / 2%:R * (1 - (1 - ur * chi i j) * vrg i j v))
     else ur / 2%:R * (1 - (1 - ur * chi i j))) G k)).
Proof.
  move=> Hwn Hur Huu Hd Hc Hs [Hn Hb]. rewrite /schwinger_dyson_channel_q (@sde_vrg_ok beta u nq ur) //; last by split=> // w /Hb; lia.
  have -> : (ns =? 0)%Z = false by lia. rewrite [bind _ _]/= BubbleP.half2 sde_shell_ok //; last by lia. rewrite [bind _ _]/=.
  rewrite concat_rows //; last by lia. f_equal. apply: frow_ext => v _. rewrite /lattice_sde. case: ifP => // _.
  congr (_ * _). apply: eq_bigr => i _. apply: eq_bigr => j _. rewrite -Huu. congr (_ * _). move: 2%:R^-1 => h. to_K F. ring.
Qed.
(** lines 74-79 *)
Lemma sequence_ok A (l : list A) : sequence (List.map (@Ok A) l) = Ok l.
Proof. elim: l => //= x l ->. by []. Qed.
Lemma sequence_mkseq A (f : nat -> A) n : sequence (mkseq (fun i => Ok (f i)) n) = Ok (mkseq f n).
Proof. rewrite /mkseq. elim: (iota 0 n) => //= x l ->. by []. Qed.
Lemma get_kernel_ok u ur ch a b niv vrg chi : get_ur u ch = Ok ur ->
  get_kernel (arr3 a b niv vrg) (arr2 a b chi) u ch = Ok (arr3 a b niv (fun i j v => ur / 2%:R * (1 - (1 - ur * chi i j) * vrg i j v))).
Proof.
  move=> Hur. rewrite /get_kernel Hur [bind _ _]/= /arr3 /arr2 np2_mkseq [bind _ _]/=.
  have -> : mkseq (fun i => np_map2 (fun c row => List.map (fun g => ur / 2%:R * (1 - (1 - ur * c) * g)) row) (mkseq (chi i) b) (mkseq (fun j => frow niv (vrg i j)) b)) a =
    mkseq (fun i => Ok (mkseq (fun j => frow niv (fun v => ur / 2%:R * (1 - (1 - ur * chi i j) * vrg i j v))) b)) a.
    apply: eq_mkseq => i. rewrite np2_mkseq. f_equal. apply: eq_mkseq => j. by rewrite frow_map.
  exact: sequence_mkseq.
Qed.
Lemma np23_ok (h : F -> F -> F) a b niv f g : (0 <= niv)%Z -> np_map23 h (arr3 a b niv f) (arr3 a b niv g) = Ok (arr3 a b niv (fun i j v => h (f i j v) (g i j v))).
Proof.
  move=> Hn. rewrite /np_map23 /arr3 /arr2 np2_mkseq [bind _ _]/=.
  have -> : mkseq (fun i => np_map22 h (mkseq (fun j => frow niv (f i j)) b) (mkseq (fun j => frow niv (g i j)) b)) a =
    mkseq (fun i => Ok (mkseq (fun j => frow niv (fun v => h (f i j v) (g i j v))) b)) a.
    apply: eq_mkseq => i. rewrite /np_map22 np2_mkseq [bind _ _]/=.
    have -> : mkseq (fun j => np_map2 h (frow niv (f i j)) (frow niv (g i j))) b = mkseq (fun j => Ok (frow niv (fun v => h (f i j v) (g i j v)))) b
      by apply: eq_mkseq => j; rewrite frow_np2.
    exact: sequence_mkseq.
  exact: sequence_mkseq.
Qed.
(** lines 57-71 *)
Lemma arr3_ext a b niv (f g : nat -> nat -> Z -> F) : (forall i j v, f i j v = g i j v) -> arr3 a b niv f = arr3 a b niv g.
Proof. move=> H. apply: eq_mkseq => i. apply: eq_mkseq => j. apply: frow_ext => v _. exact: H. Qed.
Lemma sde_full_ok beta u nq qs wn nc chid chim vrgd vrgm kdc k : wn <> nil -> fits_box nc N wn ->
  schwinger_dyson_full_q (2 * nc) (arr3 (size qs) (size wn) nc vrgd) (arr3 (size qs) (size wn) nc vrgm) (arr2 (size qs) (size wn) chid) (arr2 (size qs) (size wn) chim)
    (arr3 (size qs) (size wn) nc kdc) giwk beta u qs wn nq 0 k =
  Ok (frow nc (lattice_sde nq beta qs wn (dga_kernel u chid chim vrgd vrgm kdc) G k)).
Proof.
  move=> Hwn Hb. have Hn : (0 <= nc)%Z by case: Hb. rewrite /schwinger_dyson_full_q (@get_kernel_ok u (u * 1) "dens") // [bind _ _]/= (@get_kernel_ok u (u * - 1) "magn") // [bind _ _]/=.
  rewrite np23_ok // [bind _ _]/= np23_ok // [bind _ _]/= sde_kernel_ok // [bind _ _]/=. f_equal. apply: frow_ext => v _.
  rewrite /lattice_sde. congr (_ * _). apply: eq_bigr => i _. apply: eq_bigr => j _. congr (_ * _).
  rewrite /dga_kernel. move: 3%:R 2%:R^-1 => t h. to_K F. ring.
Qed.
Lemma sde_full_shell_ok beta u nq qs wn nc ns chid chim vrgd vrgm kdc k : wn <> nil -> (0 <= nc)%Z -> (0 < ns)%Z -> fits_box (nc + ns) N wn ->
  schwinger_dyson_full_q (2 * nc) (arr3 (size qs) (size wn) nc vrgd) (arr3 (size qs) (size wn) nc vrgm) (arr2 (size qs) (size wn) chid) (arr2 (size qs) (size wn) chim)
    (arr3 (size qs) (size wn) nc kdc) giwk beta u qs wn nq ns k =
  Ok (frow (nc + ns) (lattice_sde nq beta qs wn (fun i j v => if (- nc <=? v)%Z && (v <? nc)%Z then dga_kernel u chid chim vrgd vrgm kdc i j v
      else u ^+ 2 / 2%:R * (chid i j + chim i j)) G k)).
Proof.
  move=> Hwn Hn Hs Hb. have Hb' : fits_box nc N wn by case: Hb => _ Hb; split=> // w /Hb; lia.
  rewrite /schwinger_dyson_full_q (@get_kernel_ok u (u * 1) "dens") // [bind _ _]/= (@get_kernel_ok u (u * - 1) "magn") // [bind _ _]/=.
  rewrite np23_ok // [bind _ _]/= np23_ok // [bind _ _]/= sde_kernel_ok // [bind _ _]/=.
  have -> : (ns =? 0)%Z = false by lia. rewrite half_frow // !sde_shell_ok //; try lia. rewrite [bind _ _]/= [bind _ _]/= /iadd srow_np2; last by lia. rewrite [bind _ _]/=.
  rewrite concat_rows //; last by lia. f_equal. apply: frow_ext => v _. rewrite /lattice_sde. case: ifP => _.
    congr (_ * _). apply: eq_bigr => i _. apply: eq_bigr => j _. congr (_ * _). rewrite /dga_kernel. move: 3%:R 2%:R^-1 => t h. to_K F. ring.
  rewrite -mulrDr. congr (_ * _). rewrite -big_split. apply: eq_bigr => i _. rewrite -big_split. apply: eq_bigr => j _ /=. rewrite -mulrDl. congr (_ * _). by rewrite -mulrDr.
Qed.
(** lines 105-115 *)
Lemma sde_dc_ok u nq qs dup wn nc ker k : wn <> nil -> size dup = size qs -> fits_box nc N wn ->
  schwinger_dyson_dc (2 * nc) (arr3 (size qs) (size wn) nc ker) giwk u qs dup wn nq k =
  Ok (frow nc (lattice_sde nq 1 qs wn (fun i j v => u * seq.nth 0 dup i * ker i j v) G k)).
Proof.
  move=> Hwn Hd [Hn Hb]. have Hnw : (0 < size wn)%nat by case: wn Hwn {Hb}.
  have HN : (0 <= N)%Z. { have := Hb _ (wat_in Hnw). lia. }
  rewrite /schwinger_dyson_dc BubbleP.half2 zeros_frow //.
  rewrite (@single_loop qs (frow nc) _ (fun i v => u * 1 / nq * seq.nth 0 dup i * \sum_(j < size wn) ker i j v * G (kplusq k (qat qs i)) (v - wat wn j)%Z)).
  - f_equal. apply: frow_ext => v _. rewrite /lattice_sde mulr_sumr (mulr1 nq). apply: eq_bigr => i _. rewrite !mulr_sumr. apply: eq_bigr => j _.
    set g := G _ _. set c := ker i j v. set d := seq.nth 0 dup i. move: nq^-1 d c g => a d c g. to_K F. ring.
  - move=> f g E. apply: frow_ext => v _. exact: E.
  - move=> i f Hi /=. rewrite shift_kplusq Hgiwk.
    have -> : wn_slices_gen (frow N (G (kplusq k (qat qs i)))) nc wn = Ok (mkseq (fun j => frow nc (fun v => G (kplusq k (qat qs i)) (v - wat wn j)%Z)) (size wn)).
      rewrite /wn_slices_gen half_frow //. rewrite (@rows_same _ _ (2 * nc)%Z).
      + f_equal. rewrite (map_mkseq _ 0%Z). apply: (@eq_from_nth _ [::]); rewrite ?size_mkseq // => j Hj. rewrite !nth_mkseq //.
        have Hbj := Hb _ (wat_in Hj). rewrite -/(wat wn j). have -> : (N - nc - wat wn j = N - nc + (- wat wn j))%Z by lia. have -> : (N + nc - wat wn j = N + nc + (- wat wn j))%Z by lia.
        by rewrite frow_window; [|lia|lia].
      + move=> r /in_map_iff [w [<- /Hb Hw]]. rewrite zlen_slice_in ?zlen_frow //; lia.
    rewrite [bind _ _]/= (@py_get_nat _ _ 0) ?Hd // [bind _ _]/= /arr3 py_get_arr2 // [bind _ _]/=.
    rewrite /np_map22 np2_mkseq [bind _ _]/=.
    have -> : mkseq (fun j => np_map2 (fun x y => x * y) (frow nc (ker i j)) (frow nc (fun v => G (kplusq k (qat qs i)) (v - wat wn j)%Z))) (size wn) =
      mkseq (fun j => Ok (frow nc (fun v => ker i j v * G (kplusq k (qat qs i)) (v - wat wn j)%Z))) (size wn) by apply: eq_mkseq => j; rewrite frow_np2.
    rewrite sequence_mkseq [bind _ _]/= sum_frow // frow_map /iadd frow_np2 //.
Qed.
End Values.
