(** Results about Model/Bubble.v. *)
From mathcomp Require Import all_ssreflect all_algebra.
From mathcomp.real_closed Require Import complex.
From Coq Require Import String ZArith Lia.
From Verif Require Import Base.PyBase Base.PyFacts Base.FieldTac Model.Matsubara Proofs.MatsubaraP Model.TwoPoint Model.Bubble Spec.TwoPointSpec Spec.BubbleSpec.
From Verif Require Import Proofs.TwoPointP Proofs.TwoPointFillP.
Import Order.TTheory GRing.Theory Num.Theory.
Set Implicit Arguments. Unset Strict Implicit. Unset Printing Implicit Defensive.
Local Open Scope ring_scope.
Local Open Scope complex_scope.

Section Rows.
Variable A : Type.
Implicit Types f g : Z -> A.
Lemma zlen_frow n f : (0 <= n)%Z -> zlen (frow n f) = (2 * n)%Z.
Proof. move=> H. rewrite /frow zlen_map zlen_arange. lia. Qed.
Lemma zget_frow n f i : (0 <= i < 2 * n)%Z -> zget (frow n f) i = Some (f (i - n)%Z).
Proof. move=> H. rewrite /frow zget_map zget_arange /=; [|lia]. do 2 f_equal. lia. Qed.
Lemma zlen_brow n f : (0 <= n)%Z -> zlen (brow n f) = (2 * n + 1)%Z.
Proof. move=> H. rewrite /brow zlen_map zlen_arange. lia. Qed.
Lemma zget_brow n f i : (0 <= i <= 2 * n)%Z -> zget (brow n f) i = Some (f (i - n)%Z).
Proof. move=> H. rewrite /brow zget_map zget_arange /=; [|lia]. do 2 f_equal. lia. Qed.
Lemma frow_ext n f g : (forall v, (- n <= v < n)%Z -> f v = g v) -> frow n f = frow n g.
Proof. move=> H. apply: List.map_ext_in => v Hv. apply: H. move/In_arange: Hv. lia. Qed.
Lemma brow_ext n f g : (forall v, (- n <= v <= n)%Z -> f v = g v) -> brow n f = brow n g.
Proof. move=> H. apply: List.map_ext_in => v Hv. apply: H. move/In_arange: Hv. lia. Qed.
Lemma frow_window N n s f : (0 <= n)%Z -> (n + Z.abs s <= N)%Z -> slice (frow N f) (N - n + s) (N + n + s) = frow n (fun v => f (v + s)%Z).
Proof.
  move=> Hn Hs. apply: zget_ext; first by rewrite zlen_slice_in ?zlen_frow; lia.
  move=> i. rewrite zlen_slice_in ?zlen_frow; [|lia|lia|lia]. move=> Hi. rewrite zget_slice_in ?zlen_frow; [|lia|lia|lia|lia].
  rewrite !zget_frow; [|lia|lia]. do 2 f_equal. lia.
Qed.
Lemma frow_cut N n f : (0 <= n <= N)%Z -> cut_v_1d (frow N f) n = frow n f.
Proof.
  move=> H. have HL : zlen (frow N f) = (2 * N)%Z by apply: zlen_frow; lia. have [L V] := @cut_v_spec A _ N n HL ltac:(lia).
  apply: zget_ext; first by rewrite L zlen_frow; lia. rewrite L => i Hi. have := V (i - n)%Z ltac:(lia). replace (n + (i - n))%Z with i by lia. move=> ->.
  rewrite !zget_frow; [|lia|lia]. do 2 f_equal. lia.
Qed.
Lemma frow_map2 B D n (f : Z -> A) (g : Z -> B) (h : A -> B -> D) : (0 <= n)%Z -> map2 h (frow n f) (frow n g) = frow n (fun v => h (f v) (g v)).
Proof.
  move=> Hn. rewrite /frow. elim: (arange _ _) => //= a l IH. by rewrite IH.
Qed.
Lemma frow_map B n f (h : A -> B) : map h (frow n f) = frow n (fun v => h (f v)).
Proof. by rewrite /frow List.map_map. Qed.
Lemma brow_map B n f (h : A -> B) : map h (brow n f) = brow n (fun v => h (f v)).
Proof. by rewrite /brow List.map_map. Qed.
Lemma wn_brow n : Matsubara.wn n 0 false = brow n id.
Proof. rewrite /Matsubara.wn /brow List.map_id. f_equal; lia. Qed.
(** completion to negative bosonic frequencies *)
Lemma bos_complete n f (cj : A -> A) : (0 <= n)%Z -> (forall w, (0 < w <= n)%Z -> cj (f w) = f (- w)%Z) ->
  bosonic_full_nu_range cj (map f (Matsubara.wn n 0 true)) = brow n f.
Proof.
  move=> Hn H. set m := map _ _. have HL : zlen m = (n + 1)%Z by rewrite /m zlen_map /Matsubara.wn zlen_arange; lia.
  have HG : forall w, (0 <= w <= n)%Z -> zget m w = Some (f w) by move=> w Hw; rewrite /m zget_map /Matsubara.wn zget_arange /=; [|lia].
  apply: zget_ext; first by rewrite bosonic_len ?HL ?zlen_brow; lia.
  rewrite bosonic_len ?HL; [|lia]. move=> i Hi. rewrite zget_brow; [|lia]. case: (Z.leb_spec n i) => Hc.
  - replace i with (zlen m - 1 + (i - n))%Z at 1 by lia. rewrite bosonic_pos; [|lia|lia]. by apply: HG; lia.
  - replace i with (zlen m - 1 - (n - i))%Z at 1 by lia. rewrite bosonic_neg; [|lia]. rewrite HG /=; [|lia]. rewrite H; [|lia]. do 2 f_equal. lia.
Qed.
Lemma frow_rev n f (cj : A -> A) : (0 <= n)%Z -> map cj (rev (frow n f)) = frow n (fun v => cj (f (- v - 1)%Z)).
Proof.
  move=> Hn. apply: zget_ext; first by rewrite zlen_map zlen_rev !zlen_frow. rewrite zlen_map zlen_rev zlen_frow // => i Hi.
  rewrite zget_map zget_rev ?zlen_frow //. rewrite !zget_frow; [|lia|lia]. by rewrite /= (_ : 2 * n - 1 - i - n = - (i - n) - 1)%Z //; lia.
Qed.
End Rows.
Lemma bos2_complete A nw nv (f : Z -> Z -> A) (cj : A -> A) : (0 <= nw)%Z -> (0 <= nv)%Z ->
  (forall w v, (0 < w <= nw)%Z -> (- nv <= v < nv)%Z -> cj (f w (- v - 1)%Z) = f (- w)%Z v) ->
  bosonic_full_nu_range_2 cj (map (fun w => frow nv (f w)) (Matsubara.wn nw 0 true)) = brow nw (fun w => frow nv (f w)).
Proof.
  move=> Hn Hv H. change (bosonic_full_nu_range (fun row => map cj (rev row)) (map (fun w => frow nv (f w)) (Matsubara.wn nw 0 true)) = brow nw (fun w => frow nv (f w))).
  apply: bos_complete => // w Hw. rewrite frow_rev //. apply: frow_ext => v Hv'. exact: H.
Qed.
Lemma mapM_map A B (f : A -> res B) (g : A -> B) l : (forall x, In x l -> f x = Ok (g x)) -> mapM f l = Ok (map g l).
Proof. exact: mapM_total. Qed.

Section Local.
Variable R : rcfType.
Notation C := R[i].
Implicit Types (G : Z -> C) (c : conv) (beta : R).
Lemma shift_conv c w : get_freq_shift w (name c) = Ok (sh1 c w, sh2 c w).
Proof. case: c => //=. rewrite /get_freq_shift /=. do 2 f_equal. have := Z.div_mod w 2. lia. Qed.
Lemma sh1_le c w : (Z.abs (sh1 c w) <= Z.abs w)%Z. Proof. case: c => /=; lia. Qed.
Lemma sh2_le c w : (Z.abs (sh2 c w) <= Z.abs w)%Z. Proof. case: c => /=; lia. Qed.
Lemma half2 N : (2 * N / 2 = N)%Z. Proof. lia. Qed.
Lemma gchi0_ok N G beta niv w c : (0 <= niv)%Z -> (niv + Z.abs w <= N)%Z ->
  get_gchi0 (frow N G) beta niv w (name c) = Ok (frow niv (bub beta G c w)).
Proof.
  move=> Hn Hw. have H1 := @sh1_le c w. have H2 := @sh2_le c w. rewrite /get_gchi0 zlen_frow; [|lia]. rewrite half2 shift_conv /=.
  rewrite !frow_window; [|lia|lia|lia|lia]. rewrite /np_map2 !zlen_frow // Z.eqb_refl. by rewrite frow_map2.
Qed.
Lemma rows_ok nv (l : list Z) (f : Z -> Z -> C) : (0 <= nv)%Z -> np_array_rows (map (fun w => frow nv (f w)) l) = Ok (map (fun w => frow nv (f w)) l).
Proof. move=> H. apply: (@np_array_rows_ok _ _ (2 * nv)%Z) => r /List.in_map_iff [w [<- _]]. exact: zlen_frow. Qed.
Lemma vec_gchi0_ok N G beta niv wn c : (0 <= niv)%Z -> (forall w, In w wn -> (niv + Z.abs w <= N)%Z) ->
  vec_get_gchi0 (frow N G) beta niv wn (name c) false = Ok (map (fun w => frow niv (bub beta G c w)) wn).
Proof.
  move=> Hn Hw. rewrite /vec_get_gchi0 (@mapM_map _ _ _ (fun w => frow niv (bub beta G c w))) /=; [exact: rows_ok|].
  move=> w Hin. apply: gchi0_ok => //. exact: Hw.
Qed.
Lemma full_wn_len nw : (0 <= nw)%Z -> niw_from_len (zlen (Matsubara.wn nw 0 false)) false = nw.
Proof. move=> H. rewrite zlen_wn // /niw_from_len. lia. Qed.
Lemma in_wn_pos nw w : In w (Matsubara.wn nw 0 true) -> (0 <= w <= nw)%Z.
Proof. rewrite /Matsubara.wn => /In_arange. lia. Qed.
(** the shortcut in general: what it returns *)
Lemma vec_gchi0_full N G beta niv nw c : (0 <= niv)%Z -> (0 <= nw)%Z -> (niv + nw <= N)%Z ->
  vec_get_gchi0 (frow N G) beta niv (Matsubara.wn nw 0 false) (name c) true =
  Ok (brow nw (fun w => frow niv (fun v => if Z.leb 0 w then bub beta G c w v else conjc (bub beta G c (- w) (- v - 1)%Z)))).
Proof.
  move=> Hn Hw HN. rewrite /vec_get_gchi0 full_wn_len // (@mapM_map _ _ _ (fun w => frow niv (bub beta G c w))); last first.
  { move=> w /in_wn_pos Hin. apply: gchi0_ok => //. lia. }
  rewrite /= rows_ok //=. f_equal.
  pose f w v := if Z.leb 0 w then bub beta G c w v else conjc (bub beta G c (- w) (- v - 1)%Z).
  have -> : map (fun w => frow niv (bub beta G c w)) (Matsubara.wn nw 0 true) = map (fun w => frow niv (f w)) (Matsubara.wn nw 0 true).
  { apply: List.map_ext_in => w /in_wn_pos Hin. rewrite /f. by case: (Z.leb_spec 0 w) => //; lia. }
  rewrite (@bos2_complete _ nw niv f) // => w v Hw' Hv. rewrite /f. case: (Z.leb_spec 0 w); case: (Z.leb_spec 0 (- w)); try lia. move=> _ _.
  by rewrite Z.opp_involutive.
Qed.
Lemma bub_conj beta G c w v : conj_symmetric G -> conjc (bub beta G c (- w) (- v - 1)%Z) = - beta%:C * G (v - sh1 c (- w))%Z * G (v - sh2 c (- w))%Z.
Proof.
  move=> H. have Hc : conjc (- beta%:C) = - beta%:C by rewrite -[in RHS](conjc_real beta) (rmorphN (RMorphism (@conjc_is_rmorphism R))).
  rewrite /bub !conjM Hc -!H. congr (_ * G _ * G _); lia.
Qed.
(** correct for 'plus' and 'minus' and for even frequencies *)
Lemma bub_neg_ok beta G c w v : conj_symmetric G -> (c <> Center \/ w mod 2 = 0)%Z -> conjc (bub beta G c (- w) (- v - 1)%Z) = bub beta G c w v.
Proof.
  move=> H Hc. rewrite bub_conj // /bub. case: c Hc => /= [_|_|[|E]] //.
  - by congr (_ * G _ * G _); lia.
  - by congr (_ * G _ * G _); lia.
  - have E2 := Z.div_mod w 2 ltac:(lia). rewrite E in E2. have E3 : (- w / 2 = - (w / 2))%Z by rewrite {1}E2; lia.
    congr (_ * G _ * G _); lia.
Qed.
(** for odd frequencies and 'center' the row of -w is moved by one *)
Lemma bub_neg_center beta G w v : conj_symmetric G -> (w mod 2 = 1)%Z -> conjc (bub beta G Center (- w) (- v - 1)%Z) = bub beta G Center w (v + 1)%Z.
Proof.
  move=> H E. rewrite bub_conj // /bub /=. have E2 := Z.div_mod w 2 ltac:(lia). rewrite E in E2.
  have E3 : (- w / 2 = - (w / 2) - 1)%Z by rewrite {1}E2; lia. congr (_ * G _ * G _); lia.
Qed.
Lemma vec_gchi0_shortcut N G beta niv nw c : conj_symmetric G -> c <> Center -> (0 <= niv)%Z -> (0 <= nw)%Z -> (niv + nw <= N)%Z ->
  vec_get_gchi0 (frow N G) beta niv (Matsubara.wn nw 0 false) (name c) true = Ok (brow nw (fun w => frow niv (bub beta G c w))).
Proof.
  move=> H Hc H1 H2 H3. rewrite vec_gchi0_full //. f_equal. apply: brow_ext => w Hw. apply: frow_ext => v Hv.
  case: (Z.leb_spec 0 w) => // _. apply: bub_neg_ok => //. by left.
Qed.
(** summed bubble *)
Lemma lsum_frow n (f : Z -> C) : lsum (frow n f) = freq_sum n f.
Proof.
  case: (Z.leb_spec 0 n) => Hn.
  - apply: lsum_on_grid. split; [exact: zlen_frow|]. move=> v Hv. rewrite zget_frow; [|lia]. do 2 f_equal. lia.
  - rewrite /frow /freq_sum (_ : arange (- n) n = nil); last by rewrite /arange (_ : Z.to_nat _ = O) //; lia.
    rewrite (_ : Z.to_nat (2 * n) = O); [|lia]. by rewrite /lsum big_nil big_geq.
Qed.
Lemma chi0_sum_ok N G beta niv w c : beta != 0 -> (0 <= niv)%Z -> (niv + Z.abs w <= N)%Z ->
  get_chi0_sum (frow N G) beta niv w (name c) = Ok (contract_legs beta (frow niv (bub beta G c w))).
Proof.
  move=> Hb Hn Hw. have H1 := @sh1_le c w. have H2 := @sh2_le c w. rewrite /get_chi0_sum zlen_frow; [|lia]. rewrite half2 shift_conv /=.
  rewrite !frow_window; [|lia|lia|lia|lia]. rewrite /np_map2 !zlen_frow // Z.eqb_refl frow_map2 //=. f_equal.
  rewrite /contract_legs !lsum_frow /freq_sum !big_distrr /=. apply: eq_bigr => i _. rewrite /bub.
  have Hb' : beta%:C != 0 by apply: contra_neq Hb => E; exact: (congr1 (@complex.Re R) E). rewrite !mulrA. congr (_ * _ * _).
  by rewrite mulrN mulN1r expr2 invfM mul1r -mulrA mulVf // mulr1.
Qed.
Lemma freq_sum_rev n (f : Z -> C) : freq_sum n (fun v => f (- v - 1)%Z) = freq_sum n f.
Proof.
  rewrite /freq_sum [RHS]big_nat_rev. apply: eq_big_nat => i /andP [_ /ssrnat.ltP Hi]. congr f. rewrite add0n -subnE_. lia.
Qed.
Lemma contract_conj n beta (f : Z -> C) : conjc (contract_legs beta (frow n f)) = contract_legs beta (frow n (fun v => conjc (f (- v - 1)%Z))).
Proof.
  have Hb : conjc (1 / beta%:C ^+ 2) = 1 / beta%:C ^+ 2.
  { rewrite !div1r [LHS](fmorphV (RMorphism (@conjc_is_rmorphism R))). congr (_ ^-1). rewrite [LHS](rmorphX (RMorphism (@conjc_is_rmorphism R))). congr (_ ^+ 2). exact: conjc_real. }
  rewrite /contract_legs conjM Hb !lsum_frow. congr (_ * _). rewrite -(freq_sum_rev n (fun v => conjc (f (- v - 1)%Z))) /freq_sum [LHS](rmorph_sum (RMorphism (@conjc_is_rmorphism R))).
  apply: eq_bigr => i _ /=. congr (conjc (f _)). lia.
Qed.
Lemma vec_chi0_sum_ok N G beta niv wn c : beta != 0 -> (0 <= niv)%Z -> (forall w, In w wn -> (niv + Z.abs w <= N)%Z) ->
  vec_get_chi0_sum (frow N G) beta niv wn (name c) false = Ok (map (fun w => contract_legs beta (frow niv (bub beta G c w))) wn).
Proof. move=> Hb Hn Hw. apply: mapM_map => w Hin. apply: chi0_sum_ok => //. exact: Hw. Qed.
Lemma vec_chi0_sum_shortcut N G beta niv nw c : beta != 0 -> conj_symmetric G -> c <> Center -> (0 <= niv)%Z -> (0 <= nw)%Z -> (niv + nw <= N)%Z ->
  vec_get_chi0_sum (frow N G) beta niv (Matsubara.wn nw 0 false) (name c) true = Ok (brow nw (fun w => contract_legs beta (frow niv (bub beta G c w)))).
Proof.
  move=> Hb HG Hc Hn Hw HN. rewrite /vec_get_chi0_sum full_wn_len // (@mapM_map _ _ _ (fun w => contract_legs beta (frow niv (bub beta G c w)))); last first.
  { move=> w /in_wn_pos Hin. apply: chi0_sum_ok => //. lia. }
  rewrite /=. f_equal. apply: bos_complete => // w Hw'. rewrite contract_conj. congr (contract_legs _ _). apply: frow_ext => v _.
  have := @bub_neg_ok beta G c (- w)%Z v HG (or_introl Hc). by rewrite Z.opp_involutive.
Qed.
End Local.

Section Lattice.
Variable R : rcfType.
Notation C := R[i].
Variables nx ny nz : nat.
Notation K := (mesh nx ny nz).
Implicit Types (G : K -> Z -> C) (c : conv) (beta : R) (q : Z * Z * Z).
Lemma roll_addq n (q : Z) (i : 'I_n) : roll_ord (- q) i = addq q i.
Proof. apply: val_inj => /=. by rewrite Z.sub_opp_r. Qed.
Lemma shift_kplusq A (g : K -> A) q k : shift_mat_by_ind g (neg_ind q) k = g (kplusq k q).
Proof. by rewrite /shift_mat_by_ind /neg_ind /kplusq /= !roll_addq. Qed.
Lemma slice_len_win N niv s : (0 <= niv)%Z -> (niv + Z.abs s <= N)%Z -> slice_len (2 * N) (N - niv + s) (N + niv + s) = (2 * niv)%Z.
Proof. move=> H H'. rewrite /slice_len /clampi. do 2 case: Z.ltb_spec; lia. Qed.
Lemma kmean_frow n (g : K -> Z -> C) (h : K -> list C) : (0 <= n)%Z -> (forall k, h k = frow n (g k)) ->
  kmean_v (Z.to_nat (2 * n)) h = frow n (fun v => (\sum_(k : K) g k v) / #|{: K}|%:R).
Proof.
  move=> Hn H. apply: zget_ext; first by rewrite zlen_kmean zlen_frow; lia. rewrite zlen_kmean => i Hi. rewrite zget_kmean; [|lia]. rewrite zget_frow; [|lia].
  do 2 f_equal. apply: eq_bigr => k _. rewrite /entry H. apply: zget_eq_nth. rewrite zget_frow; [|lia]. by [].
Qed.
Lemma q_row_ok N G niv s1 s2 q giwk : (forall k, giwk k = frow N (G k)) -> (0 <= niv)%Z -> (niv + Z.abs s1 <= N)%Z -> (niv + Z.abs s2 <= N)%Z ->
  gchi0_q_row giwk (2 * N) niv s1 s2 q = Ok (frow niv (fun v => (\sum_(k : K) G k (v + s1)%Z * G (kplusq k q) (v + s2)%Z) / #|{: K}|%:R)).
Proof.
  move=> Hg Hn H1 H2. rewrite /gchi0_q_row half2 !slice_len_win // Z.eqb_refl. f_equal.
  apply: kmean_frow => // k. rewrite shift_kplusq !Hg !frow_window //. by rewrite frow_map2.
Qed.
Lemma gchi0_q_ok N G beta niv w q c giwk : (forall k, giwk k = frow N (G k)) -> (0 <= niv)%Z -> (niv + Z.abs w <= N)%Z ->
  get_gchi0_q giwk (2 * N) beta niv w q (name c) = Ok (frow niv (qbub beta G c q w)).
Proof.
  move=> Hg Hn Hw. have H1 := @sh1_le c w. have H2 := @sh2_le c w. rewrite /get_gchi0_q shift_conv /= (@q_row_ok N G); [|done|lia|lia|lia].
  by rewrite /= frow_map.
Qed.
Lemma chi0_q_ok N G beta niv w q c giwk : beta != 0 -> (forall k, giwk k = frow N (G k)) -> (0 <= niv)%Z -> (niv + Z.abs w <= N)%Z ->
  get_chi0_q giwk (2 * N) beta niv w q (name c) = Ok (contract_legs beta (frow niv (qbub beta G c q w))).
Proof.
  move=> Hb Hg Hn Hw. have H1 := @sh1_le c w. have H2 := @sh2_le c w. rewrite /get_chi0_q shift_conv /= (@q_row_ok N G); [|done|lia|lia|lia].
  rewrite /=. f_equal. rewrite /contract_legs !lsum_frow /freq_sum !big_distrr /=. apply: eq_bigr => i _. rewrite /qbub.
  have Hb' : beta%:C != 0 by apply: contra_neq Hb => E; exact: (congr1 (@complex.Re R) E). rewrite !mulrA. congr (_ * _ / _).
  by rewrite mulrN mulN1r expr2 invfM mul1r -mulrA mulVf // mulr1.
Qed.
Lemma max_abs_fold (l : list Z) a : (forall w, In w l -> (Z.abs w <= fold_left (fun m x => Z.max m (Z.abs x)) l a)%Z) /\ (a <= fold_left (fun m x => Z.max m (Z.abs x)) l a)%Z
  /\ (fold_left (fun m x => Z.max m (Z.abs x)) l a = a \/ exists w, In w l /\ fold_left (fun m x => Z.max m (Z.abs x)) l a = Z.abs w).
Proof.
  elim: l a => [|x l IH] a /=; first by split=> //; split; [lia|left]. have [H1 [H2 H3]] := IH (Z.max a (Z.abs x)). split; [|split].
  - move=> w [<-|Hw]; [lia|exact: H1].
  - lia.
  - case: H3 => [E|[w [Hw E]]]; [|by right; exists w; split=> //; right]. rewrite E. case: (Z.max_spec a (Z.abs x)) => [[_ ->]|[_ ->]]; [right; exists x|left] => //. by split=> //; left.
Qed.
Lemma max_abs_ok wn : wn <> nil -> exists m, [/\ max_abs wn = Ok m, (forall w, In w wn -> (Z.abs w <= m)%Z) & exists w, In w wn /\ m = Z.abs w].
Proof.
  case: wn => // a l _. have [H1 [H2 H3]] := max_abs_fold l (Z.abs a). eexists; split; [reflexivity| |].
  - move=> w [<-|]; [exact: H2|exact: H1].
  - case: H3 => [E|[w [Hw E]]]; [exists a|exists w]; split=> //; [by left|by right].
Qed.
Lemma max_abs_wnpos nw : (0 <= nw)%Z -> max_abs (Matsubara.wn nw 0 true) = Ok nw.
Proof.
  move=> H. have Hne : Matsubara.wn nw 0 true <> nil by rewrite /Matsubara.wn => E; have := zlen_arange 0 (nw + 0 + 1)%Z; rewrite E /zlen /=; lia.
  have [m [-> H1 [w [Hw E]]]] := @max_abs_ok _ Hne. f_equal. move/in_wn_pos: Hw => Hw.
  have Hin : In nw (Matsubara.wn nw 0 true) by rewrite /Matsubara.wn; apply/In_arange; lia. have := H1 _ Hin. lia.
Qed.
Section Cut.
Variables (N : Z) (G : K -> Z -> C) (beta : R) (niv : Z) (c : conv).
Hypothesis Hn : (0 <= niv)%Z.
Let giwk (k : K) := frow N (G k).
Lemma cut_len m : (0 <= m)%Z -> (niv + m <= N)%Z -> (let c := (if Z.eqb (niv + m) (-1) then 2 * N / 2 else niv + m)%Z in
  slice_len (2 * N) (2 * N / 2 - c) (2 * N / 2 + c)) = (2 * (niv + m))%Z.
Proof. move=> H1 H2. case: Z.eqb_spec; [lia|] => _. rewrite half2 /slice_len /clampi. do 2 case: Z.ltb_spec; lia. Qed.
Lemma vec_gchi0_q_ok wn qs : wn <> nil -> (forall w, In w wn -> (niv + Z.abs w <= N)%Z) ->
  vec_get_gchi0_q giwk (2 * N) beta niv wn qs (name c) false = Ok (map (fun q => map (fun w => frow niv (qbub beta G c q w)) wn) qs).
Proof.
  move=> Hne Hw. have [m [Em Hm [w0 [Hw0 Em0]]]] := @max_abs_ok _ Hne. have Hw0' := Hw _ Hw0. rewrite /vec_get_gchi0_q /wn_bub Em /=.
  have /= -> := @cut_len m ltac:(lia) ltac:(lia). apply: mapM_map => q _.
  rewrite (@mapM_map _ _ _ (fun w => frow niv (qbub beta G c q w))) //= => w Hin. have Hwm := Hm _ Hin.
  rewrite (@gchi0_q_ok (niv + m) G); [|by move=> k; rewrite /giwk frow_cut //; lia|lia|lia]. by rewrite /= /fits zlen_frow // Z.eqb_refl.
Qed.
Lemma vec_chi0_q_ok wn qs : beta != 0 -> wn <> nil -> (forall w, In w wn -> (niv + Z.abs w <= N)%Z) ->
  vec_get_chi0_q giwk (2 * N) beta niv wn qs (name c) false = Ok (map (fun q => map (fun w => contract_legs beta (frow niv (qbub beta G c q w))) wn) qs).
Proof.
  move=> Hb Hne Hw. have [m [Em Hm [w0 [Hw0 Em0]]]] := @max_abs_ok _ Hne. have Hw0' := Hw _ Hw0. rewrite /vec_get_chi0_q /wn_bub Em /=.
  have /= -> := @cut_len m ltac:(lia) ltac:(lia). apply: mapM_map => q _.
  rewrite (@mapM_map _ _ _ (fun w => contract_legs beta (frow niv (qbub beta G c q w)))) //= => w Hin. have Hwm := Hm _ Hin.
  by rewrite (@chi0_q_ok (niv + m) G) //; [move=> k; rewrite /giwk frow_cut //; lia|lia].
Qed.
Hypothesis Hs : forall k, conj_symmetric (G k).
Lemma qbub_conj q w v : conjc (qbub beta G c q (- w) (- v - 1)%Z) = - beta%:C * ((\sum_(k : K) G k (v - sh1 c (- w))%Z * G (kplusq k q) (v - sh2 c (- w))%Z) / #|{: K}|%:R).
Proof.
  have Hc : conjc (- beta%:C) = - beta%:C by rewrite -[in RHS](conjc_real beta) (rmorphN (RMorphism (@conjc_is_rmorphism R))).
  rewrite /qbub conjM Hc conjM. congr (_ * (_ * _)).
  - rewrite (rmorph_sum (RMorphism (@conjc_is_rmorphism R))). apply: eq_bigr => k _. rewrite [LHS](rmorphM (RMorphism (@conjc_is_rmorphism R))) /=. rewrite -!Hs.
    congr (G _ _ * G _ _); lia.
  - rewrite [LHS](fmorphV (RMorphism (@conjc_is_rmorphism R))). by rewrite (rmorph_nat (RMorphism (@conjc_is_rmorphism R))).
Qed.
Lemma qbub_neg_ok q w v : (c <> Center \/ w mod 2 = 0)%Z -> conjc (qbub beta G c q (- w) (- v - 1)%Z) = qbub beta G c q w v.
Proof.
  move=> Hc. rewrite qbub_conj /qbub. congr (_ * (_ / _)). apply: eq_bigr => k _.
  case: c Hc => /= [_|_|[|E]] //; try by congr (G _ _ * G _ _); lia.
Qed.
Lemma vec_gchi0_q_shortcut nw qs : c <> Center -> (0 <= nw)%Z -> (niv + nw <= N)%Z ->
  vec_get_gchi0_q giwk (2 * N) beta niv (Matsubara.wn nw 0 false) qs (name c) true = Ok (map (fun q => brow nw (fun w => frow niv (qbub beta G c q w))) qs).
Proof.
  move=> Hc Hw HN. rewrite /vec_get_gchi0_q /wn_bub full_wn_len // max_abs_wnpos //=.
  have /= -> := @cut_len nw ltac:(lia) ltac:(lia). apply: mapM_map => q _.
  rewrite (@mapM_map _ _ _ (fun w => frow niv (qbub beta G c q w))) /=; last first.
  { move=> w /in_wn_pos Hin. rewrite (@gchi0_q_ok (niv + nw) G); [|by move=> k; rewrite /giwk frow_cut //; lia|lia|lia]. by rewrite /= /fits zlen_frow // Z.eqb_refl. }
  f_equal. apply: bos2_complete => // w v Hw' Hv. have := @qbub_neg_ok q (- w)%Z v (or_introl Hc). by rewrite Z.opp_involutive.
Qed.
Lemma vec_chi0_q_shortcut nw qs : beta != 0 -> c <> Center -> (0 <= nw)%Z -> (niv + nw <= N)%Z ->
  vec_get_chi0_q giwk (2 * N) beta niv (Matsubara.wn nw 0 false) qs (name c) true = Ok (map (fun q => brow nw (fun w => contract_legs beta (frow niv (qbub beta G c q w)))) qs).
Proof.
  move=> Hb Hc Hw HN. rewrite /vec_get_chi0_q /wn_bub full_wn_len // max_abs_wnpos //=.
  have /= -> := @cut_len nw ltac:(lia) ltac:(lia). apply: mapM_map => q _.
  rewrite (@mapM_map _ _ _ (fun w => contract_legs beta (frow niv (qbub beta G c q w)))) /=; last first.
  { move=> w /in_wn_pos Hin. by rewrite (@chi0_q_ok (niv + nw) G) //; [move=> k; rewrite /giwk frow_cut //; lia|lia]. }
  f_equal. apply: bos_complete => // w Hw'. rewrite contract_conj. congr (contract_legs _ _). apply: frow_ext => v _.
  have := @qbub_neg_ok q (- w)%Z v (or_introl Hc). by rewrite Z.opp_involutive.
Qed.
End Cut.
End Lattice.
