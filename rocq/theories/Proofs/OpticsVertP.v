(** The vertex contribution to the current-current correlation function (Model/Optics.v). *)
From mathcomp Require Import all_ssreflect all_algebra.
From mathcomp.real_closed Require Import complex.
From Coq Require Import String ZArith Lia Permutation.
From Verif Require Import Base.PyBase Base.PyFacts Base.FieldTac Base.Arr Model.Matsubara Model.MpiAux Model.TwoPoint Model.Bubble Model.Optics.
From Verif Require Import Spec.BubbleSpec Spec.TwoPointSpec Spec.LatticeSdeSpec Spec.OpticsSpec.
From Verif Require Import Proofs.MatsubaraP Proofs.MpiAuxP Proofs.BubbleP Proofs.BubbleLatP Proofs.LatticeSdeP Proofs.LatticeBseP Proofs.DgaMainP Proofs.LocalSDEP Proofs.TwoPointP Proofs.TwoPointFillP Proofs.OpticsP Proofs.LatticeSymP.
Import GRing.Theory Num.Theory.
Set Implicit Arguments. Unset Strict Implicit. Unset Printing Implicit Defensive.
Local Open Scope ring_scope.
Local Open Scope complex_scope.

Section V.
Variable R : rcfType.
Notation C := R[i].
Variables nx ny nz : nat.
Notation K := (mesh nx ny nz).
Variables (N : Z) (G : K -> Z -> C) (giwk : K -> list C).
Hypothesis Hg : forall k, giwk k = frow N (G k).
Variables (a b : K -> C) (beta : R) (wps : list Z) (n w : Z).
Hypothesis Hn : (0 <= n)%Z.
Hypothesis Hw : forall wp, List.In wp wps -> (n + Z.abs wp + Z.abs w <= N)%Z.
Hypothesis Hw0 : (n + Z.abs w <= N)%Z.
Lemma vertex_row_ok (f : nat -> Z -> C) q k :
  vertex_row giwk (N - n) (N + n) w a b wps (mkseq (fun j => frow n (f j)) (size wps)) q k =
  Ok (frow n (fun v => a k * b (kplusq k q) * G k (v - w)%Z * G k v *
      (\sum_(j < size wps) G (kplusq k q) (v - wat wps j)%Z * G (kplusq k q) (v - wat wps j - w)%Z * f j v))).
Proof.
  rewrite /vertex_row !shift_kplusq !Hg.
  have W : forall (k : K) s x y, (n + Z.abs s <= N)%Z -> x = (N - n + s)%Z -> y = (N + n + s)%Z -> slice (frow N (G k)) x y = frow n (fun v => G k (v + s)%Z).
    move=> k' s x y Hs -> ->. exact: frow_window.
  rewrite (W k (- w)%Z); try lia. rewrite (W k 0%Z); try lia. rewrite frow_map frow_np2 // [bind (Ok _) _]/=.
  pose P i : option (list C) := if i is 0%nat then None else
    Some (frow n (fun v => \sum_(j < i) G (kplusq k q) (v - wat wps j)%Z * G (kplusq k q) (v - wat wps j - w)%Z * f j v)).
  rewrite (enumerate_mkseq 0%Z) (@foldM_mkseq _ _ _ _ _ P); last first.
    move=> i Hi /=. have Hin : List.In (wat wps i) wps by exact: wat_in. have Hb := Hw Hin.
    rewrite (W _ (- wat wps i)%Z); [|lia|rewrite /wat; lia|rewrite /wat; lia]. rewrite (W _ (- wat wps i - w)%Z); [|lia|rewrite /wat; lia|rewrite /wat; lia].
    rewrite (@py_get_nat _ _ [::]) ?size_mkseq // nth_mkseq // [bind (Ok _) _]/= frow_np2 // [bind (Ok _) _]/= frow_np2 // [bind (Ok _) _]/=.
    case: i Hi Hin Hb => [|i] Hi Hin Hb /=.
    - do 2 f_equal. apply: frow_ext => v _. rewrite big_ord_recl big_ord0 addr0 /=. congr (G _ _ * G _ _ * _); rewrite /wat; lia.
    - rewrite frow_np2 // [bind (Ok _) _]/=. do 2 f_equal. apply: frow_ext => v _. rewrite [RHS]big_ord_recr /=. congr (_ + G _ _ * G _ _ * _); rewrite /wat; lia.
  rewrite [bind (Ok _) _]/= /P. case E: (size wps) => [|m].
  - f_equal. rewrite frow_map. apply: frow_ext => v _. by rewrite big_ord0 !mulr0.
  - rewrite frow_np2 //. f_equal. apply: frow_ext => v _. congr (_ * _ * G k _ * G k _ * _); lia.
Qed.
Lemma chijj_vertex_ok (f : nat -> nat -> Z -> C) qs nk : 
  get_chijj_vertex (arr3 (size qs) (size wps) n f) (2 * n) a b giwk (2 * N) beta w wps qs (Z.of_nat nk) = Ok (chijj1 beta nk a b G qs wps n w f).
Proof.
  rewrite /get_chijj_vertex /niv_from_len !half2 (enumerate_mkseq (0%Z, 0%Z, 0%Z)).
  pose P m := \sum_(i < m) chijj1_q a b G wps n w (qat qs i) (f i).
  rewrite -[X in foldM _ _ X](_ : P 0%nat = 0); last by rewrite /P big_ord0.
  rewrite (@foldM_mkseq _ _ _ _ _ P); last first.
    move=> i Hi /=. rewrite py_get_arr2 // [bind (Ok _) _]/=.
    rewrite (@mapM_map _ _ _ (fun k => frow n (fun v => a k * b (kplusq k (qat qs i)) * G k (v - w)%Z * G k v *
      (\sum_(j < size wps) G (kplusq k (qat qs i)) (v - wat wps j)%Z * G (kplusq k (qat qs i)) (v - wat wps j - w)%Z * f i j v)))); last by move=> k _; exact: vertex_row_ok.
    rewrite [bind (Ok _) _]/= /P big_ord_recr /=. f_equal. congr (_ + _ / _). rewrite [LHS]big_lmap big_enum. apply: eq_bigr => k _. by rewrite lsum_frowE.
  rewrite [bind (Ok _) _]/= Nat2Z.id. by [].
Qed.
End V.

Section Vec.
Variable R : rcfType.
Notation C := R[i].
Variables nx ny nz : nat.
Notation K := (mesh nx ny nz).
Variables (N : Z) (G : K -> Z -> C) (giwk : K -> list C).
Hypothesis Hg : forall k, giwk k = frow N (G k).
Variables (a b : K -> C) (beta : R) (n niw_v niw_c : Z).
Hypotheses (Hn : (0 <= n)%Z) (Hv : (0 <= niw_v)%Z) (Hc : (0 <= niw_c)%Z) (HN : (n + niw_v + niw_c <= N)%Z).
Notation wps := (Matsubara.wn niw_v 0 false).
Notation wcs := (Matsubara.wn niw_c 0 true).
Lemma size_wps : size wps = Z.to_nat (2 * niw_v + 1).
Proof. have : zlen wps = (2 * niw_v + 1)%Z by rewrite /Matsubara.wn zlen_arange; lia. rewrite /zlen -/(size wps) => <-. by rewrite Nat2Z.id. Qed.
Lemma size_wcs : size wcs = Z.to_nat (niw_c + 1).
Proof. have : zlen wcs = (niw_c + 1)%Z by rewrite /Matsubara.wn zlen_arange; lia. rewrite /zlen -/(size wcs) => <-. by rewrite Nat2Z.id. Qed.
Lemma in_wps x : List.In x wps -> (- niw_v <= x <= niw_v)%Z.
Proof. rewrite /Matsubara.wn => /In_arange. lia. Qed.
Lemma vec_vert_ok (f : nat -> nat -> Z -> Z -> C) qs nk :
  vec_get_chijj_vert (arr4 (size qs) (size wps) (size wcs) n (fun i j c => f i j (Z.of_nat c))) (2 * niw_v + 1) (niw_c + 1) (2 * n) giwk (2 * N) a b beta wps wcs qs (Z.of_nat nk) =
  Ok (List.map (fun w => chijj1 beta nk a b G qs wps n w (fun i j => f i j w)) wcs).
Proof.
  rewrite /vec_get_chijj_vert. have L1 : zlen wps = (2 * niw_v + 1)%Z by rewrite /Matsubara.wn zlen_arange; lia. have L2 : zlen wcs = (niw_c + 1)%Z by rewrite /Matsubara.wn zlen_arange; lia.
  rewrite L1 L2 !Z.eqb_refl /niw_from_len. cbn [negb]. rewrite !half2.
  have -> : ((2 * niw_v + 1) / 2 = niw_v)%Z by lia. have -> : (n + niw_v + (niw_c + 1 - 1) = n + niw_v + niw_c)%Z by lia.
  have -> : (n + niw_v + niw_c =? -1)%Z = false by lia. set M := (n + niw_v + niw_c)%Z.
  have -> : (slice_len (2 * N) (N - M) (N + M) = 2 * M)%Z. { have := @slice_len_win N M 0%Z. rewrite !Z.add_0_r. apply; rewrite /M; lia. }
  have Hg' : forall k, cut_v_1d (giwk k) M = frow M (G k) by move=> k; rewrite Hg frow_cut //; rewrite /M; lia.
  rewrite (enumerate_mkseq 0%Z) [in RHS](map_mkseq _ 0%Z). apply: mapM_mkseq => i Hi. cbn [fst snd].
  rewrite (@mapM_mkseq _ _ _ _ (fun q => mkseq (fun j => frow n (f q j (Z.of_nat i))) (size wps))); last first.
    move=> q Hq. apply: mapM_mkseq => j Hj. move: (size wcs) Hi => m Hm. rewrite (@py_get_nat _ _ [::]) ?size_mkseq //.
    by rewrite nth_mkseq.
  cbn [bind]. have Ew : seq.nth 0%Z wcs i = Z.of_nat i.
    have Hi' : (Z.of_nat i < niw_c + 1)%Z by move: Hi; rewrite size_wcs => /ltP; lia.
    have := @LocalSDEP.zget_seq _ wcs 0%Z i Hi. rewrite /Matsubara.wn zget_arange; last by lia. by case=> <-.
  have Hi' : (Z.of_nat i < niw_c + 1)%Z by move: Hi; rewrite size_wcs => /ltP; lia.
  rewrite Ew. apply: (@chijj_vertex_ok _ _ _ _ M G) => //; last by rewrite /M; lia. move=> wp /in_wps. rewrite /M. lia.
Qed.

(** distribution over ranks *)
Lemma np2_maps A B D (h : B -> B -> D) (f g : A -> B) l : np_map2 h (List.map f l) (List.map g l) = Ok (List.map (fun x => h (f x) (g x)) l).
Proof. rewrite np_map2_eq ?zlen_map //. by rewrite map2_maps. Qed.
Variables (f : nat -> nat -> Z -> Z -> C) (qs : list (Z * Z * Z)).
Let nq := size qs.
Let term w i := chijj1_q a b G wps n w (qat qs i) (fun j => f i j w).
Let coef : C := - 2%:R / (beta%:C ^+ 2 * nq%:R).
Lemma rank_part lo hi : (0 <= lo)%Z -> (lo <= hi)%Z -> (hi <= Z.of_nat nq)%Z ->
  vec_get_chijj_vert (slice (arr4 nq (size wps) (size wcs) n (fun i j c => f i j (Z.of_nat c))) lo hi) (2 * niw_v + 1) (niw_c + 1) (2 * n) giwk (2 * N) a b beta wps wcs (slice qs lo hi) (Z.of_nat nq) =
  Ok (List.map (fun w => coef * \sum_(Z.to_nat lo <= i < Z.to_nat hi) term w i) wcs).
Proof.
  move=> H1 H2 H3. rewrite slice_mkseq // (@slice_list _ (0%Z, 0%Z, 0%Z) qs) //.
  set q' := mkseq (fun i => seq.nth _ _ _) _. have Es : Z.to_nat (hi - lo) = size q' by rewrite size_mkseq.
  have L := @vec_vert_ok (fun i => f (Z.to_nat lo + i)%nat) q' nq. rewrite /arr4 in L. rewrite {1}Es L. f_equal. apply: List.map_ext => w. rewrite /chijj1 -/coef. congr (_ * _).
  rewrite -[in RHS](add0n (Z.to_nat lo)) big_addn big_mkord -Es.
  have -> : Z.to_nat (hi - lo) = (Z.to_nat hi - Z.to_nat lo)%nat by rewrite -minusE; lia.
  apply: eq_bigr => i _. rewrite /term [(i + _)%nat]addnC. congr (chijj1_q _ _ _ _ _ _ _ _). rewrite /qat /q' nth_mkseq //.
  case: i => i /= Hi. have Em : (Z.to_nat hi - Z.to_nat lo)%nat = Nat.sub (Z.to_nat hi) (Z.to_nat lo) by []. rewrite Em in Hi. move/ltP: Hi => Hi. apply/ltP. lia.
Qed.
Lemma main_vert_ok p order : (0 < p)%Z -> Permutation order (arange 0 p) ->
  main_chijj_vert (arr4 nq (size wps) (size wcs) n (fun i j c => f i j (Z.of_nat c))) (2 * niw_v + 1) (niw_c + 1) (2 * n) giwk (2 * N) a b beta niw_v niw_c qs (Z.of_nat nq) p order =
  Ok (brow niw_c (fun w => if (0 <=? w)%Z then chijj1 beta nq a b G qs wps n w (fun i j => f i j w) else conjc (chijj1 beta nq a b G qs wps n (- w) (fun i j => f i j (- w)%Z)))).
Proof.
  move=> Hp Hperm. rewrite /main_chijj_vert !scatter_eq ?zlen_mkseq //; try lia. cbn [bind].
  set iv := intervals 0 (sizes (Z.of_nat nq) p).
  have Hiv : forall r ab, zget iv r = Some ab -> (0 <= ab.1)%Z /\ (ab.1 <= ab.2)%Z /\ (ab.2 <= Z.of_nat nq)%Z.
    move=> r [lo hi] /intervals_range [|H1 [H2 [H3 _]]]; first by move=> x; apply: sizes_nonneg; lia. rewrite zsum_sizes in H3; try lia. rewrite /=. lia.
  have Liv : zlen iv = p by rewrite /iv zlen_intervals zlen_sizes.
  set P := fun ab : Z * Z => List.map (fun w => coef * \sum_(Z.to_nat ab.1 <= i < Z.to_nat ab.2) term w i) wcs.
  set body := (X in mapM X _). have -> : mapM body (range p) = Ok (List.map P iv).
    apply: mapM_zget_total; first by rewrite /range zlen_arange zlen_map Liv; lia.
    move=> r r' x Hr Hx. have Hrr := zget_some_range _ _ Hr. rewrite /range zlen_arange in Hrr. rewrite /range zget_arange in Hr; last by lia.
    case: Hr => Er. have {Er} Er : r' = r by lia. subst r'. rewrite zget_map in Hx. case Eab: (zget iv r) Hx => [ab|] //= [<-].
    have [h1 [h2 h3]] := Hiv _ _ Eab. rewrite /body /my_slice /slices slices_of_intervals -/iv.
    rewrite (@py_get_nonneg _ iv r ab) //; last by lia. cbn [bind].
    have GM : forall T (g : Z * Z -> T), py_get (List.map g iv) r = Ok (g ab) by move=> T g; apply: py_get_nonneg; [lia|rewrite zget_map Eab].
    rewrite !GM. cbn [bind]. exact: rank_part.
  cbn [bind].
  set Q := fun (r : Z) w => coef * \sum_(Z.to_nat (odflt (0%Z, 0%Z) (zget iv r)).1 <= i < Z.to_nat (odflt (0%Z, 0%Z) (zget iv r)).2) term w i.
  have fold : forall o g, (forall r, List.In r o -> (0 <= r < p)%Z) ->
     foldM (fun s r => let! x := py_get (List.map P iv) r in np_map2 (fun x y => x + y) s x) o (List.map g wcs) = Ok (List.map (fun w => g w + \sum_(r <- o) Q r w) wcs).
    elim=> [|r o IH] g Ho /=; first by f_equal; apply: List.map_ext => w; rewrite big_nil addr0.
    have Hr : (0 <= r < p)%Z by apply: Ho; left. have [ab Eab] : exists ab, zget iv r = Some ab by apply: zget_in_range; rewrite Liv.
    rewrite (@py_get_nonneg _ (List.map P iv) r (P ab)); [|lia|by rewrite zget_map Eab]. rewrite [bind (Ok _) _]/= {1}/P np2_maps [bind (Ok _) _]/=.
    rewrite IH; last by move=> r' H'; apply: Ho; right. f_equal. apply: List.map_ext => w. by rewrite big_cons addrA /Q Eab.
  have -> : List.repeat (0 : C) (length wcs) = List.map (fun _ => 0) wcs by elim: wcs => //= x l ->.
  rewrite fold; last by move=> r /(Permutation_in _ Hperm) /In_arange.
  cbn [bind]. f_equal. set g := fun w => if (0 <=? w)%Z then _ else _.
  rewrite -(@bos_complete _ niw_c g (@conjc R)) //.
  - f_equal. apply: List.map_ext_in => w /in_wn_pos Hin. rewrite /g. have -> : (0 <=? w)%Z = true by lia.
    rewrite add0r (big_perm _ Hperm) /chijj1 -/coef.
    transitivity (\sum_(ab <- iv) coef * \sum_(Z.to_nat ab.1 <= i < Z.to_nat ab.2) term w i).
      by rewrite (@big_zget _ _ (0%Z, 0%Z) iv) Liv.
    rewrite -mulr_sumr /iv big_intervals //; last by move=> x; apply: sizes_nonneg; lia. rewrite zsum_sizes; try lia. rewrite Z.add_0_l Nat2Z.id big_mkord. by [].
  - move=> w Hw. rewrite /g. have -> : (0 <=? w)%Z = true by lia. have -> : (0 <=? - w)%Z = false by lia. by rewrite Z.opp_involutive.
Qed.
End Vec.

Section Sym.
Variable R : rcfType.
Notation C := R[i].
Variables nx ny nz : nat.
Notation K := (mesh nx ny nz).
Implicit Types (G : K -> Z -> C) (a b : K -> C) (beta : R).
Lemma chijj1_conj beta nk a b G qs wps n w (F F' : nat -> nat -> Z -> C) :
  (forall k, conj_symmetric (G k)) -> (forall k, conjc (a k) = a k) -> (forall k, conjc (b k) = b k) ->
  (forall j, (j < size wps)%nat -> wat wps (size wps - j.+1) = (- wat wps j)%Z) ->
  (forall i j v, (i < size qs)%nat -> (j < size wps)%nat -> F' i (size wps - j.+1)%nat (- v - 1)%Z = conjc (F i j v)) ->
  conjc (chijj1 beta nk a b G qs wps n w F) = chijj1 beta nk a b G qs wps n (- w) F'.
Proof.
  move=> HG Ha Hb Hw HF. pose cj := RMorphism (@conjc_is_rmorphism R). rewrite /chijj1 -[conjc _]/(cj _) rmorphM.
  have E : cj beta%:C = beta%:C := conjc_real _.
  congr (_ * _); first by rewrite rmorphM rmorphN rmorph_nat fmorphV rmorphM rmorphX rmorph_nat E.
  rewrite rmorph_sum. apply: eq_bigr => i _. rewrite /chijj1_q rmorphM fmorphV rmorph_nat. congr (_ / _). rewrite rmorph_sum. apply: eq_bigr => k _.
  rewrite rmorph_sum -[RHS]sum_rev. apply: eq_bigr => v _. rewrite !rmorphM /= Ha Hb -!HG. congr (_ * _ * G k _ * G k _ * _); try lia.
  rewrite -[conjc _]/(cj _) rmorph_sum [RHS](reindex_inj rev_ord_inj) /=. apply: eq_bigr => j _. rewrite !rmorphM /= HF // Hw // -!HG.
  congr (G _ _ * G _ _ * _); lia.
Qed.
(** a vertex that does not depend on the momentum contributes nothing if the b-current is odd under a symmetry of G *)
Lemma chijj1_local (S : K -> K) beta nk a b G wps n w (F : nat -> Z -> C) : injective S -> (forall k v, G (S k) v = G k v) -> (forall k, b (S k) = - b k) ->
  chijj1 beta nk a b G (BrillouinZone.kmesh_ind_list (Z.of_nat nx) (Z.of_nat ny) (Z.of_nat nz)) wps n w (fun _ => F) = 0.
Proof.
  move=> Si HG Hb. rewrite /chijj1. set qs := BrillouinZone.kmesh_ind_list _ _ _.
  rewrite (@big_qat _ qs (fun q => chijj1_q a b G wps n w q F)) big_qlist /chijj1_q -mulr_suml.
  suff -> : \sum_(p : K) \sum_(k : K) \sum_(v <- arange (- n) n) a k * b (kplusq k (qpoint p)) * G k (v - w)%Z * G k v *
      (\sum_(j < size wps) G (kplusq k (qpoint p)) (v - wat wps j)%Z * G (kplusq k (qpoint p)) (v - wat wps j - w)%Z * F j v) = 0 by rewrite mul0r mulr0.
  rewrite exchange_big big1 // => k _. rewrite exchange_big big1 // => v _.
  pose h (p : K) := b p * (\sum_(j < size wps) G p (v - wat wps j)%Z * G p (v - wat wps j - w)%Z * F j v).
  have -> : \sum_(p : K) a k * b (kplusq k (qpoint p)) * G k (v - w)%Z * G k v * (\sum_(j < size wps) G (kplusq k (qpoint p)) (v - wat wps j)%Z * G (kplusq k (qpoint p)) (v - wat wps j - w)%Z * F j v) =
     a k * G k (v - w)%Z * G k v * \sum_(p : K) h (kplusq k (qpoint p)).
    rewrite mulr_sumr. apply: eq_bigr => p _. rewrite /h !mulrA. congr (_ * _). by rewrite -!mulrA [b _ * _]mulrC -!mulrA.
  rewrite big_shift. suff -> : \sum_(p : K) h p = 0 by rewrite mulr0.
  have E : \sum_(p : K) h p = - \sum_(p : K) h p.
    rewrite {1}(reindex S) /=; last by apply: onW_bij; exact: injF_bij. rewrite -sumrN. apply: eq_bigr => p _. rewrite /h Hb mulNr. congr (- (_ * _)). apply: eq_bigr => j _. by rewrite !HG.
  apply/eqP. move/eqP: E. by rewrite -subr_eq0 opprK -mulr2n mulrn_eq0.
Qed.
Lemma chijj1_doc_ok a b G wps n w q (F : nat -> Z -> C) : chijj1_doc a b G wps n w q F = chijj1_q b a G wps n w (qneg q) F.
Proof.
  rewrite /chijj1_doc /chijj1_q. congr (_ / _). apply: eq_bigr => k _. apply: eq_bigr => v _. rewrite mulr_sumr. apply: eq_bigr => j _.
  by rewrite -!mulrA [a _ * (b _ * _)]mulrCA.
Qed.
End Sym.
Section Main.
Variable R : rcfType.
Notation C := R[i].
Variables nx ny nz : nat.
Notation K := (mesh nx ny nz).
Lemma wps_rev niw_v j : (0 <= niw_v)%Z -> let wps := Matsubara.wn niw_v 0 false in (j < size wps)%nat -> wat wps (size wps - j.+1) = (- wat wps j)%Z.
Proof.
  move=> H wn Hj. have L : zlen wn = (2 * niw_v + 1)%Z by rewrite /wn /Matsubara.wn zlen_arange; lia.
  have W : forall i, (i < size wn)%nat -> wat wn i = (- niw_v + Z.of_nat i)%Z.
    move=> i Hi. have := @LocalSDEP.zget_seq _ wn 0%Z i Hi. rewrite -/(wat wn i) {1}/wn /Matsubara.wn zget_arange; last first.
      move/ltP: Hi => Hi. have : zlen wn = Z.of_nat (size wn) by []. rewrite L. lia.
    case=> <-. lia.
  have E : zlen wn = Z.of_nat (size wn) by []. move/ltP: (Hj) => Hj'.
  rewrite !W //; last by rewrite ltn_subLR // addSn ltnS leq_addl. rewrite -minusE. lia.
Qed.
Lemma main_vert_full (N : Z) (G : K -> Z -> C) giwk (a b : K -> C) (beta : R) n niw_v niw_c (f : nat -> nat -> Z -> Z -> C) qs p order :
  (forall k, giwk k = frow N (G k)) -> (0 <= n)%Z -> (0 <= niw_v)%Z -> (0 <= niw_c)%Z -> (n + niw_v + niw_c <= N)%Z -> (0 < p)%Z -> Permutation order (arange 0 p) ->
  (forall k, conj_symmetric (G k)) -> (forall k, conjc (a k) = a k) -> (forall k, conjc (b k) = b k) ->
  let wps := Matsubara.wn niw_v 0 false in let nq := size qs in
  (forall i j w v, (i < nq)%nat -> (j < size wps)%nat -> f i (size wps - j.+1)%nat (- w)%Z (- v - 1)%Z = conjc (f i j w v)) ->
  main_chijj_vert (arr4 nq (size wps) (Z.to_nat (niw_c + 1)) n (fun i j c => f i j (Z.of_nat c))) (2 * niw_v + 1) (niw_c + 1) (2 * n) giwk (2 * N) a b beta niw_v niw_c qs (Z.of_nat nq) p order =
  Ok (brow niw_c (fun w => chijj1 beta nq a b G qs wps n w (fun i j => f i j w))).
Proof.
  move=> Hg Hn Hv Hc HN Hp Ho HG Ha Hb wps nq HF. have E := @size_wcs niw_c Hc. rewrite -E. rewrite (main_vert_ok Hg a b beta Hn Hv Hc HN f qs Hp Ho). f_equal.
  apply: List.map_ext => w. case: ifP => // _. rewrite (@chijj1_conj _ _ _ _ _ _ _ _ _ _ _ _ _ _ (fun i j => f i j w)) //; last first.
  - move=> i j v Hi Hj. rewrite -HF //. by rewrite Z.opp_involutive.
  - move=> j Hj. exact: wps_rev.
  by rewrite Z.opp_involutive.
Qed.
End Main.
