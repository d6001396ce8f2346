(** Results about Model/Optics.v. *)
From mathcomp Require Import all_ssreflect all_algebra.
From mathcomp.real_closed Require Import complex.
From Coq Require Import String ZArith Lia Permutation.
From Verif Require Import Base.PyBase Base.PyFacts Base.FieldTac Base.Arr Model.Matsubara Model.MpiAux Model.TwoPoint Model.Bubble Model.Optics.
From Verif Require Import Spec.BubbleSpec Spec.TwoPointSpec Spec.LatticeSdeSpec Spec.OpticsSpec.
From Verif Require Import Proofs.MatsubaraP Proofs.MpiAuxP Proofs.BubbleP Proofs.BubbleLatP Proofs.LatticeSdeP Proofs.LatticeBseP Proofs.DgaMainP Proofs.LocalSDEP Proofs.TwoPointP Proofs.TwoPointFillP.
Import GRing.Theory Num.Theory.
Set Implicit Arguments. Unset Strict Implicit. Unset Printing Implicit Defensive.
Local Open Scope ring_scope.
Local Open Scope complex_scope.

Section O.
Variable R : rcfType.
Notation C := R[i].
Variables nx ny nz : nat.
Notation K := (mesh nx ny nz).
Implicit Types (G : K -> Z -> C) (c : conv) (beta : R) (a b : K -> C).
Lemma lsum_frowE n (f : Z -> C) : lsum (frow n f) = \sum_(v <- arange (- n) n) f v.
Proof. by rewrite /lsum /frow [LHS]big_lmap. Qed.
Lemma chijj_bubble_ok N G giwk a b beta w n c : (forall k, giwk k = frow N (G k)) -> (0 <= n)%Z -> (n + Z.abs w <= N)%Z ->
  get_chijj_bubble giwk (2 * N) a b beta w n (name c) = Ok (chijj0 beta a b G c n w).
Proof.
  move=> Hg Hn Hw. have H1 := @sh1_le c w. have H2 := @sh2_le c w. rewrite /get_chijj_bubble shift_conv [bind _ _]/= /niv_from_len half2.
  rewrite !slice_len_win ?Z.eqb_refl; try lia. f_equal. congr (_ * (_ / _)). apply: eq_bigr => k _. congr (_ * _).
  rewrite Hg !frow_window; try lia. rewrite frow_map2 //. exact: lsum_frowE.
Qed.
Lemma chijj_bubble_sym giwk m a b beta w n s : get_chijj_bubble giwk m a b beta w n s = get_chijj_bubble giwk m b a beta w n s.
Proof.
  rewrite /get_chijj_bubble. case: get_freq_shift => //= p. case: ifP => // _. f_equal. congr (_ * (_ / _)). apply: eq_bigr => k _. by rewrite [a k * _]mulrC.
Qed.
Lemma conj_real_coef beta : conjc (- 2%:R / beta%:C) = - 2%:R / beta%:C.
Proof.
  pose cj := RMorphism (@conjc_is_rmorphism R). have E : conjc beta%:C = beta%:C := conjc_real _.
  rewrite -[conjc _]/(cj _) rmorphM rmorphN rmorph_nat fmorphV. congr (_ * _^-1). exact: E.
Qed.
Lemma sum_rev n (f : Z -> C) : \sum_(v <- arange (- n) n) f (- v - 1)%Z = \sum_(v <- arange (- n) n) f v.
Proof. by rewrite -!lsum_frowE !lsum_frow freq_sum_rev. Qed.
Lemma chijj0_conj beta a b G c n w : (forall k, conj_symmetric (G k)) -> (forall k, conjc (a k) = a k) -> (forall k, conjc (b k) = b k) -> c <> Center ->
  conjc (chijj0 beta a b G c n w) = chijj0 beta a b G c n (- w).
Proof.
  move=> HG Ha Hb Hc. pose cj := RMorphism (@conjc_is_rmorphism R). rewrite /chijj0 -[conjc _]/(cj _) rmorphM /=. congr (_ * _); first exact: conj_real_coef.
  rewrite -[conjc _]/(cj _) rmorphM fmorphV rmorph_nat rmorph_sum. congr (_ / _). apply: eq_bigr => k _. rewrite !rmorphM rmorph_sum /= Ha Hb. congr (_ * _).
  rewrite -[RHS]sum_rev. apply: eq_bigr => v _. rewrite conjM -!HG. case: c Hc => //= _; congr (G k _ * G k _); lia.
Qed.
Lemma main_bubble_ok N G giwk a b beta niw n : (forall k, giwk k = frow N (G k)) -> (forall k, conj_symmetric (G k)) -> (forall k, conjc (a k) = a k) -> (forall k, conjc (b k) = b k) ->
  (0 <= n)%Z -> (0 <= niw)%Z -> (n + niw <= N)%Z ->
  main_chijj_bubble giwk (2 * N) a b beta niw n = Ok (brow niw (chijj0 beta a b G Minus n)).
Proof.
  move=> Hg HG Ha Hb Hn Hw HN. rewrite /main_chijj_bubble /vec_get_chijj_bubble (@mapM_map _ _ _ (chijj0 beta a b G Minus n)); last first.
    move=> w /in_wn_pos Hin. rewrite -[("minus")%string]/(name Minus). apply: chijj_bubble_ok => //. lia.
  rewrite [bind _ _]/=. f_equal. apply: bos_complete => // w _. exact: chijj0_conj.
Qed.
Lemma chijj0_static beta a b G c n : (forall k, conj_symmetric (G k)) -> (forall k, conjc (a k) = a k) -> (forall k, conjc (b k) = b k) ->
  complex.Im (chijj0 beta a b G c n 0) = 0.
Proof.
  move=> HG Ha Hb. have E : conjc (chijj0 beta a b G c n 0) = chijj0 beta a b G c n 0.
    have -> : chijj0 beta a b G c n 0 = chijj0 beta a b G Minus n 0 by case: c. have := @chijj0_conj beta a b G Minus n 0 HG Ha Hb. by apply.
  move: E. case: (chijj0 _ _ _ _ _ _ _) => x y /= [E]. apply/eqP. have : y + y = 0 by rewrite -{1}E addNr. rewrite -mulr2n => /eqP. by rewrite mulrn_eq0.
Qed.
(** point symmetries *)
Lemma chijj0_sym (S : K -> K) beta a b a' b' G c n w : injective S -> (forall k v, G (S k) v = G k v) -> (forall k, a (S k) * b (S k) = a' k * b' k) ->
  chijj0 beta a b G c n w = chijj0 beta a' b' G c n w.
Proof.
  move=> Si HG H. rewrite /chijj0. congr (_ * (_ / _)). rewrite (reindex S) /=; last by apply: onW_bij; exact: injF_bij.
  apply: eq_bigr => k _. rewrite H. congr (_ * _). apply: eq_bigr => v _. by rewrite !HG.
Qed.
Lemma chijj0_odd (S : K -> K) beta a b G c n w : injective S -> (forall k v, G (S k) v = G k v) -> (forall k, a (S k) * b (S k) = - (a k * b k)) ->
  chijj0 beta a b G c n w = 0.
Proof.
  move=> Si HG H. have E := @chijj0_sym S beta a b (fun k => - a k) b G c n w Si HG. rewrite /chijj0 in E *. move: E.
  set X := \sum_(k : K) a k * b k * _. have -> : \sum_(k : K) - a k * b k * (\sum_(v <- arange (- n) n) G k (v + sh1 c w)%Z * G k (v + sh2 c w)%Z) = - X.
    rewrite -sumrN. apply: eq_bigr => k _. by rewrite !mulNr.
  have -> : forall t : C, - 2%:R / beta%:C * (- X / t) = - (- 2%:R / beta%:C * (X / t)) by move=> t; rewrite [- X / t]mulNr mulrN.
  move=> /(_ (fun k => etrans (H k) (esym (mulNr _ _)))) E. move: E. move: (_ * (X / _)) => t E. apply/eqP. have : t + t = 0 by rewrite {1}E addNr.
  rewrite -mulr2n => /eqP. by rewrite mulrn_eq0.
Qed.
(** a box that is too small *)
Lemma chijj_bubble_small giwk N a b beta w n : (0 < n <= N)%Z -> (0 <= w)%Z -> (N < n + w)%Z -> (w <= N + n)%Z ->
  get_chijj_bubble giwk (2 * N) a b beta w n "minus" = Raise ValueError.
Proof.
  move=> Hn Hw H1 H2. rewrite /get_chijj_bubble [bind _ _]/= /niv_from_len half2.
  have -> : (slice_len (2 * N) (N - n + 0) (N + n + 0) = 2 * n)%Z by apply: slice_len_win; lia.
  have -> : (slice_len (2 * N) (N - n + - w) (N + n + - w) = 0)%Z by rewrite /slice_len /clampi; do 2 case: Z.ltb_spec; lia.
  by have -> : (2 * n =? 0)%Z = false by lia.
Qed.
(** very large frequencies: the second slice has negative bounds and wraps around *)
Lemma chijj_bubble_wrap giwk G N a b beta w n : (forall k, giwk k = frow N (G k)) -> (0 < n <= N)%Z -> (N + n < w)%Z -> (w <= 3 * N - n)%Z ->
  get_chijj_bubble giwk (2 * N) a b beta w n "minus" =
  Ok (- 2%:R / beta%:C * ((\sum_(k : K) a k * b k * \sum_(v <- arange (- n) n) G k v * G k (v - w + 2 * N)%Z) / #|{: K}|%:R)).
Proof.
  move=> Hg Hn H1 H2. rewrite /get_chijj_bubble [bind _ _]/= /niv_from_len half2.
  have -> : (slice_len (2 * N) (N - n + 0) (N + n + 0) = 2 * n)%Z by apply: slice_len_win; lia.
  have -> : (slice_len (2 * N) (N - n + - w) (N + n + - w) = 2 * n)%Z by rewrite /slice_len /clampi; do 2 case: Z.ltb_spec; lia.
  rewrite Z.eqb_refl. f_equal. congr (_ * (_ / _)). apply: eq_bigr => k _. congr (_ * _). rewrite Hg frow_window; try lia.
  have -> : slice (frow N (G k)) (N - n + - w) (N + n + - w) = frow n (fun v => G k (v - w + 2 * N)%Z).
    have E : slice (frow N (G k)) (N - n + - w) (N + n + - w) = slice (frow N (G k)) (N - n + (2 * N - w)) (N + n + (2 * N - w)).
      rewrite /slice zlen_frow; last by lia. have -> : clampi (2 * N) (N - n + - w) = clampi (2 * N) (N - n + (2 * N - w)) by rewrite /clampi; do 2 case: Z.ltb_spec; lia.
      by have -> : clampi (2 * N) (N + n + - w) = clampi (2 * N) (N + n + (2 * N - w)) by rewrite /clampi; do 2 case: Z.ltb_spec; lia.
    rewrite E frow_window; try lia. apply: frow_ext => v _. congr (G k _). lia.
  rewrite frow_map2; last by lia. rewrite lsum_frowE. apply: eq_bigr => v _. by rewrite Z.add_0_r.
Qed.
End O.
