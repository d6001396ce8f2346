(** Properties C82, C83: optical conductivity (dga/optics.py:25-38, 96-161, dga_main.py:325-373). *)
From mathcomp Require Import all_ssreflect all_algebra.
From mathcomp.real_closed Require Import complex.
From Coq Require Import String ZArith Lia Permutation.
From Verif Require Import Base.PyBase Model.Matsubara Model.TwoPoint Model.Bubble Model.Optics.
From Verif Require Import Spec.TwoPointSpec Spec.BubbleSpec Spec.LatticeSdeSpec Spec.OpticsSpec Spec.FreqSpec.
From Verif Require Import Base.PyFacts Proofs.MatsubaraP Proofs.BubbleP Proofs.OpticsP Proofs.OpticsVertP.
Import GRing.Theory Num.Theory.
Set Implicit Arguments. Unset Strict Implicit. Unset Printing Implicit Defensive.
Local Open Scope ring_scope.
Local Open Scope complex_scope.

(** ** C82: the bubble *)
Theorem C82_bubble : forall (R : rcfType) nx ny nz N (G : mesh nx ny nz -> Z -> R[i]) giwk a b beta w n c, (forall k, giwk k = frow N (G k)) -> (0 <= n)%Z -> (n + Z.abs w <= N)%Z ->
  get_chijj_bubble giwk (2 * N) a b beta w n (name c) = Ok (chijj0 beta a b G c n w).
Proof. exact chijj_bubble_ok. Qed.
Print Assumptions C82_bubble.
(** Only non-negative frequencies are computed; the result of the program has the formula's value at negative frequencies too. *)
Theorem C82_all_frequencies : forall (R : rcfType) nx ny nz N (G : mesh nx ny nz -> Z -> R[i]) giwk a b beta niw n, (forall k, giwk k = frow N (G k)) ->
  (forall k, conj_symmetric (G k)) -> (forall k, conjc (a k) = a k) -> (forall k, conjc (b k) = b k) -> (0 <= n)%Z -> (0 <= niw)%Z -> (n + niw <= N)%Z ->
  main_chijj_bubble giwk (2 * N) a b beta niw n = Ok (brow niw (chijj0 beta a b G Minus n)).
Proof. exact main_bubble_ok. Qed.
Print Assumptions C82_all_frequencies.
(** Exchanging the two directions changes nothing, including errors. *)
Theorem C82_directions_commute : forall (R : rcfType) nx ny nz (giwk : mesh nx ny nz -> list R[i]) m a b beta w n s,
  get_chijj_bubble giwk m a b beta w n s = get_chijj_bubble giwk m b a beta w n s.
Proof. exact chijj_bubble_sym. Qed.
Print Assumptions C82_directions_commute.
(** The static value is real. *)
Theorem C82_static_real : forall (R : rcfType) nx ny nz N (G : mesh nx ny nz -> Z -> R[i]) giwk a b beta n c, (forall k, giwk k = frow N (G k)) -> (0 <= n <= N)%Z ->
  (forall k, conj_symmetric (G k)) -> (forall k, conjc (a k) = a k) -> (forall k, conjc (b k) = b k) ->
  exists x : R, get_chijj_bubble giwk (2 * N) a b beta 0 n (name c) = Ok x%:C.
Proof.
  move=> R nx ny nz N G giwk a b beta n c Hg Hn HG Ha Hb. exists (complex.Re (chijj0 beta a b G c n 0)). rewrite (chijj_bubble_ok a b beta c Hg); try lia. f_equal.
  have := @chijj0_static R nx ny nz beta a b G c n HG Ha Hb. case: (chijj0 _ _ _ _ _ _ _) => x y /= ->. by [].
Qed.
Print Assumptions C82_static_real.
(** A symmetry of G under which a b is odd makes the bubble vanish: no transverse response, e.g. a = d/dkx, b = d/dky and kx -> -kx. *)
Theorem C82_no_transverse_response : forall (R : rcfType) nx ny nz (S : mesh nx ny nz -> mesh nx ny nz) N (G : mesh nx ny nz -> Z -> R[i]) giwk a b beta w n c,
  (forall k, giwk k = frow N (G k)) -> (0 <= n)%Z -> (n + Z.abs w <= N)%Z ->
  injective S -> (forall k v, G (S k) v = G k v) -> (forall k, a (S k) * b (S k) = - (a k * b k)) ->
  get_chijj_bubble giwk (2 * N) a b beta w n (name c) = Ok 0.
Proof. move=> R nx ny nz S N G giwk a b beta w n c Hg Hn Hw Si HG Hab. rewrite (chijj_bubble_ok a b beta c Hg Hn Hw). f_equal. exact: (chijj0_odd _ _ _ _ Si HG Hab). Qed.
Print Assumptions C82_no_transverse_response.
(** Directions related by a symmetry of G have the same bubble: e.g. xx and yy for a square lattice. *)
Theorem C82_equivalent_directions : forall (R : rcfType) nx ny nz (S : mesh nx ny nz -> mesh nx ny nz) N (G : mesh nx ny nz -> Z -> R[i]) giwk a b a' b' beta w n c,
  (forall k, giwk k = frow N (G k)) -> (0 <= n)%Z -> (n + Z.abs w <= N)%Z ->
  injective S -> (forall k v, G (S k) v = G k v) -> (forall k, a (S k) * b (S k) = a' k * b' k) ->
  get_chijj_bubble giwk (2 * N) a b beta w n (name c) = get_chijj_bubble giwk (2 * N) a' b' beta w n (name c).
Proof. move=> R nx ny nz S N G giwk a b a' b' beta w n c Hg Hn Hw Si HG Hab. rewrite !(fun a b => chijj_bubble_ok a b beta c Hg Hn Hw). f_equal. exact: (chijj0_sym _ _ _ _ Si HG Hab). Qed.
Print Assumptions C82_equivalent_directions.
(** A box that is too small raises ... *)
Theorem C82_small_box_raises : forall (R : rcfType) nx ny nz (giwk : mesh nx ny nz -> list R[i]) N a b beta w n,
  (0 < n <= N)%Z -> (0 <= w)%Z -> (N < n + w)%Z -> (w <= N + n)%Z -> get_chijj_bubble giwk (2 * N) a b beta w n "minus" = Raise ValueError.
Proof. exact chijj_bubble_small. Qed.
Print Assumptions C82_small_box_raises.
(** ... but for still larger w the slice wraps around and a wrong value is returned: the second Green function is taken at v - w + 2N. *)
Theorem C82_wrap_finding : forall (R : rcfType) nx ny nz (giwk : mesh nx ny nz -> list R[i]) G N a b beta w n,
  (forall k, giwk k = frow N (G k)) -> (0 < n <= N)%Z -> (N + n < w)%Z -> (w <= 3 * N - n)%Z ->
  get_chijj_bubble giwk (2 * N) a b beta w n "minus" =
  Ok (- 2%:R / beta%:C * ((\sum_(k : mesh nx ny nz) a k * b k * \sum_(v <- arange (- n) n) G k v * G k (v - w + 2 * N)%Z) / #|{: mesh nx ny nz}|%:R)).
Proof. exact chijj_bubble_wrap. Qed.
Print Assumptions C82_wrap_finding.
(** G = i sign(v), two k points with opposite velocities, exchanged by a symmetry of G; box 4, n = 2, w = 1; n=1,w=6 wraps. *)
Definition ex_G (R : rcfType) (k : mesh 2 1 1) (v : Z) : R[i] := if (0 <=? v)%Z then 'i else - 'i.
Definition ex_a (R : rcfType) (k : mesh 2 1 1) : R[i] := if nat_of_ord k.1.1 is 0%nat then 1 else - 1.
Definition ex_S (k : mesh 2 1 1) : mesh 2 1 1 := (rev_ord k.1.1, k.1.2, k.2).
Lemma ex_conj (R : rcfType) k : conj_symmetric (@ex_G R k).
Proof.
  move=> v. rewrite /ex_G. have -> : (0 <=? - v - 1)%Z = ~~ (0 <=? v)%Z by case: (Z.leb_spec 0 v) => H; case: (Z.leb_spec 0 (- v - 1)) => H' //; lia.
  by case: (0 <=? v)%Z => /=; apply/eqP; rewrite eq_complex /= ?oppr0 ?opprK !eqxx.
Qed.
Lemma ex_S_inj : injective ex_S.
Proof. move=> [[a b] c] [[a' b'] c'] [E -> ->]. have -> // : a = a'. apply: rev_ord_inj. exact: val_inj. Qed.
Example C82_case : forall R : rcfType, (forall k, conj_symmetric (@ex_G R k)) /\ (forall k, conjc (@ex_a R k) = ex_a R k) /\ injective ex_S /\
  (forall k v, @ex_G R (ex_S k) v = ex_G R k v) /\ (forall k, ex_a R (ex_S k) * 1 = - (ex_a R k * 1)) /\ (2 + Z.abs 1 <= 4)%Z /\ (0 < 1 <= 4 /\ 4 + 1 < 6 /\ 6 <= 3 * 4 - 1)%Z.
Proof.
  move=> R. split; first exact: ex_conj. split; first by move=> [[[[|k] Hk] b] c]; rewrite /ex_a /=; apply/eqP; rewrite eq_complex /= ?oppr0 !eqxx.
  split; first exact: ex_S_inj. split; first by []. split; last by split; lia.
  move=> [[[[|[|k]] Hk] b] c] //; by rewrite /ex_a /= ?opprK !mulr1 ?opprK.
Qed.

(** ** C83: the vertex contribution *)
(** The value for one frequency, any list of momenta. *)
Theorem C83_vertex : forall (R : rcfType) nx ny nz N (G : mesh nx ny nz -> Z -> R[i]) giwk, (forall k, giwk k = frow N (G k)) ->
  forall a b beta wps n w, (0 <= n)%Z -> (forall wp, List.In wp wps -> (n + Z.abs wp + Z.abs w <= N)%Z) -> (n + Z.abs w <= N)%Z -> forall f qs nk,
  get_chijj_vertex (arr3 (size qs) (size wps) n f) (2 * n) a b giwk (2 * N) beta w wps qs (Z.of_nat nk) = Ok (chijj1 beta nk a b G qs wps n w f).
Proof. exact chijj_vertex_ok. Qed.
Print Assumptions C83_vertex.
(** All frequencies of the driver, cutting the Green function to the window it needs. *)
Theorem C83_all_cond_frequencies : forall (R : rcfType) nx ny nz N (G : mesh nx ny nz -> Z -> R[i]) giwk, (forall k, giwk k = frow N (G k)) ->
  forall a b beta n niw_v niw_c, (0 <= n)%Z -> (0 <= niw_v)%Z -> (0 <= niw_c)%Z -> (n + niw_v + niw_c <= N)%Z -> forall (f : nat -> nat -> Z -> Z -> R[i]) qs nk,
  let wps := Matsubara.wn niw_v 0 false in let wcs := Matsubara.wn niw_c 0 true in
  vec_get_chijj_vert (arr4 (size qs) (size wps) (size wcs) n (fun i j c => f i j (Z.of_nat c))) (2 * niw_v + 1) (niw_c + 1) (2 * n) giwk (2 * N) a b beta wps wcs qs (Z.of_nat nk) =
  Ok (List.map (fun w => chijj1 beta nk a b G qs wps n w (fun i j => f i j w)) wcs).
Proof. exact vec_vert_ok. Qed.
Print Assumptions C83_all_cond_frequencies.
(** For any number of ranks and any order of the reduction the program returns the formula at all frequencies, negative ones
    included, if F(q,-w',-w,-v-1) is the conjugate of F(q,w',w,v). *)
Theorem C83_any_distribution : forall (R : rcfType) nx ny nz N (G : mesh nx ny nz -> Z -> R[i]) giwk a b beta n niw_v niw_c (f : nat -> nat -> Z -> Z -> R[i]) qs p order,
  (forall k, giwk k = frow N (G k)) -> (0 <= n)%Z -> (0 <= niw_v)%Z -> (0 <= niw_c)%Z -> (n + niw_v + niw_c <= N)%Z -> (0 < p)%Z -> Permutation order (arange 0 p) ->
  (forall k, conj_symmetric (G k)) -> (forall k, conjc (a k) = a k) -> (forall k, conjc (b k) = b k) ->
  let wps := Matsubara.wn niw_v 0 false in let nq := size qs in
  (forall i j w v, (i < nq)%nat -> (j < size wps)%nat -> f i (size wps - j.+1)%nat (- w)%Z (- v - 1)%Z = conjc (f i j w v)) ->
  main_chijj_vert (arr4 nq (size wps) (Z.to_nat (niw_c + 1)) n (fun i j c => f i j (Z.of_nat c))) (2 * niw_v + 1) (niw_c + 1) (2 * n) giwk (2 * N) a b beta niw_v niw_c qs (Z.of_nat nq) p order =
  Ok (brow niw_c (fun w => chijj1 beta nq a b G qs wps n w (fun i j => f i j w))).
Proof. exact main_vert_full. Qed.
Print Assumptions C83_any_distribution.
(** A vertex that does not depend on the momentum transfer gives no contribution if the current b is odd under a symmetry of G. *)
Theorem C83_local_vertex_vanishes : forall (R : rcfType) nx ny nz N (G : mesh nx ny nz -> Z -> R[i]) giwk, (forall k, giwk k = frow N (G k)) ->
  forall a b beta wps n w, (0 <= n)%Z -> (forall wp, List.In wp wps -> (n + Z.abs wp + Z.abs w <= N)%Z) -> (n + Z.abs w <= N)%Z ->
  forall (S : mesh nx ny nz -> mesh nx ny nz) f nk, injective S -> (forall k v, G (S k) v = G k v) -> (forall k, b (S k) = - b k) ->
  let qs := BrillouinZone.kmesh_ind_list (Z.of_nat nx) (Z.of_nat ny) (Z.of_nat nz) in
  get_chijj_vertex (arr3 (size qs) (size wps) n (fun _ => f)) (2 * n) a b giwk (2 * N) beta w wps qs (Z.of_nat nk) = Ok 0.
Proof.
  move=> R nx ny nz N G giwk Hg a b beta wps n w Hn Hw Hw0 S f nk Si HG Hb qs. rewrite (chijj_vertex_ok Hg a b beta Hn Hw Hw0). f_equal. exact: (chijj1_local _ _ _ _ _ _ _ Si HG Hb).
Qed.
Print Assumptions C83_local_vertex_vanishes.
(** Finding: the documented formula has a(k-q) b(k) and Green functions at k and k-q; the code computes it with a and b exchanged
    and q replaced by -q. *)
Theorem C83_documented_formula_finding : forall (R : rcfType) nx ny nz (a b : mesh nx ny nz -> R[i]) G wps n w q (F : nat -> Z -> R[i]),
  chijj1_doc a b G wps n w q F = chijj1_q b a G wps n w (qneg q) F.
Proof. exact chijj1_doc_ok. Qed.
Print Assumptions C83_documented_formula_finding.
(** The full current correlation function is the sum of bubble and vertex part wherever both are known (dga_main.py:372). *)
Theorem C83_total : forall (R : rcfType) n1 n2 (f g : Z -> R[i]), (0 <= n1)%Z -> (0 <= n2)%Z ->
  exists r, chijj_full (brow n1 f) (brow n2 g) = Ok r /\ zlen r = (2 * Z.max n1 n2 + 1)%Z /\
  (forall w, bos r w = addo (fun a b => a + b) (bos (brow n1 f) w) (bos (brow n2 g) w)) /\
  forall w, (Z.abs w <= n1)%Z -> (Z.abs w <= n2)%Z -> bos r w = Some (f w + g w).
Proof.
  move=> R n1 n2 f g H1 H2. have [||r [E [L B]]] := @add_bosonic_spec _ (fun a b : R[i] => a + b) (brow n1 f) (brow n2 g) n1 n2 (fun x y => addrC x y) H1 H2; try by rewrite zlen_brow.
  exists r. split=> //. split=> //. split=> // w W1 W2.
  have X : forall n (h : Z -> R[i]), (Z.abs w <= n)%Z -> bos (brow n h) w = Some (h w).
    move=> n h Hn. rewrite /bos zlen_brow; last lia. rewrite /brow zget_map. have -> : ((2 * n + 1) / 2 = n)%Z by rewrite Z.mul_comm Z.div_add_l //; lia.
    rewrite zget_arange; last lia. rewrite /=. do 2 f_equal. lia.
  by rewrite B !X.
Qed.
Print Assumptions C83_total.
(** Non-vacuous: F = i sign(v) (2 if w' = 0 else 1) satisfies the relation together with ex_G and ex_a. *)
Example C83_case : forall R : rcfType, let wps := Matsubara.wn 1 0 false in
  (forall j w v, (j < size wps)%nat -> (fun (i j : nat) (w v : Z) => ex_G R (ord0, ord0, ord0) v * (1 + (j == 1%nat)%:R)) 0%nat (size wps - j.+1)%nat (- w)%Z (- v - 1)%Z =
     conjc ((fun (i j : nat) (w v : Z) => ex_G R (ord0, ord0, ord0) v * (1 + (j == 1%nat)%:R)) 0%nat j w v)) /\ (2 + 1 + 1 <= 4)%Z /\ (0 < 2)%Z.
Proof.
  move=> R wps. split=> // j w v Hj. rewrite [RHS](rmorphM (RMorphism (@conjc_is_rmorphism R))) /= ex_conj. congr (_ * _).
  rewrite -[RHS]/((RMorphism (@conjc_is_rmorphism R)) _) rmorphD rmorph1 rmorph_nat. congr (1 + _%:R). move: j Hj. by do 3?[case=> //].
Qed.
