(** Fits, energies, filling and real-frequency results about Model/TwoPoint.v. *)
From mathcomp Require Import all_ssreflect all_algebra.
From mathcomp.real_closed Require Import complex.
From Coq Require Import ZArith Lia.
From Verif Require Import Base.PyBase Base.PyFacts Base.FieldTac Model.Matsubara Proofs.MatsubaraP Model.TwoPoint Spec.TwoPointSpec Proofs.TwoPointP Proofs.TwoPointMainP.
Import Order.TTheory GRing.Theory Num.Theory.
Set Implicit Arguments. Unset Strict Implicit. Unset Printing Implicit Defensive.
Local Open Scope ring_scope.
Local Open Scope complex_scope.

Section P.
Variable R : rcfType.
Notation C := R[i].

(** ** lists *)
Lemma nthE (A : Type) (d : A) (l : list A) i : seq.nth d l i = List.nth i l d.
Proof. elim: l i => [|x l IH] [|i] //=. Qed.
Lemma zget_eq_nth (A : Type) (l : list A) i a d : zget l i = Some a -> List.nth (Z.to_nat i) l d = a.
Proof. move=> H. have Hr := @zget_some_range _ _ _ _ H. move: H. by rewrite (@zget_nth _ l i d Hr) => -[]. Qed.
Lemma zget_seq m i : (0 <= i < Z.of_nat m)%Z -> zget (List.seq 0 m) i = Some (Z.to_nat i).
Proof.
  move=> H. rewrite (@zget_nth _ _ _ O); [|by rewrite /zlen List.seq_length].
  rewrite List.seq_nth //. lia.
Qed.
Lemma zlen_kmean (K : finType) n (f : K -> list C) : zlen (kmean_v n f) = Z.of_nat n.
Proof. by rewrite /kmean_v zlen_map /zlen List.seq_length. Qed.
Lemma zget_kmean (K : finType) n (f : K -> list C) i : (0 <= i < Z.of_nat n)%Z ->
  zget (kmean_v n f) i = Some ((\sum_(k : K) entry (f k) i) / #|K|%:R).
Proof. move=> H. by rewrite /kmean_v zget_map zget_seq. Qed.

(** mean of a constant array *)
Lemma rmean_const (l : list R) (c : R) : (0 < zlen l)%Z -> (forall i a, zget l i = Some a -> a = c) -> rmean l = c.
Proof.
  move=> H0 H.
  have Hs : forall l' : list R, (forall i a, zget l' i = Some a -> a = c) -> \sum_(x <- l') x = (length l')%:R * c.
  { elim=> [|x l' IH] Hl; first by rewrite big_nil mul0r.
    rewrite big_cons IH; [|move=> i a Ha; apply: (Hl (i + 1)%Z); rewrite zget_cons; case: (Z.eqb_spec (i + 1) 0) => E; [have := @zget_some_range _ _ _ _ Ha; lia|by replace (i + 1 - 1)%Z with i by lia]].
    have -> : x = c by apply: (Hl 0%Z); exact: zget_cons_0.
    by rewrite -[length (_ :: _)]/((length l').+1) mulrS mulrDl mul1r. }
  rewrite /rmean Hs // mulrC mulKf // pnatr_eq0. apply/eqP. move: H0. rewrite /zlen. lia.
Qed.

(** ** the fit is exact on an exact tail *)
Lemma Im_tail (pb s0 s1 : R) v : 0 < pb -> (0 <= v)%Z -> complex.Im (tail_fun (nu pb) s0 s1 v) * nu pb v = s1.
Proof.
  move=> Hp Hv. have Hn := nu_gt0 Hp Hv. rewrite /tail_fun ImB Im_realM Im_inv.
  change ((0 - s1 * - (nu pb v / (0 ^+ 2 + nu pb v ^+ 2))) * nu pb v = s1).
  have Hne : nu pb v != 0 by apply: lt0r_neq0. rewrite sub0r mulrN opprK expr0n /= add0r. by rewrite -mulrA mulrAC -expr2 divff ?expf_neq0 // mulr1.
Qed.
Lemma Re_tail (pb s0 s1 : R) v : complex.Re (tail_fun (nu pb) s0 s1 v) = s0.
Proof.
  rewrite /tail_fun ReB Re_realM Re_inv. change (s0 - s1 * (0 / (0 ^+ 2 + nu pb v ^+ 2)) = s0). by rewrite mul0r mulr0 subr0.
Qed.
Definition fit_window (n : nat) : Z := Z.max 4 (Z.of_nat n / 5).
Lemma fit_exact (K : finType) (siwk : K -> list C) (n : nat) (pb s0 s1 : R) : 0 < pb -> (4 <= n)%nat ->
  (forall v, (Z.of_nat n - fit_window n <= v < Z.of_nat n)%Z -> (\sum_(k : K) entry (siwk k) v) / #|K|%:R = tail_fun (nu pb) s0 s1 v) ->
  fit_smom (map (iv pb) (vn (Z.of_nat n) 0 true)) n siwk = (s0, s1).
Proof.
  move=> Hp Hn H. rewrite /fit_smom. have Hn' : (4 <= Z.of_nat n)%Z by move/ssrnat.leP: Hn; lia.
  have HW : Z.of_nat (Nat.max 4 (n / 5)) = fit_window n by rewrite /fit_window Nat2Z.inj_max Nat2Z.inj_div.
  set start := (_ - _)%Z. have Hs : start = (Z.of_nat n - fit_window n)%Z by rewrite /start HW.
  have Hw : (4 <= fit_window n <= Z.of_nat n)%Z.
  { rewrite /fit_window. have := Z.div_le_upper_bound (Z.of_nat n) 5 (Z.of_nat n). lia. }
  have Hd : forall i, (0 <= i < fit_window n)%Z -> zget (slice_from (kmean_v n siwk) start) i = Some (tail_fun (nu pb) s0 s1 (start + i)).
  { move=> i Hi. rewrite /slice_from zlen_kmean zget_slice_in; [|lia|rewrite ?zlen_kmean; lia|lia]. rewrite zget_kmean; [|lia]. by rewrite H; [|lia]. }
  have Hv : zlen (map (iv pb) (vn (Z.of_nat n) 0 true)) = Z.of_nat n by rewrite zlen_map /vn zlen_arange; lia.
  have He : forall i, (0 <= i < fit_window n)%Z -> zget (slice_from (map (iv pb) (vn (Z.of_nat n) 0 true)) start) i = Some (iv pb (start + i)).
  { move=> i Hi. rewrite /slice_from Hv zget_slice_in; [|lia|rewrite ?Hv; lia|lia]. by rewrite zget_map /vn zget_arange /=; [|lia]. }
  have L1 : zlen (slice_from (kmean_v n siwk) start) = fit_window n by rewrite /slice_from zlen_kmean zlen_slice_in ?zlen_kmean; lia.
  have L2 : zlen (slice_from (map (iv pb) (vn (Z.of_nat n) 0 true)) start) = fit_window n by rewrite /slice_from Hv zlen_slice_in ?Hv; lia.
  congr (_, _).
  - apply: rmean_const; [rewrite zlen_map L1; lia|]. move=> i a Ha. have := @zget_some_range _ _ _ _ Ha. rewrite zlen_map L1 => Hi.
    move: Ha. rewrite zget_map Hd //= => -[<-]. exact: Re_tail.
  - apply: rmean_const; [rewrite zlen_map zlen_combine L1 L2; lia|]. move=> i a Ha. have := @zget_some_range _ _ _ _ Ha. rewrite zlen_map zlen_combine L1 L2 => Hi.
    move: Ha. rewrite zget_map zget_combine Hd ?He; [|lia|lia]. move=> -[<-]. apply: Im_tail => //. lia.
Qed.

(** ** the estimate of the core size *)
Lemma argmax_lt (l : list bool) : (0 < length l)%nat -> (argmax l < length l)%nat.
Proof. rewrite /argmax. case E: (has id l) => // _. by rewrite -has_find. Qed.
Lemma estimate_ge (K : finType) (sigma : K -> list C) n pb s0 s1 err : (20 <= estimate_niv_core sigma n pb s0 s1 err)%Z.
Proof. rewrite /estimate_niv_core /niv_core_min. case: Z.ltb_spec; lia. Qed.
Lemma estimate_le (K : finType) (sigma : K -> list C) n pb s0 s1 err :
  (estimate_niv_core sigma n pb s0 s1 err <= Z.max 20 (Z.of_nat n - 1))%Z.
Proof.
  rewrite /estimate_niv_core /niv_core_min. case: Z.ltb_spec => H; first lia.
  have HL : forall f : C * C -> bool, Z.of_nat (argmax (map f (combine (kmean_v n sigma) (tail_row pb s0 s1 (Z.of_nat n) 0)))) = 0%Z \/ (Z.of_nat (argmax (map f (combine (kmean_v n sigma) (tail_row pb s0 s1 (Z.of_nat n) 0)))) < Z.of_nat n)%Z.
  { move=> f. set l := map _ _. have Hl : length l = n. { have : zlen l = Z.of_nat n by rewrite /l zlen_map zlen_combine zlen_kmean zlen_tail; lia. by rewrite /zlen; lia. }
    case: (posnP (length l)) => E.
    - left. by rewrite /argmax (size0nil E).
    - right. have /ssrnat.ltP := argmax_lt E. rewrite Hl. lia. }
  case: (HL (fun x => `|complex.Re x.1 - complex.Re x.2| < err)); case: (HL (fun x => `|complex.Im x.1 - complex.Im x.2| < err)); lia.
Qed.
(** never within the error: the minimum is returned, not the number of stored frequencies *)
Lemma estimate_never (K : finType) (sigma : K -> list C) n pb s0 s1 err :
  (forall v, (0 <= v < Z.of_nat n)%Z ->
     let d := (\sum_(k : K) entry (sigma k) v) / #|K|%:R - tail_fun (nu pb) s0 s1 v in err <= `|complex.Re d| /\ err <= `|complex.Im d|) ->
  estimate_niv_core sigma n pb s0 s1 err = 20%Z.
Proof.
  move=> H. rewrite /estimate_niv_core /niv_core_min.
  have HA : forall f : C * C -> bool, (forall v, (0 <= v < Z.of_nat n)%Z -> f ((\sum_(k : K) entry (sigma k) v) / #|K|%:R, tail_fun (nu pb) s0 s1 v) = false) ->
    argmax (map f (combine (kmean_v n sigma) (tail_row pb s0 s1 (Z.of_nat n) 0))) = O.
  { move=> f Hf. rewrite /argmax. case E: (has id _) => //. exfalso. move/(has_nthP false): E => [i Hi].
    rewrite nthE. set l := map _ _ in Hi *. move=> Hn.
    have Hl : zlen l = Z.of_nat n by rewrite /l zlen_map zlen_combine zlen_kmean zlen_tail; lia.
    have Hi' : (0 <= Z.of_nat i < Z.of_nat n)%Z. { move: Hi => /ssrnat.ltP Hi. rewrite -Hl /zlen. change (size l) with (length l) in Hi. lia. }
    have Hg : zget l (Z.of_nat i) = Some false.
    { rewrite /l zget_map zget_combine zget_kmean // zget_tail // /=. by rewrite Hf. }
    have := zget_eq_nth false Hg. rewrite Nat2Z.id => E2. by rewrite E2 in Hn. }
  rewrite (HA (fun x => `|complex.Re x.1 - complex.Re x.2| < err)); last first.
  { move=> v Hv. apply/negbTE. rewrite -leNgt -ReB. exact: (proj1 (H v Hv)). }
  rewrite (HA (fun x => `|complex.Im x.1 - complex.Im x.2| < err)) //.
  move=> v Hv. apply/negbTE. rewrite -leNgt -ImB. exact: (proj2 (H v Hv)).
Qed.
(** ** core larger than the stored range: wrong lengths *)
Lemma zlen_slice_to_short (l : list C) n : (zlen l <= n)%Z -> slice_to l n = l.
Proof.
  move=> H. rewrite /slice_to /slice. have -> : clampi (zlen l) n = zlen l. { rewrite /clampi. have := zlen_nonneg l. case: Z.ltb_spec; lia. }
  have -> : clampi (zlen l) 0 = 0%Z. { rewrite /clampi. have := zlen_nonneg l. case: Z.ltb_spec; lia. }
  rewrite Z.sub_0_r /=. apply: List.firstn_all2. rewrite /zlen. lia.
Qed.
Section Short.
Variables (K KS : finType) (bc : K -> KS) (s : selfenergy R KS).
Hypothesis HL : forall k, zlen (se_sigma s k) = Z.of_nat (se_niv s).
Hypothesis Hshort : (Z.of_nat (se_niv s) < se_core s)%Z.
Lemma short_siw k m : (se_core s < m)%Z -> zlen (get_siw s m k) = (2 * (m - (se_core s - Z.of_nat (se_niv s))))%Z.
Proof.
  move=> Hm. rewrite /get_siw. case: (Z.eqb_spec m (-1)) => [|_]; first lia. case: (Z.leb_spec m (se_core s)); [lia|move=> _].
  rewrite /ffull fermionic_len zlen_app zlen_slice_to_short; [|by rewrite HL; lia]. rewrite HL zlen_tail; lia.
Qed.
Lemma short_core ek mu k : build_g_core bc s ek mu k = Raise ValueError.
Proof.
  rewrite /build_g_core /build_g_row. case: Nat.eqb_spec => // E. exfalso.
  have : zlen (ivs (se_pb s) (se_core s)) = zlen (sigma_core s (bc k)) by rewrite /zlen E.
  rewrite /ivs zlen_map /vn zlen_arange /sigma_core /ffull fermionic_len zlen_slice_to_short; [|by rewrite HL; lia]. rewrite HL. lia.
Qed.
End Short.

(** ** sums over all frequencies *)
Definition freq_sum (n : Z) (f : Z -> C) : C := \sum_(0 <= i < Z.to_nat (2 * n)) f (Z.of_nat i - n)%Z.
Lemma lsum_on_grid l n f : on_grid l n f -> lsum l = freq_sum n f.
Proof.
  move=> [L V]. rewrite /lsum (big_nth 0) /freq_sum.
  have Hn : size l = Z.to_nat (2 * n) by rewrite -L /zlen Nat2Z.id.
  rewrite Hn. apply: eq_big_nat => i /andP[_ /ssrnat.ltP Hi]. rewrite nthE.
  have := V (Z.of_nat i - n)%Z ltac:(lia). replace (n + (Z.of_nat i - n))%Z with (Z.of_nat i) by lia.
  move/(zget_eq_nth 0). by rewrite Nat2Z.id.
Qed.
Lemma subnE_ a b : Nat.sub a b = subn a b. Proof. by []. Qed.
Lemma freq_sum_conj n f : conj_symmetric f -> conjc (freq_sum n f) = freq_sum n f.
Proof.
  move=> H. rewrite /freq_sum. set m := Z.to_nat _. rewrite [in LHS]big_nat_rev. rewrite [LHS](rmorph_sum (RMorphism (@conjc_is_rmorphism R))).
  apply: eq_big_nat => i /andP[_ /ssrnat.ltP Hi]. have := H (Z.of_nat (subn (addn 0 m) i.+1) - n)%Z => E. etransitivity; [symmetry; exact: E|]. congr (f _).
  rewrite add0n -subnE_. rewrite /m in Hi *. lia.
Qed.
Lemma conj_real_im (z : C) : conjc z = z -> complex.Im z = 0.
Proof. case: z => a b [H]. have H2 : b *+ 2 == 0 by rewrite mulr2n -{1}H addNr. by move: H2; rewrite mulrn_eq0 => /eqP. Qed.
Lemma kmean_conj (K : finType) (f : K -> Z -> C) : (forall k, conj_symmetric (f k)) -> conj_symmetric (fun v => (\sum_(k : K) f k v) / #|K|%:R).
Proof.
  move=> H v /=. rewrite conj_div conjc_nat. congr (_ / _). rewrite [RHS](rmorph_sum (RMorphism (@conjc_is_rmorphism R))). by apply: eq_bigr => k _; rewrite H.
Qed.
Lemma kmean_on_grid (K : finType) (g : K -> list C) n f : (0 <= n)%Z -> (forall k, on_grid (g k) n (f k)) ->
  on_grid (kmean_v (Z.to_nat (2 * n)) g) n (fun v => (\sum_(k : K) f k v) / #|K|%:R).
Proof.
  move=> Hn H. split; [rewrite zlen_kmean; lia|]. move=> v Hv. rewrite zget_kmean; [|lia]. do 2 f_equal.
  apply: eq_bigr => k _. have [L V] := H k. exact: (zget_eq_nth 0 (V v Hv)).
Qed.
Lemma map_on_grid (l : list C) n f (h : C -> C) : on_grid l n f -> on_grid (map h l) n (fun v => h (f v)).
Proof. move=> [L V]. split; [by rewrite zlen_map|]. move=> v Hv. by rewrite zget_map V. Qed.
Lemma map2_on_grid (l m : list C) n f g (h : C * C -> C) : on_grid l n f -> on_grid m n g -> on_grid (map h (combine l m)) n (fun v => h (f v, g v)).
Proof. move=> [L V] [L2 V2]. split; [rewrite zlen_map zlen_combine; lia|]. move=> v Hv. by rewrite zget_map zget_combine V // V2. Qed.
Lemma realM_conj (r : R) (f : Z -> C) : conj_symmetric f -> conj_symmetric (fun v => r%:C * f v).
Proof. move=> H v. by rewrite H conjM conjc_real. Qed.
Lemma mul_conj (f g : Z -> C) : conj_symmetric f -> conj_symmetric g -> conj_symmetric (fun v => f v * g v).
Proof. move=> H1 H2 v. by rewrite H1 H2 conjM. Qed.
Lemma inv_beta_real (beta : R) (z : C) : conjc z = z -> complex.Im (1 / beta%:C * z) = 0.
Proof. move=> H. apply: conj_real_im. by rewrite conjM conj_div conjc1 conjc_real H. Qed.

Section Energy.
Variables (K KS : finType) (bc : K -> KS) (s : selfenergy R KS) (ek : K -> R) (mu beta : R) (niv : Z).
Hypothesis Hs : se_ok s.
Hypothesis Hn : (0 <= niv)%Z.
Variable g : K -> list C.
Hypothesis Hg : forall k, g_full bc s ek mu niv k = Ok (g k).
Let N := (se_core s + niv)%Z.
Lemma g_grid k : on_grid (g k) N (g_value bc s ek mu k).
Proof. have [g' [E H]] := g_full_ok bc ek mu k Hs Hn. move: (Hg k). by rewrite E => -[<-]. Qed.
Lemma N_ge0 : (0 <= N)%Z. Proof. have [_ H] := Hs. rewrite /N. lia. Qed.
Lemma e_kin_value : e_kin_c beta ek g (Z.to_nat (2 * N)) =
  1 / beta%:C * freq_sum N (fun v => (\sum_(k : K) (ek k)%:C * g_value bc s ek mu k v) / #|K|%:R)
  /\ complex.Im (e_kin_c beta ek g (Z.to_nat (2 * N))) = 0.
Proof.
  have E : lsum (kmean_v (Z.to_nat (2 * N)) (fun k => map (fun x => (ek k)%:C * x) (g k))) =
           freq_sum N (fun v => (\sum_(k : K) (ek k)%:C * g_value bc s ek mu k v) / #|K|%:R).
  { apply: lsum_on_grid. apply: kmean_on_grid; [exact: N_ge0|]. move=> k. apply: (@map_on_grid _ _ _ (fun x => (ek k)%:C * x)). exact: g_grid. }
  rewrite /e_kin_c E. split=> //. apply: inv_beta_real. apply: freq_sum_conj.
  apply: kmean_conj => k. apply: realM_conj. exact: g_value_sym.
Qed.
Lemma e_pot_value : e_pot_c bc beta s niv g (Z.to_nat (2 * N)) =
  1 / beta%:C * freq_sum N (fun v => (\sum_(k : K) (se_value s (bc k) v - (se_smom0 s)%:C) * g_value bc s ek mu k v) / #|K|%:R)
  /\ complex.Im (e_pot_c bc beta s niv g (Z.to_nat (2 * N))) = 0.
Proof.
  have E : lsum (kmean_v (Z.to_nat (2 * N)) (fun k => map (fun x : C * C => (x.1 - (se_smom0 s)%:C) * x.2) (combine (get_sigma_full s niv (bc k)) (g k)))) =
           freq_sum N (fun v => (\sum_(k : K) (se_value s (bc k) v - (se_smom0 s)%:C) * g_value bc s ek mu k v) / #|K|%:R).
  { apply: lsum_on_grid. apply: kmean_on_grid; [exact: N_ge0|]. move=> k. apply: (@map2_on_grid _ _ _ _ _ (fun x : C * C => (x.1 - (se_smom0 s)%:C) * x.2)); [exact: get_sigma_full_ok|exact: g_grid]. }
  rewrite /e_pot_c E. split=> //. apply: inv_beta_real. apply: freq_sum_conj.
  apply: kmean_conj => k. apply: mul_conj; [|exact: g_value_sym]. move=> v. by rewrite se_value_sym conjB conjc_real.
Qed.
End Energy.
End P.
