(** Lemmas about polynomial fits on the Matsubara axis. *)
From mathcomp Require Import all_ssreflect all_algebra.
From mathcomp.real_closed Require Import complex.
From Coq Require Import ZArith Lia.
From Verif Require Import Base.PyBase Base.PyFacts Model.BrillouinZone Model.MatsubaraFit Spec.MatsubaraFitSpec.
Import Order.TTheory GRing.Theory Num.Theory.
Set Implicit Arguments. Unset Strict Implicit. Unset Printing Implicit Defensive.
Local Open Scope ring_scope.

Section Poly.
Variable R : rcfType.
Lemma mem_InR (a : R) (l : list R) : a \in l -> List.In a l.
Proof. elim: l => [|b l IH] //=. rewrite inE => /orP [/eqP ->|/IH]; by [left|right]. Qed.
Lemma NoDup_uniqR (l : list R) : List.NoDup l -> seq.uniq l.
Proof. elim: l => [|a l IH] //= H. inversion H as [|? ? Ha Hl]. rewrite IH // andbT. apply/negP => /mem_InR. exact: Ha. Qed.
Lemma zlen_size A (l : list A) : zlen l = Z.of_nat (size l). Proof. by []. Qed.
Lemma all_rootsP (p : {poly R}) (l : list R) : (forall x, List.In x l -> p.[x] = 0) -> all (root p) l.
Proof. elim: l => [|a l IH] //= H. rewrite {1}/root H ?eqxx /=; last by left. apply: IH => x Hx. apply: H. by right. Qed.
(** two polynomials of degree at most d that agree at more than d points are equal *)
Lemma poly_unique (p q : {poly R}) xs d : (0 <= d)%Z -> List.NoDup xs -> (d + 1 <= zlen xs)%Z -> degree_le p d -> degree_le q d -> (forall x, List.In x xs -> p.[x] = q.[x]) -> p = q.
Proof.
  move=> Hd HN HL Hp Hq H. apply/eqP. rewrite -subr_eq0. apply/eqP. apply: (@roots_geq_poly_eq0 _ _ xs).
  - apply: all_rootsP => x Hx. by rewrite hornerD hornerN H // subrr.
  - exact: NoDup_uniqR.
  - apply: leq_trans (size_add _ _) _. rewrite size_opp geq_max. apply/andP. split; apply/ssrnat.leP; apply/Nat2Z.inj_le; [exact: Z.le_trans Hp HL|exact: Z.le_trans Hq HL].
Qed.
Lemma deviation_ge0 xs ys (p : {poly R}) : 0 <= deviation xs ys p. Proof. apply: sumr_ge0 => *. exact: sqr_ge0. Qed.
Lemma deviation_exact xs (p : {poly R}) : deviation xs (List.map (fun x => p.[x]) xs) p = 0.
Proof. rewrite /deviation. elim: xs => [|a l IH] /=; first by rewrite big_nil. by rewrite big_cons IH subrr expr0n addr0. Qed.
Lemma deviation0 xs (p q : {poly R}) : deviation xs (List.map (fun x => q.[x]) xs) p <= 0 -> forall x, List.In x xs -> p.[x] = q.[x].
Proof.
  rewrite /deviation. elim: xs => [|a l IH] //=. rewrite big_cons /= => H x.
  have D0 := @deviation_ge0 l (List.map (fun x => q.[x]) l) p. rewrite /deviation in D0. have Sq := sqr_ge0 (p.[a] - q.[a]).
  have E : (p.[a] - q.[a]) ^+ 2 = 0 by apply: le_anti; rewrite Sq andbT; apply: le_trans H; rewrite ler_addl.
  case=> [<-|Hx]; first by move/eqP: E; rewrite sqrf_eq0 subr_eq0 => /eqP. apply: IH => //. by rewrite E add0r in H.
Qed.
Lemma lsq_exact fit : @least_squares R fit -> fits_exactly fit.
Proof.
  move=> H xs d p Hd HN HL Hp. have [D M] := H xs (List.map (fun x => p.[x]) xs) d Hd ltac:(by rewrite zlen_map) ltac:(lia).
  apply: (@poly_unique _ _ xs d) => //. apply: deviation0. rewrite -(deviation_exact xs p). exact: M.
Qed.
(** Newton interpolation: a fit that is exact exists *)
Fixpoint newton (xs ys : list R) : {poly R} :=
  match xs, ys with
  | x :: xs', y :: ys' => let p := newton xs' ys' in let w := \prod_(z <- xs') ('X - z%:P) in p + ((y - p.[x]) / w.[x]) *: w
  | _, _ => 0
  end.
Lemma prod_root (xs : list R) x : List.In x xs -> (\prod_(z <- xs) ('X - z%:P)).[x] = 0.
Proof. elim: xs => [|a l IH] //= [->|/IH E]; rewrite big_cons hornerM; first by rewrite hornerXsubC subrr mul0r. by rewrite E mulr0. Qed.
Lemma prod_nroot (xs : list R) x : ~ List.In x xs -> (\prod_(z <- xs) ('X - z%:P)).[x] != 0.
Proof.
  elim: xs => [|a l IH] H; first by rewrite big_nil hornerC oner_eq0. rewrite big_cons hornerM hornerXsubC mulf_neq0 //; last by apply: IH => Hx; apply: H; right.
  rewrite subr_eq0. apply/eqP => E. by apply: H; left.
Qed.
Lemma newton_size xs ys : (size (newton xs ys) <= size xs)%nat.
Proof.
  elim: xs ys => [|x xs IH] [|y ys] /=; rewrite ?size_poly0 //. apply: leq_trans (size_add _ _) _. rewrite geq_max (leq_trans (IH ys)) //=.
  apply: leq_trans (size_scale_leq _ _) _. by rewrite size_prod_XsubC.
Qed.
Lemma newton_at xs (f : R -> R) x : List.NoDup xs -> List.In x xs -> (newton xs (List.map f xs)).[x] = f x.
Proof.
  elim: xs => [|a l IH] //= HN. inversion HN as [|? ? Ha Hl]. rewrite hornerD hornerZ. case=> [<-|Hx].
  - by rewrite divfK ?prod_nroot // addrC subrK.
  - by rewrite (prod_root Hx) mulr0 addr0 IH.
Qed.
Lemma In_firstn A n (l : list A) x : List.In x (List.firstn n l) -> List.In x l.
Proof. elim: l n => [|b l IH] [|n] //= [->|/IH]; by [left|right]. Qed.
Lemma NoDup_firstn A n (l : list A) : List.NoDup l -> List.NoDup (List.firstn n l).
Proof. elim: l n => [|a l IH] [|n] //= H; try by constructor. inversion H as [|? ? Ha Hl]. constructor; last exact: IH. by move=> Hin; apply: Ha; apply: In_firstn Hin. Qed.
Definition newton_fit (xs ys : list R) (d : Z) : {poly R} := newton (List.firstn (Z.to_nat (d + 1)) xs) (List.firstn (Z.to_nat (d + 1)) ys).
Lemma newton_fits : fits_exactly newton_fit.
Proof.
  move=> xs d p Hd HN HL Hp. rewrite /newton_fit List.firstn_map. have L : List.length (List.firstn (Z.to_nat (d + 1)) xs) = Z.to_nat (d + 1) by apply: List.firstn_length_le; move: HL; rewrite /zlen; lia.
  apply: (@poly_unique _ _ (List.firstn (Z.to_nat (d + 1)) xs) d) => //.
  - exact: NoDup_firstn.
  - rewrite /zlen L. lia.
  - rewrite /degree_le. have /ssrnat.leP H := newton_size (List.firstn (Z.to_nat (d + 1)) xs) (List.map (fun x => p.[x]) (List.firstn (Z.to_nat (d + 1)) xs)).
    have {}H := PeanoNat.Nat.le_trans _ _ _ H (PeanoNat.Nat.eq_le_incl _ _ L). apply: Z.le_trans (proj1 (Nat2Z.inj_le _ _) H) _. lia.
  - move=> x Hx. apply: newton_at => //. exact: NoDup_firstn.
Qed.

(** interpolation of 1/x *)
Fixpoint inv_w (l : list R) : {poly R} := match l with [::] => 1 | c :: l' => (1 - c *: 'X) * inv_w l' end.
Fixpoint inv_q (l : list R) : {poly R} := match l with [::] => 0 | c :: l' => inv_q l' + c *: inv_w l' end.
Lemma inv_id l : 'X * inv_q l = 1 - inv_w l.
Proof.
  elim: l => [|c l IH] /=; first by rewrite mulr0 subrr. rewrite mulrDr IH mulrBl mul1r opprB -addrA. congr (_ + _). rewrite addrC. congr (_ + _). by rewrite -scalerAr -scalerAl.
Qed.
Lemma inv_w0 l : (inv_w l).[0] = 1.
Proof. elim: l => [|c l IH] /=; first by rewrite hornerC. by rewrite hornerM IH hornerD hornerN hornerZ hornerX hornerC mulr0 subr0 mulr1. Qed.
Lemma inv_q0 l : (inv_q l).[0] = \sum_(c <- l) c.
Proof. elim: l => [|c l IH] /=; first by rewrite hornerC big_nil. by rewrite hornerD hornerZ inv_w0 IH big_cons mulr1 addrC. Qed.
Lemma inv_w_root l x : List.In x l -> x != 0 -> (inv_w l).[x^-1] = 0.
Proof. elim: l => [|c l IH] //= [->|Hx] H; rewrite hornerM; last by rewrite IH // mulr0. by rewrite hornerD hornerN hornerZ hornerX hornerC divff // subrr mul0r. Qed.
Lemma inv_w_size l : (size (inv_w l) <= (size l).+1)%nat.
Proof.
  elim: l => [|c l IH] /=; first by rewrite size_poly1. apply: leq_trans (size_mul_leq _ _) _. have : (size (1 - c *: 'X)%R <= 2)%nat.
    apply: leq_trans (size_add _ _) _. rewrite size_poly1 size_opp geq_max /=. apply: leq_trans (size_scale_leq _ _) _. by rewrite size_polyX.
  move=> H. rewrite -subn1 leq_subLR. exact: leq_add H IH.
Qed.
Lemma inv_q_size l : (size (inv_q l) <= size l)%nat.
Proof.
  elim: l => [|c l IH] /=; first by rewrite size_poly0. apply: leq_trans (size_add _ _) _. rewrite geq_max (leq_trans IH) //=. apply: leq_trans (size_scale_leq _ _) _. exact: inv_w_size.
Qed.
Lemma inv_q_at (xs : list R) x : List.In x xs -> x != 0 -> (inv_q (List.map (fun y => y^-1) xs)).[x] = x^-1.
Proof.
  move=> Hx N. have := congr1 (fun p => p.[x]) (inv_id (List.map (fun y => y^-1) xs)). rewrite hornerM hornerX hornerD hornerN hornerC. rewrite -{3}(invrK x) inv_w_root ?invr_eq0 //; last by apply: List.in_map.
  rewrite subr0 => E. by rewrite -[LHS](mulKf N) E mulr1.
Qed.
End Poly.

Section Fit.
Variable R : rcfType.
Notation C := R[i].
Variable fit : list R -> list R -> Z -> {poly R}.
Lemma x_new0 : exists l, x_new R = 0 :: l. Proof. eexists. rewrite /x_new /=. by rewrite mul0r. Qed.
Lemma get_x_new (f : R -> R) : py_get (List.map f (x_new R)) 0 = Ok (f 0).
Proof. have [l ->] := x_new0. rewrite /py_get /=. by []. Qed.
Lemma extrap_val (x y : list R) order n : (0 <= order)%Z -> (1 <= zlen (slice x 0 n))%Z -> zlen (slice x 0 n) = zlen (slice y 0 n) ->
  poly_extrap_0 fit x y order n = Ok (fit (slice x 0 n) (slice y 0 n) order).[0].
Proof.
  move=> Ho H1 HL. rewrite /poly_extrap_0 /np_polyfit. have -> : (order <? 0)%Z = false by apply/Z.ltb_ge. have -> : (zlen (slice x 0 n) =? 0)%Z = false by apply/Z.eqb_neq; lia.
  rewrite HL Z.eqb_refl. cbn [negb bind]. exact: get_x_new.
Qed.
(** the slice of data on a polynomial *)
Lemma slice_data (x y : list R) (p : {poly R}) n : (0 <= n)%Z -> (n <= zlen x)%Z -> zlen x = zlen y ->
  (forall i a b, (0 <= i < n)%Z -> zget x i = Some a -> zget y i = Some b -> b = p.[a]) -> slice y 0 n = List.map (fun a => p.[a]) (slice x 0 n).
Proof.
  move=> H0 Hn HL H. have L1 : zlen (slice x 0 n) = n by rewrite zlen_slice_in; lia. have L2 : zlen (slice y 0 n) = n by rewrite zlen_slice_in; lia.
  apply: zget_ext; first by rewrite zlen_map L1 L2. move=> i. rewrite L2 => Hi. rewrite zget_map !zget_slice_in; try lia; try exact: Hn.
  rewrite Z.add_0_l. have [a Ea] := @zget_in_range _ x i ltac:(lia). have [b Eb] := @zget_in_range _ y i ltac:(lia). rewrite Ea Eb /=. f_equal. exact: (H i a b Hi Ea Eb).
Qed.
Lemma slice_NoDup A (l : list A) n : List.NoDup l -> (0 <= n <= zlen l)%Z -> List.NoDup (slice l 0 n).
Proof. move=> H Hn. rewrite /slice !clampi_id; try lia. exact: NoDup_firstn. Qed.
Hypothesis HF : fits_exactly fit.
Lemma extrap_exact (x y : list R) (p : {poly R}) order n : (0 <= order)%Z -> (order + 1 <= n)%Z -> (n <= zlen x)%Z -> zlen x = zlen y -> List.NoDup x -> degree_le p order ->
  (forall i a b, (0 <= i < n)%Z -> zget x i = Some a -> zget y i = Some b -> b = p.[a]) -> poly_extrap_0 fit x y order n = Ok p.[0] /\ poly_der_extrap_0 fit x y order n = Ok (deriv p).[0].
Proof.
  move=> Ho Hn HL HE HN HD H. have E := @slice_data x y p n ltac:(lia) HL HE H. have Ef : fit (slice x 0 n) (slice y 0 n) order = p.
    rewrite E. apply: HF => //; first by apply: slice_NoDup => //; lia. rewrite zlen_slice_in; lia.
  have L1 : zlen (slice x 0 n) = n by rewrite zlen_slice_in; lia. have L2 : zlen (slice y 0 n) = n by rewrite zlen_slice_in; lia.
  split; first by rewrite extrap_val ?Ef ?L1 ?L2 //; lia.
  rewrite /poly_der_extrap_0 /np_polyfit. have -> : (order <? 0)%Z = false by apply/Z.ltb_ge. rewrite L1 L2. have -> : (n =? 0)%Z = false by apply/Z.eqb_neq; lia. rewrite Z.eqb_refl. cbn [negb bind]. rewrite Ef. exact: get_x_new.
Qed.
End Fit.

Section Gamma.
Variable R : rcfType.
Notation C := R[i].
Variable fit : list R -> list R -> Z -> {poly R}.
Definition im_part (siw : list C) : list R := List.map (fun z : C => complex.Im z) siw.
Definition re_part (siw : list C) : list R := List.map (fun z : C => complex.Re z) siw.
Lemma clamp_qw (z : R) : (let z := if z < 0 then 0 else z in let z := if 1 < z then 1 else z in if z == 0 then 1 else z) = quasiparticle_weight z.
Proof.
  rewrite /quasiparticle_weight. case: (ltrgt0P z) => [z0|z0|->] /=; rewrite ?ltr10 ?eqxx //.
  - case: (ltP 1 z) => [H|H]; first by rewrite oner_eq0. by rewrite (gt_eqF z0).
Qed.
Lemma qw_range (z : R) : 0 < quasiparticle_weight z <= 1.
Proof. rewrite /quasiparticle_weight. case: ifP => // _. by rewrite ltr01 lexx. Qed.
Lemma gamma_val wn (siw : list C) order n : (0 <= order)%Z -> zlen wn = zlen siw -> (1 <= zlen (slice wn 0 n))%Z ->
  get_gamma_bandshift_z fit wn siw order n =
  Ok (- (fit (slice wn 0 n) (slice (im_part siw) 0 n) order).[0], (fit (slice wn 0 n) (slice (re_part siw) 0 n) order).[0],
      quasiparticle_weight (1 / (1 - (fit (slice wn 0 n) (slice (map2 (fun x y => x / y) (im_part siw) wn) 0 n) order).[0]))).
Proof.
  move=> Ho HL H1. rewrite /get_gamma_bandshift_z -/(im_part siw) -/(re_part siw).
  have Li : zlen (im_part siw) = zlen wn by rewrite zlen_map HL. have Lr : zlen (re_part siw) = zlen wn by rewrite zlen_map HL.
  have Lq : zlen (map2 (fun x y => x / y) (im_part siw) wn) = zlen wn by rewrite zlen_map2 Li Z.min_id.
  have S : forall y : list R, zlen y = zlen wn -> zlen (slice wn 0 n) = zlen (slice y 0 n) by move=> y Hy; rewrite !zlen_slice Hy.
  rewrite extrap_val //; last exact: S. cbn [bind]. rewrite extrap_val //; last exact: S. cbn [bind]. rewrite /np_div Li Z.eqb_refl. cbn [bind].
  rewrite extrap_val //; last exact: S. cbn [bind]. by rewrite -clamp_qw.
Qed.
End Gamma.
