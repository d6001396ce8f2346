(** Proofs about the averaged Pade continuation (Model.PadeAvg). *)
From mathcomp Require Import all_ssreflect all_algebra.
From mathcomp Require Import complex.
From Verif Require Import Base.PyBase Model.Pade Model.PadeAvg Spec.PadeAvgSpec Proofs.PadeP.
Import GRing.Theory Num.Theory.
Set Implicit Arguments. Unset Strict Implicit. Unset Printing Implicit Defensive.
Local Open Scope nat_scope.
Local Open Scope ring_scope.

Section Rational.
Variable F : fieldType.
Lemma rat_recover (p q p' q' : {poly F}) r (pts : list F) : seq.uniq pts -> (size p' <= r)%nat -> (size q' <= r.+1)%nat ->
  (size p < size q)%nat -> (size q <= r.+1)%nat -> (r.*2 <= size pts)%nat ->
  (forall z, z \in pts -> p'.[z] * q.[z] = p.[z] * q'.[z]) -> p' * q = p * q'.
Proof.
  move=> hu h1 h2 h3 h4 hs hz. apply/eqP. rewrite -subr_eq0. apply/negP => /negP hne.
  have hr : all (root (p' * q - p * q')) pts.
  { apply/allP => z hin. by rewrite rootE hornerD hornerN !hornerM (hz z hin) subrr. }
  have := max_poly_roots hne hr hu. apply/negP. rewrite -leqNgt. apply: leq_trans hs.
  apply: (leq_trans (size_add _ _)). rewrite size_opp geq_max. apply/andP; split.
  - apply: (leq_trans (size_mul_leq _ _)). rewrite -addnn.
    have := leq_add h1 h4. rewrite addnS. by case: (_ + _)%nat.
  - apply: (leq_trans (size_mul_leq _ _)). rewrite -addnn. have h3' := leq_trans h3 h4. rewrite ltnS in h3'.
    have := leq_add h3' h2. rewrite addnS. by case: (_ + _)%nat.
Qed.
(* the two polynomials of a coefficient list *)
Definition xnum (x : list F) : {poly F} := \poly_(i < (size x)./2) seq.nth 0 x i.
Definition xden (x : list F) : {poly F} := \poly_(i < (size x)./2) seq.nth 0 x ((size x)./2 + i) + 'X^((size x)./2).
Lemma sum_iota (V : zmodType) (h : nat -> V) n : \sum_(i <- iota 0 n) h i = \sum_(i < n) h i.
Proof. by rewrite -[in iota _ _](subn0 n) -/(index_iota 0 n) big_mkord. Qed.
Lemma epade_poly z x : epade z x = (xnum x).[z] / (xden x).[z].
Proof.
  rewrite /epade /xnum /xden !foldl_sum !add0r hornerD hornerXn !horner_poly !sum_iota. by [].
Qed.
Lemma size_xnum x : (size (xnum x) <= (size x)./2)%nat. Proof. exact: size_poly. Qed.
Lemma size_xden x : (size (xden x) <= (size x)./2.+1)%nat.
Proof.
  apply: (leq_trans (size_add _ _)). rewrite geq_max size_polyXn leqnn andbT.
  apply: (leq_trans (size_poly _ _)). exact: leqnSn.
Qed.
Lemma dot_poly x r z f : size x = r.*2 -> (dot (pm_row r z f) x == pm_rhs r z f) = ((xnum x).[z] == f * (xden x).[z]).
Proof.
  move=> hs. rewrite (dot_cat _ _ hs) /pm_rhs /xnum /xden hs doubleK hornerD hornerXn !horner_poly !sum_iota.
  rewrite mulrDr. by rewrite subr_eq addrC.
Qed.
(* coefficients of a given rational function *)
Definition coefs (p q : {poly F}) r : list F := [seq p`_i | i <- iota 0 r] ++ [seq q`_i | i <- iota 0 r].
Lemma size_coefs (p q : {poly F}) r : size (coefs p q r) = r.*2.
Proof. by rewrite size_cat !size_map !size_iota addnn. Qed.
Lemma coefs_num (p q : {poly F}) r : (size p <= r)%nat -> xnum (coefs p q r) = p.
Proof.
  move=> hp. apply/polyP => i. rewrite coef_poly size_coefs doubleK. case: ltnP => hi.
  - by rewrite nth_cat size_map size_iota hi nmi.
  - by rewrite seq.nth_default // (leq_trans hp).
Qed.
Lemma coefs_den (p q : {poly F}) r : q \is monic -> size q = r.+1 -> xden (coefs p q r) = q.
Proof.
  move=> hm hq. apply/polyP => i. rewrite coefD coef_poly coefXn size_coefs doubleK. case: ltnP => hi.
  - by rewrite (ltn_eqF hi) addr0 nth_cat size_map size_iota ltnNge leq_addr /= addKn nmi.
  - rewrite add0r. case: eqP => [->|/eqP hne].
    + by move/monicP: hm; rewrite /lead_coef hq.
    + rewrite seq.nth_default // hq ltn_neqAle eq_sym hne hi. by [].
Qed.
End Rational.

Lemma firstn_take T n (l : list T) : firstn n l = seq.take n l.
Proof. elim: n l => [|n IH] [|x l] //=. by rewrite IH. Qed.
Lemma Lmap T U (h : T -> U) l : List.map h l = [seq h x | x <- l]. Proof. by elim: l => //= a l ->. Qed.
Lemma Lapp T (a b : list T) : List.app a b = a ++ b. Proof. by elim: a => //= x a ->. Qed.
Lemma Llen T (a : list T) : List.length a = size a. Proof. by elim: a => //= x a ->. Qed.
Lemma slice0 T (l : list T) (b : Z) : (0 <= b)%Z -> slice l 0 b = seq.take (Z.to_nat b) l.
Proof.
  move=> hb. rewrite /slice /clampi /zlen Llen.
  have -> : (b <? 0)%Z = false by apply/Z.ltb_ge. rewrite Z.ltb_irrefl.
  have -> : Z.max 0 (Z.min (Z.of_nat (size l)) 0) = 0%Z by lia. rewrite /= firstn_take.
  case: (leqP (Z.to_nat b) (size l)) => h.
  - congr seq.take. move/leP: h => h. lia.
  - rewrite !take_oversize //; first exact: ltnW. apply/leP. move/ltP: h => h. lia.
Qed.

Section P.
Variable R : rcfType.
Notation C := (complex R).
Notation Im := (@complex.Im R).

Lemma pick_neg (l : list C) (a b : nat) : (0 < a)%nat ->
  pick l (- Z.of_nat a) (Z.of_nat a + Z.of_nat b) = (seq.rev [seq conjc x | x <- seq.take a l] ++ seq.take b l)%SEQ.
Proof.
  move=> ha. rewrite /pick. have -> : (0 <=? - Z.of_nat a)%Z = false by apply/Z.leb_gt; move/ltP: ha => ha; lia.
  rewrite Z.opp_involutive Nat2Z.id. have -> : (Z.of_nat a + Z.of_nat b - Z.of_nat a)%Z = Z.of_nat b by lia.
  rewrite slice0; last lia. by rewrite Nat2Z.id.
Qed.
Lemma pick_nonneg (l : list C) (a b : nat) : pick l (Z.of_nat a) (Z.of_nat b) = seq.take b (seq.drop a l).
Proof.
  rewrite /pick. have -> : (0 <=? Z.of_nat a)%Z = true by apply/Z.leb_le; lia.
  rewrite /slice /clampi /zlen Llen.
  have -> : (Z.of_nat a <? 0)%Z = false by apply/Z.ltb_ge; lia.
  have -> : (Z.of_nat a + Z.of_nat b <? 0)%Z = false by apply/Z.ltb_ge; lia.
  rewrite firstn_take.
  have E : forall n (k : list C), skipn n k = seq.drop n k by elim=> [|n IH] [|y k] //=; rewrite IH.
  rewrite E. case: (leqP a (size l)) => h.
  - move/leP: (h) => h'. have -> : Z.to_nat (Z.max 0 (Z.min (Z.of_nat (size l)) (Z.of_nat a))) = a by lia.
    case: (leqP b (size (seq.drop a l))) => hb.
    + congr seq.take. move: hb; rewrite size_drop => /leP. rewrite /subn /subn_rec /=. lia.
    + rewrite !take_oversize //; first exact: ltnW. move: hb; rewrite !size_drop => /leP. rewrite /subn /subn_rec => hb. apply/leP. lia.
  - rewrite !seq.drop_oversize //; first exact: ltnW. apply/leP. move/leP: h. lia.
Qed.

(* ---- distances and mask ---- *)
Lemma delta_sym_sum (f : list (list C)) i : (i < size f)%nat ->
  dacc f i = \sum_(j <- iota 0 (size f) | j != i) dist1 (seq.nth [::] f (minn i j)) (seq.nth [::] f (maxn i j)).
Proof.
  move=> hi. rewrite /dacc -{2}(subnKC hi) addSnnS iotaD add0n big_cat /=. congr (_ + _).
  - rewrite big_seq_cond [RHS]big_seq_cond. apply: eq_big => [j|j].
    + rewrite mem_iota add0n /= andbT. case: ltnP => // h. by rewrite neq_ltn h.
    + rewrite mem_iota add0n /= andbT => h. by rewrite /delta h (minn_idPr (ltnW h)) (maxn_idPl (ltnW h)).
  - rewrite big_cons eqxx /=. rewrite big_seq_cond [RHS]big_seq_cond. apply: eq_big => [j|j].
    + rewrite mem_iota /= andbT. case: ltnP => //= h. by rewrite (gtn_eqF h) andbT.
    + rewrite mem_iota /= andbT => /andP[h _]. by rewrite /delta h (minn_idPl (ltnW h)) (maxn_idPr (ltnW h)).
Qed.
Lemma dist1_sym (a b : list C) : size a = size b -> dist1 a b = dist1 b a.
Proof. move=> h. rewrite /dist1 h. apply: eq_bigr => k _. exact: distrC. Qed.
Lemma dist1_ge0 (a b : list C) : 0 <= dist1 a b. Proof. by apply: sumr_ge0 => k _; exact: normr_ge0. Qed.
Lemma dacc_ge0 (f : list (list C)) i : 0 <= dacc f i.
Proof.
  rewrite /dacc addr_ge0 //; apply: sumr_ge0 => k _; rewrite /delta; case: ifP => // _; exact: dist1_ge0.
Qed.
Lemma size_ds (f : list (list C)) : size (ds f) = size f. Proof. by rewrite size_map size_iota. Qed.
Lemma nth_ds (f : list (list C)) i : (i < size f)%nat -> seq.nth 0 (ds f) i = dacc f i. Proof. by move=> h; rewrite /ds nmi. Qed.

Lemma size_mask ar (f : list (list C)) : size (mask ar f) = size f. Proof. by rewrite /mask size_map size_iota size_ds. Qed.
Lemma nth_mask ar (f : list (list C)) i : (i < size f)%nat ->
  seq.nth false (mask ar f) i = (dacc f i <= 99%:R / 100%:R * rmean (ds f)) && (i \in seq.take (51 * size f %/ 100) (ar (ds f))).
Proof. move=> hi. by rewrite /mask nmi ?size_ds // nth_ds. Qed.
Lemma mem_argsort ar (d : list R) i : argsort_ok ar -> (i \in ar d) = (i < size d)%nat.
Proof. move=> h. have [hp _] := h d. by rewrite (perm_mem hp) mem_iota. Qed.
Lemma size_argsort ar (d : list R) : argsort_ok ar -> size (ar d) = size d.
Proof. move=> h. have [hp _] := h d. by rewrite (perm_size hp) size_iota. Qed.
Lemma two_take n : (2 <= n)%nat -> (0 < 51 * n %/ 100)%nat.
Proof.
  move=> h. rewrite divn_gt0 //. apply: (@leq_trans (51 * 2)%nat) => //. by rewrite leq_mul2l h.
Qed.
(* the head of argsort is a minimum *)
Lemma argsort_head ar (d : list R) : argsort_ok ar -> (0 < size d)%nat ->
  let i := seq.head 0%nat (ar d) in (i < size d)%nat /\ forall j, (j < size d)%nat -> seq.nth 0 d i <= seq.nth 0 d j.
Proof.
  move=> ha hs. have [hp hso] := ha d. have hsz := size_argsort d ha. move: hp hso hsz.
  have hm : forall j, (j < size d)%nat -> j \in ar d by move=> j hj; rewrite mem_argsort.
  have hm' : forall j, j \in ar d -> (j < size d)%nat by move=> j; rewrite mem_argsort.
  move: hm hm'. case: (ar d) => [|a l] hm hm' hp hso hsz; first by rewrite -hsz in hs.
  rewrite /=. split; first by apply: hm'; rewrite inE eqxx.
  move=> j /hm. rewrite inE => /orP[/eqP->//|hj].
  have tr : transitive (fun i j : nat => seq.nth 0 d i <= seq.nth 0 d j) by move=> y x z; exact: Order.POrderTheory.le_trans.
  by have /allP := order_path_min tr hso; move=> /(_ j hj).
Qed.
Lemma mask_nonempty ar (f : list (list C)) : argsort_ok ar -> (2 <= size f)%nat ->
  (exists i, (i < size f)%nat /\ seq.nth false (mask ar f) i) <->
  (exists i, (i < size f)%nat /\ dacc f i <= 99%:R / 100%:R * rmean (ds f)).
Proof.
  move=> ha hf. split.
  - move=> [i [hi hm]]. exists i; split=> //. by move: hm; rewrite nth_mask // => /andP[].
  - move=> [i [hi hc]]. have hs : (0 < size (ds f))%nat by rewrite size_ds (leq_trans _ hf).
    have [h1 h2] := argsort_head ha hs. rewrite size_ds in h1 h2. exists (seq.head 0%nat (ar (ds f))). split=> //.
    rewrite nth_mask //. apply/andP; split.
    + apply: Order.POrderTheory.le_trans hc. have := h2 i hi. by rewrite !nth_ds.
    + have := two_take hf. have := size_argsort (ds f) ha. rewrite size_ds. case: (ar (ds f)) => [|x l] hh.
      * by move: hf; rewrite -hh.
      * case: (51 * size f %/ 100)%nat => // m _. by rewrite /= inE eqxx.
Qed.
Lemma count_mask ar (f : list (list C)) : argsort_ok ar -> (seq.count id (mask ar f) <= 51 * size f %/ 100)%nat.
Proof.
  move=> ha. set m := (51 * size f %/ 100)%nat. set l := seq.take m (ar (ds f)).
  have hl : (size l <= m)%nat by rewrite size_take; case: ltnP.
  apply: leq_trans hl. rewrite /mask size_ds -/m -/l count_map.
  apply: (@leq_trans (seq.count (fun i => i \in l) (iota 0 (size f)))).
  - apply: sub_count => i /=. by move=> /andP[].
  - rewrite -size_filter. apply: uniq_leq_size; first exact: filter_uniq (iota_uniq _ _).
    move=> i. by rewrite mem_filter => /andP[].
Qed.
(* two continuations that differ *)
Lemma ds2 (a b : list C) : ds [:: a; b] = [:: dist1 a b; dist1 a b].
Proof. by rewrite /ds /= /dacc /= /delta /= !big_cons !big_nil /= !addr0 add0r. Qed.
Lemma two_empty ar (a b : list C) : dist1 a b != 0 -> mask ar [:: a; b] = [:: false; false].
Proof.
  move=> h. have hp : 0 < dist1 a b by rewrite Order.POrderTheory.lt_def h dist1_ge0.
  have hm : rmean [:: dist1 a b; dist1 a b] = dist1 a b.
  { rewrite /rmean !big_cons big_nil addr0 /= -mulr2n. rewrite -[dist1 a b *+ 2]mulr_natr -mulrA mulfV ?mulr1 //. by rewrite pnatr_eq0. }
  have hc : (dist1 a b <= 99%:R / 100%:R * dist1 a b) = false.
  { apply/negP/negP. rewrite -Order.TotalTheory.ltNge -[X in _ < X]mul1r ltr_pmul2r // ltr_pdivr_mulr ?ltr0n // mul1r ltr_nat. by []. }
  by rewrite /mask ds2 hm /= hc.
Qed.
(* ---- averages ---- *)
Lemma select_mem (T : eqType) m (l : list T) x : x \in select m l -> x \in l.
Proof.
  rewrite /select => /mapP[[b y] hin ->] /=. move: hin; rewrite mem_filter => /andP[_]. elim: m l => [|c m IH] [|z l] //=.
  rewrite !inE => /orP[/eqP[_ ->]|/IH ->]; by rewrite ?eqxx ?orbT.
Qed.
Lemma select_ne T m (l : list T) i : (i < size l)%nat -> seq.nth false m i -> select m l <> [::].
Proof.
  elim: m l i => [|c m IH] [|z l] [|i] //=; first by move=> _ ->.
  rewrite ltnS => hi hm. rewrite /select /=. case: c => //. exact: (IH l i hi hm).
Qed.
Lemma vmean_const n (g : list C) (rows : list (list C)) : size g = n -> rows <> [::] -> (forall r, r \in rows -> r = g) -> vmean n rows = Some g.
Proof.
  case: rows => // r rows hs _ h. rewrite /vmean. congr Some.
  apply: (@eq_from_nth _ 0); first by rewrite size_map size_iota.
  move=> k. rewrite size_map size_iota => hk. rewrite nmi //.
  rewrite (eq_big_seq (fun _ => seq.nth 0 g k)); last by move=> x hx; rewrite (h x hx).
  rewrite big_const_seq count_predT iter_addr addr0 -[_ *+ _]mulr_natr mulfK //. by rewrite pnatr_eq0.
Qed.
Lemma Im_sum (rows : list (list C)) k : Im (\sum_(r <- rows) seq.nth 0 r k) = \sum_(r <- rows) Im (seq.nth 0 r k).
Proof. by elim: rows => [|r rows IH]; rewrite ?big_nil // !big_cons -IH; case: (seq.nth 0 r k) => a b; case: (\sum_(r <- rows) _). Qed.
Lemma Im_divn (z : C) n : Im (z / n.+1%:R) = Im z / n.+1%:R.
Proof.
  have -> : (n.+1%:R : C) = ((n.+1%:R : R)%:C)%C by rewrite rmorph_nat.
  rewrite -fmorphV. case: z => a b /=. by rewrite mulr0 add0r mulrC.
Qed.
Lemma vmean_physical n (rows : list (list C)) g : vmean n rows = Some g -> (forall r, r \in rows -> size r = n /\ physical r) -> size g = n /\ physical g.
Proof.
  case: rows => // r rows [<-] h. rewrite size_map size_iota; split=> //. apply/allP => w /mapP[k].
  rewrite mem_iota add0n => /andP[_ hk] ->. rewrite Im_divn pmulr_lle0 ?invr_gt0 ?ltr0n // Im_sum.
  rewrite -oppr_ge0 -sumrN. rewrite big_seq. apply: sumr_ge0 => x hx. rewrite oppr_ge0. have [hs /allP hp] := h x hx.
  apply: hp. by rewrite mem_nth // hs.
Qed.

(* ---- exact recovery of rational functions ---- *)
Lemma zip_mapr T U (h : T -> U) l : zip l [seq h x | x <- l] = [seq (x, h x) | x <- l].
Proof. by elim: l => //= x l ->. Qed.
Lemma pden_xden (x : list C) w : pden x w = (xden x).[w].
Proof. by rewrite /pden /xden hornerD hornerXn horner_poly sum_iota. Qed.
Lemma pnum_xnum (x : list C) w : pnum x w = (xnum x).[w].
Proof. by rewrite /pnum /xnum horner_poly sum_iota. Qed.
Lemma acPade_recovers lstsq nonlin (p q : {poly C}) (z zout : list C) N :
  lstsq_ok lstsq -> ~~ odd N -> (0 < N)%nat -> (N <= size z)%nat -> seq.uniq z ->
  q \is monic -> (size p < size q)%nat -> (size q <= N./2.+1)%nat ->
  (forall w, w \in z -> q.[w] != 0) -> (forall w, w \in zout -> q.[w] != 0) ->
  (forall w, w \in zout -> pden (lstsq (pm_rows N z [seq ratf p q w | w <- z]) (pm_rhss N z [seq ratf p q w | w <- z])) w != 0) ->
  acPade lstsq nonlin z [seq ratf p q w | w <- z] N zout 0 = Ok [seq ratf p q w | w <- zout].
Proof.
  move=> hl hodd hN hz hu hm hpq hq hqz hqo. rewrite /acPade (negbTE hodd) /=. rewrite -/(pm_rows _ _ _) -/(pm_rhss _ _ _).
  set f := [seq _ | _ <- z]. set r := N./2.
  have hN2 : N = r.*2 by rewrite -[LHS]odd_double_half (negbTE hodd).
  have hrows : pm_rows N z f = [seq pm_row r w (ratf p q w) | w <- z] by rewrite /pm_rows /f zip_mapr -map_comp.
  have hrhs : pm_rhss N z f = [seq pm_rhs r w (ratf p q w) | w <- z] by rewrite /pm_rhss /f zip_mapr -map_comp.
  set e := (r - (size q).-1)%nat.
  have hq0 : q != 0 by exact: monic_neq0.
  have hsq : (0 < size q)%nat by rewrite size_poly_gt0.
  have hqe : size (q * 'X^e) = r.+1.
  { rewrite size_mul ?monic_neq0 ?monicXn // size_polyXn /e. move: hq hsq; rewrite -/r; case: (size q) => //= k.
    rewrite ltnS => hk _. 
    by rewrite -[LHS]/(k + (r - k).+1)%nat addnS subnKC. }
  have hpe : (size (p * 'X^e)%R <= r)%nat.
  { apply: (leq_trans (size_mul_leq _ _)). rewrite size_polyXn addnS /= /e. move: hpq hq hsq; rewrite -/r; case: (size q) => //= k.
    rewrite !ltnS => h1 h2 _. apply: (@leq_trans (k + (r - k))%nat); first by rewrite leq_add2r. by rewrite subnKC. }
  have hme : q * 'X^e \is monic by rewrite monicMl ?monicXn.
  have hex : exists x, size x = N /\ forall k, (k < size (pm_rows N z f))%nat -> dot (seq.nth [::] (pm_rows N z f) k) x = seq.nth 0 (pm_rhss N z f) k.
  { exists (coefs (p * 'X^e) (q * 'X^e) r). rewrite size_coefs -hN2; split=> // k. rewrite hrows hrhs size_map => hk.
    rewrite !(nth_map 0) //. apply/eqP. rewrite (dot_poly _ _ (size_coefs _ _ _)) coefs_num // coefs_den // !hornerM /ratf.
    have hw := hqz _ (mem_nth 0 hk). by rewrite mulrA divfK. }
  have hs1 : (0 < size (pm_rows N z f))%nat by rewrite hrows size_map (leq_trans hN hz).
  have hs2 : size (pm_rhss N z f) = size (pm_rows N z f) by rewrite hrows hrhs !size_map.
  have hs3 : forall r0, r0 \in pm_rows N z f -> size r0 = N.
  { move=> r0. rewrite hrows => /mapP[w _ ->]. by rewrite /pm_row size_cat !size_map !size_iota addnn -hN2. }
  have [hsx hx] := hl _ _ _ hs1 hs2 hs3 hex. set x := lstsq _ _ in hsx hx * => hden.
  congr Ok. apply/eq_in_map => w hw. rewrite epade_poly /ratf.
  have hsx2 : size x = r.*2 by rewrite hsx.
  have E : xnum x * q = p * xden x.
  { apply: (@rat_recover _ p q _ _ r z) => //.
    - by have := size_xnum x; rewrite hsx2 doubleK.
    - by have := size_xden x; rewrite hsx2 doubleK.
    - by rewrite -hN2.
    - move=> v hv. have hk : (index v z < size z)%nat by rewrite index_mem.
      have hk' : (index v z < size (pm_rows N z f))%nat by rewrite hrows size_map.
      have := hx _ hk'. rewrite hrows hrhs !(nth_map 0) // nth_index // => /eqP. rewrite (dot_poly _ _ hsx2) => /eqP ->.
      rewrite /ratf -mulrA [_ * q.[v]]mulrC mulrA divfK //. exact: hqz. }
  have := congr1 (fun P : {poly C} => P.[w]) E. rewrite /= !hornerM => E2.
  have h1 := hqo w hw. have h2 := hden w hw. rewrite pden_xden in h2.
  apply/eqP. by rewrite eqr_div // E2.
Qed.

(* ---- the plan ---- *)
Definition plan_okb (t : Z * nat * nat) : bool :=
  let '(nmin, M, N) := t in
  [&& ((-3 <=? nmin) && (nmin <=? -1))%Z, ~~ odd N, (40 <= N)%nat, (N <= 80)%nat, (N <= M)%nat, (50 <= M)%nat & (M <= 98)%nat].
Lemma all_In T (P : T -> bool) l x : all P l -> List.In x l -> P x.
Proof. elim: l => //= a l IH /andP[ha hl] [<-//|]. exact: IH. Qed.
Lemma plan_all : all plan_okb plan. Proof. by vm_compute. Qed.
Lemma plan_size : size plan = 321%nat. Proof. by vm_compute. Qed.
(* ---- picked points of data with the mirror symmetry ---- *)
Lemma Im_conj (w : C) : Im (conjc w) = - Im w. Proof. by case: w. Qed.
Lemma pick_map (h : C -> C) (z : list C) (a b : nat) : (0 < a)%nat -> (forall w, w \in z -> h (conjc w) = conjc (h w)) ->
  pick [seq h w | w <- z] (- Z.of_nat a) (Z.of_nat a + Z.of_nat b) = [seq h w | w <- pick z (- Z.of_nat a) (Z.of_nat a + Z.of_nat b)].
Proof.
  move=> ha hm. rewrite !pick_neg // map_cat seq.map_rev -!map_take. congr (seq.cat (seq.rev _) _).
  rewrite -!map_comp. apply/eq_in_map => w hw /=. rewrite hm //. exact: mem_take hw.
Qed.
Lemma pick_size (z : list C) (a b : nat) : (0 < a <= size z)%nat -> (b <= size z)%nat ->
  size (pick z (- Z.of_nat a) (Z.of_nat a + Z.of_nat b)) = (a + b)%nat.
Proof.
  move=> /andP[ha ha'] hb. rewrite pick_neg // size_cat size_rev size_map !size_takel //.
Qed.
Lemma pick_uniq (z : list C) (a b : nat) : (0 < a)%nat -> seq.uniq z -> upper z ->
  seq.uniq (pick z (- Z.of_nat a) (Z.of_nat a + Z.of_nat b)).
Proof.
  move=> ha hu /allP hz. rewrite pick_neg // cat_uniq rev_uniq map_inj_uniq; last exact: (can_inj (@conjcK R)).
  rewrite !take_uniq //= andbT. apply/hasPn => w /mem_take hw. rewrite inE mem_rev. apply/negP => /mapP[v /mem_take hv E].
  have := hz w hw. rewrite E Im_conj oppr_gt0. move: (hz v hv). rewrite -/(Im v). move=> h1 h2.
  by have := Order.POrderTheory.lt_trans h1 h2; rewrite Order.POrderTheory.ltxx.
Qed.
Lemma pick_mem (z : list C) (a b : nat) w : (0 < a)%nat -> w \in pick z (- Z.of_nat a) (Z.of_nat a + Z.of_nat b) ->
  w \in z \/ exists2 v, v \in z & w = conjc v.
Proof.
  move=> ha. rewrite pick_neg // mem_cat mem_rev => /orP[/mapP[v /mem_take hv ->]|/mem_take hw]; [right; by exists v|by left].
Qed.
Lemma conj_poly (p : {poly R}) w : (toC p).[conjc w] = conjc (toC p).[w].
Proof.
  have E : toC p = map_poly (@conjc R) (toC p).
  { rewrite /toC -map_poly_comp. apply: eq_map_poly => x /=. by rewrite /real_complex_def /= oppr0. }
  by rewrite {1}E horner_map.
Qed.
Lemma conj_ratf (p q : {poly R}) w : ratf (toC p) (toC q) (conjc w) = conjc (ratf (toC p) (toC q) w).
Proof. by rewrite /ratf !conj_poly rmorphM fmorphV. Qed.

(* ---- all continuations equal ---- *)
Lemma mask_equal ar (f : list (list C)) g : argsort_ok ar -> (2 <= size f)%nat -> (forall r, r \in f -> r = g) ->
  select (mask ar f) f <> [::].
Proof.
  move=> ha hf hg.
  have hd : forall i, (i < size f)%nat -> dacc f i = 0.
  { move=> i hi. rewrite delta_sym_sum // big_seq_cond. apply: big1 => j. rewrite mem_iota add0n => /andP[/andP[_ hj] _].
    have hn : forall k, (k < size f)%nat -> seq.nth [::] f k = g by move=> k hk; apply: hg; exact: mem_nth.
    rewrite (hn (minn i j)) ?gtn_min ?hi // (hn (maxn i j)) ?gtn_max ?hi //.
    rewrite /dist1. apply: big1 => k _. by rewrite subrr normr0. }
  have hm : exists i, (i < size f)%nat /\ dacc f i <= 99%:R / 100%:R * rmean (ds f).
  { exists 0%nat. split; first exact: leq_trans hf. rewrite hd; last exact: leq_trans hf.
    apply: mulr_ge0; first by rewrite divr_ge0 ?ler0n. rewrite /rmean. apply: divr_ge0; last by rewrite ler0n.
    rewrite big_map. apply: sumr_ge0 => i _; exact: dacc_ge0. }
  have [i [hi hmi]] := (mask_nonempty ha hf).2 hm. exact: select_ne hi hmi.
Qed.
Lemma continuations_const ac (zin fin : list C) (l : list (Z * nat * nat)) g : physical g ->
  (forall nmin M N, List.In (nmin, M, N) l -> ac (pick zin nmin (Z.of_nat M)) (pick fin nmin (Z.of_nat M)) N = Ok g) ->
  continuations ac zin fin l = Ok (nseq (size l) g).
Proof.
  move=> hg. elim: l => [|[[nmin M] N] l IH] h //. rewrite [LHS]/= h /=; last by left. rewrite IH; last by move=> n' M' N' hin; apply: h; right.
  by rewrite /= hg.
Qed.
Lemma pade_const ar ac (zin fin zout : list C) n g : argsort_ok ar -> size g = size zout ->
  continuations (ac zout) zin fin plan = Ok (nseq n.+2 g) -> exists m, pade ar ac zin fin zout = Ok (Some g, nseq n.+2 g, m).
Proof.
  move=> ha hg hc. rewrite /pade hc. rewrite /bind.
  set fs := nseq n.+2 g in hc *.
  have hsel : forall r, r \in select (mask ar fs) fs -> r = g by move=> r /select_mem; rewrite mem_nseq => /andP[_ /eqP].
  have hne : select (mask ar fs) fs <> [::].
  { apply: (@mask_equal _ _ g) => //. move=> r. by rewrite mem_nseq => /andP[_ /eqP]. }
  exists (mask ar fs). have E : fs = g :: g :: nseq n g by []. rewrite [in LHS]E /= -E. congr Ok. congr (_, _, _). exact: vmean_const.
Qed.
Lemma pade_recovers ar lstsq nonlin (p q : {poly R}) (zin zout : list C) :
  argsort_ok ar -> lstsq_ok lstsq -> (97 <= size zin)%nat -> seq.uniq zin -> upper zin ->
  q \is monic -> (size p < size q)%nat -> (size q <= 21)%nat ->
  (forall w, w \in zin -> (toC q).[w] != 0) -> (forall w, w \in zout -> (toC q).[w] != 0) ->
  (forall w, w \in zout -> Im (ratf (toC p) (toC q) w) <= 0) ->
  let f := ratf (toC p) (toC q) in let fin := [seq f w | w <- zin] in
  (forall nmin M N w, List.In (nmin, M, N) plan -> w \in zout ->
     let zp := pick zin nmin (Z.of_nat M) in let fp := pick fin nmin (Z.of_nat M) in
     pden (lstsq (pm_rows N zp fp) (pm_rhss N zp fp)) w != 0) ->
  exists m, pade ar (fun zo z f N => acPade lstsq nonlin z f N zo 0) zin fin zout =
    Ok (Some [seq f w | w <- zout], nseq 321 [seq f w | w <- zout], m).
Proof.
  move=> ha hl hs hu hup hm hpq hq hqi hqo hph f fin hden.
  have hc : continuations (fun z f N => acPade lstsq nonlin z f N zout 0) zin fin plan = Ok (nseq 321 [seq f w | w <- zout]).
  { rewrite -plan_size. apply: continuations_const.
    - apply/allP => x /mapP[w hw ->]. exact: hph.
    - move=> nmin M N hin. have := all_In plan_all hin. rewrite /plan_okb.
      move=> /and5P[/andP[/Z.leb_le h1 /Z.leb_le h2] h3 h4 h5 /and3P[h6 h7 h8]].
      set a := Z.to_nat (- nmin). have ea : nmin = (- Z.of_nat a)%Z by rewrite /a; lia.
      have ha3 : (a <= 3)%nat by apply/leP; rewrite /a; lia. have ha0 : (0 < a)%nat by apply/ltP; rewrite /a; lia.
      set b := (M - a)%nat. have eM : M = (a + b)%nat by rewrite /b subnKC // (leq_trans ha3) // (leq_trans _ h7).
      have hb : (b <= size zin)%nat.
      { apply: leq_trans hs. rewrite -(leq_add2l a) -eM. apply: (leq_trans h8). by rewrite -(addn1 97) addnC leq_add2r. }
      have haz : (0 < a <= size zin)%nat by rewrite ha0 (leq_trans ha3) // (leq_trans _ hs).
      have hd : forall w, w \in zout -> _ := fun w hw => hden nmin M N w hin hw. move: hd => /=.
      have -> : Z.of_nat M = (Z.of_nat a + Z.of_nat b)%Z by rewrite eM Nat2Z.inj_add.
      rewrite ea /fin pick_map //; last by move=> w _; exact: conj_ratf.
      move=> hd. apply: acPade_recovers => //.
      + by rewrite (leq_trans _ h4).
      + by rewrite pick_size // -eM.
      + exact: pick_uniq.
      + by rewrite /toC map_monic.
      + by rewrite /toC !size_map_poly.
      + rewrite /toC size_map_poly. apply: (leq_trans hq). rewrite ltnS. by have := half_leq h4.
      + move=> w /(pick_mem ha0) [hw|[v hv ->]]; first exact: hqi. by rewrite conj_poly conjc_eq0 hqi. }
  refine (@pade_const ar (fun zo z f N => acPade lstsq nonlin z f N zo 0) zin fin zout 319 [seq f w | w <- zout] ha _ hc). by rewrite size_map.
Qed.

(* ---- pade in general ---- *)
Lemma acPade_size lstsq nonlin (z f zout : list C) N s g : (0 < size z)%nat \/ s <> 1%Z -> acPade lstsq nonlin z f N zout s = Ok g -> size g = size zout.
Proof.
  move=> hz. rewrite /acPade. case: ifP => // _. case: ifP => [_ [<-]|_]; first by rewrite size_map.
  case: ifP => [_|_].
  - case: ifP => // _ [<-]. by rewrite /padeThiele size_map size_iota.
  - case: ifP => // _ [<-]. by rewrite size_map.
Qed.
Lemma filter_id_in (T : eqType) (P : T -> bool) f l g : g \in (if P f then f :: l else l) -> (P f /\ g = f) \/ g \in l.
Proof. case: ifP => h; last by right. by rewrite inE => /orP[/eqP->|]; [left|right]. Qed.
Lemma continuations_in ac (zin fin : list C) l fs : continuations ac zin fin l = Ok fs ->
  forall g, g \in fs -> physical g /\ exists nmin M N, List.In (nmin, M, N) l /\ ac (pick zin nmin (Z.of_nat M)) (pick fin nmin (Z.of_nat M)) N = Ok g.
Proof.
  elim: l fs => [|[[nmin M] N] l IH] fs /=; first by move=> [<-].
  case E : (ac _ _ N) => [f|e] //=. case E2 : (continuations _ _ _ l) => [fs'|e] //= [<-] g hg.
  case: (@filter_id_in _ (@physical R) _ _ _ hg) => [[hp ->]|hin].
  - split=> //. exists nmin, M, N; split=> //. by left.
  - have [hp [n' [M' [N' [h1 h2]]]]] := IH _ E2 _ hin. split=> //. exists n', M', N'; split=> //. by right.
Qed.
Lemma continuations_table ac (zin fin : list C) l (h : Z * nat * nat -> list C) :
  (forall nmin M N, List.In (nmin, M, N) l -> ac (pick zin nmin (Z.of_nat M)) (pick fin nmin (Z.of_nat M)) N = Ok (h (nmin, M, N))) ->
  continuations ac zin fin l = Ok [seq g <- [seq h t | t <- l] | physical g].
Proof.
  elim: l => [|[[nmin M] N] l IH] H //. rewrite [LHS]/= H /=; last by left. rewrite IH; last by move=> n' M' N' hin; apply: H; right.
  by [].
Qed.
Lemma pade_cases ar ac (zin fin zout : list C) fs : continuations (ac zout) zin fin plan = Ok fs ->
  pade ar ac zin fin zout = match fs with [::] => Raise RuntimeError | [:: f] => Ok (Some f, fs, [:: true]) | _ => Ok (vmean (size zout) (select (mask ar fs) fs), fs, mask ar fs) end.
Proof. by rewrite /pade => ->. Qed.
Lemma pade_physical ar ac (zin fin zout : list C) g fs m :
  (forall z f N h, ac zout z f N = Ok h -> size h = size zout) ->
  pade ar ac zin fin zout = Ok (Some g, fs, m) -> physical g /\ size g = size zout.
Proof.
  move=> hs. case E : (continuations (ac zout) zin fin plan) => [fs'|e]; last by rewrite /pade E.
  have hin := continuations_in E. rewrite (pade_cases ar E).
  have hall : forall r, r \in fs' -> size r = size zout /\ physical r.
  { move=> r hr. have [hp [n' [M' [N' [_ h2]]]]] := hin r hr. split=> //. exact: hs h2. }
  case: fs' E hin hall => [|f [|f' fs']] // E hin hall.
  - move=> [<- _ _]. by have [] := hall f (mem_head _ _).
  - move=> [hv _ _]. have [] := vmean_physical hv; last by [].
    move=> r /select_mem. exact: hall.
Qed.
(* ---- PadeSolver ---- *)
Lemma mapM_nth T (x0 : T) (h : T -> res C) l ys k : mapM h l = Ok ys -> (k < size l)%nat -> h (seq.nth x0 l k) = Ok (seq.nth 0 ys k).
Proof.
  elim: l ys k => [|x l IH] ys k //=. case E : (h x) => [y|e] //=. case E2 : (mapM h l) => [ys'|e] //= [<-].
  case: k => [|k] //=. rewrite ltnS. exact: IH.
Qed.
Lemma mapM_ok T (h : T -> res C) l : (forall x, exists y, h x = Ok y) -> exists ys, mapM h l = Ok ys /\ size ys = size l.
Proof.
  move=> hh. elim: l => [|x l [ys [IH hs]]]; first by exists [::]. have [y hy] := hh x.
  exists (y :: ys). by rewrite /= hy /= IH /= hs.
Qed.
Lemma evalC_total (zr : C) zi ui : exists y, evalC zr zi (compute_coefficients zi ui) = Ok y.
Proof.
  rewrite /evalC /evalA /evalB /AB_ok compute_coefficientsE size_map size_iota leqnn leq_pred /=. by eexists.
Qed.
(* ---- Jacobian ---- *)
Lemma size_bump (x : list C) k t : (k < size x)%nat -> size (bump x k t) = size x.
Proof. move=> h. by rewrite /bump size_set_nth (maxn_idPr h). Qed.
Lemma nth_bump (x : list C) k t i : seq.nth 0 (bump x k t) i = seq.nth 0 x i + (if i == k then t else 0).
Proof. rewrite /bump nth_set_nth /=. case: eqP => [->//|]. by rewrite addr0. Qed.
Lemma sum_bump n k (t z : C) (h : nat -> nat) : (k < n)%nat -> injective h ->
  \sum_(i < n) (if h i == h k then t else 0) * z ^+ i = t * z ^+ k.
Proof.
  move=> hk hh. rewrite (bigD1 (Ordinal hk)) //= eqxx big1 ?addr0 // => i hi. case: eqP => [/hh E|]; last by rewrite mul0r.
  by move: hi; rewrite -val_eqE /= E eqxx.
Qed.
Lemma sum_bump0 n k (t z : C) (h : nat -> nat) : (forall i, (i < n)%nat -> h i != k) ->
  \sum_(i < n) (if h i == k then t else 0) * z ^+ i = 0.
Proof. move=> hh. apply: big1 => i _. by rewrite (negbTE (hh i (ltn_ord i))) mul0r. Qed.
Lemma half2 n : ((n./2) + n./2 <= n)%nat. Proof. by rewrite addnn -{2}(odd_double_half n) leq_addl. Qed.
Lemma pnum_bump_num (x : list C) k t z : (k < (size x)./2)%nat -> pnum (bump x k t) z = pnum x z + t * z ^+ k.
Proof.
  move=> hk. have hk2 : (k < size x)%nat by apply: (leq_trans hk); apply: leq_trans (half2 _); exact: leq_addr.
  rewrite /pnum size_bump // !sum_iota -(@sum_bump ((size x)./2) k t z id) // -big_split /=. apply: eq_bigr => i _.
  by rewrite nth_bump mulrDl.
Qed.
Lemma pden_bump_num (x : list C) k t z : (k < (size x)./2)%nat -> pden (bump x k t) z = pden x z.
Proof.
  move=> hk. have hk2 : (k < size x)%nat by apply: (leq_trans hk); apply: leq_trans (half2 _); exact: leq_addr.
  rewrite /pden size_bump // !sum_iota. congr (_ + _). apply: eq_bigr => i _. rewrite nth_bump.
  have -> : ((size x)./2 + i == k)%nat = false by apply: gtn_eqF; rewrite (leq_trans hk) // leq_addr. by rewrite addr0.
Qed.
Lemma pnum_bump_den (x : list C) k t z : (k < (size x)./2)%nat -> pnum (bump x ((size x)./2 + k) t) z = pnum x z.
Proof.
  move=> hk. have hk2 : ((size x)./2 + k < size x)%nat by apply: leq_trans (half2 _); rewrite ltn_add2l.
  rewrite /pnum size_bump // !sum_iota. apply: eq_bigr => i _. rewrite nth_bump.
  have -> : (nat_of_ord i == (size x)./2 + k)%nat = false by apply: ltn_eqF; rewrite (leq_trans (ltn_ord i)) // leq_addr. by rewrite addr0.
Qed.
Lemma pden_bump_den (x : list C) k t z : (k < (size x)./2)%nat -> pden (bump x ((size x)./2 + k) t) z = pden x z + t * z ^+ k.
Proof.
  move=> hk. have hk2 : ((size x)./2 + k < size x)%nat by apply: leq_trans (half2 _); rewrite ltn_add2l.
  rewrite /pden size_bump // !sum_iota -(@sum_bump ((size x)./2) k t z (addn (size x)./2)) //; last exact: addnI.
  rewrite addrAC -big_split /=. congr (_ + _). apply: eq_bigr => i _. by rewrite nth_bump mulrDl.
Qed.
Lemma epade_pnd (x : list C) z : epade z x = pnum x z / pden x z.
Proof. by rewrite epade_poly pnum_xnum pden_xden. Qed.
Lemma jac_size (x : list C) z : size (jac_row x z) = (4 * (size x)./2)%nat.
Proof. by rewrite /jac_row !size_cat !size_map !size_iota !mulSn mul0n addn0 !addnA. Qed.
Lemma jac_nth (x : list C) z k : (k < (size x)./2)%nat -> let r := (size x)./2 in let j := seq.nth 0 (jac_row x z) in
  [/\ j k = z ^+ k / pden x z, j (r + k)%nat = - pnum x z * z ^+ k / (pden x z) ^+ 2,
      j (2 * r + k)%nat = 'i * j k & j (3 * r + k)%nat = 'i * j (r + k)%nat].
Proof.
  move=> hk r j. have hlt : forall a b, (a + b < a)%nat = false by move=> a b; rewrite ltnNge leq_addr.
  have h1 : j k = z ^+ k / pden x z by rewrite /j /jac_row nth_cat size_map size_iota hk nmi.
  have h2 : j (r + k)%nat = - pnum x z * z ^+ k / (pden x z) ^+ 2.
  { by rewrite /j /jac_row nth_cat size_map size_iota -/r hlt addKn nth_cat size_map size_iota hk nmi. }
  split=> //.
  - rewrite h1 /j /jac_row mulSn mul1n -addnA nth_cat size_map size_iota -/r hlt addKn nth_cat size_map size_iota hlt addKn nth_cat size_map size_iota hk nmi //.
    by rewrite mulrA.
  - rewrite h2 /j /jac_row !mulSn mul0n addn0 -!addnA nth_cat size_map size_iota -/r hlt addKn nth_cat size_map size_iota hlt addKn nth_cat size_map size_iota hlt addKn nmi //.
    by rewrite [_ * 'i]mulrC !mulrA.
Qed.
Lemma jac_num (x : list C) k t z : (k < (size x)./2)%nat -> pden x z != 0 ->
  epade z (bump x k t) - epade z x = t * seq.nth 0 (jac_row x z) k.
Proof.
  move=> hk hd. have [-> _ _ _] := jac_nth z hk. rewrite !epade_pnd pnum_bump_num // pden_bump_num // -mulrBl addrC addKr mulrA. by [].
Qed.
Lemma jac_den (x : list C) k t z : (k < (size x)./2)%nat -> pden x z != 0 -> pden (bump x ((size x)./2 + k) t) z != 0 ->
  epade z (bump x ((size x)./2 + k) t) - epade z x =
  t * seq.nth 0 (jac_row x z) ((size x)./2 + k) * (pden x z / pden (bump x ((size x)./2 + k) t) z).
Proof.
  move=> hk hd. have [_ -> _ _] := jac_nth z hk. rewrite !epade_pnd pnum_bump_den // pden_bump_den // => hd'.
  have -> : t * (- pnum x z * z ^+ k / pden x z ^+ 2) = - pnum x z * (t * z ^+ k) / pden x z ^+ 2 by rewrite mulrA mulrCA !mulrA.
  move: (pnum x z) (pden x z) (t * z ^+ k) hd hd' => n d e hd hd'.
  have E : (d + e)^-1 - d^-1 = - e * d^-1 * (d + e)^-1.
  { apply: (mulfI hd). apply: (mulIf hd'). rewrite mulrBr mulfV // mulrBl mul1r divfK //.
    rewrite !mulrA divfK // [d * _]mulrC mulfK //. by rewrite opprD addrA subrr add0r. }
  rewrite -mulrBr E. rewrite !mulNr !mulrN. congr (- _). rewrite !mulrA; congr (_ / _).
  by rewrite expr2 invfM !mulrA divfK.
Qed.
Lemma nl_start_num N (z : C) : ~~ odd N -> (0 < N)%nat -> pnum (nl_start R N) z = z ^+ (N./2.-1).
Proof.
  move=> ho hN. rewrite /pnum /nl_start size_map size_iota. set r := N./2.
  have hN2 : N = r.*2 by rewrite -[LHS]odd_double_half (negbTE ho).
  have hr : (0 < r)%nat by rewrite -double_gt0 -hN2.
  rewrite sum_iota. have hr1 : (r.-1 < r)%nat by rewrite prednK.
  rewrite (bigD1 (Ordinal hr1)) //= big1 ?addr0.
  - rewrite nmi; last by rewrite hN2 -addnn (leq_trans hr1) // leq_addr. by rewrite eqxx mul1r.
  - move=> i hi. rewrite nmi; last by rewrite hN2 -addnn (leq_trans (ltn_ord i)) // leq_addr.
    case: eqP => [E|]; last by rewrite mul0r. by move: hi; rewrite -val_eqE /= E eqxx.
Qed.
Lemma nl_start_den N (z : C) : ~~ odd N -> (0 < N)%nat -> pden (nl_start R N) z = z ^+ (N./2).
Proof.
  move=> ho hN. rewrite /pden /nl_start size_map size_iota. set r := N./2.
  have hN2 : N = r.*2 by rewrite -[LHS]odd_double_half (negbTE ho).
  have hr : (0 < r)%nat by rewrite -double_gt0 -hN2.
  rewrite sum_iota big1 ?add0r // => i _. rewrite nmi; last by rewrite hN2 -addnn ltn_add2l.
  by rewrite gtn_eqF ?mul0r // prednK // leq_addr.
Qed.
Lemma nl_start_epade N (z : C) : ~~ odd N -> (0 < N)%nat -> z != 0 -> epade z (nl_start R N) = z^-1.
Proof.
  move=> ho hN hz. rewrite epade_pnd nl_start_num // nl_start_den //.
  have hr : (0 < N./2)%nat by rewrite half_gt0; case: N ho hN => [|[|N]].
  rewrite -{2}(prednK hr) exprSr invfM mulrA mulfV ?mul1r //. by rewrite expf_neq0.
Qed.
End P.
