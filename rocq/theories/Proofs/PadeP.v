From mathcomp Require Import all_ssreflect all_algebra.
From Verif Require Import Base.PyBase Base.FieldTac Model.Pade.
Import GRing.Theory.
Set Implicit Arguments. Unset Strict Implicit. Unset Printing Implicit Defensive.
Local Open Scope nat_scope.
Local Open Scope ring_scope.

Section P.
Variable F : fieldType.
Add Field Ff : (@Kft F).
Ltac frng := to_K F; ring.
Ltac ffld := to_K F; field; of_K.
Implicit Types (zi ui a z f : list F).

Lemma fold1 (A B : Type) (h : A -> B -> A) x y : foldl h x [:: y] = h x y. Proof. by []. Qed.
Lemma nmi (T : Type) (d : T) (h : nat -> T) n k : (k < n)%nat -> seq.nth d [seq h j | j <- iota 0 n] k = h k.
Proof. by move=> hk; rewrite (nth_map 0%nat) ?size_iota // nth_iota. Qed.
Lemma map_iotaS (T : Type) (h : nat -> T) n : [seq h j | j <- iota 0 n.+1] = rcons [seq h j | j <- iota 0 n] (h n).
Proof. by rewrite -[in LHS](addn1 n) iotaD map_cat cats1 add0n. Qed.

(** reciprocal differences *)
Fixpoint rdiff zi ui (i j : nat) : F :=
  match j with
  | O => seq.nth 0 ui i
  | S j' => (rdiff zi ui j' j' - rdiff zi ui i j') / ((seq.nth 0 zi i - seq.nth 0 zi j') * rdiff zi ui i j')
  end.

Section Loop.
Variables zi ui : list F.
Local Notation g := (rdiff zi ui).

Lemma make_rowE rows i : (forall k, (k < i)%nat -> seq.nth 0 (seq.nth [::] rows k) k = g k k) ->
  make_row zi ui rows i = [seq g i j | j <- iota 0 i.+1].
Proof.
  move=> h. rewrite /make_row.
  suff gen : forall m, (m <= i)%nat -> foldl (row_step zi rows i) [:: seq.nth 0 ui i] (iota 1 m) = [seq g i j | j <- iota 0 m.+1] by apply: gen.
  elim=> [|m IH] hm //.
  rewrite -[in iota 1 _](addn1 m) iotaD foldl_cat IH; last exact: ltnW.
  rewrite fold1 add1n /row_step [in RHS]map_iotaS; congr rcons.
  have -> : m.+1.-1 = m by []. rewrite nmi // h //.
Qed.

Lemma g_rowsE n : foldl (fun rows i => rcons rows (make_row zi ui rows i)) [::] (iota 0 n) =
  [seq [seq g i j | j <- iota 0 i.+1] | i <- iota 0 n].
Proof.
  elim: n => [|n IH] //.
  rewrite -[in LHS](addn1 n) iotaD foldl_cat IH fold1 add0n [in RHS]map_iotaS; congr rcons.
  rewrite make_rowE //. move=> k hk. by rewrite nmi // nmi.
Qed.

Lemma compute_coefficientsE : compute_coefficients zi ui = [seq g i i | i <- iota 0 (size zi)].
Proof.
  rewrite /compute_coefficients /g_rows g_rowsE. apply/eq_in_map => i. rewrite mem_iota add0n => /andP [_ hi].
  by rewrite nmi // nmi.
Qed.

Lemma g_recE p i : g_rec zi ui p.+1 i.+1 = g i p.
Proof.
  elim: p i => [|p IH] i //.
  change (g_rec zi ui p.+2 i.+1) with ((g_rec zi ui p.+1 p.+1 - g_rec zi ui p.+1 i.+1) / ((seq.nth 0 zi i - seq.nth 0 zi p) * g_rec zi ui p.+1 i.+1)).
  by rewrite !IH.
Qed.
End Loop.

Lemma thiele_gE z f n : size f = size z -> (n < size z)%nat ->
  foldl (fun rows i => rcons rows (thiele_row z i (seq.last [::] rows))) [:: f] (iota 1 n) =
  [seq [seq rdiff z f j i | j <- iota 0 (size z)] | i <- iota 0 n.+1].
Proof.
  move=> hs. elim: n => [|n IH] hn.
  - rewrite /=; congr (_ :: _). apply: (@eq_from_nth _ 0); first by rewrite size_map size_iota.
    move=> i; rewrite hs => hi. by rewrite nmi.
  - rewrite -[in LHS](addn1 n) iotaD foldl_cat IH ?fold1 ?add1n; last exact: ltnW.
    rewrite [in RHS]map_iotaS; congr rcons.
    rewrite [X in seq.last _ X]map_iotaS last_rcons.
    rewrite /thiele_row. apply/eq_in_map => j; rewrite mem_iota add0n => /andP [_ hj].
    have -> : n.+1.-1 = n by []. rewrite !nmi //. exact: ltnW.
Qed.
Lemma thiele_cE z f : size f = size z -> thiele_c z f = compute_coefficients z f.
Proof.
  move=> hs. rewrite compute_coefficientsE /thiele_c /thiele_g. case E : (size z) => [|n] //.
  rewrite thiele_gE //; last by rewrite E.
  rewrite E. apply/eq_in_map => i. rewrite mem_iota add0n => /andP [_ hi]. by rewrite nmi // nmi.
Qed.

(** ** recursions *)
Lemma pA0 zr zi a : (pA zr zi a 0).1 = 0. Proof. by []. Qed.
Lemma pA1 zr zi a : (pA zr zi a 1).1 = seq.nth 0 a 0. Proof. by []. Qed.
Lemma pA2 zr zi a n : (pA zr zi a n.+1).2 = (pA zr zi a n).1.
Proof.
  case: n => [|n] //.
  change (pA zr zi a n.+2) with (let '(x, y) := pA zr zi a n.+1 in (x + (zr - seq.nth 0 zi n) * seq.nth 0 a n.+1 * y, x)).
  by case: (pA _ _ _ n.+1).
Qed.
Lemma pASS zr zi a n : (pA zr zi a n.+2).1 = (pA zr zi a n.+1).1 + (zr - seq.nth 0 zi n) * seq.nth 0 a n.+1 * (pA zr zi a n).1.
Proof.
  rewrite -[(pA zr zi a n).1]pA2. change (pA zr zi a n.+2) with (let '(x, y) := pA zr zi a n.+1 in (x + (zr - seq.nth 0 zi n) * seq.nth 0 a n.+1 * y, x)).
  by case: (pA _ _ _ n.+1).
Qed.
Lemma pB0 zr zi a : (pB zr zi a 0).1 = 1. Proof. by []. Qed.
Lemma pB1 zr zi a : (pB zr zi a 1).1 = 1. Proof. by []. Qed.
Lemma pB2 zr zi a n : (pB zr zi a n.+1).2 = (pB zr zi a n).1.
Proof.
  case: n => [|n] //.
  change (pB zr zi a n.+2) with (let '(x, y) := pB zr zi a n.+1 in (x + (zr - seq.nth 0 zi n) * seq.nth 0 a n.+1 * y, x)).
  by case: (pB _ _ _ n.+1).
Qed.
Lemma pBSS zr zi a n : (pB zr zi a n.+2).1 = (pB zr zi a n.+1).1 + (zr - seq.nth 0 zi n) * seq.nth 0 a n.+1 * (pB zr zi a n).1.
Proof.
  rewrite -[(pB zr zi a n).1]pB2. change (pB zr zi a n.+2) with (let '(x, y) := pB zr zi a n.+1 in (x + (zr - seq.nth 0 zi n) * seq.nth 0 a n.+1 * y, x)).
  by case: (pB _ _ _ n.+1).
Qed.

Section Interp.
Variables zi ui : list F.
Local Notation n := (size zi).
Local Notation g := (rdiff zi ui).
Local Notation z := (fun i => seq.nth 0 zi i).
Hypothesis hdist : forall i j, (j < i < n)%nat -> seq.nth 0 zi i != seq.nth 0 zi j.
Hypothesis hnz : forall i j, (j < i < n)%nat -> g i j != 0.

Lemma tail_step k m : (m < k < n)%nat -> g k m * (1 + (z k - z m) * g k m.+1) = g m m.
Proof.
  move=> h. have hd : z k - z m != 0 by rewrite subr_eq0; apply: hdist.
  have hg := hnz h. rewrite [g k m.+1]/=.
  move: hd hg. move: (z k - z m) (g k m) (g m m) => d x y hd hx.
  rewrite mulrDr mulr1. have -> : x * (d * ((y - x) / (d * x))) = (y - x) / (d * x) * (d * x) by rewrite mulrA mulrC [x * d]mulrC.
  rewrite divfK; last by rewrite mulf_neq0. by rewrite addrC subrK.
Qed.

Variable a : list F.
Hypothesis ha : forall i, (i < n)%nat -> seq.nth 0 a i = g i i.

Lemma invariant k m : (m < k < n)%nat ->
  (pA (z k) zi a m.+1).1 + (z k - z m) * g k m.+1 * (pA (z k) zi a m).1 =
  seq.nth 0 ui k * ((pB (z k) zi a m.+1).1 + (z k - z m) * g k m.+1 * (pB (z k) zi a m).1).
Proof.
  elim: m => [|m IH] h.
  - rewrite pA0 pA1 ?pB0 ?pB1 mulr0 addr0 mulr1 ha; last by case/andP: h => _; case: (n).
    have := tail_step h. by [].
  - have h' : (m < k < n)%nat by case/andP: h => h1 h2; rewrite (ltnW h1) h2.
    rewrite pASS pBSS ha; last by case/andP: h => h1 h2; apply: leq_trans h2; apply: ltnW.
    rewrite -(tail_step h).
    have IH' := IH h'. move: IH'.
    move: (pA (z k) zi a m.+1).1 (pA (z k) zi a m).1 (pB (z k) zi a m.+1).1 (pB (z k) zi a m).1 => A1 A0 B1 B0 IH'.
    have -> : A1 + (z k - z m) * (g k m.+1 * (1 + (z k - z m.+1) * g k m.+2)) * A0 + (z k - z m.+1) * g k m.+2 * A1
       = (1 + (z k - z m.+1) * g k m.+2) * (A1 + (z k - z m) * g k m.+1 * A0).
    { move: (z k) (z m) (z m.+1) (g k m.+1) (g k m.+2) => a1 a2 a3 a4 a5. frng. }
    rewrite IH'. move: (z k) (z m) (z m.+1) (g k m.+1) (g k m.+2) (seq.nth 0 ui k) => a1 a2 a3 a4 a5 a6. frng.
Qed.

Lemma at_node k : (k < n)%nat -> (pA (z k) zi a k.+1).1 = seq.nth 0 ui k * (pB (z k) zi a k.+1).1.
Proof.
  case: k => [|k] hk; first by rewrite pA1 ?pB1 mulr1 ha.
  rewrite pASS pBSS ha //. apply: invariant. by rewrite leqnn.
Qed.
Lemma beyond_node k m : (k < n)%nat -> (pA (z k) zi a (k.+1 + m)).1 = seq.nth 0 ui k * (pB (z k) zi a (k.+1 + m)).1.
Proof.
  move=> hk. elim/ltn_ind: m => -[|[|m]] IH.
  - by rewrite addn0 at_node.
  - rewrite addn1 pASS pBSS subrr !mul0r !addr0. exact: at_node.
  - have -> : (k.+1 + m.+2 = (k.+1 + m).+2)%nat by rewrite !addnS.
    rewrite pASS pBSS. rewrite -[(k.+1 + m).+1]addnS !IH // mulrDr. by congr (_ + _); rewrite mulrCA.
Qed.
Lemma all_nodes k : (k < n)%nat -> (pA (z k) zi a n).1 = seq.nth 0 ui k * (pB (z k) zi a n).1.
Proof. move=> hk. rewrite -(subnKC hk). exact: beyond_node. Qed.
End Interp.

(** the explicit no-zero-division condition: rows of the table built *)
Lemma table_entry zi ui i j : (j <= i < size zi)%nat -> seq.nth 0 (seq.nth [::] (g_rows zi ui) i) j = rdiff zi ui i j.
Proof. case/andP => h1 h2. by rewrite /g_rows g_rowsE nmi // nmi. Qed.

Lemma pade_interpolates zi ui k :
  (forall i j, (j < i < size zi)%nat -> seq.nth 0 zi i != seq.nth 0 zi j) ->
  (forall i j, (j < i < size zi)%nat -> seq.nth 0 (seq.nth [::] (g_rows zi ui) i) j != 0) ->
  (k < size zi)%nat ->
  (exists2 d, evalB (seq.nth 0 zi k) zi (compute_coefficients zi ui) (size zi) = Ok d & d != 0) ->
  evalC (seq.nth 0 zi k) zi (compute_coefficients zi ui) = Ok (seq.nth 0 ui k).
Proof.
  move=> hd hz hk [d]. rewrite /evalC /evalA /evalB.
  have hsz : size (compute_coefficients zi ui) = size zi by rewrite compute_coefficientsE size_map size_iota.
  have -> : AB_ok zi (compute_coefficients zi ui) (size zi) by rewrite /AB_ok hsz leqnn leq_pred.
  case=> <- hne; cbn [bind]. congr Ok.
  rewrite (@all_nodes zi ui) //; first by rewrite mulfK.
  - move=> i j h. rewrite -table_entry; first exact: hz. by case/andP: h => h1 ->; rewrite ltnW.
  - move=> i hi. by rewrite compute_coefficientsE nmi.
Qed.
(** A = u B holds at the nodes even when the denominator vanishes *)
Lemma pade_no_division zi ui k :
  (forall i j, (j < i < size zi)%nat -> seq.nth 0 zi i != seq.nth 0 zi j) ->
  (forall i j, (j < i < size zi)%nat -> seq.nth 0 (seq.nth [::] (g_rows zi ui) i) j != 0) ->
  (k < size zi)%nat ->
  exists x y, evalA (seq.nth 0 zi k) zi (compute_coefficients zi ui) (size zi) = Ok x /\
              evalB (seq.nth 0 zi k) zi (compute_coefficients zi ui) (size zi) = Ok y /\ x = seq.nth 0 ui k * y.
Proof.
  move=> hd hz hk. rewrite /evalA /evalB.
  have hsz : size (compute_coefficients zi ui) = size zi by rewrite compute_coefficientsE size_map size_iota.
  have -> : AB_ok zi (compute_coefficients zi ui) (size zi) by rewrite /AB_ok hsz leqnn leq_pred.
  do 2 eexists; split; first reflexivity. split; first reflexivity.
  apply: (@all_nodes zi ui) => //.
  - move=> i j h. rewrite -table_entry; first exact: hz. by case/andP: h => h1 ->; rewrite ltnW.
  - move=> i hi. by rewrite compute_coefficientsE nmi.
Qed.

(** ** padeThiele evaluates the same continued fraction *)
Lemma thiele_loop (h : F -> list F -> list F -> nat -> F * F) (zut z c : list F) (i0 i1 : F) :
  (forall zr, (h zr z c 0%nat).1 = i0) -> (forall zr, (h zr z c 1%nat).1 = i1) ->
  (forall zr n, (h zr z c n.+2).1 = (h zr z c n.+1).1 + (zr - seq.nth 0 z n) * seq.nth 0 c n.+1 * (h zr z c n).1) ->
  forall m, foldl (thiele_step zut z c) [:: nseq (size zut) i0; nseq (size zut) i1] (iota 1 m) =
     [seq [seq (h (seq.nth 0 zut k) z c i).1 | k <- iota 0 (size zut)] | i <- iota 0 m.+2].
Proof.
  move=> h0 h1 hss. have hns : forall (x : F) (e : nat -> F), (forall k, e k = x) -> nseq (size zut) x = [seq e k | k <- iota 0 (size zut)].
  { move=> x e he. apply: (@eq_from_nth _ 0); first (by rewrite size_nseq size_map size_iota); rewrite size_nseq => i hi. by rewrite nth_nseq hi nmi. }
  elim=> [|m IH].
  - rewrite [LHS]/= (hns i0 (fun k => (h (seq.nth 0 zut k) z c 0%nat).1)) // (hns i1 (fun k => (h (seq.nth 0 zut k) z c 1%nat).1)) //.
  - rewrite -[in LHS](addn1 m) iotaD foldl_cat IH fold1 add1n [in RHS]map_iotaS /thiele_step; congr rcons.
    apply/eq_in_map => k; rewrite mem_iota add0n => /andP [_ hk].
    have -> : m.+1.-1 = m by []. rewrite (nmi _ _ (leqnn _)). rewrite (nmi _ _ (leqnSn _)) !nmi // hss.
Qed.

Lemma padeThieleE (z f zut : list F) : size f = size z -> (0 < size z)%nat ->
  padeThiele z f zut = [seq (pA zr z (compute_coefficients z f) (size z)).1 / (pB zr z (compute_coefficients z f) (size z)).1 | zr <- zut].
Proof.
  move=> hs hz. rewrite /padeThiele thiele_cE //. set c := compute_coefficients z f.
  rewrite (@thiele_loop (@pA F) zut z c 0 (seq.nth 0 c 0)) //; last by move=> zr n; rewrite pASS.
  rewrite (@thiele_loop (@pB F) zut z c 1 1) //; last by move=> zr n; rewrite pBSS.
  rewrite (prednK hz) map_iotaS last_rcons map_iotaS last_rcons.
  apply: (@eq_from_nth _ 0); first (by rewrite !size_map size_iota); rewrite size_map size_iota => k hk.
  rewrite nmi // (nth_map 0) // nmi // nmi //.
Qed.

Lemma padeThiele_interpolates (z f : list F) k : size f = size z -> (k < size z)%nat ->
  (forall i j, (j < i < size z)%nat -> seq.nth 0 z i != seq.nth 0 z j) ->
  (forall i j, (j < i < size z)%nat -> seq.nth 0 (seq.nth [::] (g_rows z f) i) j != 0) ->
  (pB (seq.nth 0 z k) z (compute_coefficients z f) (size z)).1 != 0 ->
  seq.nth 0 (padeThiele z f z) k = seq.nth 0 f k.
Proof.
  move=> hs hk hd hz hB. rewrite padeThieleE //; last by case: (size z) hk.
  rewrite (nth_map 0) //.
  have [x [y []]] := pade_no_division hd hz hk.
  rewrite /evalA /evalB.
  have hsz : size (compute_coefficients z f) = size z by rewrite compute_coefficientsE size_map size_iota.
  have -> : AB_ok z (compute_coefficients z f) (size z) by rewrite /AB_ok hsz leqnn leq_pred.
  case=> hx [[hy] e]. by rewrite hx e -hy mulfK.
Qed.

(** ** matrix Pade *)
Lemma foldl_sum (h : nat -> F) l acc : foldl (fun acc i => acc + h i) acc l = acc + \sum_(i <- l) h i.
Proof. elim: l acc => [|x l IH] acc; first by rewrite big_nil addr0. by rewrite /= IH big_cons addrA. Qed.
Lemma dot_cat (x : list F) r (zz ff : F) : size x = r.*2 ->
  dot (pm_row r zz ff) x = \sum_(i <- iota 0 r) seq.nth 0 x i * zz ^+ i - ff * \sum_(i <- iota 0 r) seq.nth 0 x (r + i) * zz ^+ i.
Proof.
  move=> hs. rewrite /dot /pm_row size_cat !size_map !size_iota iotaD big_cat /=; congr (_ + _).
  - apply: eq_big_seq => i. rewrite mem_iota add0n => /andP [_ hi].
    rewrite nth_cat size_map size_iota hi nmi // mulrC //.
  - rewrite big_distrr /= -sumrN add0n -[in LHS](addn0 r) iotaDl big_map addn0.
    apply: eq_big_seq => i. rewrite mem_iota add0n => /andP [_ hi].
    rewrite nth_cat size_map size_iota ltnNge leq_addr /= addKn nmi //.
    by rewrite !mulNr -mulrA [zz ^+ i * _]mulrC.
Qed.
Lemma epade_interpolates r (x : list F) (zz ff : F) : size x = r.*2 ->
  dot (pm_row r zz ff) x = pm_rhs r zz ff ->
  \sum_(i <- iota 0 r) seq.nth 0 x (r + i) * zz ^+ i + zz ^+ r != 0 ->
  epade zz x = ff.
Proof.
  move=> hs hdot hne. rewrite /epade hs doubleK !foldl_sum !add0r.
  move: hdot; rewrite (dot_cat _ _ hs) /pm_rhs. move: hne.
  move: (\sum_(i <- iota 0 r) seq.nth 0 x i * zz ^+ i) (\sum_(i <- iota 0 r) seq.nth 0 x (r + i) * zz ^+ i) => num den hne e.
  have -> : num = ff * (den + zz ^+ r) by rewrite mulrDr -e addrC subrK.
  by rewrite mulfK.
Qed.

Lemma a_list_too_short (zi ui : list F) zr : (0 < size zi)%nat -> evalC zr zi (a_list zi ui) = Raise IndexError.
Proof.
  move=> h. rewrite /evalC /evalA /AB_ok /a_list size_map size_iota.
  have -> : (size zi <= (size zi).-1)%nat = false by case: (size zi) h => // n _; rewrite ltnn.
  by [].
Qed.
End P.
