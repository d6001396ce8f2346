From Verif Require Import Base.PyBase Base.PyFacts Model.Symmetrize Spec.SymSpec.
From Coq Require Import ZArith List Lia.
Import ListNotations.
Open Scope Z_scope.
Set Implicit Arguments.

(** ** positional notation *)
Fixpoint posn (base : Z) (l : list Z) : Z :=
  match l with [] => 0 | d :: r => d * base ^ zlen r + posn base r end.

Lemma zlen_cons A (x : A) l : zlen (x :: l) = zlen l + 1.
Proof. unfold zlen; cbn [length]; lia. Qed.
Lemma zlen_pos A (l : list A) : 0 <= zlen l.
Proof. unfold zlen; lia. Qed.

Lemma positional_acc base l acc :
  fold_left (fun acc d => acc * base + d) l acc = acc * base ^ zlen l + posn base l.
Proof.
  revert acc; induction l as [|d l IH]; intros acc.
  - cbn; change (zlen (@nil Z)) with 0; lia.
  - cbn [fold_left posn]; rewrite IH, zlen_cons, Z.pow_add_r by (pose proof (zlen_pos l); lia); ring.
Qed.
Lemma positionalE base l : positional base l = posn base l.
Proof. unfold positional; rewrite positional_acc; ring. Qed.

Lemma posn_range base l : 0 < base -> digits_below base l -> 0 <= posn base l < base ^ zlen l.
Proof.
  intros hb; induction l as [|d l IH]; intros hd.
  - cbn; lia.
  - cbn [posn]; rewrite zlen_cons, Z.pow_add_r by (pose proof (zlen_pos l); lia).
    assert (h := IH (fun x hx => hd x (or_intror hx))).
    assert (h' := hd d (or_introl eq_refl)). nia.
Qed.

Fixpoint digits (base : Z) (n : nat) (x : Z) : list Z :=
  match n with
  | O => []
  | S m => let p := base ^ Z.of_nat m in x / p :: digits base m (x - p * (x / p))
  end.

Lemma digits_len base n x : length (digits base n x) = n.
Proof. revert x; induction n; intros; cbn; auto. Qed.

Lemma sub_div x p : x - p * (x / p) = x mod p.
Proof. destruct (Z.eq_dec p 0) as [->|h]; [rewrite Zmod_0_r|rewrite Zmod_eq_full by auto]; ring. Qed.

Lemma digits_below_digits base n x :
  0 < base -> 0 <= x < base ^ Z.of_nat n -> digits_below base (digits base n x).
Proof.
  intros hb; revert x; induction n as [|n IH]; intros x hx d hd.
  - destruct hd.
  - cbn [digits] in hd; set (p := base ^ Z.of_nat n) in *.
    assert (hp : 0 < p) by (apply Z.pow_pos_nonneg; lia).
    rewrite Nat2Z.inj_succ, Z.pow_succ_r in hx by lia; fold p in hx.
    rewrite sub_div in hd; destruct hd as [<-|hd].
    + split; [apply Z.div_pos; lia|apply Z.div_lt_upper_bound; lia].
    + eapply IH; [|exact hd]; apply Z.mod_pos_bound; lia.
Qed.

Lemma posn_digits base n x :
  0 < base -> 0 <= x < base ^ Z.of_nat n -> posn base (digits base n x) = x.
Proof.
  intros hb; revert x; induction n as [|n IH]; intros x hx.
  - cbn in *; lia.
  - cbn [digits posn]; set (p := base ^ Z.of_nat n) in *.
    assert (hp : 0 < p) by (apply Z.pow_pos_nonneg; lia).
    unfold zlen; rewrite digits_len; fold p; rewrite sub_div, IH.
    + rewrite <- sub_div; ring.
    + apply Z.mod_pos_bound; lia.
Qed.

Lemma digits_posn base l :
  0 < base -> digits_below base l -> digits base (length l) (posn base l) = l.
Proof.
  intros hb; induction l as [|d l IH]; intros hd; [reflexivity|].
  cbn [length digits posn]; change (Z.of_nat (length l)) with (zlen l).
  set (p := base ^ zlen l).
  assert (hp : 0 < p) by (apply Z.pow_pos_nonneg; [lia|apply zlen_pos]).
  assert (hl : digits_below base l) by (intros x hx; apply hd; right; exact hx).
  assert (hr := posn_range hb hl); fold p in hr.
  assert (e : (d * p + posn base l) / p = d).
  { rewrite Z.add_comm, Z.div_add by lia; rewrite (Z.div_small (posn base l) p); lia. }
  rewrite e; f_equal.
  replace (d * p + posn base l - p * d) with (posn base l) by ring; auto.
Qed.

(** ** the loops *)
Lemma range_S n : range (Z.of_nat (S n)) = 0 :: map Z.succ (range (Z.of_nat n)).
Proof.
  unfold range, arange; rewrite !Z.sub_0_r, !Nat2Z.id; cbn [seq map]; f_equal.
  rewrite <- seq_shift, !map_map; apply map_ext; intros; lia.
Qed.

Lemma i2cb_loop Nb n : forall k b x,
  fst (fold_left (fun (st : list Z * Z) i =>
                    let '(b, ind_tmp) := st in
                    let bi := ind_tmp / (Nb ^ (Z.of_nat (k + n) - i - 1)) in
                    (b ++ [bi], ind_tmp - bi * (Nb ^ (Z.of_nat (k + n) - i - 1))))
                 (map (fun i => Z.of_nat k + Z.of_nat i) (seq 0 n)) (b, x))
  = b ++ digits Nb n x.
Proof.
  induction n as [|n IH]; intros k b x.
  - cbn; rewrite app_nil_r; reflexivity.
  - cbn [seq map fold_left].
    replace (Z.of_nat (k + S n) - (Z.of_nat k + Z.of_nat 0) - 1) with (Z.of_nat n) by lia.
    rewrite <- seq_shift, map_map.
    rewrite (map_ext _ (fun i => Z.of_nat (S k) + Z.of_nat i)) by (intros; lia).
    replace (k + S n)%nat with (S k + n)%nat by lia.
    rewrite IH; cbn [digits]; rewrite <- app_assoc; cbn [app].
    rewrite (Z.mul_comm (x / _)); reflexivity.
Qed.

Lemma index2component_bandE Nb n ind :
  index2component_band Nb (Z.of_nat n) ind = digits Nb n (ind - 1).
Proof.
  unfold index2component_band, range, arange; rewrite Z.sub_0_r, Nat2Z.id.
  exact (i2cb_loop Nb n 0 [] (ind - 1)).
Qed.

Lemma i2cg_loop Nb n : forall k bs b s x,
  fold_left (i2c_step Nb (Z.of_nat (k + n)))
            (map (fun i => Z.of_nat k + Z.of_nat i) (seq 0 n)) (bs, b, s, x)
  = (bs ++ digits (2 * Nb) n x, b ++ map (fun d => d / 2) (digits (2 * Nb) n x),
     s ++ map (fun d => d mod 2) (digits (2 * Nb) n x),
     snd (fold_left (i2c_step Nb (Z.of_nat (k + n)))
            (map (fun i => Z.of_nat k + Z.of_nat i) (seq 0 n)) (bs, b, s, x))).
Proof.
  induction n as [|n IH]; intros k bs b s x.
  - cbn; rewrite !app_nil_r; reflexivity.
  - cbn [seq map fold_left]; cbn [i2c_step].
    replace (Z.of_nat (k + S n) - (Z.of_nat k + Z.of_nat 0 + 1)) with (Z.of_nat n) by lia.
    rewrite <- seq_shift, !map_map.
    rewrite (map_ext _ (fun i => Z.of_nat (S k) + Z.of_nat i)) by (intros; lia).
    replace (k + S n)%nat with (S k + n)%nat by lia.
    rewrite IH at 1; cbn [digits map]; rewrite <- !app_assoc; cbn [app].
    replace ((x / (2 * Nb) ^ Z.of_nat n - (x / (2 * Nb) ^ Z.of_nat n) mod 2) / 2)
      with (x / (2 * Nb) ^ Z.of_nat n / 2).
    + reflexivity.
    + set (q := x / _); pose proof (Z.div_mod q 2).
      replace (q - q mod 2) with (q / 2 * 2) by lia. rewrite Z.div_mul; lia.
Qed.

Lemma index2component_generalE Nb n ind :
  index2component_general Nb (Z.of_nat n) ind =
  let bs := digits (2 * Nb) n (ind - 1) in
  (bs, map (fun d => d / 2) bs, map (fun d => d mod 2) bs).
Proof.
  unfold index2component_general, range, arange; rewrite Z.sub_0_r, Nat2Z.id.
  assert (h := i2cg_loop Nb n 0 [] [] [] (ind - 1)); cbn [Nat.add app] in h.
  change (Z.of_nat 0) with 0 in h. rewrite h. reflexivity.
Qed.

Lemma c2i_loop Nb (b : list Z) : forall n k acc, length b = (k + n)%nat ->
  foldM (fun ind i => let! bi := py_get b i in Ok (ind + Nb ^ (Z.of_nat (k + n) - i - 1) * bi))
        (map (fun i => Z.of_nat k + Z.of_nat i) (seq 0 n)) acc
  = Ok (acc + posn Nb (skipn k b)).
Proof.
  induction n as [|n IH]; intros k acc hl.
  - cbn; rewrite skipn_all2 by lia; cbn; f_equal; lia.
  - cbn [seq map foldM].
    destruct (nth_error b k) as [d|] eqn:hd; [|apply nth_error_None in hd; lia].
    assert (hg : py_get b (Z.of_nat k + Z.of_nat 0) = Ok d).
    { unfold py_get, zget. destruct (Z.ltb_spec (Z.of_nat k + Z.of_nat 0) 0); [lia|].
      destruct (Z.ltb_spec (Z.of_nat k + Z.of_nat 0) 0); [lia|].
      replace (Z.to_nat (Z.of_nat k + Z.of_nat 0)) with k by lia; rewrite hd; reflexivity. }
    rewrite hg; cbn [bind].
    rewrite <- seq_shift, map_map.
    rewrite (map_ext _ (fun i => Z.of_nat (S k) + Z.of_nat i)) by (intros; lia).
    replace (Z.of_nat (k + S n) - (Z.of_nat k + Z.of_nat 0) - 1) with (Z.of_nat n) by lia.
    replace (k + S n)%nat with (S k + n)%nat by lia.
    rewrite IH by lia. f_equal.
    assert (hs : skipn k b = d :: skipn (S k) b).
    { clear -hd; revert b hd; induction k as [|k IHk]; intros [|x b] hd; cbn in *; try discriminate.
      - injection hd as ->; reflexivity.
      - rewrite (IHk _ hd); reflexivity. }
    rewrite hs; cbn [posn].
    replace (zlen (skipn (S k) b)) with (Z.of_nat n) by (unfold zlen; rewrite skipn_length; lia).
    ring.
Qed.

Lemma component2index_bandE Nb (b : list Z) :
  component2index_band Nb (zlen b) b = Ok (1 + posn Nb b).
Proof.
  unfold component2index_band, range, arange; rewrite Z.sub_0_r; unfold zlen; rewrite Nat2Z.id.
  exact (@c2i_loop Nb b (length b) 0 1 eq_refl).
Qed.

(** ** C38 *)
Lemma band_encode Nb (b : list Z) :
  component2index_band Nb (zlen b) b = Ok (1 + positional Nb b).
Proof. rewrite positionalE; apply component2index_bandE. Qed.

Lemma band_encode_range Nb (b : list Z) :
  0 < Nb -> digits_below Nb b -> 1 <= 1 + positional Nb b <= Nb ^ zlen b.
Proof. intros h1 h2; rewrite positionalE; pose proof (posn_range h1 h2); lia. Qed.

Lemma band_decode_encode Nb (b : list Z) :
  0 < Nb -> digits_below Nb b ->
  exists ind, component2index_band Nb (zlen b) b = Ok ind /\ index2component_band Nb (zlen b) ind = b.
Proof.
  intros h1 h2; exists (1 + posn Nb b); split; [apply component2index_bandE|].
  unfold zlen; rewrite index2component_bandE.
  replace (1 + posn Nb b - 1) with (posn Nb b) by lia; apply digits_posn; auto.
Qed.

Lemma band_encode_decode Nb N ind :
  0 < Nb -> 0 <= N -> 1 <= ind <= Nb ^ N ->
  zlen (index2component_band Nb N ind) = N /\
  digits_below Nb (index2component_band Nb N ind) /\
  component2index_band Nb N (index2component_band Nb N ind) = Ok ind.
Proof.
  intros h1 hN h2; rewrite <- (Z2Nat.id N) in * by auto.
  set (n := Z.to_nat N) in *; rewrite index2component_bandE.
  assert (hl : zlen (digits Nb n (ind - 1)) = Z.of_nat n) by (unfold zlen; rewrite digits_len; auto).
  split; [auto|split].
  - apply digits_below_digits; lia.
  - rewrite <- hl, component2index_bandE, posn_digits by lia; f_equal; lia.
Qed.

Lemma general_decode Nb N ind bs b s :
  0 < Nb -> 0 <= N -> 1 <= ind <= (2 * Nb) ^ N ->
  index2component_general Nb N ind = (bs, b, s) ->
  zlen bs = N /\ zlen b = N /\ zlen s = N /\
  digits_below Nb b /\ digits_below 2 s /\
  (forall i x y z, zget bs i = Some x -> zget b i = Some y -> zget s i = Some z -> x = 2 * y + z) /\
  ind = 1 + positional (2 * Nb) bs.
Proof.
  intros h1 hN h2; rewrite <- (Z2Nat.id N) in * by auto.
  set (n := Z.to_nat N) in *; rewrite index2component_generalE; cbn zeta.
  set (D := digits _ _ _); intros [= <- <- <-].
  assert (hl : zlen D = Z.of_nat n) by (unfold zlen, D; rewrite digits_len; auto).
  assert (hD : digits_below (2 * Nb) D) by (apply digits_below_digits; lia).
  unfold zlen in *; rewrite !map_length; repeat split; auto.
  - apply in_map_iff in H; destruct H as (x & <- & hx). pose proof (hD _ hx); apply Z.div_pos; lia.
  - apply in_map_iff in H; destruct H as (x & <- & hx). pose proof (hD _ hx); apply Z.div_lt_upper_bound; lia.
  - apply in_map_iff in H; destruct H as (x & <- & hx). apply Z.mod_pos_bound; lia.
  - apply in_map_iff in H; destruct H as (x & <- & hx). apply Z.mod_pos_bound; lia.
  - intros i x y z; unfold zget; destruct (i <? 0); [discriminate|].
    rewrite !nth_error_map; destruct (nth_error D (Z.to_nat i)) as [w|]; [|discriminate].
    cbn [option_map]; intros [= hx] [= hy] [= hz]; subst; apply Z.div_mod; lia.
  - rewrite positionalE; unfold D; rewrite posn_digits by lia; lia.
Qed.


Lemma general_encode Nb (l : list (Z * Z)) :
  0 < Nb -> digits_below Nb (map fst l) -> digits_below 2 (map snd l) ->
  let ind := 1 + positional (2 * Nb) (compound l) in
  1 <= ind <= (2 * Nb) ^ zlen l /\
  index2component_general Nb (zlen l) ind = (compound l, map fst l, map snd l).
Proof.
  intros h1 hb hs ind.
  assert (hc : digits_below (2 * Nb) (compound l)).
  { intros d hd; apply in_map_iff in hd; destruct hd as ((x & y) & <- & hx); cbn [fst snd].
    pose proof (hb x (in_map fst _ _ hx)); pose proof (hs y (in_map snd _ _ hx)); lia. }
  assert (hl : length (compound l) = length l) by apply map_length.
  assert (hr := posn_range (base := 2 * Nb) ltac:(lia) hc).
  unfold zlen in hr; rewrite hl in hr; fold (zlen l) in hr.
  unfold ind; rewrite positionalE; split; [lia|].
  unfold zlen; rewrite index2component_generalE; cbn zeta.
  replace (1 + posn (2 * Nb) (compound l) - 1) with (posn (2 * Nb) (compound l)) by lia.
  rewrite <- hl, digits_posn by (auto; lia).
  f_equal; [f_equal|]; unfold compound; rewrite map_map; apply map_ext_in; intros (x & y) hx; cbn [fst snd];
    pose proof (hs y (in_map snd _ _ hx)).
  - rewrite Z.mul_comm, Z.div_add_l by lia; rewrite Z.div_small by lia; lia.
  - rewrite Z.mul_comm, Z.add_comm, Z.mod_add by lia; apply Z.mod_small; lia.
Qed.
