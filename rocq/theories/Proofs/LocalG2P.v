From mathcomp Require Import all_ssreflect all_algebra.
From Coq Require Import String.
From Verif Require Import Base.PyBase Base.PyFacts Base.Arr Base.FieldTac Spec.SdeSpec Model.Matsubara Model.LocalFourPoint Model.LocalSDE
  Proofs.MatsubaraP Proofs.LocalFourPointP Proofs.LocalSDEP.
Set Implicit Arguments. Unset Strict Implicit. Unset Printing Implicit Defensive.
Import GRing.Theory.
Local Open Scope ring_scope.
Section P.
Variable F : fieldType.
Add Field Ff : (@Kft F).
Ltac frng := to_K F; ring.
Ltac ffld := to_K F; field; of_K.

Definition val3 (m : list (list (list F))) (i j k : Z) : F := odflt 0 (get3 m i j k).
Lemma shape3_ext T (m m' : list (list (list T))) a b c : shape3 m a b c -> shape3 m' a b c ->
  (forall i j k, (0 <= i < a)%Z -> (0 <= j < b)%Z -> (0 <= k < c)%Z -> get3 m i j k = get3 m' i j k) -> m = m'.
Proof.
  move=> [h1 h2] [h3 h4] h. apply: zget_ext; first by rewrite h1 h3. move=> i hi.
  have [r e] := @zget_in_range _ m i hi. have [|r' e'] := @zget_in_range _ m' i; first by rewrite h3 -h1.
  rewrite e e'. congr Some. apply: shape2_ext (h2 _ (zget_In _ _ e)) (h4 _ (zget_In _ _ e')) _ => j k hj hk.
  have := h i j k ltac:(lia) hj hk. by rewrite /get3 e e'.
Qed.
Lemma val3_get (m : list (list (list F))) a b c i j k : shape3 m a b c -> (0 <= i < a)%Z -> (0 <= j < b)%Z -> (0 <= k < c)%Z ->
  get3 m i j k = Some (val3 m i j k).
Proof. move=> h hi hj hk. have [x e] := get3_range h hi hj hk. by rewrite /val3 e. Qed.

Lemma comb2P (f : F -> F -> F) (k g : list (list F)) a b : shape2 k a b -> shape2 g a b ->
  exists r, comb2 f k g = Ok r /\ shape2 r a b /\
   forall i j, (0 <= i < a)%Z -> (0 <= j < b)%Z -> val2 r i j = f (val2 k i j) (val2 g i j).
Proof.
  move=> hk hg. have [rows [r [e1 [e2 h]]]] := map2_2d f hk hg. exists r. split=> //. move: hk hg => [hk1 hk2] [hg1 hg2].
  move: e1. rewrite /comb2 /np_map2b /np_map2 hk1 hg1 Z.eqb_refl [bind _ _]/= => -[er]. rewrite -e2 -er. congr sequence.
  have hl : zlen k = zlen g by rewrite hk1 hg1.
  move: hk2 hg2 hl {hk1 hg1 h e2 er}. elim: k g => [|x k IH] [|y g] h2 h4 hl //=. congr cons.
  - by rewrite (h2 x (or_introl erefl)) (h4 y (or_introl erefl)) Z.eqb_refl.
  - apply: IH => [z hz|z hz|]; [by apply: h2; right|by apply: h4; right|]. rewrite !zlen_cons in hl. lia.
Qed.
Lemma map22P (f : F -> F) (m : list (list F)) a b : shape2 m a b -> shape2 (map22 f m) a b /\
  forall i j, (0 <= i < a)%Z -> (0 <= j < b)%Z -> val2 (map22 f m) i j = f (val2 m i j).
Proof.
  move=> hs. split; first exact: shape2_map. move=> i j hi hj. have [x e] := get2_range hs hi hj. rewrite /val2 e /=.
  move: e. rewrite /get2 /map22 zget_map. case: (zget m i) => //= row e. by rewrite zget_map e.
Qed.
Lemma ggvP (giw : list F) ng n : zlen giw = (2 * ng)%Z -> (0 <= n <= ng)%Z ->
  shape2 (get_ggv giw n) (2 * n) (2 * n) /\
  forall v v', (- n <= v < n)%Z -> (- n <= v' < n)%Z -> val2 (get_ggv giw n) (n + v) (n + v') = fer giw v * fer giw v'.
Proof.
  move=> hg hn. rewrite /get_ggv hg half2. have -> : (n =? -1)%Z = false by lia. set g := slice _ _ _.
  have lg : zlen g = (2 * n)%Z by rewrite /g zlen_slice_in; lia.
  have vg : forall v, (- n <= v < n)%Z -> zget g (n + v) = Some (fer giw v).
    move=> v hv. rewrite /g zget_slice_in; try lia. have -> : (ng - n + (n + v) = ng + v)%Z by lia. by rewrite (ferE _ hg) zget_val //; lia.
  split.
  - split; first by rewrite zlen_map. move=> r hin. have [i [hi e]] := In_zget _ _ hin. rewrite zget_map in e.
    case: (zget g i) e => [x|] //= -[<-]. by rewrite zlen_map.
  - move=> v v' hv hv'. by rewrite /val2 /get2 zget_map vg //= zget_map vg.
Qed.

Lemma at_w0P (wn : list Z) (f g : list (list F) -> res (list (list F))) (m : list (list (list F))) a b : shape3 m (zlen wn) a b ->
  (forall x, shape2 x a b -> exists r, f x = Ok r /\ shape2 r a b) -> (forall x, shape2 x a b -> exists r, g x = Ok r /\ shape2 r a b) ->
  exists r, at_w0 wn f g m = Ok r /\ shape3 r (zlen wn) a b /\
   forall j w, zget wn j = Some w -> exists x y, zget m j = Some x /\ zget r j = Some y /\ shape2 x a b /\ (if (w =? 0)%Z then f x else g x) = Ok y.
Proof.
  move=> [h1 h2] hf hg. rewrite /at_w0 h1 Z.eqb_refl.
  have [r [er [lr vr]]] := @sequence_map2 _ _ _ (fun (w : Z) mw => if (w =? 0)%Z then f mw else g mw) wn m (fun _ => True) (fun x => shape2 x a b)
     (esym h1) (fun _ _ => I) h2 (fun w x _ hx => match (w =? 0)%Z as q return exists c, (if q then f x else g x) = Ok c with
       true => let: ex_intro r (conj e _) := hf x hx in ex_intro _ r e | false => let: ex_intro r (conj e _) := hg x hx in ex_intro _ r e end).
  exists r; split=> //.
  have key : forall j w, zget wn j = Some w -> exists x y, zget m j = Some x /\ zget r j = Some y /\ shape2 x a b /\ (if (w =? 0)%Z then f x else g x) = Ok y.
    move=> j w ew. have hj := zget_some_range _ _ ew. have [|x ex] := @zget_in_range _ m j; first by rewrite h1.
    have [y [ey e]] := vr j w x ew ex. exists x, y. split=> //. split=> //. split=> //. exact: h2 (zget_In _ _ ex).
  split=> //. split; first by []. move=> y hin. have [j [hj ey]] := In_zget _ _ hin. rewrite lr in hj. have [w ew] := @zget_in_range _ wn j hj.
  have [x [y' [_ [ey' [hx e]]]]] := key j w ew. rewrite ey in ey'. case: ey' => ?; subst y'. case: (w =? 0)%Z e => e.
  - have [r' [e' hr']] := hf x hx. by rewrite e in e'; case: e' => ->.
  - have [r' [e' hr']] := hg x hx. by rewrite e in e'; case: e' => ->.
Qed.
Lemma zeroin (wn : list Z) : existsb (Z.eqb 0) wn = false -> forall j w, zget wn j = Some w -> (w =? 0)%Z = false.
Proof.
  move=> h j w e. case: Z.eqb_spec => // h0. subst w. have : existsb (Z.eqb 0) wn = true by apply/existsb_exists; exists 0%Z; split; [exact: zget_In e|].
  by rewrite h.
Qed.
(** both routines, with the sign of the disconnected term as a parameter *)
Definition gen (channel : string) (wn : list Z) (f : F -> F -> F) (h : F -> F) (m : list (list (list F))) (giw : list F) :=
  if String.eqb channel "dens" && existsb (Z.eqb 0) wn then
    at_w0 wn (fun x => comb2 f x (get_ggv giw (niv3 m))) (fun x => Ok (map22 h x)) m
  else Ok (List.map (map22 h) m).
Lemma genP channel wn f h m giw ng n : (0 < zlen wn)%Z -> (0 < n <= ng)%Z -> zlen giw = (2 * ng)%Z -> shape3 m (zlen wn) (2 * n) (2 * n) ->
  exists r, gen channel wn f h m giw = Ok r /\ shape3 r (zlen wn) (2 * n) (2 * n) /\
   forall j w v v', zget wn j = Some w -> (- n <= v < n)%Z -> (- n <= v' < n)%Z ->
    val3 r j (n + v) (n + v') = if String.eqb channel "dens" && (w =? 0)%Z then f (val3 m j (n + v) (n + v')) (fer giw v * fer giw v') else h (val3 m j (n + v) (n + v')).
Proof.
  move=> hw hn hg hm. have hm' := hm. move: hm' => [h1 h2]. have ld : last_dim m = (2 * n)%Z by eapply last_dimE with (f := m); try exact: hm; try lia; exact: giw. rewrite /gen /niv3 ld niv_half.
  have [gs gv] := ggvP hg (n := n) ltac:(lia).
  case E: (String.eqb channel "dens" && existsb (Z.eqb 0) wn).
  - have [||r [e [hr hv]]] := @at_w0P wn (fun x => comb2 f x (get_ggv giw n)) (fun x => Ok (map22 h x)) m _ _ hm.
    + move=> x hx. have [r [e [hr _]]] := comb2P f hx gs. by exists r.
    + move=> x hx. exists (map22 h x). split=> //. by case: (map22P h hx).
    exists r; split=> //; split=> // j w v v' ew hv1 hv2. have [x [y [ex [ey [hx e']]]]] := hv j w ew.
    have -> : String.eqb channel "dens" by case/andP: E. rewrite /val3 /get3 ex ey /= -/(val2 y _ _) -/(val2 x _ _).
    case: (w =? 0)%Z e' => e'.
    + have [r' [e2 [_ hv']]] := comb2P f hx gs. rewrite e' in e2. case: e2 => ?; subst r'. rewrite hv'; [by rewrite gv|lia|lia].
    + case: e' => <-. have [_ hv3] := map22P h hx. rewrite hv3 //; lia.
  - exists (List.map (map22 h) m). split=> //.
    have key : forall j x, zget m j = Some x -> zget (List.map (map22 h) m) j = Some (map22 h x) /\ shape2 x (2 * n) (2 * n).
      move=> j x e. by rewrite zget_map e; split=> //; apply: h2; exact: zget_In e.
    split.
    + split; first by rewrite zlen_map h1. move=> r hin. have [j [hj e]] := In_zget _ _ hin. rewrite zget_map in e.
      case E2: (zget m j) e => [x|] //= -[<-]. by case: (map22P h (h2 _ (zget_In _ _ E2))).
    + move=> j w v v' ew hv hv'. have hj := zget_some_range _ _ ew. have [|x ex] := @zget_in_range _ m j; first by rewrite h1.
      have [e1 hx] := key j x ex. rewrite /val3 /get3 e1 ex /= -/(val2 _ _ _) -/(val2 x _ _). have [_ ->] := map22P h hx; try lia.
      case E1: (String.eqb channel "dens") E => //= E. by rewrite (zeroin E ew).
Qed.
Lemma gchir_from_g2P channel beta wn g2 giw ng n : (0 < zlen wn)%Z -> (0 < n <= ng)%Z -> zlen giw = (2 * ng)%Z -> shape3 g2 (zlen wn) (2 * n) (2 * n) ->
  exists r, gchir_from_g2 channel beta wn g2 giw = Ok r /\ shape3 r (zlen wn) (2 * n) (2 * n) /\
   forall j w v v', zget wn j = Some w -> (- n <= v < n)%Z -> (- n <= v' < n)%Z ->
    val3 r j (n + v) (n + v') = if String.eqb channel "dens" && (w =? 0)%Z then beta * (val3 g2 j (n + v) (n + v') - 2%:R * (fer giw v * fer giw v')) else beta * val3 g2 j (n + v) (n + v').
Proof. exact: (genP channel (fun x y => beta * (x - 2%:R * y)) (fun x => beta * x)). Qed.
Lemma g2_from_chirP channel beta wn g2 giw ng n : (0 < zlen wn)%Z -> (0 < n <= ng)%Z -> zlen giw = (2 * ng)%Z -> shape3 g2 (zlen wn) (2 * n) (2 * n) ->
  exists r, g2_from_chir channel beta wn g2 giw = Ok r /\ shape3 r (zlen wn) (2 * n) (2 * n) /\
   forall j w v v', zget wn j = Some w -> (- n <= v < n)%Z -> (- n <= v' < n)%Z ->
    val3 r j (n + v) (n + v') = if String.eqb channel "dens" && (w =? 0)%Z then 1 / beta * val3 g2 j (n + v) (n + v') + 2%:R * (fer giw v * fer giw v') else 1 / beta * val3 g2 j (n + v) (n + v').
Proof. exact: (genP channel (fun x y => 1 / beta * x + 2%:R * y) (fun x => 1 / beta * x)). Qed.
Lemma val3_ext (m m' : list (list (list F))) (wn : list Z) n : shape3 m (zlen wn) (2 * n) (2 * n) -> shape3 m' (zlen wn) (2 * n) (2 * n) ->
  (forall j w v v', zget wn j = Some w -> (- n <= v < n)%Z -> (- n <= v' < n)%Z -> val3 m j (n + v) (n + v') = val3 m' j (n + v) (n + v')) -> m = m'.
Proof.
  move=> h1 h2 h. apply: (shape3_ext h1 h2) => i j k hi hj hk. rewrite (val3_get h1 hi hj hk) (val3_get h2 hi hj hk). congr Some.
  have [w ew] := @zget_in_range _ wn i hi. have := h i w (j - n)%Z (k - n)%Z ew ltac:(lia) ltac:(lia).
  have -> : (n + (j - n) = j)%Z by lia. by have -> : (n + (k - n) = k)%Z by lia.
Qed.
Lemma g2_roundtrip channel (beta : F) wn (g2 : list (list (list F))) giw ng n : beta != 0 -> (0 < zlen wn)%Z -> (0 < n <= ng)%Z -> zlen giw = (2 * ng)%Z -> shape3 g2 (zlen wn) (2 * n) (2 * n) ->
  exists chi : list (list (list F)), gchir_from_g2 channel beta wn g2 giw = Ok chi /\ g2_from_chir channel beta wn chi giw = Ok g2.
Proof.
  move=> hb hw hn hg hs. have [chi [e1 [s1 v1]]] := gchir_from_g2P channel beta hw hn hg hs. have [r [e2 [s2 v2]]] := g2_from_chirP channel beta hw hn hg s1.
  exists chi; split=> //. rewrite e2. congr Ok. apply: (val3_ext s2 hs) => j w v v' ew hv hv'. rewrite (v2 j w v v') // (v1 j w v v') //.
  case: (_ && _); by ffld; apply/eqP.
Qed.
Lemma chir_roundtrip channel (beta : F) wn (chi : list (list (list F))) giw ng n : beta != 0 -> (0 < zlen wn)%Z -> (0 < n <= ng)%Z -> zlen giw = (2 * ng)%Z -> shape3 chi (zlen wn) (2 * n) (2 * n) ->
  exists g2 : list (list (list F)), g2_from_chir channel beta wn chi giw = Ok g2 /\ gchir_from_g2 channel beta wn g2 giw = Ok chi.
Proof.
  move=> hb hw hn hg hs. have [g2 [e1 [s1 v1]]] := g2_from_chirP channel beta hw hn hg hs. have [r [e2 [s2 v2]]] := gchir_from_g2P channel beta hw hn hg s1.
  exists g2; split=> //. rewrite e2. congr Ok. apply: (val3_ext s2 hs) => j w v v' ew hv hv'. rewrite (v2 j w v v') // (v1 j w v v') //.
  case: (_ && _); by ffld; apply/eqP.
Qed.
(** finding: a g2 box exactly one frequency larger than the Green's function silently broadcasts a single product *)
Lemma ggv_broadcast (giw : list F) ng : (0 < ng)%Z -> zlen giw = (2 * ng)%Z -> get_ggv giw (ng + 1) = [:: [:: fer giw (ng - 1) * fer giw (ng - 1)]].
Proof.
  move=> h hg. rewrite /get_ggv hg half2. have -> : (ng + 1 =? -1)%Z = false by lia.
  have -> : slice giw (ng - (ng + 1)) (ng + (ng + 1)) = [:: fer giw (ng - 1)]; last by [].
  apply: zget_ext; first by rewrite zlen_slice /clampi hg zlen_cons zlen_nil; case: Z.ltb_spec; case: Z.ltb_spec; lia.
  have hl : zlen (slice giw (ng - (ng + 1)) (ng + (ng + 1))) = 1%Z by rewrite zlen_slice /clampi hg; case: Z.ltb_spec; case: Z.ltb_spec; lia.
  move=> i. rewrite hl => hi. have -> : i = 0%Z by lia. rewrite zget_cons_0.
  rewrite zget_slice; last by rewrite hl. have -> : (clampi (zlen giw) (ng - (ng + 1)) + 0 = ng + (ng - 1))%Z by rewrite /clampi hg; case: Z.ltb_spec; lia.
  by rewrite (ferE _ hg) zget_val //; lia.
Qed.
Lemma symmP n (m : list (list F)) : (0 <= n)%Z -> shape2 m n n ->
  exists r, symmetrize_v_vp n m = Ok r /\ shape2 r n n /\ forall i j, (0 <= i < n)%Z -> (0 <= j < n)%Z -> val2 r i j = 1 / 2%:R * (val2 m i j + val2 m j i).
Proof.
  move=> hn hs. have ht := transpose_shape hn hs. have [rows [r [e1 [e2 [hr hv]]]]] := map2_2d (fun a b => 1 / 2%:R * (a + b)) hs ht.
  exists r. rewrite /symmetrize_v_vp e1 /=. split=> //; split=> // i j hi hj. rewrite hv //. by rewrite [val2 (transpose _ _) _ _]/val2 (get2_transpose hs).
Qed.
End P.
