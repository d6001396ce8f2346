From mathcomp Require Import all_ssreflect all_algebra.
From Coq Require Import String.
From Verif Require Import Base.PyBase Base.PyFacts Base.Arr Base.FieldTac Spec.BseSpec Spec.SdeSpec Model.Matsubara Model.LocalFourPoint Model.LocalSDE
  Proofs.MatsubaraP Proofs.LocalFourPointP.
Set Implicit Arguments. Unset Strict Implicit. Unset Printing Implicit Defensive.
Import GRing.Theory.
Local Open Scope ring_scope.

Section P.
Variable F : fieldType.
Add Field Ff : (@Kft F).
Ltac frng := to_K F; ring.
Ltac ffld := to_K F; field; of_K.

Lemma lsum_nil : @lsum F [::] = 0. Proof. by rewrite /lsum big_nil. Qed.
Lemma lsum_cons (x : F) l : lsum (x :: l) = x + lsum l. Proof. by rewrite /lsum big_cons. Qed.
Lemma range_S n : (0 <= n)%Z -> range (1 + n) = 0%Z :: List.map (fun i => 1 + i)%Z (range n).
Proof.
  move=> hn. rewrite /range arange_cons; last lia. congr cons. rewrite arange_map_add. by have -> : (1 + 0 = 0 + 1)%Z by lia.
Qed.
Lemma big_lmap A B (f : A -> B) (g : B -> F) (l : list A) : \sum_(i <- List.map f l) g i = \sum_(i <- l) g (f i).
Proof. by elim: l => [|a l IH] /=; rewrite ?big_nil // !big_cons IH. Qed.
Lemma big_ext_in A (f g : A -> F) (l : list A) : (forall x, List.In x l -> f x = g x) -> \sum_(i <- l) f i = \sum_(i <- l) g i.
Proof.
  elim: l => [|a l IH] h; rewrite ?big_nil // !big_cons h; last by left. rewrite IH // => x hx. by apply: h; right.
Qed.
Lemma val_cons0 (x : F) l : val (x :: l) 0 = x. Proof. by rewrite /val zget_cons_0. Qed.
Lemma val_consS (x : F) l i : (0 <= i)%Z -> val (x :: l) (1 + i) = val l i.
Proof. move=> h. rewrite /val zget_cons. case: Z.eqb_spec => [|_]; first lia. by have -> : (1 + i - 1 = i)%Z by lia. Qed.
Lemma lsum_val (l : list F) : lsum l = \sum_(i <- range (zlen l)) val l i.
Proof.
  elim: l => [|x l IH]; first by rewrite lsum_nil big_nil.
  rewrite lsum_cons zlen_cons range_S; last exact: zlen_nonneg. rewrite big_cons val_cons0 big_lmap IH. congr (_ + _).
  apply: big_ext_in => i /In_arange hi. by rewrite val_consS //; lia.
Qed.
Lemma zget_val (l : list F) i : (0 <= i < zlen l)%Z -> zget l i = Some (val l i).
Proof. by move=> /zget_in_range [a e]; rewrite /val e. Qed.
Lemma get2_val (m : list (list F)) a b i j : shape2 m a b -> (0 <= i < a)%Z -> (0 <= j < b)%Z -> get2 m i j = Some (val2 m i j).
Proof. by move=> h hi hj; have [x e] := get2_range h hi hj; rewrite /val2 e. Qed.
Lemma val_ext (l m : list F) : zlen l = zlen m -> (forall i, (0 <= i < zlen l)%Z -> val l i = val m i) -> l = m.
Proof. move=> e h. apply: zget_ext => // i hi. by rewrite !zget_val ?h // -?e. Qed.

Lemma sequence_mapM A B (f : A -> res B) l : sequence (List.map f l) = mapM f l.
Proof. elim: l => //= a l IH. by rewrite IH. Qed.
Lemma map2_len A B C (f : A -> B -> C) l m : zlen l = zlen m -> zlen (map2 f l m) = zlen l.
Proof. move=> e. rewrite zlen_map2. lia. Qed.
Lemma sequence_map2 A B C (f : A -> B -> res C) l m (P : A -> Prop) (Q : B -> Prop) : zlen l = zlen m ->
  (forall a, List.In a l -> P a) -> (forall b, List.In b m -> Q b) -> (forall a b, P a -> Q b -> exists c, f a b = Ok c) ->
  exists r, sequence (map2 f l m) = Ok r /\ zlen r = zlen l /\
    forall i a b, zget l i = Some a -> zget m i = Some b -> exists c, zget r i = Some c /\ f a b = Ok c.
Proof.
  move=> e hP hQ hf. elim: l m e hP hQ => [|a l IH] [|b m]; rewrite ?zlen_nil ?zlen_cons => e hP hQ.
  - by exists [::]; split=> //; split=> // i x y; rewrite zget_nil.
  - have := zlen_nonneg m; lia.
  - have := zlen_nonneg l; lia.
  - have [c hc] := hf a b (hP a (or_introl erefl)) (hQ b (or_introl erefl)).
    have [r [hr [hl hg]]] := IH m ltac:(lia) (fun x h => hP x (or_intror h)) (fun x h => hQ x (or_intror h)).
    exists (c :: r). rewrite /= hc /= hr /=. split=> //. split; first by rewrite zlen_cons hl.
    move=> i x y. rewrite !zget_cons. case: Z.eqb_spec => [_ [<-] [<-]|_]; [by exists c|exact: hg].
Qed.

Lemma shape2_row T (m : list (list T)) a b i : shape2 m a b -> (0 <= i < a)%Z -> exists r, zget m i = Some r /\ zlen r = b.
Proof. move=> [h1 h2] hi. have [r e] := @zget_in_range _ m i ltac:(lia). exists r; split=> //. apply: h2. exact: zget_In e. Qed.
Lemma shape2_of_rows (r : list (list F)) a b : zlen r = a -> (forall i row, zget r i = Some row -> zlen row = b) -> shape2 r a b.
Proof. move=> h1 h2. split=> // row hin. have [i [_ e]] := In_zget _ _ hin. exact: h2 e. Qed.

(** two-dimensional elementwise operation *)
Lemma map2_2d (f : F -> F -> F) (k g : list (list F)) a b : shape2 k a b -> shape2 g a b ->
  exists rows r, np_map2 (np_map2 f) k g = Ok rows /\ sequence rows = Ok r /\ shape2 r a b /\
   forall i j, (0 <= i < a)%Z -> (0 <= j < b)%Z -> val2 r i j = f (val2 k i j) (val2 g i j).
Proof.
  move=> [hk1 hk2] [hg1 hg2]. rewrite /np_map2 hk1 hg1 Z.eqb_refl.
  have hf : forall x y : list F, zlen x = b -> zlen y = b -> exists c, np_map2 f x y = Ok c.
    by move=> x y hx hy; rewrite /np_map2 hx hy Z.eqb_refl; eexists.
  have [|r [hr [hl hg]]] := sequence_map2 (f := np_map2 f) _ hk2 hg2 hf; first by lia.
  eexists; exists r; split=> //; split=> //.
  have key : forall i, (0 <= i < a)%Z -> exists x y z, [/\ zget k i = Some x, zget g i = Some y, zget r i = Some z, zlen x = b & zlen y = b /\ z = map2 f x y].
    move=> i hi. have [x ex] := @zget_in_range _ k i ltac:(lia). have [y ey] := @zget_in_range _ g i ltac:(lia).
    have [z [ez]] := hg i x y ex ey. have hx := hk2 _ (zget_In _ _ ex). have hy := hg2 _ (zget_In _ _ ey).
    rewrite /np_map2 hx hy Z.eqb_refl  => -[hz]. by exists x, y, z; split=> //; split.
  split.
  - apply: shape2_of_rows; first by lia. move=> i row e. have hi := zget_some_range _ _ e.
    have [x [y [z [_ _ ez hx [hy hz]]]]] := key i ltac:(lia). by rewrite e in ez; case: ez => ->; rewrite hz map2_len; lia.
  - move=> i j hi hj. have [x [y [z [ex ey ez hx [hy hz]]]]] := key i hi.
    rewrite /val2 /get2 ex ey ez /= hz zget_map2 !zget_val; try lia. by [].
Qed.

Lemma sum_axis0P (r : list (list F)) a b : (0 <= b)%Z -> shape2 r a b ->
  zlen (sum_axis0 b r) = b /\ forall j, (0 <= j < b)%Z -> val (sum_axis0 b r) j = \sum_(i <- range a) val2 r i j.
Proof.
  move=> hb hs. rewrite /sum_axis0 /range. split; first by rewrite zlen_map zlen_arange; lia.
  move=> j hj. rewrite /val zget_map zget_arange /=; last lia.
  rewrite lsum_val (zlen_col hs) //. apply: big_ext_in => i /In_arange hi. by rewrite /val (zget_col hs) //; lia.
Qed.
Lemma sum_wP (k g : list (list F)) a b : (0 <= b)%Z -> shape2 k a b -> shape2 g a b ->
  exists s, sum_w b k g = Ok s /\ zlen s = b /\ forall j, (0 <= j < b)%Z -> val s j = \sum_(i <- range a) val2 k i j * val2 g i j.
Proof.
  move=> hb hk hg. have [rows [r [e1 [e2 [hr hv]]]]] := map2_2d (fun k g => k * g) hk hg.
  rewrite /sum_w e1 /= e2 /=. have [hl hs] := sum_axis0P hb hr. eexists; split=> //; split=> // j hj.
  rewrite hs //. apply: big_ext_in => i /In_arange hi. by rewrite hv //; lia.
Qed.
Lemma val_map (f : F -> F) l i : (0 <= i < zlen l)%Z -> val (List.map f l) i = f (val l i).
Proof. move=> h. by rewrite /val zget_map zget_val. Qed.
Lemma kernel2d (f : F -> F -> F) (c : list F) (m : list (list F)) a b : zlen c = a -> shape2 m a b ->
  exists r, np_map2 (fun c row => List.map (f c) row) c m = Ok r /\ shape2 r a b /\
    forall i j, (0 <= i < a)%Z -> (0 <= j < b)%Z -> val2 r i j = f (val c i) (val2 m i j).
Proof.
  move=> hc [h1 h2]. rewrite /np_map2 hc h1 Z.eqb_refl. eexists; split=> //. 
  have key : forall i, (0 <= i < a)%Z -> exists x, zget m i = Some x /\ zlen x = b /\ zget (map2 (fun c row => List.map (f c) row) c m) i = Some (List.map (f (val c i)) x).
    move=> i hi. have [x ex] := @zget_in_range _ m i ltac:(lia). exists x; split=> //. split; first exact: h2 (zget_In _ _ ex).
    by rewrite zget_map2 zget_val ?ex //; lia.
  split.
  - apply: shape2_of_rows; first by rewrite zlen_map2; lia. move=> i row e. have hi := zget_some_range _ _ e. rewrite zlen_map2 in hi.
    have [x [_ [hx e']]] := key i ltac:(lia). rewrite e in e'. case: e' => ->. by rewrite zlen_map.
  - move=> i j hi hj. have [x [ex [hx e]]] := key i hi. rewrite /val2 /get2 e ex /= zget_map zget_val //=; lia.
Qed.

Lemma ncolsE (m : list (list F)) a b : (0 < a)%Z -> shape2 m a b -> ncols m = b.
Proof. case: m => [|r m] ha [h1 h2]; first by rewrite zlen_nil in h1; lia. exact: h2 (or_introl erefl). Qed.
Lemma niv_half n : niv_from_len (2 * n) false = n.
Proof. rewrite /niv_from_len. rewrite Z.mul_comm Z.div_mul //. Qed.
Lemma ferE (l : list F) n v : zlen l = (2 * n)%Z -> fer l v = val l (n + v).
Proof. move=> h. rewrite /fer h. by rewrite Z.mul_comm Z.div_mul. Qed.
Lemma half2 n : (2 * n / 2 = n)%Z. Proof. by rewrite Z.mul_comm Z.div_mul. Qed.

Variables (beta u ur : F) (wn : list Z) (giw : list F) (ng : Z).
Hypotheses (hw : (0 < zlen wn)%Z) (hgl : zlen giw = (2 * ng)%Z).

Lemma sde_vrgP (vrg : list (list F)) (chi : list F) niv : (0 <= niv)%Z ->
  shape2 vrg (zlen wn) (2 * niv) -> zlen chi = zlen wn -> (forall w, List.In w wn -> (niv + Z.abs w <= ng)%Z) ->
  exists s, schwinger_dyson_vrg beta ur wn vrg chi giw = Ok s /\ zlen s = (2 * niv)%Z /\
   forall v, (- niv <= v < niv)%Z -> fer s v = ur / 2%:R * sd_sum beta wn (fun j => 1 - (1 - ur * val chi j) * val2 vrg j (niv + v)) giw v.
Proof.
  move=> hn hv hc hg. rewrite /schwinger_dyson_vrg (ncolsE hw hv) niv_half.
  have [grid [-> [gs gv]]] := wn_slices_gen_spec _ _ hgl hn hg.
  have [K [-> [ks kv]]] := kernel2d (fun c g => 1 - (1 - ur * c) * g) hc hv. rewrite [bind _ _]/=.
  have [s [e [sl sv]]] := sum_wP (b := (2 * niv)%Z) ltac:(lia) ks gs. rewrite /= e /=. eexists; split=> //. rewrite zlen_map. split=> // v hv'.
  rewrite (ferE (n := niv)) ?zlen_map // val_map; last lia. rewrite sv; last lia.
  rewrite /sd_sum. set S := \sum_(_ <- _) _. set S' := \sum_(_ <- _) _. have -> : S = S'; last by frng.
  apply: big_ext_in => j /In_arange hj. rewrite kv; try lia. congr (_ * _). have [w ew] := @zget_in_range _ wn j ltac:(lia).
  have [e1 e2] := gv j w v ew hv'. by rewrite /val2 e1 ew /= (ferE _ hgl).
Qed.
Lemma sde_shellP (chi : list F) ns nc : (0 <= nc)%Z -> (0 <= ns)%Z ->
  zlen chi = zlen wn -> (forall w, List.In w wn -> (nc + ns + Z.abs w <= ng)%Z) ->
  exists s, schwinger_dyson_shell beta u wn chi giw ns nc = Ok s /\ zlen s = (2 * ns)%Z /\
   (forall v, (- (nc + ns) <= v < - nc)%Z -> val s (nc + ns + v) = u / 2%:R * sd_sum beta wn (fun j => u * val chi j) giw v) /\
   (forall v, (nc <= v < nc + ns)%Z -> val s (ns - nc + v) = u / 2%:R * sd_sum beta wn (fun j => u * val chi j) giw v).
Proof.
  move=> hnc hns hc hg. rewrite /schwinger_dyson_shell.
  have [grid [-> [gs gv]]] := wn_slices_shell_spec _ _ hgl hns hnc hg. rewrite [bind _ _]/=.
  have [K [-> [ks kv]]] := kernel2d (fun c g => u * c * g) hc gs. rewrite [bind _ _]/=.
  have [sl sv] := sum_axis0P (b := (2 * ns)%Z) ltac:(lia) ks. eexists; split=> //. rewrite zlen_map. split=> //.
  split=> v hv; rewrite val_map ?sl; try lia; rewrite sv; try lia; rewrite /sd_sum;
    set S := \sum_(_ <- _) _; set S' := \sum_(_ <- _) _; (have -> : S = S'; last by frng);
    apply: big_ext_in => j /In_arange hj; rewrite kv; try lia; congr (_ * _); have [w ew] := @zget_in_range _ wn j ltac:(lia);
    [have [e1 e2] := proj1 (gv j w ew) v hv | have [e1 e2] := proj2 (gv j w ew) v hv]; by rewrite /val2 e1 ew /= (ferE _ hgl).
Qed.

(** the shell of the self-energy is what the core formula gives with the three-leg vertex equal to one there *)
Lemma sde_urangeP (vrg vrg' : list (list F)) (chi : list F) nc ns : (0 <= nc)%Z -> (0 <= ns)%Z -> ur * ur = u * u ->
  shape2 vrg (zlen wn) (2 * nc) -> shape2 vrg' (zlen wn) (2 * (nc + ns)) -> zlen chi = zlen wn ->
  (forall j v, (0 <= j < zlen wn)%Z -> (- (nc + ns) <= v < nc + ns)%Z ->
     val2 vrg' j (nc + ns + v) = if (- nc <=? v)%Z && (v <? nc)%Z then val2 vrg j (nc + v) else 1) ->
  (forall w, List.In w wn -> (nc + ns + Z.abs w <= ng)%Z) ->
  exists s, schwinger_dyson_core_urange beta u ur wn vrg chi giw ns = Ok s /\ schwinger_dyson_vrg beta ur wn vrg' chi giw = Ok s.
Proof.
  move=> hnc hns huu hv hv' hc hE hg.
  have hg' : forall w, List.In w wn -> (nc + Z.abs w <= ng)%Z by move=> w /hg; lia.
  have [s1 [e1 [l1 v1]]] := sde_vrgP hnc hv hc hg'.
  have [s2 [e2 [l2 v2]]] := sde_vrgP (niv := (nc + ns)%Z) ltac:(lia) hv' hc hg.
  exists s2. split=> //. rewrite /schwinger_dyson_core_urange e1 [bind _ _]/=.
  have core : forall v, (- nc <= v < nc)%Z -> fer s2 v = fer s1 v.
    move=> v h. rewrite v1 // v2; last lia. congr (_ * _). rewrite /sd_sum. congr (_ * _). apply: big_ext_in => j /In_arange hj.
    rewrite hE; try lia. have -> : (- nc <=? v)%Z = true by lia. by have -> : (v <? nc)%Z = true by lia.
  case: Z.eqb_spec => [h|hne].
  - subst ns. congr Ok. apply: val_ext; first by lia. move=> i hi. have := core (i - nc)%Z ltac:(lia).
    rewrite (ferE (n := nc)) ?l2; last lia. rewrite (ferE (n := nc)) //. by have -> : (nc + (i - nc) = i)%Z by lia.
  - rewrite (ncolsE hw hv) ?niv_half ?/niv_from_len ?half2.
    have [s3 [e3 [l3 [v3 v3']]]] := sde_shellP (chi := chi) hnc hns hc hg. rewrite /= e3 /=. congr Ok.
    rewrite /concatenate_core_asmypt l3 half2 /slice_to /slice_from.
    have shell : forall v, (- (nc + ns) <= v < nc + ns)%Z -> (v < - nc \/ nc <= v)%Z ->
        u / 2%:R * sd_sum beta wn (fun j => u * val chi j) giw v = fer s2 v.
      move=> v h1 h2'. have h2 : (- nc <=? v)%Z && (v <? nc)%Z = false by lia.
      rewrite v2 // /sd_sum !mulrA !mulr_sumr. apply: big_ext_in => j /In_arange hj.
      rewrite hE ?h2; try lia. rewrite mulr1 opprB addrCA subrr addr0.
      have -> : forall x, ur / 2%:R / beta * (ur * x * fer giw (v - odflt 0%Z (zget wn j))) = ur * ur / 2%:R / beta * (x * fer giw (v - odflt 0%Z (zget wn j))) by move=> x; frng.
      rewrite huu. frng.
    have lenl : zlen (slice s3 0 ns) = ns by rewrite zlen_slice_in; lia.
    have lenr : zlen (slice s3 ns (2 * ns)) = ns by rewrite zlen_slice_in; lia.
    apply: val_ext; first by rewrite !zlen_app l3 lenl lenr; lia.
    rewrite !zlen_app l3 lenl lenr => i hi. rewrite /val !zget_app lenl l1.
    have f2 : val s2 i = fer s2 (i - (nc + ns)) by rewrite (ferE (n := (nc + ns)%Z)) //; congr val; lia.
    case: Z.ltb_spec => h1.
    + rewrite zget_slice_in; try lia. have := v3 (i - (nc + ns))%Z ltac:(lia). rewrite /val. have -> : (nc + ns + (i - (nc + ns)) = 0 + i)%Z by lia.
      move=> ->. rewrite shell; try lia. by rewrite -f2. 
    + case: Z.ltb_spec => h2.
      * have := core (i - (nc + ns))%Z ltac:(lia). rewrite -f2 (ferE (n := nc)) // /val => ->. by have -> : (nc + (i - (nc + ns)) = i - ns)%Z by lia.
      * rewrite zget_slice_in; try lia. have := v3' (i - (nc + ns))%Z ltac:(lia). rewrite /val. have -> : (ns - nc + (i - (nc + ns)) = ns + (i - ns - 2 * nc))%Z by lia.
        move=> ->. rewrite shell; try lia. by rewrite -f2. 
Qed.

(** ** matrices as nested lists *)
Lemma Zord n z : (0 <= z < Z.of_nat n)%Z -> exists i : 'I_n, z = Z.of_nat i.
Proof. move=> h. have hl : (Z.to_nat z < n)%nat by apply/ltP; lia. exists (Ordinal hl) => /=. lia. Qed.
Lemma zlen_seq T (l : list T) : zlen l = Z.of_nat (size l). Proof. by []. Qed.
Lemma zget_seq T (l : list T) d i : (i < size l)%nat -> zget l (Z.of_nat i) = Some (seq.nth d l i).
Proof.
  move=> h. rewrite /zget. case: Z.ltb_spec => [|_]; first lia. rewrite Nat2Z.id. elim: l i h => [|a l IH] [|i] //= h. exact: IH.
Qed.
Lemma zlen_rv2l n (v : 'rV[F]_n) : zlen (rv2l v) = Z.of_nat n.
Proof. by rewrite zlen_seq size_map size_enum_ord. Qed.
Lemma zget_enum T n (f : 'I_n -> T) (i : 'I_n) : zget [seq f k | k <- enum 'I_n] (Z.of_nat i) = Some (f i).
Proof.
  rewrite (zget_seq (f i)); last by rewrite size_map size_enum_ord. congr Some. by rewrite (nth_map i) ?size_enum_ord // nth_ord_enum.
Qed.
Lemma zget_rv2l n (v : 'rV[F]_n) (i : 'I_n) : zget (rv2l v) (Z.of_nat i) = Some (v 0 i).
Proof. exact: zget_enum. Qed.
Lemma get2_mx2l m n (M : 'M[F]_(m, n)) (i : 'I_m) (j : 'I_n) : get2 (mx2l M) (Z.of_nat i) (Z.of_nat j) = Some (M i j).
Proof. by rewrite /get2 /mx2l zget_enum /= zget_enum. Qed.
Lemma shape2_mx2l m n (M : 'M[F]_(m, n)) : shape2 (mx2l M) (Z.of_nat m) (Z.of_nat n).
Proof.
  split; first by rewrite zlen_seq size_map size_enum_ord. move=> r hin. have [i [hi e]] := In_zget _ _ hin.
  rewrite zlen_seq size_map size_enum_ord in hi. have [k ek] := Zord hi. move: e. rewrite ek zget_enum => -[<-]. by rewrite zlen_seq size_map size_enum_ord.
Qed.
Lemma mx2l_ext m n (M : 'M[F]_(m, n)) l : shape2 l (Z.of_nat m) (Z.of_nat n) ->
  (forall (i : 'I_m) (j : 'I_n), get2 l (Z.of_nat i) (Z.of_nat j) = Some (M i j)) -> l = mx2l M.
Proof.
  move=> hs h. apply: shape2_ext hs (shape2_mx2l M) _ => i j /Zord [a ->] /Zord [b ->]. by rewrite h get2_mx2l.
Qed.
Lemma dblZ n : Z.of_nat n.*2 = (2 * Z.of_nat n)%Z. Proof. rewrite -addnn -plusE. lia. Qed.
Lemma addZ m n : Z.of_nat (m + n)%nat = (Z.of_nat m + Z.of_nat n)%Z. Proof. rewrite -plusE. lia. Qed.

(** the matrix versions of append_v_vp_shell and cut_v used in Model/LocalFourPoint.v are the list versions of
    Model/Matsubara.v *)
Lemma append_shell_mx2l nc ns (m : 'M[F]_(nc.*2)) c :
  append_v_vp_shell (mx2l m) c (Z.of_nat ns) (2 * Z.of_nat nc) = Ok (mx2l (append_v_vp_shell_mx ns m c)).
Proof.
  have hs := shape2_mx2l m. rewrite dblZ in hs.
  have [r [-> [rs rv]]] := append_shell_spec c hs ltac:(lia) (Zle_0_nat ns). congr Ok.
  apply: mx2l_ext; first by rewrite dblZ addZ.
  move=> i j. have hi := ltn_ord i. have hj := ltn_ord j. move/ltP: hi => hi. move/ltP: hj => hj.
  have dd := dblZ (nc + ns). rewrite addZ in dd.
  have := rv (Z.of_nat i - (Z.of_nat nc + Z.of_nat ns))%Z (Z.of_nat j - (Z.of_nat nc + Z.of_nat ns))%Z ltac:(lia) ltac:(lia).
  have -> : forall a b, (a + (b - a) = b)%Z by move=> a b; lia.
  have -> : forall a b, (a + (b - a) = b)%Z by move=> a b; lia. move=> ->. rewrite mxE.
  have ci : forall k : 'I_((nc + ns).*2), (- Z.of_nat nc <=? Z.of_nat k - (Z.of_nat nc + Z.of_nat ns))%Z && (Z.of_nat k - (Z.of_nat nc + Z.of_nat ns) <? Z.of_nat nc)%Z = isSome (core_idx k).
    move=> k. rewrite -in_coreP /in_core. have h2 := dblZ nc. have h4 := addZ ns nc.*2.
    case: leqP => /leP h1; case: leqP => /leP h3 /=; lia.
  rewrite !ci. case Ei: (core_idx i) => [a|] //=. case Ej: (core_idx j) => [b|] //=.
  rewrite (core_idx_some Ei) (core_idx_some Ej) /= -get2_mx2l !addZ. congr get2; lia.
Qed.
Lemma cut_v_mx2l nc ns (M : 'M[F]_((nc + ns).*2)) : cut_v_2 (mx2l M) (Z.of_nat nc) = mx2l (@cut_v_mx F nc ns M).
Proof.
  have hs := shape2_mx2l M. rewrite dblZ addZ in hs.
  have [rs rv] := cut_v_2_spec (c := Z.of_nat nc) hs ltac:(lia). apply: mx2l_ext; first by rewrite dblZ.
  move=> i j. have hi := ltn_ord i. have hj := ltn_ord j. move/ltP: hi => hi. move/ltP: hj => hj. have dd := dblZ nc.
  have := rv (Z.of_nat i - Z.of_nat nc)%Z (Z.of_nat j - Z.of_nat nc)%Z ltac:(lia) ltac:(lia).
  have -> : forall a b, (a + (b - a) = b)%Z by move=> a b; lia.
  have -> : forall a b, (a + (b - a) = b)%Z by move=> a b; lia. move=> ->. rewrite mxE -get2_mx2l /= !addZ. congr get2; lia.
Qed.

(** ** Schwinger-Dyson from the full vertex *)
Lemma lsum_map2 (x y : list F) (f : F -> F -> F) n : zlen x = n -> zlen y = n ->
  lsum (map2 f x y) = \sum_(k <- range n) f (val x k) (val y k).
Proof.
  move=> hx hy. rewrite lsum_val map2_len; last by rewrite hx hy. rewrite hx. apply: big_ext_in => k /In_arange hk. rewrite {1}/val zget_map2.
  rewrite !zget_val; try lia. by [].
Qed.
Lemma last_dimE (f : list (list (list F))) a b c : (0 < a)%Z -> (0 < b)%Z -> shape3 f a b c -> last_dim f = c.
Proof.
  case: f => [|r f] ha hb [h1 h2]; first by rewrite zlen_nil in h1; lia.
  have := h2 r (or_introl erefl). case: r h1 h2 =>  [|x r] _ _ [h3 h4]; first by rewrite zlen_nil in h3; lia. exact: h4 (or_introl erefl).
Qed.
Lemma sde_fP (f : list (list (list F))) (x0 : list (list F)) niv : (0 < niv)%Z ->
  shape3 f (zlen wn) (2 * niv) (2 * niv) -> shape2 x0 (zlen wn) (2 * niv) -> (forall w, List.In w wn -> (niv + Z.abs w <= ng)%Z) ->
  exists s, schwinger_dyson_f beta u wn f x0 giw = Ok s /\ zlen s = (2 * niv)%Z /\
   forall v, (- niv <= v < niv)%Z -> fer s v = u * sd_sum beta wn (fun j =>
     \sum_(k <- range (2 * niv)) odflt 0 (get3 f j (niv + v) k) * val2 x0 j k) giw v.
Proof.
  move=> hn hf hx hg. have [f1 f2] := hf. have [x1 x2] := hx. rewrite /schwinger_dyson_f /niv3 (last_dimE hw _ hf) ?niv_half; last lia.
  set rowf := fun x0 row => let! t := np_map2 (fun a b => 1 / beta * u * a * b) row x0 in Ok (lsum t).
  have hrow : forall (fw : list (list F)) (x : list F), shape2 fw (2 * niv) (2 * niv) -> zlen x = (2 * niv)%Z ->
      exists q, sequence (List.map (rowf x) fw) = Ok q /\ zlen q = (2 * niv)%Z /\
        forall i, (0 <= i < 2 * niv)%Z -> val q i = 1 / beta * u * \sum_(k <- range (2 * niv)) val2 fw i k * val x k.
    move=> fw x [w1 w2] lx. rewrite sequence_mapM. rewrite (mapM_total _ (fun row => lsum (map2 (fun a b => 1 / beta * u * a * b) row x))).
    - eexists; split=> //. rewrite zlen_map. split=> // i hi. have [row er] := @zget_in_range _ fw i ltac:(lia).
      rewrite {1}/val zget_map er /= (lsum_map2 _ (w2 _ (zget_In _ _ er)) lx) mulr_sumr. apply: big_ext_in => k /In_arange hk.
      rewrite /val2 /get2 er /=. rewrite -/(val row k). frng.
    - move=> row hin. by rewrite /rowf /np_map2 (w2 _ hin) lx Z.eqb_refl.
  rewrite /np_map2 f1 x1 Z.eqb_refl [bind _ _]/=.
  have efx : zlen f = zlen x0 by rewrite f1 x1.
  have [q [eq [ql qv]]] := sequence_map2 (f := fun fw x0 => sequence (List.map (rowf x0) fw)) efx f2 x2 (fun fw x h1 h2 => let: ex_intro q (conj e _) := hrow fw x h1 h2 in ex_intro _ q e).
  rewrite eq /=. have [grid [-> [gs gv]]] := wn_slices_gen_spec _ _ hgl (Z.lt_le_incl _ _ hn) hg. rewrite [bind _ _]/=.
  have qq : forall j, (0 <= j < zlen wn)%Z -> exists fw x r, [/\ zget f j = Some fw, zget x0 j = Some x, zget q j = Some r, zlen r = (2 * niv)%Z &
      forall i, (0 <= i < 2 * niv)%Z -> val r i = 1 / beta * u * \sum_(k <- range (2 * niv)) val2 fw i k * val x k].
    move=> j hj. have [fw e1] := @zget_in_range _ f j ltac:(lia). have [x e2] := @zget_in_range _ x0 j ltac:(lia).
    have [r [er e]] := qv j fw x e1 e2. have [r' [e' [lr vr]]] := hrow fw x (f2 _ (zget_In _ _ e1)) (x2 _ (zget_In _ _ e2)).
    rewrite e in e'. case: e' => ?; subst r'. by exists fw, x, r.
  have qs : shape2 q (zlen wn) (2 * niv).
    apply: shape2_of_rows; first by rewrite ql f1. move=> i row e. have hi := zget_some_range _ _ e. rewrite ql f1 in hi. have [fw [x [r [_ _ er lr _]]]] := qq i hi.
    by rewrite e in er; case: er => ->.
  have [s [e [sl sv]]] := sum_wP (b := (2 * niv)%Z) ltac:(lia) qs gs. rewrite e. exists s; split=> //; split=> // v hv.
  rewrite (ferE _ sl) sv; last lia. rewrite /sd_sum mulrA mulr_sumr. apply: big_ext_in => j /In_arange hj.
  have [fw [x [r [e1 e2 er lr vr]]]] := qq j hj. rewrite {1}/val2 /get2 er /= -/(val r (niv + v)) vr; last lia.
  have [w ew] := @zget_in_range _ wn j hj. have [g1 g2] := gv j w v ew hv. rewrite /val2 g1 ew /= (ferE _ hgl) /get3 e1 /= /get2 e2 /=.
  rewrite -/(val giw (ng + (v - w))). move: (val giw _) => gg. set S1 := \sum_(_ <- _) _. frng.
Qed.

Lemma zget_mkseq T (g : nat -> T) m j : (j < m)%nat -> zget (mkseq g m) (Z.of_nat j) = Some (g j).
Proof. move=> h. rewrite (zget_seq (g 0%nat)) ?size_mkseq //. by rewrite nth_mkseq. Qed.
Lemma zlen_mkseq T (g : nat -> T) m : zlen (mkseq g m) = Z.of_nat m.
Proof. by rewrite zlen_seq size_mkseq. Qed.
Lemma shape2_rows m n (g : nat -> 'rV[F]_n) : shape2 (mkseq (fun j => rv2l (g j)) m) (Z.of_nat m) (Z.of_nat n).
Proof.
  apply: shape2_of_rows; first exact: zlen_mkseq. move=> i row e. have := zget_some_range _ _ e. rewrite zlen_mkseq => /Zord [j hj].
  move: e. rewrite hj zget_mkseq // => -[<-]. exact: zlen_rv2l.
Qed.
Lemma val2_rows m n (g : nat -> 'rV[F]_n) j (i : 'I_n) : (j < m)%nat -> val2 (mkseq (fun j => rv2l (g j)) m) (Z.of_nat j) (Z.of_nat i) = g j 0 i.
Proof. move=> h. by rewrite /val2 /get2 zget_mkseq //= zget_rv2l. Qed.
Lemma shape3_mats m n k (g : nat -> 'M[F]_(n, k)) : shape3 (mkseq (fun j => mx2l (g j)) m) (Z.of_nat m) (Z.of_nat n) (Z.of_nat k).
Proof.
  split; first exact: zlen_mkseq. move=> r hin. have [i [hi e]] := In_zget _ _ hin. rewrite zlen_mkseq in hi. have [j hj] := Zord hi.
  move: e. rewrite hj zget_mkseq // => -[<-]. exact: shape2_mx2l.
Qed.
Lemma get3_mats m n k (g : nat -> 'M[F]_(n, k)) j (a : 'I_n) (b : 'I_k) : (j < m)%nat ->
  get3 (mkseq (fun j => mx2l (g j)) m) (Z.of_nat j) (Z.of_nat a) (Z.of_nat b) = Some (g j a b).
Proof. move=> h. by rewrite /get3 zget_mkseq //= get2_mx2l. Qed.
Lemma sum_range_ord n (f : Z -> F) : \sum_(k <- range (Z.of_nat n)) f k = \sum_(k < n) f (Z.of_nat k).
Proof.
  rewrite /range /arange big_lmap Z.sub_0_r Nat2Z.id. rewrite -(big_mkord xpredT (fun k => f (Z.of_nat k))) /index_iota subn0.
  have -> : forall a b, List.seq a b = seq.iota a b by move=> a b; elim: b a => //= b IH a; rewrite IH.
  by apply: big_ext_in => x _.
Qed.
End P.

Section Bridge.
Variable F : fieldType.
Add Field Fg : (@Kft F).
Variables (nc ns : nat) (beta u ur sign : F) (wn : list Z) (giw : list F) (ng : Z).
Variables (gam : nat -> 'M[F]_(nc.*2)) (chi0 : nat -> 'rV[F]_((nc + ns).*2)) (G chi f : nat -> 'M[F]_((nc + ns).*2))
  (chi0c vrg : nat -> 'rV[F]_(nc.*2)) (ph c0c c0f : nat -> F).
Let nw := size wn.
Hypotheses (hb : beta != 0) (h2 : (2%:R : F) != 0) (hw : (0 < nw)%nat) (hgl : zlen giw = (2 * ng)%Z)
  (hu : ur = sign * u) (hs : sign * sign = 1) (hc : (0 < nc)%nat)
  (hg : forall w, List.In w wn -> (Z.of_nat nc + Z.of_nat ns + Z.abs w <= ng)%Z).
Hypothesis H : forall j, (j < nw)%nat ->
  [/\ nz (chi0 j), u_padded (gam j) (ur / beta ^+ 2) (G j), bethe_salpeter (chi0 j) (G j) (chi j) & core_part (chi0 j) (chi0c j)] /\
  [/\ phys beta (chi j) != 0, full_vertex (chi0 j) (f j) (chi j),
      c0c j = (beta ^+ 2)^-1 * \sum_i chi0c j 0 i, c0f j = (beta ^+ 2)^-1 * \sum_I chi0 j 0 I &
      get_vrg_and_chir_urange_w beta ur (gam j) (c0c j) (c0f j) (chi0c j) true = Ok (vrg j, ph j)].
Lemma vrg_facts j : (j < nw)%nat -> ph j = phys beta (chi j) /\ three_leg beta ur (chi0 j) (chi j) (vrg_ext (vrg j)).
Proof.
  move=> /H [[n0 hG hB hcp] [hp _ -> -> hv]]. move: hv. rewrite /get_vrg_and_chir_urange_w.
  case E: (gchi_aux_core_from_gammar_w _ _ _ _) => [X|] //= [<- <-]. split.
  - exact: (chi_phys_urangeP hb n0 hG hB hcp E hp).
  - exact: (vrg_three_leg hb n0 hG hB hcp E true).
Qed.
Lemma bridge : exists s t,
  schwinger_dyson_core_urange beta u ur wn (mkseq (fun j => rv2l (vrg j)) nw) (mkseq ph nw) giw (Z.of_nat ns) = Ok s /\
  schwinger_dyson_f beta u wn (mkseq (fun j => mx2l (f j)) nw) (mkseq (fun j => rv2l (chi0 j)) nw) giw = Ok t /\
  s = List.map (fun x => sign / 2%:R * x) t.
Proof.
  have hzw : zlen wn = Z.of_nat nw by [].
  have hw' : (0 < zlen wn)%Z by rewrite hzw; move/ltP: hw; lia.
  have huu : ur * ur = u * u.
    have -> : ur * ur = (sign * sign) * (u * u) by rewrite hu; to_K F; ring. by rewrite hs mul1r.
  set vx := fun j => (\row_I vrg_ext (vrg j) I : 'rV[F]_((nc + ns).*2)).
  have [|||||||s [e1 e2]] := @sde_urangeP F beta u ur wn giw ng hw' hgl (mkseq (fun j => rv2l (vrg j)) nw) (mkseq (fun j => rv2l (vx j)) nw) (mkseq ph nw) (Z.of_nat nc) (Z.of_nat ns) _ _ huu.
  - exact: Zle_0_nat.
  - exact: Zle_0_nat.
  - rewrite hzw -dblZ. exact: shape2_rows.
  - rewrite hzw -addZ -dblZ. exact: shape2_rows.
  - by rewrite zlen_mkseq hzw.
  - move=> j v. rewrite hzw => /Zord [k ->] hv.
    have [|I hI] := @Zord ((nc + ns).*2) (Z.of_nat nc + Z.of_nat ns + v); first by rewrite dblZ addZ; lia.
    rewrite hI val2_rows // mxE /vrg_ext. case E: (core_idx I) => [i|].
    + have hv' : v = (Z.of_nat i - Z.of_nat nc)%Z by move: hI; rewrite (core_idx_some E) /= addZ; lia.
      have hi := ltn_ord i. move/ltP: hi => hi. have hd := dblZ nc.
      have -> : (- Z.of_nat nc <=? v)%Z && (v <? Z.of_nat nc)%Z = true by lia.
      have -> : (Z.of_nat nc + v = Z.of_nat i)%Z by lia. by rewrite val2_rows.
    + have -> // : (- Z.of_nat nc <=? v)%Z && (v <? Z.of_nat nc)%Z = false.
      have := in_coreP I. rewrite E /in_core /= => /negbT. rewrite negb_and -!ltnNge ltnS => /orP hh. have hd := dblZ nc. have hd2 := addZ ns nc.*2.
      case: hh => /leP hh; lia.
  - exact: hg.
  have hcn : (0 < Z.of_nat nc + Z.of_nat ns)%Z by move/ltP: hc; lia.
  have [|||t [et [lt vt]]] := @sde_fP F beta u ur wn giw ng hw' hgl (mkseq (fun j => mx2l (f j)) nw) (mkseq (fun j => rv2l (chi0 j)) nw) (Z.of_nat nc + Z.of_nat ns)%Z hcn.
  - rewrite hzw -addZ -dblZ. exact: shape3_mats.
  - rewrite hzw -addZ -dblZ. exact: shape2_rows.
  - exact: hg.
  exists s, t; split=> //; split=> //.
  have [|||s' [e2' [ls vs]]] := @sde_vrgP F beta ur wn giw ng hw' hgl (mkseq (fun j => rv2l (vx j)) nw) (mkseq ph nw) (Z.of_nat nc + Z.of_nat ns)%Z (Z.lt_le_incl _ _ hcn).
  - rewrite hzw -addZ -dblZ. exact: shape2_rows.
  - by rewrite zlen_mkseq hzw.
  - exact: hg.
  rewrite e2 in e2'. case: e2' => ?; subst s'.
  apply: val_ext; first by rewrite zlen_map ls lt. move=> i. rewrite ls => hi. rewrite val_map; last by rewrite lt.
  set N := (Z.of_nat nc + Z.of_nat ns)%Z in hi ls lt vs vt *.
  have := vs (i - N)%Z ltac:(lia). rewrite (ferE _ ls). have -> : (N + (i - N) = i)%Z by lia. move=> ->.
  have := vt (i - N)%Z ltac:(lia). rewrite (ferE _ lt). have -> : (N + (i - N) = i)%Z by lia. move=> ->.
  rewrite hu /sd_sum. set S := \sum_(_ <- _) _. set S' := \sum_(_ <- _) _. have -> : S = S'; last by to_K F; field; of_K; split; apply/eqP.
  rewrite /S /S'. apply: big_ext_in => j /In_arange. rewrite hzw => hj. have [k ek] := Zord hj. subst j. congr (_ * _).
  have [|I hI] := @Zord ((nc + ns).*2) i; first by rewrite dblZ addZ. subst i.
  have [[n0 hG hB hcp] [hp hF _ _ _]] := H (ltn_ord k). have [e3 e4] := vrg_facts (ltn_ord k).
  rewrite val2_rows // mxE. rewrite {1}/val zget_mkseq // [odflt _ (Some _)]/= e3. rewrite /N -addZ -dblZ sum_range_ord.
  under eq_bigr do rewrite get3_mats // val2_rows //=.
  have := e4 I. under eq_bigr do rewrite hF. rewrite sumrB. have -> : \sum_i (if I == i then chi0 k 0 I else 0) = chi0 k 0 I.
    rewrite (bigD1 I) //= eqxx big1 ?addr0 // => x. by rewrite eq_sym => /negbTE ->.
  under [X in _ - X]eq_bigr do rewrite -mulrA. rewrite -mulr_sumr. set T := \sum_(_ < _) _. rewrite -hu.
  set g := vrg_ext _ _. set q := phys _ _ => e5.
  have hx := n0 I. apply: (mulfI hx). by rewrite mulrBr mulr1 (mulrC _ g) mulrA -e5 opprB addrCA subrr addr0.
Qed.
End Bridge.
