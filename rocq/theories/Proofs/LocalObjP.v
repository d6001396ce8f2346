(** Object level (all stored frequencies) versions of C21/C22, and the remaining one-frequency identities. *)
From mathcomp Require Import all_ssreflect all_algebra.
From Coq Require Import String.
From Verif Require Import Base.PyBase Base.PyFacts Base.FieldTac Spec.BseSpec Model.LocalFourPoint Proofs.LocalFourPointP.
Set Implicit Arguments. Unset Strict Implicit. Unset Printing Implicit Defensive.
Import GRing.Theory.
Local Open Scope ring_scope.
Section P.
Variable F : fieldType.
Add Field Ff : (@Kft F).
Ltac frng := to_K F; ring.
Ltac ffld := to_K F; field; of_K.

Lemma mapM_intro A B (f : A -> res B) (l : list A) (r : list B) : zlen l = zlen r ->
  (forall i x y, zget l i = Some x -> zget r i = Some y -> f x = Ok y) -> mapM f l = Ok r.
Proof.
  elim: l r => [|a l IH] [|b r] hl h //=.
  - rewrite (h 0%Z a b) ?zget_cons_0 //= (IH r) //; first by rewrite !zlen_cons in hl; lia.
    move=> i x y ex ey. have hi := zget_some_range _ _ ex. apply: (h (i + 1)%Z); rewrite zget_cons; case: Z.eqb_spec; try lia; move=> _;
      by have -> : (i + 1 - 1 = i)%Z by lia.
Qed.
Lemma per_wn_inv A B C (wn : list Z) (f : A -> B -> res C) la lb r : per_wn wn f la lb = Ok r -> zlen r = zlen wn /\
  forall i, (0 <= i < zlen wn)%Z -> exists a b c, [/\ zget la i = Some a, zget lb i = Some b, zget r i = Some c & f a b = Ok c].
Proof.
  move=> h. have [hl hg] := mapM_zget _ _ h. have hn := zlen_nonneg wn.
  have hr : zlen (range (zlen wn)) = zlen wn by rewrite /range zlen_arange; lia.
  rewrite hr in hl. split=> // i hi. have [|c [ec]] := hg i i; first by rewrite /range zget_arange //; lia.
  rewrite /py_get. have -> : (i <? 0)%Z = false by lia. case: (zget la i) => [a|] //=. case: (zget lb i) => [b|] //= e. by exists a, b, c.
Qed.
Lemma per_wn_intro A B C (wn : list Z) (f : A -> B -> res C) la lb r : zlen r = zlen wn ->
  (forall i, (0 <= i < zlen wn)%Z -> exists a b c, [/\ zget la i = Some a, zget lb i = Some b, zget r i = Some c & f a b = Ok c]) -> per_wn wn f la lb = Ok r.
Proof.
  move=> hl h. have hn := zlen_nonneg wn. have hr : zlen (range (zlen wn)) = zlen wn by rewrite /range zlen_arange; lia.
  apply: mapM_intro; first by rewrite hr. move=> i x y ex ey. have hi := zget_some_range _ _ ex. rewrite hr in hi.
  move: ex. rewrite /range zget_arange; last lia. move=> -[<-]. have [a [b [c [ea eb ec ef]]]] := h i hi. rewrite ec in ey. case: ey => <-.
  rewrite /py_get. have -> : (0 + i <? 0)%Z = false by lia. by rewrite ea /= eb.
Qed.

Lemma roundtrip_gam n (g h : lnp F 'M[F]_n) chi0 : zlen (l_mat g) = zlen (l_wn g) -> (forall v, List.In v chi0 -> nz v) ->
  gamob2_from_gchir g chi0 = Ok h -> gchir_from_gamob2 h chi0 = Ok g.
Proof.
  move=> hl hz. rewrite /gamob2_from_gchir /gchir_from_gamob2. case E: (per_wn _ _ _ _) => [m|] //= [<-] /=. have [lm hm] := per_wn_inv E.
  have -> : per_wn (l_wn g) (@gchir_from_gamob2_wn F n) m chi0 = Ok (l_mat g); last by case: g {hl E lm hm}.
  apply: per_wn_intro => // i hi. have [a [b [c [ea eb ec ef]]]] := hm i hi. exists c, b, a. split=> //.
  have hb := hz b (zget_In _ _ eb). apply/(gchir_from_gamob2_bse _ _ hb). by apply/(gamob2_from_gchir_bse _ _ hb).
Qed.
Lemma roundtrip_chi n (g h : lnp F 'M[F]_n) chi0 : zlen (l_mat g) = zlen (l_wn g) -> (forall v, List.In v chi0 -> nz v) ->
  gchir_from_gamob2 g chi0 = Ok h -> gamob2_from_gchir h chi0 = Ok g.
Proof.
  move=> hl hz. rewrite /gamob2_from_gchir /gchir_from_gamob2. case E: (per_wn _ _ _ _) => [m|] //= [<-] /=. have [lm hm] := per_wn_inv E.
  have -> : per_wn (l_wn g) (@gamob2_from_gchir_wn F n) m chi0 = Ok (l_mat g); last by case: g {hl E lm hm}.
  apply: per_wn_intro => // i hi. have [a [b [c [ea eb ec ef]]]] := hm i hi. exists c, b, a. split=> //.
  have hb := hz b (zget_In _ _ eb). apply/(gamob2_from_gchir_bse _ _ hb). by apply/(gchir_from_gamob2_bse _ _ hb).
Qed.
Lemma np_map2_inv A B C (f : A -> B -> C) l m r : np_map2 f l m = Ok r -> zlen l = zlen m /\ zlen r = zlen l /\
  forall i, zget r i = match zget l i, zget m i with Some a, Some b => Some (f a b) | _, _ => None end.
Proof.
  rewrite /np_map2. case: Z.eqb_spec => // e [<-]. split=> //. split; first by rewrite zlen_map2; lia. move=> i. exact: zget_map2.
Qed.
Lemma map2_back A B (f g : A -> B -> A) l m : zlen l = zlen m -> (forall a b, List.In b m -> g (f a b) b = a) -> map2 g (map2 f l m) m = l.
Proof.
  move=> hl h. apply: zget_ext; first by rewrite !zlen_map2; lia. move=> i hi. rewrite !zget_map2. rewrite !zlen_map2 in hi.
  have [a ea] := @zget_in_range _ l i ltac:(lia). have [b eb] := @zget_in_range _ m i ltac:(lia). rewrite ea eb h //. exact: zget_In eb.
Qed.
Lemma roundtrip_fob2 n (g : lnp F 'M[F]_n) chi0 : zlen (l_mat g) = zlen chi0 -> (forall v, List.In v chi0 -> nz v) ->
  (exists h, fob2_from_gchir g chi0 = Ok h /\ gchir_from_fob2 h chi0 = Ok g) /\
  (exists h, gchir_from_fob2 g chi0 = Ok h /\ fob2_from_gchir h chi0 = Ok g).
Proof.
  move=> hl hz. split.
  - exists (with_mat g (map2 (@fob2_from_gchir_w F n) (l_mat g) chi0)). rewrite /fob2_from_gchir /gchir_from_fob2 /np_map2 hl Z.eqb_refl /=; split=> //.
    rewrite zlen_map2 hl Z.min_id Z.eqb_refl /= map2_back //; first by case: g {hl}. move=> a b hb. have h := hz b hb. symmetry. apply/full_vertexP. by apply/(fob2_from_gchir_vertex _ _ h).
  - exists (with_mat g (map2 (@gchir_from_fob2_w F n) (l_mat g) chi0)). rewrite /fob2_from_gchir /gchir_from_fob2 /np_map2 hl Z.eqb_refl /=; split=> //.
    rewrite zlen_map2 hl Z.min_id Z.eqb_refl /= map2_back //; first by case: g {hl}. move=> a b hb. have h := hz b hb. apply/(fob2_from_gchir_vertex _ _ h). by apply/full_vertexP.
Qed.

(** the density-channel vertex of the double-counting correction is beta^2 times the reconstructed vertex *)
Lemma f_dc_fob2 n beta ur (vrg : 'rV[F]_n) X x chi0 : beta != 0 ->
  get_f_dc_asympt_w beta ur vrg X x chi0 = beta ^+ 2 *: fob2_from_vrg_and_chir_w beta ur X vrg vrg x chi0.
Proof.
  move=> hb. apply/matrixP => i j. rewrite !mxE. by rewrite mulrA div1r divff ?mul1r // expf_neq0.
Qed.
Lemma fob2E n beta ur (X : 'M[F]_n) v w x (chi0 : 'rV[F]_n) i j : fob2_from_vrg_and_chir_w beta ur X v w x chi0 i j =
  1 / beta ^+ 2 * (beta ^+ 2 * 1 / chi0 0 i * ((1%:M : 'M[F]_n) i j - X i j * 1 / chi0 0 j) + ur * (1 - ur * x) * v 0 i * w 0 j).
Proof. by rewrite /fob2_from_vrg_and_chir_w mxsclE mxaddE; congr (_ * (_ + _)); rewrite mxE. Qed.
(** C55 *)
Lemma aux_asympt_shift n (beta u ur : F) (X : 'M[F]_n) (chi0 : 'rV[F]_n) x1 x2 : beta != 0 -> nz chi0 -> 1 - ur * x2 != 0 -> forall i j,
  let kap := (1 - ur * x1) ^+ 2 / (1 - ur * x2) - (1 - ur * x1) in
  let row := \sum_k X i k in let col := \sum_k X k j in
  fob2_from_vrg_and_chir_w beta ur (gchi_aux_asympt_w u ur X x1 x2) (vrg_from_gchi_aux_asympt_w ur X chi0 x1 x2 true) (vrg_from_gchi_aux_asympt_w ur X chi0 x1 x2 false) x2 chi0 i j =
  fob2_from_vrg_and_chir_w beta ur X (vrg_from_gchi_aux_w X chi0 true) (vrg_from_gchi_aux_w X chi0 false) x1 chi0 i j
   + (ur / beta ^+ 2 - u) * kap * (row * col) / (chi0 0 i * chi0 0 j).
Proof.
  move=> hb hz hd i j kap row col. have hi := hz i. have hj := hz j.
  have e : (X *m const_mx u *m X) i j = u * row * col.
    rewrite const_ones -scalemxAr -scalemxAl mxsclE mulmxA -(mulmxA (X *m ones F n)) mxmulE big_ord1 rowsumE colsumE -/row -/col. frng.
  rewrite !fob2E /gchi_aux_asympt_w mxaddE mxsclE e /vrg_from_gchi_aux_asympt_w /vrg_from_gchi_aux_w.
  set v1 := (\row_k _) 0 i. have -> : v1 = 1 / chi0 0 i * row * (1 - ur * x1) / (1 - ur * x2) by rewrite /v1 mxE mxE.
  set v2 := (\row_k _) 0 j. have -> : v2 = 1 / chi0 0 j * col * (1 - ur * x1) / (1 - ur * x2) by rewrite /v2 mxE mxE.
  set v3 := (\row_k _) 0 i. have -> : v3 = 1 / chi0 0 i * row by rewrite /v3 mxE mxE.
  set v4 := (\row_k _) 0 j. have -> : v4 = 1 / chi0 0 j * col by rewrite /v4 mxE mxE.
  rewrite /kap. move: (_%:M i j : F) (X i j) row col e (chi0 0 i) (chi0 0 j) hi hj => d xx r cc _ y z hy hz'.
  by ffld; repeat split; apply/eqP.
Qed.
Lemma aux_asympt_consistent n (beta ur : F) (X : 'M[F]_n) (chi0 : 'rV[F]_n) x1 x2 : beta != 0 -> nz chi0 -> 1 - ur * x2 != 0 ->
  fob2_from_vrg_and_chir_w beta ur (gchi_aux_asympt_w (ur / beta ^+ 2) ur X x1 x2) (vrg_from_gchi_aux_asympt_w ur X chi0 x1 x2 true) (vrg_from_gchi_aux_asympt_w ur X chi0 x1 x2 false) x2 chi0 =
  fob2_from_vrg_and_chir_w beta ur X (vrg_from_gchi_aux_w X chi0 true) (vrg_from_gchi_aux_w X chi0 false) x1 chi0.
Proof. move=> hb hz hd. apply/matrixP => i j. by rewrite aux_asympt_shift // subrr !mul0r addr0. Qed.
End P.
