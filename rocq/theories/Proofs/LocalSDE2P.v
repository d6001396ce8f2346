(** The complete local Schwinger-Dyson equation and the vertex from the susceptibilities. *)
From mathcomp Require Import all_ssreflect all_algebra.
From Coq Require Import String.
From Verif Require Import Base.PyBase Base.PyFacts Base.Arr Base.FieldTac Spec.BseSpec Spec.SdeSpec Model.Matsubara Model.LocalFourPoint Model.LocalSDE
  Proofs.MatsubaraP Proofs.LocalFourPointP Proofs.LocalSDEP Proofs.LocalG2P.
Set Implicit Arguments. Unset Strict Implicit. Unset Printing Implicit Defensive.
Import GRing.Theory.
Local Open Scope ring_scope.
Section P.
Variable F : fieldType.
Add Field Ff : (@Kft F).
Ltac frng := to_K F; ring.
Lemma eq_big_In (T : Type) (l : list T) (f g : T -> F) : (forall x, List.In x l -> f x = g x) -> \sum_(x <- l) f x = \sum_(x <- l) g x.
Proof. elim: l => [|a l IH] h; first by rewrite !big_nil. rewrite !big_cons IH ?h //; [by left|]. move=> x hx. apply: h. by right. Qed.
Lemma grid2 (nw n : Z) (f : Z -> Z -> F) : (0 <= nw)%Z -> (0 <= n)%Z -> let m := List.map (fun j => List.map (f j) (range n)) (range nw) in
  shape2 m nw n /\ forall i j, (0 <= i < nw)%Z -> (0 <= j < n)%Z -> val2 m i j = f i j.
Proof.
  move=> h1 h2 m. split.
  - split; [rewrite /m zlen_map /range zlen_arange; lia|]. rewrite /m. move=> r /List.in_map_iff [j [<- _]]. rewrite zlen_map /range zlen_arange; lia.
  - move=> i j hi hj. rewrite /val2 /get2 /m zget_map /range zget_arange; [|lia]. rewrite /= zget_map zget_arange; [|lia]. by [].
Qed.
Lemma urange_value (beta u ur : F) wn giw ng vrg chi nc ns : (0 < zlen wn)%Z -> zlen giw = (2 * ng)%Z -> (0 <= nc)%Z -> (0 <= ns)%Z -> ur * ur = u * u ->
  shape2 vrg (zlen wn) (2 * nc) -> zlen chi = zlen wn -> (forall w, List.In w wn -> (nc + ns + Z.abs w <= ng)%Z) ->
  exists s, schwinger_dyson_core_urange beta u ur wn vrg chi giw ns = Ok s /\ zlen s = (2 * (nc + ns))%Z /\
   forall v, (- (nc + ns) <= v < nc + ns)%Z -> fer s v = ur / 2%:R * sd_sum beta wn (fun j => 1 - (1 - ur * val chi j) * vrg_cont vrg nc j v) giw v.
Proof.
  move=> hw hg hc hs hu hv hchi hwn.
  have [] := @grid2 (zlen wn) (2 * (nc + ns)) (fun j i => vrg_cont vrg nc j (i - (nc + ns))); [lia|lia|]. set vrg' := List.map _ _. move=> sv vv.
  have vv' : forall j v, (0 <= j < zlen wn)%Z -> (- (nc + ns) <= v < nc + ns)%Z -> val2 vrg' j (nc + ns + v) = vrg_cont vrg nc j v.
  { move=> j v hj hv'. rewrite vv; [|lia|lia]. congr vrg_cont. lia. }
  have [s [e1 e2]] := @sde_urangeP F beta u ur wn giw ng hw hg vrg vrg' chi nc ns hc hs hu hv sv hchi vv' hwn.
  have [|s' [e3 [l3 v3]]] := @sde_vrgP F beta ur wn giw ng hw hg vrg' chi (nc + ns)%Z _ sv hchi hwn; [lia|].
  rewrite e2 in e3. have E : s = s' by case: e3. subst s'. exists s. split=> //. split=> // v hv'. rewrite v3 //. congr (_ * _). rewrite /sd_sum. congr (_ * _).
  apply: eq_big_In => j. rewrite /range => /In_arange hj. by rewrite vv'; [|lia|lia].
Qed.
Lemma sde_full_value (beta u : F) wn giw ng vrgd vrgm chid chim nc ns (n : F) : (0 < zlen wn)%Z -> zlen giw = (2 * ng)%Z -> (0 <= nc)%Z -> (0 <= ns)%Z ->
  shape2 vrgd (zlen wn) (2 * nc) -> shape2 vrgm (zlen wn) (2 * nc) -> zlen chid = zlen wn -> zlen chim = zlen wn -> (forall w, List.In w wn -> (nc + ns + Z.abs w <= ng)%Z) ->
  exists s, schwinger_dyson_full beta u wn vrgd vrgm chid chim giw n ns = Ok s /\ zlen s = (2 * (nc + ns))%Z /\
   forall v, (- (nc + ns) <= v < nc + ns)%Z -> fer s v = u * n / 2%:R
     + u / 2%:R * sd_sum beta wn (fun j => 1 - (1 - u * val chid j) * vrg_cont vrgd nc j v) giw v
     - u / 2%:R * sd_sum beta wn (fun j => 1 - (1 + u * val chim j) * vrg_cont vrgm nc j v) giw v.
Proof.
  move=> hw hg hc hs hvd hvm hcd hcm hwn. rewrite /schwinger_dyson_full -[get_ur u "dens"]/(Ok (u * 1)) -[get_ur u "magn"]/(Ok (u * - 1)) [bind _ _]/= [bind _ _]/=.
  have [|sd [ed [ld vd]]] := @urange_value beta u (u * 1) wn giw ng vrgd chid nc ns hw hg hc hs _ hvd hcd hwn; first frng.
  have [|sm [em [lm vm]]] := @urange_value beta u (u * - 1) wn giw ng vrgm chim nc ns hw hg hc hs _ hvm hcm hwn; first frng.
  rewrite ed [bind _ _]/= em [bind _ _]/= /np_map2 zlen_map ld lm Z.eqb_refl. eexists. split; [reflexivity|].
  have L : zlen (map2 (fun d m => d + m) (List.map (fun d => get_smom0 u n + d) sd) sm) = (2 * (nc + ns))%Z by rewrite zlen_map2 zlen_map ld lm Z.min_id.
  split=> // v hv. rewrite /fer L. have -> : (2 * (nc + ns) / 2 = nc + ns)%Z by rewrite Z.mul_comm Z.div_mul.
  have G : forall s : list F, zlen s = (2 * (nc + ns))%Z -> fer s v = val s (nc + ns + v) by move=> s hs'; rewrite /fer hs'; congr val; rewrite Z.mul_comm Z.div_mul.
  have := vd v hv. have := vm v hv. rewrite !G //. rewrite /val. 
  have [a Ea] := @zget_in_range _ sd (nc + ns + v)%Z ltac:(lia). have [b Eb] := @zget_in_range _ sm (nc + ns + v)%Z ltac:(lia).
  rewrite zget_map2 zget_map Ea Eb /= => -> ->. rewrite /get_smom0.
  have -> : sd_sum beta wn (fun j => 1 - (1 - u * -1 * odflt 0 (zget chim j)) * vrg_cont vrgm nc j v) giw v = sd_sum beta wn (fun j => 1 - (1 + u * odflt 0 (zget chim j)) * vrg_cont vrgm nc j v) giw v.
  { rewrite /sd_sum. congr (_ * _). apply: eq_bigr => j _. by rewrite mulrN1 mulNr opprK. }
  rewrite !mulr1. set A := sd_sum _ _ _ _ _. set B := sd_sum _ _ _ _ _. rewrite mulrN1. by rewrite !mulNr.
Qed.
Lemma f_diag_value (chid chim : list F) niw : (0 <= niw)%Z -> zlen chid = (2 * niw + 1)%Z -> zlen chim = (2 * niw + 1)%Z ->
  exists rd rm, get_f_diag chid chim "dens" = Ok rd /\ get_f_diag chid chim "magn" = Ok rm /\
   shape2 rd (2 * (niw / 2)) (2 * (niw / 2)) /\ shape2 rm (2 * (niw / 2)) (2 * (niw / 2)) /\
   forall v vp, (- (niw / 2) <= v < niw / 2)%Z -> (- (niw / 2) <= vp < niw / 2)%Z ->
    val2 rd (niw / 2 + v) (niw / 2 + vp) = (val chid (niw + (v - vp)) + 3%:R * val chim (niw + (v - vp))) / 2%:R /\
    val2 rm (niw / 2 + v) (niw / 2 + vp) = (val chid (niw + (v - vp)) - val chim (niw + (v - vp))) / 2%:R.
Proof.
  move=> hn hd hm. have [d [ed [sd vd]]] := w_to_vmvp_spec _ hn hd. have [m [em [sm vm]]] := w_to_vmvp_spec _ hn hm.
  rewrite /get_f_diag /= ed em /=.
  have [sd' vd'] := map22P (fun x => 1 / 2%:R * x) sd. have [sm1 vm1] := map22P (fun x => 1 / 2%:R * x) sm. have [sm3 vm3] := map22P (fun x => 3%:R / 2%:R * x) sm.
  have [rd [erd [srd vrd]]] := comb2P (fun x y => x + y) sd' sm3. have [rm [erm [srm vrm]]] := comb2P (fun x y => x - y) sd' sm1.
  exists rd, rm. split; [exact: erd|]. split; [exact: erm|]. split=> //. split=> // v vp hv hvp.
  rewrite vrd ?vrm; [|lia|lia|lia|lia]. rewrite vd' ?vm1 ?vm3; [|lia|lia|lia|lia|lia|lia].
  have [E1 _] := vd v vp hv hvp. have [E2 _] := vm v vp hv hvp. rewrite /val2 E1 E2 /val. move: (odflt _ _) (odflt _ _) => a b. move: (2%:R^-1) (3%:R) => h t. rewrite !mul1r. split; frng.
Qed.
Lemma f_diag_unknown (chid chim : list F) ch : ch <> "dens"%string -> ch <> "magn"%string -> get_f_diag chid chim ch = Raise NotImplementedError.
Proof. move=> h1 h2. rewrite /get_f_diag. case: String.eqb_spec => // _. by case: String.eqb_spec. Qed.
End P.
