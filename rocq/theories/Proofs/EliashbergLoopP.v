(** Gram-Schmidt, power iteration, sectors, start gap. *)
From mathcomp Require Import all_ssreflect all_algebra.
From mathcomp.real_closed Require Import complex.
From Coq Require Import String ZArith Lia.
From Verif Require Import Base.PyBase Base.FieldTac Model.Config Model.Eliashberg Proofs.EliashbergP.
Import Order.Theory GRing.Theory Num.Theory.
Set Implicit Arguments. Unset Strict Implicit. Unset Printing Implicit Defensive.
Local Open Scope nat_scope.
Local Open Scope ring_scope.

Lemma in_rcons T (l : list T) x u : List.In u (rcons l x) -> List.In u l \/ u = x.
Proof.
  elim: l => [|y l IH] /=; first by case=> // ->; right.
  case=> [->|h]; first by left; left. case: (IH h) => h'; [left; by right|by right].
Qed.
Section Inner.
Variable R : rcfType.
Notation C := R[i].
Variables nx ny nz nv : nat.
Notation inner := (inner nx ny nz nv).
Notation asum := (asum nx ny nz nv).

Implicit Types (u a b g acc : garr R) (basis : list (garr R)).
(** equality inside the shape *)
Definition geq (a b : garr R) : Prop := forall x y z v,
  (x < nx)%nat -> (y < ny)%nat -> (z < nz)%nat -> (v < nv)%nat -> a x y z v = b x y z v.
Lemma geq_refl a : geq a a. Proof. by []. Qed.
Lemma geq_sym a b : geq a b -> geq b a. Proof. by move=> h x y z v h1 h2 h3 h4; rewrite h. Qed.
Lemma geq_trans a b c : geq a b -> geq b c -> geq a c.
Proof. by move=> h1 h2 x y z v hx hy hz hv; rewrite h1 // h2. Qed.
Lemma eq_asum (f g : garr R) : geq f g -> asum f = asum g.
Proof.
  move=> h. apply: eq_bigr => i _; apply: eq_bigr => j _; apply: eq_bigr => l _; apply: eq_bigr => v _. exact: h.
Qed.
Lemma asumD (f g : garr R) : asum (fun x y z v => f x y z v + g x y z v) = asum f + asum g.
Proof. rewrite /Eliashberg.asum. by do 4 (rewrite -big_split; apply: eq_bigr => ? _). Qed.
Lemma asumZ c (f : garr R) : asum (fun x y z v => c * f x y z v) = c * asum f.
Proof. rewrite /Eliashberg.asum. by do 4 (rewrite mulr_sumr; apply: eq_bigr => ? _). Qed.
Lemma inner_sub u a b : inner u (vsub a b) = inner u a - inner u b.
Proof.
  rewrite /Eliashberg.inner -mulN1r -asumZ -asumD. apply: eq_asum => x y z v _ _ _ _.
  by rewrite /vsub mulrBr mulN1r.
Qed.
Lemma inner_scale u c a : inner u (vscale c a) = c * inner u a.
Proof. rewrite /Eliashberg.inner -asumZ. apply: eq_asum => x y z v _ _ _ _. by rewrite /vscale mulrCA. Qed.
Lemma inner_geq u (u' : garr R) a (a' : garr R) : geq u u' -> geq a a' -> inner u a = inner u' a'.
Proof. move=> h1 h2. apply: eq_asum => x y z v hx hy hz hv. by rewrite h1 // h2. Qed.
Lemma conjM_ge0 (x : C) : 0 <= (x^*)%C * x.
Proof. by rewrite mulrC mulcJ_ge0. Qed.
Lemma inner_ge0 u : 0 <= inner u u.
Proof. do 4 (apply: sumr_ge0 => ? _). exact: conjM_ge0. Qed.
Lemma inner_eq0 u : inner u u = 0 -> geq u (fun _ _ _ _ => 0).
Proof.
  rewrite /Eliashberg.inner /Eliashberg.asum => h x y z v hx hy hz hv.
  have g0 (n : nat) (f : nat -> C) : (forall i, 0 <= f i) -> \sum_(i < n) f i = 0 -> forall i, (i < n)%nat -> f i = 0.
    move=> hf hs i hi. have := psumr_eq0P (fun (i : 'I_n) _ => hf i) hs. by move/(_ (Ordinal hi) isT).
  have := g0 nx (fun i => \sum_(j < ny) \sum_(l < nz) \sum_(v < nv) ((u i j l v)^*)%C * u i j l v) _ h x hx.
  move/(_ (fun i => sumr_ge0 _ (fun _ _ => sumr_ge0 _ (fun _ _ => sumr_ge0 _ (fun _ _ => conjM_ge0 _))))) => h1.
  have := g0 ny (fun j => \sum_(l < nz) \sum_(v < nv) ((u x j l v)^*)%C * u x j l v) _ h1 y hy.
  move/(_ (fun i => sumr_ge0 _ (fun _ _ => sumr_ge0 _ (fun _ _ => conjM_ge0 _)))) => h2.
  have := g0 nz (fun l => \sum_(v < nv) ((u x y l v)^*)%C * u x y l v) _ h2 z hz.
  move/(_ (fun i => sumr_ge0 _ (fun _ _ => conjM_ge0 _))) => h3.
  have := g0 nv (fun v => ((u x y z v)^*)%C * u x y z v) _ h3 v hv.
  move/(_ (fun i => conjM_ge0 _)) => /eqP. rewrite mulf_eq0 conjc_eq0 orbb. by move/eqP.
Qed.

(** ** Gram-Schmidt *)
Notation gs := (gram_schmidt nx ny nz nv).
Notation prj := (proj nx ny nz nv).
Lemma gs_foldE u (v : garr R) basis : forall acc,
  inner u (foldl (fun acc w => vsub acc (prj v w)) acc basis)
  = inner u acc - \sum_(w <- basis) inner w v / inner w w * inner u w.
Proof.
  elim: basis => [|w basis IH] acc /=; first by rewrite big_nil subr0.
  rewrite IH big_cons inner_sub /proj inner_scale. by rewrite opprD addrA.
Qed.
Definition zarr : garr R := fun _ _ _ _ => 0.
Lemma gs_orthogonal (v : garr R) basis i : (i < seq.size basis)%nat ->
  (forall a b : nat, (a < seq.size basis)%nat -> (b < seq.size basis)%nat -> a <> b ->
     inner (seq.nth zarr basis a) (seq.nth zarr basis b) = 0) ->
  inner (seq.nth zarr basis i) (gs v basis) = 0.
Proof.
  move=> hi ho. rewrite /gram_schmidt gs_foldE.
  case: (eqVneq (inner (seq.nth zarr basis i) (seq.nth zarr basis i)) 0) => [h0|h0].
    have hz := inner_eq0 h0.
    have hin a : inner (seq.nth zarr basis i) a = 0.
      rewrite (inner_geq hz (geq_refl a)) /Eliashberg.inner. rewrite (eq_asum (g := fun x y z v => 0 * a x y z v)).
      + by rewrite asumZ mul0r.
      + move=> x y z w _ _ _ _. congr (_ * _). exact: conjc0.
    rewrite hin sub0r big1 ?oppr0 // => w _. by rewrite hin mulr0.
  rewrite (big_nth zarr) big_mkord (bigD1 (Ordinal hi)) //= big1 ?addr0.
  - by rewrite divfK // subrr.
  - move=> j hj. rewrite (ho i j hi (ltn_ord j)) ?mulr0 //. move=> e. move/negP: hj; apply. apply/eqP. exact/val_inj/esym.
Qed.
Lemma gs_geq (v v' : garr R) basis : geq v v' -> geq (gs v basis) (gs v' basis).
Proof.
  move=> h. rewrite /gram_schmidt.
  have : forall acc acc', geq acc acc' ->
    geq (foldl (fun acc u => vsub acc (prj v u)) acc basis) (foldl (fun acc u => vsub acc (prj v' u)) acc' basis).
    elim: basis => [|u basis IH] acc acc' ha //=. apply: IH => x y z w hx hy hz hw.
    rewrite /vsub ha // /proj. by rewrite (inner_geq (geq_refl u) h).
  by apply.
Qed.
(** a multiple of a basis vector is mapped to zero by a one-vector basis *)
Lemma gs_self c u : inner u u != 0 -> geq (gs (vscale c u) [:: u]) zarr.
Proof.
  move=> h x y z v _ _ _ _. by rewrite /gram_schmidt /= /vsub /proj inner_scale mulfK // subrr.
Qed.

(** ** The loop *)
Section Loop.
Variable K : garr R -> garr R.
Notation body := (pi_body nx ny nz nv K).
Notation loop := (pi_loop nx ny nz nv K).

Lemma loop_bound basis ls eps mc fuel : forall count l g,
  (0 < fuel)%nat -> (Z.to_nat mc < count + fuel)%nat ->
  exists l' g' c, loop basis ls eps mc fuel count l g = Some (l', g', c) /\
    (count < c)%nat /\ (c <= maxn (S count) (S (Z.to_nat mc)))%nat.
Proof.
  elim: fuel => [|fuel IH] count l g // _ hb; cbn [pi_loop].
  case eb: (body basis ls g) => [l1 g1]. case: ifP => [_|/negbT].
  - exists l1, g1, (S count). split; first by []. split; first by []. exact: leq_maxl.
  - rewrite negb_or => /andP[_ /negP hlt].
    have hc : (S count <= Z.to_nat mc)%nat.
      apply/ssrnat.leP. case: (Z.ltb_spec mc (Z.of_nat (S count))) hlt => // h _. lia.
    have [||l' [g' [c [h1 [h2 h3]]]]] := IH (S count) l1 g1.
    + case: fuel hb {IH} => // hb. move: hb. by rewrite addn1 ltnS leqNgt hc.
    + by rewrite addSnnS.
    + exists l', g', c. split=> //. split; first exact: leq_trans h2.
      move: h3. rewrite !(maxn_idPr _) // 1?ltnW // ltnS //.
Qed.
Lemma loop_mono basis ls eps mc fuel fuel' : forall count l g r,
  loop basis ls eps mc fuel count l g = Some r -> (fuel <= fuel')%nat ->
  loop basis ls eps mc fuel' count l g = Some r.
Proof.
  elim: fuel fuel' => [|fuel IH] [|fuel'] count l g r //; cbn [pi_loop].
  case: (body basis ls g) => l1 g1. case: ifP => // _ h hl. exact: IH h hl.
Qed.
Lemma run_some basis ls eps mc g0 : exists l g c,
  power_iteration nx ny nz nv K basis ls eps mc g0 (pi_fuel mc) = Some (l, g, c) /\
  power_iteration_run nx ny nz nv K basis ls eps mc g0 = (l, g) /\ (0 < c <= S (Z.to_nat mc))%nat.
Proof.
  have [||l [g [c [h1 [h2 h3]]]]] := @loop_bound basis ls eps mc (pi_fuel mc) 0 1 g0 => //.
  exists l, g, c. rewrite /power_iteration_run /power_iteration h1. split=> //. split=> //. rewrite h2 /=.
  by move: h3; rewrite (maxn_idPr _).
Qed.

(** every invariant of the body is an invariant of the search *)
Lemma loop_inv (P : C -> garr R -> Prop) (Q : garr R -> Prop) basis ls eps mc fuel :
  (forall g, Q g -> P (body basis ls g).1 (body basis ls g).2 /\ Q (body basis ls g).2) ->
  forall count l g l' g' c, Q g -> loop basis ls eps mc fuel count l g = Some (l', g', c) -> P l' g' /\ Q g'.
Proof.
  move=> h. elim: fuel => [|fuel IH] count l g l' g' c hq //; cbn [pi_loop].
  have := h g hq. case: (body basis ls g) => l1 g1 /= [hp hq1]. case: ifP => _.
  - by case=> <- <- _.
  - exact: IH.
Qed.
Lemma run_inv (P : C -> garr R -> Prop) (Q : garr R -> Prop) basis ls eps mc g0 :
  (forall g, Q g -> P (body basis ls g).1 (body basis ls g).2 /\ Q (body basis ls g).2) -> Q g0 ->
  P (power_iteration_run nx ny nz nv K basis ls eps mc g0).1 (power_iteration_run nx ny nz nv K basis ls eps mc g0).2
  /\ Q (power_iteration_run nx ny nz nv K basis ls eps mc g0).2.
Proof.
  move=> h hq. have [l [g [c [h1 [h2 _]]]]] := run_some basis ls eps mc g0. rewrite h2 /=.
  exact: (loop_inv h hq h1).
Qed.

(** sectors *)
Section Sector.
Variable S : garr R -> Prop.
Hypothesis Ssub : forall a b, S a -> S b -> S (vsub a b).
Hypothesis Sscale : forall c a, S a -> S (vscale c a).
Hypothesis SK : forall a, S a -> S (K a).
Lemma gs_sector (v : garr R) basis : S v -> (forall u, List.In u basis -> S u) -> S (gs v basis).
Proof.
  move=> hv hb. rewrite /gram_schmidt. have : S v by [].
  move: {1 3}v => acc. elim: basis acc hb => [|u basis IH] acc hb ha //=. apply: IH.
  - move=> w hw. apply: hb. by right.
  - apply: Ssub => //. apply: Sscale. apply: hb. by left.
Qed.
Lemma body_sector basis ls g : S g -> (forall u, List.In u basis -> S u) -> S (body basis ls g).2.
Proof.
  move=> hg hb. rewrite /pi_body /=. have h := gs_sector hg hb. apply: Sscale.
  case: ls => [s|]; last exact: SK. apply: Ssub; [exact: SK|exact: Sscale].
Qed.
Lemma run_sector basis ls eps mc g0 : S g0 -> (forall u, List.In u basis -> S u) ->
  S (power_iteration_run nx ny nz nv K basis ls eps mc g0).2.
Proof.
  move=> hg hb. have [] := @run_inv (fun _ _ => True) S basis ls eps mc g0 => // g h. split=> //. exact: body_sector.
Qed.
Lemma eig_loop_sector ls eps mc g0 n : S g0 -> forall lams gaps, (forall u, List.In u gaps -> S u) ->
  forall u, List.In u (eig_loop nx ny nz nv K ls eps mc g0 n lams gaps).2 -> S u.
Proof.
  move=> hg. elim: n => [|n IH] lams gaps hb u //=; first exact: hb.
  have := run_sector ls eps mc hg hb. case: (power_iteration_run _ _ _ _ _ _ _ _ _ _) => l g /= hs.
  apply: IH => w hw. case: (in_rcons hw) => [h|->] //. exact: hb.
Qed.
Lemma get_eig_sector eps mc g0 g0s shift n : S g0 ->
  forall u, List.In u (get_eig nx ny nz nv K eps mc g0 g0s shift n).2 -> S u.
Proof.
  move=> hg u. rewrite /get_eig. set ls := (if shift then _ else _).
  have := @eig_loop_sector ls eps mc g0 n hg [::] [::] _ u.
  case: (eig_loop _ _ _ _ _ _ _ _ _ _ _ _) => lams gaps /= h. apply: h. by [].
Qed.
End Sector.

Lemma eig_loop_size ls eps mc g0 n : forall lams gaps,
  seq.size (eig_loop nx ny nz nv K ls eps mc g0 n lams gaps).1 = (seq.size lams + n)%nat /\
  seq.size (eig_loop nx ny nz nv K ls eps mc g0 n lams gaps).2 = (seq.size gaps + n)%nat.
Proof.
  elim: n => [|n IH] lams gaps /=; first by rewrite !addn0.
  case: (power_iteration_run _ _ _ _ _ _ _ _ _ _) => l g. have [h1 h2] := IH (rcons lams l) (rcons gaps g).
  by rewrite h1 h2 !size_rcons !addSnnS.
Qed.
Lemma get_eig_size eps mc g0 g0s shift n :
  seq.size (get_eig nx ny nz nv K eps mc g0 g0s shift n).1 = n /\
  seq.size (get_eig nx ny nz nv K eps mc g0 g0s shift n).2 = n.
Proof.
  rewrite /get_eig. set ls := (if shift then _ else _).
  have [] := @eig_loop_size ls eps mc g0 n [::] [::].
  case: (eig_loop _ _ _ _ _ _ _ _ _ _ _ _) => lams gaps /= h1 h2. split; last by [].
  case: ls h1 h2 => [s|] h1 _; by rewrite ?size_map.
Qed.

(** an exact eigenvector *)
Hypothesis Kext : forall a b, geq a b -> geq (K a) (K b).
Definition shifted (ls : option C) (mu : C) : C := match ls with Some s => mu - s | None => mu end.
Lemma body_eigen ls mu g g0 : geq (K g0) (vscale mu g0) -> inner g0 g0 != 0 -> shifted ls mu != 0 ->
  geq g g0 -> (body [::] ls g).1 = shifted ls mu /\ geq (body [::] ls g).2 g0.
Proof.
  move=> he hn hs hg. rewrite /pi_body /gram_schmidt /=.
  set new := match ls with Some s => _ | None => _ end.
  have hnew : geq new (vscale (shifted ls mu) g0).
    rewrite /new /shifted; case: ls hs {new} => [s|] hs x y z v hx hy hz hv.
    - rewrite /vsub /vscale (Kext hg) // he // hg // /vscale mulrBl //.
    - by rewrite (Kext hg) // he.
  have hl : inner g new / inner g g = shifted ls mu.
    rewrite (inner_geq hg hnew) (inner_geq hg hg) inner_scale mulfK //.
  rewrite hl. split=> // x y z v hx hy hz hv. by rewrite /vscale hnew // /vscale mulKf.
Qed.
Lemma run_eigen ls eps mc mu g0 : geq (K g0) (vscale mu g0) -> inner g0 g0 != 0 -> shifted ls mu != 0 ->
  (power_iteration_run nx ny nz nv K [::] ls eps mc g0).1 = shifted ls mu /\
  geq (power_iteration_run nx ny nz nv K [::] ls eps mc g0).2 g0.
Proof.
  move=> he hn hs.
  apply: (@run_inv (fun l _ => l = shifted ls mu) (fun g => geq g g0)); last exact: geq_refl.
  move=> g hg. exact: body_eigen.
Qed.
(** what every search returns *)
Lemma run_residual basis ls eps mc g0 : exists d,
  let new := match ls with Some s => vsub (K d) (vscale s d) | None => K d end in
  let r := power_iteration_run nx ny nz nv K basis ls eps mc g0 in
  r.1 = inner d new / inner d d /\ r.2 = vscale (r.1^-1) new.
Proof.
  pose P l g := exists d, let new := match ls with Some s => vsub (K d) (vscale s d) | None => K d end in
     l = inner d new / inner d d /\ g = vscale (l^-1) new.
  have [] := @run_inv P (fun _ => True) basis ls eps mc g0 => // g _. split=> //. by exists (gs g basis).
Qed.
End Loop.
End Inner.
