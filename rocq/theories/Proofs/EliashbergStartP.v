(** The start gap: parities, and what the symmetrised vertices do to it. *)
From mathcomp Require Import all_ssreflect all_algebra.
From mathcomp.real_closed Require Import complex.
From Coq Require Import String ZArith Lia.
From Verif Require Import Base.PyBase Base.FieldTac Model.Config Model.Eliashberg.
From Verif Require Import Proofs.EliashbergP Proofs.EliashbergLoopP Proofs.EliashbergSymP.
Import Order.Theory GRing.Theory Num.Theory.
Set Implicit Arguments. Unset Strict Implicit. Unset Printing Implicit Defensive.
Local Open Scope nat_scope.
Local Open Scope ring_scope.

Section Grid.
Variable R : rcfType.
Notation C := R[i].
Lemma root_conj n (e : C) : n.-primitive_root e -> (e^*)%C = e^-1.
Proof.
  move=> he. have hn := prim_order_gt0 he. have e0 := prim0 he.
  have h1 : `|e| = 1.
    apply/eqP. rewrite -(pexpr_eq1 hn) ?normr_ge0 // -normrX (prim_expr_order he) normr1 //.
  have := sqr_normc e. rewrite h1 expr1n => h. by rewrite -[LHS]mul1r -(mulVf e0) -mulrA -h mulr1.
Qed.
Lemma root_neg n (e : C) i : n.-primitive_root e -> (i < n)%nat -> e ^+ neg_k n i = ((e ^+ i)^*)%C.
Proof.
  move=> he hi. rewrite /neg_k (prim_expr_mod he) rmorphX /= (root_conj he).
  have e0 := prim0 he. rewrite exprVn. apply: (mulIf (expf_neq0 i e0)).
  by rewrite -exprD subnK 1?ltnW // (prim_expr_order he) mulVf ?expf_neq0.
Qed.
Lemma cos_neg n (e : C) i : n.-primitive_root e -> (i < n)%nat -> cos_grid e (neg_k n i) = cos_grid e i.
Proof. move=> he hi. rewrite /cos_grid (root_neg he hi). by case: (e ^+ i). Qed.
Lemma sin_neg n (e : C) i : n.-primitive_root e -> (i < n)%nat -> sin_grid e (neg_k n i) = - sin_grid e i.
Proof. move=> he hi. rewrite /sin_grid (root_neg he hi). by case: (e ^+ i). Qed.

Variables nx ny nz nv : nat.
Variables ex ey ez : C.
Hypothesis px : nx.-primitive_root ex.
Hypothesis py : ny.-primitive_root ey.
Hypothesis pz : nz.-primitive_root ez.

(** the symmetry of the configured k form *)
Definition k_sign (k_sym : string) : C := if String.eqb k_sym "d-wave" then 1 else -1.
Definition v_sign (v_type : string) : C := if String.eqb v_type "even" then 1 else -1.
Definition known_k (k_sym : string) : Prop := k_sym = "d-wave"%string \/ k_sym = "p-wave-x"%string \/ k_sym = "p-wave-y"%string.
Lemma k_form_some k_sym : known_k k_sym -> exists f, k_form ex ey k_sym = Some f /\
  forall x y z, (x < nx)%nat -> (y < ny)%nat -> (f (neg_k nx x) (neg_k ny y) (neg_k nz z))%:C%C = k_sign k_sym * (f x y z)%:C%C.
Proof.
  case=> [->|[->|->]]; rewrite /k_form /k_sign /=; eexists; (split; first reflexivity) => x y z hx hy.
  - by rewrite /d_wave (cos_neg px hx) (cos_neg py hy) mul1r.
  - by rewrite /p_wave_x (sin_neg px hx) !mul0r !addr0 mulN1r rmorphN.
  - by rewrite /p_wave_y (sin_neg py hy) !mulr0 !add0r mulN1r rmorphN.
Qed.
Notation start := (get_gap_start nv ex ey).
Lemma start_ok rnd1 rnd2 k_sym v_type : known_k k_sym -> (v_type = "even" \/ v_type = "odd")%string -> odd nv = false ->
  exists f g, k_form ex ey k_sym = Some f /\ start rnd1 rnd2 k_sym v_type = Ok g /\
    forall x y z v, (v < nv)%nat ->
      g x y z v = (if (v < nv %/ 2)%nat then v_sign v_type else 1) * (f x y z)%:C%C.
Proof.
  move=> hk hv ho. have [f [hf _]] := k_form_some hk. exists f. rewrite /get_gap_start hf ho /=.
  have h2 : (nv = nv %/ 2 + nv %/ 2)%nat by rewrite addnn -{1}(odd_double_half nv) ho add0n divn2.
  case: hv => ->; rewrite /v_sign /=; eexists; (split; [reflexivity|split; [reflexivity|]]) => x y z v hv;
    have hl : (v + nv %/ 2 < nv %/ 2)%nat = false by rewrite ltnNge leq_addl.
  - rewrite hl. case: (ltnP v (nv %/ 2)) => h; rewrite ?mul1r //.
  - rewrite hl. case: (ltnP v (nv %/ 2)) => h; rewrite ?mul1r //.
Qed.
Lemma neg_v_half v : odd nv = false -> (v < nv)%nat -> (neg_v nv v < nv %/ 2)%nat = ~~ (v < nv %/ 2)%nat.
Proof.
  move=> ho hv. have h2 : (nv = nv %/ 2 + nv %/ 2)%nat by rewrite addnn -{1}(odd_double_half nv) ho add0n divn2.
  rewrite -leqNgt /neg_v. move: hv h2. generalize (nv %/ 2)%nat => h hv h2. apply/idP/idP.
  - move/ssrnat.ltP => a. apply/ssrnat.leP. move/ssrnat.ltP: hv => b. move: a b h2; rewrite -?plusE -?minusE => a b h2; lia.
  - move/ssrnat.leP => a. apply/ssrnat.ltP. move/ssrnat.ltP: hv => b. move: a b h2; rewrite -?plusE -?minusE => a b h2; lia.
Qed.
Lemma start_parities rnd1 rnd2 k_sym v_type g : known_k k_sym -> (v_type = "even" \/ v_type = "odd")%string ->
  odd nv = false -> start rnd1 rnd2 k_sym v_type = Ok g ->
  k_parity nx ny nz nv (k_sign k_sym) g /\ v_parity nx ny nz nv (v_sign v_type) g.
Proof.
  move=> hk hv ho hg. have [f [g' [hf [hg' hE]]]] := start_ok rnd1 rnd2 hk hv ho.
  move: hg'; rewrite hg => -[e]; subst g'.
  have [f' [hf' hp]] := k_form_some hk. move: hf'; rewrite hf => -[e]; subst f'.
  split=> x y z v hx hy hz hvv.
  - rewrite !hE // hp // mulrCA //.
  - rewrite !hE ?neg_v_lt // neg_v_half //. case: ifP => h /=.
    by rewrite (negbTE h) mul1r.
    move/negbFE: h => ->. rewrite mul1r mulrA /v_sign. case: ifP => _; by rewrite ?mulrNN !mul1r.
Qed.
End Grid.

Section Annihilate.
Variable R : rcfType.
Notation C := R[i].
Variables nx ny nz nv : nat.
Variables ex ey ez : C.
Hypothesis px : nx.-primitive_root ex.
Hypothesis py : ny.-primitive_root ey.
Hypothesis pz : nz.-primitive_root ez.
Definition chan_v (channel k_sym : string) : string :=
  if String.eqb channel "sing" then gap0_sing_v k_sym else gap0_trip_v k_sym.
Definition known_channel (ch : string) : Prop := ch = "sing"%string \/ ch = "trip"%string.
Lemma chan_v_known ch k_sym : known_channel ch -> known_k k_sym ->
  (chan_v ch k_sym = "even" \/ chan_v ch k_sym = "odd")%string.
Proof. case=> ->; case=> [->|[->|->]]; rewrite /chan_v /gap0_sing_v /gap0_trip_v /=; by [left|right]. Qed.
Lemma pauli_signs ch k_sym : known_channel ch -> known_k k_sym ->
  k_sign R k_sym * v_sign R (chan_v ch k_sym) = chan_sign R ch.
Proof.
  case=> ->; case=> [->|[->|->]]; rewrite /chan_v /gap0_sing_v /gap0_trip_v /k_sign /v_sign /chan_sign /=;
  by rewrite ?mulr1 ?mul1r // mulrNN mulr1.
Qed.
Lemma start_pauli rnd1 rnd2 ch k_sym g : known_channel ch -> known_k k_sym -> odd nv = false ->
  get_gap_start nv ex ey rnd1 rnd2 k_sym (chan_v ch k_sym) = Ok g ->
  forall x y z v, (x < nx)%nat -> (y < ny)%nat -> (z < nz)%nat -> (v < nv)%nat ->
    g (neg_k nx x) (neg_k ny y) (neg_k nz z) (neg_v nv v) = chan_sign R ch * g x y z v.
Proof.
  move=> hc hk ho hg x y z v hx hy hz hv.
  have [h1 h2] := start_parities nz px py hk (chan_v_known hc hk) ho hg.
  have n1 := prim_order_gt0 px. have n2 := prim_order_gt0 py. have n3 := prim_order_gt0 pz.
  rewrite h1 ?neg_v_lt // h2 // mulrA. by rewrite pauli_signs.
Qed.
Lemma p_wave_annihilated rnd1 rnd2 ch k_sym g0 gamma gs gk norm : known_channel ch ->
  (k_sym = "p-wave-x" \/ k_sym = "p-wave-y")%string -> odd nv = false ->
  get_gap_start nv ex ey rnd1 rnd2 k_sym (chan_v ch k_sym) = Ok g0 ->
  symmetrize_gamma nv gamma ch = Ok gs -> abs_even nx ny nz nv gk ->
  geq nx ny nz nv (apply_kernel nx ny nz nv ex ey ez gs gk norm g0) (fun _ _ _ _ => 0).
Proof.
  move=> hc hk ho hg hs ha.
  have hk' : known_k k_sym by case: hk => ->; [right; left|right; right].
  have [_ h2] := start_parities nz px py hk' (chan_v_known hc hk') ho hg.
  refine (kernel_annihilates px py pz norm (chan_sign2 R ch) (sym_parity (nx:=nx) (ny:=ny) (nz:=nz) hs) ha _).
  have -> : - chan_sign R ch = v_sign R (chan_v ch k_sym) => //.
  case: hc hk => -> [] ->; rewrite /chan_v /gap0_sing_v /gap0_trip_v /v_sign /chan_sign /= ?opprK //.
Qed.

Lemma eig_loop_prefix (K : garr R -> garr R) ls eps mc g0 n : forall lams gaps i, (i < seq.size lams)%nat ->
  seq.size lams = seq.size gaps ->
  seq.nth 0 (eig_loop nx ny nz nv K ls eps mc g0 n lams gaps).1 i = seq.nth 0 lams i /\
  seq.nth (@zarr R) (eig_loop nx ny nz nv K ls eps mc g0 n lams gaps).2 i = seq.nth (@zarr R) gaps i.
Proof.
  elim: n => [|n IH] lams gaps i hi hs //=.
  case: (power_iteration_run _ _ _ _ _ _ _ _ _ _) => l g.
  have hi' : (i < seq.size (rcons lams l))%nat by rewrite size_rcons ltnS ltnW.
  have hs' : seq.size (rcons lams l) = seq.size (rcons gaps g) by rewrite !size_rcons hs.
  have [h1 h2] := IH _ _ i hi' hs'. rewrite h1 h2 !nth_rcons -hs hi. by [].
Qed.
(** the first eigenpair found from an exact eigenvector *)
Lemma get_eig_eigen (K : garr R -> garr R) eps mc mu (g0 g0s : garr R) shift n :
  (forall a b, geq nx ny nz nv a b -> geq nx ny nz nv (K a) (K b)) -> (0 < n)%nat ->
  geq nx ny nz nv (K g0) (vscale mu g0) -> inner nx ny nz nv g0 g0 != 0 ->
  let s := if shift then let l := (power_iteration_run nx ny nz nv K [::] None eps mc g0s).1 in
                         if cgt0 l then 0 else l else 0 in
  mu != s ->
  seq.nth 0 (get_eig nx ny nz nv K eps mc g0 g0s shift n).1 0 = mu /\
  geq nx ny nz nv (seq.nth (@zarr R) (get_eig nx ny nz nv K eps mc g0 g0s shift n).2 0) g0.
Proof.
  move=> hK hn he hi s hs. rewrite /get_eig.
  set ls := (if shift then _ else _).
  have hls : shifted ls mu = mu - s /\ (forall l, match ls with Some s => l + s | None => l end = l + s).
    rewrite /ls /s /shifted; case: shift {ls s hs}; split=> //; by rewrite ?subr0 // => l; rewrite addr0.
  have hne : shifted ls mu != 0 by rewrite hls.1 subr_eq0.
  have [h1 h2] := run_eigen hK eps mc he hi hne.
  case: n hn => // n _. cbn [eig_loop].
  case er: (power_iteration_run _ _ _ _ _ _ _ _ _ _) h1 h2 => [l g] /= h1 h2.
  have [p1 p2] := @eig_loop_prefix K ls eps mc g0 n [:: l] [:: g] 0%nat isT erefl.
  have [z1 z2] := @eig_loop_size R nx ny nz nv K ls eps mc g0 n [:: l] [:: g].
  case: (eig_loop _ _ _ _ _ _ _ _ _ _ _ _) p1 p2 z1 z2 => lams gaps /= p1 p2 z1 z2.
  rewrite p2. split=> //.
  have e : match ls with Some s => l + s | None => l end = mu by rewrite hls.2 h1 hls.1 subrK.
  case: lams p1 z1 => [|l0 lams] //= p1 _. rewrite p1. by case: ls e {er hls hne h1 p1 p2 z2} => [s'|].
Qed.
End Annihilate.
