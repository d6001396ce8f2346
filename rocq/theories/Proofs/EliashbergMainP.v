(** The Eliashberg results in the vocabulary of Spec/EliashbergSpec.v. *)
From mathcomp Require Import all_ssreflect all_algebra.
From mathcomp.real_closed Require Import complex.
From Coq Require Import String ZArith Lia.
From Verif Require Import Base.PyBase Base.FieldTac Model.Config Model.Eliashberg Spec.EliashbergSpec.
From Verif Require Import Proofs.EliashbergP Proofs.EliashbergLoopP Proofs.EliashbergSymP Proofs.EliashbergStartP.
Import Order.Theory GRing.Theory Num.Theory.
Set Implicit Arguments. Unset Strict Implicit. Unset Printing Implicit Defensive.
Local Open Scope nat_scope.
Local Open Scope ring_scope.

Section Main.
Variable R : rcfType.
Notation C := R[i].
Variables nx ny nz nv : nat.
Variables ex ey ez : C.
Hypothesis px : nx.-primitive_root ex.
Hypothesis py : ny.-primitive_root ey.
Hypothesis pz : nz.-primitive_root ez.
Notation K := (apply_kernel nx ny nz nv ex ey ez).
Notation LE := (linear_eliashberg nx ny nz nv ex ey ez).

Lemma kernel_same gamma gk norm gap : same nx ny nz nv (K gamma gk norm gap) (gap_equation nx ny nz nv gamma gk norm gap).
Proof. move=> x y z v hx hy hz hv. by rewrite (kernelE nv px py pz). Qed.

Definition v_of (channel k_sym : string) : bool := if k_even k_sym then singlet channel else ~~ singlet channel.
Lemma signE (b : bool) : sign R b = if b then 1 else -1. Proof. by []. Qed.
Lemma le_inv gk fpp nk beta ch k_sym ss st sh n eps mc r1 r2 g0s res : pairing_channel ch ->
  LE gk fpp nk beta ch k_sym ss st sh n eps mc r1 r2 g0s = Ok res ->
  exists gap0 gamma, get_gap_start nv ex ey r1 r2 k_sym (chan_v ch k_sym) = Ok gap0 /\
    (if (if singlet ch then ss else st) then symmetrize_gamma nv (fun x y z v v' => - fpp x y z v v') ch = Ok gamma
     else gamma = (fun x y z v v' => - fpp x y z v v')) /\
    res = get_eig nx ny nz nv (K gamma gk (nk * beta)) eps mc gap0 g0s sh n.
Proof.
  case=> ->; rewrite /linear_eliashberg /chan_v /singlet /=.
  - case: (get_gap_start _ _ _ _ _ _ _) => //= g0. case: ss => /=.
    + case=> <-. exists g0. eexists. split; first reflexivity. split; reflexivity.
    + case=> <-. exists g0. eexists. split; first reflexivity. split; reflexivity.
  - case: (get_gap_start _ _ _ _ _ _ _) => //= g0. case: st => /=.
    + case=> <-. exists g0. eexists. split; first reflexivity. split; reflexivity.
    + case=> <-. exists g0. eexists. split; first reflexivity. split; reflexivity.
Qed.

Lemma k_sign_eq k_sym : k_symmetry k_sym -> k_sign R k_sym = sign R (k_even k_sym).
Proof. case=> [->|[->|->]] //. Qed.
Lemma chan_sign_eq ch : chan_sign R ch = sign R (singlet ch). Proof. by []. Qed.
Lemma v_sign_eq ch k_sym : pairing_channel ch -> k_symmetry k_sym -> v_sign R (chan_v ch k_sym) = sign R (v_of ch k_sym).
Proof. case=> ->; case=> [->|[->|->]] //. Qed.

Lemma le_parities gk fpp nk beta ch k_sym ss st sh n eps mc r1 r2 g0s lams gaps :
  pairing_channel ch -> k_symmetry k_sym -> odd nv = false ->
  vertex_even_k nx ny nz nv fpp -> vertex_even_v nx ny nz nv fpp ->
  G2_even_k nx ny nz nv gk -> G2_even_v nx ny nz nv gk ->
  LE gk fpp nk beta ch k_sym ss st sh n eps mc r1 r2 g0s = Ok (lams, gaps) ->
  forall g, List.In g gaps ->
    parity_k nx ny nz nv (sign R (k_even k_sym)) g /\ parity_v nx ny nz nv (sign R (v_of ch k_sym)) g.
Proof.
  move=> hc hk ho hfk hfv hgk hgv /(le_inv hc) [gap0 [gamma [h0 [hs he]]]] g hg.
  have [p1 p2] := start_parities nz px py hk (chan_v_known hc hk) ho h0.
  have gk1 : gamma_inversion nx ny nz nv gamma.
    move: hs; case: ifP => _.
    - move=> hs x y z v v' hx hy hz hv hv'. rewrite !(sym_ok hs).
      rewrite (hfk x y z v v') // (hfk x y z v (neg_v nv v')) // neg_v_lt //.
    - move=> -> x y z v v' hx hy hz hv hv'. by rewrite hfk.
  have gv1 : gamma_v_inversion nx ny nz nv gamma.
    move: hs; case: ifP => _.
    - move=> hs x y z v v' hx hy hz hv hv'. rewrite !(sym_ok hs).
      rewrite (hfv x y z v v') // (hfv x y z v (neg_v nv v')) // neg_v_lt //.
    - move=> -> x y z v v' hx hy hz hv hv'. by rewrite hfv.
  have eg : gaps = (get_eig nx ny nz nv (K gamma gk (nk * beta)) eps mc gap0 g0s sh n).2 by rewrite -he.
  rewrite eg in hg. split.
  - rewrite -k_sign_eq //.
    refine (@get_eig_sector R nx ny nz nv _ (k_parity nx ny nz nv (k_sign R k_sym)) _ _ _ _ _ _ _ _ _ p1 _ hg).
    + move=> a b h1 h2. exact: k_parity_sub.
    + move=> c a h. exact: k_parity_scale.
    + move=> a h. exact: (kernel_k_parity px py pz).
  - rewrite -v_sign_eq //.
    refine (@get_eig_sector R nx ny nz nv _ (v_parity nx ny nz nv (v_sign R (chan_v ch k_sym))) _ _ _ _ _ _ _ _ _ p2 _ hg).
    + move=> a b h1 h2. exact: v_parity_sub.
    + move=> c a h. exact: v_parity_scale.
    + move=> a h. exact: (kernel_v_parity px py pz).
Qed.

(** p waves with the default symmetrised vertices *)
Lemma p_wave_zero gk fpp nk beta ch k_sym r1 r2 gap0 gamma :
  pairing_channel ch -> p_wave k_sym -> odd nv = false -> G2_even_v nx ny nz nv gk ->
  get_gap_start nv ex ey r1 r2 k_sym (chan_v ch k_sym) = Ok gap0 ->
  symmetrize_gamma nv (fun x y z v v' => - fpp x y z v v') ch = Ok gamma ->
  same nx ny nz nv (K gamma gk (nk * beta) gap0) zero.
Proof. move=> hc hk ho hg h0 hs. exact: (p_wave_annihilated px py pz _ hc hk ho h0 hs hg). Qed.
Lemma p_wave_result gk fpp nk beta ch k_sym n eps mc r1 r2 g0s lams gaps :
  pairing_channel ch -> p_wave k_sym -> odd nv = false -> G2_even_v nx ny nz nv gk -> (0 < n)%nat ->
  LE gk fpp nk beta ch k_sym true true true n eps mc r1 r2 g0s = Ok (lams, gaps) ->
  forall gap0 gamma, get_gap_start nv ex ey r1 r2 k_sym (chan_v ch k_sym) = Ok gap0 ->
  symmetrize_gamma nv (fun x y z v v' => - fpp x y z v v') ch = Ok gamma ->
  dot nx ny nz nv gap0 gap0 != 0 ->
  let s := (power_iteration_run nx ny nz nv (K gamma gk (nk * beta)) [::] None eps mc g0s).1 in
  ~~ cgt0 s -> s != 0 ->
  seq.nth 0 lams 0 = 0 /\ same nx ny nz nv (seq.nth zero gaps 0) gap0.
Proof.
  move=> hc hk ho hg hn /(le_inv hc) [gap0' [gamma' [h0' [hs' he]]]] gap0 gamma h0 hs hd s hs1 hs2.
  move: h0'; rewrite h0 => -[e]; subst gap0'. move: hs'; rewrite !if_same hs => -[e]; subst gamma'.
  have hz := p_wave_zero nk beta hc hk ho hg h0 hs.
  have := @get_eig_eigen R nx ny nz nv (K gamma gk (nk * beta)) eps mc 0 gap0 g0s true n _ hn _ hd.
  move=> /=. rewrite -/s (negbTE hs1) eq_sym hs2 -he /=. apply=> //.
  - move=> a b h. exact: (kernel_ext px py pz).
  - move=> x y z v hx hy hzz hv. rewrite hz // /vscale mul0r //.
Qed.
End Main.

Section PowerSeq.
Variable R : rcfType.
Variables nx ny nz nv : nat.
Variable K : garr R -> garr R.
Notation ps := (@power_seq R nx ny nz nv K).
Notation stops := (@power_stops R nx ny nz nv K).
Lemma bodyE found s g l : pi_body nx ny nz nv K found s g = power_step nx ny nz nv K found s (l, g).
Proof. by []. Qed.
Lemma loop_seq found s eps mc g0 fuel : forall count l' g' c,
  pi_loop nx ny nz nv K found s eps mc fuel count (ps found s g0 count).1 (ps found s g0 count).2 = Some (l', g', c) ->
  [/\ (l', g') = ps found s g0 c, stops found s g0 eps mc c, (count < c)%nat &
      forall j, (count < j < c)%nat -> stops found s g0 eps mc j = false].
Proof.
  elim: fuel => [|fuel IH] count l' g' c //. cbn [pi_loop].
  rewrite (bodyE found s _ (ps found s g0 count).1) -surjective_pairing.
  have e : power_step nx ny nz nv K found s (ps found s g0 count) = ps found s g0 count.+1 by [].
  rewrite e. case E: (ps found s g0 count.+1) => [l g].
  have st : (absc (l - (ps found s g0 count).1) < eps) || Z.ltb mc (Z.of_nat count.+1) = stops found s g0 eps mc count.+1.
    by rewrite /power_stops E.
  rewrite st. case: ifP => h.
  - case=> <- <- <-. split=> // j. by rewrite ltnS => /andP [a b]; move: (leq_ltn_trans b a); rewrite ltnn.
  - have -> : l = (ps found s g0 count.+1).1 by rewrite E. have -> : g = (ps found s g0 count.+1).2 by rewrite E.
    move/IH => [h1 h2 h3 h4]. split=> //; first exact: ltn_trans h3.
    move=> j /andP [ha hb]. case: (ltngtP count.+1 j) ha => // hj _; first by apply: h4; rewrite hj hb.
    by rewrite -hj.
Qed.
Lemma power_char found s eps mc g0 : exists c : nat,
  [/\ (0 < c <= S (Z.to_nat mc))%nat, stops found s g0 eps mc c,
      forall j, (j < c)%nat -> stops found s g0 eps mc j = false &
      forall fuel, (S (Z.to_nat mc) <= fuel)%nat ->
        power_iteration nx ny nz nv K found s eps mc g0 fuel = Some ((ps found s g0 c).1, (ps found s g0 c).2, c)].
Proof.
  have [l [g [c [h1 [_ h3]]]]] := @run_some R nx ny nz nv K found s eps mc g0.
  exists c. have := @loop_seq found s eps mc g0 (pi_fuel mc) 0 l g c h1. move=> [e hs hc hj].
  split=> //.
  - case=> [|j] hl //. apply: hj. by [].
  - move=> fuel hf. rewrite -e /=. exact: (loop_mono h1 hf).
Qed.
Lemma run_char found s eps mc g0 c :
  stops found s g0 eps mc c -> (forall j, (j < c)%nat -> stops found s g0 eps mc j = false) ->
  power_iteration_run nx ny nz nv K found s eps mc g0 = ps found s g0 c.
Proof.
  move=> hs hj. have [c' [h1 h2 h3 h4]] := power_char found s eps mc g0.
  have e : c = c'.
    case: (ltngtP c c') => // h; [move: (h3 _ h); by rewrite hs|move: (hj _ h); by rewrite h2].
  rewrite e /power_iteration_run h4 // -surjective_pairing //.
Qed.
End PowerSeq.

Section GetEig.
Variable R : rcfType.
Variables nx ny nz nv : nat.
Variable K : garr R -> garr R.
Notation run := (power_iteration_run nx ny nz nv K).
Lemma eig_loop_take ls eps mc g0 n : forall lams gaps, seq.size lams = seq.size gaps ->
  let r := eig_loop nx ny nz nv K ls eps mc g0 n lams gaps in
  [/\ seq.take (seq.size gaps) r.2 = gaps, seq.take (seq.size lams) r.1 = lams &
   forall i, (seq.size gaps <= i < seq.size gaps + n)%nat ->
    (seq.nth 0 r.1 i, seq.nth zero r.2 i) = run (seq.take i r.2) ls eps mc g0].
Proof.
  elim: n => [|n IH] lams gaps hs; cbn [eig_loop].
  - split; rewrite ?take_size // => i. by rewrite addn0 => /andP [a b]; move: (leq_ltn_trans a b); rewrite ltnn.
  - case er: (run gaps ls eps mc g0) => [l g].
    have hs' : seq.size (rcons lams l) = seq.size (rcons gaps g) by rewrite !size_rcons hs.
    have /= [h1 h2 h3] := IH _ _ hs'. set r := eig_loop _ _ _ _ _ _ _ _ _ _ _ _ in h1 h2 h3 *.
    have sg : (seq.size gaps < seq.size r.2)%nat.
      rewrite ltnNge. apply/negP => h. have := congr1 seq.size h1. rewrite size_take size_rcons.
      case: ifP => h' e; [by move: (leq_ltn_trans h (ltnW h')); rewrite ltnn|by move: h; rewrite e ltnn].
    have sl : (seq.size lams < seq.size r.1)%nat.
      rewrite ltnNge. apply/negP => h. have := congr1 seq.size h2. rewrite size_take size_rcons.
      case: ifP => h' e; [by move: (leq_ltn_trans h (ltnW h')); rewrite ltnn|by move: h; rewrite e ltnn].
    have t1 : seq.take (seq.size gaps) r.2 = gaps.
      have := congr1 (seq.take (seq.size gaps)) h1. rewrite size_rcons take_take // -cats1 take_size_cat //.
    have t2 : seq.take (seq.size lams) r.1 = lams.
      have := congr1 (seq.take (seq.size lams)) h2. rewrite size_rcons take_take // -cats1 take_size_cat //.
    split=> // i /andP [a b]. move: a. rewrite leq_eqVlt => /orP [/eqP <-|a].
    + rewrite t1 er. congr (_, _).
      * have := congr1 (fun t => seq.nth 0 t (seq.size lams)) h2. rewrite size_rcons nth_take // nth_rcons ltnn eqxx -hs //.
      * have := congr1 (fun t => seq.nth zero t (seq.size gaps)) h1. rewrite size_rcons nth_take // nth_rcons ltnn eqxx //.
    + apply: h3. by rewrite size_rcons addSnnS b a.
Qed.
Lemma get_eig_char eps mc g0 g0s shift n :
  let s := (run [::] None eps mc g0s).1 in
  let ls := if shift then Some (if cgt0 s then 0 else s) else None in
  let r := get_eig nx ny nz nv K eps mc g0 g0s shift n in
  [/\ seq.size r.1 = n, seq.size r.2 = n &
   forall i, (i < n)%nat ->
     seq.nth 0 r.1 i = (run (seq.take i r.2) ls eps mc g0).1 + odflt 0 ls /\ seq.nth zero r.2 i = (run (seq.take i r.2) ls eps mc g0).2].
Proof.
  move=> s ls r. have [h1 h2] := @get_eig_size R nx ny nz nv K eps mc g0 g0s shift n.
  split=> // i hi. move: h1 h2. rewrite /r /get_eig -/s -/ls.
  have /= [_ _ h] := @eig_loop_take ls eps mc g0 n [::] [::] erefl.
  have z := (@eig_loop_size R nx ny nz nv K ls eps mc g0 n [::] [::]).1.
  case: (eig_loop _ _ _ _ _ _ _ _ _ _ _ _) h z => lams gaps /= h z _ _.
  have := h i hi. case: (run _ _ _ _ _) => l g [<- <-] /=. split=> //.
  case: ls {h} => [t|] /=; last by rewrite addr0.
  by rewrite (nth_map 0) // z.
Qed.
End GetEig.
