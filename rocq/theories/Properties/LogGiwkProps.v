(** C116, continued: the Green function a run checks and the estimate for it. *)
From mathcomp Require Import all_ssreflect all_algebra.
From mathcomp.real_closed Require Import complex.
From Coq Require Import ZArith Reals Lia Lra.
From Verif Require Import Base.PyBase Model.TwoPoint Model.GFObject Spec.LogChecksSpec Model.LogChecks Proofs.GFObjectP Properties.GFObjectProps.
From Verif Require Model.Config.
Import Order.TTheory GRing.Theory Num.Theory.
Set Implicit Arguments. Unset Strict Implicit. Unset Printing Implicit Defensive.

Section Props.
Variable F : rcfType.
Variables (K KS : finType) (bc : K -> KS) (s : selfenergy F KS) (ek : K -> F) (beta : F).
Variables (rexp : F -> F) (newton : (F -> F) -> F -> option F).

(** Refuted: the check of mu compares nothing.  The Green function of the run is made with mu_dmft (dga_main.py:90) and keeps it, so the two numbers are always the same. *)
Theorem C116_mu_finding (mu : F) niv shell o : make_gf bc s ek beta rexp newton (Some mu) None niv shell = Ok o -> o_mu o = mu.
Proof.
  rewrite /make_gf /gf_mu_n /=. case: (whole _ _) => //= core. case E: (o_set_g_asympt _ _ _ _ _) => [o' [e|]] //. move: E. rewrite set_ok => -[<-] /=.
  rewrite /o_set_gloc /o_k_mean /= => -[<-] //.
Qed.

Variables (mu n : option F) (niv shell : Z) (o : gf_obj F K).
Hypothesis HK : (0 < #|K|)%nat.
Hypothesis HL : forall k, zlen (se_sigma s k) = Z.of_nat (se_niv s).
Hypothesis HC : (0 <= se_core s <= Z.of_nat (se_niv s))%Z.
Hypothesis Ho : make_gf bc s ek beta rexp newton mu n niv shell = Ok o.
Hypothesis Hn : (0 <= niv)%Z.
(** GB the object takes *)
Definition giwk_gb : Rdefinitions.R := gb (Z.of_nat (o_size o)).

Lemma giwk_entries : Z.of_nat (o_size o) = (Z.of_nat #|K| * (2 * (se_core s + niv)))%Z.
Proof. have H := @C104_frequencies F K KS bc s ek beta rexp newton mu n niv shell o HK HL HC Ho [::] Hn. by case: H => _ [_ [_ [_ [_ [E _]]]]]. Qed.
Lemma est_giwk nq b : Config.niv_asympt b = niv -> e_giwk (estimated_memory nq (Z.of_nat #|K|) b) = gb (Z.of_nat #|K| * (2 * (Config.niv_full b + niv)))%Z.
Proof. move=> E. rewrite /estimated_memory /gb. cbn [e_giwk]. rewrite E. congr (Rdiv (IZR _) _). ring. Qed.
Lemma gb_le x y : Rle (gb x) (gb y) <-> (x <= y)%Z.
Proof.
  rewrite /gb. split => H.
  - have: Rle (IZR (16 * x)) (IZR (16 * y)) by move: H; rewrite /Rdiv; move=> H; apply: (Rmult_le_reg_r (/ 1000000000)) => //; lra. move=> /le_IZR. lia.
  - rewrite /Rdiv. apply: Rmult_le_compat_r; first lra. apply: IZR_le. lia.
Qed.
(** The estimate for the Green function - "just an upper bound" - is one exactly if the core of the self-energy is not larger than niv_full. *)
Theorem C116_giwk nq b : Config.niv_asympt b = niv -> (Rle giwk_gb (e_giwk (estimated_memory nq (Z.of_nat #|K|) b)) <-> (se_core s <= Config.niv_full b)%Z).
Proof.
  move=> E. rewrite (est_giwk _ E) /giwk_gb giwk_entries gb_le. have P : (0 < Z.of_nat #|K|)%Z by move/ssrnat.ltP: HK; lia. split => H; nia.
Qed.
(** Refuted: as the core has at least 20 frequencies, the estimate is too small for every box with niv_full < 20. *)
Theorem C116_giwk_refuted nq b (sigma : KS -> list (complex F)) len pb pos m0 m1 err : Config.niv_asympt b = niv -> s = make_selfenergy sigma len pb pos m0 m1 err None -> (Config.niv_full b < 20)%Z ->
  Rlt (e_giwk (estimated_memory nq (Z.of_nat #|K|) b)) giwk_gb.
Proof.
  move=> E Es Hb. have C : (20 <= se_core s)%Z. { rewrite Es /make_selfenergy /= /estimate_niv_core /niv_core_min. case: (Z.ltb_spec _ 20) => H; lia. }
  apply: Rnot_le_lt => /(C116_giwk nq E). lia.
Qed.
End Props.
Print Assumptions C116_mu_finding.
Print Assumptions C116_giwk.
Print Assumptions C116_giwk_refuted.

(** ** A case: 40 frequencies, core estimated, 10 more frequencies, two momenta *)
Lemma argmax_le (l : list bool) : (argmax l <= size l)%nat.
Proof. rewrite /argmax. case: ifP => // _. exact: find_size. Qed.
Lemma size_lmap A B (f : A -> B) (l : list A) : size (List.map f l) = size l.
Proof. by elim: l => //= x l ->. Qed.
Lemma size_combine_le A B (a : list A) (b : list B) : (size (List.combine a b) <= size a)%nat.
Proof. elim: a b => [|x a IH] [|y b] //=. exact: IH. Qed.
Local Open Scope ring_scope.
Definition ex_se (F : rcfType) : selfenergy F [finType of unit] := make_selfenergy (fun _ => nseq 40%nat 0) 40%nat 1 true (Some 0) (Some 0) 1 None.
Lemma ex_core (F : rcfType) : (20 <= se_core (ex_se F) <= 40)%Z.
Proof.
  rewrite /ex_se /make_selfenergy /se_core /estimate_niv_core /niv_core_min. set km := kmean_v _ _. set l1 := map _ _. set l2 := map _ _.
  have Sk : size km = 40%nat by [].
  have S1 : (argmax l1 <= 40)%nat by apply: leq_trans (argmax_le _) _; rewrite /l1 ?size_map ?size_lmap -Sk; exact: size_combine_le.
  have S2 : (argmax l2 <= 40)%nat by apply: leq_trans (argmax_le _) _; rewrite /l2 ?size_map ?size_lmap -Sk; exact: size_combine_le.
  move/ssrnat.leP: S1 => S1. move/ssrnat.leP: S2 => S2. case: (Z.ltb_spec _ 20) => H; lia.
Qed.
Example C116_ex_giwk (F : rcfType) (rexp : F -> F) newton : exists o,
  make_gf (fun _ : bool => tt) (ex_se F) (fun b : bool => if b then 1 else (- 1)) 1 rexp newton (Some 0) None 10%Z 5%Z = Ok o /\
  Rlt (e_giwk (estimated_memory 2%Z 2%Z (Config.Box 4 8 0 10))) (giwk_gb o).
Proof.
  have HB : (0 < #|[finType of bool]|)%nat by rewrite card_bool. have HC := ex_core F.
  have HL : forall k, zlen (se_sigma (ex_se F) k) = Z.of_nat (se_niv (ex_se F)) by [].
  have HC' : (0 <= se_core (ex_se F) <= Z.of_nat (se_niv (ex_se F)))%Z by move: HC; rewrite /=; lia.
  have [[_ H] _] := @C104_construction F [finType of bool] [finType of unit] (fun _ : bool => tt) (ex_se F) (fun b : bool => if b then 1 else (- 1)) 1 rexp newton (Some 0) None 10%Z 5%Z HB HL (proj1 HC').
  have [|o Ho] := H; [by split; [left|lia]|]. exists o. split=> //.
  have := @C116_giwk_refuted F [finType of bool] [finType of unit] (fun _ : bool => tt) (ex_se F) (fun b : bool => if b then 1 else (- 1)) 1 rexp newton (Some 0) None 10%Z 5%Z o HB HL HC' Ho ltac:(by []) 2%Z (Config.Box 4 8 0 10) (fun _ => nseq 40%nat 0) 40%nat 1 true (Some 0) (Some 0) 1 erefl erefl ltac:(by []).
  by rewrite card_bool.
Qed.
