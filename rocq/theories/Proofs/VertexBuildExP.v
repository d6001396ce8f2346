(** The hypotheses of the end-to-end theorems are met by every choice of values: a complete parallel write exists. *)
From mathcomp Require Import all_ssreflect all_algebra.
From mathcomp.real_closed Require Import complex.
From Coq Require Import ZArith Lia String.
From Verif Require Import Base.PyBase Base.PyFacts Base.Arr Model.BrillouinZone Model.RankFiles Spec.BZSpec Spec.RankSpec Spec.PairingSpec
  Proofs.RankFilesP Proofs.RankLoadP Proofs.RankMainP.
Set Implicit Arguments. Unset Strict Implicit. Unset Printing Implicit Defensive.
Local Open Scope Z_scope.
Section Ex.
Variable R : rcfType.
Notation C := R[i].
Notation opp := (fun x : C => GRing.opp x).
(** the array of values of F *)
Definition tabulate (F : point -> Z -> Z -> Z -> C) (qs : list point) (niw niv : Z) : arr4 C :=
  List.map (fun q => List.map (fun w => List.map (fun v => List.map (fun v' => F q w v v') (arange (- niv) niv)) (arange (- niv) niv)) (arange (- niw) (niw + 1))) qs.
Lemma zget_map_arange A (f : Z -> A) lo hi n : lo <= n < hi -> zget (List.map f (arange lo hi)) (n - lo) = Some (f n).
Proof. move=> H. rewrite zget_map zget_arange; last lia. rewrite /=. do 2 f_equal. lia. Qed.
Lemma tabulate_values F qs niw niv : holds_values (tabulate F qs niw niv) qs niw niv F.
Proof.
  move=> j q w v v' Ej Hw Hv Hv'. rewrite /get4 /tabulate zget_map Ej /= /get3.
  replace (niw + w) with (w - (- niw)) by lia. rewrite zget_map_arange /=; last lia. rewrite /get2.
  replace (niv + v) with (v - (- niv)) by lia. rewrite zget_map_arange /=; last lia.
  replace (niv + v') with (v' - (- niv)) by lia. by rewrite zget_map_arange /=; last lia.
Qed.
Lemma tabulate_shape F qs niw niv : 0 <= niw -> 0 <= niv -> shape4 (tabulate F qs niw niv) (zlen qs) (2 * niw + 1) (2 * niv) (2 * niv).
Proof.
  move=> Hw Hv. rewrite /tabulate.
  have L : forall A (f : Z -> A) lo hi n, n = Z.max 0 (hi - lo) -> zlen (List.map f (arange lo hi)) = n by move=> A f lo hi n ->; rewrite zlen_map zlen_arange.
  split; [by rewrite zlen_map|move=> r H; apply List.in_map_iff in H; case: H => x [<- _]]. split; [apply: L; lia|move=> r' H; apply List.in_map_iff in H; case: H => y [<- _]].
  split; [apply: L; lia|move=> r'' H; apply List.in_map_iff in H; case: H => z [<- _]]. apply: L; lia.
Qed.
Lemma count_flat (f : Z -> nat) l r : List.In r l -> (f r <= List.count_occ Z.eq_dec (List.flat_map (fun x => List.repeat x (f x)) l) r)%coq_nat.
Proof.
  elim: l => [//|x l IH] /= H. rewrite List.count_occ_app. case: H => [->|H].
  - rewrite List.count_occ_repeat_eq //. lia.
  - move: (IH H) => IH'. lia.
Qed.
Lemma write_exists (c : cfg) (d : vdata C) nq p path name : cfg_ok c -> data_ok c d nq -> 0 <= nq -> 0 < p -> (do_vertex c = true -> 0 < niv_core c) ->
  exists fs0 todo sched s, written opp c d path name nq p fs0 todo sched s.
Proof.
  move=> Hc Hd Hn Hp Hv.
  pose todo r := if (0 <=? r) && (r <? p) then match rank_ops opp c d nq p r with Ok o => o | Raise _ => nil end else nil.
  pose fs0 : fsys C := fun _ => Some nil. pose sched := List.flat_map (fun r => List.repeat r (List.length (todo r))) (range p).
  have St : started opp c d path name nq p fs0 todo.
    split; [by []|split].
    - move=> r Hr. have [ts [f [_ [E _]]]] := @targets _ opp c Hc d nq p Hd Hn Hp Hv r Hr. rewrite /todo.
      have -> : (0 <=? r) = true by lia. have -> : (r <? p) = true by lia. by rewrite /= E.
    - move=> r Hr. rewrite /todo. case: (Z.leb_spec 0 r) => H1 //=. case: (Z.ltb_spec r p) => H2 //. lia.
  have [s Es] := @job_never_fails _ opp c Hc d nq p Hd Hn Hp Hv path name fs0 todo sched St.
  exists fs0, todo, sched, s. apply: (@job_terminates _ opp c Hc d nq p Hd Hn Hp Hv path name fs0 todo sched s St Es).
  move=> r Hr. apply: (count_flat (fun r => List.length (todo r))). rewrite /range. apply In_arange. lia.
Qed.
Lemma run_exists (c : cfg) (qs : list point) p path name F1m F2m F1d F2d : cfg_ok c -> 0 < p -> (do_vertex c = true -> 0 < niv_core c) ->
  exists (d : vdata C) fs0 todo sched s, data_ok c d (zlen qs) /\ written opp c d path name (zlen qs) p fs0 todo sched s /\
    holds_values (f1_magn d) qs (niw_core c) (niv_core c) F1m /\ holds_values (f2_magn d) qs (niw_core c) (niv_core c) F2m /\
    holds_values (f1_dens d) qs (niw_core c) (niv_core c) F1d /\ holds_values (f2_dens d) qs (niw_core c) (niv_core c) F2d.
Proof.
  move=> Hc Hp Hv. have [Hw [Hvv _]] := Hc.
  pose t F := tabulate F qs (niw_core c) (niv_core c). pose d := {| f1_dens := t F1d; f2_dens := t F2d; f1_magn := t F1m; f2_magn := t F2m |}.
  have Hd : data_ok c d (zlen qs).
    move=> ds a. rewrite /component. do 4 (case: String.eqb; first by case=> <-; exact: tabulate_shape). by [].
  have [fs0 [todo [sched [s W]]]] := @write_exists c d (zlen qs) p path name Hc Hd (zlen_nonneg _) Hp Hv.
  exists d, fs0, todo, sched, s. do 2 (split; first by []). do 3 (split; first exact: tabulate_values). exact: tabulate_values.
Qed.
End Ex.
