(** C05: util.uniquify. *)
From Coq Require Import String.
From Verif Require Import Base.PyBase Model.Util Proofs.UtilP.
Local Open Scope string_scope.

(** [existing] answers os.path.exists.  On a finite file system the loop ends (within length+2 tests), *)
Theorem C05_terminates : forall (fs : list string) (existing : string -> bool) path,
  (forall s, existing s = true -> In s fs) -> exists r, uniquify existing path (S (S (List.length fs))) = Some r.
Proof. exact uniquify_terminates. Qed.
Print Assumptions C05_terminates.
(** more fuel does not change the answer, *)
Theorem C05_fuel_irrelevant : forall existing path fuel r k, uniquify existing path fuel = Some r -> uniquify existing path (fuel + k) = Some r.
Proof. exact uniquify_mono. Qed.
Print Assumptions C05_fuel_irrelevant.
(** and the answer is [p ++ "/"] for an unused [p]: the path itself if it is free, otherwise
    root ++ "_" ++ k ++ extension with the least free k >= 1 (root ++ extension = path). *)
Theorem C05_result_unused : forall existing path fuel r, uniquify existing path fuel = Some r ->
  let root := fst (splitext path) in let ext := snd (splitext path) in
  (root ++ ext = path) /\
  ((existing path = false /\ r = path ++ "/") \/
   (existing path = true /\ exists k, (1 <= k)%nat /\
      r = (root ++ "_" ++ str_of_nat k ++ ext) ++ "/" /\ existing (root ++ "_" ++ str_of_nat k ++ ext) = false /\
      forall j, (1 <= j < k)%nat -> existing (root ++ "_" ++ str_of_nat j ++ ext) = true)).
Proof. exact uniquify_result_full. Qed.
Print Assumptions C05_result_unused.
Example C05_example :
  let fs := ["run.d/out.v1"; "run.d/out_1.v1"; "run.d/out_2.v1"] in
  let existing := fun s => existsb (String.eqb s) fs in
  uniquify existing "run.d/out.v1" 5 = Some "run.d/out_3.v1/" /\ uniquify existing "new" 5 = Some "new/" /\
  (forall s, existing s = true -> In s fs).
Proof.
  cbv zeta. split; [reflexivity|]. split; [reflexivity|]. intros s H. apply existsb_exists in H.
  destruct H as (x & Hx & E). apply String.eqb_eq in E. now subst.
Qed.
