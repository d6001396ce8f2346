(** A function evaluated on the irreducible zone and unfolded. *)
From Coq Require Import String ZArith List Lia.
From Verif Require Import Base.PyBase Base.PyFacts Base.Arr Spec.BZSpec Model.BrillouinZone Proofs.BrillouinZoneP.
Import ListNotations.
Local Open Scope Z_scope.
Local Open Scope list_scope.
Set Implicit Arguments.

Definition map3 {A B} (f : A -> B) (m : list (list (list A))) : list (list (list B)) := map (map (map f)) m.
Lemma flatten3_map A B (h : A -> B) m : flatten3 (map3 h m) = map h (flatten3 m).
Proof.
  unfold flatten3, map3. rewrite map_map. rewrite concat_map, map_map. f_equal. apply map_ext. intros r. now rewrite concat_map.
Qed.
Lemma shape3_map A B (h : A -> B) m a b c : shape3 m a b c -> shape3 (map3 h m) a b c.
Proof.
  intros [H1 H2]. unfold map3. split; [now rewrite zlen_map|]. intros r Hr. apply in_map_iff in Hr. destruct Hr as (r0 & <- & Hr).
  destruct (H2 r0 Hr) as [H3 H4]. split; [now rewrite zlen_map|]. intros s Hs. apply in_map_iff in Hs. destruct Hs as (s0 & <- & Hs). rewrite zlen_map. now apply H4.
Qed.
Lemma at3_map A B (h : A -> B) m k : at3 (map3 h m) k = option_map h (at3 m k).
Proof.
  destruct k as [[x y] z]. unfold at3, get3, map3. rewrite zget_map. destruct (zget m x) as [r|]; [|reflexivity]. cbn [obind option_map].
  unfold get2. rewrite zget_map. destruct (zget r y) as [s|]; [|reflexivity]. cbn [obind option_map]. now rewrite zget_map.
Qed.
Lemma py_get_map A B (h : A -> B) l i : py_get (map h l) i = match py_get l i with Ok a => Ok (h a) | Raise e => Raise e end.
Proof. unfold py_get. rewrite zlen_map, zget_map. now destruct (zget l _). Qed.
Lemma take_map A B (h : A -> B) l idx r : take l idx = Ok r -> take (map h l) idx = Ok (map h r).
Proof.
  unfold take. intros H. apply mapM_ok in H. apply mapM_ok. induction H as [|i a idx r Hi H IH]; cbn [map]; constructor; [|assumption]. now rewrite py_get_map, Hi.
Qed.
Lemma mapM_ext_in A B (f f' : A -> res B) l : (forall x, In x l -> f x = f' x) -> mapM f l = mapM f' l.
Proof. induction l as [|x l IH]; intros H; [reflexivity|]. cbn [mapM]. rewrite H by (now left). rewrite IH; [reflexivity|]. intros y Hy. apply H. now right. Qed.

Lemma fit_mesh A B (E : A -> res B) (T : A -> B) nx ny nz syms g (f : list (list (list A))) : 0 < nx -> 0 < ny -> 0 < nz -> Forall known syms ->
  make_kgrid nx ny nz syms = Ok g -> shape3 f nx ny nz ->
  (forall s k, In s syms -> on_mesh nx ny nz k -> at3 f (point_op nx ny nz s k) = at3 f k) ->
  (forall a, In a (flatten3 f) -> E a = Ok (T a)) ->
  exists irr, mapM (fun ind => let! row := py_get (flatten3 f) ind in E row) (irrk_ind g) = Ok irr /\
    forall D (c : B -> D), map_irrk2fbz g (map c irr) = Ok (map3 (fun a => c (T a)) f).
Proof.
  intros Hx Hy Hz Hk G Sf Hs HE.
  destruct (@fold_unfold _ nx ny nz syms g f Hx Hy Hz Hk G Sf Hs) as (ir0 & E0 & L0 & _).
  exists (map T ir0). unfold map_fbz2irrk in E0. split.
  - apply (take_map T) in E0. rewrite <- E0. unfold take. apply mapM_ext_in. intros i _. rewrite py_get_map.
    unfold py_get. destruct (zget (flatten3 f) _) as [a|] eqn:Ea; [|reflexivity]. cbn [bind]. apply HE. eapply zget_In; eassumption.
  - intros D c. rewrite map_map. destruct (@fold_unfold _ nx ny nz syms g (map3 (fun a => c (T a)) f) Hx Hy Hz Hk G) as (ir1 & E1 & L1 & U1).
    + now apply shape3_map.
    + intros s k Hin Hkm. now rewrite !at3_map, (Hs s k Hin Hkm).
    + unfold map_fbz2irrk in E1. rewrite flatten3_map, (take_map (fun a => c (T a)) _ _ E0) in E1. injection E1 as <-. exact U1.
Qed.
