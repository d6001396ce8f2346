(** C104: the Green's function object over its lifetime (two_point.py:318-464); additions to C66 and C68. *)
From mathcomp Require Import all_ssreflect all_algebra.
From mathcomp.real_closed Require Import complex.
From Coq Require Import String ZArith Lia.
From Verif Require Import Base.PyBase Base.PyFacts Model.Matsubara Model.TwoPoint Model.GFObject Spec.TwoPointSpec.
From Verif Require Import Proofs.MatsubaraP Proofs.TwoPointP Proofs.TwoPointFillP Proofs.GFObjectP.
Import Order.TTheory GRing.Theory Num.Theory.
Set Implicit Arguments. Unset Strict Implicit. Unset Printing Implicit Defensive.
Local Open Scope ring_scope.
Local Open Scope complex_scope.

Section Props.
Variable R : rcfType.
Notation C := R[i].
Variables (K KS : finType) (bc : K -> KS) (s : selfenergy R KS) (ek : K -> R) (beta : R).
Variables (rexp : R -> R) (newton : (R -> R) -> R -> option R) (mu n : option R) (niv shell : Z) (o : gf_obj R K).
(** there is a momentum; the stored rows have one length, the core lies inside; the object was constructed *)
Hypothesis HK : (0 < #|K|)%nat.
Hypothesis HL : forall k, zlen (se_sigma s k) = Z.of_nat (se_niv s).
Hypothesis HC : (0 <= se_core s <= Z.of_nat (se_niv s))%Z.
Hypothesis Ho : make_gf bc s ek beta rexp newton mu n niv shell = Ok o.

(** the value of the Green's function at momentum k and frequency index v, from the self-energy the caller sees *)
Definition dyson (m : R) (sig : KS -> Z -> C) (k : K) (v : Z) : C := 1 / (Complex 0 (nu (se_pb s) v) + m%:C - (ek k)%:C - sig (bc k) v).
Definition mean_k (f : K -> Z -> C) (v : Z) : C := (\sum_(k : K) f k v) / #|K|%:R.

(** After any sequence of calls of set_g_asympt everything the object reports is about one function on one grid:
    core + (last argument) frequencies on either side. *)
Theorem C104_consistent (calls : list Z) : (0 <= List.last calls niv)%Z ->
  let o' := o_history bc s ek o calls in
  let N := (se_core s + List.last calls niv)%Z in
  exists sig : KS -> Z -> C,
    (forall m k, (0 <= m)%Z -> on_grid (get_siw s m k) m (sig k)) /\
    (exists f, o_full o' = Some f /\ forall k, on_grid (f k) N (dyson (o_mu o) sig k)) /\
    (forall k, on_grid (o_g_full o' k) N (dyson (o_mu o) sig k)) /\
    (forall k, on_grid (o_core o' k) (se_core s) (dyson (o_mu o) sig k)) /\
    (exists l, o_g_loc o' = Some l /\ on_grid l N (mean_k (dyson (o_mu o) sig))) /\
    (exists l, o_k_mean o' "full" = Ok l /\ on_grid l N (mean_k (dyson (o_mu o) sig))) /\
    (exists l, o_k_mean o' "core" = Ok l /\ on_grid l (se_core s) (mean_k (dyson (o_mu o) sig))) /\
    (forall cpi k, (0 < N)%Z -> o_fs s cpi o' k = Ok (- complex.Im (dyson (o_mu o) sig k 0) / cpi)).
Proof.
  move=> Hn o' N. have Hs : se_ok s by []. have [m [f [core [E1 [E2 Eo]]]]] := make_inv Ho.
  have Eo' : o' = after bc s ek m f core (List.last calls niv) by rewrite /o' Eo history_ok.
  rewrite Eo' Eo /=. exists (se_value s). split; [by move=> *; exact: get_siw_ok|].
  have GF : forall k, on_grid (concatenate_core_asmypt (core k) (asympt_of bc s ek m (List.last calls niv) k)) N (dyson m (se_value s) k).
  { move=> k. exact: (full_grid Hs E2). }
  have GC : forall k, on_grid (core k) (se_core s) (dyson m (se_value s) k) by move=> k; exact: (core_grid Hs E2).
  have HN : (0 <= N)%Z by rewrite /N; lia.
  split; [by eexists; split; [reflexivity|]|]. split=> //. split=> //.
  split. { eexists; split; [reflexivity|]. rewrite (row_len_grid HK GF). exact: kmean_on_grid. }
  split. { rewrite /o_k_mean /=. eexists; split; [reflexivity|]. rewrite (row_len_grid HK GF). exact: kmean_on_grid. }
  split. { rewrite /o_k_mean /=. eexists; split; [reflexivity|]. rewrite (row_len_grid HK GC). apply: kmean_on_grid => //. lia. }
  move=> cpi k HN0. have [L V] := GF k. rewrite /o_fs /= /o_g_full /= -/N /py_get. case: (Z.ltb_spec N 0) => [|_]; first lia.
  have := V 0%Z ltac:(lia). rewrite Z.add_0_r => ->. by [].
Qed.
(** and the frequencies and sizes it reports fit the arrays *)
Theorem C104_frequencies (calls : list Z) : (0 <= List.last calls niv)%Z ->
  let o' := o_history bc s ek o calls in
  let N := (se_core s + List.last calls niv)%Z in
  o_niv_asympt o' = Some (List.last calls niv) /\ o_niv_full s o' = Ok N /\
  (exists l, o_vn s o' = Ok l /\ zlen l = (2 * N)%Z /\ forall v, (- N <= v < N)%Z -> zget l (N + v) = Some v) /\
  (exists l, o_v s o' = Ok l /\ zlen l = (2 * N)%Z /\ forall v, (- N <= v < N)%Z -> zget l (N + v) = Some (nu (se_pb s) v)) /\
  (zlen (o_v_core s o') = (2 * se_core s)%Z /\ forall v, (- se_core s <= v < se_core s)%Z -> zget (o_v_core s o') (se_core s + v) = Some (nu (se_pb s) v)) /\
  Z.of_nat (o_size o') = (Z.of_nat #|K| * (2 * N))%Z /\ Z.of_nat (o_bytes o') = (Z.of_nat (o_size o') * Z.of_nat (o_itemsize o'))%Z.
Proof.
  move=> Hn o' N. have Hs : se_ok s by []. have [m [f [core [E1 [E2 Eo]]]]] := make_inv Ho.
  have Eo' : o' = after bc s ek m f core (List.last calls niv) by rewrite /o' Eo history_ok.
  have GF : forall k, on_grid (concatenate_core_asmypt (core k) (asympt_of bc s ek m (List.last calls niv) k)) N (g_value bc s ek m k).
  { move=> k. exact: (full_grid Hs E2). }
  have HN : (0 <= N)%Z by rewrite /N; lia.
  have Hvn : forall M, (0 <= M)%Z -> zlen (vn M 0 false) = (2 * M)%Z /\ forall v, (- M <= v < M)%Z -> zget (vn M 0 false) (M + v) = Some v.
  { move=> M HM. split; [rewrite /vn zlen_arange; lia|]. move=> v Hv. rewrite /vn zget_arange; [f_equal; lia|lia]. }
  rewrite Eo'. split=> //. split=> //.
  split. { rewrite /o_vn /=. eexists; split; [reflexivity|]. exact: Hvn. }
  split. { rewrite /o_v /=. eexists; split; [reflexivity|]. have [L V] := Hvn N HN. rewrite -/N zlen_map. split=> // v Hv. by rewrite zget_map V. }
  split. { rewrite /o_v_core. have [L V] := Hvn (se_core s) (proj1 HC). rewrite zlen_map. split=> // v Hv. by rewrite zget_map V. }
  have Er : row_len (fun k => concatenate_core_asmypt (core k) (asympt_of bc s ek m (List.last calls niv) k)) = Z.to_nat (2 * N) by exact: (row_len_grid HK GF).
  rewrite /o_size /o_bytes /o_itemsize /after. cbn [o_full]. rewrite Er. split; last by rewrite [LHS]Nat2Z.inj_mul. rewrite Nat2Z.inj_mul. f_equal. lia.
Qed.
(** core, chemical potential and filling are those of the construction; no call fails, whatever its argument *)
Theorem C104_kept (calls : list Z) (m : Z) : let o' := o_history bc s ek o calls in
  o_mu o' = o_mu o /\ o_n o' = o_n o /\ o_core o' = o_core o /\ (o_set_g_asympt bc s ek o' m).2 = None.
Proof.
  move=> o'. have [mu' [f [core [E1 [E2 Eo]]]]] := make_inv Ho.
  have Eo' : o' = after bc s ek mu' f core (List.last calls niv) by rewrite /o' Eo history_ok.
  rewrite Eo' Eo. do 3 (split; first by []). by rewrite set_ok.
Qed.
(** the last call alone decides: the object equals a newly constructed one *)
Theorem C104_last_wins (calls : list Z) (m : Z) :
  make_gf bc s ek beta rexp newton mu n m shell = Ok (o_history bc s ek o (calls ++ [:: m])).
Proof.
  have [mu' [f [core [E1 [E2 Eo]]]]] := make_inv Ho. rewrite (make_ok m E1 E2). f_equal. by rewrite Eo history_ok List.last_last.
Qed.
(** the energies pass their assertions at every point of the history *)
Theorem C104_energies (calls : list Z) : (0 <= List.last calls niv)%Z ->
  let o' := o_history bc s ek o calls in let N := (se_core s + List.last calls niv)%Z in
  exists g : K -> list C, (forall k, g_full bc s ek (o_mu o) (List.last calls niv) k = Ok (g k)) /\
  o_e_kin ek beta o' = Ok (complex.Re (e_kin_c beta ek g (Z.to_nat (2 * N)))) /\
  o_e_pot bc s beta o' = Ok (e_pot bc beta s (List.last calls niv) g (Z.to_nat (2 * N)) (o_n o)).
Proof.
  move=> Hn o' N. have Hs : se_ok s by []. have [m [f [core [E1 [E2 Eo]]]]] := make_inv Ho.
  have Eo' : o' = after bc s ek m f core (List.last calls niv) by rewrite /o' Eo history_ok.
  pose g := fun k => concatenate_core_asmypt (core k) (asympt_of bc s ek m (List.last calls niv) k).
  have Hg : forall k, g_full bc s ek m (List.last calls niv) k = Ok (g k) by move=> k; exact: full_is.
  have GF : forall k, on_grid (g k) N (g_value bc s ek m k) by move=> k; exact: (full_grid Hs E2).
  exists g. rewrite Eo Eo'. split=> //. have Ht : 0 < tol R by rewrite /tol invr_gt0 exprn_gt0 // ltr0n.
  rewrite /o_e_kin /o_e_pot /= /o_g_full /= -/g (row_len_grid HK GF).
  have [_ I1] := e_kin_value beta Hs Hn Hg. have [_ I2] := e_pot_value beta Hs Hn Hg. rewrite -/N in I1 I2.
  by rewrite I1 I2 normr0 Ht.
Qed.
(** asking for any other range than "core" or "full" is refused *)
Theorem C104_other_range (calls : list Z) (r : string) : r <> "core"%string -> r <> "full"%string ->
  o_k_mean (o_history bc s ek o calls) r = Raise ValueError.
Proof. move=> H1 H2. rewrite /o_k_mean. by case: String.eqb_spec => //; case: String.eqb_spec. Qed.
(** Refuted for a negative number of frequencies: it is accepted, the arrays hold the core only, but the frequencies
    and niv_full shrink, and fs reads a negative frequency, where the weight has the opposite sign. *)
Theorem C104_negative_refuted (calls : list Z) (m : Z) : (- se_core s <= m < 0)%Z ->
  let o' := o_history bc s ek o (calls ++ [:: m]) in
  (exists f, o_full o' = Some f /\ forall k, f k = o_core o k /\ zlen (f k) = (2 * se_core s)%Z) /\
  o_niv_full s o' = Ok (se_core s + m)%Z /\
  (exists l, o_v s o' = Ok l /\ zlen l = (2 * se_core s + 2 * m)%Z) /\
  exists G : K -> Z -> C, (forall k, on_grid (o_core o k) (se_core s) (G k)) /\
    forall cpi k, o_fs s cpi o' k = Ok (complex.Im (G k (- m - 1)%Z) / cpi).
Proof.
  move=> Hm o'. have Hs : se_ok s by []. have [mu' [f [core [E1 [E2 Eo]]]]] := make_inv Ho.
  have Eo' : o' = after bc s ek mu' f core m by rewrite /o' Eo history_ok List.last_last.
  have GC := core_grid Hs E2. have FN : forall k, concatenate_core_asmypt (core k) (asympt_of bc s ek mu' m k) = core k by move=> k; apply: full_neg; lia.
  rewrite Eo' Eo. split. { eexists; split; [reflexivity|]. move=> k /=. rewrite FN. split=> //. by have [L _] := GC k. }
  split=> //. split. { rewrite /o_v /o_niv_full /after. cbn [o_niv_asympt bind]. eexists; split; [reflexivity|]. rewrite zlen_map /vn zlen_arange. lia. }
  exists (g_value bc s ek mu'). split; [exact: GC|]. move=> cpi k. have [L V] := GC k.
  rewrite /o_fs /= /o_g_full /= FN /py_get. case: (Z.ltb_spec (se_core s + m) 0) => [|_]; first lia.
  rewrite V; last lia. rewrite /=. do 2 f_equal. have := g_value_sym bc s ek mu' k m => E. rewrite E. by case: (g_value bc s ek mu' k m) => a b.
Qed.
End Props.
Print Assumptions C104_consistent.
Print Assumptions C104_frequencies.
Print Assumptions C104_kept.
Print Assumptions C104_last_wins.
Print Assumptions C104_energies.
Print Assumptions C104_other_range.
Print Assumptions C104_negative_refuted.

(** The constructor fails exactly when neither mu nor n is given or the stored data is shorter than the core. *)
Theorem C104_construction (R : rcfType) (K KS : finType) (bc : K -> KS) (s : selfenergy R KS) (ek : K -> R) (beta : R) rexp newton mu n niv shell :
  (0 < #|K|)%nat -> (forall k, zlen (se_sigma s k) = Z.of_nat (se_niv s)) -> (0 <= se_core s)%Z ->
  ((exists o, make_gf bc s ek beta rexp newton mu n niv shell = Ok o) <-> ((mu <> None \/ n <> None) /\ (se_core s <= Z.of_nat (se_niv s))%Z)) /\
  forall e, make_gf bc s ek beta rexp newton mu n niv shell = Raise e -> e = ValueError.
Proof.
  move=> HK HL H0.
  have HM : (mu <> None \/ n <> None) -> exists m f, gf_mu_n rexp newton mu n (ivs (se_pb s) (se_core s + shell)) ek (fun k => get_siw s (se_core s + shell) (bc k)) beta (se_smom0 s) = Ok (m, f).
  { rewrite /gf_mu_n. case: n => [n'|]; [by eexists; eexists|]. case: mu => [m'|]; [by eexists; eexists|]. by case. }
  have HF : ~ (mu <> None \/ n <> None) -> gf_mu_n rexp newton mu n (ivs (se_pb s) (se_core s + shell)) ek (fun k => get_siw s (se_core s + shell) (bc k)) beta (se_smom0 s) = Raise ValueError.
  { clear HM. rewrite /gf_mu_n. case: n => [n'|] H; [by exfalso; apply: H; right|]. case: mu H => [m'|] H //. by exfalso; apply: H; left. }
  have HD : (mu <> None \/ n <> None) \/ ~ (mu <> None \/ n <> None).
  { clear HM HF. case: mu => [a|]; [by left; left|]. case: n => [a|]; [by left; right|]. by right; case. }
  have HS : (Z.of_nat (se_niv s) < se_core s)%Z -> forall m, whole [::] (build_g_core bc s ek m) = Raise ValueError.
  { move=> Hlt m. apply: whole_raise => // k. exact: short_core. }
  case: (Z.leb_spec (se_core s) (Z.of_nat (se_niv s))) => Hc.
  - have Hs : se_ok s by split.
    have HW : forall m, exists core, whole [::] (build_g_core bc s ek m) = Ok core.
    { move=> m. rewrite /whole. case: pickP => [k|_]; last by eexists. have [g [E _]] := build_core_ok bc ek m k Hs. by rewrite E. }
    case: HD => HD.
    + have [m [f E]] := HM HD. have [core E2] := HW m. have E3 := make_ok niv E E2. split; [|by rewrite E3]. split=> // _. by eexists; exact: E3.
    + have E := HF HD. have E3 : make_gf bc s ek beta rexp newton mu n niv shell = Raise ValueError by rewrite /make_gf E.
      split; [|by rewrite E3 => e [<-]]. split=> [[o]|[/HD //]]. by rewrite E3.
  - have E3 : make_gf bc s ek beta rexp newton mu n niv shell = Raise ValueError.
    { case: HD => HD; last by rewrite /make_gf (HF HD). have [m [f E]] := HM HD. by rewrite /make_gf E /= HS. }
    split; [|by rewrite E3 => e [<-]]. split=> [[o]|[_]]; [by rewrite E3|lia].
Qed.
Print Assumptions C104_construction.

(** ** C68: the primitive search *)
(** update_mu_primitive cannot return: its function indexes a scalar, and only RuntimeError is caught. *)
Theorem C68_primitive_refuted (R : rcfType) (K : finType) rest (mu0 target : R) ivl (hk : K -> R) siwk beta :
  update_mu_primitive rest mu0 target ivl hk siwk beta = Raise IndexError.
Proof. by []. Qed.
Print Assumptions C68_primitive_refuted.

(** ** C66: sigma_const *)
(** -i*delta is stored and returned up to the core; from there on the "constant" decays: with N positive frequencies
    and W = max(4, N/5) the value at index v is -i*delta*(2N-W)/(2v+1), equal to -i*delta at no index unless W is odd
    and v = N-(W+1)/2. *)
Theorem C66_sigma_const (R : rcfType) (KS : finType) (pb delta err : R) (N : nat) : (0 < #|KS|)%nat -> (20 <= N)%nat -> 0 < pb ->
  let s := sigma_const KS pb delta (N + N) err in let W := Z.max 4 (Z.of_nat N / 5) in
  (20 <= se_core s <= Z.of_nat N)%Z /\
  forall niv k v, (0 <= v < niv)%Z -> zget (get_siw s niv k) (niv + v) =
    Some (if Z.ltb v (se_core s) then Complex 0 (- delta) else Complex 0 (- (delta * (zR R (2 * Z.of_nat N - W) / zR R (2 * v + 1))))).
Proof.
  move=> HK HN Hp s W. have [Hs [EN [M0 [M1 [P [B E]]]]]] := @const_se R KS pb delta err N HK HN. rewrite -/s in Hs EN M0 M1 P B E.
  have [HL HC] := Hs. rewrite EN in HC.
  split; [lia|]. move=> niv k v Hv. have [_ V] := get_siw_ok k Hs (ltac:(lia) : (0 <= niv)%Z). rewrite V; last lia. f_equal. rewrite /se_value.
  case: (Z.ltb_spec v (se_core s)) => Hc.
  - rewrite insideT; last lia. rewrite /complete. case: (Z.leb_spec 0 v) => [_|]; last lia. rewrite E //. lia.
  - rewrite insideF; last lia. rewrite /tail_fun M0 M1 P. have Hnu := nu_gt0 Hp (proj1 Hv).
    have Hz : 0 < zR R (2 * v + 1) by apply: zR_gt0; lia.
    rewrite -[Complex 0 (nu pb v)]mul1r. rewrite sub0r -mulNr -[_ / _]/(_ * _).
    rewrite mul1r. apply/eqP. rewrite eq_complex. apply/andP; split; apply/eqP.
    + rewrite mulNr. rewrite [LHS](_ : _ = - complex.Re ((- (delta * (zR R (2 * Z.of_nat N - fit_window N) * pb)))%:C / Complex 0 (nu pb v))); last by case: (_ / _).
      rewrite Re_realM Re_inv /=. by rewrite mul0r mulr0 oppr0.
    + rewrite mulNr. rewrite [LHS](_ : _ = - complex.Im ((- (delta * (zR R (2 * Z.of_nat N - fit_window N) * pb)))%:C / Complex 0 (nu pb v))); last by case: (_ / _).
      rewrite Im_realM Im_inv. change (- (- (delta * (zR R (2 * Z.of_nat N - fit_window N) * pb)) * - (nu pb v / (0 ^+ 2 + nu pb v ^+ 2))) = - (delta * (zR R (2 * Z.of_nat N - W) / zR R (2 * v + 1)))).
      rewrite mulrNN expr0n /= add0r -/W -[fit_window N]/W -!mulrA. congr (- (_ * (_ * _))).
      rewrite -[RHS]/((zR R (2 * v + 1))^-1) /nu. move: Hz Hnu. rewrite /nu. set z := zR R (2 * v + 1)%Z. move=> Hz Hnu.
      apply: (mulfI (lt0r_neq0 Hz)). rewrite mulfV; last exact: lt0r_neq0.
      rewrite !mulrA -(mulrA (z * pb) z pb) -expr2 mulfV //. by rewrite expf_neq0 // lt0r_neq0.
Qed.
Print Assumptions C66_sigma_const.

(** the hypotheses are met: two momenta, a local self-energy with 30 stored frequencies and core 20 *)
Definition ex_sig (R : rcfType) : selfenergy R [finType of unit] := SelfEnergy (fun _ => repeat (Complex 1 (-1)) 30) 30 1 1 (-1) 20.
Example C104_ex (R : rcfType) (rexp : R -> R) newton : (0 < #|[finType of bool]|)%nat /\ (forall k, zlen (se_sigma (ex_sig R) k) = Z.of_nat (se_niv (ex_sig R))) /\
  (0 <= se_core (ex_sig R) <= Z.of_nat (se_niv (ex_sig R)))%Z /\
  exists o, make_gf (fun _ : bool => tt) (ex_sig R) (fun b : bool => if b then 1 else -1) 1 rexp newton (Some 0) None 10 5 = Ok o /\
  o_niv_asympt (o_history (fun _ : bool => tt) (ex_sig R) (fun b : bool => if b then 1 else -1) o [:: 3; -4; 7]%Z) = Some 7%Z.
Proof.
  have HB : (0 < #|[finType of bool]|)%nat by rewrite card_bool. split=> //. split=> //. split; [by split; apply/Z.leb_le|].
  have [[_ H] _] := @C104_construction R [finType of bool] [finType of unit] (fun _ : bool => tt) (ex_sig R) (fun b : bool => if b then 1 else -1) 1 rexp newton (Some 0) None 10 5 HB (fun _ => erefl) ltac:(by apply/Z.leb_le).
  have [|o Ho] := H; [by split; [left|apply/Z.leb_le]|]. exists o. split=> //.
  have := @C104_frequencies R [finType of bool] [finType of unit] (fun _ : bool => tt) (ex_sig R) (fun b : bool => if b then 1 else -1) 1 rexp newton (Some 0) None 10 5 o HB (fun _ => erefl) ltac:(by split; apply/Z.leb_le) Ho [:: 3; -4; 7]%Z ltac:(by apply/Z.leb_le).
  by move=> [-> _].
Qed.
