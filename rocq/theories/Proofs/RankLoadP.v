(** Loading the rank files. *)
From Coq Require Import String Ascii Sorting.Sorted.
From Verif Require Import Base.PyBase Base.PyFacts Base.Arr Model.Util Model.Matsubara Model.MpiAux Model.RankFiles
  Proofs.UtilP Proofs.MpiAuxP Proofs.MatsubaraP Proofs.StrP Proofs.MaskP Proofs.RankFilesP Proofs.RankOpsP Spec.RankSpec.
Set Implicit Arguments.
Local Open Scope string_scope.
Local Open Scope list_scope.
Local Open Scope Z_scope.

Lemma NoDup_concat_inj X (ts : list (list X)) : NoDup (concat ts) -> forall i j a b q, zget ts i = Some a -> zget ts j = Some b -> In q a -> In q b -> i = j.
Proof.
  induction ts as [|t ts IH]; intros Hn i j a b q Ha Hb Hqa Hqb; [rewrite zget_nil in Ha; discriminate|].
  cbn [concat] in Hn. rewrite zget_cons in Ha, Hb.
  assert (Hdis : forall x, In x t -> ~ In x (concat ts)).
  { clear -Hn. induction t as [|y t IH]; cbn in *; [tauto|]. inversion Hn; subst. intros x [->|Hx]; [rewrite in_app_iff in *; tauto|auto]. }
  assert (Hn' : NoDup (concat ts)).
  { clear -Hn. induction t as [|y t IH]; cbn in *; [assumption|]. inversion Hn; auto. }
  destruct (Z.eqb_spec i 0), (Z.eqb_spec j 0); subst; auto.
  - injection Ha as ->. exfalso. apply (Hdis q Hqa). apply in_concat. exists b. split; [eapply zget_In; eauto|assumption].
  - injection Hb as ->. exfalso. apply (Hdis q Hqb). apply in_concat. exists a. split; [eapply zget_In; eauto|assumption].
  - assert (i - 1 = j - 1) by (eapply IH; eauto). lia.
Qed.
Lemma tasks_owner nq p : 0 <= nq -> 0 < p ->
  (forall q, 0 <= q < nq -> exists r ts, 0 <= r < p /\ my_tasks nq p r = Ok ts /\ In q ts) /\
  (forall r r' ts ts' q, 0 <= r < p -> 0 <= r' < p -> my_tasks nq p r = Ok ts -> my_tasks nq p r' = Ok ts' -> In q ts -> In q ts' -> r = r').
Proof.
  intros Hn Hp. destruct (@tasks_partition nq p Hn Hp) as [tss [E C]]. apply mapM_zget in E. destruct E as [L G].
  rewrite zlen_arange in L.
  assert (G' : forall r, 0 <= r < p -> exists ts, zget tss r = Some ts /\ my_tasks nq p r = Ok ts).
  { intros r Hr. destruct (G r r) as [b [H1 H2]]; [rewrite zget_arange by lia; f_equal; lia|eauto]. }
  split.
  - intros q Hq. assert (In q (concat tss)) by (rewrite C; apply In_arange; lia). apply in_concat in H. destruct H as [ts [Hts Hin]].
    apply In_zget in Hts. destruct Hts as [r [Hr Hg]]. destruct (G' r ltac:(lia)) as [ts' [H1 H2]]. exists r, ts'. split; [lia|]. split; [assumption|]. congruence.
  - intros r r' ts ts' q Hr Hr' Et Et' Hq Hq'. destruct (G' r Hr) as [t1 [H1 H2]]. destruct (G' r' Hr') as [t2 [H3 H4]].
    apply (@NoDup_concat_inj _ tss) with (a := t1) (b := t2) (q := q); try congruence; try assumption. rewrite C. apply NoDup_arange.
Qed.

(** preimages *)
Lemma list_preimage X Y (f : X -> Y) (P : X -> Prop) l : (forall y, In y l -> exists x, P x /\ y = f x) -> exists l', l = map f l' /\ forall x, In x l' -> P x.
Proof.
  induction l as [|y l IH]; intros H; [exists []; split; [reflexivity|intros x []]|].
  destruct IH as [l' [-> Hl']]; [intros; apply H; now right|]. destruct (H y) as [x [Hx ->]]; [now left|].
  exists (x :: l'). split; [reflexivity|]. intros z [<-|Hz]; auto.
Qed.

(** loop rule *)
Lemma foldM_inv X S (f : S -> X -> res S) (Inv : list X -> S -> Prop) l :
  forall done s, Inv done s -> (forall done' s x, In x l -> Inv done' s -> exists s', f s x = Ok s' /\ Inv (done' ++ [x]) s') ->
  exists s', foldM f l s = Ok s' /\ Inv (done ++ l) s'.
Proof.
  induction l as [|x l IH]; intros done s H0 Hstep; cbn [foldM]; [rewrite app_nil_r; eauto|].
  destruct (Hstep done s x) as [s1 [E1 H1]]; [now left|assumption|]. rewrite E1. cbn [bind].
  destruct (IH (done ++ [x]) s1 H1) as [s2 [E2 H2]]; [intros; apply Hstep; auto; now right|].
  rewrite <- app_assoc in H2. eauto.
Qed.

Section P.
Variable A : Type.
Variables (opp : A -> A).
Variable c : cfg.
Hypothesis Hc : cfg_ok c.
Variable d : vdata A.
Variables nq p : Z.
Hypothesis Hd : data_ok c d nq.
Hypothesis Hnq : 0 <= nq.
Hypothesis Hp : 0 < p.
Hypothesis Hvp : vertex_pos c.
Variables (path name : string) (fs : fsys A).
(** the files are those the ranks have written *)
Definition rank_file (r : Z) (tasks : list Z) (f : h5file A) : Prop :=
  my_tasks nq p r = Ok tasks /\ run_ops (ops_pure opp c d tasks) [] = Ok f /\ fs (rank_fname path name r) = Some f.
Hypothesis Hfiles : forall r, 0 <= r < p -> exists tasks f, rank_file r tasks f.

Lemma rank_contents r tasks f : 0 <= r < p -> rank_file r tasks f ->
  (forall pf q w ds, in_dom c pf w -> In q tasks -> In ds names4 -> h5_get f (group_name pf q w, ds) = Some (V opp c d pf ds q w)) /\
  (forall q w, in_dom c "pv_" w -> In q tasks -> h5_get f (group_name "pv_" q w, "condition") = Some (DMask (condition (niv_pp c) w))) /\
  (forall g, In g (h5_keys f) <-> exists pf q w, in_dom c pf w /\ In q tasks /\ g = group_name pf q w) /\
  (forall q, In q tasks -> 0 <= q < nq).
Proof.
  intros Hr [H1 [H2 H3]]. destruct (@rank_ops_pure A opp c Hc d nq Hd p r Hvp Hnq Hp Hr) as [ts [E1 [_ [Hq Hnd]]]].
  assert (ts = tasks) by congruence. subst ts.
  destruct (@file_contents A opp c d tasks (fun q H => proj1 (Hq q H)) Hnd) as [f' [E [C1 [C2 C3]]]].
  assert (f' = f) by congruence. subst f'. auto.
Qed.

Definition gp (pf : string) (qw : Z * Z) : string := group_name pf (fst qw) (snd qw).
Lemma key_pairs r tasks f pf : 0 <= r < p -> rank_file r tasks f -> In pf ["pv_"; "f_"; "fq_"] ->
  exists P, filter (String.prefix pf) (h5_keys f) = map (gp pf) P /\ NoDup P /\ StronglySorted slt (map (gp pf) P) /\
    (forall q w, In (q, w) P <-> In q tasks /\ in_dom c pf w).
Proof.
  intros Hr Hf Hpf. destruct (rank_contents Hr Hf) as [C1 [C2 [C3 C4]]].
  destruct (@list_preimage _ _ (gp pf) (fun qw => In (fst qw) tasks /\ in_dom c pf (snd qw)) (filter (String.prefix pf) (h5_keys f))) as [P [E HP]].
  - intros g Hg. apply filter_In in Hg. destruct Hg as [Hg Hpre]. apply C3 in Hg. destruct Hg as [pf' [q [w [D [Hq ->]]]]].
    assert (Hpf' : In pf' ["pv_"; "f_"; "fq_"]) by (destruct D as [D _]; eapply prefixes_in; eauto).
    assert (pf = pf') by (eapply prefix_group; eauto). subst pf'. exists (q, w). cbn. auto.
  - exists P. split; [assumption|].
    assert (Hs : StronglySorted slt (map (gp pf) P)) by (rewrite <- E; apply StronglySorted_filter, h5_keys_sorted).
    split; [apply (NoDup_map_inv (gp pf)); now apply slt_NoDup|]. split; [assumption|]. intros q w. split; [intros H; apply (HP (q, w) H)|].
    intros [Hq D]. assert (Hin : In (gp pf (q, w)) (map (gp pf) P)).
    { rewrite <- E. apply filter_In. split; [apply C3; exists pf, q, w; auto|]. unfold gp, group_name. cbn [fst snd]. apply prefix_app. }
    apply in_map_iff in Hin. destruct Hin as [[q' w'] [Eq Hin]]. unfold gp in Eq. cbn [fst snd] in Eq.
    pose proof (HP _ Hin) as [Hq' _]. cbn in Hq'. pose proof (C4 q Hq). pose proof (C4 q' Hq').
    apply group_name_inj in Eq; try lia. destruct Eq as [-> ->]. assumption.
Qed.

(** the order in which the loader meets the (q,w) pairs *)
Definition order (pf : string) (L : list (Z * Z)) : Prop :=
  exists Ps : Z -> list (Z * Z), L = flat_map Ps (range p) /\
    forall r, 0 <= r < p -> exists tasks f, rank_file r tasks f /\
      filter (String.prefix pf) (h5_keys f) = map (gp pf) (Ps r) /\ NoDup (Ps r) /\ StronglySorted slt (map (gp pf) (Ps r)) /\
      forall q w, In (q, w) (Ps r) <-> In q tasks /\ in_dom c pf w.

Lemma order_exists pf : In pf ["pv_"; "f_"; "fq_"] -> exists L, order pf L.
Proof.
  intros Hpf.
  assert (X : exists Ps : Z -> list (Z * Z), forall r, 0 <= r < p -> exists tasks f, rank_file r tasks f /\
      filter (String.prefix pf) (h5_keys f) = map (gp pf) (Ps r) /\ NoDup (Ps r) /\ StronglySorted slt (map (gp pf) (Ps r)) /\
      forall q w, In (q, w) (Ps r) <-> In q tasks /\ in_dom c pf w).
  { (* finite choice over the ranks *)
    assert (Y : forall n, Z.of_nat n <= p -> exists Ps : Z -> list (Z * Z), forall r, 0 <= r < Z.of_nat n -> exists tasks f, rank_file r tasks f /\
      filter (String.prefix pf) (h5_keys f) = map (gp pf) (Ps r) /\ NoDup (Ps r) /\ StronglySorted slt (map (gp pf) (Ps r)) /\
      forall q w, In (q, w) (Ps r) <-> In q tasks /\ in_dom c pf w).
    { induction n as [|n IH]; intros Hn; [exists (fun _ => []); intros r Hr; lia|].
      destruct IH as [Ps HPs]; [lia|]. destruct (@Hfiles (Z.of_nat n)) as [tasks [f Hf]]; [lia|].
      destruct (@key_pairs (Z.of_nat n) tasks f pf ltac:(lia) Hf Hpf) as [P HP].
      exists (fun r => if r =? Z.of_nat n then P else Ps r). intros r Hr. destruct (Z.eqb_spec r (Z.of_nat n)) as [->|N].
      - exists tasks, f. tauto.
      - apply HPs. lia. }
    destruct (Y (Z.to_nat p) ltac:(lia)) as [Ps HPs]. exists Ps. intros r Hr. apply HPs. lia. }
  destruct X as [Ps HPs]. exists (flat_map Ps (range p)), Ps. auto.
Qed.
Lemma order_In pf L q w : order pf L -> (In (q, w) L <-> 0 <= q < nq /\ in_dom c pf w).
Proof.
  intros [Ps [-> H]]. rewrite in_flat_map. unfold range. split.
  - intros [r [Hr Hin]]. apply In_arange in Hr. destruct (H r Hr) as [tasks [f [Hf [_ [_ [_ HI]]]]]]. apply HI in Hin.
    destruct (rank_contents Hr Hf) as [_ [_ [_ C4]]]. split; [apply C4|]; tauto.
  - intros [Hq D]. destruct (@tasks_owner nq p Hnq Hp) as [Ho _]. destruct (Ho q Hq) as [r [ts [Hr [Et Hin]]]].
    exists r. split; [apply In_arange; lia|]. destruct (H r Hr) as [tasks [f [Hf [_ [_ [_ HI]]]]]]. apply HI.
    destruct Hf as [E _]. split; [congruence|assumption].
Qed.
Lemma order_NoDup pf L : order pf L -> NoDup L.
Proof.
  intros [Ps [-> H]]. apply NoDup_flat_map.
  - apply NoDup_arange.
  - intros r Hr. unfold range in Hr. apply In_arange in Hr. destruct (H r Hr) as [tasks [f [_ [_ [HN _]]]]]. assumption.
  - intros r r' [q w] Hr Hr' Hin Hin'. unfold range in Hr, Hr'. apply In_arange in Hr, Hr'.
    destruct (H r Hr) as [tasks [f [[E _] [_ [_ [_ HI]]]]]]. destruct (H r' Hr') as [tasks' [f' [[E' _] [_ [_ [_ HI']]]]]].
    apply HI in Hin. apply HI' in Hin'. destruct (@tasks_owner nq p Hnq Hp) as [_ Hu]. apply (Hu r r' tasks tasks' q); tauto.
Qed.
(** a positive frequency is met after its negative partner *)
Lemma order_last pf L q w l1 l2 : order pf L -> 0 <= w -> L = l1 ++ (q, w) :: l2 -> ~ In (q, - w) l2.
Proof.
  intros HL Hw E Hin. pose proof (order_NoDup HL) as HN. rewrite E in HN.
  assert (Hne : w <> 0). { intros ->. change (- 0) with 0 in Hin. apply NoDup_remove_2 in HN. apply HN. rewrite in_app_iff. now right. }
  destruct HL as [Ps [EL H]]. rewrite E in EL. clear E L.
  assert (Hpq : 0 <= q < nq /\ in_dom c pf w).
  { apply (@order_In pf (flat_map Ps (range p))); [exists Ps; auto|]. rewrite <- EL. rewrite in_app_iff. right. now left. }
  (* the rank that owns q *)
  destruct (@tasks_owner nq p Hnq Hp) as [Ho Hu]. destruct (Ho q (proj1 Hpq)) as [r [ts [Hr [Et Hq]]]].
  assert (Hothers : forall r', 0 <= r' < p -> r' <> r -> forall w', ~ In (q, w') (Ps r')).
  { intros r' Hr' Hne' w' Hin'. destruct (H r' Hr') as [tasks [f [[E _] [_ [_ [_ HI]]]]]]. apply HI in Hin'. apply Hne'. apply (Hu r' r tasks ts q); tauto. }
  assert (Esplit : range p = arange 0 r ++ r :: arange (r + 1) p).
  { unfold range. rewrite <- (@arange_app 0 r p) by lia. f_equal. rewrite arange_cons by lia. reflexivity. }
  rewrite Esplit, flat_map_app in EL. cbn [flat_map] in EL.
  set (X1 := flat_map Ps (arange 0 r)) in *. set (X2 := flat_map Ps (arange (r + 1) p)) in *.
  assert (HX1 : forall w', ~ In (q, w') X1).
  { intros w' Hw'. apply in_flat_map in Hw'. destruct Hw' as [r' [Hr' Hw']]. apply In_arange in Hr'. eapply Hothers; [| |eassumption]; lia. }
  assert (HX2 : forall w', ~ In (q, w') X2).
  { intros w' Hw'. apply in_flat_map in Hw'. destruct Hw' as [r' [Hr' Hw']]. apply In_arange in Hr'. eapply Hothers; [| |eassumption]; lia. }
  assert (Hin1 : In (q, w) (Ps r)).
  { assert (Hi : In (q, w) (X1 ++ Ps r ++ X2)) by (rewrite <- EL, in_app_iff; right; now left). rewrite !in_app_iff in Hi. destruct Hi as [Hi|[Hi|Hi]]; auto; [now apply HX1 in Hi|now apply HX2 in Hi]. }
  destruct (H r Hr) as [tasks [f [Hf [_ [HNr [Hs HI]]]]]].
  apply in_split in Hin1. destruct Hin1 as [m1 [m2 Em]]. rewrite Em in EL, Hs.
  (* by NoDup the two splittings coincide *)
  assert (El2 : l2 = m2 ++ X2).
  { rewrite <- !app_assoc in EL. cbn [app] in EL. rewrite app_assoc in EL. rewrite EL in HN.
    clear -EL HN. revert EL HN. generalize (X1 ++ m1) as n1, (m2 ++ X2) as n2. intros n1 n2. revert l1.
    induction n1 as [|x n1 IH]; intros l1 EL HN.
    - destruct l1 as [|y l1]; cbn in *; [now injection EL|]. injection EL as -> EL. inversion HN as [|? ? HH]; subst. exfalso. apply HH. rewrite in_app_iff. right. now left.
    - destruct l1 as [|y l1]; cbn in *.
      + injection EL as <- EL. inversion HN as [|? ? HH]; subst. exfalso. apply HH. rewrite in_app_iff. right. now left.
      + injection EL as <- EL. inversion HN; subst. eapply IH; eauto. }
  rewrite El2, in_app_iff in Hin. destruct Hin as [Hin|Hin]; [|now apply HX2 in Hin].
  rewrite map_app in Hs. cbn [map] in Hs.
  assert (Hs2 : StronglySorted slt (gp pf (q, w) :: map (gp pf) m2)).
  { clear -Hs. induction (map (gp pf) m1) as [|x l IH]; cbn in Hs; [assumption|]. inversion Hs; auto. }
  inversion Hs2 as [|? ? _ Hall]; subst. rewrite Forall_forall in Hall.
  specialize (Hall (gp pf (q, - w)) (in_map _ _ _ Hin)). unfold gp in Hall. cbn [fst snd] in Hall.
  pose proof (@group_neg_before_pos pf q (- w) w ltac:(lia)) as Hlt. unfold slt in *.
  pose proof (str_ltb_trans _ _ _ Hall Hlt) as Hx. rewrite str_ltb_irrefl in Hx. discriminate.
Qed.

(** the loader as a loop over the pairs *)
Lemma for_keys_inv S (body : h5file A -> S -> string -> res S) pf L s (Inv : list (Z * Z) -> S -> Prop) :
  order pf L -> Inv [] s ->
  (forall r tasks f q w done s, 0 <= r < p -> rank_file r tasks f -> In q tasks -> in_dom c pf w -> Inv done s ->
     exists s', body f s (group_name pf q w) = Ok s' /\ Inv (done ++ [(q, w)]) s') ->
  exists s', for_keys body pf fs path name p s = Ok s' /\ Inv L s'.
Proof.
  intros [Ps [-> H]] H0 Hstep. unfold for_keys.
  assert (G : forall rs done s, (forall r, In r rs -> 0 <= r < p) -> Inv done s ->
    exists s', foldM (fun s ir => match fs (rank_fname path name ir) with None => Raise FileNotFoundError
                                  | Some f => foldM (body f) (filter (String.prefix pf) (h5_keys f)) s end) rs s = Ok s' /\ Inv (done ++ flat_map Ps rs) s').
  { induction rs as [|r rs IH]; intros done s0 Hrs Hi; cbn [foldM flat_map]; [rewrite app_nil_r; eauto|].
    assert (Hr : 0 <= r < p) by (apply Hrs; now left).
    destruct (H r Hr) as [tasks [f [Hf [EK [_ [_ HI]]]]]]. pose proof Hf as [_ [_ Hfs]]. rewrite Hfs, EK.
    destruct (@foldM_inv _ _ (fun s qw => body f s (gp pf qw)) Inv (Ps r) done s0 Hi) as [s1 [E1 H1]].
    { intros done' s' [q w] Hin Hi'. apply HI in Hin. unfold gp. cbn [fst snd]. apply (Hstep r tasks f); tauto. }
    assert (E1' : foldM (body f) (map (gp pf) (Ps r)) s0 = Ok s1).
    { rewrite <- E1. clear. revert s0. induction (Ps r) as [|x l IHl]; intros s0; cbn; [reflexivity|]. destruct (body f s0 (gp pf x)); cbn; auto. }
    rewrite E1'. cbn [bind]. destruct (IH (done ++ Ps r) s1) as [s2 [E2 H2]]; [intros; apply Hrs; now right|assumption|].
    rewrite <- app_assoc in H2. eauto. }
  destruct (G (range p) [] s) as [s' [E H1]]; [intros r Hr; unfold range in Hr; now apply In_arange in Hr|assumption|]. eauto.
Qed.
End P.
