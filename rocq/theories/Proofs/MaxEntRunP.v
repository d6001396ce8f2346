From Coq Require Import ZArith Reals List String Lia Lra.
From Verif Require Import Base.PyBase Base.PyFacts Base.Arr Spec.BZSpec Model.MpiAux Proofs.MpiAuxP Model.BrillouinZone Proofs.BrillouinZoneP Model.MaxEnt Proofs.MaxEntP
  Properties.MaxEntProps Model.MaxEntRun Spec.MaxEntRunSpec.
Import ListNotations.
Local Open Scope R_scope.

(** ** one MPI continuation: whatever is returned is right *)
Lemma scatter_prefix A nt p (mat : list A) : (0 <= nt)%Z -> (1 <= p)%Z ->
  ((nt <= zlen mat)%Z -> scatter nt p mat = scatter nt p (slice mat 0 nt)) /\ ((zlen mat < nt)%Z -> scatter nt p mat = Raise ValueError).
Proof.
  intros Hn Hp. unfold scatter, scatterv. rewrite zsum_sizes by lia. split; intros H.
  - rewrite zlen_slice_in by lia. rewrite Z.sub_0_r, Z.leb_refl. destruct (Z.leb_spec nt (zlen mat)); [|lia]. f_equal. unfold displs, cumsum. rewrite !map2_displs. apply map_ext_in. intros ab Hab.
    apply In_zget in Hab. destruct Hab as (r & _ & Hr). destruct ab as [a b]. destruct (@intervals_range 0 (sizes nt p) r a b) as (Ha & Hb & Hc & _); [intros x; apply sizes_nonneg; lia|assumption|].
    rewrite zsum_sizes in Hc by lia. cbn [fst snd]. symmetry. rewrite slice_slice_in by lia. reflexivity.
  - destruct (Z.leb_spec nt (zlen mat)); [lia|reflexivity].
Qed.
Lemma continued_outcome solve gf_kkt c m : row_vals (outcome solve gf_kkt c m) = continued solve gf_kkt c m.
Proof. unfold outcome, continued. destruct (snd _); [reflexivity|]. cbn [row_vals]. now rewrite map_map. Qed.
Lemma mpi_sound solve gf_kkt c L nt p mat a : on_the_mesh solve gf_kkt -> (1 <= p)%Z -> (1 <= nt)%Z -> (forall m, In m mat -> zlen m = L) ->
  mpi_ana_cont solve gf_kkt c nt p mat = Ok a -> (nt <= zlen mat)%Z /\ (p <= nt)%Z /\ a_rows a = map (continued solve gf_kkt c) (slice mat 0 nt).
Proof.
  intros [HS HK] Hp Hn H E. destruct (@scatter_prefix _ nt p mat ltac:(lia) Hp) as [P1 P2].
  destruct (Z.lt_ge_cases (zlen mat) nt) as [N|N]; [unfold mpi_ana_cont in E; rewrite (P2 N) in E; discriminate|]. split; [lia|].
  set (mat' := slice mat 0 nt) in *. assert (Lm : zlen mat' = nt) by (subst mat'; rewrite zlen_slice_in; lia).
  assert (H' : forall m, In m mat' -> zlen m = L).
  { intros m Hm. apply H. apply In_zget in Hm. destruct Hm as (i & R & Hi). subst mat'. rewrite zget_slice_in in Hi by lia. apply zget_In in Hi. exact Hi. }
  assert (E' : mpi_ana_cont solve gf_kkt c (zlen mat') p mat' = Ok a) by (rewrite Lm; unfold mpi_ana_cont in *; rewrite <- (P1 N); exact E).
  destruct (Z.lt_ge_cases (zlen mat') p) as [M|M].
  - rewrite (C90_idle_root_finding solve gf_kkt c p mat' M HS HK) in E'; [discriminate|now exists L].
  - split; [lia|]. destruct (parts_props L p mat' Hp M H') as (parts & Es & Lp & HC & HP & F).
    assert (D : {cx | forall part, In part parts -> existsb (is_cx solve gf_kkt c) part = cx} + {part1 & {part2 | In part1 parts /\ In part2 parts /\ existsb (is_cx solve gf_kkt c) part1 <> existsb (is_cx solve gf_kkt c) part2}}).
    { clear. induction parts as [|p0 parts IH]; [left; exists true; intros part []|]. destruct IH as [[cx IH]|(p1 & p2 & H1 & H2 & H3)].
      - destruct parts as [|p1 parts]; [left; exists (existsb (is_cx solve gf_kkt c) p0); intros part [<-|[]]; reflexivity|].
        destruct (Bool.bool_dec (existsb (is_cx solve gf_kkt c) p0) cx) as [Q|Q].
        + left. exists cx. intros part [<-|Hin]; [exact Q|now apply IH].
        + right. exists p0, p1. split; [now left|]. split; [right; now left|]. rewrite (IH p1) by now left. exact Q.
      - right. exists p1, p2. split; [now right|]. split; [now right|exact H3]. }
    destruct D as [[cx D]|(p1 & p2 & H1 & H2 & H3)].
    + destruct (mpi_ok solve gf_kkt HS HK c L p mat' cx Hp M H') as [Q _].
      { intros parts' part Ep Hin. assert (parts' = parts) by congruence. subst parts'. now apply D. }
      rewrite Q in E'. injection E' as <-. cbn [a_rows]. apply map_ext. intros m. apply continued_outcome.
    + rewrite (mpi_mixed solve gf_kkt HS HK c L p mat' parts p1 p2 Hp M H' Es H1 H2 H3) in E'. discriminate.
Qed.

(** ** folding and unfolding *)
Lemma fold_spec A nx ny nz syms g (m : list (list (list A))) : grid g (nx, ny, nz) syms -> shape3 m nx ny nz ->
  exists irr, map_fbz2irrk g m = Ok irr /\ zlen irr = nk_irr g /\ (forall x, In x irr -> exists k, on_mesh nx ny nz k /\ at3 m k = Some x) /\
    forall k, on_mesh nx ny nz k -> exists j k0, zget (irrk_inv g) (lin ny nz k) = Some j /\ (0 <= j < nk_irr g)%Z /\ on_mesh nx ny nz k0 /\ equiv nx ny nz syms k k0 /\ zget irr j = at3 m k0.
Proof.
  intros (Hx & Hy & Hz & Hk & E) Sf. unfold map_fbz2irrk.
  destruct (@take_total _ (flatten3 m) (irrk_ind g)) as (irr & Ei).
  { intros i Hin. apply In_zget in Hin. destruct Hin as (j & Hj & Hg). rewrite (zlen_flatten3 Sf). apply (ind_on_mesh Hx Hy Hz Hk E j Hg). }
  exists irr. split; [assumption|]. destruct (take_get _ _ Ei) as [Li Gi]. split; [assumption|]. split.
  - intros x Hx'. apply In_zget in Hx'. destruct Hx' as (j & Hj & Gj). destruct (@zget_in_range _ (irrk_ind g) j ltac:(lia)) as (i & Hi).
    destruct (ind_on_mesh Hx Hy Hz Hk E j Hi) as [Hr _]. rewrite (Gi j i Hi) in Gj by lia. destruct (@lin_surj nx ny nz i Hy Hz Hr) as (k & Hkm & <-). rewrite (zget_flatten3 _ Sf Hkm) in Gj. now exists k.
  - intros k Hkm. destruct (rep_equiv Hx Hy Hz Hk E k Hkm) as (j & k0 & H1 & H2 & H3 & H4 & H5). exists j, k0. split; [assumption|]. split; [assumption|]. split; [assumption|]. split; [assumption|].
    destruct (lin_range nx ny nz k0 H4) as [B _]. now rewrite (Gi j _ H3 B), (zget_flatten3 _ Sf H4).
Qed.
Lemma nk_irr_pos nx ny nz syms g : grid g (nx, ny, nz) syms -> (1 <= nk_irr g)%Z.
Proof.
  intros (Hx & Hy & Hz & Hk & E). destruct (rep_equiv Hx Hy Hz Hk E (0, 0, 0)%Z ltac:(cbn; lia)) as (j & _ & _ & H & _). lia.
Qed.
Lemma unfold_short A nx ny nz syms g (irr : list A) : grid g (nx, ny, nz) syms -> (zlen irr < nk_irr g)%Z -> map_irrk2fbz g irr = Raise IndexError.
Proof.
  intros G Hl. pose proof (nk_irr_pos _ _ _ _ _ G) as H1. destruct G as (Hx & Hy & Hz & Hk & E). unfold map_irrk2fbz.
  assert (T : forall idx, (forall i, In i idx -> 0 <= i)%Z -> (exists i, In i idx /\ zlen irr <= i)%Z -> take irr idx = Raise IndexError).
  { induction idx as [|i idx IH]; intros HN (i0 & Hin & H0); [destruct Hin|]. unfold take in *. cbn [mapM]. destruct (Z.lt_ge_cases i (zlen irr)) as [L|L].
    - destruct (@py_get_total _ irr i) as (a & -> & _); [split; [apply HN; now left|assumption]|]. cbn [bind]. rewrite IH; [reflexivity|intros; apply HN; now right|].
      exists i0. split; [|assumption]. destruct Hin as [->|Hin]; [lia|assumption].
    - now rewrite py_get_out. }
  rewrite T; [reflexivity| |].
  - intros j Hj. apply In_zget in Hj. destruct Hj as (i & Hi & Hg). rewrite (zlen_inv Hx Hy Hz Hk E) in Hi. destruct (@lin_surj nx ny nz i Hy Hz Hi) as (k & Hkm & <-).
    destruct (rep_equiv Hx Hy Hz Hk E k Hkm) as (j' & _ & H1' & H2 & _). assert (j' = j) by congruence. lia.
  - destruct (@zget_in_range _ (irrk_ind g) (nk_irr g - 1)) as (i & Hi); [unfold nk_irr in *; lia|]. destruct (ind_on_mesh Hx Hy Hz Hk E _ Hi) as [_ Hv]. exists (nk_irr g - 1)%Z. split; [eapply zget_In; eauto|lia].
Qed.
Lemma at3_map (f : list C -> list C) m k : at3 (map_mesh f m) k = option_map f (at3 m k).
Proof.
  destruct k as [[x y] z]. unfold at3, map_mesh, get3, get2. rewrite zget_map. destruct (zget m x); cbn; [|reflexivity]. rewrite zget_map. destruct (zget l y); cbn; [|reflexivity]. now rewrite zget_map.
Qed.
Lemma shape3_map (f : list C -> list C) m nx ny nz : shape3 m nx ny nz -> shape3 (map_mesh f m) nx ny nz.
Proof.
  unfold shape3, shape2, map_mesh. intros [H1 H2]. split; [now rewrite zlen_map|]. intros r Hr. apply in_map_iff in Hr. destruct Hr as (r' & <- & Hr'). destruct (H2 r' Hr') as [H3 H4].
  split; [now rewrite zlen_map|]. intros s Hs. apply in_map_iff in Hs. destruct Hs as (s' & <- & Hs'). rewrite zlen_map. now apply H4.
Qed.

(** ** one section *)
Section Sec.
Variables (solve : request -> res (list R)) (gf_kkt : list R -> list R -> list C).
Hypothesis LIB : on_the_mesh solve gf_kkt.

Lemma section_sound beta nt p cfg name kn g n syms load post w out :
  grid g n syms -> (1 <= p)%Z -> (1 <= nt)%Z -> (forall c m, load c = Ok m -> mesh_data m n) ->
  me_section solve gf_kkt beta nt p cfg name kn g load post = Ok (Some (w, out)) ->
  exists kw c v m, lookup cfg name = Some (VDict kw) /\ maxent_init beta kn (Some cfg) kw = Ok c /\ attr (c_attr c) "do_cont" = Ok v /\ truthy v = true /\ load c = Ok m /\
    w = c_w c /\ nt = nk_irr g /\ (p <= nt)%Z /\ (let '(nx, ny, nz) := n in shape3 out nx ny nz) /\
    exists irr full, map_fbz2irrk g m = Ok irr /\ map_irrk2fbz g (map (continued solve gf_kkt c) irr) = Ok full /\ out = map_mesh post full /\
    forall k, mesh_point n k -> exists k0 x, mesh_point n k0 /\ equivalent n syms k k0 /\ at3 m k0 = Some x /\ at3 out k = Some (post (continued solve gf_kkt c x)).
Proof.
  destruct n as [[nx ny] nz]. intros G Hp Hn HL E. unfold me_section in E. destruct (lookup cfg name) as [v|] eqn:El; [|discriminate].
  destruct v as [| | | | |kw]; try discriminate. unfold section_kwargs in E. destruct (existsb _ kw); [discriminate|]. cbn [bind] in E.
  destruct (maxent_init beta kn (Some cfg) kw) as [c|] eqn:Ec; [|discriminate]. cbn [bind] in E. destruct (attr (c_attr c) "do_cont") as [v|] eqn:Ed; [|discriminate]. cbn [bind] in E.
  destruct (truthy v) eqn:Ev; [|discriminate]. destruct (load c) as [m|] eqn:Em; [|discriminate]. cbn [bind] in E. destruct (HL c m Em) as (Sm & L & HV).
  destruct (fold_spec _ nx ny nz syms g m G Sm) as (irr & Ei & Li & Hin & Hrep). rewrite Ei in E. cbn [bind] in E.
  destruct (mpi_ana_cont solve gf_kkt c nt p irr) as [a|] eqn:Ea; [|discriminate]. cbn [bind] in E.
  destruct (mpi_sound solve gf_kkt c L nt p irr a LIB Hp Hn) as (N1 & N2 & R); [|exact Ea|].
  { intros x Hx. destruct (Hin x Hx) as (k & _ & Hk). exact (HV k x Hk). }
  assert (La : zlen (a_rows a) = nt) by (rewrite R, zlen_map, zlen_slice_in; lia).
  destruct (Z.lt_ge_cases (zlen (a_rows a)) (nk_irr g)) as [S|S]; [rewrite (unfold_short _ nx ny nz syms g _ G S) in E; discriminate|].
  assert (Hnt : nt = nk_irr g) by lia. rewrite R in E. replace (slice irr 0 nt) with irr in E by (rewrite Hnt, <- Li; symmetry; apply slice_full).
  pose proof G as (Hx & Hy & Hz & Hk & Eg). destruct (unfold_spec (map (continued solve gf_kkt c) irr) Hx Hy Hz Hk Eg) as (f & Ef & Sf & Gf); [rewrite zlen_map; exact Li|].
  rewrite Ef in E. cbn [bind] in E. injection E as Ew Eo. exists kw, c, v, m. split; [reflexivity|]. split; [exact Ec|]. split; [exact Ed|]. split; [exact Ev|]. split; [exact Em|]. split; [now rewrite Ew|]. split; [exact Hnt|]. split; [exact N2|].
  split; [rewrite <- Eo; now apply shape3_map|]. exists irr, f. split; [exact Ei|]. split; [exact Ef|]. split; [now rewrite Eo|]. intros k Hkm. destruct (Hrep k Hkm) as (j & k0 & H1 & H2 & H3 & H4 & H5). rewrite <- Li in H2. destruct (@zget_in_range _ irr j H2) as (x & Hj).
  exists k0, x. split; [exact H3|]. split; [exact H4|]. split; [congruence|]. rewrite <- Eo, at3_map, (Gf k j Hkm H1), zget_map, Hj. reflexivity.
Qed.
(** the number of ranks *)
Lemma section_ranks beta nt p p' cfg name kn g n syms load post x y :
  grid g n syms -> (1 <= p)%Z -> (1 <= p')%Z -> (1 <= nt)%Z -> (forall c m, load c = Ok m -> mesh_data m n) ->
  me_section solve gf_kkt beta nt p cfg name kn g load post = Ok x -> me_section solve gf_kkt beta nt p' cfg name kn g load post = Ok y -> x = y.
Proof.
  intros G Hp Hp' Hn HL E E'. destruct x as [[w out]|], y as [[w' out']|]; [| | |reflexivity].
  - destruct (section_sound beta nt p cfg name kn g n syms load post w out G Hp Hn HL E) as (kw & c & v & m & E1 & E2 & E3 & E4 & E5 & -> & _ & _ & _ & irr & full & E6 & E7 & -> & _).
    destruct (section_sound beta nt p' cfg name kn g n syms load post w' out' G Hp' Hn HL E') as (kw' & c' & v' & m' & F1 & F2 & F3 & F4 & F5 & -> & _ & _ & _ & irr' & full' & F6 & F7 & -> & _).
    assert (kw' = kw) by congruence. subst. assert (c' = c) by congruence. subst. assert (m' = m) by congruence. subst. assert (irr' = irr) by congruence. subst. congruence.
  - destruct (section_sound beta nt p cfg name kn g n syms load post w out G Hp Hn HL E) as (kw & c & v & m & E1 & E2 & E3 & E4 & E5 & _).
    exfalso. unfold me_section in E, E'. rewrite E1 in E, E'. destruct (section_kwargs (VDict kw)) as [kw'|] eqn:Q; [|discriminate]. assert (kw' = kw) by (unfold section_kwargs in Q; destruct (existsb _ kw); congruence). subst kw'.
    cbn [bind] in E'. rewrite E2 in E'. cbn [bind] in E'. rewrite E3 in E'. cbn [bind] in E'. rewrite E4, E5 in E'. cbn [bind] in E'. destruct (map_fbz2irrk g m); [|discriminate]. cbn [bind] in E'. destruct (mpi_ana_cont _ _ _ _ _ _); [|discriminate]. cbn [bind] in E'. destruct (map_irrk2fbz _ _); discriminate.
  - destruct (section_sound beta nt p' cfg name kn g n syms load post w' out' G Hp' Hn HL E') as (kw & c & v & m & E1 & E2 & E3 & E4 & E5 & _).
    exfalso. unfold me_section in E, E'. rewrite E1 in E, E'. destruct (section_kwargs (VDict kw)) as [kw'|] eqn:Q; [|discriminate]. assert (kw' = kw) by (unfold section_kwargs in Q; destruct (existsb _ kw); congruence). subst kw'.
    cbn [bind] in E. rewrite E2 in E. cbn [bind] in E. rewrite E3 in E. cbn [bind] in E. rewrite E4, E5 in E. cbn [bind] in E. destruct (map_fbz2irrk g m); [|discriminate]. cbn [bind] in E. destruct (mpi_ana_cont _ _ _ _ _ _); [|discriminate]. cbn [bind] in E. destruct (map_irrk2fbz _ _); discriminate.
Qed.
(** a grid of another size *)
Lemma section_mismatch beta nt p cfg name kn g n syms load post kw c v m :
  grid g n syms -> (1 <= p)%Z -> (1 <= nt)%Z -> mesh_data m n -> nt <> nk_irr g ->
  lookup cfg name = Some (VDict kw) -> maxent_init beta kn (Some cfg) kw = Ok c -> attr (c_attr c) "do_cont" = Ok v -> truthy v = true -> load c = Ok m ->
  exists e, me_section solve gf_kkt beta nt p cfg name kn g load post = Raise e.
Proof.
  destruct n as [[nx ny] nz]. intros G Hp Hn (Sm & L & HV) N E1 E2 E3 E4 E5. unfold me_section. rewrite E1. destruct (section_kwargs (VDict kw)) as [kw'|e] eqn:Q; [|eexists; reflexivity].
  assert (kw' = kw) by (unfold section_kwargs in Q; destruct (existsb _ kw); congruence). subst kw'. cbn [bind]. rewrite E2. cbn [bind]. rewrite E3. cbn [bind]. rewrite E4, E5. cbn [bind].
  destruct (fold_spec _ nx ny nz syms g m G Sm) as (irr & Ei & Li & Hin & _). rewrite Ei. cbn [bind]. destruct (mpi_ana_cont solve gf_kkt c nt p irr) as [a|e] eqn:Ea; [|eexists; reflexivity].
  destruct (mpi_sound solve gf_kkt c L nt p irr a LIB Hp Hn) as (N1 & N2 & R); [|exact Ea|].
  { intros x Hx. destruct (Hin x Hx) as (k & _ & Hk). exact (HV k x Hk). }
  cbn [bind]. rewrite (unfold_short _ nx ny nz syms g _ G); [eexists; reflexivity|]. rewrite R, zlen_map, zlen_slice_in; lia.
Qed.
(** a section that works *)
Definition succeeds c x := exists r, snd (cont_single_ind solve gf_kkt c x) = Ok r.
Lemma section_complete beta p cfg name kn g n syms load post kw c v m :
  grid g n syms -> (1 <= p <= nk_irr g)%Z -> mesh_data m n ->
  lookup cfg name = Some (VDict kw) -> section_kwargs (VDict kw) = Ok kw -> maxent_init beta kn (Some cfg) kw = Ok c -> attr (c_attr c) "do_cont" = Ok v -> truthy v = true -> load c = Ok m ->
  (forall k x, at3 m k = Some x -> succeeds c x) \/ (forall k x, at3 m k = Some x -> ~ succeeds c x) \/ attr (c_attr c) "kernel_mode" = Ok (VStr "freq_bosonic") ->
  exists x, me_section solve gf_kkt beta (nk_irr g) p cfg name kn g load post = Ok (Some x).
Proof.
  destruct n as [[nx ny] nz]. intros G Hp (Sm & L & HV) E1 Q E2 E3 E4 E5 HS. unfold me_section. rewrite E1, Q. cbn [bind]. rewrite E2. cbn [bind]. rewrite E3. cbn [bind]. rewrite E4, E5. cbn [bind].
  destruct (fold_spec _ nx ny nz syms g m G Sm) as (irr & Ei & Li & Hin & _). rewrite Ei. cbn [bind]. destruct LIB as [L1 L2].
  assert (HL : forall x, In x irr -> zlen x = L) by (intros x Hx; destruct (Hin x Hx) as (k & _ & Hk); exact (HV k x Hk)).
  rewrite <- Li. rewrite (C90_ranks solve gf_kkt c L p irr L1 L2 ltac:(lia) HL).
  - rewrite (ana_ok solve gf_kkt L1 L2 c L irr); [|destruct irr; [rewrite zlen_nil in Li; lia|discriminate]|assumption]. cbn [bind a_rows].
    pose proof G as (Hx & Hy & Hz & Hk & Eg). destruct (unfold_spec (map (fun mat => row_vals (outcome solve gf_kkt c mat)) irr) Hx Hy Hz Hk Eg) as (f & Ef & _); [rewrite zlen_map; exact Li|].
    rewrite Ef. cbn [bind]. eexists. reflexivity.
  - destruct HS as [HS|[HS|HS]]; [left|right; left|right; right; exact HS].
    + intros parts part Es Hpart. destruct (parts_props L p irr ltac:(lia) ltac:(lia) HL) as (parts' & Es' & _ & HC & HP & _). assert (parts' = parts) by congruence. subst parts'.
      destruct (HP part Hpart) as [Hne _]. destruct part as [|x part]; [congruence|]. exists x. split; [now left|]. destruct (Hin x) as (k & _ & Hk2); [|exact (HS k x Hk2)].
      rewrite <- HC. apply in_concat. exists (x :: part). split; [exact Hpart|now left].
    + intros x Hx. destruct (Hin x Hx) as (k & _ & Hk2). exact (HS k x Hk2).
Qed.
End Sec.

(** ** the run *)
Lemma run_in after l f x : In (f, x) (fst (run_sections after l)) -> In (f, Ok (Some x)) l.
Proof.
  induction l as [|[f' r] l IH]; [intros []|]. cbn [run_sections]. destruct r as [[y|]|e]; [|intros H; right; now apply IH|intros []].
  destruct (after f'); [|destruct (run_sections after l) as [fs e'] eqn:E].
  - cbn. intros [H|[]]. injection H as -> ->. now left.
  - cbn [fst] in *. intros [H|H]; [injection H as -> ->; now left|right; now apply IH].
Qed.
Lemma run_prefix after l : exists rest, fst (run_sections (fun _ => None) l) = (fst (run_sections after l) ++ rest)%list.
Proof.
  induction l as [|[f r] l IH]; [exists []; reflexivity|]. cbn [run_sections]. destruct r as [[y|]|e]; [| exact IH|exists []; reflexivity].
  destruct (run_sections (fun _ => None) l) as [fs e0]. cbn [fst] in *. destruct (after f); [exists fs; reflexivity|].
  destruct (run_sections after l) as [fs' e']. cbn [fst] in *. destruct IH as (rest & ->). exists rest. reflexivity.
Qed.
Lemma run_ok after l : snd (run_sections after l) = None -> forall f r, In (f, r) l -> exists o, r = Ok o /\ (forall x, o = Some x -> In (f, x) (fst (run_sections after l))).
Proof.
  induction l as [|[f' r'] l IH]; [intros _ f r []|]. cbn [run_sections]. destruct r' as [[y|]|e]; [| |discriminate].
  - destruct (after f'); [discriminate|]. destruct (run_sections after l) as [fs e0]. cbn [fst snd] in *. intros -> f r [H|H].
    + injection H as <- <-. exists (Some y). split; [reflexivity|]. intros x Hx. injection Hx as <-. now left.
    + destruct (IH eq_refl f r H) as (o & -> & Ho). exists o. split; [reflexivity|]. intros x Hx. right. now apply Ho.
  - intros H f r [Q|Q]; [injection Q as <- <-; exists None; split; [reflexivity|discriminate]|]. exact (IH H f r Q).
Qed.
Lemma run_same after after' l l' : snd (run_sections after l) = None -> snd (run_sections after' l') = None ->
  Forall2 (fun a b => fst a = fst b /\ forall x y, snd a = Ok x -> snd b = Ok y -> x = y) l l' -> fst (run_sections after l) = fst (run_sections after' l').
Proof.
  intros H H' F. revert H H'. induction F as [|[f r] [f' r'] l l' [E1 E2] F IH]; [reflexivity|]. cbn [fst snd] in *. subst f'. cbn [run_sections].
  destruct r as [x|]; [|discriminate]. destruct r' as [y|]; [|destruct x; [destruct (after f); [discriminate|]; destruct (run_sections after l); cbn; intros; discriminate|intros; discriminate]].
  assert (x = y) by (apply E2; reflexivity). subst y. destruct x as [x|]; [|exact IH]. destruct (after f); [discriminate|]. destruct (after' f); [discriminate|].
  destruct (run_sections after l), (run_sections after' l'). cbn [fst snd] in *. intros H H'. now rewrite (IH H H').
Qed.
Lemma section_not_none solve gf_kkt beta nt p cfg name kn g load post kw c v : lookup cfg name = Some (VDict kw) -> maxent_init beta kn (Some cfg) kw = Ok c -> attr (c_attr c) "do_cont" = Ok v -> truthy v = true ->
  me_section solve gf_kkt beta nt p cfg name kn g load post <> Ok None.
Proof.
  intros E1 E2 E3 E4 Eo. unfold me_section in Eo. rewrite E1 in Eo. destruct (section_kwargs (VDict kw)) as [kw'|] eqn:Q; [|discriminate].
  assert (kw' = kw) by (unfold section_kwargs in Q; destruct (existsb _ kw); congruence). subst kw'. cbn [bind] in Eo. rewrite E2 in Eo. cbn [bind] in Eo. rewrite E3 in Eo. cbn [bind] in Eo. rewrite E4 in Eo.
  destruct (load c) as [m|]; [|discriminate]. cbn [bind] in Eo. destruct (map_fbz2irrk _ m); [|discriminate]. cbn [bind] in Eo. destruct (mpi_ana_cont _ _ _ _ _ _); [|discriminate]. cbn [bind] in Eo. destruct (map_irrk2fbz _ _); discriminate.
Qed.
