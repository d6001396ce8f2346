From mathcomp Require Import all_ssreflect all_algebra.
From Coq Require Permutation.
From Verif Require Import Base.PyBase Base.PyFacts Base.FieldTac Model.Symmetrize Spec.SymSpec Spec.SymValueSpec Proofs.SymIndexP Proofs.SymOrbitP.
Set Implicit Arguments. Unset Strict Implicit. Unset Printing Implicit Defensive.
Import GRing.Theory.
Local Open Scope ring_scope.

Section V.
Variable F : fieldType.
Add Field Ff : (@Kft F).
Ltac frng := to_K F; ring.
Ltac ffld := to_K F; field; of_K.

Definition keys (t : otab F) : list Z := List.map fst t.

Lemma oadd_ok (t : otab F) k v : List.In k (keys t) ->
  exists t', oadd t k v = Ok t' /\ keys t' = keys t /\
    (forall k', oget t' k' = (if Z.eqb k' k then omap (+%R^~ v) (oget t k') else oget t k')).
Proof.
  elim: t => [|[k0 w] t IH] hin; first by case: hin.
  cbn [oadd]. case: (Z.eqb_spec k k0) => [<-|hne].
  - exists ((k, w + v) :: t); split=> //; split=> // k'.
    rewrite /oget; cbn [List.find fst]. by case: (Z.eqb_spec k' k).
  - case: hin => [e|hin]; first by case: hne.
    case: (IH hin) => t' [-> [hk hg]]; cbn [bind].
    exists ((k0, w) :: t'); split=> //; split; first by rewrite /keys; cbn [List.map]; rewrite -/(keys t') hk.
    move=> k'. move: (hg k'); rewrite /oget; cbn [List.find fst].
    case: (Z.eqb_spec k' k0) => [e|_] //. case: (Z.eqb_spec k' k) => [e'|_] //. by subst.
Qed.

Lemma oget_some (t : otab F) k : List.In k (keys t) -> exists w, oget t k = Some w.
Proof.
  elim: t => [|[k0 w] t IH] //= hin. rewrite /oget; cbn [List.find fst].
  case: (Z.eqb_spec k k0) => [_|hne]; first by exists w.
  case: hin => [e|hin]; first by case: hne. exact: IH.
Qed.

Definition wsgn (a : action) : F := match a with Plus => 1 | Minus => -1 | Zero => 0 end.

Lemma add_loop (x : F) a sg (t : otab F) : List.NoDup sg -> (forall k, List.In k sg -> List.In k (keys t)) ->
  exists t', foldM (fun t k => match a with Plus => oadd t k x | Minus => oadd t k (- x) | Zero => Ok t end) sg t = Ok t' /\
    keys t' = keys t /\
    (forall k w, oget t k = Some w -> oget t' k = Some (w + (if existsb (Z.eqb k) sg then wsgn a * x else 0))).
Proof.
  elim: sg t => [|k0 sg IH] t hnd hin.
  - exists t; split=> //; split=> // k w -> /=. by rewrite addr0.
  - have [hk0 hnd'] : ~ List.In k0 sg /\ List.NoDup sg by inversion hnd.
    have hstep : exists t1, (match a with Plus => oadd t k0 x | Minus => oadd t k0 (- x) | Zero => Ok t end) = Ok t1 /\
       keys t1 = keys t /\ forall k w, oget t k = Some w -> oget t1 k = Some (w + (if Z.eqb k k0 then wsgn a * x else 0)).
    { have hk := hin k0 (or_introl erefl).
      case: a IH => _.
      - case: (oadd_ok x hk) => t1 [h1 [h2 h3]]; exists t1; split=> //; split=> // k w e.
        rewrite h3; case: (Z.eqb_spec k k0) => [ek|nk]; rewrite e /=; congr Some; rewrite /wsgn ?mul1r ?addr0 //.
      - case: (oadd_ok (- x) hk) => t1 [h1 [h2 h3]]; exists t1; split=> //; split=> // k w e.
        rewrite h3; case: (Z.eqb_spec k k0) => [ek|nk]; rewrite e /=; congr Some; rewrite /wsgn ?mulN1r ?addr0 //.
      - exists t; split=> //; split=> // k w ->; congr Some. by rewrite /wsgn mul0r if_same addr0. }
    case: hstep => t1 [h1 [h2 h3]]. cbn [foldM]. rewrite h1; cbn [bind].
    case: (IH t1 hnd').
    { move=> k hk. rewrite h2. by apply: hin; right. }
    move=> t' [h4 [h5 h6]]; exists t'; split=> //; split; first by rewrite h5.
    move=> k w e. rewrite (h6 k _ (h3 k w e)); congr Some; rewrite -addrA; congr (_ + _).
    cbn [existsb]. case: (Z.eqb_spec k k0) => [ek|nk]; cbn [orb]; last by rewrite add0r.
    have -> : existsb (Z.eqb k) sg = false; last by rewrite addr0.
    apply: Bool.not_true_is_false => /existsb_exists [y [hy /Z.eqb_eq e']]. by apply: hk0; rewrite -ek e'.
Qed.

(** ** get_groups *)
Local Notation dec Nb g := (gr_bands (group_of Nb g)).
Local Notation spn Nb g := (gr_spins (group_of Nb g)).

Lemma group_decode Nb g : (0 < Nb)%Z -> (1 <= g <= (2 * Nb) ^ 4)%Z ->
  gr_group (group_of Nb g) = g /\ zlen (dec Nb g) = 4%Z /\ digits_below Nb (dec Nb g).
Proof.
  move=> hN hg. rewrite /group_of.
  case E : (index2component_general Nb 4 g) => [[bs b] s].
  have [h1 [h2 [h3 [h4 [h5 [h6 h7]]]]]] := @general_decode Nb 4 g bs b s hN ltac:(lia) hg E.
  split=> //.
Qed.

Lemma get_groups_spec Nb grs : (0 < Nb)%Z -> (forall g, List.In g grs -> (1 <= g <= (2 * Nb) ^ 4)%Z) ->
  exists bg, get_groups Nb grs = Ok (List.map (group_of Nb) grs, bg) /\
    (forall k, List.In k bg <-> exists g, List.In g grs /\ k = (1 + positional Nb (dec Nb g))%Z).
Proof.
  move=> hN hg. rewrite /get_groups.
  have gen : forall l gs0 bg0, (forall g, List.In g l -> (1 <= g <= (2 * Nb) ^ 4)%Z) ->
    exists bg, foldM (fun (st : list group * list Z) gr =>
           let g := group_of Nb gr in
           let! bgr := component2index_band Nb 4 (gr_bands g) in
           let bg := if existsb (Z.eqb bgr) (snd st) then snd st else (snd st ++ [bgr])%list in
           Ok (fst st ++ [g], bg)%list) l (gs0, bg0) = Ok ((gs0 ++ List.map (group_of Nb) l)%list, bg) /\
      (forall k, List.In k bg <-> List.In k bg0 \/ exists g, List.In g l /\ k = (1 + positional Nb (dec Nb g))%Z).
  { elim=> [|g l IH] gs0 bg0 hl.
    - exists bg0; split; first by rewrite /= List.app_nil_r. move=> k; split; [by left|by case=> // -[g []]].
    - cbn [foldM]; cbv zeta.
      have [h1 [h2 h3]] := group_decode hN (hl g (or_introl erefl)).
      rewrite -{1}h2 band_encode; cbn [bind fst snd].
      set k0 := (1 + _)%Z.
      case: (IH (gs0 ++ [group_of Nb g])%list (if existsb (Z.eqb k0) bg0 then bg0 else (bg0 ++ [k0])%list)).
      { move=> g' hg'; apply: hl; by right. }
      move=> bg [-> hbg]; exists bg; split; first by rewrite -List.app_assoc.
      have hif : forall k, List.In k (if existsb (Z.eqb k0) bg0 then bg0 else (bg0 ++ [k0])%list) <-> List.In k bg0 \/ k = k0.
      { move=> k; case e : (existsb _ _); last by rewrite List.in_app_iff /=; intuition.
        split; first by left. case=> // ->. by move/existsb_exists: e => [y [hy /Z.eqb_eq ->]]. }
      move=> k; rewrite hbg hif; split.
      + case=> [[h| ->]|[g' [hg' ->]]]; [by left|right; exists g; split; [by left|by []]|right; exists g'; split; [by right|by []]].
      + case=> [h|[g' [[<-|hg'] ->]]]; [by left; left|by left; right|right; by exists g']. }
  case: (gen grs [] [] hg) => bg [h1 h2]. exists bg; split=> // k. rewrite h2; split; [by case|by right].
Qed.

Lemma mapM_enc Nb (l : list (list Z)) : (forall b, List.In b l -> zlen b = 4%Z) ->
  mapM (component2index_band Nb 4) l = Ok (List.map (fun b => 1 + positional Nb b)%Z l).
Proof.
  elim: l => [|b l IH] h //. cbn [mapM List.map].
  rewrite -{1}(h b (or_introl erefl)) band_encode; cbn [bind]. rewrite IH //. by move=> b' hb'; apply: h; right.
Qed.

Lemma positional_inj Nb b b' : (0 < Nb)%Z -> digits_below Nb b -> digits_below Nb b' -> length b = length b' ->
  positional Nb b = positional Nb b' -> b = b'.
Proof.
  move=> hN h1 h2 hl; rewrite !positionalE => e. rewrite -(digits_posn hN h1) -(digits_posn hN h2) hl e //.
Qed.

Definition is_magn ch := match ch with Magn => true | Dens => false end.
Lemma get_action_weight ch s : spin_conserving s ->
  exists a, get_action ch s = Ok a /\ wsgn a = sign_of F (weight (is_magn ch) s).
Proof.
  move=> [i [j [hi [hj hs]]]].
  case: hi => hi; case: hj => hj; case: hs => ->; rewrite hi hj; case: ch; eexists; split; reflexivity.
Qed.

Definition fsum_list (l : list F) : F := List.fold_right +%R 0 l.

Lemma perm_len A (l l' : list A) : List.NoDup l -> List.NoDup l' -> (forall x, List.In x l <-> List.In x l') -> length l = length l'.
Proof.
  move=> h1 h2 h. apply: PeanoNat.Nat.le_antisymm; apply: List.NoDup_incl_length => // x hx; by apply/h.
Qed.

Section Main.
Variables (Nb : Z) (sy : list (list Z)) (grs : list Z) (h5in : Z -> F) (ch : channel).
Hypothesis hN : (0 < Nb)%Z.
Hypothesis good : good_sym Nb sy.
Hypothesis hrng : forall g, List.In g grs -> (1 <= g <= (2 * Nb) ^ 4)%Z.
Hypothesis hkan : forall g, List.In g grs -> kanamori_bands (dec Nb g) /\ spin_conserving (spn Nb g).
Hypothesis hclosed : forall g b', List.In g grs -> related sy (dec Nb g) b' -> exists g', List.In g' grs /\ dec Nb g' = b'.

Definition contribution (O : list (list Z)) (g : Z) : F :=
  if List.in_dec (List.list_eq_dec Z.eq_dec) (dec Nb g) O
  then sign_of F (weight (is_magn ch) (spn Nb g)) * h5in g else 0.

Lemma main_loop (O : list (list Z)) a ga : List.In ga grs -> a = dec Nb ga ->
  List.NoDup O -> (forall b', List.In b' O <-> related sy a b') ->
  forall l t, incl l grs ->
   (forall g b', List.In g grs -> related sy (dec Nb g) b' -> List.In (1 + positional Nb b')%Z (keys t)) ->
   exists t', foldM (fun t gr => let! asg := get_symgroups ch gr sy Nb in
                               read_and_add h5in t (gr_group gr) ch (fst asg) (snd asg)) (List.map (group_of Nb) l) t = Ok t' /\
    keys t' = keys t /\
    (forall w, oget t (1 + positional Nb a)%Z = Some w ->
       oget t' (1 + positional Nb a)%Z =
       Some (w + fsum_list (List.map (contribution O) l) / (prefactor F ch * (length O)%:R))).
Proof.
  move=> hga ea hO hOr. elim=> [|g l IH] t hl hk.
  - exists t; split=> //; split=> // w ->; congr Some. by rewrite /fsum_list /= mul0r addr0.
  - have hg : List.In g grs by apply: hl; left.
    have [e1 [e2 e3]] := group_decode hN (hrng hg).
    have [hkb hsc] := hkan hg.
    have [ac [hac hw]] := get_action_weight ch hsc.
    have [O' [hO' [hnd' hin']]] := sym_bands_orbit good e3 hkb.
    have hlen : forall b, List.In b O' -> zlen b = 4%Z.
    { move=> b /hin' [hb _]. by rewrite -e2 /zlen hb. }
    cbn [List.map foldM].
    have hsg : get_symgroups ch (group_of Nb g) sy Nb = Ok (ac, List.map (fun b => 1 + positional Nb b)%Z O').
    { rewrite /get_symgroups hac; cbn [bind]. rewrite hO'; cbn [bind]. by rewrite (mapM_enc _ hlen). }
    rewrite hsg; cbn [bind fst snd]. rewrite /read_and_add.
    set x := (_ / _ : F).
    have hndk : List.NoDup (List.map (fun b => 1 + positional Nb b)%Z O').
    { elim: O' hnd' hin' hlen {hO' hsg x} => [|b O1 IHO] hnd1 hin1 hlen1; first by constructor.
      inversion hnd1 as [|b0 O0 hb hO1]; subst b0 O0. cbn [List.map].
      have hsub : forall b1, List.In b1 (b :: O1) -> digits_below Nb b1 by move=> b1 /hin1 /(related_below good).
      have gen : forall O2, incl O2 O1 -> List.NoDup O2 -> List.NoDup (List.map (fun b => 1 + positional Nb b)%Z O2).
      { elim=> [|b2 O2 IH2] hi hn; first by constructor. inversion hn as [|b0 O0 hb2 hO2]; subst b0 O0. cbn [List.map].
        constructor; last by apply: IH2 => // y hy; apply: hi; right.
        rewrite List.in_map_iff => -[b3 [e hb3]]. apply: hb2.
        have -> : b2 = b3; last by [].
        apply: (@positional_inj Nb) => //; last by lia.
        + by apply: hsub; right; apply: hi; left.
        + by apply: hsub; right; apply: hi; right.
        + have := hlen1 b2 (or_intror (hi _ (or_introl erefl))). have := hlen1 b3 (or_intror (hi _ (or_intror hb3))). rewrite /zlen; lia. }
      constructor; last by apply: gen.
      rewrite List.in_map_iff => -[b3 [e hb3]]. apply: hb.
      have -> : b = b3; last by [].
      apply: (@positional_inj Nb) => //; last by lia.
      + by apply: hsub; left.
      + by apply: hsub; right.
      + have := hlen1 b (or_introl erefl). have := hlen1 b3 (or_intror hb3). rewrite /zlen; lia. }
    case: (@add_loop x ac _ t hndk).
    { move=> k /List.in_map_iff [b [<- /hin' hb]]. exact: hk hg hb. }
    move=> t1 [-> [hk1 hg1]]; cbn [bind].
    case: (IH t1).
    { move=> y hy; apply: hl; by right. }
    { move=> g' b' hg' hb'. rewrite hk1. exact: hk hg' hb'. }
    move=> t' [-> [hk2 hg2]]; exists t'; split=> //; split; first by rewrite hk2.
    move=> w e. rewrite (hg2 _ (hg1 _ _ e)); congr Some.
    cbn [List.map fsum_list List.fold_right]. rewrite -/(fsum_list _) -addrA mulrDl; congr (_ + (_ + _)).
    rewrite /contribution.
    have hmem : List.In (1 + positional Nb a)%Z (List.map (fun b => 1 + positional Nb b)%Z O') <-> List.In (dec Nb g) O.
    { rewrite List.in_map_iff hOr; split.
      - case=> b [e' hb]; apply: (related_sym good).
        have <- : b = a; last by apply/hin'.
        have [_ [ea2 ea3]] := group_decode hN (hrng hga).
        apply: (@positional_inj Nb) => //; [by move/hin': hb => /(related_below good)|by rewrite ea|move: (hlen b hb); rewrite ea; move: ea2; rewrite /zlen; lia|lia].
      - move=> h; exists a; split=> //. apply/hin'. exact: (related_sym good h). }
    case: (List.in_dec _ _ _) => [hin|hnin].
    + have -> : existsb (Z.eqb (1 + positional Nb a)) (List.map (fun b => (1 + positional Nb b)%Z) O') = true.
      { apply/existsb_exists; exists (1 + positional Nb a)%Z; split; [by apply/hmem|exact: Z.eqb_refl]. }
      rewrite hw /x List.map_length e1.
      have -> : length O' = length O.
      { apply: perm_len => // b. rewrite hin' hOr. move/hOr: hin => hag; split=> h.
        - exact: (related_trans good hag h).
        - exact: (related_trans good (related_sym good hag) h). }
      by rewrite mulrA.
    + have -> : existsb (Z.eqb (1 + positional Nb a)) (List.map (fun b => (1 + positional Nb b)%Z) O') = false.
      { apply: Bool.not_true_is_false => /existsb_exists [y [hy /Z.eqb_eq e']]. apply: hnin; apply/hmem. by rewrite e'. }
      by rewrite mul0r.
Qed.

Lemma oget_zero k (ks : list Z) : List.In k ks -> oget (List.map (fun k => (k, 0 : F)) ks) k = Some 0.
Proof.
  elim: ks => [|k0 ks IH] // h. rewrite /oget; cbn [List.map List.find fst].
  case: (Z.eqb_spec k k0) => // hne. case: h => [e|h]; first by case: hne. exact: IH.
Qed.

(** Every band group of the output is the average over its orbit. *)
Lemma symmetrize_orbit :
  exists t, symmetrize_channel h5in Nb grs sy ch = Ok t /\
  forall g O, List.In g grs -> List.NoDup O -> (forall b', List.In b' O <-> related sy (dec Nb g) b') ->
   oget t (1 + positional Nb (dec Nb g))%Z =
   Some (orbit_sum (is_magn ch) (fun g => dec Nb g) (fun g => spn Nb g) h5in O grs / (channel_norm F (is_magn ch) * (length O)%:R)).
Proof.
  have [bg [hgg hbg]] := get_groups_spec hN hrng.
  rewrite /symmetrize_channel hgg; cbn [bind fst snd].
  set t0 := List.map _ bg.
  have hk0 : keys t0 = bg.
  { by rewrite /keys /t0 List.map_map /= List.map_id. }
  have hk : forall g b', List.In g grs -> related sy (dec Nb g) b' -> List.In (1 + positional Nb b')%Z (keys t0).
  { move=> g b' hg hr. rewrite hk0. apply/hbg. have [g' [hg' <-]] := hclosed hg hr. by exists g'. }
  have hmain := fun O g hg hO hOr => @main_loop O (dec Nb g) g hg erefl hO hOr grs t0 (List.incl_refl _) hk.
  case hE : grs => [|g0 l0].
  { exists t0; split; first by []. by move=> g O []. }
  have hg0 : List.In g0 grs by rewrite hE; left.
  have [_ [_ hb0]] := group_decode hN (hrng hg0).
  have [O0 [_ [hO0 hOr0]]] := sym_bands_orbit good hb0 (proj1 (hkan hg0)).
  have [t [ht _]] := hmain O0 g0 hg0 hO0 hOr0.
  rewrite -hE; exists t; split=> // g O hg hO hOr.
  have [t' [h1 [h2 h3]]] := hmain O g hg hO hOr.
  rewrite ht in h1; case: h1 => e; subst t'.
  rewrite (h3 0); first by rewrite add0r; congr (Some (_ / (_ * _))); case: (ch).
  rewrite oget_zero //; apply/hbg; by exists g.
Qed.
Lemma symmetrize_invariant t g g' : symmetrize_channel h5in Nb grs sy ch = Ok t ->
  List.In g grs -> List.In g' grs -> related sy (dec Nb g) (dec Nb g') ->
  oget t (1 + positional Nb (dec Nb g))%Z = oget t (1 + positional Nb (dec Nb g'))%Z.
Proof.
  move=> ht hg hg' hr. have [t' [ht' h]] := symmetrize_orbit. rewrite ht in ht'; case: ht' => e; subst t'.
  have [_ [_ hb]] := group_decode hN (hrng hg).
  have [O [_ [hO hOr]]] := sym_bands_orbit good hb (proj1 (hkan hg)).
  rewrite (h g O) // (h g' O) // => b'. rewrite hOr; split=> hh.
  - exact: (related_trans good (related_sym good hr) hh).
  - exact: (related_trans good hr hh).
Qed.
End Main.
Lemma one_band_d (a b c d k : F) : 0 + a / (k * 1) + b / (k * 1) + c / (k * 1) + d / (k * 1) = (a + b + c + d) / k.
Proof. by rewrite add0r mulr1 !mulrDl. Qed.
Lemma one_band_m (a b c d e f k : F) :
  0 + a / (k * 1) - b / (k * 1) + c / (k * 1) + d / (k * 1) - e / (k * 1) + f / (k * 1) = (a + c + d + f - b - e) / k.
Proof. rewrite add0r mulr1 -!mulNr -!mulrDl; congr (_ * _). frng. Qed.
(** one band, SU(2): the classic density and magnetic combinations *)
Lemma one_band_channels (x : Z -> F) : 2%:R != 0 :> F ->
  exists td tm, symmetrize_channel x 1 [:: 1; 4; 7; 10; 13; 16]%Z [:: [:: 1%Z]] Dens = Ok td /\
                symmetrize_channel x 1 [:: 1; 4; 7; 10; 13; 16]%Z [:: [:: 1%Z]] Magn = Ok tm /\
   oget td 1 = Some ((x 1%Z + x 4%Z + x 13%Z + x 16%Z) / 2%:R) /\
   oget tm 1 = Some ((x 1%Z + x 7%Z + x 10%Z + x 16%Z - x 4%Z - x 13%Z) / 4%:R).
Proof.
  move=> h2. have h4 : 4%:R != 0 :> F by rewrite (natrM _ 2 2) mulf_neq0.
  set td := symmetrize_channel _ _ _ _ Dens; set tm := symmetrize_channel _ _ _ _ Magn.
  cbv -[prefactor GRing.zero GRing.one GRing.add GRing.mul GRing.inv GRing.opp GRing.natmul oget] in td, tm.
  eexists; eexists; split; [reflexivity|split; [reflexivity|]].
  split; [exact: (congr1 Some (one_band_d _ _ _ _ _))|exact: (congr1 Some (one_band_m _ _ _ _ _ _ _))].
Qed.
Lemma one_band_su2 (x : Z -> F) : 2%:R != 0 :> F ->
  x 16%Z = x 1%Z -> x 13%Z = x 4%Z -> x 7%Z = x 1%Z - x 4%Z -> x 10%Z = x 1%Z - x 4%Z ->
  exists td tm, symmetrize_channel x 1 [:: 1; 4; 7; 10; 13; 16]%Z [:: [:: 1%Z]] Dens = Ok td /\
                symmetrize_channel x 1 [:: 1; 4; 7; 10; 13; 16]%Z [:: [:: 1%Z]] Magn = Ok tm /\
   oget td 1 = Some (x 1%Z + x 4%Z) /\ oget tm 1 = Some (x 1%Z - x 4%Z).
Proof.
  move=> h2 e1 e2 e3 e4. have [td [tm [-> [-> [h5 h6]]]]] := one_band_channels x h2.
  have h4 : 4%:R != 0 :> F by rewrite (natrM _ 2 2) mulf_neq0.
  exists td, tm; split=> //; split=> //. rewrite h5 h6 e1 e2 e3 e4; split; congr Some.
  - apply: (mulIf h2); rewrite divfK // mulr_natr mulr2n; frng.
  - apply: (mulIf h4); rewrite divfK // mulr_natr !mulrS mulr0n; frng.
Qed.

(** ** one-frequency data *)
Lemma fsum_map_const (A : Type) (l : list A) (c : F) : fsum (List.map (fun _ => c) l) = c *+ length l.
Proof. elim: l => [|a l IH]; first by rewrite mulr0n. by rewrite /= IH mulrS. Qed.
Lemma fsum_scale (l : list F) (c : F) : fsum (List.map (fun x => x / c) l) = fsum l / c.
Proof. elim: l => [|a l IH]; first by rewrite /= mul0r. by rewrite /= IH mulrDl. Qed.

Lemma sym_1freq_spec Nb (sym : list (list Z)) (g : list (list F)) band :
  good_sym Nb sym -> zlen g = Nb -> (0 <= band < Nb)%Z ->
  exists sb gb, zget sym band = Some sb /\ zget g band = Some gb /\
    sym_1freq g sym band =
      Ok (List.map (fun _ => fsum (List.map (fun y => band_mean g (y - 1)) sb) / (length sb)%:R) gb).
Proof.
  move=> good hg hb.
  have [sb [z1 [p1 [nd hin]]]] := sy_get good hb.
  have getg : forall y, (0 <= y < Nb)%Z -> exists l, zget g y = Some l /\ py_get g y = Ok l.
  { move=> y hy. have [l hl] := @zget_in_range _ g y ltac:(lia). exists l; split=> //.
    rewrite /py_get. case: Z.ltb_spec => h; first lia. by rewrite hl. }
  have [gb [z2 p2]] := getg _ hb.
  exists sb, gb; split=> //; split=> //. rewrite /sym_1freq p1; cbn [bind]. rewrite p2; cbn [bind].
  have gen : forall l acc, (forall y, List.In y l -> (0 <= y - 1 < Nb)%Z) ->
    foldM (fun acc symband => let! gs := py_get g (symband - 1) in
           Ok (acc + spin_mean (List.map (fun x => x / (length sb)%:R) gs))) l acc
    = Ok (acc + fsum (List.map (fun y => band_mean g (y - 1)) l) / (length sb)%:R).
  { elim=> [|y l IH] acc hl; first by rewrite /= mul0r addr0.
    cbn [foldM]. have [gs [z3 p3]] := getg _ (hl y (or_introl erefl)). rewrite p3; cbn [bind].
    rewrite IH; last by move=> y' hy'; apply: hl; right.
    congr Ok. rewrite -addrA; congr (_ + _). cbn [List.map fsum List.fold_right]. rewrite -/(fsum _) mulrDl; congr (_ + _).
    rewrite /band_mean z3 /mean /spin_mean -/(fsum _) List.map_length fsum_scale. by rewrite mulrAC. }
  rewrite gen; first by rewrite add0r.
  move=> y hy. apply: (gs_rng good (x := band)). apply/hin. by have -> : (y - 1 + 1)%Z = y by lia.
Qed.

(** equivalent bands get the same value *)
Lemma perm_fsum (f : Z -> F) (l l' : list Z) : List.NoDup l -> List.NoDup l' -> (forall x, List.In x l <-> List.In x l') ->
  fsum (List.map f l) = fsum (List.map f l').
Proof.
  move=> h1 h2 h. have hp := Permutation.NoDup_Permutation h1 h2 h.
  elim: hp => //=.
  - by move=> x l1 l2 _ ->.
  - by move=> x y l1; rewrite addrCA.
  - by move=> l1 l2 l3 _ -> _ ->.
Qed.
Lemma sym_1freq_equiv Nb (sym : list (list Z)) (g : list (list F)) band band' l l' :
  good_sym Nb sym -> zlen g = Nb -> (0 <= band < Nb)%Z -> listed sym band band' ->
  sym_1freq g sym band = Ok l -> sym_1freq g sym band' = Ok l' ->
  forall x x', List.In x l -> List.In x' l' -> x = x'.
Proof.
  move=> good hg hb hl e e' x x' hx hx'.
  have [sb [gb [z1 [z2 e1]]]] := sym_1freq_spec good hg hb.
  have [sb' [gb' [z1' [z2' e1']]]] := sym_1freq_spec good hg (gs_rng good hl).
  rewrite e in e1; case: e1 => e1; subst l. rewrite e' in e1'; case: e1' => e1'; subst l'.
  move/List.in_map_iff: hx => [? [<- _]]. move/List.in_map_iff: hx' => [? [<- _]].
  have hsame : forall y, List.In y sb <-> List.In y sb'.
  { move=> y. have -> : y = (y - 1 + 1)%Z by lia.
    have q1 : forall y, List.In (y + 1)%Z sb <-> listed sym band y.
    { move=> w; split; [by move=> h; exists sb|by case=> ? [h ?]; rewrite z1 in h; case: h => ->]. }
    have q2 : forall y, List.In (y + 1)%Z sb' <-> listed sym band' y.
    { move=> w; split; [by move=> h; exists sb'|by case=> ? [h ?]; rewrite z1' in h; case: h => ->]. }
    rewrite q1 q2; split=> h.
    - exact: (gs_trans good (gs_sym good hl) h).
    - exact: (gs_trans good hl h). }
  have n1 := gs_nodup good _ z1. have n2 := gs_nodup good _ z1'.
  by rewrite (perm_fsum _ n1 n2 hsame) (perm_len n1 n2 hsame).
Qed.
(** data that already has the symmetry is returned unchanged *)
Lemma sym_1freq_fixed Nb (sym : list (list Z)) (g : list (list F)) band (c : F) nspin :
  good_sym Nb sym -> zlen g = Nb -> (0 <= band < Nb)%Z -> (forall n, n.+1%:R != 0 :> F) -> (0 < nspin)%nat ->
  (forall y, listed sym band y -> zget g y = Some (List.repeat c nspin)) ->
  sym_1freq g sym band = Ok (List.repeat c nspin).
Proof.
  move=> good hg hb hch hns hsame.
  have [sb [gb [z1 [z2 ->]]]] := sym_1freq_spec good hg hb.
  have q1 : forall y, List.In (y + 1)%Z sb <-> listed sym band y.
  { move=> w; split; [by move=> h; exists sb|by case=> ? [h ?]; rewrite z1 in h; case: h => ->]. }
  have hmean : spin_mean (List.repeat c nspin) = c.
  { rewrite /spin_mean List.repeat_length. have -> : fsum (List.repeat c nspin) = c *+ nspin.
    { elim: (nspin) => [|n IH]; first by rewrite mulr0n. by rewrite /= IH mulrS. }
    case: nspin hns {hsame} => // n _. by rewrite -[c *+ _]mulr_natr mulfK. }
  have -> : List.map (fun y => band_mean g (y - 1)) sb = List.map (fun _ => c) sb.
  { apply: List.map_ext_in => y hy. rewrite /band_mean hsame; first exact: hmean.
    apply/q1. by have -> : (y - 1 + 1)%Z = y by lia. }
  rewrite fsum_map_const.
  have hr := gs_refl good hb. rewrite (hsame _ hr) in z2; case: z2 => <-.
  case: sb z1 q1 => [|y sb] z1 q1; first by case: hr => ? [h hh]; rewrite z1 in h; case: h hh => <- [].
  rewrite -[c *+ _]mulr_natr mulfK; last exact: hch.
  congr Ok. elim: (nspin) => // n IH. by cbn [List.repeat List.map]; rewrite IH.
Qed.
End V.
