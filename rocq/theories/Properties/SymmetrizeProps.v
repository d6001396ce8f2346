(** C38, C59, C60: w2dynamics symmetrisation (symmetrize.py). *)
From mathcomp Require Import all_ssreflect all_algebra.
From Verif Require Import Base.PyBase Base.PyFacts Model.Symmetrize Spec.SymSpec Spec.SymValueSpec
  Proofs.SymIndexP Proofs.SymOrbitP Proofs.SymValuesP.
Set Implicit Arguments. Unset Strict Implicit. Unset Printing Implicit Defensive.
Import GRing.Theory.
Local Open Scope Z_scope.

(** ** C38: compound indices *)
(** The band encoder is 1-based positional notation, total on every list of
    components of the right length, and lands in 1..Nbands^N. *)
Theorem C38_band_encode (Nb : Z) (b : list Z) :
  component2index_band Nb (zlen b) b = Ok (1 + positional Nb b).
Proof. exact (band_encode Nb b). Qed.
Print Assumptions C38_band_encode.
Theorem C38_band_encode_range (Nb : Z) (b : list Z) :
  0 < Nb -> digits_below Nb b -> 1 <= 1 + positional Nb b <= Nb ^ zlen b.
Proof. exact (@band_encode_range Nb b). Qed.
Print Assumptions C38_band_encode_range.
Theorem C38_band_decode_encode (Nb : Z) (b : list Z) :
  0 < Nb -> digits_below Nb b ->
  exists ind, component2index_band Nb (zlen b) b = Ok ind /\ index2component_band Nb (zlen b) ind = b.
Proof. exact (@band_decode_encode Nb b). Qed.
Print Assumptions C38_band_decode_encode.
Theorem C38_band_encode_decode (Nb N ind : Z) :
  0 < Nb -> 0 <= N -> 1 <= ind <= Nb ^ N ->
  zlen (index2component_band Nb N ind) = N /\
  digits_below Nb (index2component_band Nb N ind) /\
  component2index_band Nb N (index2component_band Nb N ind) = Ok ind.
Proof. exact (@band_encode_decode Nb N ind). Qed.
Print Assumptions C38_band_encode_decode.
(** The band-spin decoder returns the digits 2*band+spin of the index, and every
    list of (band, spin) pairs is decoded from exactly its compound index. *)
Theorem C38_general_decode (Nb N ind : Z) (bs b s : list Z) :
  0 < Nb -> 0 <= N -> 1 <= ind <= (2 * Nb) ^ N ->
  index2component_general Nb N ind = (bs, b, s) ->
  zlen bs = N /\ zlen b = N /\ zlen s = N /\
  digits_below Nb b /\ digits_below 2 s /\
  (forall i x y z, zget bs i = Some x -> zget b i = Some y -> zget s i = Some z -> x = 2 * y + z) /\
  ind = 1 + positional (2 * Nb) bs.
Proof. exact (@general_decode Nb N ind bs b s). Qed.
Print Assumptions C38_general_decode.
Theorem C38_general_encode (Nb : Z) (l : list (Z * Z)) :
  0 < Nb -> digits_below Nb (List.map fst l) -> digits_below 2 (List.map snd l) ->
  let ind := 1 + positional (2 * Nb) (compound l) in
  1 <= ind <= (2 * Nb) ^ zlen l /\
  index2component_general Nb (zlen l) ind = (compound l, List.map fst l, List.map snd l).
Proof. exact (@general_encode Nb l). Qed.
Print Assumptions C38_general_encode.
Example ex_C38_band : component2index_band 3 4 [2; 0; 1; 2] = Ok 60 /\ index2component_band 3 4 60 = [2; 0; 1; 2].
Proof. split; vm_compute; reflexivity. Qed.
Example ex_C38_general : index2component_general 3 4 1296 = ([5; 5; 5; 5], [2; 2; 2; 2], [1; 1; 1; 1]).
Proof. vm_compute; reflexivity. Qed.

(** ** C59: orbital symmetrisation of two-particle data *)
Definition bands_of (Nb g : Z) : list Z := snd (fst (index2component_general Nb 4 g)).
Definition spins_of (Nb g : Z) : list Z := snd (index2component_general Nb 4 g).
Lemma bands_ofE Nb g : bands_of Nb g = gr_bands (group_of Nb g).
Proof. rewrite /bands_of /group_of. by case: (index2component_general Nb 4 g) => [[]]. Qed.
Lemma spins_ofE Nb g : spins_of Nb g = gr_spins (group_of Nb g).
Proof. rewrite /spins_of /group_of. by case: (index2component_general Nb 4 g) => [[]]. Qed.

Section C59.
Variable F : fieldType.
Definition is_magn_ch (ch : channel) : bool := match ch with Magn => true | Dens => false end.
(** Input files as w2dynamics writes them for a Kanamori interaction: group
    numbers in range, spin-conserving, and with every orbital equivalent group. *)
Record input_ok (Nb : Z) (sy : list (list Z)) (grs : list Z) : Prop := {
  io_rng : forall g, List.In g grs -> 1 <= g <= (2 * Nb) ^ 4;
  io_kan : forall g, List.In g grs -> kanamori_bands (bands_of Nb g) /\ spin_conserving (spins_of Nb g);
  io_closed : forall g b', List.In g grs -> related sy (bands_of Nb g) b' ->
                exists g', List.In g' grs /\ bands_of Nb g' = b' }.

Theorem C59_orbit_average (Nb : Z) (sy : list (list Z)) (grs : list Z) (x : Z -> F) (ch : channel) :
  0 < Nb -> good_sym Nb sy -> input_ok Nb sy grs ->
  exists t, symmetrize_channel x Nb grs sy ch = Ok t /\
  forall g O, List.In g grs -> List.NoDup O -> (forall b', List.In b' O <-> related sy (bands_of Nb g) b') ->
   oget t (1 + positional Nb (bands_of Nb g)) =
   Some (orbit_sum (is_magn_ch ch) (bands_of Nb) (spins_of Nb) x O grs
         / (channel_norm F (is_magn_ch ch) * (length O)%:R))%R.
Proof.
  move=> hN good [h1 h2 h3].
  have h2' : forall g, List.In g grs -> kanamori_bands (gr_bands (group_of Nb g)) /\ spin_conserving (gr_spins (group_of Nb g)).
  { by move=> g hg; rewrite -bands_ofE -spins_ofE; apply: h2. }
  have h3' : forall g b', List.In g grs -> related sy (gr_bands (group_of Nb g)) b' ->
                exists g', List.In g' grs /\ gr_bands (group_of Nb g') = b'.
  { move=> g b' hg; rewrite -bands_ofE => hr. have [g' [? <-]] := h3 g b' hg hr. exists g'. by rewrite bands_ofE. }
  have [t [-> ht]] := @symmetrize_orbit F Nb sy grs x ch hN good h1 h2' h3'.
  by exists t; split.
Qed.
Print Assumptions C59_orbit_average.

Theorem C59_orbit_invariant (Nb : Z) (sy : list (list Z)) (grs : list Z) (x : Z -> F) (ch : channel) t g g' :
  0 < Nb -> good_sym Nb sy -> input_ok Nb sy grs ->
  symmetrize_channel x Nb grs sy ch = Ok t ->
  List.In g grs -> List.In g' grs -> related sy (bands_of Nb g) (bands_of Nb g') ->
  oget t (1 + positional Nb (bands_of Nb g)) = oget t (1 + positional Nb (bands_of Nb g')).
Proof.
  move=> hN good [h1 h2 h3].
  have h2' : forall g, List.In g grs -> kanamori_bands (gr_bands (group_of Nb g)) /\ spin_conserving (gr_spins (group_of Nb g)).
  { by move=> g0 hg; rewrite -bands_ofE -spins_ofE; apply: h2. }
  have h3' : forall g b', List.In g grs -> related sy (gr_bands (group_of Nb g)) b' ->
                exists g', List.In g' grs /\ gr_bands (group_of Nb g') = b'.
  { move=> g0 b' hg; rewrite -bands_ofE => hr. have [g1 [? <-]] := h3 g0 b' hg hr. exists g1. by rewrite bands_ofE. }
  rewrite !bands_ofE. exact: (@symmetrize_invariant F Nb sy grs x ch hN good h1 h2' h3' t g g').
Qed.
Print Assumptions C59_orbit_invariant.

(** The bands a group is distributed over are exactly its orbit. *)
Theorem C59_groups_are_orbits (Nb : Z) (sy : list (list Z)) (b : list Z) :
  good_sym Nb sy -> digits_below Nb b -> kanamori_bands b ->
  exists O, sym_bands sy b = Ok O /\ List.NoDup O /\ (forall b', List.In b' O <-> related sy b b').
Proof. move=> h. exact: (sym_bands_orbit h). Qed.
Print Assumptions C59_groups_are_orbits.

(** One SU(2)-symmetric band (the case DGApy itself runs): chi_d = uu + ud, chi_m = uu - ud.
    Groups 1,4,7,10,13,16 are uuuu, uudd, uddu, duud, dduu, dddd. *)
Theorem C59_one_band_su2 (x : Z -> F) : (2%:R != 0 :> F)%R ->
  x 16 = x 1 -> x 13 = x 4 -> x 7 = (x 1%Z - x 4%Z)%R -> x 10 = (x 1%Z - x 4%Z)%R ->
  exists td tm, symmetrize_channel x 1 [:: 1; 4; 7; 10; 13; 16] [:: [:: 1]] Dens = Ok td /\
                symmetrize_channel x 1 [:: 1; 4; 7; 10; 13; 16] [:: [:: 1]] Magn = Ok tm /\
   oget td 1 = Some (x 1%Z + x 4%Z)%R /\ oget tm 1 = Some (x 1%Z - x 4%Z)%R.
Proof. exact: one_band_su2. Qed.
Print Assumptions C59_one_band_su2.
End C59.

(** Every table the user means is accepted ... *)
Theorem C59_check_sym_accepts (Nb : Z) (sy : list (list Z)) :
  0 <= Nb -> good_sym Nb sy -> check_sym Nb sy = Ok true.
Proof. exact (@good_sym_check Nb sy). Qed.
Print Assumptions C59_check_sym_accepts.
(** ... but the check also accepts tables that are not symmetric: "1 ~ 2" without
    reflexivity passes. *)
Theorem C59_check_sym_refuted : check_sym 2 [:: [:: 2]; [:: 2]] = Ok true /\ ~ good_sym 2 [:: [:: 2]; [:: 2]].
Proof.
  split; first by vm_compute.
  move=> [_ _ _ h _ _]. case: (h 0 ltac:(lia)) => l [[<-]] /=. by case=> // .
Qed.
Print Assumptions C59_check_sym_refuted.
(** Groups whose bands are not of Kanamori type are dropped silently as soon as
    one of their bands has an equivalent band. *)
Theorem C59_other_bands_dropped_finding :
  sym_bands [:: [:: 1; 2]; [:: 1; 2]; [:: 3]] [:: 0; 0; 0; 2] = Ok [::].
Proof. by vm_compute. Qed.
Print Assumptions C59_other_bands_dropped_finding.

(** Non-vacuity: two equivalent bands out of three. *)
Lemma ex_good_sym : good_sym 3 [:: [:: 1; 2]; [:: 1; 2]; [:: 3]].
Proof.
  have L : forall x y, listed [:: [:: 1; 2]; [:: 1; 2]; [:: 3]] x y <->
    (((x = 0 \/ x = 1) /\ (y = 0 \/ y = 1)) \/ (x = 2 /\ y = 2)).
  { move=> x y; split.
    - case=> l []. rewrite /zget. case: Z.ltb_spec => // hx.
      case E : (Z.to_nat x) => [|[|[|n]]] //=; last by case: n E.
      + case=> <- /=; lia.
      + case=> <- /=; lia.
      + case=> <- /=; lia.
    - rewrite /listed /zget => h.
      have : x = 0 \/ x = 1 \/ x = 2 by lia.
      case=> [e|[e|e]]; subst x; cbn; eexists; (split; first reflexivity); cbn; lia. }
  split=> //.
  - move=> x l; rewrite /zget. case: Z.ltb_spec => // hx.
    case E : (Z.to_nat x) => [|[|[|n]]] //=; last by case: n E.
    + move=> e; injection e as e; subst l. repeat constructor; cbn; lia.
    + move=> e; injection e as e; subst l. repeat constructor; cbn; lia.
    + move=> e; injection e as e; subst l. repeat constructor; cbn; lia.
  - move=> x y /L; lia.
  - move=> x hx; apply/L; lia.
  - move=> x y /L h; apply/L; lia.
  - move=> x y z /L h1 /L h2; apply/L; lia.
Qed.
Example ex_orbit : sym_bands [:: [:: 1; 2]; [:: 1; 2]; [:: 3]] [:: 0; 0; 2; 2] = Ok [:: [:: 0; 0; 2; 2]; [:: 1; 1; 2; 2]].
Proof. by vm_compute. Qed.
(** One band: the six groups satisfy [input_ok]. *)
Lemma ex_input_ok : input_ok 1 [:: [:: 1]] [:: 1; 4; 7; 10; 13; 16].
Proof.
  split.
  - move=> g hg; cbn in hg |- *; lia.
  - move=> g /= hg; repeat (case: hg => [<-|hg] //); (split; [by exists 0, 0; left|]); vm_compute.
    + by exists 0, 0; auto.
    + by exists 0, 1; auto.
    + by exists 0, 1; auto 6.
    + by exists 1, 0; auto 6.
    + by exists 1, 0; auto.
    + by exists 1, 1; auto.
  - move=> g b' hg hr.
    have hb : bands_of 1 g = [:: 0; 0; 0; 0] by move: hg => /=; repeat (case=> [<-|]; first by []).
    rewrite hb in hr. move/related4: hr => [c1 [c2 [c3 [c4 [-> [h1 [h2 [h3 [h4 _]]]]]]]]].
    have L : forall c, listed [:: [:: 1]] 0 c -> c = 0 by move=> c [l [[<-]]] /= []; lia.
    exists 1; split; first by left. by rewrite (L _ h1) (L _ h2) (L _ h3) (L _ h4).
Qed.

(** ** C60: one-frequency data *)
Section C60.
Variable F : fieldType.
Local Open Scope ring_scope.
Theorem C60_band_average (Nb : Z) (sym : list (list Z)) (g : list (list F)) band :
  good_sym Nb sym -> zlen g = Nb -> (0 <= band < Nb)%Z ->
  exists sb gb, zget sym band = Some sb /\ zget g band = Some gb /\
    sym_1freq g sym band = Ok (List.map (fun _ => mean (List.map (fun y => band_mean g (y - 1)%Z) sb)) gb).
Proof.
  move=> h1 h2 h3. have [sb [gb [e1 [e2 e3]]]] := sym_1freq_spec h1 h2 h3.
  exists sb, gb; split=> //; split=> //. by rewrite e3 /mean List.map_length.
Qed.
Print Assumptions C60_band_average.
Theorem C60_equivalent_bands_equal (Nb : Z) (sym : list (list Z)) (g : list (list F)) band band' l l' :
  good_sym Nb sym -> zlen g = Nb -> (0 <= band < Nb)%Z -> listed sym band band' ->
  sym_1freq g sym band = Ok l -> sym_1freq g sym band' = Ok l' ->
  forall x x', List.In x l -> List.In x' l' -> x = x'.
Proof. exact: sym_1freq_equiv. Qed.
Print Assumptions C60_equivalent_bands_equal.
Theorem C60_symmetric_data_fixed (Nb : Z) (sym : list (list Z)) (g : list (list F)) band (c : F) nspin :
  good_sym Nb sym -> zlen g = Nb -> (0 <= band < Nb)%Z -> (forall n, n.+1%:R != 0 :> F) -> (0 < nspin)%nat ->
  (forall y, listed sym band y -> zget g y = Some (List.repeat c nspin)) ->
  sym_1freq g sym band = Ok (List.repeat c nspin).
Proof. exact: sym_1freq_fixed. Qed.
Print Assumptions C60_symmetric_data_fixed.
End C60.
Example ex_C60 : exists l, @sym_1freq rat_fieldType [:: [:: 1; 2%:R]; [:: 3%:R; 4%:R]; [:: 5%:R; 5%:R]]%R [:: [:: 1; 2]; [:: 1; 2]; [:: 3]] 0
  = Ok l /\ l = [:: 5%:R / 2%:R; 5%:R / 2%:R]%R.
Proof. eexists; split; first reflexivity. apply/eqP; vm_compute; reflexivity. Qed.
