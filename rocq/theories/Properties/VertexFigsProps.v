(** C119: the figures of the local vertices. *)
From Coq Require Import ZArith Reals List Lia Lra String.
From Verif Require Import Base.PyBase Base.PyFacts Base.Arr Model.VertexFigs Spec.VertexFigsSpec Proofs.VertexFigsP.
Import ListNotations.
Local Open Scope R_scope.

(** One figure: for a bosonic frequency of the vertex and a number of fermionic frequencies that it has, the two panels show exactly the real and imaginary parts at all pairs v, v' = -c .. c-1, v' to the right and v upwards;
    without a number (-1) all of them. *)
Theorem C119_figure mat n m F iwn niv c : vertex_of mat n m F -> (- n <= iwn <= n)%Z -> (1 <= c <= m)%Z -> niv = c \/ niv = (-1)%Z /\ c = m ->
  exists re im, plot mat iwn niv = Ok (re, im) /\ shows re c (fun v v' => fst (F iwn v v')) /\ shows im c (fun v v' => snd (F iwn v v')).
Proof.
  intros H R C N. assert (E : shown_range m niv = c). { unfold shown_range. destruct (Z.eqb_spec niv (-1)); lia. }
  destruct (@plot_ok mat n m F iwn niv H R ltac:(rewrite E; exact C)) as (re & im & P). rewrite E in P. exists re, im. exact P.
Qed.
(** Any other bosonic frequency stops the program. *)
Theorem C119_outside (mat : vertex) n iwn niv : zlen mat = (2 * n + 1)%Z -> ~ (- n <= iwn <= n)%Z -> plot mat iwn niv = Raise AssertionError.
Proof. exact (@plot_outside mat n iwn niv). Qed.

(** what a list of figures has to show: the name, the bosonic frequency, the vertex *)
Definition right_figure (c : Z) (x : string * Z * (Z -> Z -> Z -> R * R)) (f : figure) : Prop :=
  let '(name, iwn, F) := x in fig_name f = name /\ fig_iwn f = iwn /\ shows (fst (fig_maps f)) c (fun v v' => fst (F iwn v v')) /\ shows (snd (fig_maps f)) c (fun v v' => snd (F iwn v v')).
Local Open Scope string_scope.
(** The figures of the two-particle Green function, made in every run: they need ten bosonic frequencies. *)
Theorem C119_g2 dens magn n m Fd Fm : vertex_of dens n m Fd -> vertex_of magn n m Fm -> (10 <= n)%Z -> (1 <= m)%Z ->
  exists l, default_g2_plots dens magn = Ok l /\ Forall2 (right_figure m) [("G2_dens", 0%Z, Fd); ("G2_magn", 0%Z, Fm); ("G2_magn", 10%Z, Fm); ("G2_magn", (-10)%Z, Fm)] l.
Proof.
  intros Hd Hm N M. unfold default_g2_plots, plots. cbn [mapM].
  destruct (@C119_figure dens n m Fd 0 (-1) m Hd ltac:(lia) ltac:(lia) ltac:(right; lia)) as (r1 & i1 & E1 & A1 & B1). destruct (@C119_figure magn n m Fm 0 (-1) m Hm ltac:(lia) ltac:(lia) ltac:(right; lia)) as (r2 & i2 & E2 & A2 & B2).
  destruct (@C119_figure magn n m Fm 10 (-1) m Hm ltac:(lia) ltac:(lia) ltac:(right; lia)) as (r3 & i3 & E3 & A3 & B3). destruct (@C119_figure magn n m Fm (-10) (-1) m Hm ltac:(lia) ltac:(lia) ltac:(right; lia)) as (r4 & i4 & E4 & A4 & B4).
  rewrite E1. cbn [bind]. rewrite E2. cbn [bind]. rewrite E3. cbn [bind]. rewrite E4. cbn [bind]. eexists. split; [reflexivity|]. repeat (apply Forall2_cons; [cbn; auto 8|]); apply Forall2_nil.
Qed.
(** A run with fewer than ten bosonic frequencies is stopped by them, whatever else is right. *)
Theorem C119_small_box_refuted dens magn n m Fd Fm : vertex_of dens n m Fd -> vertex_of magn n m Fm -> (0 <= n < 10)%Z -> (1 <= m)%Z -> default_g2_plots dens magn = Raise AssertionError.
Proof.
  intros Hd Hm N M. unfold default_g2_plots, plots. cbn [mapM].
  destruct (@C119_figure dens n m Fd 0 (-1) m Hd ltac:(lia) ltac:(lia) ltac:(right; lia)) as (r1 & i1 & E1 & _). destruct (@C119_figure magn n m Fm 0 (-1) m Hm ltac:(lia) ltac:(lia) ltac:(right; lia)) as (r2 & i2 & E2 & _).
  rewrite E1. cbn [bind]. rewrite E2. cbn [bind]. rewrite (@C119_outside magn n 10 (-1)); [reflexivity|apply Hm|lia].
Qed.
(** The figures of the generalised susceptibility work for every number of bosonic frequencies. *)
Theorem C119_gchi dens magn n m Fd Fm : vertex_of dens n m Fd -> vertex_of magn n m Fm -> (0 <= n)%Z -> (1 <= m)%Z ->
  exists l, default_gchi_plots dens magn = Ok l /\ Forall2 (right_figure m) [("Gchi_dens", 0%Z, Fd); ("Gchi_magn", 0%Z, Fm)] l.
Proof.
  intros Hd Hm N M. unfold default_gchi_plots, plots. cbn [mapM].
  destruct (@C119_figure dens n m Fd 0 (-1) m Hd ltac:(lia) ltac:(lia) ltac:(right; lia)) as (r1 & i1 & E1 & A1 & B1). destruct (@C119_figure magn n m Fm 0 (-1) m Hm ltac:(lia) ltac:(lia) ltac:(right; lia)) as (r2 & i2 & E2 & A2 & B2).
  rewrite E1. cbn [bind]. rewrite E2. cbn [bind]. eexists. split; [reflexivity|]. repeat (apply Forall2_cons; [cbn; auto 8|]); apply Forall2_nil.
Qed.
(** Those of the irreducible vertex show the frequencies up to the smaller one of niv_core and twice the integer part of beta; they need ten bosonic frequencies, too. *)
Theorem C119_gamma dens magn n m Fd Fm ib : vertex_of dens n m Fd -> vertex_of magn n m Fm -> (10 <= n)%Z -> (1 <= m)%Z -> (1 <= ib)%Z ->
  exists l, default_gamma_plots dens magn m ib = Ok l /\
    Forall2 (right_figure (Z.min m (2 * ib))) [("Gamma_dens", 0%Z, Fd); ("Gamma_magn", 0%Z, Fm); ("Gamma_magn", 10%Z, Fm); ("Gamma_magn", (-10)%Z, Fm); ("Gamma_dens", 10%Z, Fd)] l.
Proof.
  intros Hd Hm N M Ib. unfold default_gamma_plots, plots. cbn [mapM]. set (c := Z.min m (2 * ib)). assert (C : (1 <= c <= m)%Z) by (unfold c; lia).
  destruct (@C119_figure dens n m Fd 0 c c Hd ltac:(lia) C (or_introl eq_refl)) as (r1 & i1 & E1 & A1 & B1). destruct (@C119_figure magn n m Fm 0 c c Hm ltac:(lia) C (or_introl eq_refl)) as (r2 & i2 & E2 & A2 & B2).
  destruct (@C119_figure magn n m Fm 10 c c Hm ltac:(lia) C (or_introl eq_refl)) as (r3 & i3 & E3 & A3 & B3). destruct (@C119_figure magn n m Fm (-10) c c Hm ltac:(lia) C (or_introl eq_refl)) as (r4 & i4 & E4 & A4 & B4).
  destruct (@C119_figure dens n m Fd 10 c c Hd ltac:(lia) C (or_introl eq_refl)) as (r5 & i5 & E5 & A5 & B5).
  rewrite E1. cbn [bind]. rewrite E2. cbn [bind]. rewrite E3. cbn [bind]. rewrite E4. cbn [bind]. rewrite E5. cbn [bind]. eexists. split; [reflexivity|]. repeat (apply Forall2_cons; [cbn; auto 8|]); apply Forall2_nil.
Qed.

Print Assumptions C119_figure.
Print Assumptions C119_outside.
Print Assumptions C119_g2.
Print Assumptions C119_small_box_refuted.
Print Assumptions C119_gchi.
Print Assumptions C119_gamma.

(** Non-vacuity *)
Definition ex_vertex (n : Z) : list (list (list (R * R))) := map (fun w => [[(IZR w, 1); (2, 3)]; [(4, 5); (6, 7)]]) (arange (- n) (n + 1)).
Definition ex_F (w v v' : Z) : R * R := if Z.eqb v (-1) then (if Z.eqb v' (-1) then (IZR w, 1) else (2, 3)) else (if Z.eqb v' (-1) then (4, 5) else (6, 7)).
Lemma C119_ex_vertex n : (0 <= n)%Z -> vertex_of (ex_vertex n) n 1 ex_F.
Proof.
  intros P. unfold ex_vertex. split.
  - split; [rewrite zlen_map, zlen_arange; lia|]. intros r I. apply in_map_iff in I. destruct I as (w & <- & _). split; [reflexivity|]. intros s [<-|[<-|[]]]; reflexivity.
  - intros w v v' Rw Rv Rv'. unfold get3. rewrite zget_map, zget_arange by lia. replace (- n + (n + w))%Z with w by lia. assert (v = -1 \/ v = 0)%Z as [-> | ->] by lia; assert (v' = -1 \/ v' = 0)%Z as [-> | ->] by lia; reflexivity.
Qed.
Example C119_ex_works : exists l, default_g2_plots (ex_vertex 12) (ex_vertex 12) = Ok l /\ zlen l = 4%Z.
Proof.
  destruct (@C119_g2 (ex_vertex 12) (ex_vertex 12) 12 1 ex_F ex_F ltac:(now apply C119_ex_vertex) ltac:(now apply C119_ex_vertex) ltac:(lia) ltac:(lia)) as (l & E & Fa). exists l. split; [assumption|]. apply Forall2_zget in Fa. destruct Fa as [L _]. rewrite <- L. reflexivity.
Qed.
Example C119_ex_stops : default_g2_plots (ex_vertex 9) (ex_vertex 9) = Raise AssertionError.
Proof. apply (@C119_small_box_refuted _ _ 9 1 ex_F ex_F); try lia; now apply C119_ex_vertex. Qed.
