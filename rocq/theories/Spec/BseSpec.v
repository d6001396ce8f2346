(** Textbook relations between the two-particle quantities at one transferred frequency, in exact arithmetic over a
    field.  They mention neither numpy inverses nor the code's auxiliary quantities. *)
From mathcomp Require Import all_ssreflect all_algebra.
Set Implicit Arguments. Unset Strict Implicit. Unset Printing Implicit Defensive.
Import GRing.Theory.
Local Open Scope ring_scope.
Section Spec.
Variable F : fieldType.

(** Bethe-Salpeter equation  chi = chi0 - chi0 Gamma chi  (chi0 diagonal; Gamma stands for Gamma/beta^2). *)
Definition bethe_salpeter n (chi0 : 'rV[F]_n) (gam chi : 'M[F]_n) : Prop :=
  forall i j, chi i j = (if i == j then chi0 0 i else 0) - chi0 0 i * \sum_k gam i k * chi k j.

(** Full vertex  chi = chi0 - chi0 F chi0  (F stands for F/beta^2). *)
Definition full_vertex n (chi0 : 'rV[F]_n) (f chi : 'M[F]_n) : Prop :=
  forall i j, chi i j = (if i == j then chi0 0 i else 0) - chi0 0 i * f i j * chi0 0 j.

(** Physical susceptibility  1/beta^2 sum_{v v'} chi. *)
Definition phys n (beta : F) (chi : 'M[F]_n) : F := (beta ^+ 2)^-1 * \sum_i \sum_j chi i j.

(** Three-leg (fermion-boson) vertex: sum_{v'} chi_{v v'} = chi0_v gamma_v (1 - u_r chi_phys), and its mirror image. *)
Definition three_leg n (beta ur : F) (chi0 : 'rV[F]_n) (chi : 'M[F]_n) (g : 'I_n -> F) : Prop :=
  forall i, \sum_j chi i j = chi0 0 i * g i * (1 - ur * phys beta chi).
Definition three_leg_left n (beta ur : F) (chi0 : 'rV[F]_n) (chi : 'M[F]_n) (g : 'I_n -> F) : Prop :=
  forall j, \sum_i chi i j = chi0 0 j * g j * (1 - ur * phys beta chi).

(** The 2 nc core frequencies sit in the centre of the 2 (nc+ns) frequencies of the full box. *)
Definition core_of nc ns (i : 'I_(nc.*2)) (I : 'I_((nc + ns).*2)) : Prop := I = (i + ns)%N :> nat.
Definition in_core nc ns (I : 'I_((nc + ns).*2)) : bool := (ns <= I < ns + nc.*2)%N.

(** [G] is the vertex [gam] in the core and the constant [c] elsewhere. *)
Definition u_padded nc ns (gam : 'M[F]_(nc.*2)) (c : F) (G : 'M[F]_((nc + ns).*2)) : Prop :=
  (forall i j I J, core_of i I -> core_of j J -> G I J = gam i j) /\
  (forall I J, ~~ (in_core I && in_core J) -> G I J = c).
(** [m] is the centred core block of [M]; [v] the core part of [V] *)
Definition core_block nc ns (M : 'M[F]_((nc + ns).*2)) (m : 'M[F]_(nc.*2)) : Prop :=
  forall i j I J, core_of i I -> core_of j J -> m i j = M I J.
Definition core_part nc ns (V : 'rV[F]_((nc + ns).*2)) (v : 'rV[F]_(nc.*2)) : Prop :=
  forall i I, core_of i I -> v 0 i = V 0 I.
End Spec.
