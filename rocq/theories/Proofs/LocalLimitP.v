(** The double-counting kernel on the core and the local limit of the DGA self-energy. *)
From mathcomp Require Import all_ssreflect all_algebra.
From Coq Require Import String ZArith Lia Permutation.
From Verif Require Import Base.PyBase Base.PyFacts Base.FieldTac Base.Arr Spec.BseSpec Spec.SdeSpec Spec.BubbleSpec Spec.LatticeSdeSpec.
From Verif Require Import Model.Matsubara Model.LocalFourPoint Model.LocalSDE Model.Bubble Model.FourPoint Model.DgaMain.
From Verif Require Model.BrillouinZone.
From Verif Require Import Proofs.MatsubaraP Proofs.LocalFourPointP Proofs.LocalSDEP Proofs.LocalSDE2P Proofs.BubbleP Proofs.LatticeSdeP Proofs.DgaMainP Proofs.LatticeSymP Proofs.DgaRanksP Proofs.LatticeBseP.
Set Implicit Arguments. Unset Strict Implicit. Unset Printing Implicit Defensive.
Import GRing.Theory.
Local Open Scope ring_scope.

Section P.
Variable F : fieldType.
Add Field Ff : (@Kft F).
Ltac frng := to_K F; ring.
Ltac ffld := to_K F; field.
(** a list of even length as a fermionic row *)
Lemma list_frow (l : list F) n : zlen l = (2 * n)%Z -> l = frow n (fun v => val l (n + v)).
Proof.
  move=> L. have Hn : (0 <= n)%Z by have := zlen_nonneg l; lia.
  apply: zget_ext; first by rewrite L zlen_frow.
  rewrite L => i Hi. rewrite zget_frow // /val. have -> : (n + (i - n) = i)%Z by lia.
  have [a ->] := @zget_in_range _ l i ltac:(lia). by [].
Qed.
Lemma core_atP nc v : (- Z.of_nat nc <= v < Z.of_nat nc)%Z -> exists a : 'I_(nc.*2), Z.of_nat a = (Z.of_nat nc + v)%Z.
Proof.
  move=> H. have Ha : (Z.to_nat (Z.of_nat nc + v) < nc.*2)%nat by apply/ltP; rewrite -addnn -plusE; lia. exists (Ordinal Ha). rewrite /=. lia.
Qed.
Lemma dbl n : Z.of_nat n.*2 = (2 * Z.of_nat n)%Z.
Proof. rewrite -addnn -plusE. lia. Qed.
Lemma val_rv2l n (V : 'rV[F]_n) (a : 'I_n) i : Z.of_nat a = i -> val (rv2l V) i = V 0 a.
Proof. move=> <-. by rewrite /val zget_rv2l. Qed.
Lemma cut_rv2l nc ns (V : 'rV[F]_((nc + ns).*2)) : cut_v_1d (rv2l V) (Z.of_nat nc) = rv2l (cut_v_rv V).
Proof.
  rewrite (@list_frow (rv2l V) (Z.of_nat (nc + ns))) ?zlen_rv2l ?dbl // frow_cut; last by rewrite -plusE; lia.
  rewrite [RHS](@list_frow _ (Z.of_nat nc)) ?zlen_rv2l ?dbl //. apply: frow_ext => v Hv. have [a Ha] := core_atP Hv.
  rewrite (val_rv2l _ Ha) mxE. apply: val_rv2l. rewrite /core_ord /= -!plusE. lia.
Qed.
(** the double-counting kernel of the code *)
Lemma dc_kernel_value nc ns nq nw (gm : lnp F 'M[F]_(nc.*2)) ur gam (x0 : nat -> 'rV[F]_((nc + ns).*2)) (x : nat -> nat -> 'rV[F]_((nc + ns).*2)) (f : nat -> 'M[F]_((nc + ns).*2)) :
  u_r gm = Ok ur -> size (l_wn gm) = nw -> l_mat gm = mkseq gam nw -> (forall j, (j < nw)%nat -> fob2_from_gamob2_urange_w (l_beta gm) ur (gam j) (x0 j) = Ok (f j)) ->
  construct_dc_kernel gm (mkseq x0 nw) (arr2 nq nw (fun i j => rv2l (x i j))) (Z.of_nat nc) = Ok (arr2 nq nw (fun i j => rv2l (cut_v_rv (dc_row ur (x i j) (f j))))).
Proof.
  move=> Hu Hw Hm Hf. rewrite /construct_dc_kernel Hu. cbn [bind]. rewrite /per_wn.
  have -> : zlen (l_wn gm) = Z.of_nat nw by rewrite /zlen -Hw.
  have -> : range (Z.of_nat nw) = mkseq Z.of_nat nw.
    apply: zget_ext; first by rewrite /range zlen_arange zlen_mkseq; lia. rewrite /range zlen_arange => i Hi. rewrite zget_arange; last by lia.
    have -> : i = Z.of_nat (Z.to_nat i) by lia. rewrite zget_mkseq //. apply/ltP. lia.
  rewrite (@mapM_mkseq _ _ _ _ f); last by move=> j Hj; rewrite Hm (@py_get_nat _ _ 0) ?size_mkseq // nth_mkseq // [bind _ _]/= (@py_get_nat _ _ 0) ?size_mkseq // nth_mkseq //= Hf.
  cbn [bind]. rewrite (@kernel_dc_ok _ _ nq nw _ ur f x) //; last by rewrite /= (map_mkseq _ 0) size_mkseq; apply: (@eq_from_nth _ [::]); rewrite !size_mkseq // => j Hj; rewrite !nth_mkseq.
  cbn [bind]. rewrite map_arr2. f_equal. apply: eq_mkseq => i. apply: eq_mkseq => j. exact: cut_rv2l.
Qed.
Lemma arr2_ext T nq nw (a b : nat -> nat -> T) : (forall i j, (i < nq)%nat -> (j < nw)%nat -> a i j = b i j) -> arr2 nq nw a = arr2 nq nw b.
Proof.
  move=> H. have E : forall T (f h : nat -> T) n, (forall i, (i < n)%nat -> f i = h i) -> mkseq f n = mkseq h n.
    move=> T' f h n Hf. apply/eq_in_map => i. rewrite mem_iota add0n => /andP[_]. exact: Hf.
  apply: (E) => i Hi. apply: (E) => j Hj. exact: H.
Qed.
(** one channel with a q-independent bubble *)
Section Channel.
Variables (nc ns nq nw : nat) (g : lnp F 'M[F]_(nc.*2)) (ur : F) (gam : nat -> 'M[F]_(nc.*2)) (x : nat -> 'rV[F]_((nc + ns).*2)) (G chi : nat -> 'M[F]_((nc + ns).*2)).
Let beta := l_beta g.
Let xc j : 'rV[F]_(nc.*2) := cut_v_rv (x j).
Let c0u j := (beta ^+ 2)^-1 * \sum_v x j 0 v.
Let c0c j := (beta ^+ 2)^-1 * \sum_v xc j 0 v.
Hypotheses (Eg : l_mat g = mkseq gam nw) (Hur : u_r g = Ok ur) (Hb : beta != 0)
  (Hx : forall j, (j < nw)%nat -> forall v, x j 0 v != 0)
  (HG : forall j, (j < nw)%nat -> u_padded (gam j) (ur / beta ^+ 2) (G j))
  (HB : forall j, (j < nw)%nat -> bethe_salpeter (x j) (G j) (chi j))
  (Hp : forall j, (j < nw)%nat -> phys beta (chi j) != 0)
  (Hn : forall j, (j < nw)%nat -> 1 - ur * phys beta (chi j) != 0).
Let Hc : forall j, core_part (x j) (xc j). Proof. move=> j. exact/core_partP. Qed.
Lemma channel_ok : exists v : nat -> 'rV[F]_(nc.*2),
  construct_vrg_and_chi_q_urange g (arr2 nq nw (fun _ => xc)) (arr2 nq nw (fun _ => c0u)) (arr2 nq nw (fun _ => c0c)) beta (l_u g) = Ok (arr2 nq nw (fun _ => v), arr2 nq nw (fun _ j => phys beta (chi j))) /\
  forall j, (j < nw)%nat -> get_vrg_and_chir_urange_w beta ur (gam j) (c0c j) (c0u j) (xc j) true = Ok (v j, phys beta (chi j)) /\ three_leg beta ur (x j) (chi j) (vrg_ext (v j)).
Proof.
  pose X j := if gchi_aux_core_from_gammar_w beta ur (gam j) (xc j) is Ok X then X else 0.
  have HX : forall j, (j < nw)%nat -> gchi_aux_core_from_gammar_w beta ur (gam j) (xc j) = Ok (X j).
    move=> j Hj. rewrite /X. by have [Y ->] := proj1 (aux_core_exists Hb (Hx Hj) (HG Hj) (HB Hj) (Hc j)) (Hn Hj).
  exists (fun j => vrg_from_gchi_aux_w (X j) (xc j) true). split; last first.
    move=> j Hj. rewrite /get_vrg_and_chir_urange_w HX // [bind _ _]/= (chi_phys_urangeP Hb (Hx Hj) (HG Hj) (HB Hj) (Hc j) (HX _ Hj) (Hp Hj)). split=> //.
    exact: (vrg_three_leg Hb (Hx Hj) (HG Hj) (HB Hj) (Hc j) (HX _ Hj) true).
  have [v [E _]] := @construct_ok F nc ns nq nw g ur gam (fun _ => x) (fun _ => xc) G (fun _ => chi) (fun _ => c0u) (fun _ => c0c) Eg Hur Hb
    (fun i j _ => @Hx j) (fun _ j _ _ => Hc j) HG (fun _ j _ => @HB j) (fun _ j _ => @Hp j) (fun _ j _ _ => erefl) (fun _ j _ _ => erefl) (fun _ j _ => @Hn j).
  have [X' [HX' E']] := @construct_inv F nc ns nq nw g ur gam (fun _ => x) (fun _ => xc) G (fun _ => chi) (fun _ => c0u) (fun _ => c0c) Eg Hur Hb
    (fun i j _ => @Hx j) (fun _ j _ _ => Hc j) HG (fun _ j _ => @HB j) (fun _ j _ => @Hp j) (fun _ j _ _ => erefl) (fun _ j _ _ => erefl) _ E.
  rewrite /beta E E'. congr (Ok (_, _)). apply: arr2_ext => i j Hi Hj. have := HX' i j Hi Hj. by rewrite HX // => -[->].
Qed.
(** sum over the last frequency of the full vertex times the bubble *)
Lemma vertex_leg j f (v : 'rV[F]_(nc.*2)) (a : 'I_(nc.*2)) : (j < nw)%nat -> full_vertex (x j) f (chi j) -> three_leg beta ur (x j) (chi j) (vrg_ext v) ->
  cut_v_rv (dc_row ur (x j) f) 0 a = ur * (1 - (1 - ur * phys beta (chi j)) * v 0 a).
Proof.
  move=> Hj Hf H3. rewrite !mxE. congr (_ * _). set A := core_ord ns a. have := H3 A.
  have [Hv _] := @vrg_extP F nc ns v. rewrite (Hv a A) //.
  under eq_bigr => b do rewrite Hf.
  rewrite sumrB (bigD1 A) //= eqxx big1 ?addr0; last by move=> b /negbTE; rewrite eq_sym => ->.
  have -> : \sum_b x j 0 A * f A b * x j 0 b = x j 0 A * \sum_b x j 0 b * f A b by rewrite mulr_sumr; apply: eq_bigr => b _; frng.
  have := Hx Hj A. move: (x j 0 A) (\sum_b _) (v 0 a) (phys _ _) => y S w c Hy E.
  apply: (mulfI Hy). have -> : y * S = y - (y - y * S) by frng. rewrite E. frng.
Qed.
End Channel.

Lemma sd_sum_ord beta wn (Kf : Z -> F) giw v : sd_sum beta wn Kf giw v = beta^-1 * \sum_(j < size wn) Kf (Z.of_nat j) * fer giw (v - wat wn j)%Z.
Proof.
  rewrite /sd_sum. congr (_ * _). rewrite -[zlen wn]/(Z.of_nat (size wn)) big_range. apply: eq_bigr => j _. by rewrite (@zget_seq _ _ 0%Z).
Qed.
Lemma fer_frow N (f : Z -> F) v : (- N <= v < N)%Z -> fer (frow N f) v = f v.
Proof. move=> H. rewrite /fer zlen_frow; last by lia. rewrite Z.mul_comm Z.div_mul // /val zget_frow; last by lia. rewrite /=. congr f. lia. Qed.
Lemma in_wat wn j : (j < size wn)%nat -> List.In (wat wn j) wn.
Proof. move=> Hj. exact: (@zget_In _ wn (Z.of_nat j) _ (zget_seq _ Hj)). Qed.
(** * The local limit *)
Section Limit.
Variables (nx ny nz : nat).
Notation K := (mesh nx ny nz).
Notation NX := (Z.of_nat nx). Notation NY := (Z.of_nat ny). Notation NZ := (Z.of_nat nz).
Notation qs := (BrillouinZone.kmesh_ind_list NX NY NZ).
Variables (N : Z) (G : K -> Z -> F) (giwk : K -> list F) (nc ns : nat) (gd gm : lnp F 'M[F]_(nc.*2)) (wn : list Z) (beta u n : F).
Variables (gamd gamm : nat -> 'M[F]_(nc.*2)) (x : nat -> 'rV[F]_((nc + ns).*2)) (Gd Gm chid chim : nat -> 'M[F]_((nc + ns).*2)) (N1 : Z) (Sig : Z -> F).
Let nw := size wn.
Let nq := size qs.
Let xc j : 'rV[F]_(nc.*2) := cut_v_rv (x j).
Let c0u j := (beta ^+ 2)^-1 * \sum_v x j 0 v.
Let c0c j := (beta ^+ 2)^-1 * \sum_v xc j 0 v.
Hypotheses (Hgiwk : forall k, giwk k = frow N (G k)) (Hk : (#|{: K}|%:R : F) != 0) (H2 : (2%:R : F) != 0) (Hbeta : beta != 0)
  (Hwn : wn <> nil) (Hbox : fits_box (Z.of_nat nc + Z.of_nat ns) N wn) (HN1 : (Z.of_nat nc <= N1)%Z)
  (Egd : gd = Lnp "dens" beta u wn (mkseq gamd nw)) (Egm : gm = Lnp "magn" beta u wn (mkseq gamm nw))
  (Hx : forall j, (j < nw)%nat -> forall v, x j 0 v != 0)
  (HGd : forall j, (j < nw)%nat -> u_padded (gamd j) (u / beta ^+ 2) (Gd j)) (HGm : forall j, (j < nw)%nat -> u_padded (gamm j) (- u / beta ^+ 2) (Gm j))
  (HBd : forall j, (j < nw)%nat -> bethe_salpeter (x j) (Gd j) (chid j)) (HBm : forall j, (j < nw)%nat -> bethe_salpeter (x j) (Gm j) (chim j))
  (Hpd : forall j, (j < nw)%nat -> phys beta (chid j) != 0) (Hpm : forall j, (j < nw)%nat -> phys beta (chim j) != 0)
  (Hnd : forall j, (j < nw)%nat -> 1 - u * phys beta (chid j) != 0) (Hnm : forall j, (j < nw)%nat -> 1 + u * phys beta (chim j) != 0).
Lemma card_qs : nq = #|{: K}|.
Proof.
  have := @big_qlist rat_fieldType nx ny nz (fun _ => 1). rewrite -(@big_qat rat_fieldType qs (fun _ => 1)) !sumr_const card_ord => /eqP. rewrite (@Num.Theory.eqr_nat rat_numDomainType) => /eqP. by [].
Qed.
Notation gloc := (frow N (fun v => (\sum_(k : K) G k v) / #|{: K}|%:R)).
Lemma local_limit p order k : (0 < p)%Z -> Permutation order (arange 0 p) -> exists vd vm kdc siw_sde,
  construct_vrg_and_chi_q_urange gd (arr2 nq nw (fun _ => xc)) (arr2 nq nw (fun _ => c0u)) (arr2 nq nw (fun _ => c0c)) beta u = Ok (arr2 nq nw (fun _ => vd), arr2 nq nw (fun _ j => phys beta (chid j))) /\
  construct_vrg_and_chi_q_urange gm (arr2 nq nw (fun _ => xc)) (arr2 nq nw (fun _ => c0u)) (arr2 nq nw (fun _ => c0c)) beta u = Ok (arr2 nq nw (fun _ => vm), arr2 nq nw (fun _ j => phys beta (chim j))) /\
  construct_dc_kernel gm (mkseq x nw) (arr2 nq nw (fun _ j => rv2l (x j))) (Z.of_nat nc) = Ok kdc /\
  (forall j, (j < nw)%nat -> get_vrg_and_chir_urange_w beta u (gamd j) (c0c j) (c0u j) (xc j) true = Ok (vd j, phys beta (chid j)) /\
      get_vrg_and_chir_urange_w beta (- u) (gamm j) (c0c j) (c0u j) (xc j) true = Ok (vm j, phys beta (chim j))) /\
  schwinger_dyson_full beta u wn (mkseq (fun j => rv2l (vd j)) nw) (mkseq (fun j => rv2l (vm j)) nw) (mkseq (fun j => phys beta (chid j)) nw) (mkseq (fun j => phys beta (chim j)) nw) gloc n (Z.of_nat ns) = Ok siw_sde /\
  dga_siwk (2 * Z.of_nat nc) (arr2 nq nw (fun _ j => rv2l (vd j))) (arr2 nq nw (fun _ j => rv2l (vm j))) (arr2 nq nw (fun _ j => phys beta (chid j))) (arr2 nq nw (fun _ j => phys beta (chim j))) kdc
    giwk beta u qs wn (Z.of_nat nq) p order (frow N1 Sig) siw_sde n (Z.of_nat nc) k = Ok (frow (Z.of_nat nc) Sig).
Proof.
  move=> Hp Ho. pose C := Z.of_nat nc. have HN : (0 <= N)%Z by case: Hbox; case: (wn) Hwn => // w l _ H /(_ w (or_introl erefl)); lia.
  have Hud : u_r gd = Ok u by rewrite Egd /u_r /get_ur /= mulr1. have Hum : u_r gm = Ok (- u) by rewrite Egm /u_r /get_ur /= mulrN1.
  have [vd [Ed Rd]] := @channel_ok nc ns nq nw gd u gamd x Gd chid ltac:(by rewrite Egd) Hud ltac:(by rewrite Egd) Hx ltac:(by rewrite Egd) HBd ltac:(by rewrite Egd) ltac:(by rewrite Egd).
  have [vm [Em Rm]] := @channel_ok nc ns nq nw gm (- u) gamm x Gm chim ltac:(by rewrite Egm) Hum ltac:(by rewrite Egm) Hx ltac:(by rewrite Egm) HBm ltac:(by rewrite Egm) ltac:(by rewrite Egm => j Hj; rewrite mulNr opprK; exact: Hnm).
  have Ebd : l_beta gd = beta by rewrite Egd. have Ebm : l_beta gm = beta by rewrite Egm. have Eud : l_u gd = u by rewrite Egd. have Eum : l_u gm = u by rewrite Egm.
  rewrite Ebd Eud in Ed Rd. rewrite Ebm Eum in Em Rm.
  pose f j := if fob2_from_gamob2_urange_w beta (- u) (gamm j) (x j) is Ok f then f else 0.
  have Hf : forall j, (j < nw)%nat -> fob2_from_gamob2_urange_w beta (- u) (gamm j) (x j) = Ok (f j).
    move=> j Hj. rewrite /f. by have [Y ->] := fob2_exists (Hx Hj) (HGm Hj) (HBm Hj).
  have Ek := @dc_kernel_value nc ns nq nw gm (- u) gamm x (fun _ => x) f Hum ltac:(by rewrite Egm) ltac:(by rewrite Egm) ltac:(by rewrite Ebm).
  have Hw0 : (0 < zlen wn)%Z by case: (wn) Hwn => // w l _; rewrite /zlen /=; lia.
  have [siw_sde [Es [Ls Vs]]] := @sde_full_value F beta u wn gloc N (mkseq (fun j => rv2l (vd j)) nw) (mkseq (fun j => rv2l (vm j)) nw) (mkseq (fun j => phys beta (chid j)) nw) (mkseq (fun j => phys beta (chim j)) nw)
     C (Z.of_nat ns) n Hw0 ltac:(by rewrite zlen_frow) ltac:(lia) ltac:(lia) ltac:(by rewrite -dbl; exact: shape2_rows) ltac:(by rewrite -dbl; exact: shape2_rows) ltac:(by rewrite zlen_mkseq) ltac:(by rewrite zlen_mkseq) ltac:(by case: Hbox).
  exists vd, vm, (arr2 nq nw (fun _ j => rv2l (cut_v_rv (dc_row (- u) (x j) (f j))))), siw_sde.
  do 5! (split; first by [|move=> j Hj; split; [case: (Rd j Hj)|case: (Rm j Hj)]]).
  have R3 : forall h : nat -> 'rV[F]_(nc.*2), arr2 nq nw (fun _ j => rv2l (h j)) = arr3 nq nw C (fun _ j v => val (rv2l (h j)) (C + v)).
    move=> h. apply: arr2_ext => i j _ _. apply: list_frow. by rewrite zlen_rv2l dbl.
  have Hbox' : fits_box C N wn by case: Hbox => H1 H; split; [lia|move=> w /H; lia].
  rewrite !R3 /dga_siwk. rewrite (@nonlocal_sde_ok F nx ny nz N G giwk Hgiwk beta u qs wn C (fun _ j => phys beta (chid j)) (fun _ j => phys beta (chim j)) _ _ _ k Hwn Hbox' p order Hp Ho).
  cbn [bind]. rewrite (@list_frow siw_sde (C + Z.of_nat ns)) //.
  rewrite (@assemble_ok F nx ny nz N u n wn C (Z.of_nat ns) N1); [|by []..|lia]. f_equal. apply: frow_ext => v Hv.
  have [a Ha] := core_atP Hv.
  have -> : val siw_sde (C + Z.of_nat ns + v) = fer siw_sde v by rewrite /fer Ls; congr val; rewrite Z.mul_comm Z.div_mul.
  rewrite Vs; last by lia. rewrite -/nq card_qs.
  rewrite (@sde_local F nx ny nz beta wn (fun j v => u / 2%:R * (1 - (1 - u * phys beta (chid j)) * val (rv2l (vd j)) (C + v)) - 3%:R * (u / 2%:R) * (1 - (1 + u * phys beta (chim j)) * val (rv2l (vm j)) (C + v)) - val (rv2l (cut_v_rv (dc_row (- u) (x j) (f j)))) (C + v))) //.
  rewrite !sd_sum_ord.
  have S1 : forall (vr : nat -> 'rV[F]_(nc.*2)) (c : nat -> F) (s : F -> F), \sum_(j < size wn) (1 - s (val (mkseq c nw) (Z.of_nat j)) * vrg_cont (mkseq (fun j => rv2l (vr j)) nw) C (Z.of_nat j) v) * fer gloc (v - wat wn j)%Z =
     \sum_(j < size wn) (1 - s (c j) * vr j 0 a) * ((\sum_(p : K) G p (v - wat wn j)%Z) / #|{: K}|%:R).
    move=> vr c s. apply: eq_bigr => j _. have Hw := in_wat (ltn_ord j). case: Hbox => _ /(_ _ Hw) Hw'. rewrite fer_frow; last by lia.
    rewrite /vrg_cont. have -> : (- C <=? v)%Z && (v <? C)%Z by apply/andP; split; [apply/Z.leb_le|apply/Z.ltb_lt]; lia.
    rewrite /C -Ha val2_rows //. by rewrite /val zget_mkseq.
  have Sd := S1 vd (fun j => phys beta (chid j)) (fun c => 1 - u * c). have Sm := S1 vm (fun j => phys beta (chim j)) (fun c => 1 + u * c). cbn beta in Sd, Sm. rewrite Sd.
  rewrite Sm.
  have -> : \sum_(j < size wn) (u / 2%:R * (1 - (1 - u * phys beta (chid j)) * val (rv2l (vd j)) (C + v)) - 3%:R * (u / 2%:R) * (1 - (1 + u * phys beta (chim j)) * val (rv2l (vm j)) (C + v))
       - val (rv2l (cut_v_rv (dc_row (- u) (x j) (f j)))) (C + v)) * ((\sum_(p : K) G p (v - wat wn j)%Z) / #|{: K}|%:R) =
     u / 2%:R * (\sum_(j < size wn) (1 - (1 - u * phys beta (chid j)) * vd j 0 a) * ((\sum_(p : K) G p (v - wat wn j)%Z) / #|{: K}|%:R))
     - u / 2%:R * (\sum_(j < size wn) (1 - (1 + u * phys beta (chim j)) * vm j 0 a) * ((\sum_(p : K) G p (v - wat wn j)%Z) / #|{: K}|%:R)).
    rewrite !mulr_sumr -sumrB. apply: eq_bigr => j _. rewrite !(val_rv2l _ Ha).
    have Hj := ltn_ord j. rewrite (@vertex_leg nc ns nw gm (- u) x chim Hx j (f j) (vm j)) //; last first.
    - rewrite Ebm. by case: (Rm j Hj).
    - exact: (fob2_urange_vertex (Hx Hj) (HGm Hj) (HBm Hj) (Hf j Hj)).
    rewrite Ebm. move: (_ / #|_|%:R) (phys _ _) (phys _ _) (vd j 0 a) (vm j 0 a) => g0 c1 c2 w1 w2.
    have -> : (3%:R : F) = 1 + 2%:R by rewrite -(natrD _ 1 2). move: (2%:R : F) H2 => t Ht. by ffld; apply/eqP.
  move: (\sum_(j < _) _) (\sum_(j < _) _) (Sig v) => A B S. move: (beta^-1) (2%:R^-1) => bi h. frng.
Qed.
End Limit.
End P.
