(** Round trip of the H(k) text file. *)
From Coq Require Import String Ascii Arith.
From Verif Require Import Base.PyBase Base.PyFacts Model.Util Model.RankFiles Model.HrFile Model.HkFile Proofs.UtilP Proofs.StrP Proofs.HrFileP.
Set Implicit Arguments.
Local Open Scope string_scope.
Local Open Scope list_scope.
Local Open Scope Z_scope.

(** ** tokens separated by white space *)
Fixpoint no_ws (s : string) : bool := match s with EmptyString => true | String c s' => negb (is_ws c) && no_ws s' end.
Definition word (s : string) : Prop := no_ws s = true /\ s <> EmptyString.
Definition ws_start (s : string) : Prop := match s with EmptyString => True | String c _ => is_ws c = true end.
Lemma splitp_ws c s : is_ws c = true -> split_py (String c s) = split_py s.
Proof. intros H. unfold split_py. cbn. destruct (words_ws s) as [w ws]. rewrite H. reflexivity. Qed.
Lemma wordsp_token a b : no_ws a = true -> ws_start b -> exists ws, words_ws (a ++ b)%string = (a, ws) /\ split_py b = ws.
Proof.
  revert b; induction a as [|c a IH]; intros b Ha Hb.
  - cbn [append]. destruct b as [|c b]; [exists []; split; reflexivity|]. cbn in Hb. cbn [words_ws]. unfold split_py. cbn [words_ws].
    destruct (words_ws b) as [w ws]. rewrite Hb. eexists. split; reflexivity.
  - cbn in Ha. apply andb_prop in Ha as [Hc Ha]. apply negb_true_iff in Hc. destruct (IH b Ha Hb) as [ws [H1 H2]].
    exists ws. cbn [append words_ws]. rewrite H1, Hc. split; [reflexivity|assumption].
Qed.
Lemma splitp_token a b : word a -> ws_start b -> split_py (a ++ b)%string = a :: split_py b.
Proof.
  intros [H1 H2] Hb. destruct (wordsp_token a b H1 Hb) as [ws [E1 E2]]. unfold split_py at 1. rewrite E1, E2. destruct a; [congruence|reflexivity].
Qed.
Lemma ws_nl s : ws_start (nl ++ s)%string. Proof. reflexivity. Qed.
Lemma split_join l : Forall word l -> forall rest, ws_start rest -> split_py (join " " l ++ rest)%string = l ++ split_py rest.
Proof.
  induction 1 as [|a l Ha Hl IH]; intros rest Hr; [reflexivity|].
  destruct l as [|b l]; [cbn [join]; now rewrite splitp_token|].
  change (join " " (a :: b :: l)) with (a ++ (" " ++ join " " (b :: l)))%string. rewrite !append_assoc_s.
  rewrite splitp_token by (assumption || reflexivity). cbn [append]. rewrite splitp_ws by reflexivity. now rewrite IH.
Qed.
Definition line_of (l : list string) : string := (join " " l ++ nl)%string.
Lemma concat_cons_s a l : String.concat "" (a :: l) = (a ++ String.concat "" l)%string.
Proof. destruct l; cbn; [now rewrite append_nil|reflexivity]. Qed.
Lemma split_lines ls : Forall (Forall word) ls -> split_py (String.concat "" (map line_of ls)) = concat ls.
Proof.
  induction 1 as [|l ls Hl Hls IH]; [reflexivity|]. cbn [map concat]. rewrite concat_cons_s. unfold line_of at 1. rewrite append_assoc_s.
  rewrite split_join; [|assumption|apply ws_nl]. unfold nl. cbn [append]. rewrite splitp_ws by reflexivity. now rewrite IH.
Qed.

(** ** integers in the header *)
Lemma digits_no_ws s : all_digits s = true -> no_ws s = true.
Proof.
  induction s as [|c s IH]; cbn; [reflexivity|]. destruct (digit_val c) eqn:E; [|discriminate]. intros H. rewrite IH by assumption.
  unfold is_ws. destruct (Ascii.eqb_spec c " "); [subst; discriminate|]. destruct (Ascii.eqb_spec c (ascii_of_nat 10)); [subst; discriminate|]. reflexivity.
Qed.
Lemma str_of_nat_word n : word (str_of_nat n).
Proof. split; [apply digits_no_ws, str_of_nat_digits|apply str_of_nat_nonempty]. Qed.
Lemma str_Z_word z : word (str_Z z).
Proof.
  unfold str_Z. destruct (Z.ltb z 0); [|apply str_of_nat_word]. destruct (str_of_nat_word (Z.to_nat (- z))) as [H1 H2]. split; [cbn; now rewrite H1|discriminate].
Qed.
Lemma parse_str_Z z : parse_int (str_Z z) = Ok z.
Proof.
  unfold str_Z, parse_int. destruct (Z.ltb_spec z 0).
  - replace (Ascii.eqb "-" "-") with true by reflexivity.
    pose proof (str_of_nat_digits (Z.to_nat (- z))) as Hd. pose proof (dval_str_of_nat (Z.to_nat (- z))) as Hv. pose proof (str_of_nat_nonempty (Z.to_nat (- z))).
    destruct (str_of_nat (Z.to_nat (- z))) as [|c s] eqn:E; [congruence|]. rewrite all_digit_eq, Hd, read_digits_all by assumption. cbn [fst option_map]. rewrite Hv. f_equal. lia.
  - pose proof (str_of_nat_digits (Z.to_nat z)) as Hd. pose proof (dval_str_of_nat (Z.to_nat z)) as Hv. pose proof (str_of_nat_nonempty (Z.to_nat z)).
    destruct (str_of_nat (Z.to_nat z)) as [|c s] eqn:E; [congruence|].
    destruct (Ascii.eqb_spec c "-") as [->|]; [cbn in Hd; discriminate|]. rewrite all_digit_eq, Hd, read_digits_all by assumption. cbn [fst]. rewrite Hv. f_equal. lia.
Qed.
Lemma parse_ints l : mapM parse_int (map str_Z l) = Ok l.
Proof. induction l as [|z l IH]; [reflexivity|]. cbn [map mapM]. rewrite parse_str_Z. cbn [bind]. rewrite IH. reflexivity. Qed.

(** ** the header line *)
Fixpoint no_hash (s : string) : bool := match s with EmptyString => true | String c s' => negb (Ascii.eqb c "#") && no_hash s' end.
Lemma no_hash_app a b : no_hash (a ++ b)%string = no_hash a && no_hash b.
Proof. induction a as [|c a IH]; cbn; [reflexivity|]. now rewrite IH, andb_assoc. Qed.
Lemma upto_none s : no_hash s = true -> upto_hash s = None.
Proof. induction s as [|c s IH]; cbn; [reflexivity|]. intros H. apply andb_prop in H as [H1 H2]. apply negb_true_iff in H1. now rewrite H1, IH. Qed.
Lemma upto_some a b : no_hash a = true -> upto_hash (a ++ String "#" b)%string = Some a.
Proof. induction a as [|c a IH]; cbn; [reflexivity|]. intros H. apply andb_prop in H as [H1 H2]. apply negb_true_iff in H1. now rewrite H1, IH. Qed.
Lemma drop_last_nl s : drop_last (s ++ nl)%string = s.
Proof. induction s as [|c s IH]; [reflexivity|]. cbn [append drop_last]. rewrite IH. destruct s; reflexivity. Qed.
Lemma digits_no_hash s : all_digits s = true -> no_hash s = true.
Proof.
  induction s as [|c s IH]; cbn; [reflexivity|]. destruct (digit_val c) eqn:E; [|discriminate]. intros H. rewrite IH by assumption.
  destruct (Ascii.eqb_spec c "#"); [subst; discriminate|reflexivity].
Qed.
Lemma str_Z_no_hash z : no_hash (str_Z z) = true.
Proof. unfold str_Z. destruct (Z.ltb z 0); cbn; apply digits_no_hash, str_of_nat_digits. Qed.
Lemma join_no_hash l : Forall (fun s => no_hash s = true) l -> no_hash (join " " l) = true.
Proof.
  induction 1 as [|a l Ha Hl IH]; [reflexivity|]. destruct l as [|b l]; [assumption|].
  change (join " " (a :: b :: l)) with (a ++ (" " ++ join " " (b :: l)))%string. rewrite !no_hash_app, Ha, IH. reflexivity.
Qed.
Lemma header_no_hash l : no_hash (join " " (map str_Z l)) = true.
Proof. apply join_no_hash. apply Forall_map. apply Forall_forall. intros. apply str_Z_no_hash. Qed.
Lemma header_words l : Forall word (map str_Z l).
Proof. apply Forall_map, Forall_forall. intros. apply str_Z_word. Qed.
(** a header line: the numbers, then the newline, or a comment *)
Definition header_line (l : list Z) (comment : option string) : string :=
  (join " " (map str_Z l) ++ match comment with None => nl | Some c => String " " (String "#" (c ++ nl)) end)%string.
Lemma nextline_header l c t : nextline (header_line l c :: t) = (map str_Z l, t).
Proof.
  unfold nextline, header_line, cut_comment. f_equal. destruct c as [c|].
  - replace (join " " (map str_Z l) ++ String " " (String "#" (c ++ nl)))%string with ((join " " (map str_Z l) ++ " ") ++ String "#" (c ++ nl))%string
      by (now rewrite append_assoc_s). rewrite upto_some by (rewrite no_hash_app, header_no_hash; reflexivity).
    rewrite split_join; [|apply header_words|reflexivity]. now rewrite app_nil_r.
  - rewrite upto_none by (rewrite no_hash_app, header_no_hash; reflexivity). rewrite drop_last_nl.
    rewrite <- (append_nil (join " " (map str_Z l))). rewrite split_join; [|apply header_words|exact I]. now rewrite app_nil_r.
Qed.
Lemma str_Z_not_version z : String.eqb (str_Z z) "VERSION" = false.
Proof.
  apply String.eqb_neq. intros E. pose proof (parse_str_Z z) as H. rewrite E in H. discriminate.
Qed.
Lemma read_header3 npi m n x c t : read_header npi (header_line [m; n; x] c :: t) = Ok (m, n, t).
Proof.
  unfold read_header. rewrite nextline_header. cbn [map]. change (py_get [str_Z m; str_Z n; str_Z x] 0) with (Ok (str_Z m)). cbn [bind].
  rewrite str_Z_not_version. change [str_Z m; str_Z n; str_Z x] with (map str_Z [m; n; x]). rewrite parse_ints. reflexivity.
Qed.
Lemma read_header1 npi m a b e rest c t : read_header npi (header_line (m :: a :: b :: e :: rest) c :: t) = Ok (m, a * (b + e), t).
Proof.
  unfold read_header. rewrite nextline_header. cbn [map].
  change (py_get (str_Z m :: str_Z a :: str_Z b :: str_Z e :: map str_Z rest) 0) with (Ok (str_Z m)). cbn [bind].
  rewrite str_Z_not_version. change (str_Z m :: str_Z a :: str_Z b :: str_Z e :: map str_Z rest) with (map str_Z (m :: a :: b :: e :: rest)). rewrite parse_ints. cbn [bind].
  assert (E : (zlen (map str_Z (m :: a :: b :: e :: rest)) =? 3) = false).
  { apply Z.eqb_neq. unfold zlen. rewrite map_length. cbn [length]. lia. }
  rewrite E. cbn [negb]. unfold py_get, zget. cbn. reflexivity.
Qed.

(** ** numbers *)
Lemma chunks_rows A (m : nat) (rows : list (list A)) : (0 < m)%nat -> Forall (fun r => length r = m) rows ->
  forall fuel, (length rows <= fuel)%nat -> chunks fuel m (concat rows) = rows.
Proof.
  intros Hm. induction 1 as [|r rows Hr Hrs IH]; intros fuel Hf.
  - cbn [concat]. destruct fuel; reflexivity.
  - destruct fuel as [|fuel]; [cbn in Hf; lia|]. cbn [concat chunks].
    destruct (r ++ concat rows) as [|x t] eqn:E; [apply (f_equal (@length A)) in E; rewrite app_length in E; cbn in E; lia|].
    rewrite <- E. rewrite firstn_app, skipn_app, Hr, Nat.sub_diag. cbn [firstn skipn]. rewrite app_nil_r, <- Hr, firstn_all, skipn_all.
    cbn [app]. f_equal. rewrite Hr. apply IH. cbn in Hf. lia.
Qed.
Lemma concat_len A (m : nat) (rows : list (list A)) : Forall (fun r => length r = m) rows -> length (concat rows) = (length rows * m)%nat.
Proof. induction 1 as [|r rows Hr Hrs IH]; [reflexivity|]. cbn [concat length]. rewrite app_length, IH, Hr. lia. Qed.
Lemma reshape_rows_ok A (m : nat) (rows : list (list A)) : (0 < m)%nat -> Forall (fun r => length r = m) rows ->
  reshape_rows m (concat rows) = Ok rows.
Proof.
  intros Hm H. unfold reshape_rows. rewrite (concat_len H), Nat.mod_mul by lia. cbn [Nat.eqb]. f_equal. apply chunks_rows; [assumption..|]. nia.
Qed.
Lemma concat_nth A (m : nat) (rows : list (list A)) d i j : Forall (fun r => length r = m) rows -> (i < length rows)%nat -> (j < m)%nat ->
  nth (i * m + j) (concat rows) d = nth j (nth i rows []) d.
Proof.
  intros H. revert i. induction H as [|r rows Hr Hrs IH]; intros i Hi Hj; [cbn in Hi; lia|]. cbn [concat].
  destruct i as [|i].
  - cbn [Nat.mul Nat.add nth]. apply app_nth1. lia.
  - rewrite app_nth2 by (rewrite Hr; nia). cbn [nth]. rewrite <- IH by (cbn in Hi; lia). f_equal. rewrite Hr. nia.
Qed.
Lemma flat_map_nth A (m : nat) (f : Z -> list A) n d i j : (forall z, 0 <= z < n -> length (f z) = m) -> 0 <= i < n -> (j < m)%nat ->
  nth (Z.to_nat i * m + j) (flat_map f (range n)) d = nth j (f i) d.
Proof.
  intros Hf Hi Hj. rewrite flat_map_concat_map. rewrite concat_nth; cycle 1.
  - apply Forall_map, Forall_forall. intros z Hz. apply Hf. unfold range in Hz. apply In_arange in Hz. lia.
  - rewrite map_length. unfold range, arange. rewrite map_length, seq_length. lia.
  - assumption.
  - rewrite nth_indep with (d' := f 0) by (rewrite map_length; unfold range, arange; rewrite map_length, seq_length; lia).
    rewrite (map_nth f). f_equal. f_equal. unfold range, arange. rewrite nth_indep with (d' := 0 + Z.of_nat 0) by (rewrite map_length, seq_length; lia).
    rewrite (map_nth (fun k => 0 + Z.of_nat k)). rewrite seq_nth by lia. lia.
Qed.
Lemma flat_map_len A (m : nat) (f : Z -> list A) n : (forall z, 0 <= z < n -> length (f z) = m) -> length (flat_map f (range n)) = (Z.to_nat n * m)%nat.
Proof.
  intros Hf. rewrite flat_map_concat_map. rewrite (@concat_len _ m).
  - rewrite map_length. unfold range, arange. rewrite map_length, seq_length. f_equal. lia.
  - apply Forall_map, Forall_forall. intros z Hz. apply Hf. unfold range in Hz. apply In_arange in Hz. lia.
Qed.

(** the index of an element of the returned array in C order *)
Definition cindex (nb ns : nat) (k b1 s1 b2 s2 : nat) : nat := ((((k * nb + b1) * ns + s1) * nb + b2) * ns + s2)%nat.
Definition five A (f : Z -> Z -> Z -> Z -> Z -> A) (nb ns m : Z) : list A :=
  flat_map (fun ik => flat_map (fun b1 => flat_map (fun s1 => flat_map (fun b2 => map (fun s2 => f ik b1 s1 b2 s2) (range ns)) (range nb)) (range ns)) (range nb)) (range m).
Definition fdim (nb ns : nat) : nat := (nb * (ns * (nb * ns)))%nat.
Section Five.
Variables (A : Type) (f : Z -> Z -> Z -> Z -> Z -> A) (nb ns : nat).
Lemma L4 (g : Z -> A) : length (map g (range (Z.of_nat ns))) = ns.
Proof. rewrite map_length. unfold range, arange. rewrite map_length, seq_length. lia. Qed.
Lemma L3 ik b1 s1 : length (flat_map (fun b2 => map (fun s2 => f ik b1 s1 b2 s2) (range (Z.of_nat ns))) (range (Z.of_nat nb))) = (nb * ns)%nat.
Proof. rewrite (@flat_map_len _ ns); [now rewrite Nat2Z.id|]. intros; apply L4. Qed.
Lemma L2 ik b1 : length (flat_map (fun s1 => flat_map (fun b2 => map (fun s2 => f ik b1 s1 b2 s2) (range (Z.of_nat ns))) (range (Z.of_nat nb))) (range (Z.of_nat ns))) = (ns * (nb * ns))%nat.
Proof. rewrite (@flat_map_len _ (nb * ns)); [now rewrite Nat2Z.id|]. intros; apply L3. Qed.
Lemma L1 ik : length (flat_map (fun b1 => flat_map (fun s1 => flat_map (fun b2 => map (fun s2 => f ik b1 s1 b2 s2) (range (Z.of_nat ns))) (range (Z.of_nat nb))) (range (Z.of_nat ns))) (range (Z.of_nat nb))) = fdim nb ns.
Proof. rewrite (@flat_map_len _ (ns * (nb * ns))); [now rewrite Nat2Z.id|]. intros; apply L2. Qed.
Lemma five_len m : length (five f (Z.of_nat nb) (Z.of_nat ns) m) = (Z.to_nat m * fdim nb ns)%nat.
Proof. unfold five. apply flat_map_len. intros; apply L1. Qed.
Lemma lt_split a b n m : (a < n)%nat -> (b < m)%nat -> (a * m + b < n * m)%nat. Proof. nia. Qed.
Lemma five_nth (d : A) m k b1 s1 b2 s2 : Z.of_nat k < m -> (b1 < nb)%nat -> (s1 < ns)%nat -> (b2 < nb)%nat -> (s2 < ns)%nat ->
  nth_error (five f (Z.of_nat nb) (Z.of_nat ns) m) (cindex nb ns k b1 s1 b2 s2) = Some (f (Z.of_nat k) (Z.of_nat b1) (Z.of_nat s1) (Z.of_nat b2) (Z.of_nat s2)).
Proof.
  intros Hk Hb1 Hs1 Hb2 Hs2.
  pose proof (lt_split Hb2 Hs2) as I4. pose proof (lt_split Hs1 I4) as I3. pose proof (lt_split Hb1 I3) as I2.
  assert (Ei : cindex nb ns k b1 s1 b2 s2 = (Z.to_nat (Z.of_nat k) * fdim nb ns + (Z.to_nat (Z.of_nat b1) * (ns * (nb * ns)) +
    (Z.to_nat (Z.of_nat s1) * (nb * ns) + (Z.to_nat (Z.of_nat b2) * ns + s2))))%nat) by (unfold cindex, fdim; rewrite !Nat2Z.id; ring).
  rewrite (nth_error_nth' _ d).
  2: { rewrite five_len, Ei, !Nat2Z.id. apply lt_split; [lia|assumption]. }
  f_equal. rewrite Ei. unfold five.
  rewrite flat_map_nth; [|intros; apply L1|lia|rewrite !Nat2Z.id; assumption].
  rewrite flat_map_nth; [|intros; apply L2|lia|rewrite !Nat2Z.id; assumption].
  rewrite flat_map_nth; [|intros; apply L3|lia|rewrite !Nat2Z.id; assumption].
  rewrite flat_map_nth; [|intros; apply L4|lia|assumption].
  rewrite nth_indep with (d' := f (Z.of_nat k) (Z.of_nat b1) (Z.of_nat s1) (Z.of_nat b2) 0) by (rewrite L4; assumption).
  rewrite (map_nth (fun s2 => f _ _ _ _ s2)). f_equal. unfold range, arange. rewrite nth_indep with (d' := 0 + Z.of_nat 0) by (rewrite map_length, seq_length; lia).
  rewrite (map_nth (fun k => 0 + Z.of_nat k)). rewrite seq_nth by lia. lia.
Qed.
End Five.

Lemma write_short V (str_f fmt_12f : V -> string) nk n_orb kmesh hk : zlen hk < prodZ nk -> write_hk_wannier90 str_f fmt_12f n_orb hk kmesh nk = Raise IndexError.
Proof.
  intros H. unfold write_hk_wannier90. assert (E : exists e, mapM (hk_record str_f fmt_12f kmesh hk) (range (prodZ nk)) = Raise e /\ e = IndexError).
  { pose proof (zlen_nonneg hk) as Hl. unfold range. assert (Hin : In (zlen hk) (arange 0 (prodZ nk))) by (apply In_arange; lia).
    assert (Hb : hk_record str_f fmt_12f kmesh hk (zlen hk) = Raise IndexError /\ forall i, hk_record str_f fmt_12f kmesh hk i = Raise IndexError \/ exists l, hk_record str_f fmt_12f kmesh hk i = Ok l).
    { assert (P : forall A (l : list A) i, py_get l i = Raise IndexError \/ exists a, py_get l i = Ok a).
      { intros A l i. unfold py_get. destruct (zget l _); [right; eauto|now left]. }
      split.
      - unfold hk_record. do 6 match goal with |- bind (py_get ?l ?i) _ = _ => destruct (P _ l i) as [->|[? ->]]; [reflexivity|cbn [bind]] end.
        rewrite py_get_out by lia. reflexivity.
      - intros i. unfold hk_record. repeat match goal with |- bind (py_get ?l ?i) _ = _ \/ _ => destruct (P _ l i) as [->|[? ->]]; [now left|cbn [bind]] end. right. eauto. }
    destruct Hb as [Hb Ha]. induction (arange 0 (prodZ nk)) as [|i l IH]; [destruct Hin|]. cbn [mapM]. destruct Hin as [->|Hin].
    - rewrite Hb. cbn. eauto.
    - destruct (Ha i) as [->|[a ->]]; cbn [bind]; [eauto|]. destruct (IH Hin) as [e [-> ->]]. cbn. eauto. }
  destruct E as [e [-> ->]]. reflexivity.
Qed.

(** ** records *)
Section Records.
Variable V : Type.
Variables (str_f fmt_12f : V -> string) (d : V).
Definition krec : Type := (V * V * V) * list (list (V * V)).
Definition kx (r : krec) := fst (fst (fst r)).
Definition ky (r : krec) := snd (fst (fst r)).
Definition kz (r : krec) := snd (fst r).
Definition rec_tokens (r : krec) : list (list string) :=
  map str_f [kx r; ky r; kz r] :: map (fun row => map fmt_12f (view_float row)) (snd r).
Definition rec_lines (r : krec) : list string := map line_of (rec_tokens r).
Definition square (n : nat) (r : krec) : Prop := length (snd r) = n /\ Forall (fun row => length row = n) (snd r).

Definition mk_recs (kmesh : list (list V)) (hk : list (list (list (V * V)))) : list krec :=
  map (fun i => (nth i (nth 0 kmesh []) d, nth i (nth 1 kmesh []) d, nth i (nth 2 kmesh []) d, nth i hk [])) (seq 0 (length hk)).
Lemma py_get_nth A (l : list A) i e : (i < length l)%nat -> py_get l (Z.of_nat i) = Ok (nth i l e).
Proof.
  intros H. apply py_get_nonneg; [lia|]. unfold zget. destruct (Z.ltb_spec (Z.of_nat i) 0); [lia|]. rewrite Nat2Z.id. now apply nth_error_nth'.
Qed.
Lemma mapM_map A B (f : A -> res B) (g : A -> B) l : (forall x, In x l -> f x = Ok (g x)) -> mapM f l = Ok (map g l).
Proof.
  intros H. induction l as [|x l IH]; [reflexivity|]. cbn [mapM map]. rewrite H by (now left). cbn [bind]. rewrite IH; [reflexivity|]. intros y Hy. apply H. now right.
Qed.
Lemma write_records nk n_orb kmesh hk : prodZ nk = zlen hk -> length kmesh = 3%nat -> Forall (fun a => length a = length hk) kmesh ->
  write_hk_wannier90 str_f fmt_12f n_orb hk kmesh nk =
  Ok (header_line [prodZ nk; n_orb; n_orb] None :: concat (map rec_lines (mk_recs kmesh hk))).
Proof.
  intros HN H3 HK. destruct kmesh as [|ax [|ay [|az [|]]]]; try discriminate. inversion_clear HK as [|? ? Hx HK']. inversion_clear HK' as [|? ? Hy HK]. inversion_clear HK as [|? ? Hz _].
  unfold write_hk_wannier90. rewrite mapM_map with (g := fun i => rec_lines ((nth (Z.to_nat i) ax d, nth (Z.to_nat i) ay d, nth (Z.to_nat i) az d, nth (Z.to_nat i) hk []))).
  - cbn [bind]. unfold header_line, mk_recs. f_equal. f_equal. f_equal. rewrite HN. unfold range, arange, zlen. rewrite Z.sub_0_r, Nat2Z.id, !map_map.
    apply map_ext. intros i. cbn [nth]. rewrite Z.add_0_l, Nat2Z.id. reflexivity.
  - intros i Hi. unfold range in Hi. apply In_arange in Hi. rewrite HN in Hi. unfold zlen in Hi. rewrite <- (Z2Nat.id i) by lia.
    set (j := Z.to_nat i). assert (j < length hk)%nat by (unfold j; lia). rewrite Nat2Z.id. unfold hk_record.
    change (py_get [ax; ay; az] 0) with (Ok ax). change (py_get [ax; ay; az] 1) with (Ok ay). change (py_get [ax; ay; az] 2) with (Ok az). cbn [bind].
    rewrite (py_get_nth ax d), (py_get_nth ay d), (py_get_nth az d), (py_get_nth hk []) by lia. cbn [bind]. unfold rec_lines, rec_tokens, line_of. cbn [map kx ky kz fst snd]. f_equal. f_equal.
    now rewrite map_map.
Qed.
Variables (num : string -> option V) (rk rh : V -> V).
Definition rec_vals (r : krec) : list V := map rk [kx r; ky r; kz r] ++ map rh (flat_map (@view_float V) (snd r)).
Lemma scan_all (l : list string) vals rest : Forall2 (fun t v => num t = Some v) l vals -> scan num (l ++ rest) = vals ++ scan num rest.
Proof. induction 1 as [|t v l vals H _ IH]; [reflexivity|]. cbn [app scan]. now rewrite H, IH. Qed.
Hypothesis Hstr : forall v, word (str_f v) /\ num (str_f v) = Some (rk v).
Hypothesis Hfmt : forall v, word (fmt_12f v) /\ num (fmt_12f v) = Some (rh v).
Lemma rec_words r : Forall (Forall word) (rec_tokens r).
Proof.
  unfold rec_tokens. constructor.
  - apply Forall_map, Forall_forall. intros v _. apply Hstr.
  - apply Forall_map, Forall_forall. intros row _. apply Forall_map, Forall_forall. intros v _. apply Hfmt.
Qed.
Lemma rec_scan r rest : scan num (concat (rec_tokens r) ++ rest) = rec_vals r ++ scan num rest.
Proof.
  apply scan_all. unfold rec_tokens, rec_vals. cbn [concat]. apply Forall2_app.
  - cbn [map]. repeat constructor; apply Hstr.
  - induction (snd r) as [|row M IH]; cbn [map concat flat_map]; [constructor|]. rewrite map_app. apply Forall2_app; [|assumption].
    induction (view_float row) as [|v l IHl]; cbn [map]; constructor; [apply Hfmt|assumption].
Qed.
Lemma recs_scan recs : scan num (concat (map (fun r => concat (rec_tokens r)) recs)) = concat (map rec_vals recs).
Proof. induction recs as [|r recs IH]; [reflexivity|]. cbn [map concat]. now rewrite rec_scan, IH. Qed.
Lemma recs_split recs : split_py (String.concat "" (concat (map rec_lines recs))) = concat (map (fun r => concat (rec_tokens r)) recs).
Proof.
  assert (E : concat (map rec_lines recs) = map line_of (concat (map rec_tokens recs))).
  { rewrite concat_map, map_map. reflexivity. }
  rewrite E, split_lines.
  - induction recs as [|r recs IH]; [reflexivity|]. cbn [map concat] in *. rewrite concat_app. f_equal. apply IH.
    rewrite concat_map, map_map. reflexivity.
  - clear E. induction recs as [|r recs IH]; [constructor|]. cbn [map concat]. apply Forall_app. split; [apply rec_words|assumption].
Qed.
Lemma view_len (row : list (V * V)) : length (view_float row) = (2 * length row)%nat.
Proof. clear Hstr Hfmt. induction row as [|z row IH]; [reflexivity|]. unfold view_float in *. cbn [flat_map app length]. rewrite IH. lia. Qed.
Lemma rec_vals_len n r : square n r -> length (rec_vals r) = (3 + 2 * (n * n))%nat.
Proof. clear Hstr Hfmt.
  intros [H1 H2]. unfold rec_vals. rewrite app_length, map_length, map_length. cbn [length]. f_equal. rewrite flat_map_concat_map.
  rewrite (@concat_len _ (2 * n)); [rewrite map_length; nia|]. apply Forall_map. eapply Forall_impl; [|exact H2]. cbn. intros row <-. apply view_len.
Qed.
Lemma pairs_view (M : list (list (V * V))) : pairs (map rh (flat_map (@view_float V) M)) = map (fun z => (rh (fst z), rh (snd z))) (concat M).
Proof.
  induction M as [|row M IH]; [reflexivity|]. cbn [flat_map concat]. rewrite !map_app, <- IH. clear IH.
  induction row as [|z row IH]; [reflexivity|]. cbn [view_float flat_map map app pairs]. f_equal. exact IH.
Qed.
(** the returned matrix element *)
Definition rent (n : nat) (r : krec) (i j : nat) : V * V :=
  let z := nth j (nth i (snd r) []) (d, d) in (rh (fst z), rh (snd z)).
Lemma rec_entry n r i j : square n r -> (i < n)%nat -> (j < n)%nat ->
  nth (i * n + j) (pairs (slice_from (rec_vals r) 3)) (d, d) = rent n r i j.
Proof. clear Hstr Hfmt.
  intros [H1 H2] Hi Hj. assert (E : slice_from (rec_vals r) 3 = map rh (flat_map (@view_float V) (snd r))).
  { unfold slice_from. unfold rec_vals. rewrite zlen_app. exact (slice_app_r (map rk [kx r; ky r; kz r]) _). }
  rewrite E, pairs_view. rewrite nth_indep with (d' := (fun z => (rh (fst z), rh (snd z))) (d, d)).
  - rewrite (map_nth (fun z => (rh (fst z), rh (snd z)))). rewrite concat_nth; [reflexivity|assumption|lia|assumption].
  - rewrite map_length, (concat_len H2). nia.
Qed.

Lemma row_kpoint (r : krec) c : (c < 3)%nat -> nth c (slice_to (rec_vals r) 3) d = nth c [rk (kx r); rk (ky r); rk (kz r)] d.
Proof. clear Hstr Hfmt.
  intros Hc. unfold slice_to. pose proof (slice_app_l (map rk [kx r; ky r; kz r]) (map rh (flat_map (@view_float V) (snd r)))) as E.
  change (zlen (map rk [kx r; ky r; kz r])) with 3 in E. unfold rec_vals. rewrite E. reflexivity.
Qed.
Lemma slice_to_firstn A (l : list A) m : 0 <= m -> slice_to l m = firstn (Z.to_nat m) l.
Proof. clear Hstr Hfmt.
  intros H. pose proof (zlen_nonneg l) as Hl. unfold slice_to, slice.
  assert (E0 : clampi (zlen l) 0 = 0) by (unfold clampi; cbn [Z.ltb Z.compare]; lia).
  assert (Em : clampi (zlen l) m = Z.min (zlen l) m) by (unfold clampi; destruct (Z.ltb_spec m 0); lia).
  rewrite E0, Em, Z.sub_0_r. cbn [Z.to_nat skipn].
  destruct (Z.le_gt_cases (zlen l) m).
  - rewrite Z.min_l by lia. unfold zlen in *. rewrite Nat2Z.id, firstn_all, firstn_all2 by lia. reflexivity.
  - rewrite Z.min_r by lia. reflexivity.
Qed.
Lemma nth_error_firstn' A (l : list A) k m : (k < m)%nat -> nth_error (firstn m l) k = nth_error l k.
Proof. clear Hstr Hfmt. revert k m; induction l as [|a l IH]; intros [|k] [|m] H; cbn; try reflexivity; try lia. apply IH. lia. Qed.

Definition spins (sym : bool) : Z := if sym then 1 else 2.
Variables (npi : bool) (file : list string) (m : Z) (n : nat) (recs : list krec).
Hypothesis Hhead : read_header npi file = Ok (m, Z.of_nat n, concat (map rec_lines recs)).
Hypothesis Hsq : Forall (square n) recs.
Lemma read_rows sym : (sym = false -> Z.of_nat n mod 2 = 0) ->
  reshape_rows (Z.to_nat (3 + 2 * (if sym then Z.of_nat n else Z.of_nat n / 2) ^ 2 * spins sym ^ 2))
    (scan num (split_py (String.concat "" (concat (map rec_lines recs))))) = Ok (map rec_vals recs).
Proof.
  intros Hev. rewrite recs_split, recs_scan.
  replace (Z.to_nat (3 + 2 * (if sym then Z.of_nat n else Z.of_nat n / 2) ^ 2 * spins sym ^ 2)) with (3 + 2 * (n * n))%nat.
  - apply reshape_rows_ok; [lia|]. apply Forall_map. eapply Forall_impl; [|exact Hsq]. intros r. apply rec_vals_len.
  - destruct sym; cbn [spins]; [nia|]. specialize (Hev eq_refl). pose proof (Z.div_mod (Z.of_nat n) 2 ltac:(lia)). nia.
Qed.
Lemma read_odd : Z.of_nat n mod 2 <> 0 -> read_hk_w2k d num npi false file = Raise RuntimeError.
Proof. clear Hstr Hfmt. intros H. unfold read_hk_w2k. rewrite Hhead. cbn [bind negb andb]. apply Z.eqb_neq in H. now rewrite H. Qed.
Lemma read_few sym : (sym = false -> Z.of_nat n mod 2 = 0) -> zlen recs < m -> read_hk_w2k d num npi sym file = Raise ValueError.
Proof.
  intros Hev Hm. unfold read_hk_w2k. rewrite Hhead. cbn [bind].
  assert (E : negb sym && negb (Z.of_nat n mod 2 =? 0) = false).
  { destruct sym; [reflexivity|]. rewrite Hev by reflexivity. reflexivity. }
  rewrite E. pose proof (read_rows Hev) as R. unfold spins in R. rewrite R. cbn [bind]. rewrite zlen_map.
  destruct (Z.ltb_spec (zlen recs) m); [reflexivity|lia].
Qed.
Lemma read_ok sym : (sym = false -> Z.of_nat n mod 2 = 0) -> 0 <= m <= zlen recs ->
  let ns := Z.to_nat (spins sym) in let nb := if sym then n else Nat.div n 2 in
  exists r, read_hk_w2k d num npi sym file = Ok r
  /\ hk_shape r = squeeze [m; Z.of_nat nb; Z.of_nat ns; Z.of_nat nb; Z.of_nat ns]
  /\ length (hk_data r) = (Z.to_nat m * nb * ns * nb * ns)%nat
  /\ hk_kpoints r = map (fun c => map (fun q => rk (c q)) (firstn (Z.to_nat m) recs)) [kx; ky; kz]
  /\ forall k b1 s1 b2 s2 q, (k < Z.to_nat m)%nat -> (b1 < nb)%nat -> (s1 < ns)%nat -> (b2 < nb)%nat -> (s2 < ns)%nat ->
     nth_error recs k = Some q ->
     nth_error (hk_data r) (cindex nb ns k b1 s1 b2 s2) = Some (rent n q (s1 * nb + b1) (s2 * nb + b2)).
Proof.
  intros Hev Hm ns nb. unfold read_hk_w2k. rewrite Hhead. cbn [bind].
  assert (E : negb sym && negb (Z.of_nat n mod 2 =? 0) = false).
  { destruct sym; [reflexivity|]. rewrite Hev by reflexivity. reflexivity. }
  rewrite E. pose proof (read_rows Hev) as R. unfold spins in R. rewrite R. cbn [bind]. rewrite zlen_map.
  destruct (Z.ltb_spec (zlen recs) m); [lia|]. destruct (Z.ltb_spec m 0); [lia|].
  assert (Ens : (if sym then 1 else 2) = Z.of_nat ns) by (unfold ns; destruct sym; reflexivity).
  assert (Enb : (if sym then Z.of_nat n else Z.of_nat n / 2) = Z.of_nat nb).
  { unfold nb; destruct sym; [reflexivity|]. now rewrite Nat2Z.inj_div. }
  rewrite Ens, Enb. eexists. split; [reflexivity|]. cbn [hk_shape hk_data hk_kpoints].
  match goal with |- context [length (flat_map ?g (range m))] => change (flat_map g (range m)) with
     (five (fun ik b1 s1 b2 s2 => nth (Z.to_nat (((s1 * Z.of_nat nb + b1) * Z.of_nat ns + s2) * Z.of_nat nb + b2))
        (pairs (slice_from (nth (Z.to_nat ik) (slice_to (map rec_vals recs) m) []) 3)) (d, d)) (Z.of_nat nb) (Z.of_nat ns) m) end.
  assert (Enn : (nb * ns = n)%nat).
  { unfold nb, ns. destruct sym; cbn [spins]; [cbn; lia|]. change (Z.to_nat 2) with 2%nat. specialize (Hev eq_refl).
    pose proof (Z.div_mod (Z.of_nat n) 2 ltac:(lia)). pose proof (Nat2Z.inj_div n 2). cbn [Z.of_nat Pos.of_succ_nat Pos.succ] in H2. lia. }
  split; [reflexivity|]. split; [|split].
  - rewrite five_len. unfold fdim. ring.
  - rewrite !slice_to_firstn by lia. rewrite firstn_map. cbn [map]. rewrite !map_map.
    repeat match goal with |- _ :: _ = _ :: _ => f_equal | |- map _ _ = map _ _ => apply map_ext; intros q; apply row_kpoint; lia end.
  - intros k b1 s1 b2 s2 q Hk Hb1 Hs1 Hb2 Hs2 Hq. 
    rewrite (@five_nth _ _ _ _ (d, d)); [|lia|assumption..]. f_equal. rewrite slice_to_firstn, firstn_map by lia. rewrite Nat2Z.id.
    assert (Hrow : nth k (map rec_vals (firstn (Z.to_nat m) recs)) [] = rec_vals q).
    { apply nth_error_nth. rewrite nth_error_map. rewrite nth_error_firstn' by assumption. now rewrite Hq. }
    rewrite Hrow. clearbody nb ns. rewrite <- rec_entry with (n := n).
    + f_equal. rewrite <- Enn. clear. nia.
    + apply nth_error_In in Hq. eapply Forall_forall in Hsq; eassumption.
    + rewrite <- Enn, (Nat.mul_comm nb ns). apply lt_split; assumption.
    + rewrite <- Enn, (Nat.mul_comm nb ns). apply lt_split; assumption.
Qed.
End Records.

(** ** a concrete text format: sign and modulus in units of 10^-12 *)
Definition fixed : Type := (bool * N)%type.
Definition e12 : Z := 1000000000000.
Definition fmt12 (x : fixed) : string :=
  dash (fst x) (str_of_nat (Z.to_nat (Z.of_N (snd x) / e12)) ++ String "." (pad0 12 (str_of_nat (Z.to_nat (Z.of_N (snd x) mod e12)))))%string.
Definition num_unsigned (s : string) : option N :=
  let '(i, rest) := read_digits 0 s in
  match rest with
  | String c' frac => if Ascii.eqb c' "." && all_digit frac && Nat.eqb (String.length frac) 12 then Some (Z.to_N (e12 * i + fst (read_digits 0 frac))) else None
  | EmptyString => None
  end.
Definition num12 (s : string) : option fixed :=
  match s with
  | String c s' => if Ascii.eqb c "-" then option_map (pair true) (num_unsigned s') else option_map (pair false) (num_unsigned s)
  | EmptyString => None
  end.
Lemma no_ws_app a b : no_ws (a ++ b)%string = no_ws a && no_ws b.
Proof. induction a as [|c a IH]; cbn; [reflexivity|]. now rewrite IH, andb_assoc. Qed.
Lemma codec12 x : word (fmt12 x) /\ num12 (fmt12 x) = Some x.
Proof.
  destruct x as [b m]. unfold fmt12. cbn [fst snd]. set (i := str_of_nat (Z.to_nat (Z.of_N m / e12))). set (f := pad0 12 (str_of_nat (Z.to_nat (Z.of_N m mod e12)))).
  assert (Hi : all_digits i = true) by apply str_of_nat_digits. assert (Hf : all_digits f = true) by apply pad0_digits.
  assert (Hne : i <> EmptyString) by apply str_of_nat_nonempty.
  assert (Hl : String.length f = 12%nat).
  { apply pad0_len; [lia|]. pose proof (Z.mod_pos_bound (Z.of_N m) e12 ltac:(unfold e12; lia)). rewrite Z2Nat.id by lia. change (10 ^ Z.of_nat 12) with e12. lia. }
  assert (Hu : num_unsigned (i ++ String "." f)%string = Some m).
  { unfold num_unsigned. rewrite read_digits_app by (assumption || reflexivity). rewrite all_digit_eq, Hf, Hl. cbn [Ascii.eqb Nat.eqb andb].
    replace (Ascii.eqb "." ".") with true by reflexivity. cbn [andb]. rewrite read_digits_all by assumption. cbn [fst]. unfold i, f. rewrite dval_str_of_nat, dval_pad0.
    pose proof (Z.mod_pos_bound (Z.of_N m) e12 ltac:(unfold e12; lia)). pose proof (Z.div_pos (Z.of_N m) e12 ltac:(lia) ltac:(unfold e12; lia)).
    rewrite !Z2Nat.id by lia. rewrite <- Z.div_mod by (unfold e12; lia). now rewrite N2Z.id. }
  assert (Hw : no_ws (i ++ String "." f)%string = true) by (rewrite no_ws_app; cbn [no_ws]; rewrite (digits_no_ws _ Hi), (digits_no_ws _ Hf); reflexivity).
  destruct b; cbn [dash].
  - split; [split; [cbn [no_ws]; now rewrite Hw|discriminate]|]. cbn [num12]. replace (Ascii.eqb "-" "-") with true by reflexivity. now rewrite Hu.
  - destruct i as [|c i]; [congruence|]. split; [split; [exact Hw|discriminate]|]. cbn [append num12]. destruct (Ascii.eqb_spec c "-") as [->|_]; [cbn in Hi; discriminate|].
    change (String c (i ++ String "." f)) with (String c i ++ String "." f)%string. now rewrite Hu.
Qed.
