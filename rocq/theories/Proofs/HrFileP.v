(** Round trip of the Hr text file. *)
From Coq Require Import String Ascii DecimalNat DecimalFacts DecimalString.
From Verif Require Import Base.PyBase Base.PyFacts Model.Util Model.RankFiles Model.HrFile Proofs.UtilP Proofs.StrP.
Set Implicit Arguments.
Local Open Scope string_scope.
Local Open Scope list_scope.
Local Open Scope Z_scope.

(** ** tokens *)
Fixpoint no_space (s : string) : bool := match s with EmptyString => true | String c s' => negb (is_space c) && no_space s' end.
Definition token (s : string) : Prop := no_space s = true /\ s <> EmptyString.
(** an empty string or one that starts with a space *)
Definition gap_start (s : string) : Prop := match s with EmptyString => True | String c _ => is_space c = true end.
Lemma no_space_app a b : no_space (a ++ b)%string = no_space a && no_space b.
Proof. induction a as [|c a IH]; cbn; [reflexivity|]. now rewrite IH, andb_assoc. Qed.
Lemma split_space s : split_ws (String " " s) = split_ws s.
Proof. unfold split_ws. cbn. destruct (words s) as [w ws]. reflexivity. Qed.
Lemma split_spaces n s : split_ws (spaces n ++ s)%string = split_ws s.
Proof. induction n as [|n IH]; cbn [spaces append]; [reflexivity|]. now rewrite split_space. Qed.
Lemma words_token a b : no_space a = true -> gap_start b -> exists ws, words (a ++ b)%string = (a, ws) /\ split_ws b = ws.
Proof.
  revert b; induction a as [|c a IH]; intros b Ha Hb.
  - cbn [append]. destruct b as [|c b]; [exists []; split; reflexivity|]. cbn in Hb. cbn [words]. unfold split_ws. cbn [words].
    destruct (words b) as [w ws]. rewrite Hb. eexists. split; reflexivity.
  - cbn in Ha. apply andb_prop in Ha as [Hc Ha]. apply negb_true_iff in Hc. destruct (IH b Ha Hb) as [ws [H1 H2]].
    exists ws. cbn [append words]. rewrite H1, Hc. split; [reflexivity|assumption].
Qed.
Lemma split_token a b : token a -> gap_start b -> split_ws (a ++ b)%string = a :: split_ws b.
Proof.
  intros [H1 H2] Hb. destruct (words_token a b H1 Hb) as [ws [E1 E2]]. unfold split_ws at 1. rewrite E1, E2. destruct a; [congruence|reflexivity].
Qed.
Lemma app_nil_r_s s : (s ++ "")%string = s. Proof. apply append_nil. Qed.
Lemma split_single a : token a -> split_ws a = [a].
Proof. intros H. rewrite <- (app_nil_r_s a) at 1. rewrite split_token; [reflexivity|assumption|exact I]. Qed.

(** ** digits are not spaces *)
Lemma digit_not_space c d : digit_val c = Some d -> is_space c = false.
Proof. intros H. unfold is_space. destruct (Ascii.eqb_spec c " "); [subst; discriminate|reflexivity]. Qed.
Lemma digits_no_space s : all_digits s = true -> no_space s = true.
Proof.
  induction s as [|c s IH]; cbn; [reflexivity|]. destruct (digit_val c) eqn:E; [|discriminate]. intros H.
  rewrite (digit_not_space _ E). cbn. auto.
Qed.
Lemma all_digit_eq s : all_digit s = all_digits s. Proof. induction s; cbn; auto. Qed.
Lemma read_digits_app a b acc : all_digits a = true -> starts_nondigit b -> read_digits acc (a ++ b)%string = (dval acc a, b).
Proof.
  revert acc; induction a as [|c a IH]; intros acc Ha Hb.
  - cbn. destruct b as [|c b]; [reflexivity|]. cbn in *. now rewrite Hb.
  - cbn in *. destruct (digit_val c); [auto|discriminate].
Qed.
Lemma read_digits_all a acc : all_digits a = true -> read_digits acc a = (dval acc a, EmptyString).
Proof. intros H. rewrite <- (app_nil_r_s a) at 1. apply read_digits_app; [assumption|exact I]. Qed.

(** ** numbers *)
Lemma parse_unsigned_int s : all_digits s = true -> s <> EmptyString -> parse_unsigned s = Some (1000000 * dval 0 s).
Proof.
  intros H1 H2. unfold parse_unsigned. destruct s as [|c s]; [congruence|]. pose proof H1 as H. cbn in H.
  destruct (digit_val c); [|discriminate]. rewrite read_digits_all by assumption. reflexivity.
Qed.
Lemma parse_unsigned_frac a f : all_digits a = true -> a <> EmptyString -> all_digits f = true -> (String.length f <= 6)%nat ->
  parse_unsigned (a ++ String "." f)%string = Some (1000000 * dval 0 a + dval 0 f * 10 ^ (6 - Z.of_nat (String.length f))).
Proof.
  intros H1 H2 H3 H4. unfold parse_unsigned. destruct a as [|c a]; [congruence|]. cbn [append]. pose proof H1 as H. cbn in H.
  destruct (digit_val c); [|discriminate]. change (String c (a ++ String "." f)) with (String c a ++ String "." f)%string.
  rewrite read_digits_app; [|assumption|reflexivity]. rewrite all_digit_eq, H3. cbn [Ascii.eqb andb].
  replace (Ascii.eqb "." ".") with true by reflexivity. cbn [andb]. apply Nat.leb_le in H4. rewrite H4.
  rewrite (read_digits_all f) by assumption. reflexivity.
Qed.
Lemma parse_float_pos s : all_digits (match s with String c _ => String c EmptyString | _ => EmptyString end) = true ->
  parse_float s = parse_unsigned s.
Proof.
  destruct s as [|c s]; [reflexivity|]. cbn. destruct (digit_val c) eqn:E; [|discriminate]. intros _.
  destruct (Ascii.eqb_spec c "-"); [subst; discriminate|reflexivity].
Qed.
Definition dash (b : bool) (s : string) : string := if b then String "-" s else s.
Lemma parse_float_dash b s v : parse_unsigned s = Some v -> parse_float (dash b s) = Some (if b then - v else v).
Proof.
  intros H. destruct b; cbn [dash].
  - cbn. now rewrite H.
  - rewrite parse_float_pos; [assumption|]. unfold parse_unsigned in H. destruct s as [|c s]; [discriminate|]. cbn in *.
    destruct (digit_val c); [reflexivity|discriminate].
Qed.
Lemma dash_token b s : token s -> token (dash b s).
Proof. intros [H1 H2]. destruct b; cbn; split; cbn; auto; discriminate. Qed.
Lemma str_of_nat_token n : token (str_of_nat n).
Proof. split; [apply digits_no_space, str_of_nat_digits|apply str_of_nat_nonempty]. Qed.
Lemma parse_str_of_nat n : parse_unsigned (str_of_nat n) = Some (1000000 * Z.of_nat n).
Proof. rewrite parse_unsigned_int by (apply str_of_nat_digits || apply str_of_nat_nonempty). now rewrite dval_str_of_nat. Qed.

(** integers *)
Definition int_token (z : Z) : string := dash (Z.ltb z 0) (str_of_nat (Z.abs_nat z)).
Lemma int_token_token z : token (int_token z). Proof. apply dash_token, str_of_nat_token. Qed.
Lemma int_token_parse z : parse_float (int_token z) = Some (1000000 * z).
Proof. unfold int_token. erewrite parse_float_dash by apply parse_str_of_nat. destruct (Z.ltb_spec z 0); f_equal; lia. Qed.
Lemma str_Z_token z : str_Z z = int_token z.
Proof.
  unfold str_Z, int_token, dash. destruct (Z.ltb_spec z 0); f_equal; f_equal; lia.
Qed.
Lemma gap_spaces n s : (0 < n)%nat -> gap_start (spaces n ++ s)%string.
Proof. destruct n; [lia|reflexivity]. Qed.

(** ** the formatted fields: spaces followed by a token *)
Definition field (s t : string) : Prop := exists n, s = (spaces n ++ t)%string.
Lemma spaces_app a b : (spaces a ++ spaces b)%string = spaces (a + b).
Proof. induction a as [|a IH]; cbn; [reflexivity|]. now rewrite IH. Qed.
Lemma append_assoc_s a b c : ((a ++ b) ++ c)%string = (a ++ (b ++ c))%string.
Proof. induction a as [|x a IH]; cbn; [reflexivity|]. now rewrite IH. Qed.
Lemma pad_field w s t : field s t -> field (pad_left w s) t.
Proof. intros [n ->]. unfold pad_left. rewrite <- append_assoc_s, spaces_app. eexists. reflexivity. Qed.
Lemma sign_field b s : field (sign_str b ++ s)%string (dash b s).
Proof. destruct b; cbn; [exists 0%nat|exists 1%nat]; reflexivity. Qed.
Lemma split_field s t rest : field s t -> token t -> gap_start rest -> split_ws (s ++ rest)%string = t :: split_ws rest.
Proof. intros [n ->] Ht Hr. rewrite append_assoc_s, split_spaces. now apply split_token. Qed.
Lemma fmt_5d_field z : field (fmt_5d z) (int_token z). Proof. apply pad_field, sign_field. Qed.

Definition f_token (x : fval) : string :=
  dash (neg x) (str_of_nat (Z.to_nat (mag x / 1000000)) ++ String "." (pad0 6 (str_of_nat (Z.to_nat (mag x mod 1000000)))))%string.
Lemma fmt_f_field x : field (fmt_12_6f x) (f_token x). Proof. apply pad_field, sign_field. Qed.

(** ** lengths *)
Lemma digit_bounds c d : digit_val c = Some d -> 0 <= d <= 9.
Proof. unfold digit_val. destruct (_ && _) eqn:E; [|discriminate]. intros [= <-]. apply andb_true_iff in E as [E1 E2]. lia. Qed.
Lemma dval_lower s : forall acc, 0 <= acc -> all_digits s = true -> acc * 10 ^ Z.of_nat (String.length s) <= dval acc s.
Proof.
  induction s as [|c s IH]; intros acc Ha H; cbn [dval String.length]; [cbn; lia|]. cbn in H. destruct (digit_val c) eqn:E; [|discriminate].
  pose proof (digit_bounds _ E). specialize (IH (10 * acc + z) ltac:(lia) H).
  rewrite Nat2Z.inj_succ, Z.pow_succ_r by lia. assert (0 < 10 ^ Z.of_nat (String.length s)) by (apply Z.pow_pos_nonneg; lia). nia.
Qed.
Lemma dval_lead c s d : digit_val c = Some d -> 1 <= d -> all_digits (String c s) = true -> 10 ^ Z.of_nat (String.length s) <= dval 0 (String c s).
Proof.
  intros H Hd Ha. cbn [all_digits dval] in *. rewrite H in *. rewrite Z.mul_0_r, Z.add_0_l. pose proof (@dval_lower s d ltac:(lia) Ha).
  assert (0 < 10 ^ Z.of_nat (String.length s)) by (apply Z.pow_pos_nonneg; lia). nia.
Qed.
Lemma to_uint_norm n : Decimal.unorm (Nat.to_uint n) = Nat.to_uint n.
Proof. rewrite <- (DecimalNat.Unsigned.to_of (Nat.to_uint n)). now rewrite DecimalNat.Unsigned.of_to. Qed.
Lemma unorm_D0 d : Decimal.unorm (Decimal.D0 d) = Decimal.D0 d -> d = Decimal.Nil.
Proof.
  unfold Decimal.unorm. intros H. cbn [Decimal.nzhead] in H. destruct (Decimal.nzhead d) eqn:E; try discriminate.
  - now injection H.
  - exfalso. apply (DecimalFacts.nzhead_nonzero d u). exact E.
Qed.
Lemma str_of_nat_len n k : Z.of_nat n < 10 ^ Z.of_nat k -> (0 < k)%nat -> (String.length (str_of_nat n) <= k)%nat.
Proof.
  intros H Hk. pose proof (dval_str_of_nat n) as HD. pose proof (str_of_nat_digits n) as Hd. pose proof (to_uint_norm n) as HN.
  destruct (Nat.le_gt_cases (String.length (str_of_nat n)) k) as [|C]; [assumption|exfalso].
  revert HD Hd C. unfold str_of_nat, NilZero.string_of_uint.
  destruct (Nat.to_uint n) as [|u|u|u|u|u|u|u|u|u|u] eqn:EU; cbn [NilEmpty.string_of_uint].
  1: cbn; lia.
  1: apply unorm_D0 in HN; subst u; cbn; lia.
  all: intros HD Hd C; cbn [String.length] in C;
    match type of HD with dval 0 (String ?c ?s) = _ => pose proof (@dval_lead c s _ eq_refl ltac:(cbn; lia) Hd) as HL end;
    assert (10 ^ Z.of_nat k <= 10 ^ Z.of_nat (String.length (NilEmpty.string_of_uint u))) by (apply Z.pow_le_mono_r; lia); lia.
Qed.
Lemma length_app_s a b : String.length (a ++ b)%string = (String.length a + String.length b)%nat.
Proof. induction a; cbn; auto. Qed.
Lemma length_zeros n : String.length (zeros n) = n. Proof. induction n; cbn; auto. Qed.
Lemma length_spaces n : String.length (spaces n) = n. Proof. induction n; cbn; auto. Qed.
Lemma pad0_len w n : (0 < w)%nat -> Z.of_nat n < 10 ^ Z.of_nat w -> String.length (pad0 w (str_of_nat n)) = w.
Proof. intros Hw H. unfold pad0. rewrite length_app_s, length_zeros. pose proof (@str_of_nat_len n w H Hw). lia. Qed.

Lemma frac_pad x : String.length (pad0 6 (str_of_nat (Z.to_nat (mag x mod 1000000)))) = 6%nat.
Proof. apply pad0_len; [lia|]. pose proof (Z.mod_pos_bound (mag x) 1000000 ltac:(lia)). rewrite Z2Nat.id by lia. change (10 ^ Z.of_nat 6) with 1000000. lia. Qed.
Lemma f_token_token x : token (f_token x).
Proof.
  apply dash_token. split.
  - rewrite no_space_app. cbn [no_space]. rewrite (digits_no_space _ (str_of_nat_digits _)), (digits_no_space _ (pad0_digits _ _)). reflexivity.
  - pose proof (str_of_nat_nonempty (Z.to_nat (mag x / 1000000))). destruct (str_of_nat _); [congruence|discriminate].
Qed.
Lemma f_token_parse x : 0 <= mag x -> parse_float (f_token x) = Some (fval_value x).
Proof.
  intros H. unfold f_token, fval_value. erewrite parse_float_dash.
  2:{ rewrite parse_unsigned_frac; [|apply str_of_nat_digits|apply str_of_nat_nonempty|apply pad0_digits|rewrite frac_pad; lia].
      rewrite frac_pad, dval_str_of_nat, dval_pad0. reflexivity. }
  pose proof (Z.mod_pos_bound (mag x) 1000000 ltac:(lia)). pose proof (Z.div_pos (mag x) 1000000 H ltac:(lia)).
  rewrite !Z2Nat.id by lia. change (10 ^ (6 - Z.of_nat 6)) with 1. pose proof (Z.div_mod (mag x) 1000000 ltac:(lia)).
  destruct (neg x); f_equal; lia.
Qed.

(** ** a field starts with a space unless it is a negative number that fills its width *)
Lemma pad_left_gap w s rest : (String.length s < w)%nat \/ gap_start s -> s <> EmptyString -> gap_start (pad_left w s ++ rest)%string.
Proof.
  intros H Hs. unfold pad_left. destruct (w - String.length s)%nat eqn:E; [|reflexivity].
  destruct H as [H|H]; [lia|]. destruct s; [congruence|exact H].
Qed.
Lemma fmt_5d_gap z rest : -999 <= z -> gap_start (fmt_5d z ++ rest)%string.
Proof.
  intros H. apply pad_left_gap.
  - destruct (Z.ltb_spec z 0); [left|right; reflexivity]. cbn. pose proof (@str_of_nat_len (Z.abs_nat z) 3 ltac:(change (10 ^ Z.of_nat 3) with 1000; lia) ltac:(lia)). lia.
  - destruct (z <? 0); discriminate.
Qed.
Lemma fmt_f_gap x rest : 0 <= mag x -> (neg x = true -> mag x < 1000000000) -> gap_start (fmt_12_6f x ++ rest)%string.
Proof.
  intros H0 H. apply pad_left_gap.
  - destruct (neg x) eqn:E; [left|right; reflexivity]. specialize (H eq_refl). cbn [sign_str]. cbn [append String.length].
    rewrite length_app_s. cbn [append String.length]. rewrite frac_pad.
    assert (0 <= mag x / 1000000 < 1000) by (split; [apply Z.div_pos; lia|apply Z.div_lt_upper_bound; lia]).
    pose proof (@str_of_nat_len (Z.to_nat (mag x / 1000000)) 3 ltac:(change (10 ^ Z.of_nat 3) with 1000; lia) ltac:(lia)). lia.
  - destruct (neg x); discriminate.
Qed.

(** ** a data line *)
Definition row_ok (r : hrow) : Prop :=
  -999 <= ry r /\ -999 <= rz r /\ -999 <= o1 r /\ -999 <= o2 r /\
  0 <= mag (h_re r) /\ 0 <= mag (h_im r) /\ (neg (h_re r) = true -> mag (h_re r) < 1000000000) /\ (neg (h_im r) = true -> mag (h_im r) < 1000000000).
Definition row_tokens (r : hrow) : list string :=
  [int_token (rx r); int_token (ry r); int_token (rz r); int_token (o1 r); int_token (o2 r); f_token (h_re r); f_token (h_im r)].
Definition row_values (r : hrow) : list Z :=
  [1000000 * rx r; 1000000 * ry r; 1000000 * rz r; 1000000 * o1 r; 1000000 * o2 r; fval_value (h_re r); fval_value (h_im r)].
Lemma split_row r : row_ok r -> split_ws (row_line r) = row_tokens r.
Proof.
  intros (H1 & H2 & H3 & H4 & H5 & H6 & H7 & H8). unfold row_line.
  rewrite (split_field _ (fmt_5d_field (rx r))); [|apply int_token_token|now apply fmt_5d_gap].
  rewrite (split_field _ (fmt_5d_field (ry r))); [|apply int_token_token|now apply fmt_5d_gap].
  rewrite (split_field _ (fmt_5d_field (rz r))); [|apply int_token_token|now apply fmt_5d_gap].
  rewrite (split_field _ (fmt_5d_field (o1 r))); [|apply int_token_token|now apply fmt_5d_gap].
  rewrite (split_field _ (fmt_5d_field (o2 r))); [|apply int_token_token|now apply fmt_f_gap].
  rewrite (split_field _ (fmt_f_field (h_re r))); [|apply f_token_token|].
  2:{ rewrite <- (app_nil_r_s (fmt_12_6f (h_im r))). now apply fmt_f_gap. }
  rewrite <- (app_nil_r_s (fmt_12_6f (h_im r))); rewrite (split_field EmptyString (fmt_f_field (h_im r))); [|apply f_token_token|exact I]. reflexivity.
Qed.
Lemma parse_row r : row_ok r -> parse_all (row_tokens r) = Ok (row_values r).
Proof.
  intros (H1 & H2 & H3 & H4 & H5 & H6 & H7 & H8). unfold row_tokens. cbn [parse_all]. rewrite !int_token_parse, !f_token_parse by assumption. reflexivity.
Qed.

(** ** weight lines *)
Definition wtoken (isf : bool) (z : Z) : string := if isf then (int_token z ++ ".0")%string else int_token z.
Lemma str_weight_token isf z : str_weight isf z = wtoken isf z.
Proof. unfold str_weight, wtoken. now rewrite str_Z_token. Qed.
Lemma wtoken_token isf z : token (wtoken isf z).
Proof.
  destruct isf; [|apply int_token_token]. destruct (int_token_token z) as [H1 H2]. split; cbn [wtoken].
  - now rewrite no_space_app, H1.
  - destruct (int_token z); [congruence|discriminate].
Qed.
Lemma dash_app b s t : (dash b s ++ t)%string = dash b (s ++ t)%string. Proof. now destruct b. Qed.
Lemma wtoken_parse isf z : parse_float (wtoken isf z) = Some (1000000 * z).
Proof.
  destruct isf; [|apply int_token_parse]. cbn [wtoken]. unfold int_token. rewrite dash_app.
  erewrite parse_float_dash.
  2:{ change ".0"%string with (String "." "0"). rewrite parse_unsigned_frac; [|apply str_of_nat_digits|apply str_of_nat_nonempty|reflexivity|cbn; lia].
      rewrite dval_str_of_nat. change (dval 0 "0" * 10 ^ (6 - Z.of_nat (String.length "0"))) with 0. reflexivity. }
  destruct (Z.ltb_spec z 0); f_equal; lia.
Qed.
Lemma join_cons sep x y t : join sep (x :: y :: t) = (x ++ (sep ++ join sep (y :: t)))%string. Proof. reflexivity. Qed.
Lemma split_join isf c : split_ws (join "    " (map (str_weight isf) c)) = map (wtoken isf) c.
Proof.
  induction c as [|a c IH]; [reflexivity|]. cbn [map]. rewrite str_weight_token. destruct c as [|b c].
  - cbn. apply split_single, wtoken_token.
  - cbn [map] in *. rewrite join_cons, split_token; [|apply wtoken_token|reflexivity].
    change "    "%string with (spaces 4) at 1. rewrite split_spaces. now rewrite IH.
Qed.
Lemma parse_weights isf c : parse_all (map (wtoken isf) c) = Ok (map (Z.mul 1000000) c).
Proof. induction c as [|a c IH]; cbn [map parse_all]; [reflexivity|]. rewrite wtoken_parse, IH. reflexivity. Qed.
Lemma chunks_concat A n (l : list A) f : (length l <= f)%nat -> (0 < n)%nat -> concat (chunks f n l) = l.
Proof.
  intros H Hn. revert l H. induction f as [|f IH]; intros l H; cbn [chunks].
  - destruct l; [reflexivity|cbn in H; lia].
  - destruct l as [|a l]; [reflexivity|]. cbn [concat]. rewrite IH, firstn_skipn; [reflexivity|]. rewrite skipn_length. cbn [length] in *. lia.
Qed.
Lemma chunks_len A n (l : list A) f c : (0 < n)%nat -> In c (chunks f n l) -> (0 < length c <= n)%nat.
Proof.
  intros Hn. revert l; induction f as [|f IH]; intros l; cbn [chunks]; [easy|]. destruct l as [|a l]; [easy|].
  intros [<-|H]; [|eauto]. rewrite firstn_length. cbn [length]. lia.
Qed.

(** ** the whole file *)
Definition file_tokens (nb nr : Z) isf ws rows : list (list string) :=
  [int_token nb] :: [int_token nr] :: map (map (wtoken isf)) (chunks (length ws) 15 ws) ++ map row_tokens rows.
Lemma split_lines nb nr isf ws rows : Forall row_ok rows ->
  map split_ws (skipn 1 (write_hr_w2k nb nr isf ws rows)) = file_tokens nb nr isf ws rows.
Proof.
  intros H. unfold write_hr_w2k, file_tokens. cbn [app skipn map].
  assert (HD : forall z, split_ws (str_Z z ++ " ")%string = [int_token z])
    by (intros z; rewrite str_Z_token, split_token by (apply int_token_token || reflexivity); reflexivity).
  rewrite !HD. do 2 f_equal. rewrite map_app, !map_map. f_equal.
  - apply map_ext. intros c. change ("    " ++ join "    " (map (str_weight isf) c))%string with (spaces 4 ++ join "    " (map (str_weight isf) c))%string.
    rewrite split_spaces. apply split_join.
  - apply map_ext_in. intros r Hr. rewrite Forall_forall in H. now apply split_row, H.
Qed.
Lemma Forall_filter_id A p (l : list A) : Forall (fun x => p x = true) l -> filter p l = l.
Proof. induction 1 as [|a l Ha Hl IH]; cbn; [reflexivity|]. now rewrite Ha, IH. Qed.
Lemma file_tokens_size nb nr isf ws rows : Forall (fun ts => (0 < length ts <= 15)%nat) (file_tokens nb nr isf ws rows).
Proof.
  unfold file_tokens. constructor; [cbn; lia|]. constructor; [cbn; lia|]. apply Forall_app. split.
  - apply Forall_map. apply Forall_forall. intros c Hc. rewrite map_length. eapply chunks_len; [|eassumption]. lia.
  - apply Forall_map. apply Forall_forall. intros r _. cbn. lia.
Qed.
Lemma parse_lines_app a b va vb : parse_lines a = Ok va -> parse_lines b = Ok vb -> parse_lines (a ++ b) = Ok (va ++ vb).
Proof.
  revert va; induction a as [|x a IH]; intros va Ha Hb; cbn in *.
  - injection Ha as <-. exact Hb.
  - destruct (parse_all x) as [vx|]; [|discriminate]. cbn in *. destruct (parse_lines a) as [v|]; [|discriminate]. cbn in *.
    injection Ha as <-. now rewrite (IH v eq_refl Hb).
Qed.
Lemma parse_file nb nr isf ws rows : Forall row_ok rows ->
  parse_lines (file_tokens nb nr isf ws rows) =
  Ok ([1000000 * nb] :: [1000000 * nr] :: map (map (Z.mul 1000000)) (chunks (length ws) 15 ws) ++ map row_values rows).
Proof.
  intros H. unfold file_tokens. cbn [parse_lines parse_all]. rewrite !int_token_parse. cbn [bind].
  erewrite parse_lines_app; [reflexivity| |].
  - induction (chunks (length ws) 15 ws) as [|c l IH]; cbn [map parse_lines]; [reflexivity|]. rewrite parse_weights. cbn [bind]. now rewrite IH.
  - induction H as [|r l Hr Hl IH]; cbn [map parse_lines]; [reflexivity|]. rewrite parse_row by assumption. cbn [bind]. now rewrite IH.
Qed.
Lemma rows7_concat rows : rows7 (concat (map row_values rows)) = map row_values rows.
Proof. induction rows as [|r rows IH]; cbn; [reflexivity|]. now rewrite IH. Qed.
Lemma concat_map_map A B (f : A -> B) ll : concat (map (map f) ll) = map f (concat ll).
Proof. symmetry. apply concat_map. Qed.
Lemma zlen_concat_rows rows : zlen (concat (map row_values rows)) = 7 * zlen rows.
Proof. induction rows as [|r rows IH]; [reflexivity|]. cbn [map concat]. rewrite zlen_app, IH. unfold zlen. cbn [length row_values]. lia. Qed.

Theorem hr_roundtrip nb isf ws rows :
  zlen rows = zlen ws * nb * nb -> Forall row_ok rows ->
  read_hr_w2k (write_hr_w2k nb (zlen ws) isf ws rows) =
  Ok (map (fun r => (fval_value (h_re r), fval_value (h_im r))) rows,
      map (fun r => (1000000 * rx r, 1000000 * ry r, 1000000 * rz r)) rows,
      ws, map (fun r => (1000000 * o1 r, 1000000 * o2 r)) rows).
Proof.
  intros HL H. unfold read_hr_w2k. rewrite split_lines by assumption. pose proof (file_tokens_size nb (zlen ws) isf ws rows) as HS.
  rewrite Forall_filter_id.
  2:{ eapply Forall_impl; [|exact HS]. intros [|t ts] Ht; cbn in *; [lia|reflexivity]. }
  replace (existsb _ _) with false.
  2:{ symmetry. apply not_true_is_false. intros E. apply existsb_exists in E as [ts [H1 H2]]. rewrite Forall_forall in HS. specialize (HS _ H1).
      apply Nat.ltb_lt in H2. lia. }
  rewrite parse_file by assumption. cbn [bind]. cbn [firstn skipn concat app].
  assert (EI : forall z, to_int (1000000 * z) = z) by (intros z; unfold to_int; rewrite Z.mul_comm; apply Z.quot_mul; lia).
  change (py_get [1000000 * nb] 0) with (Ok (1000000 * nb)). change (py_get [1000000 * zlen ws] 0) with (Ok (1000000 * zlen ws)). cbn [bind].
  rewrite !EI. rewrite concat_app, concat_map_map, chunks_concat by lia.
  set (R := concat (map row_values rows)). set (W := map (Z.mul 1000000) ws).
  assert (HW : zlen W = zlen ws) by apply zlen_map.
  pose proof (zlen_nonneg ws) as H0. pose proof (zlen_nonneg R) as H0R.
  change (1000000 * nb :: 1000000 * zlen ws :: W ++ R) with ([1000000 * nb; 1000000 * zlen ws] ++ W ++ R).
  assert (E1 : slice ([1000000 * nb; 1000000 * zlen ws] ++ W ++ R) 2 (2 + zlen ws) = W).
  { rewrite <- HW. apply zget_ext.
    - rewrite zlen_slice_in; rewrite ?zlen_app; change (zlen [1000000 * nb; 1000000 * zlen W]) with 2; lia.
    - intros i Hi. rewrite zlen_slice_in in Hi; rewrite ?zlen_app; change (zlen [1000000 * nb; 1000000 * zlen W]) with 2; try lia.
      rewrite zget_slice_in; rewrite ?zlen_app; change (zlen [1000000 * nb; 1000000 * zlen W]) with 2; try lia.
      rewrite !zget_app. change (zlen [1000000 * nb; 1000000 * zlen W]) with 2.
      destruct (Z.ltb_spec (2 + i) 2); [lia|]. replace (2 + i - 2) with i by lia. destruct (Z.ltb_spec i (zlen W)); [reflexivity|lia]. }
  assert (E2 : slice_from ([1000000 * nb; 1000000 * zlen ws] ++ W ++ R) (2 + zlen ws) = R).
  { unfold slice_from. rewrite app_assoc.
    replace (2 + zlen ws) with (zlen ([1000000 * nb; 1000000 * zlen ws] ++ W)) by (rewrite zlen_app, HW; reflexivity).
    rewrite (zlen_app _ R). apply slice_app_r. }
  rewrite E1, E2. unfold R. rewrite zlen_concat_rows. rewrite (Z.mul_comm 7 (zlen rows)), Z.div_mul by lia. rewrite Z.eqb_refl. cbn [negb].
  rewrite HL. rewrite Z.eqb_refl. cbn [negb]. rewrite rows7_concat. unfold W. rewrite !map_map.
  assert (EM : map (fun x => to_int (1000000 * x)) ws = ws) by (rewrite (map_ext _ (fun x => x)) by (intros; apply EI); apply map_id).
  rewrite EM. reflexivity.
Qed.

(** ** a matrix element at or below -1000 fills its field: two columns become one word *)
Definition fused_row : hrow := {| rx := 0; ry := 0; rz := 0; o1 := 1; o2 := 1; h_re := {| neg := false; mag := 1500000 |}; h_im := {| neg := true; mag := 1000000000 |} |}.
Lemma hr_fused : read_hr_w2k (write_hr_w2k 1 1 false [1] [fused_row]) = Raise ValueError.
Proof. vm_compute. reflexivity. Qed.
Lemma hr_roundtrip_fits nb isf ws rows :
  zlen rows = zlen ws * nb * nb ->
  Forall (fun r => -1000 < ry r /\ -1000 < rz r /\ -1000 < o1 r /\ -1000 < o2 r /\
  0 <= mag (h_re r) /\ 0 <= mag (h_im r) /\
  (neg (h_re r) = true -> mag (h_re r) < 1000 * 1000000) /\ (neg (h_im r) = true -> mag (h_im r) < 1000 * 1000000)) rows ->
  read_hr_w2k (write_hr_w2k nb (zlen ws) isf ws rows) =
  Ok (map (fun r => (fval_value (h_re r), fval_value (h_im r))) rows,
      map (fun r => (1000000 * rx r, 1000000 * ry r, 1000000 * rz r)) rows,
      ws, map (fun r => (1000000 * o1 r, 1000000 * o2 r)) rows).
Proof.
  intros H1 H2. apply hr_roundtrip; [assumption|]. eapply Forall_impl; [|exact H2]. intros r (A & B & C & D & E & F & G & I).
  unfold row_ok. repeat split; try lia; intros K; try specialize (G K); try specialize (I K); lia.
Qed.
