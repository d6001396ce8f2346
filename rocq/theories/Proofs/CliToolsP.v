From Coq Require Import ZArith Reals List String Lia Lra Bool.
From Verif Require Import Base.PyBase Model.CliTools Spec.CliSpec.
Import ListNotations.
Local Open Scope string_scope.
Local Open Scope list_scope.
Local Open Scope nat_scope.

(** * Comparison of arrays *)
Lemma leb_spec x y : leb x y = true <-> (x <= y)%R.
Proof. unfold leb. destruct (Rle_dec x y); split; intros; try lra; try congruence; auto; contradiction. Qed.
Lemma isclose_spec rt at_ a b : isclose rt at_ a b = true <->
  exists x y, a = Some x /\ b = Some y /\ (cabs (fst x - fst y, snd x - snd y) <= at_ + rt * cabs y)%R.
Proof.
  unfold isclose. destruct a as [x|], b as [y|]; try (split; [discriminate | intros (?&?&?&?&?); discriminate]).
  rewrite leb_spec. split.
  - intros; exists x, y; auto.
  - intros (x'&y'&H1&H2&H3). injection H1 as <-; injection H2 as <-. exact H3.
Qed.
Lemma Ok_inj {A} (x y : A) : Ok x = Ok y -> x = y.
Proof. congruence. Qed.
Lemma forallb_nth {A} (f : A -> bool) l d : forallb f l = true <-> forall i, i < length l -> f (nth i l d) = true.
Proof.
  rewrite forallb_forall. split.
  - intros H i Hi. apply H, nth_In; exact Hi.
  - intros H x Hx. apply In_nth with (d := d) in Hx as (i & Hi & <-). auto.
Qed.
Lemma agree_pointwise rt at_ a b : comparable a b ->
  (agree rt at_ a b <-> forall i, i < places a b -> isclose rt at_ (entry_at a i) (entry_at b i) = true).
Proof.
  intros Hc. unfold agree. split.
  - intros [_ H] i Hi. apply isclose_spec. auto.
  - intros H. split; [exact Hc|]. intros i Hi. apply isclose_spec, H; exact Hi.
Qed.
Lemma entry_at_multi l i : length l <> 1 -> entry_at l i = nth i l None.
Proof. destruct l as [|x [|y l]]; simpl; auto; congruence. Qed.
Lemma allclose_spec rt at_ a b : allclose rt at_ a b = Ok true <-> agree rt at_ a b.
Proof.
  destruct (Nat.eq_dec (length a) 1) as [Ha|Ha].
  - destruct a as [|x [|y a]]; try discriminate. simpl.
    rewrite agree_pointwise by (right; left; reflexivity). unfold places. simpl.
    split.
    + intros H i Hi. apply Ok_inj in H. rewrite (forallb_nth (A:=entry) _ _ None) in H.
      destruct b as [|u [|v b]]; simpl in *; [lia | | apply (H i); exact Hi].
      apply (H 0); lia.
    + intros H. f_equal. apply (forallb_nth (A:=entry) _ _ None). intros i Hi.
      specialize (H i Hi). destruct b as [|u [|v b]]; simpl in *; [lia | | exact H].
      assert (i = 0) by lia; subst i. exact H.
  - destruct (Nat.eq_dec (length b) 1) as [Hb|Hb].
    + destruct b as [|y [|z b]]; try discriminate.
      assert (E : allclose rt at_ a [y] = Ok (forallb (fun x => isclose rt at_ x y) a)).
      { destruct a as [|x [|x' a]]; reflexivity || (simpl in Ha; lia). }
      rewrite E, agree_pointwise by (right; right; reflexivity).
      assert (P : places a [y] = length a) by (unfold places; destruct (Nat.eqb_spec (length a) 1); lia).
      rewrite P. split.
      * intros H i Hi. apply Ok_inj in H. rewrite (forallb_nth (A:=entry) _ _ None) in H. rewrite entry_at_multi by exact Ha. simpl. auto.
      * intros H. f_equal. apply (forallb_nth (A:=entry) _ _ None). intros i Hi. specialize (H i Hi). rewrite entry_at_multi in H by exact Ha. exact H.
    + assert (E : allclose rt at_ a b = if Nat.eqb (length a) (length b)
         then Ok (forallb (fun xy => isclose rt at_ (fst xy) (snd xy)) (combine a b)) else Raise ValueError).
      { destruct a as [|x [|x' a]], b as [|y [|y' b]]; reflexivity || (simpl in Ha, Hb; lia). }
      rewrite E. destruct (Nat.eqb_spec (length a) (length b)) as [El|El].
      * rewrite agree_pointwise by (left; exact El).
        assert (P : places a b = length a) by (unfold places; destruct (Nat.eqb_spec (length a) 1); lia).
        rewrite P. split.
        -- intros H i Hi. apply Ok_inj in H. rewrite (forallb_nth (A:=entry*entry) _ _ (None, None)) in H. rewrite combine_length, <- El, Nat.min_id in H.
           specialize (H i Hi). rewrite combine_nth in H by exact El. rewrite !entry_at_multi by assumption. exact H.
        -- intros H. f_equal. apply (forallb_nth (A:=entry*entry) _ _ (None, None)). rewrite combine_length, <- El, Nat.min_id. intros i Hi.
           specialize (H i Hi). rewrite combine_nth by exact El. rewrite !entry_at_multi in H by assumption. exact H.
      * split; [discriminate|]. intros [[H|[H|H]] _]; congruence.
Qed.
Lemma test_array_spec c : test_array c = None <-> agree (c_rtol c) (c_atol c) (flat (c_arr1 c)) (flat (c_arr2 c)).
Proof.
  rewrite <- allclose_spec. unfold test_array. destruct (allclose _ _ _ _) as [[]|]; split; congruence.
Qed.
Lemma test_array_error c e : test_array c = Some e -> e = ValueError.
Proof.
  unfold test_array, allclose. intros H.
  destruct (flat (c_arr1 c)) as [|x [|x' a]], (flat (c_arr2 c)) as [|y [|y' b]]; simpl in H;
  repeat match type of H with context [if ?b then _ else _] => destruct b end; try congruence;
  match type of H with context [match ?b with true => _ | false => _ end] => destruct b end; congruence.
Qed.
Lemma step_spec s : step_result s = None <-> passes s.
Proof. destruct s as [c|[] n]; simpl; [apply test_array_spec | split; auto | split; discriminate]. Qed.
Lemma run_file_spec show tb l : (forall e, tb e <> ""%string) -> (o_err (run_file show tb l) = ""%string <-> forall s, In s l -> passes s).
Proof.
  intros Htb. induction l as [|s l IH]; simpl.
  - split; [intros _ s [] | reflexivity].
  - destruct (step_result s) as [e|] eqn:E; simpl.
    + split; [intros H; destruct (Htb e H)|]. intros H. assert (step_result s = None) by (apply step_spec; auto). congruence.
    + rewrite IH. apply step_spec in E. split; [intros H t [<-|Ht]; auto | auto].
Qed.
Lemma run_file_code show tb l : (forall e, tb e <> ""%string) -> (o_code (run_file show tb l) = 0%Z <-> o_err (run_file show tb l) = ""%string).
Proof.
  intros Htb. induction l as [|s l IH]; simpl; [tauto|]. destruct (step_result s) as [e|]; simpl; [|exact IH].
  split; [discriminate | intros H; destruct (Htb e H)].
Qed.

(** * The test command *)
Lemma runs_app a b : runs (a ++ b) = runs a ++ runs b.
Proof. induction a as [|[]]; simpl; congruence. Qed.
Lemma commands_app a b : commands (a ++ b) = commands a ++ commands b.
Proof. unfold commands. rewrite runs_app. apply map_app. Qed.

Section Run.
Variable exec : list event -> string -> list string -> option outcome.
Variable directory : string -> option string.

Definition does (a : command) (jobs : list (list string)) : Prop := forall p, exists l e,
  a p = ({| p_cwd := p_cwd p; p_events := p_events p ++ l |}, e) /\ ran_jobs exec (p_cwd p) jobs l e.

Lemma commands_runs l : length (commands l) = length (runs l).
Proof. apply map_length. Qed.
Lemma does_ok : does ok [].
Proof. intros p. exists [], Done. split; [destruct p; simpl; rewrite app_nil_r; reflexivity|]. repeat split; constructor. Qed.
Lemma does_seq a b ja jb : does a ja -> does b jb -> does (seq a b) (ja ++ jb).
Proof.
  intros Ha Hb p. destruct (Ha p) as (l & e & E & Hd & Hc & He). unfold seq. rewrite E.
  destruct e as [|z|f].
  - destruct He as [Hl HF]. specialize (Hb {| p_cwd := p_cwd p; p_events := p_events p ++ l |}).
    destruct Hb as (l' & e' & E' & Hd' & Hc' & He'). cbn [p_cwd p_events] in *.
    exists (l ++ l'), e'. rewrite E'. split; [rewrite app_assoc; reflexivity|].
    unfold ran_jobs. rewrite runs_app, commands_app, app_length. split; [apply Forall_app; auto|]. split.
    + rewrite Hc, Hc', Hl, firstn_all, firstn_app.
      replace (length ja + length (runs l') - length ja) with (length (runs l')) by lia.
      rewrite (firstn_all2 (n := length ja + length (runs l')) ja) by lia. reflexivity.
    + destruct e' as [|z|f].
      * destruct He' as [Hl' HF']. rewrite app_length. split; [lia|apply Forall_app; auto].
      * destruct He' as (-> & pre & x & Hr & Hp & Hx). split; [reflexivity|]. exists (runs l ++ pre), x. rewrite Hr, app_assoc. auto using Forall_app.
        split; [reflexivity|]. split; [apply Forall_app; auto|exact Hx].
      * destruct He' as (-> & HF' & c & ev & Hn & Hx). split; [reflexivity|]. split; [apply Forall_app; auto|].
        exists c, ev. split; [|exact Hx]. rewrite nth_error_app2 by lia. rewrite Hl. replace (length ja + length (runs l') - length ja) with (length (runs l')) by lia. exact Hn.
  - exists l, (Exit z). split; [reflexivity|]. split; [exact Hd|]. split; [|exact He].
    rewrite firstn_app. assert (length (runs l) <= length ja).
    { rewrite <- commands_runs, Hc. rewrite firstn_length. lia. }
    replace (length (runs l) - length ja) with 0 by lia. rewrite app_nil_r. exact Hc.
  - assert (L : length (runs l) <= length ja).
    { rewrite <- commands_runs, Hc. rewrite firstn_length. lia. }
    exists l, (Exc f). split; [reflexivity|]. split; [exact Hd|]. split.
    + rewrite firstn_app. replace (length (runs l) - length ja) with 0 by lia. rewrite app_nil_r. exact Hc.
    + destruct He as (-> & HF & c & ev & Hn & Hx). split; [reflexivity|]. split; [exact HF|]. exists c, ev. split; [|exact Hx].
      rewrite nth_error_app1; [exact Hn|]. apply nth_error_Some. congruence.
Qed.
Lemma does_test prog f : prog <> "mpirun" -> does (run_test exec prog f) [[prog; f]].
Proof.
  intros Hp p. unfold run_test. cbn [p_events p_cwd log].
  match goal with |- context [exec ?ev ?d ?c] => destruct (exec ev d c) as [r|] eqn:E end.
  - destruct (String.eqb_spec (o_err r) "") as [H|H]; cbn [negb].
    + eexists; exists Done. split; [unfold log; cbn; rewrite <- !app_assoc; reflexivity|].
      unfold ran_jobs; cbn. split; [constructor; [cbn; eauto|constructor]|]. split; [reflexivity|]. split; [reflexivity|]. constructor; [left; exact H|constructor].
    + eexists; exists (Exit 1). split; [unfold log; cbn; rewrite <- !app_assoc; reflexivity|].
      unfold ran_jobs; cbn. split; [constructor; [cbn; eauto|constructor]|]. split; [reflexivity|]. split; [reflexivity|].
      exists [], (p_cwd p, [prog; f], r). repeat split; auto.
      intros [H'|H']; [exact (H H')|]. injection H' as H1. congruence.
  - eexists; exists (Exc FileNotFound). split; [unfold log; cbn; rewrite <- !app_assoc; reflexivity|].
    unfold ran_jobs; cbn. repeat split; auto; try constructor. eexists _, _. split; [reflexivity | exact E].
Qed.
Lemma does_all prog fs : prog <> "mpirun" -> does (all (map (run_test exec prog) fs)) (map (fun f => [prog; f]) fs).
Proof.
  intros Hp. induction fs as [|f fs IH]; [exact does_ok|].
  change (map (fun f0 => [prog; f0]) (f :: fs)) with ([[prog; f]] ++ map (fun f0 => [prog; f0]) fs).
  apply (does_seq (run_test exec prog f) (all (map (run_test exec prog) fs)) [[prog; f]]); auto using does_test.
Qed.
Lemma does_mpi : does (run_mpi_test exec "./tests/test_mpi_aux.py") [mpi_command].
Proof.
  intros p. unfold run_mpi_test. fold mpi_command. destruct (exec _ _ mpi_command) as [r|] eqn:E.
  - eexists; exists Done. split; [reflexivity|]. unfold ran_jobs; cbn. split; [constructor; [cbn; eauto|constructor]|]. split; [reflexivity|]. split; [reflexivity|]. constructor; [right; reflexivity | constructor].
  - exists [], (Exc FileNotFound). split; [destruct p; simpl; rewrite app_nil_r; reflexivity|].
    unfold ran_jobs; cbn. repeat split; auto; try constructor. eexists _, _. split; [reflexivity | exact E].
Qed.

(** the same for two environments *)
Definition linked (a a' : command) : Prop := forall p p', p_cwd p = p_cwd p' -> p_cwd (fst (a p)) = p_cwd (fst (a' p')) /\ snd (a p) = snd (a' p').
Lemma linked_seq a a' b b' : linked a a' -> linked b b' -> linked (seq a b) (seq a' b').
Proof.
  intros Ha Hb p p' Hp. unfold seq. destruct (Ha p p' Hp) as [H1 H2].
  destruct (a p) as [q e], (a' p') as [q' e']; cbn in H1, H2; subst e'. destruct e; cbn; auto.
Qed.
Lemma linked_all l l' : Forall2 linked l l' -> linked (all l) (all l').
Proof. induction 1; simpl; [intros p p' H; auto | apply linked_seq; auto]. Qed.
End Run.

Definition err_of (r : option outcome) : option string := option_map o_err r.
Lemma linked_chdir dir d : linked (chdir dir d) (chdir dir d).
Proof. intros p p' H. unfold chdir. destruct (dir d); cbn; auto. Qed.
Lemma linked_test exec exec' prog f : (forall ev ev' d, err_of (exec ev d [prog; f]) = err_of (exec' ev' d [prog; f])) -> linked (run_test exec prog f) (run_test exec' prog f).
Proof.
  intros H p p' Hp. unfold run_test. cbn [p_events p_cwd log].
  match goal with |- context [exec ?ev ?d ?c] => match goal with |- context [exec' ?ev' ?d' c] => pose proof (H ev ev' d) as E; rewrite Hp in E |- * end end.
  destruct (exec _ _ _) as [r|], (exec' _ _ _) as [r'|]; cbn in E; try discriminate; [|cbn; auto].
  injection E as E. rewrite E. destruct (String.eqb _ ""); cbn; auto.
Qed.
Lemma linked_mpi exec exec' f : (forall ev ev' d c, (exec ev d ("mpirun" :: c) = None <-> exec' ev' d ("mpirun" :: c) = None)) ->
  linked (run_mpi_test exec f) (run_mpi_test exec' f).
Proof.
  intros H p p' Hp. unfold run_mpi_test. specialize (H (p_events p) (p_events p') (p_cwd p) ["-np"; "2"; "python"; f]). rewrite Hp in H |- *.
  destruct (exec _ _ _), (exec' _ _ _); cbn; auto; exfalso; destruct H as [A B]; (discriminate A || discriminate B); reflexivity.
Qed.
Lemma Forall2_map {A B} (R : B -> B -> Prop) (f g : A -> B) l : (forall x, In x l -> R (f x) (g x)) -> Forall2 R (map f l) (map g l).
Proof. induction l; simpl; constructor; auto. Qed.

(** * The commands *)
Lemma seq_assoc a b c p : seq a (seq b c) p = seq (seq a b) c p.
Proof. unfold seq. destruct (a p) as [q []]; reflexivity. Qed.
Lemma seq_ext a b b' p : (forall p, b p = b' p) -> seq a b p = seq a b' p.
Proof. intros H. unfold seq. destruct (a p) as [q []]; auto. Qed.
Section Cmd.
Variable exec : list event -> string -> list string -> option outcome.
Variable directory : string -> option string.
Variable sp root home : string.
Hypothesis Hroot : directory (path_join sp "../../") = Some root.
Hypothesis Hhome : directory sp = Some home.
Lemma does_in body jobs p q e : does exec body jobs -> seq (chdir directory (path_join sp "../../")) (seq body (chdir directory sp)) p = (q, e) ->
  ran_in exec root home jobs p q e.
Proof.
  intros Hb H. unfold seq at 1 in H. unfold chdir at 1 in H. rewrite Hroot in H.
  unfold seq in H. destruct (Hb (log {| p_cwd := root; p_events := p_events p |} (Chdir root))) as (l & e1 & E & J). rewrite E in H.
  cbn [p_cwd p_events log] in *. exists l. destruct e1 as [|z|f].
  - unfold chdir in H. rewrite Hhome in H. injection H as <- <-. split; [exact J|]. cbn. rewrite <- !app_assoc. split; reflexivity.
  - injection H as <- <-. split; [exact J|]. cbn. rewrite <- !app_assoc. split; reflexivity.
  - injection H as <- <-. split; [exact J|]. cbn. rewrite <- !app_assoc. split; reflexivity.
Qed.
Lemma lint_ran p q e : test_linting exec directory sp p = (q, e) -> ran_in exec root home lint_jobs p q e.
Proof. apply does_in. apply does_all. discriminate. Qed.
Lemma unit_ran p q e : run_unit_tests exec directory sp p = (q, e) -> ran_in exec root home unit_jobs p q e.
Proof.
  intros H. apply (does_in (seq (all (map (run_test exec "python") unit_files_1))
    (seq (run_mpi_test exec "./tests/test_mpi_aux.py") (all (map (run_test exec "python") unit_files_2))))).
  - apply does_seq; [apply does_all; discriminate|]. apply does_seq; [apply does_mpi | apply does_all; discriminate].
  - rewrite <- H. unfold run_unit_tests. apply seq_ext. intros p'. rewrite <- seq_assoc. apply seq_ext. intros p''. rewrite <- seq_assoc. reflexivity.
Qed.
End Cmd.

Lemma lint_linked exec exec' dir sp p p' : p_cwd p = p_cwd p' ->
  (forall ev ev' d c, err_of (exec ev d ("pylint" :: c)) = err_of (exec' ev' d ("pylint" :: c))) ->
  snd (test_linting exec dir sp p) = snd (test_linting exec' dir sp p').
Proof.
  intros Hp H. assert (L : linked (test_linting exec dir sp) (test_linting exec' dir sp)); [|exact (proj2 (L p p' Hp))]. unfold test_linting.
  apply linked_seq; [apply linked_chdir|]. apply linked_seq; [|apply linked_chdir]. apply linked_all, Forall2_map. intros f _. apply linked_test. auto.
Qed.
Lemma unit_linked exec exec' dir sp p p' : p_cwd p = p_cwd p' ->
  (forall ev ev' d c, err_of (exec ev d ("python" :: c)) = err_of (exec' ev' d ("python" :: c))) ->
  (forall ev ev' d c, exec ev d ("mpirun" :: c) = None <-> exec' ev' d ("mpirun" :: c) = None) ->
  snd (run_unit_tests exec dir sp p) = snd (run_unit_tests exec' dir sp p').
Proof.
  intros Hp H Hm. assert (L : linked (run_unit_tests exec dir sp) (run_unit_tests exec' dir sp)); [|exact (proj2 (L p p' Hp))]. unfold run_unit_tests.
  apply linked_seq; [apply linked_chdir|]. apply linked_seq; [apply linked_all, Forall2_map; intros f _; apply linked_test; auto|].
  apply linked_seq; [apply linked_mpi; exact Hm|]. apply linked_seq; [|apply linked_chdir]. apply linked_all, Forall2_map. intros f _. apply linked_test. auto.
Qed.
Lemma ran_jobs_runs exec d jobs l e : ran_jobs exec d jobs l e -> forall x, In x (runs l) -> In (snd (fst x)) jobs.
Proof.
  intros (_ & Hc & _) x Hx. assert (In (snd (fst x)) (commands l)) as H by (apply (in_map (fun y => snd (fst y))); exact Hx).
  rewrite Hc in H. rewrite <- (firstn_skipn (length (runs l)) jobs). apply in_or_app. auto.
Qed.

(** * dga_dc *)
Lemma copy_spec writable fs src name dst :
  let t := match fs dst with Dir => path_join dst name | _ => dst end in
  match shutil_copy writable fs src name dst with
  | (fs', Done) => exists c, fs src = File c /\ fs t <> Dir /\ writable t = true /\ src <> t /\ fs' = fset fs t (File c)
  | (fs', _) => fs' = fs
  end.
Proof.
  unfold shutil_copy. set (t := match fs dst with Dir => path_join dst name | _ => dst end). cbn zeta.
  destruct (String.eqb_spec src t) as [E|E]; [reflexivity|].
  destruct (fs src) as [| |c] eqn:Es; try reflexivity.
  destruct (fs t) as [| |c'] eqn:Et; try reflexivity; destruct (writable t) eqn:Ew; try reflexivity; exists c; repeat split; auto; congruence.
Qed.

(** * Arguments *)
Definition names (opts : list (string * string)) : list string := flat_map (fun o => [fst o; snd o]) opts.
Definition hit (o : string * string) (n : string) : bool := (String.eqb (fst o) n || String.eqb (snd o) n)%bool.
Lemma hit_in o n : hit o n = true <-> In n [fst o; snd o].
Proof.
  unfold hit. rewrite orb_true_iff, !String.eqb_eq. simpl. intuition.
Qed.
Lemma hit_none opts n vals (a : option string) : ~ In n (names opts) -> length vals = length opts ->
  map (fun od => if hit (fst od) n then a else snd od) (combine opts vals) = vals.
Proof.
  revert vals; induction opts as [|o r IH]; intros [|d vals] Hn Hl; try discriminate; [reflexivity|].
  simpl in Hl |- *. assert (hit o n = false) as ->.
  { destruct (hit o n) eqn:E; [|reflexivity]. apply hit_in in E. destruct Hn. unfold names. simpl in *. tauto. }
  f_equal. apply IH; [|lia]. intros H. apply Hn. unfold names in *. simpl. auto.
Qed.
Lemma hit_some opts n vals (a : option string) : In n (names opts) -> NoDup (names opts) -> length vals = length opts ->
  exists i, find_option opts n = Some i /\ set_nth vals i a = map (fun od => if hit (fst od) n then a else snd od) (combine opts vals).
Proof.
  revert vals; induction opts as [|o r IH]; intros [|d vals] Hn Hd Hl; try discriminate; [destruct Hn|].
  assert (Hr : NoDup (names r)) by (unfold names in *; simpl in Hd; inversion_clear Hd; inversion_clear H0; assumption).
  simpl in Hl. destruct o as [x y]. cbn [find_option].
  change (String.eqb x n || String.eqb y n)%bool with (hit (x, y) n).
  destruct (hit (x, y) n) eqn:E.
  - exists 0. split; [reflexivity|]. simpl. rewrite E. f_equal. symmetry. apply hit_none; [|lia].
    apply hit_in in E. cbn in E. unfold names in *. simpl in Hd. inversion_clear Hd as [|? ? A B]. inversion_clear B as [|? ? C D].
    intros H. destruct E as [<-|[<-|[]]]; [apply A; right; exact H | exact (C H)].
  - assert (Hn' : In n (names r)).
    { unfold names in *. simpl in Hn. destruct Hn as [Hn|[Hn|Hn]]; [| |exact Hn];
      (assert (hit (x, y) n = true) as F by (apply hit_in; simpl; auto)); congruence. }
    destruct (IH vals Hn' Hr ltac:(lia)) as (i & F & G). exists (S i). rewrite F. split; [reflexivity|]. simpl. rewrite E, G. reflexivity.
Qed.
Lemma parse_last opts pairs vals : length vals = length opts -> NoDup (names opts) ->
  Forall (fun nv => In (fst nv) (names opts) /\ is_option (snd nv) = false) pairs ->
  parse_args opts vals (flat_map (fun nv => [fst nv; snd nv]) pairs) = Some (map (fun od => last_value (fst od) (snd od) pairs) (combine opts vals)).
Proof.
  intros Hl Hd. revert vals Hl. induction pairs as [|[n v] r IH]; intros vals Hl H.
  - cbn. f_equal. revert vals Hl. clear. induction opts as [|o opts IH]; intros [|d vals] Hl; try discriminate; [reflexivity|].
    simpl. f_equal. apply IH. simpl in Hl. lia.
  - inversion_clear H as [|? ? [Hn Hv] Hr]. cbn [fst snd] in Hn, Hv.
    cbn [flat_map app fst snd parse_args]. destruct (hit_some opts n vals (Some v) Hn Hd Hl) as (i & -> & E). rewrite Hv, E, IH; [|rewrite map_length, combine_length; lia|exact Hr].
    f_equal. clear - Hl. revert vals Hl. induction opts as [|o opts IH]; intros [|d vals] Hl; try discriminate; [reflexivity|].
    simpl. f_equal. apply IH. simpl in Hl. lia.
Qed.
