(** Property C113: the command-line tools.  [exec]: how the operating system ends a sub-process; [directory]: the directory a path names. *)
From Coq Require Import ZArith Reals List String Lia Lra.
From Verif Require Import Base.PyBase Model.CliTools Spec.CliSpec Proofs.CliToolsP.
Import ListNotations.
Local Open Scope string_scope.
Local Open Scope list_scope.

(** * Comparing arrays *)
(** A comparison in a test passes exactly if the arrays have equally many entries (or one of them a single one) and the entries are numbers that agree within
    atol + rtol * |second entry|; otherwise it raises ValueError. *)
Theorem C113_array c :
  (test_array c = None <-> agree (c_rtol c) (c_atol c) (flat (c_arr1 c)) (flat (c_arr2 c))) /\
  (test_array c <> None -> test_array c = Some ValueError).
Proof.
  split; [apply test_array_spec|]. destruct (test_array c) as [e|] eqn:E; [|congruence]. intros _. f_equal. exact (test_array_error c e E).
Qed.
Print Assumptions C113_array.
(** A stricter tolerance never lets more pass. *)
Theorem C113_array_monotone c c' : flat (c_arr1 c) = flat (c_arr1 c') -> flat (c_arr2 c) = flat (c_arr2 c') ->
  (c_rtol c <= c_rtol c')%R -> (c_atol c <= c_atol c')%R -> test_array c = None -> test_array c' = None.
Proof.
  intros E1 E2 Hr Ha H. apply test_array_spec in H. apply test_array_spec. rewrite <- E1, <- E2. destruct H as [Hc H]. split; [exact Hc|].
  intros i Hi. destruct (H i Hi) as (x & y & Hx & Hy & L). exists x, y. repeat split; auto.
  eapply Rle_trans; [exact L|]. assert (0 <= cabs y)%R by apply sqrt_pos. nra.
Qed.
Print Assumptions C113_array_monotone.
(** A NaN anywhere fails the comparison, also against a NaN. *)
Theorem C113_array_nan c i : comparable (flat (c_arr1 c)) (flat (c_arr2 c)) -> (i < places (flat (c_arr1 c)) (flat (c_arr2 c)))%nat ->
  entry_at (flat (c_arr1 c)) i = None \/ entry_at (flat (c_arr2 c)) i = None -> test_array c = Some ValueError.
Proof.
  intros _ Hi Hn. apply C113_array. intros H. apply test_array_spec in H. destruct H as [_ H]. destruct (H i Hi) as (x & y & Hx & Hy & _).
  destruct Hn; congruence.
Qed.
Print Assumptions C113_array_nan.

(** "The comparison decides whether two arrays are equal up to the tolerance" is refuted: the order of the two arrays matters, the shapes do not, and an empty
    array equals any number. *)
Definition cabs_real (x : R) : cabs (x, 0%R) = Rabs x.
Proof. unfold cabs. cbn. replace (x * x + 0 * 0)%R with (Rsqr x) by (unfold Rsqr; ring). apply sqrt_Rsqr_abs. Qed.
Definition num (x : R) : entry := Some (x, 0%R).
Theorem C113_array_refuted :
  (exists a b rtol, test_array {| c_name := "t"; c_arr1 := a; c_arr2 := b; c_rtol := rtol; c_atol := 0%R |} = None /\
                    test_array {| c_name := "t"; c_arr1 := b; c_arr2 := a; c_rtol := rtol; c_atol := 0%R |} <> None) /\
  (forall name l s s' rtol atol, (0 <= rtol)%R -> (0 <= atol)%R -> Forall (fun x => x <> None) l ->
     test_array {| c_name := name; c_arr1 := {| shape := s; flat := l |}; c_arr2 := {| shape := s'; flat := l |}; c_rtol := rtol; c_atol := atol |} = None) /\
  (forall name s s' x rtol atol,
     test_array {| c_name := name; c_arr1 := {| shape := s; flat := [] |}; c_arr2 := {| shape := s'; flat := [x] |}; c_rtol := rtol; c_atol := atol |} = None).
Proof.
  split; [|split].
  - exists {| shape := [1%nat]; flat := [num 1] |}, {| shape := [1%nat]; flat := [num 2] |}, (1/2)%R. split.
    + apply test_array_spec. split; [left; reflexivity|]. intros i Hi. cbn in Hi. exists (1, 0)%R, (2, 0)%R. repeat split. cbn.
      replace (0 - 0)%R with 0%R by ring. rewrite !cabs_real. rewrite (Rabs_left (1 - 2)), (Rabs_right 2) by lra. lra.
    + intros H. apply test_array_spec in H. destruct H as [_ H]. destruct (H 0%nat) as (x & y & Hx & Hy & L); [cbn; lia|].
      cbn in Hx, Hy. injection Hx as <-. injection Hy as <-. cbn in L. replace (0 - 0)%R with 0%R in L by ring. rewrite !cabs_real in L.
      rewrite (Rabs_right (2 - 1)), (Rabs_right 1) in L by lra. lra.
  - intros name l s s' rt at_ Hr Ha HF. apply test_array_spec. split; [left; reflexivity|]. cbn [c_arr1 c_arr2 flat c_rtol c_atol]. intros i Hi.
    assert (Hi' : (i < length l)%nat) by (unfold places in Hi; match type of Hi with context [if ?b then _ else _] => destruct b end; exact Hi).
    assert (exists x, entry_at l i = Some x) as (x & E).
    { destruct l as [|u [|v l]]; cbn in Hi'; [lia| |].
      - inversion_clear HF. cbn. destruct u; [eauto | congruence].
      - cbn [entry_at]. rewrite Forall_forall in HF. destruct (nth i (u :: v :: l) None) as [z|] eqn:E; [eauto|]. destruct (HF None); [|reflexivity].
        rewrite <- E. apply nth_In. exact Hi'. }
    exists x, x. repeat split; auto. replace (fst x - fst x)%R with 0%R by ring. replace (snd x - snd x)%R with 0%R by ring.
    rewrite cabs_real, Rabs_R0. assert (0 <= cabs x)%R by apply sqrt_pos. assert (0 <= rt * cabs x)%R by (apply Rmult_le_pos; assumption). lra.
  - intros. apply test_array_spec. split; [right; right; reflexivity|]. cbn. intros i Hi. lia.
Qed.
Print Assumptions C113_array_refuted.

(** * dga_lint, dga_unit_test, dga_test *)
Section Tests.
Variable exec : list event -> string -> list string -> option outcome.
Variable directory : string -> option string.
Variable sp root home : string.
Let located := directory (path_join sp "../../") = Some root /\ directory sp = Some home.

(** dga_lint runs pylint on the 17 files in the project's root, in order, up to the first run that writes to stderr, and then exits with 1; it ends normally,
    in the folder of the script, if none does; the only exception is a missing pylint. *)
Theorem C113_lint p q e : located -> test_linting exec directory sp p = (q, e) -> ran_in exec root home lint_jobs p q e.
Proof. intros [H1 H2] H. exact (lint_ran exec directory sp root home H1 H2 p q e H). Qed.
(** The same for dga_unit_test and the 12 test files; the run of the MPI test counts as successful whatever happens in it. *)
Theorem C113_unit p q e : located -> run_unit_tests exec directory sp p = (q, e) -> ran_in exec root home unit_jobs p q e.
Proof. intros [H1 H2] H. exact (unit_ran exec directory sp root home H1 H2 p q e H). Qed.
(** dga_test: the unit tests run only after a clean lint; both have to end normally. *)
Theorem C113_main p q e : located -> test_main exec directory sp p = (q, e) ->
  (e <> Done /\ ran_in exec root home lint_jobs p q e) \/ (exists m, ran_in exec root home lint_jobs p m Done /\ ran_in exec root home unit_jobs m q e).
Proof.
  intros HL H. unfold test_main, seq in H. destruct (test_linting exec directory sp p) as [m e1] eqn:E. pose proof (C113_lint p m e1 HL E) as L.
  destruct e1; [right; exists m; split; [exact L | exact (C113_unit m q e HL H)] | |]; left; injection H as <- <-; (split; [discriminate | exact L]).
Qed.
(** A checkout without the expected folders: nothing is run. *)
Theorem C113_no_root p : directory (path_join sp "../../") = None ->
  test_linting exec directory sp p = (p, Exc FileNotFound) /\ run_unit_tests exec directory sp p = (p, Exc FileNotFound).
Proof. intros H. unfold test_linting, run_unit_tests, seq, chdir. rewrite H. auto. Qed.
(** If every test file is a list of comparisons (C113_array) and statements, dga_unit_test ends normally exactly if all of those outside the MPI test pass, and
    exits with 1 otherwise. *)
Theorem C113_unit_correct show traceback (content : string -> list test_step) p : located -> (forall e, traceback e <> ""%string) ->
  (forall ev f, exec ev root ["python"; f] = Some (run_file show traceback (content f))) -> (forall ev, exec ev root mpi_command <> None) ->
  let e := snd (run_unit_tests exec directory sp p) in
  (e = Done <-> forall f, In f (unit_files_1 ++ unit_files_2) -> forall s, In s (content f) -> passes s) /\ (e <> Done -> e = Exit 1).
Proof.
  intros HL Htb Hpy Hmpi. destruct (run_unit_tests exec directory sp p) as [q e] eqn:E. cbn [snd]. pose proof (C113_unit p q e HL E) as (l & J & _).
  destruct J as (Hd & Hc & He).
  assert (Hjob : forall c, In c unit_jobs <-> c = mpi_command \/ exists f, In f (unit_files_1 ++ unit_files_2) /\ c = ["python"; f]).
  { intros c. unfold unit_jobs. rewrite !in_app_iff, !in_map_iff. cbn [In]. split.
    - intros [(f & <- & Hf)|[[<-|[]]|(f & <- & Hf)]]; [right; exists f; rewrite in_app_iff; auto | left; reflexivity | right; exists f; rewrite in_app_iff; auto].
    - intros [->|(f & Hf & ->)]; [auto|]. rewrite in_app_iff in Hf. destruct Hf; [left | right; right]; exists f; auto. }
  assert (Hrun : forall x f, In x (runs l) -> snd (fst x) = ["python"; f] -> o_err (snd x) = ""%string <-> forall s, In s (content f) -> passes s).
  { intros x f Hx Hf. rewrite Forall_forall in Hd. destruct (Hd x Hx) as (_ & ev & He'). rewrite Hf, Hpy in He'. injection He' as He'. rewrite <- He'.
    apply run_file_spec; exact Htb. }
  destruct e as [|z|f].
  - split; [|congruence]. split; [intros _|reflexivity]. destruct He as [Hl HF]. rewrite Hl, firstn_all in Hc. intros f Hf.
    assert (Hin : In ["python"; f] (commands l)) by (rewrite Hc; apply Hjob; eauto).
    unfold commands in Hin. apply in_map_iff in Hin as (x & Hx & Hin). apply (Hrun x f Hin Hx). rewrite Forall_forall in HF.
    destruct (HF x Hin) as [H|H]; [exact H|]. rewrite Hx in H. discriminate.
  - destruct He as (-> & pre & x & Hr & HF & Hx). split; [|reflexivity]. split; [discriminate|]. intros H. exfalso. apply Hx. left.
    assert (Hin : In x (runs l)) by (rewrite Hr; apply in_or_app; right; left; reflexivity).
    assert (Hj : In (snd (fst x)) unit_jobs).
    { apply (ran_jobs_runs exec root unit_jobs l (Exit 1)); [|exact Hin]. split; [exact Hd|]. split; [exact Hc|]. split; [reflexivity|]. exists pre, x; auto. }
    apply Hjob in Hj as [Hm|(f & Hf & Hf')]; [destruct Hx; right; exact Hm|]. apply (Hrun x f Hin Hf'). intros s Hs. exact (H f Hf s Hs).
  - exfalso. destruct He as (-> & HF & c & ev & Hn & Hx). apply nth_error_In in Hn. apply Hjob in Hn as [->|(f & _ & ->)]; [exact (Hmpi ev Hx)|].
    rewrite Hpy in Hx. discriminate.
Qed.
End Tests.
Print Assumptions C113_lint.
Print Assumptions C113_unit.
Print Assumptions C113_main.
Print Assumptions C113_no_root.
Print Assumptions C113_unit_correct.

(** Which files they look at: each job names a file of the repository, and no file twice.  "All modules are checked and all tests are run" is refuted: 11 of the 28
    modules are not linted, and one of the 13 test files is not run. *)
Theorem C113_files_refuted :
  not_named package_files lint_jobs = map (fun f => ("./src/dga/" ++ f)%string)
    ["__init__.py"; "config.py"; "dga_main.py"; "dga_max_ent.py"; "high_level_plotting.py"; "high_level_routines.py"; "pade_aux.py"; "plot_specs.py"; "plotting.py"; "symmetrize.py"; "util.py"]%string /\
  not_named test_files unit_jobs = ["./tests/test_self_energy.py"]%string /\
  (List.length lint_jobs + 11 = List.length package_files)%nat /\ (List.length unit_jobs + 1 = List.length test_files)%nat /\ NoDup lint_jobs /\ NoDup unit_jobs.
Proof.
  repeat (split; [vm_compute; reflexivity|]). split; cbn; repeat (constructor; [cbn; intros H; repeat (destruct H as [H|H]; [discriminate H|]); exact H|]); constructor.
Qed.
Print Assumptions C113_files_refuted.

(** "A lint run that ends normally means that pylint had nothing to report" is refuted: only stderr decides; return codes and what is written to stdout, which is where pylint
    reports, do not matter.  The result is the same for any two ways the runs can end with equal stderr. *)
Theorem C113_lint_refuted exec exec' directory sp p :
  (forall ev ev' d c, option_map o_err (exec ev d ("pylint" :: c)) = option_map o_err (exec' ev' d ("pylint" :: c))) ->
  snd (test_linting exec directory sp p) = snd (test_linting exec' directory sp p).
Proof. intros H. apply lint_linked; auto. Qed.
Print Assumptions C113_lint_refuted.
(** "dga_unit_test fails when a test fails" is refuted for the MPI test: its outcome does not matter at all. *)
Theorem C113_mpi_refuted exec exec' directory sp p :
  (forall ev ev' d c, option_map o_err (exec ev d ("python" :: c)) = option_map o_err (exec' ev' d ("python" :: c))) ->
  (forall ev ev' d c, exec ev d ("mpirun" :: c) = None <-> exec' ev' d ("mpirun" :: c) = None) ->
  snd (run_unit_tests exec directory sp p) = snd (run_unit_tests exec' directory sp p).
Proof. intros. apply unit_linked; auto. Qed.
Print Assumptions C113_mpi_refuted.
(** and the other way round: a test file that succeeds but writes anything to stderr, a warning say, makes dga_unit_test exit with 1. *)
Theorem C113_warning_finding exec directory sp root home p : directory (path_join sp "../../") = Some root -> directory sp = Some home ->
  (forall ev c, exec ev root c = Some {| o_out := "Passed"; o_err := "UserWarning"; o_code := 0 |}) ->
  snd (run_unit_tests exec directory sp p) = Exit 1.
Proof.
  intros H1 H2 H. destruct (run_unit_tests exec directory sp p) as [q e] eqn:E. cbn [snd].
  destruct (@C113_unit exec directory sp root home p q e (conj H1 H2) E) as (l & (Hd & Hc & He) & _). rewrite Forall_forall in Hd.
  assert (Hall : forall x, In x (runs l) -> ~ quiet x).
  { intros x Hx. destruct (Hd x Hx) as (_ & ev & Hq). rewrite H in Hq. injection Hq as Hq. unfold quiet. rewrite <- Hq. discriminate. }
  destruct e as [|z|f].
  - destruct He as [Hl HF]. rewrite Hl, firstn_all in Hc. destruct (runs l) as [|x r] eqn:Er; [discriminate Hl|].
    inversion_clear HF as [|? ? Hx _]. destruct Hx as [Hx|Hx]; [destruct (Hall x (or_introl eq_refl) Hx)|].
    unfold commands in Hc. rewrite Er in Hc. cbn in Hc. injection Hc as Hc _. rewrite Hc in Hx. discriminate.
  - destruct He as (-> & _). reflexivity.
  - destruct He as (_ & _ & c & ev & _ & Hx). rewrite H in Hx. discriminate.
Qed.
Print Assumptions C113_warning_finding.

(** * dga_dc *)
Section Config.
Variable directory : string -> option string.
Variable sp : string.
Variable writable : string -> bool.
(** If it ends normally, the current folder holds a copy of the template under the name dga_config.yaml (inside the folder of that name, if there is one), every
    other file is what it was, and the current directory is the same. *)
Theorem C113_config w w' : directory (w_cwd w) = Some (w_cwd w) -> config_main directory sp writable w = (w', Done) ->
  exists tdir c, directory (path_join sp "../../config_templates/") = Some tdir /\ w_fs w (tdir ++ "/dga_config.yaml")%string = File c /\
    let target := match w_fs w (w_cwd w ++ "/dga_config.yaml")%string with
                  | Dir => path_join (w_cwd w ++ "/dga_config.yaml") "dga_config.yaml"
                  | _ => (w_cwd w ++ "/dga_config.yaml")%string end in
    w_fs w' target = File c /\ (forall f, f <> target -> w_fs w' f = w_fs w f) /\ w_cwd w' = w_cwd w.
Proof.
  intros Hcwd H. unfold config_main in H. destruct (directory (path_join sp "../../config_templates/")) as [tdir|]; [|discriminate].
  pose proof (copy_spec writable (w_fs w) (tdir ++ "/" ++ config_name) config_name (w_cwd w ++ "/" ++ config_name)) as S. cbn zeta in S.
  destruct (shutil_copy _ _ _ _ _) as [fs e]. destruct e; try discriminate. rewrite Hcwd in H. injection H as <-.
  destruct S as (c & Hs & Ht & Hw & Hne & ->). exists tdir, c. split; [reflexivity|]. split; [exact Hs|]. cbn [w_fs w_cwd].
  change ("/" ++ config_name)%string with "/dga_config.yaml"%string in *. unfold config_name in *.
  unfold fset. cbn zeta. split; [rewrite String.eqb_refl; reflexivity|]. split; [|reflexivity].
  intros f Hf. match goal with |- context [String.eqb ?u f] => destruct (String.eqb_spec u f) as [Ef|Ef] end; [congruence | reflexivity].
Qed.
(** If it does not, no file has changed. *)
Theorem C113_config_failure w w' e : directory (w_cwd w) = Some (w_cwd w) -> config_main directory sp writable w = (w', e) -> e <> Done ->
  w_fs w' = w_fs w.
Proof.
  intros Hcwd H He. unfold config_main in H. destruct (directory (path_join sp "../../config_templates/")) as [tdir|]; [|injection H as <- <-; reflexivity].
  pose proof (copy_spec writable (w_fs w) (tdir ++ "/" ++ config_name) config_name (w_cwd w ++ "/" ++ config_name)) as S. cbn zeta in S.
  destruct (shutil_copy _ _ _ _ _) as [fs e1]. destruct e1; [rewrite Hcwd in H; injection H as <- <-; congruence | |]; injection H as <- <-; exact S.
Qed.
(** It ends normally whenever the template exists, the current folder is another one, has no folder of that name, and may be written to. *)
Theorem C113_config_works w tdir c : directory (w_cwd w) = Some (w_cwd w) -> directory (path_join sp "../../config_templates/") = Some tdir ->
  w_fs w (tdir ++ "/dga_config.yaml")%string = File c -> (tdir ++ "/dga_config.yaml" <> w_cwd w ++ "/dga_config.yaml")%string ->
  w_fs w (w_cwd w ++ "/dga_config.yaml")%string <> Dir -> writable (w_cwd w ++ "/dga_config.yaml")%string = true ->
  snd (config_main directory sp writable w) = Done.
Proof.
  intros Hcwd Ht Hs Hne Hd Hw. unfold config_main. rewrite Ht. unfold shutil_copy. change ("/" ++ config_name)%string with "/dga_config.yaml"%string.
  destruct (w_fs w (w_cwd w ++ "/dga_config.yaml")%string) eqn:Ed; try congruence;
  (destruct (String.eqb_spec (tdir ++ "/dga_config.yaml") (w_cwd w ++ "/dga_config.yaml")); [congruence|]); rewrite Hs, Ed, Hw, Hcwd; reflexivity.
Qed.
(** In the folder of the templates itself it refuses. *)
Theorem C113_config_same w : directory (path_join sp "../../config_templates/") = Some (w_cwd w) -> w_fs w (w_cwd w ++ "/dga_config.yaml")%string <> Dir ->
  config_main directory sp writable w = (w, Exc SameFile).
Proof.
  intros H Hd. unfold config_main. rewrite H. unfold shutil_copy. change ("/" ++ config_name)%string with "/dga_config.yaml"%string.
  destruct (w_fs w (w_cwd w ++ "/dga_config.yaml")%string) eqn:E; [|congruence|]; rewrite String.eqb_refl; destruct w; reflexivity.
Qed.
End Config.
Print Assumptions C113_config.
Print Assumptions C113_config_same.
Print Assumptions C113_config_failure.
Print Assumptions C113_config_works.
(** "dga_dc never destroys a configuration" is refuted: an edited dga_config.yaml in the current folder is replaced without a question; and after a failure the process
    is left in the folder of the templates. *)
Theorem C113_config_refuted :
  (exists directory w w', config_main directory "/p/src/cli" (fun _ => true) w = (w', Done) /\
     w_fs w "/home/dga_config.yaml" = File "mine" /\ w_fs w' "/home/dga_config.yaml" = File "template") /\
  (exists directory w w', config_main directory "/p/src/cli" (fun _ => false) w = (w', Exc Permission) /\ w_cwd w' <> w_cwd w).
Proof.
  pose (dir := fun p => if String.eqb p "/home" then Some "/home"%string else Some "/p/config_templates"%string).
  pose (fs := fun p => if String.eqb p "/home/dga_config.yaml" then File "mine" else File "template").
  split; exists dir, {| w_fs := fs; w_cwd := "/home" |}.
  - eexists. split; [reflexivity|]. split; reflexivity.
  - eexists. split; [reflexivity|]. discriminate.
Qed.
Print Assumptions C113_config_refuted.

(** * Arguments *)
(** Options with values may be given in any order and repeatedly; the last value counts, the default is the working directory; the file that is opened is the
    path immediately followed by the name. *)
Theorem C113_dga_main_arguments cwd (pairs : list (string * string)) :
  Forall (fun nv => In (fst nv) ["-c"; "--config"; "-p"; "--path"] /\ is_option (snd nv) = false) pairs ->
  exists p c, last_value ("-p", "--path") (Some (cwd ++ "/")%string) pairs = Some p /\ last_value ("-c", "--config") (Some "dga_config.yaml") pairs = Some c /\
    dga_main_file cwd (flat_map (fun nv => [fst nv; snd nv]) pairs) = inl (p ++ c)%string.
Proof.
  intros H.
  assert (S : forall o d, exists x, last_value o (Some d) pairs = Some x).
  { intros o. clear H. induction pairs as [|[n v] r IH]; intros d; [eexists; reflexivity|]. cbn. destruct (_ || _)%bool; apply IH. }
  destruct (S ("-p", "--path") (cwd ++ "/")%string) as [p Hp]. destruct (S ("-c", "--config") "dga_config.yaml") as [c Hc]. exists p, c. split; [exact Hp|]. split; [exact Hc|].
  unfold dga_main_file. rewrite parse_last; [|reflexivity| |exact H].
  - cbn [combine map fst snd]. rewrite Hp, Hc. reflexivity.
  - unfold names. cbn. repeat constructor; cbn; intuition discriminate.
Qed.
Print Assumptions C113_dga_main_arguments.
Theorem C113_sym1b_arguments cwd (pairs : list (string * string)) :
  Forall (fun nv => In (fst nv) ["-if"; "--input_file"; "-of"; "--output_file"; "-p"; "--path"] /\ is_option (snd nv) = false) pairs ->
  exists p i o, last_value ("-p", "--path") (Some (cwd ++ "/")%string) pairs = Some p /\
    last_value ("-if", "--input_file") (Some "Vertex.hdf5") pairs = Some i /\ last_value ("-of", "--output_file") (Some "g4iw_sym.hdf5") pairs = Some o /\
    sym1b_files cwd (flat_map (fun nv => [fst nv; snd nv]) pairs) = inl (p ++ i, p ++ o)%string.
Proof.
  intros H.
  assert (S : forall o d, exists x, last_value o (Some d) pairs = Some x).
  { intros o. clear H. induction pairs as [|[n v] r IH]; intros d; [eexists; reflexivity|]. cbn. destruct (_ || _)%bool; apply IH. }
  destruct (S ("-p", "--path") (cwd ++ "/")%string) as [p Hp]. destruct (S ("-if", "--input_file") "Vertex.hdf5") as [i Hi].
  destruct (S ("-of", "--output_file") "g4iw_sym.hdf5") as [o Ho]. exists p, i, o. do 3 (split; [assumption|]).
  unfold sym1b_files. rewrite parse_last; [|reflexivity| |exact H].
  - cbn [combine map fst snd]. rewrite Hp, Hi, Ho. reflexivity.
  - unfold names. cbn. repeat constructor; cbn; intuition discriminate.
Qed.
Print Assumptions C113_sym1b_arguments.
(** "The option -p names a folder" is refuted: without the final slash its name becomes part of the file name; and an option without a value is accepted, but
    then the file name cannot be built. *)
Theorem C113_arguments_refuted cwd :
  dga_main_file cwd ["-p"; "/data"] = inl "/datadga_config.yaml"%string /\
  sym1b_files cwd ["-p"; "/data"] = inl ("/dataVertex.hdf5", "/datag4iw_sym.hdf5")%string /\
  dga_main_file cwd ["-p"] = inr (Exc BadType) /\ dga_main_file cwd ["-c"; "-p"; "/data/"] = inr (Exc BadType) /\ dga_main_file cwd ["x"] = inr (Exit 2).
Proof. repeat split; reflexivity. Qed.
Print Assumptions C113_arguments_refuted.

(** * Concrete cases *)
Example cli_lint : let exec := fun (_ : list event) (_ : string) c => Some {| o_out := "E0001"; o_err := if String.eqb (nth 1 c "") "./src/dga/wannier.py" then "oops" else ""; o_code := 30 |} in
  let r := test_linting exec (fun p => Some p) "/p/src/cli" {| p_cwd := "/home"; p_events := [] |} in
  snd r = Exit 1 /\ length (runs (p_events (fst r))) = 3%nat /\ p_cwd (fst r) = "/p/src/cli/../../".
Proof. repeat split; reflexivity. Qed.
Example cli_unit : let exec := fun (_ : list event) (_ : string) c => Some {| o_out := ""; o_err := if String.eqb (nth 0 c "") "mpirun" then "Traceback" else ""; o_code := 1 |} in
  let r := run_unit_tests exec (fun p => Some p) "/p/src/cli" {| p_cwd := "/home"; p_events := [] |} in
  snd r = Done /\ length (runs (p_events (fst r))) = 12%nat /\ p_cwd (fst r) = "/p/src/cli".
Proof. repeat split; reflexivity. Qed.
Example cli_arguments : dga_main_file "/home" ["--config"; "a.yaml"; "-p"; "/d/"; "-c"; "b.yaml"] = inl "/d/b.yaml" /\ dga_main_file "/home" [] = inl "/home/dga_config.yaml".
Proof. split; reflexivity. Qed.
