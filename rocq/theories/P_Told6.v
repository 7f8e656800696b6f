(** What is said by the commands, and in all of a run. *)
From Coq Require Import Lia Permutation.
From Verif Require Import Base OMap M_Types M_Scanner M_Ast M_Parser M_Query M_Elab M_Workspace M_Project P_Project M_DepGraph S_DepGraph P_DepGraph M_Headers S_Headers P_Headers M_Printer M_Table
  M_Dwyu S_Dwyu P_Dwyu M_Edits M_Highlight S_Run P_Run M_Commands S_Commands P_Commands M_Messages S_Messages P_Messages P_Messages2 P_Messages3 P_Messages4 M_ParseErrors S_ParseErrors M_Told S_Told
  P_Told P_Told2 P_Told3 P_Told4 P_Told5.

(** * canonicalize *)
Lemma canon_deps_said f deps : plain_lines (pf_content f) -> forall ms, canon_deps_told f deps = Ret ms -> Forall2 (no_label_said f) (filter (no_label f) deps) ms.
Proof.
  intros Pl. induction deps as [|d deps IH]; intros ms E; cbn [canon_deps_told] in E; [injection E as <-; constructor|]. cbn [filter]. unfold no_label at 1.
  destruct (parse_target (v_text d) (pf_package f)) as [t|]; cbn [bind] in E.
  - step E as ms' by S. apply ret_eq in E. subst ms. cbn [app]. auto.
  - destruct (loc f d) as [l| |] eqn:L; try discriminate. cbn [bind] in E. step E as ms' by S. apply ret_eq in E. subst ms. cbn [app]. constructor; [|auto].
    exists l. split; [now apply loc_spec|reflexivity].
Qed.
Lemma canon_rules_said pt f rs : plain_lines (pf_content f) -> forall ms, canon_rules_told pt f rs = Ret ms ->
  Forall2 (no_label_said f) (filter (no_label f) (flat_map (asked_deps pt f) rs)) ms.
Proof.
  intros Pl. induction rs as [|r rs IH]; intros ms E; cbn [canon_rules_told] in E; [injection E as <-; constructor|]. cbn [flat_map]. rewrite filter_app. unfold asked_deps at 1.
  destruct (qualified_target _ _) as [self|]; [|exact (IH _ E)]. destruct (match_target pt self); [|exact (IH _ E)].
  step E as deps by S1. step E as m by S2. step E as ms' by S3. apply ret_eq in E. subst ms. apply extract_entries in S1. subst deps. apply Forall2_app; [now apply canon_deps_said|auto].
Qed.
Lemma canon_files_said pt files : (forall p f, In (p, f) files -> plain_lines (pf_content f)) -> forall ms, canon_files_told pt files = Ret ms -> canon_said pt files ms.
Proof.
  induction files as [|[p f] files IH]; intros Pl ms E; cbn [canon_files_told] in E; [injection E as <-; constructor|].
  destruct (match_package pt (pf_package f)) eqn:M; [|apply cs_other; [exact M|]; apply IH; [intros q g I; eapply Pl; right; exact I|exact E]].
  step E as rs by S1. step E as m by S2. step E as ms' by S3. apply ret_eq in E. subst ms. eapply cs_file; [exact M|exact S1|apply canon_rules_said; [eapply Pl; left; reflexivity|exact S2]|].
  apply IH; [intros q g I; eapply Pl; right; exact I|reflexivity].
Qed.

(** * Commands *)
Section Work.
Variable read_file : str -> option str.
Variable compilation_flags : workspace -> parsed_project -> pattern -> bool -> outcome str.
Variable verbose : nat.
Variable texts : library_texts.
Theorem perform_said fl cmd pt w pr g out st notes : (forall p f, In (p, f) (pr_files pr) -> plain_lines (pf_content f)) ->
  perform_told read_file compilation_flags verbose texts fl cmd pt w pr g = Ret (out, st, notes) ->
  work_said read_file verbose texts fl pt w pr cmd notes.
Proof.
  intros Pl. assert (G : forall (x : outcome str) (s : cli_status), prints fl cmd ->
    (do o <- x; say (match fl_grep fl with BadGrep => [NGrep ($"Grep pattern: " ++ lib_grep texts ++ [NL])] | _ => [] end) (o, s)) = Ret (out, st, notes) -> work_said read_file verbose texts fl pt w pr cmd notes).
  { intros x s P E. step E as o by S. apply say_split in E as [_ ->]. destruct (fl_grep fl) eqn:Fg; [|now apply ws_grep|].
    all: apply ws_nothing; [|intros [_ X]; congruence]; destruct P as [->|[-> _]]; cbn [In]; intuition discriminate. }
  unfold perform_told. destruct cmd.
  all: try (intros H; apply silent_split in H as [_ ->]; apply ws_nothing; [cbn [In]; intuition discriminate|intros [[X|[X _]] _]; discriminate]).
  - cbv zeta. destruct (fl_print_ast fl || fl_print_only_errors fl) eqn:P.
    + apply G. right. split; [reflexivity|]. now apply orb_true_iff.
    + intros H. apply say_split in H as [_ ->]. apply ws_nothing; [cbn [In]; intuition discriminate|]. apply orb_false_iff in P as [P1 P2]. intros [[X|[_ [X|X]]] _]; congruence.
  - apply G. left. reflexivity.
  - intros E. step E as [m l] by S. step E as o by S0. apply say_split in E as [_ ->]. destruct (again_spec pr m l Pl S) as [A B]. apply ws_genrule with (generated := m); [|exact A|exact B].
    unfold generated_from_genrule. apply genrules_of_files_erase in S. rewrite S. reflexivity.
  - intros E. step E as [[evs n] l] by S. cbv zeta in E. apply say_split in E as [_ ->]. eapply ws_dwyu. exact S.
  - intros E. step E as evs by S. step E as l by S0. cbv zeta in E. apply say_split in E as [_ ->]. apply ws_canonicalize. now apply canon_files_said.
Qed.
End Work.

(** * Words *)
Lemma pattern_not_all arg pt : parse_pattern arg = PatOk pt -> is_matchall pt = false.
Proof.
  unfold parse_pattern, parse_pattern_in. destruct (parse_target arg _) as [t|]; [|discriminate]. cbv zeta.
  destruct (_ || _); [intros [= <-]; reflexivity|]. destruct (str_eqb (tname t) ($"__subpackages__")); [intros [= <-]; reflexivity|].
  destruct (_ || _); [intros [= <-]; reflexivity|]. destruct (str_eqb (tname t) ($"...")); [destruct (negb _); [discriminate|intros [= <-]; reflexivity]|].
  destruct (contains_char _ _); [destruct (globbing_to_re2 _); try discriminate; intros [= <-]; reflexivity|]. intros [= <-]. reflexivity.
Qed.
Lemma names_sorted : msorted command_names.
Proof. repeat constructor. Qed.
Lemma ambiguous_names word : find_command command_names word = Ambiguous ->
  exists a ca b cb rest more, snd (lower_bound word command_names) = (a, ca) :: (b, cb) :: rest /\ filter (starts_with word) (map fst command_names) = a :: b :: more.
Proof.
  unfold find_command. assert (E := lower_bound_app word command_names). assert (B : forall x v, In (x, v) (fst (lower_bound word command_names)) -> klt x word) by (intros x v I; exact (lower_bound_before word command_names x v I)).
  destruct (lower_bound word command_names) as [before after]. cbn [fst snd] in *. rewrite <- E, map_app, filter_app.
  assert (Bf : filter (starts_with word) (map fst before) = []).
  { clear - B. induction before as [|[x v] l IH]; [reflexivity|]. cbn [map filter fst]. rewrite (prefix_not_before word x) by (apply (B x v); left; auto). apply IH. intros y u I. apply (B y u). right; auto. }
  rewrite Bf. destruct after as [|[a ca] [|[b cb] rest]]; [discriminate|destruct (starts_with word a); discriminate|].
  destruct (starts_with word a) eqn:Ha; [|discriminate]. destruct (starts_with word b) eqn:Hb; [|discriminate]. intros _. cbn [app map filter fst]. rewrite Ha, Hb. eauto 10.
Qed.

Lemma some_say {A} l (a : A) o s (a' : A * list note) : Some (say l a) = Some (Ret a') -> a' = (o, s) -> a = o /\ l = s.
Proof. intros H ->. injection H as <- <-. auto. Qed.
Section Run.
Variable is_directory : str -> bool.
Variable can_read : str -> bool.
Variable glob : str -> list str.
Variable read_file : str -> option str.
Variable glob_in : workspace -> package -> list str -> list str -> list str.
Variable collect : workspace -> pattern -> list str.
Variable compilation_flags : workspace -> parsed_project -> pattern -> bool -> outcome str.
Variable verbose : nat.
Variable texts : library_texts.
Notation run_command_told := (run_command_told is_directory can_read glob read_file glob_in collect compilation_flags verbose texts).
Notation run_cli_told := (run_cli_told is_directory can_read glob read_file glob_in collect compilation_flags verbose texts).
Notation prepare_told := (prepare_told is_directory can_read glob read_file glob_in collect verbose).
Lemma asked_or_refused fl args out st notes : run_cli_told fl args = Some (Ret (out, st, notes)) ->
  refused texts args notes st /\ out = [] \/ exists cmd pt, asked args cmd pt /\ run_command_told fl cmd pt = Ret (out, st, notes).
Proof.
  unfold M_Told.run_cli_told. cbv zeta. destruct args as [|word args]; [intros E; injection E as <- <- <-; left; split; [constructor|reflexivity]|].
  assert (L := find_command_spec command_names word names_sorted). destruct (find_command command_names word) as [cmd| |] eqn:F.
  2: { intros E. left. apply ambiguous_names in F as (a & ca & b & cb & rest & more & F & F'). rewrite F in E. apply (fun H => some_say _ _ _ _ _ H eq_refl) in E as [E <-]. apply pair_equal_spec in E as [<- <-]. split; [|reflexivity].
    replace (($"Command '" ++ word ++ $"' too short and ambiguous: [" ++ (a ++ $", " ++ b) ++ $", ...") ++ [NL])
       with ($"Command '" ++ word ++ $"' too short and ambiguous: [" ++ a ++ $", " ++ b ++ $", ..." ++ [NL]) by (rewrite <- !app_assoc; reflexivity).
    eapply rf_ambiguous. exact F'. }
  2: { intros E. left. apply (fun H => some_say _ _ _ _ _ H eq_refl) in E as [E <-]. apply pair_equal_spec in E as [<- <-]. split; [|reflexivity]. rewrite <- !app_assoc. apply rf_unknown. destruct (abbreviated command_names word) as [|x [|y l]]; [reflexivity|discriminate..]. }
  assert (A : abbreviated command_names word = [cmd]) by (destruct (abbreviated command_names word) as [|x [|y l]]; try discriminate; injection L as ->; reflexivity).
  assert (Np : needs_pattern cmd = true <-> In cmd [CCanonicalize; CDwyu; CPrint]) by (destruct cmd; cbn; intuition discriminate).
  destruct args as [|arg more].
  - change (is_matchall pattern_always) with true. rewrite andb_true_r. destruct (needs_pattern cmd) eqn:N; intros E.
    + left. injection E as <- <- <-. split; [|reflexivity]. eapply rf_all; [exact A|]. now apply Np.
    + right. injection E as E. exists cmd, pattern_always. split; [|exact E]. apply as_all; [exact A|]. intros X. apply Np in X. congruence.
  - destruct (parse_pattern arg) as [pt| |] eqn:P; [|intros E; injection E as <- <- <-; left; split; [eapply rf_pattern; eauto|reflexivity]|discriminate].
    destruct more as [|x more].
    + rewrite (pattern_not_all _ _ P), andb_false_r. intros E. injection E as E. right. exists cmd, pt. split; [|exact E]. eapply as_pattern; eauto.
    + intros E. injection E as <- <- <-. left. split; [|reflexivity]. eapply rf_more; eauto.
Qed.
Hypothesis Plain : forall name content, read_file name = Some content -> plain_lines content.
Lemma prepare_read fl cmd pt w pr g l : prepare_told fl cmd pt = Ret (Some (w, pr, g), l) -> forall p f, In (p, f) (pr_files pr) -> plain_lines (pf_content f).
Proof.
  unfold M_Told.prepare_told. intros E. chunk E.
  destruct a as [w0|]; [|chunk E; discriminate]. set (w1 := augment_from_external_dir is_directory glob w0) in *. clearbody w1.
  cbv zeta in E. chunk E. rename E1 into F. chunk E. chunk E1. chunk E. destruct a1 as [g1 pr1]. rename E2 into G. chunk E. injection E2 as -> -> ->.
  assert (A : from_read read_file pr1).
  { assert (R0 : from_read read_file a) by (destruct (needs_project cmd pt); [apply (fill_adds _ _ _ _ _ _ _ F); intros q h []|chunk F; subst a; intros q h []]).
    assert (R1 : from_read read_file a0) by (destruct (elaborate_for cmd (fl_elaborate fl)); [apply (elaborate_adds read_file _ _ _ E1); exact R0|injection E1 as <-; exact R0]).
    destruct (wants_graph cmd && _); [|chunk G; apply pair_equal_spec in E as [_ ->]; exact R1].
    chunk G. destruct a1 as [g' pr']. chunk G. apply pair_equal_spec in E2 as [-> ->]. unfold graph_told in E. chunk E. chunk E2. chunk E. destruct a2 as [[[g2 pr2] mi] todo]. chunk E. apply pair_equal_spec in E4 as [-> ->].
    apply (rounds_adds _ _ _ _ _ _ _ _ _ _ _ _ _ _ E3). exact R1. }
  intros p f I. destruct (A p f I) as [R _]. exact (Plain _ _ R).
Qed.
Lemma work_about read fl v pt w pr cmd l : work_said read v texts fl pt w pr cmd l -> filter about_syntax l = [] /\ filter about_refusal l = [].
Proof.
  assert (M : forall log, filter about_syntax (map NTool log) = [] /\ filter about_refusal (map NTool log) = []) by (induction log as [|x log [IH1 IH2]]; cbn; auto).
  destruct 1; auto.
Qed.
Theorem run_said fl args out st notes : run_cli_told fl args = Some (Ret (out, st, notes)) ->
  refused texts args notes st /\ out = [] \/
  exists cmd pt r l1 l2, asked args cmd pt /\ notes = l1 ++ l2 /\ reading_said is_directory can_read glob read_file glob_in collect verbose fl cmd pt r l1 /\
    match r with
    | None => l2 = [] /\ out = [] /\ st = ExitFailure
    | Some (w, pr, g) => work_said read_file verbose texts fl pt w pr cmd l2 /\ perform read_file compilation_flags fl cmd pt w pr g = Ret (out, st) /\
        exists syntax, syntax_notes pr syntax /\ Permutation (filter about_syntax notes) syntax
    end.
Proof.
  intros E. apply asked_or_refused in E as [E|(cmd & pt & A & E)]; [left; exact E|]. right. unfold M_Told.run_command_told in E. chunk E.
  exists cmd, pt, a, l, l0. split; [exact A|]. split; [exact Q|]. assert (Rd := prepare_said _ _ _ _ _ _ _ Plain _ _ _ _ _ E0). split; [exact Rd|].
  destruct a as [[[w pr] g]|]; [|chunk E; apply pair_equal_spec in E1 as [-> ->]; auto].
  assert (W := E). apply perform_said in W; [|exact (prepare_read _ _ _ _ _ _ _ E0)]. split; [exact W|]. split; [exact (perform_same _ _ _ _ _ _ _ _ _ _ _ _ _ E)|].
  destruct (prepare_syntax _ _ _ _ _ _ _ Plain _ _ _ _ _ _ _ E0) as (sy & S & P). exists sy. split; [exact S|]. rewrite Q, filter_app. destruct (work_about _ _ _ _ _ _ _ _ W) as [-> _]. now rewrite app_nil_r.
Qed.
End Run.
