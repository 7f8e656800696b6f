(** That all that has to be said can be said, and the program. *)
From Coq Require Import Lia Permutation.
From Verif Require Import Base OMap M_Types M_Scanner M_Ast M_Parser M_Query S_Query P_Query M_Elab S_Elab P_Elab S_Locations P_Locations C_Locations M_Workspace M_Project P_Project M_DepGraph S_DepGraph P_DepGraph M_Headers S_Headers P_Headers M_Printer M_Table
  M_Dwyu S_Dwyu P_Dwyu M_Edits M_Highlight M_Walk S_Walk S_Run P_Run M_Commands S_Commands P_Commands M_Main S_Main P_Main M_System S_Total P_Total M_Messages S_Messages P_Messages P_Messages2 P_Messages3 P_Messages4 C_Main M_ParseErrors S_ParseErrors
  M_Told S_Told P_Told P_Told6 P_Told7.

Lemma canon_deps_defined f deps : Forall (within (pf_content f)) deps -> exists ms, canon_deps_told f deps = Ret ms.
Proof.
  induction 1 as [|d deps W _ (ms & IH)]; cbn [canon_deps_told]; [eauto|]. rewrite IH. destruct (parse_target _ _); [cbn; eauto|]. destruct (loc_in f d W) as (l & ->). cbn [bind]. eauto.
Qed.
Lemma canon_rules_defined pt f rs : readable_results rs -> (forall r v, In r rs -> In v (result_views r) -> within (pf_content f) v) -> exists ms, canon_rules_told pt f rs = Ret ms.
Proof.
  induction rs as [|r rs IH]; intros R W; cbn [canon_rules_told]; [eauto|].
  destruct IH as (ms & IH); [intros r' l I; apply R; now right|intros r' v I; apply W; now right|]. destruct (qualified_target _ _); [|eauto]. destruct (match_target _ _); [|eauto].
  destruct (deps_strings r (fun l => R r l (or_introl eq_refl))) as (vs & E). rewrite E. cbn [bind]. apply extract_entries in E.
  destruct (canon_deps_defined f vs) as (m & ->).
  - apply Forall_forall. intros v I. subst vs. apply (W r); [now left|]. apply entry_view in I. unfold result_views. rewrite !in_app_iff. auto 12.
  - cbn [bind]. rewrite IH. cbn [bind]. eauto.
Qed.
Lemma canon_defined pt files : (forall p f, In (p, f) files -> clean_file f) -> exists ms, canon_files_told pt files = Ret ms.
Proof.
  induction files as [|[p f] files IH]; intros C; cbn [canon_files_told]; [eauto|].
  destruct IH as (ms & IH); [intros q g I; apply (C q g); now right|]. rewrite IH. destruct (match_package _ _); [|eauto]. assert (Cf := C p f (or_introl eq_refl)).
  destruct (find_targets_defined [] false (pf_ast f) (clean_sound f Cf)) as (rs & F & D). unfold find_targets. rewrite F. cbn [bind].
  destruct (canon_rules_defined pt f rs D) as (m & ->); [intros r v; eapply clean_views; eauto|]. cbn [bind]. eauto.
Qed.
Lemma perform_possible read_file compilation_flags verbose texts fl cmd pt w pr g out st :
  (forall name content, read_file name = Some content -> (Z.of_nat (length content) < 2147483647)%Z) -> project_ok pr -> clean_project pr ->
  perform read_file compilation_flags fl cmd pt w pr g = Ret (out, st) ->
  exists notes, perform_told read_file compilation_flags verbose texts fl cmd pt w pr g = Ret (out, st, notes).
Proof.
  intros Sizes Ok C. unfold perform_told. destruct cmd; try (intros H; exists []; unfold silent; rewrite H; reflexivity); unfold perform; cbv zeta.
  - destruct (_ || _); [|intros H; apply ret_eq, pair_equal_spec in H as [<- <-]; unfold say; cbn [bind]; eauto]. intros H. step H as o by S. apply ret_eq, pair_equal_spec in H as [<- <-]. unfold say. cbn [bind]. eauto.
  - intros H. step H as o by S. apply ret_eq, pair_equal_spec in H as [<- <-]. unfold say. cbn [bind]. eauto.
  - intros H. unfold generated_from_genrule_told. destruct (genrules_of_files_told_defined false (pr_files pr) C []) as [[m l] E]. rewrite E. apply genrules_of_files_erase in E.
    unfold generated_from_genrule in H. rewrite E in H. cbn [bind] in H |- *. step H as o by S. apply ret_eq, pair_equal_spec in H as [<- <-]. unfold say. cbn [bind]. eauto.
  - intros H. destruct (told_defined w read_file (fl_ignore_keep fl) verbose (fl_color fl) pr pt Sizes Ok C) as [[[evs n] l] E]. rewrite E. apply told_same in E. rewrite E in H. cbn [bind] in H |- *.
    apply ret_eq, pair_equal_spec in H as [<- <-]. unfold say. cbn [bind]. eauto.
  - intros H. step H as evs by S. apply ret_eq, pair_equal_spec in H as [<- <-]. destruct (canon_defined pt (pr_files pr) C) as (l & ->). cbn [bind]. unfold say. cbn [bind]. eauto.
Qed.
Section Possible.
Variable fuel : nat.
Variable fs : file_system.
Hypothesis proper : proper_names (fs_list fs).
Hypothesis files : proper_files fs.
Hypothesis dirs : proper_workspace fs.
Hypothesis Sizes : forall name content, fs_content fs name = Some content -> (Z.of_nat (length content) < 2147483647)%Z.
Variable verbose : nat.
Variable texts : library_texts.
Notation told_in := (run_cli_told (is_dir fs) (fs_can_read fs) (fs_glob fs) (fs_content fs) (globbed_files fuel fs) (found_build_files fuel fs) (flags_output fs) verbose texts).
Lemma command_possible fl cmd pt out st :
  run_command (is_dir fs) (fs_can_read fs) (fs_glob fs) (fs_content fs) (globbed_files fuel fs) (found_build_files fuel fs) (flags_output fs) fl cmd pt = Ret (out, st) ->
  exists notes, run_command_told (is_dir fs) (fs_can_read fs) (fs_glob fs) (fs_content fs) (globbed_files fuel fs) (found_build_files fuel fs) (flags_output fs) verbose texts fl cmd pt = Ret (out, st, notes).
Proof.
  unfold run_command, run_command_told. destruct (prepare_ends fuel fs proper files dirs fl cmd pt) as (r & E & H). rewrite E. cbn [bind]. intros P.
  rewrite <- (prepare_plain _ _ _ _ _ _ verbose) in E. apply plain_back in E as (l & E). unfold tbind. rewrite E. cbn [bind].
  destruct r as [[[w pr] g]|]; [|apply ret_eq, pair_equal_spec in P as [<- <-]; unfold say; cbn [bind]; eauto].
  destruct (H w pr g eq_refl) as [W A].
  assert (Am : all_from_disk fs w maybe_evaluated pr).
  { destruct A as [OK A]. split; [exact OK|]. intros p f If. eapply from_disk_impl; [|exact (A p f If)]. intros s a. destruct (elaborate_for _ _); [right; auto|auto]. }
  destruct (perform_possible _ _ verbose texts _ _ _ _ _ _ _ _ Sizes (proj1 Am) (all_clean fs w pr Am) P) as (notes & ->). cbn [bind]. eauto.
Qed.
Theorem run_possible fl args out st : run_in fuel fs fl args = Some (Ret (out, st)) -> exists notes, told_in fl args = Some (Ret (out, st, notes)).
Proof.
  unfold run_in, run_cli, run_cli_told. cbv zeta. destruct args as [|word args]; [intros H; apply some_same, ret_eq, pair_equal_spec in H as [<- <-]; unfold say; cbn [bind]; eauto|].
  destruct (find_command command_names word) as [cmd| |]; [|intros H; apply some_same, ret_eq, pair_equal_spec in H as [<- <-]; unfold say; cbn [bind]; eauto..].
  assert (K : forall pt, Some (if needs_pattern cmd && is_matchall pt then Ret ([], ExitFailure) else
       run_command (is_dir fs) (fs_can_read fs) (fs_glob fs) (fs_content fs) (globbed_files fuel fs) (found_build_files fuel fs) (flags_output fs) fl cmd pt) = Some (Ret (out, st)) ->
     exists notes, Some (if needs_pattern cmd && is_matchall pt then say [NUsage ($"Please provide a bazel pattern for this command." ++ [NL] ++ $"Examples: //... or //foo/bar:baz" ++ [NL])] ([], ExitFailure) else
       run_command_told (is_dir fs) (fs_can_read fs) (fs_glob fs) (fs_content fs) (globbed_files fuel fs) (found_build_files fuel fs) (flags_output fs) verbose texts fl cmd pt) = Some (Ret (out, st, notes))).
  { intros pt. destruct (_ && _); intros H; apply some_same in H; [apply ret_eq, pair_equal_spec in H as [<- <-]; unfold say; cbn [bind]; eauto|]. apply command_possible in H as (notes & ->). eauto. }
  destruct args as [|arg more]; [apply K|]. destruct (parse_pattern arg) as [pt| |]; [|intros H; apply some_same, ret_eq, pair_equal_spec in H as [<- <-]; unfold say; cbn [bind]; eauto|discriminate].
  destruct more as [|x more]; [apply K|]. intros H; apply some_same, ret_eq, pair_equal_spec in H as [<- <-]; unfold say; cbn [bind]; eauto.
Qed.
End Possible.

(** * The program *)
Section Program.
Variable change_dir : list str -> str -> bool.
Variable open_output : list str -> str -> bool.
Variable version_page usage_page : str.
Notation options_told := (options_told change_dir open_output version_page usage_page).
Notation handle_options := (handle_options change_dir open_output).
Notation stops := (stops change_dir open_output version_page usage_page).
Definition directories (evs : list opt_event) : list str := map argument_of (arguments "C" evs).
Lemma ceqb_not c x (l : str) : ~ In c l -> In x l -> ceqb c x = false.
Proof. intros N I. destruct (ceqb_spec c x) as [->|]; [contradiction|reflexivity]. Qed.
Lemma option_said st ev n : handle_option change_dir open_output st ev = Ret n ->
  match n with
  | Continue st' => option_told change_dir open_output version_page usage_page st ev = renamed_notes [ev] /\ s_dirs st' = s_dirs st ++ directories [ev]
  | Return code => exists m, option_told change_dir open_output version_page usage_page st ev = [m] /\ stops (s_dirs st) ev code m
  end.
Proof.
  destruct ev as [c a|]; [|destruct st as [v p oe e k d f re i q dirs out]; cbn [handle_option]; intros [= <-]; cbn [option_told s_dirs]; exists (NPage (version_page ++ usage_page)); split; [unfold usage_told; cbn [is_nil]; now rewrite app_nil_r|apply st_bad]].
  assert (Go : forall st', Ret (Continue st') = Ret n -> s_dirs st' = s_dirs st ++ directories [Opt c a] -> option_told change_dir open_output version_page usage_page st (Opt c a) = renamed_notes [Opt c a] ->
    match n with Continue st' => option_told change_dir open_output version_page usage_page st (Opt c a) = renamed_notes [Opt c a] /\ s_dirs st' = s_dirs st ++ directories [Opt c a]
    | Return code => exists m, option_told change_dir open_output version_page usage_page st (Opt c a) = [m] /\ stops (s_dirs st) (Opt c a) code m end).
  { intros st' [= <-]. auto. }
  assert (Stop : forall code m, Ret (Return code) = Ret n -> option_told change_dir open_output version_page usage_page st (Opt c a) = [m] -> stops (s_dirs st) (Opt c a) code m ->
    match n with Continue st' => option_told change_dir open_output version_page usage_page st (Opt c a) = renamed_notes [Opt c a] /\ s_dirs st' = s_dirs st ++ directories [Opt c a]
    | Return code => exists m, option_told change_dir open_output version_page usage_page st (Opt c a) = [m] /\ stops (s_dirs st) (Opt c a) code m end).
  { intros code m [= <-]. eauto. }
  destruct st as [v p oe e k d f re i q dirs out]. cbn [s_dirs] in Go, Stop |- *.
  assert (Z : dirs = dirs ++ []) by (symmetry; apply app_nil_r).
  destruct (in_dec ascii_dec c ($"CqorkgipEbefvV")) as [I|N].
  - repeat destruct I as [<-|I]; [..|destruct I].
    + cbn [option_told s_dirs] in Go, Stop. fold (argument_of a) in Go, Stop. change (handle_option change_dir open_output (mkSettings v p oe e k d f re i q dirs out) (Opt "C" a)) with
        (Ret (if change_dir dirs (argument_of a) then Continue (mkSettings v p oe e k d f re i q (dirs ++ [argument_of a]) out) else Return 1)).
      cbn [option_told s_dirs]. fold (argument_of a). change (ceqb "C" "C") with true in *. cbv iota in *. destruct (change_dir dirs (argument_of a)) eqn:C; intros H.
      * apply (Go _ H); reflexivity.
      * apply (Stop _ _ H eq_refl). now apply st_directory.
    + intros H. apply (Go _ H); [exact Z|reflexivity].
    + change (handle_option change_dir open_output (mkSettings v p oe e k d f re i q dirs out) (Opt "o" a)) with
        (Ret (if str_eqb (argument_of a) ($"-") then Continue (mkSettings v p oe e k d f re i q dirs None)
             else if open_output dirs (argument_of a) then Continue (mkSettings v p oe e k d f re i q dirs (Some (argument_of a))) else Return 1)).
      change (option_told change_dir open_output version_page usage_page (mkSettings v p oe e k d f re i q dirs out) (Opt "o" a)) with
        (if str_eqb (argument_of a) ($"-") || open_output dirs (argument_of a) then [] else [NOption ($"Could not open '" ++ argument_of a ++ $"'" ++ [NL])]) in *.
      destruct (str_eqb_spec (argument_of a) ($"-")) as [E|E]; [intros H; apply (Go _ H); [exact Z|reflexivity]|]. cbn [orb] in *.
      destruct (open_output dirs (argument_of a)) eqn:O; intros H.
      * apply (Go _ H); [exact Z|reflexivity].
      * apply (Stop _ _ H eq_refl). now apply st_output.
    + change (handle_option change_dir open_output (mkSettings v p oe e k d f re i q dirs out) (Opt "r" a)) with
        (do d <- (match a with Some a => atoi a | None => Ret INT_MAX end); Ret (Continue (mkSettings v p oe e k d f re i q dirs out))).
      destruct (match a with Some a => atoi a | None => Ret INT_MAX end) as [d'| |]; cbn [bind]; intros H; [|discriminate..]. apply (Go _ H); [exact Z|reflexivity].
    + intros H. apply (Go _ H); [exact Z|reflexivity].
    + intros H. apply (Go _ H); [exact Z|reflexivity].
    + intros H. apply (Go _ H); [exact Z|reflexivity].
    + intros H. apply (Go _ H); [exact Z|reflexivity].
    + intros H. apply (Go _ H); [exact Z|reflexivity].
    + intros H. apply (Go _ H); [exact Z|reflexivity].
    + intros H. apply (Go _ H); [exact Z|reflexivity].
    + change (handle_option change_dir open_output (mkSettings v p oe e k d f re i q dirs out) (Opt "f" a)) with
        (Ret (match find_format (argument_of a) with Some f => Continue (mkSettings v p oe e k d f re i q dirs out) | None => Return 1 end)).
      change (option_told change_dir open_output version_page usage_page (mkSettings v p oe e k d f re i q dirs out) (Opt "f" a)) with
        (match find_format (argument_of a) with Some _ => [] | None => usage_told version_page usage_page ($"invalid -f format") end) in *.
      destruct (find_format (argument_of a)) as [g|] eqn:F; intros H.
      * apply (Go _ H); [exact Z|reflexivity].
      * apply (Stop _ _ H eq_refl). apply st_format. intros g G. apply format_find in G as (g' & G & _). rewrite F in G. discriminate.
    + intros H. apply (Go _ H); [exact Z|reflexivity].
    + intros H. apply (Stop _ _ H eq_refl). apply st_version.
  - assert (X : forall x, In x ($"CqorkgipEbefvV") -> ceqb c x = false) by (intros x; now apply ceqb_not).
    cbn [handle_option]. rewrite !X by (cbn; auto 20). cbn [orb]. intros H. apply (Stop _ (NPage (version_page ++ usage_page)) H).
    + cbn [option_told]. rewrite !X by (cbn; auto 20).
      assert (Ex : existsb (ceqb c) ($"qrkgipEev") = false). { apply not_true_iff_false. intros Ex. apply existsb_exists in Ex as (x & Ix & E). rewrite X in E; [discriminate|]. cbn in Ix |- *. intuition (subst; auto 20). }
      rewrite Ex. unfold usage_told. cbn [is_nil]. now rewrite app_nil_r.
    + now apply st_help.
Qed.
Lemma arguments_app c l l' : arguments c (l ++ l') = arguments c l ++ arguments c l'.
Proof. unfold arguments. apply flat_map_app. Qed.
Lemma options_said evs : forall st n l, options_told st evs = Ret (n, l) -> handle_options st evs = Ret n /\
  match n with
  | Continue st' => l = renamed_notes evs /\ s_dirs st' = s_dirs st ++ directories evs
  | Return code => exists before ev after m, evs = before ++ ev :: after /\ l = renamed_notes before ++ [m] /\ stops (s_dirs st ++ directories before) ev code m
  end.
Proof.
  induction evs as [|ev evs IH]; intros st n l; cbn [M_Told.options_told M_Main.handle_options].
  - unfold say. intros H. apply ret_eq, pair_equal_spec in H as [<- <-]. split; [reflexivity|]. split; [reflexivity|]. symmetry. apply app_nil_r.
  - destruct (handle_option change_dir open_output st ev) as [n1| |] eqn:E; cbn [bind]; [|discriminate..]. apply option_said in E. unfold tbind, say. cbn [bind]. destruct n1 as [st1|code].
    + destruct E as [E D]. destruct (options_told st1 evs) as [[n2 l2]| |] eqn:R; cbn [bind]; intros H; [|discriminate..]. apply ret_eq, pair_equal_spec in H as [<- <-]. apply IH in R as [R K]. split; [exact R|].
      rewrite E. destruct n2 as [st'|code].
      * destruct K as [-> K]. unfold renamed_notes, directories in *. rewrite K, D. change (ev :: evs) with ([ev] ++ evs). rewrite !arguments_app, !map_app, <- app_assoc. auto.
      * destruct K as (b & ev' & a & m & -> & -> & K). exists (ev :: b), ev', a, m. apply conj; [reflexivity|]. unfold renamed_notes, directories in *.
        change (ev :: b) with ([ev] ++ b). rewrite !arguments_app, !map_app, <- app_assoc. rewrite D, <- app_assoc in K. auto.
    + destruct E as (m & E & S). cbn [bind]. intros H. apply ret_eq, pair_equal_spec in H as [<- <-]. split; [reflexivity|]. exists [], ev, evs, m. apply conj; [reflexivity|].
      rewrite E. cbn. apply conj; [reflexivity|]. rewrite app_nil_r. exact S.
Qed.
Variable seen_from : list str -> surroundings.
Variable is_terminal : bool.
Variable compile : str -> option finder_fn.
Variable texts : library_texts.
Lemma quiet_said evs st l : meaning evs st -> heard (s_quiet st) l = quieted evs l.
Proof.
  intros M. unfold heard, quieted. assert (Q : s_quiet st = given "q" evs) by apply M. rewrite Q. destruct (given "q" evs); [|reflexivity].
  apply filter_ext. intros []; reflexivity.
Qed.
Theorem main_said args dest out code notes :
  main_told change_dir open_output version_page usage_page seen_from is_terminal compile texts args = Some (Ret (dest, out, code, notes)) ->
  main change_dir open_output seen_from is_terminal compile args = Some (Ret (dest, out, code)) /\
  ((dest = None /\ out = [] /\ exists before ev after words m, getopt args = (before ++ ev :: after, words) /\ stops (directories before) ev code m /\ notes = renamed_notes before ++ [m]) \/
   exists evs words st status l, command_line args evs words /\ all_acceptable change_dir open_output evs /\ meaning evs st /\ dest = s_output st /\ code = exit_code status /\
    (let s := seen_from (s_dirs st) in
     run_cli_told (sur_is_directory s) (sur_can_read s) (sur_glob s) (sur_read_file s) (sur_glob_in s) (sur_collect s) (sur_flags s) (s_verbose st) texts (flags_of is_terminal compile st) words
      = Some (Ret (out, status, l))) /\
    notes = renamed_notes evs ++ match status with ExitClarification => quieted evs (l ++ [NUsage [NL; NL]]) ++ [NPage (version_page ++ usage_page)] | _ => quieted evs l end).
Proof.
  unfold main_told, main, read_command_line. destruct (getopt args) as [evs words] eqn:G. intros H.
  destruct (options_told default_settings evs) as [[[st|c] l]| |] eqn:O; [| |discriminate..]; apply options_said in O as [O K]; rewrite O; cbn [bind].
  - destruct K as [-> D]. assert (R : read_command_line change_dir open_output args = Ret (Continue st, words)) by (unfold read_command_line; rewrite G, O; reflexivity).
    apply C69_reading in R as (evs' & C & A & M). assert (E := command_line_getopt _ _ _ C). rewrite G in E. injection E as <-.
    destruct (run_cli_told _ _ _ _ _ _ _ _ _ _ words) as [[[[out' status] l]| |]|] eqn:R in H; [|discriminate..]. cbn [bind] in H.
    apply some_same, ret_eq, pair_equal_spec in H as [H N]. apply pair_equal_spec in H as [H <-]. apply pair_equal_spec in H as [<- <-].
    split; [rewrite (run_same _ _ _ _ _ _ _ _ _ _ _ _ _ _ R); reflexivity|]. right. exists evs, words, st, status, l. do 5 (apply conj; [auto|]). apply conj; [exact R|].
    rewrite <- N, (quiet_said _ _ _ M). destruct status; rewrite ?app_nil_r; try reflexivity. unfold usage_told. cbn [is_nil]. rewrite app_nil_r. reflexivity.
  - destruct K as (b & ev & a & m & -> & -> & K). apply some_same, ret_eq, pair_equal_spec in H as [H <-]. apply pair_equal_spec in H as [H <-]. apply pair_equal_spec in H as [<- <-].
    split; [reflexivity|]. left. do 2 (apply conj; [reflexivity|]). exists b, ev, a, words, m. auto.
Qed.
End Program.
