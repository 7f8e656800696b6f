(** What is counted by the tools, and in a run. *)
From Coq Require Import Lia Permutation.
From Verif Require Import Base OMap M_Types M_Scanner M_Ast M_Parser M_Query M_Elab M_Workspace M_Project P_Project M_DepGraph S_DepGraph P_DepGraph M_Printer M_Table M_Headers
  S_Query S_Headers M_Dwyu S_Dwyu P_Dwyu M_Edits M_Highlight M_Commands S_Commands P_Commands M_Main M_Told S_Told P_Told P_Told2 P_Told3 P_Told6 M_Stats S_Stats P_Stats P_Stats2.

(** * Tools *)
Lemma ret_inj {A} (a b : A) : Ret a = Ret b -> a = b.
Proof. now intros [= ->]. Qed.
Definition of_pattern (pt : pattern) (f : parsed_file) (r : result) : bool :=
  match qualified_target (pf_package f) (v_text (q_name r)) with Some t => match_target pt t | None => false end.
Lemma canon_rules_counts pt f rs : forall n, canon_rules_counted pt (pf_package f) rs = Ret n ->
  n = list_sum (map (fun r => length (entries (list_of (q_deps r)))) (filter (of_pattern pt f) rs)).
Proof.
  unfold of_pattern. induction rs as [|r rs IH]; intros n E; cbn [canon_rules_counted filter] in *; [injection E as <-; reflexivity|].
  destruct (qualified_target _ _) as [t|]; [|auto]. destruct (match_target pt t); [|auto]. destruct (extract_string_list (q_deps r)) as [deps| |] eqn:D; try discriminate. cbn [bind] in E.
  destruct (canon_rules_counted _ _ rs) as [m| |]; try discriminate. cbn [bind] in E. injection E as <-. apply extract_entries in D as ->. cbn [map]. rewrite (IH _ eq_refl). reflexivity.
Qed.
Lemma canon_files_counts pt files : forall n, canon_files_counted pt files = Ret n ->
  exists rules, matching [] pt files rules /\ n = list_sum (map (fun e => length (entries (list_of (q_deps (snd e))))) rules).
Proof.
  induction files as [|[p f] files IH]; intros n E; cbn [canon_files_counted] in E.
  - injection E as <-. exists []. split; [constructor|reflexivity].
  - destruct (match_package pt (pf_package f)) eqn:M.
    + destruct (find_targets [] (pf_ast f)) as [rs| |] eqn:F; try discriminate. cbn [bind] in E. destruct (canon_rules_counted _ _ rs) as [a| |] eqn:R; try discriminate. cbn [bind] in E.
      destruct (canon_files_counted pt files) as [b| |]; try discriminate. cbn [bind] in E. injection E as <-. destruct (IH _ eq_refl) as (rules & Ma & ->). apply canon_rules_counts in R as ->.
      exists (map (fun r => (f, r)) (filter (of_pattern pt f) rs) ++ rules). split; [exact (mt_file _ _ p f files rs rules M F Ma)|]. rewrite map_app, list_sum_app, map_map. reflexivity.
    + destruct (IH _ E) as (rules & Ma & ->). exists rules. split; [now apply mt_skip|reflexivity].
Qed.
Section Dwyu.
Variable w : workspace.
Variable read_file : str -> option str.
Lemma read_sources_opened p todo : opened_sources w read_file p todo (read_sources w read_file p todo).
Proof.
  induction todo as [|src todo IH]; cbn [read_sources]; [constructor|]. destruct (try_open read_file (fully_qualified_file w p src)) as [c|] eqn:T.
  - apply os_open; [now apply try_open_spec|exact IH].
  - apply os_skip; [|exact IH]. intros c H. apply try_open_spec in H. congruence.
Qed.
(** Work on sources with the given texts, of some rules. *)
Record grepped (k : str) (rules : nat) (contents : list str) (ws : list work) : Prop := mkGrepped {
  gr_head : headed k ($"sources") ws;
  gr_total : total k ws = length contents;
  gr_bytes : list_sum (amounts k ws) = list_sum (map (@length ascii) contents);
  gr_each : length (amounts k ws) = rules;
  gr_none : rules = 0 <-> about k ws = [] }.
Lemma grepped_app k n m a b ws ws' : grepped k n a ws -> grepped k m b ws' -> grepped k (n + m) (a ++ b) (ws ++ ws').
Proof.
  intros [A1 A2 A3 A4 A5] [B1 B2 B3 B4 B5]. constructor.
  - now apply headed_app.
  - rewrite total_app, app_length. lia.
  - rewrite amounts_app, map_app, list_sum_app, A3, B3. symmetry. apply list_sum_app.
  - rewrite amounts_app, app_length. lia.
  - rewrite about_app. destruct A5 as [A5 A5'], B5 as [B5 B5']. split.
    + intros H. rewrite A5, B5 by lia. reflexivity.
    + intros H. apply app_eq_nil in H as [H H']. rewrite (A5' H), (B5' H'). reflexivity.
Qed.
Lemma grepped_shows k n contents ws : grepped k n contents ws ->
  match n with 0 => unmentioned ws k | S _ => shows ws k ($"sources") (length contents) (Some (list_sum (map (@length ascii) contents))) end.
Proof.
  intros [A1 A2 A3 A4 [A5 A5']]. destruct n as [|n].
  - apply none_unmentioned, A5. reflexivity.
  - assert (X := headed_shows _ _ _ A1). rewrite A2 in X. destruct (amounts k ws) as [|x l] eqn:E; [discriminate|]. rewrite A3 in X. apply X. intros H. specialize (A5' H). discriminate.
Qed.
Lemma sources_counts p srcs : let ws := sources_counted w read_file p srcs in
  grepped k_source 1 (read_sources w read_file p srcs) ws /\ grepped k_grep 1 (read_sources w read_file p srcs) ws /\ only [k_source; k_grep] ws.
Proof.
  cbv zeta. unfold sources_counted. set (contents := read_sources w read_file p srcs). clearbody contents. set (size := list_sum (map (@length ascii) contents)).
  assert (Ab : forall k, about k (flat_map (fun _ : str => [WCount k_source 1; WCount k_grep 1]) contents) = flat_map (fun _ => about k [WCount k_source 1; WCount k_grep 1]) contents).
  { intros k. induction contents as [|c l IH]; [reflexivity|]. cbn [flat_map]. rewrite about_app, IH. reflexivity. }
  assert (Co : forall (k : str) l, list_sum (counts (flat_map (fun _ : str => [WCount k 1]) l)) = length l).
  { intros k l. induction l as [|c l IH]; [reflexivity|]. cbn [flat_map app counts]. unfold counts in *. cbn [flat_map app]. unfold list_sum in *. cbn [fold_right length]. now rewrite IH. }
  assert (Si : forall (k : str) l, sizes (flat_map (fun _ : str => [WCount k 1]) l) = []).
  { intros k l. induction l as [|c l IH]; [reflexivity|]. exact IH. }
  assert (Ns : forall (k : str) l j n, ~ In (WSet j n) (flat_map (fun _ : str => [WCount k 1]) l)).
  { intros k l j n I. apply in_flat_map in I as (x & _ & [I|[]]). discriminate. }
  split; [|split].
  - assert (E : about k_source ([WUse k_source ($"sources"); WUse k_grep ($"sources")] ++ flat_map (fun _ => [WCount k_source 1; WCount k_grep 1]) contents ++ [WBytes k_source size; WBytes k_grep size])
      = WUse k_source ($"sources") :: flat_map (fun _ => [WCount k_source 1]) contents ++ [WBytes k_source size]).
    { rewrite !about_app, Ab. reflexivity. }
    constructor; unfold total, amounts, headed; rewrite E.
    + split; [|right; eexists; reflexivity]. intros j n [I|I]; [discriminate|]. apply in_app_or in I as [I|[I|[]]]; [eapply Ns; exact I|discriminate].
    + unfold counts. cbn [flat_map app]. rewrite flat_map_app. cbn [flat_map app]. rewrite app_nil_r. apply Co.
    + unfold sizes. cbn [flat_map app]. rewrite flat_map_app. fold (sizes (flat_map (fun _ => [WCount k_source 1]) contents)). rewrite Si. cbn. unfold size, list_sum. lia.
    + unfold sizes. cbn [flat_map app]. rewrite flat_map_app. fold (sizes (flat_map (fun _ => [WCount k_source 1]) contents)). rewrite Si. reflexivity.
    + split; discriminate.
  - assert (E : about k_grep ([WUse k_source ($"sources"); WUse k_grep ($"sources")] ++ flat_map (fun _ => [WCount k_source 1; WCount k_grep 1]) contents ++ [WBytes k_source size; WBytes k_grep size])
      = WUse k_grep ($"sources") :: flat_map (fun _ => [WCount k_grep 1]) contents ++ [WBytes k_grep size]).
    { rewrite !about_app, Ab. reflexivity. }
    constructor; unfold total, amounts, headed; rewrite E.
    + split; [|right; eexists; reflexivity]. intros j n [I|I]; [discriminate|]. apply in_app_or in I as [I|[I|[]]]; [eapply Ns; exact I|discriminate].
    + unfold counts. cbn [flat_map app]. rewrite flat_map_app. cbn [flat_map app]. rewrite app_nil_r. apply Co.
    + unfold sizes. cbn [flat_map app]. rewrite flat_map_app. fold (sizes (flat_map (fun _ => [WCount k_grep 1]) contents)). rewrite Si. cbn. unfold size, list_sum. lia.
    + unfold sizes. cbn [flat_map app]. rewrite flat_map_app. fold (sizes (flat_map (fun _ => [WCount k_grep 1]) contents)). rewrite Si. reflexivity.
    + split; discriminate.
  - apply only_app; [own|]. apply only_app; [|own]. apply Forall_forall. intros x I. apply in_flat_map in I as (c & _ & [<-|[<-|[]]]); (split; [cbn [In key]; auto|reflexivity]).
Qed.
Definition checked (rules : list (parsed_file * result)) (contents : list str) (ws : list work) : Prop :=
  checked_sources w read_file rules contents /\ grepped k_source (length rules) contents ws /\ grepped k_grep (length rules) contents ws /\ only [k_source; k_grep] ws.
Lemma checked_nil : checked [] [] [].
Proof.
  split; [exists []; split; [constructor|reflexivity]|]. split; [|split; [|constructor]]; (constructor; [now apply headed_none|reflexivity|reflexivity|reflexivity|split; reflexivity]).
Qed.
Lemma checked_app a b c c' ws ws' : checked a c ws -> checked b c' ws' -> checked (a ++ b) (c ++ c') (ws ++ ws').
Proof.
  intros ((ls & F & ->) & G1 & G2 & O) ((ls' & F' & ->) & G1' & G2' & O'). split; [|rewrite app_length; split; [|split]].
  - exists (ls ++ ls'). split; [now apply Forall2_app|now rewrite concat_app].
  - now apply grepped_app.
  - now apply grepped_app.
  - now apply only_app.
Qed.
Lemma dwyu_rules_counts pt f rs : forall ws, dwyu_rules_counted w read_file pt f rs = Ret ws -> exists contents, checked (map (fun r => (f, r)) (filter (of_pattern pt f) rs)) contents ws.
Proof.
  unfold of_pattern. induction rs as [|r rs IH]; intros ws E; cbn [dwyu_rules_counted filter] in *; [injection E as <-; exists []; apply checked_nil|].
  destruct (qualified_target _ _) as [t|]; [|auto]. destruct (match_target pt t); [|auto]. destruct (extract_string_list (q_srcs r)) as [srcs| |] eqn:S; try discriminate. cbn [bind] in E.
  destruct (extract_string_list (q_hdrs r)) as [hdrs| |] eqn:H; try discriminate. cbn [bind] in E. destruct (dwyu_rules_counted w read_file pt f rs) as [more| |]; try discriminate. cbn [bind] in E. apply ret_inj in E as <-.
  destruct (IH _ eq_refl) as (contents & C). apply extract_entries in S as ->. apply extract_entries in H as ->. rewrite !entries_texts. fold (sources r).
  exists (read_sources w read_file (pf_package f) (sources r) ++ contents). cbn [map]. change ((f, r) :: map (fun r0 => (f, r0)) ?l) with ([(f, r)] ++ map (fun r0 => (f, r0)) l).
  apply checked_app; [|exact C]. destruct (sources_counts (pf_package f) (sources r)) as (G1 & G2 & O). split; [|split; [exact G1|split; [exact G2|exact O]]].
  exists [read_sources w read_file (pf_package f) (sources r)]. split; [repeat constructor; apply read_sources_opened|cbn; now rewrite app_nil_r].
Qed.
Lemma dwyu_files_counts pt files : forall ws, dwyu_files_counted w read_file pt files = Ret ws ->
  exists rules contents, matching [$"cc_library"; $"cc_binary"; $"cc_test"] pt files rules /\ checked rules contents ws.
Proof.
  induction files as [|[p f] files IH]; intros ws E; cbn [dwyu_files_counted] in E.
  - injection E as <-. exists [], []. split; [constructor|apply checked_nil].
  - destruct (match_package pt (pf_package f)) eqn:M.
    + destruct (find_targets _ (pf_ast f)) as [rs| |] eqn:F; try discriminate. cbn [bind] in E. destruct (dwyu_rules_counted _ _ _ _ rs) as [a| |] eqn:R; try discriminate. cbn [bind] in E.
      destruct (dwyu_files_counted w read_file pt files) as [b| |]; try discriminate. cbn [bind] in E. injection E as <-. destruct (IH _ eq_refl) as (rules & contents & Ma & C). apply dwyu_rules_counts in R as (c & C').
      exists (map (fun r => (f, r)) (filter (of_pattern pt f) rs) ++ rules), (c ++ contents). split; [exact (mt_file _ _ p f files rs rules M F Ma)|now apply checked_app].
    + destruct (IH _ E) as (rules & contents & Ma & C). exists rules, contents. split; [now apply mt_skip|exact C].
Qed.
End Dwyu.
(** The targets in the index. *)
Lemma known_sorted files : forall m known, msorted m -> known_in files m = Ret known -> msorted known.
Proof.
  induction files as [|[p f] files IH]; intros m known Hm E; cbn [known_in] in E; [injection E as <-; exact Hm|].
  destruct (find_targets known_rules (pf_ast f)) as [rs| |]; try discriminate. cbn [bind] in E. eapply IH; [|exact E]. apply add_known_find. exact Hm.
Qed.
Lemma known_indexed pr known : known_libraries pr = Ret known -> indexed pr (length known).
Proof.
  intros E. assert (S : msorted known) by (eapply known_sorted; [|exact E]; constructor). apply known_in_spec in E as (l & D & F); [|constructor]. exists l, (keys known).
  split; [exact D|]. split; [now apply ssorted_nodup|]. split; [|unfold keys; now rewrite map_length].
  intros t. rewrite in_keys. split.
  - intros (r & R). rewrite F in R. cbn [map_find] in R. apply first_for_spec in R as (a & b & -> & _). rewrite map_app. apply in_or_app. right. now left.
  - intros I. rewrite F. cbn [map_find]. clear - I. induction l as [|[u r] l IH]; [destruct I|]. cbn [first_for]. destruct (keqb_spec t u) as [e|N]; [eauto|]. apply IH. destruct I as [I|I]; [cbn in I; congruence|exact I].
Qed.
Lemma dwyu_counts w read_file pr pt ws : dwyu_counted w read_file pr pt = Ret ws ->
  exists n ws' rules contents, ws = [WUse k_prepare ($"indexed targets"); WSet k_prepare n] ++ ws' /\ indexed pr n /\
    matching [$"cc_library"; $"cc_binary"; $"cc_test"] pt (pr_files pr) rules /\ checked w read_file rules contents ws'.
Proof.
  unfold dwyu_counted. destruct (known_libraries pr) as [known| |] eqn:K; try discriminate. cbn [bind]. destruct (dwyu_files_counted w read_file pt (pr_files pr)) as [l| |] eqn:D; try discriminate. cbn [bind].
  intros E. apply ret_inj in E as <-. apply dwyu_files_counts in D as (rules & contents & M & C). exists (length known), l, rules, contents. split; [reflexivity|]. split; [now apply known_indexed|]. auto.
Qed.
(** Counting never fails. *)
Lemma dwyu_possible w read_file ik headers known pt files r : edits_for_files w read_file ik headers known pt files = Ret r -> exists ws, dwyu_files_counted w read_file pt files = Ret ws.
Proof.
  revert r. induction files as [|[p f] files IH]; intros r E; cbn [edits_for_files dwyu_files_counted] in *; [eauto|]. destruct (match_package pt (pf_package f)); [|eauto].
  destruct (find_targets _ (pf_ast f)) as [rs| |]; try discriminate. cbn [bind] in *. destruct (edits_for_rules _ _ _ _ _ pt f rs) as [[ev n]| |] eqn:R; try discriminate. cbn [bind] in E.
  destruct (edits_for_files _ _ _ _ _ pt files) as [[ev' n']| |]; try discriminate. destruct (IH _ eq_refl) as (ws' & ->).
  assert (X : exists ws, dwyu_rules_counted w read_file pt f rs = Ret ws); [|destruct X as (ws & ->); cbn [bind]; eauto].
  clear - R. revert ev n R. induction rs as [|r rs IH]; intros ev n E; cbn [edits_for_rules dwyu_rules_counted] in *; [eauto|].
  destruct (qualified_target _ _) as [t|]; [|eauto]. destruct (match_target pt t); [|eauto]. unfold create_edits_for_target in E.
  destruct (extract_string_list (q_srcs r)) as [srcs| |]; try discriminate. cbn [bind] in *. destruct (extract_string_list (q_hdrs r)) as [hdrs| |]; try discriminate. cbn [bind] in *.
  match type of E with bind ?x _ = _ => destruct x; try discriminate end. cbn [bind] in E.
  destruct (edits_for_rules _ _ _ _ _ pt f rs) as [[ev' n']| |]; try discriminate. destruct (IH _ _ eq_refl) as (ws' & ->). cbn [bind]. eauto.
Qed.
Lemma canon_possible pt files evs : canon_files pt files = Ret evs -> exists n, canon_files_counted pt files = Ret n.
Proof.
  revert evs. induction files as [|[p f] files IH]; intros evs E; cbn [canon_files canon_files_counted] in *; [eauto|]. destruct (match_package pt (pf_package f)); [|eauto].
  destruct (find_targets _ (pf_ast f)) as [rs| |]; try discriminate. cbn [bind] in *. destruct (canon_rules pt _ rs) as [ev| |] eqn:R; try discriminate. cbn [bind] in E.
  destruct (canon_files pt files) as [ev'| |]; try discriminate. destruct (IH _ eq_refl) as (n' & ->).
  assert (X : exists n, canon_rules_counted pt (pf_package f) rs = Ret n); [|destruct X as (n & ->); cbn [bind]; eauto].
  clear - R. revert ev R. induction rs as [|r rs IH]; intros ev E; cbn [canon_rules canon_rules_counted] in *; [eauto|].
  destruct (qualified_target _ _) as [t|]; [|eauto]. destruct (match_target pt t); [|eauto]. destruct (extract_string_list (q_deps r)); try discriminate. cbn [bind] in *.
  destruct (canon_rules pt _ rs) as [ev'| |]; try discriminate. destruct (IH _ eq_refl) as (n' & ->). cbn [bind]. eauto.
Qed.

(** * The run *)
Section Run.
Variable is_directory : str -> bool.
Variable can_read : str -> bool.
Variable glob : str -> list str.
Variable read_file : str -> option str.
Variable glob_in : workspace -> package -> list str -> list str -> list str.
Variable collect : workspace -> pattern -> list str.
Variable compilation_flags : workspace -> parsed_project -> pattern -> bool -> outcome str.
Variable looked_at : workspace -> package -> list str -> list str -> nat.
Variable walked : workspace -> pattern -> nat.
Notation prepare_counted := (prepare_counted is_directory can_read glob read_file glob_in collect looked_at walked).
Notation prepare := (prepare is_directory can_read glob read_file glob_in collect).
Notation perform_counted := (perform_counted read_file compilation_flags).
Notation perform := (perform read_file compilation_flags).
Notation run_command_counted := (run_command_counted is_directory can_read glob read_file glob_in collect compilation_flags looked_at walked).
Notation run_command := (run_command is_directory can_read glob read_file glob_in collect compilation_flags).
Notation run_cli_counted := (run_cli_counted is_directory can_read glob read_file glob_in collect compilation_flags looked_at walked).
Notation run_cli := (run_cli is_directory can_read glob read_file glob_in collect compilation_flags).
Lemma prepare_bare fl cmd pt : bare (prepare_counted fl cmd pt) = prepare fl cmd pt.
Proof.
  unfold M_Stats.prepare_counted, M_Commands.prepare. rewrite bare_bind, bare_no. apply bind_ext. intros [w|]; [|reflexivity]. cbv zeta. set (w1 := augment_from_external_dir is_directory glob w). clearbody w1.
  rewrite bare_bind. replace (bare (if needs_project cmd pt then _ else _)) with
    (if needs_project cmd pt then fill_from_pattern w1 read_file (collect w1) empty_project (match cmd with CHasDependents => pattern_always | _ => pt end) else Ret empty_project)
    by (destruct (needs_project cmd pt); [symmetry; apply fill_bare|reflexivity]).
  apply bind_ext. intros pr. rewrite bare_bind. replace (bare (if elaborate_for cmd (fl_elaborate fl) then _ else _)) with (if elaborate_for cmd (fl_elaborate fl) then elaborate_project (glob_in w1) pr else Ret pr)
    by (destruct (elaborate_for cmd (fl_elaborate fl)); [symmetry; apply elab_project_bare|reflexivity]).
  apply bind_ext. intros pr1. rewrite bare_bind. destruct (wants_graph cmd && _).
  - rewrite graph_bare, !bind_bind. apply bind_ext. intros [[g pr2] left]. reflexivity.
  - reflexivity.
Qed.
Lemma perform_same fl cmd pt w pr g r l : perform_counted fl cmd pt w pr g = Ret (r, l) -> perform fl cmd pt w pr g = Ret r.
Proof.
  unfold M_Stats.perform_counted. destruct (perform fl cmd pt w pr g) as [r0| |]; try discriminate. cbn [bind]. intros E. f_equal.
  destruct cmd; try (part E; now subst).
  - destruct (dwyu_counted w read_file pr pt); try discriminate. cbn [bind] in E. part E. now subst.
  - destruct (canon_files_counted pt (pr_files pr)); try discriminate. cbn [bind] in E. part E. now subst.
Qed.
Lemma perform_possible fl cmd pt w pr g r : perform fl cmd pt w pr g = Ret r -> exists l, perform_counted fl cmd pt w pr g = Ret (r, l).
Proof.
  unfold M_Stats.perform_counted. intros E. rewrite E. cbn [bind]. destruct cmd; try (eexists; reflexivity); unfold M_Commands.perform in E.
  - unfold dependency_edits in E. destruct (header_to_lib pr true); try discriminate. cbn [bind] in E. unfold dwyu_counted. destruct (known_libraries pr); try discriminate. cbn [bind] in *.
    destruct (edits_for_files _ _ _ _ _ _ _) as [ev| |] eqn:D in E; try discriminate. destruct (dwyu_possible _ _ _ _ _ _ _ _ D) as (ws & ->). cbn [bind]. eexists. reflexivity.
  - unfold canonicalize_edits in E. destruct (canon_files pt (pr_files pr)) as [ev| |] eqn:C; try discriminate. destruct (canon_possible _ _ _ C) as (n & ->). cbn [bind]. eexists. reflexivity.
Qed.
Lemma run_command_same fl cmd pt r l : run_command_counted fl cmd pt = Ret (r, l) -> run_command fl cmd pt = Ret r.
Proof.
  unfold M_Stats.run_command_counted, M_Commands.run_command. intros E. part E. apply bare_ret in E0. rewrite prepare_bare in E0. rewrite E0. cbn [bind]. destruct a as [[[w pr] g]|].
  - eapply perform_same; exact E.
  - part E. now subst.
Qed.
Lemma run_command_possible fl cmd pt r : run_command fl cmd pt = Ret r -> exists l, run_command_counted fl cmd pt = Ret (r, l).
Proof.
  unfold M_Stats.run_command_counted, M_Commands.run_command. intros E. destruct (prepare fl cmd pt) as [st| |] eqn:P; try discriminate. cbn [bind] in E. rewrite <- prepare_bare in P. apply bare_back in P as (l & P).
  rewrite P. unfold cbind. cbn [bind]. destruct st as [[[w pr] g]|].
  - apply perform_possible in E as (l' & ->). cbn [bind]. eauto.
  - injection E as <-. cbn [note_work bind]. eauto.
Qed.
Lemma run_cli_same fl args r l : run_cli_counted fl args = Some (Ret (r, l)) -> run_cli fl args = Some (Ret r).
Proof.
  unfold M_Stats.run_cli_counted, M_Commands.run_cli. cbv zeta. destruct args as [|word args]; [intros E; injection E as <- <-; reflexivity|].
  destruct (find_command command_names word) as [cmd| |]; [|intros E; injection E as <- <-; reflexivity..].
  assert (X : forall pt, Some (if needs_pattern cmd && is_matchall pt then note_work [] ([], ExitFailure) else run_command_counted fl cmd pt) = Some (Ret (r, l)) ->
    Some (if needs_pattern cmd && is_matchall pt then Ret ([], ExitFailure) else run_command fl cmd pt) = Some (Ret r)).
  { intros pt. destruct (needs_pattern cmd && is_matchall pt); [intros E; injection E as <- <-; reflexivity|]. intros E. injection E as E. f_equal. eapply run_command_same; exact E. }
  destruct args as [|arg more]; [apply X|]. destruct (parse_pattern arg) as [pt| |]; [|intros E; injection E as <- <-; reflexivity|discriminate].
  destruct (is_nil more); [apply X|intros E; injection E as <- <-; reflexivity].
Qed.
Lemma run_cli_possible fl args r : run_cli fl args = Some (Ret r) -> exists l, run_cli_counted fl args = Some (Ret (r, l)).
Proof.
  unfold M_Stats.run_cli_counted, M_Commands.run_cli. cbv zeta. destruct args as [|word args]; [intros E; injection E as <-; eexists; reflexivity|].
  destruct (find_command command_names word) as [cmd| |]; [|intros E; injection E as <-; eexists; reflexivity..].
  assert (X : forall pt, Some (if needs_pattern cmd && is_matchall pt then Ret ([], ExitFailure) else run_command fl cmd pt) = Some (Ret r) ->
    exists l, Some (if needs_pattern cmd && is_matchall pt then note_work [] ([], ExitFailure) else run_command_counted fl cmd pt) = Some (Ret (r, l))).
  { intros pt. destruct (needs_pattern cmd && is_matchall pt); [intros E; injection E as <-; eexists; reflexivity|]. intros E. injection E as E. apply run_command_possible in E as (l & ->). eauto. }
  destruct args as [|arg more]; [apply X|]. destruct (parse_pattern arg) as [pt| |]; [|intros E; injection E as <-; eexists; reflexivity|discriminate].
  destruct (is_nil more); [apply X|intros E; injection E as <-; eexists; reflexivity].
Qed.
End Run.
