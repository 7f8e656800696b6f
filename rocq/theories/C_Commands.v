(** Properties C49, C64, C65, C67, C68 and C70: the commands. *)
From Verif Require Import Base OMap M_Types M_Scanner S_Scanner P_Scanner M_Ast M_Parser S_Parser P_Parser M_Query S_Query P_Query M_Elab S_Elab P_Elab M_Workspace S_Workspace P_Workspace M_Project
  M_DepGraph S_DepGraph P_DepGraph M_Headers S_Headers P_Headers M_Dwyu M_Edits M_Table S_Table P_Table C_Table S_Locations P_Locations C_Locations
  M_Commands S_Commands P_Commands S_Run P_Run T_Parser C_DepGraph.
Local Open Scope string_scope.
Local Open Scope list_scope.

(** * C49: the command a word stands for *)
Theorem C49_lookup : forall word,
  find_command command_names word = match abbreviated command_names word with [] => Unknown | [c] => Found c | _ => Ambiguous end.
Proof. intros word. apply find_command_spec. repeat constructor. Qed.
Print Assumptions C49_lookup.
(** No name is an abbreviation of another one. *)
Theorem C49_names : forall name c, In (name, c) command_names -> find_command command_names name = Found c.
Proof. intros name c H. repeat (destruct H as [H|H]; [injection H as <- <-; vm_compute; reflexivity|]). destruct H. Qed.
Print Assumptions C49_names.
Example C49_case : find_command command_names ($"dw") = Found CDwyu /\ find_command command_names ($"list-") = Ambiguous /\
  find_command command_names ($"") = Ambiguous /\ find_command command_names ($"printer") = Unknown /\ find_command command_names ($"pr") = Found CPrint.
Proof. vm_compute. auto. Qed.

(** * C64: the external projects a pattern needs *)
Definition repo_cells (e : vproject * str) : list str :=
  [fst (fst e); match snd (fst e) with [] => $"-" | v => v end; snd e].
Lemma repo_rows l : flat_map (fun op => entry_rows (entry_of op)) (map repo_row l) = map repo_cells l.
Proof. induction l as [|[[n v] d] l IH]; [reflexivity|]. cbn [map flat_map]. rewrite IH. destruct v; reflexivity. Qed.
Lemma repo_columns (l : workspace) op : In op (map repo_row l) -> entry_columns (entry_of op) <> 0.
Proof. intros I. apply in_map_iff in I as (e & <- & _). discriminate. Qed.
Theorem C64_needed : forall w pr pt out, msorted w -> is_matchall pt = false -> print_workspace FmtCsv w pr pt = Ret out ->
  exists sub, msorted sub /\
    (forall vp d, In (vp, d) sub <-> exists proj, uses_project pr pt proj /\ first_version w (bare proj) vp d) /\
    read_csv out = Some ([$"project"; $"version"; $"directory"] :: map repo_cells sub).
Proof.
  intros w pr pt out S M E. unfold print_workspace in E. rewrite M in E.
  destruct (filtered_workspace w pr pt) as [sub| |] eqn:F; try discriminate. cbn [bind] in E.
  destruct (filtered_spec w S _ _ _ F) as [S' H]. exists sub. split; [exact S'|]. split; [exact H|].
  apply csv_table in E; [|discriminate|apply repo_columns]. rewrite E, repo_rows. reflexivity.
Qed.
Print Assumptions C64_needed.
(** Without pattern it is all of them. *)
Theorem C64_all : forall w pr out, print_workspace FmtCsv w pr pattern_always = Ret out ->
  read_csv out = Some ([$"project"; $"version"; $"directory"] :: map repo_cells w).
Proof.
  intros w pr out E. unfold print_workspace in E. cbn [is_matchall pat_kind pattern_always bind] in E.
  apply csv_table in E; [|discriminate|apply repo_columns]. rewrite E, repo_rows. reflexivity.
Qed.
Print Assumptions C64_all.
Definition needed_file : parsed_file :=
  let content := nl ["load(""@rules//:defs.bzl"", ""x"")"; "cc_library(name = ""a"", deps = [""@absl//:s"", "":b"", ""@none//x""])"; "cc_library(name = ""b"", deps = [""@gtest""])"] in
  match parse content with Ret (ast, errs) => mkFile (mkPackage [] ($"p")) ($"p/BUILD") content ast errs | _ => mkFile (mkPackage [] []) [] [] [] [] end.
Definition needed_workspace : workspace := [(($"absl", $"1"), $"e/absl1"); (($"absl", $"2"), $"e/absl2"); (($"gtest", []), $"e/gtest"); (($"rules", []), $"e/rules")].
Example C64_case : msorted needed_workspace /\
  match parse_pattern ($"//p:a") with
  | PatOk pt => is_matchall pt = false /\
      match print_workspace FmtCsv needed_workspace (mkProject [(mkPackage [] ($"p"), needed_file)] 0) pt with
      | Ret out => read_csv out = Some [[$"project"; $"version"; $"directory"]; [$"absl"; $"1"; $"e/absl1"]; [$"rules"; $"-"; $"e/rules"]]
      | _ => False end
  | _ => False end.
Proof. split; [repeat constructor|]. vm_compute. auto. Qed.

(** * C65: the list of targets *)
Theorem C65_rows : forall pt pr out, (forall p f, In (p, f) (pr_files pr) -> plain_lines (pf_content f)) ->
  print_targets FmtCsv pt pr = Ret out ->
  exists rows, target_list pt (pr_files pr) rows /\ read_csv out = Some ([$"file-location"; $"rule"; $"target"] :: rows).
Proof.
  intros pt pr out P E. unfold print_targets in E. destruct (target_rows_of pt (pr_files pr)) as [ops| |] eqn:R; try discriminate. cbn [bind] in E.
  destruct (target_rows_of_spec pt _ P _ R) as [T C]. apply csv_table in E; [|discriminate|].
  - rewrite E. eauto.
  - intros op I. rewrite (C op I). discriminate.
Qed.
Print Assumptions C65_rows.
(** It can be printed, in any format, if all files were read without errors. *)
Lemma table_defined fmt headers ops : headers <> [] -> Forall plain_header headers ->
  (forall op, In op ops -> entry_columns (entry_of op) = length headers) -> exists text, table_print fmt headers ops = Ret text.
Proof.
  intros H P C. destruct fmt.
  - destruct (C44_columns FmtNative headers ops (or_introl eq_refl) H C) as (l & -> & _). eauto.
  - destruct (C43_sexpr headers ops) as (t & -> & _). eauto.
  - destruct (C43_plist headers ops P) as (t & -> & _); [intros op I; rewrite (C op I); auto|eauto].
  - destruct (C43_json headers ops) as (t & -> & _); [intros op I; rewrite (C op I); auto|eauto].
  - destruct (C43_csv headers ops H) as (t & -> & _); [intros op I; rewrite (C op I); destruct headers; [contradiction|discriminate]|eauto].
  - destruct (C44_columns FmtGraphviz headers ops (or_intror eq_refl) H C) as (l & -> & _). eauto.
Qed.
Lemma loc_within f v : within (pf_content f) v -> exists s, loc f v = Ret s.
Proof. intros W. apply loc_defined. unfold within in W. destruct (v_org v); apply W. Qed.
Lemma target_rows_defined pt p f rs : (forall r, In r rs -> within (pf_content f) (q_name r)) ->
  exists ops, target_rows pt p f rs = Ret ops.
Proof.
  induction rs as [|r rs IH]; intros W; cbn [target_rows]; [eauto|].
  destruct IH as [ops E]; [intros r' I; apply W; right; auto|]. rewrite E. destruct (parse_target _ p) as [t|]; [|eauto]. destruct (match_target pt t); [|eauto].
  destruct (loc_within f (q_name r)) as [s Es]; [apply W; now left|rewrite Es; cbn; eauto].
Qed.
Theorem C65_possible : forall fmt pt pr,
  (forall p f, In (p, f) (pr_files pr) -> clean_file f) -> exists out, print_targets fmt pt pr = Ret out.
Proof.
  intros fmt pt pr C. unfold print_targets.
  assert (K : exists ops, target_rows_of pt (pr_files pr) = Ret ops).
  { revert C. induction (pr_files pr) as [|[p f] files IH]; intros C; cbn [target_rows_of]; [eauto|].
    pose proof (C p f (or_introl eq_refl)) as Cf.
    destruct (find_targets_defined [] false (pf_ast f) (clean_sound f Cf)) as (rs & F & _). unfold find_targets. rewrite F. cbn [bind].
    destruct (target_rows_defined pt p f rs) as [ops E].
    { intros r I. assert (H := find_targets_views (within (pf_content f)) ltac:(cbn; split; [lia|reflexivity]) [] false (pf_ast f) rs).
      assert (Fo : Forall (fun n => Forall (within (pf_content f)) (views n)) (pf_ast f)).
      { rewrite Forall_forall. intros n Hn. rewrite Forall_forall. intros x Hx. eapply clean_within; eauto. }
      specialize (H Fo F). rewrite Forall_forall in H. specialize (H r I). rewrite Forall_forall in H. apply H.
      unfold result_views. apply in_or_app. right. right. left. reflexivity. }
    rewrite E. cbn [bind]. destruct IH as [rest ->]; [intros q g I; apply (C q g); right; auto|]. cbn. eauto. }
  destruct K as [ops E]. rewrite E. cbn [bind]. apply table_defined; [discriminate| |].
  - rewrite Forall_forall. intros h [<-|[<-|[<-|[]]]] c I; cbn in I; repeat (destruct I as [<-|I]; [repeat split; discriminate|]); destruct I.
  - exact (target_rows_of_columns _ _ _ E).
Qed.
Print Assumptions C65_possible.
Definition listed_file : parsed_file :=
  let content := nl ["cc_library(name = ""a"" + ""b"")"; "cc_test("; "  name = ""long"")"; "x(name = "":no"")"; "x(name = ""1"")"] in
  match parse content with
  | Ret (stmts, errs) => match elaborate two_files stmts with
      | Ret ast => mkFile (mkPackage [] ($"p")) ($"p/BUILD") content ast errs
      | _ => mkFile (mkPackage [] []) [] [] [] [] end
  | _ => mkFile (mkPackage [] []) [] [] [] [] end.
Lemma listed_clean : clean_file listed_file /\ plain_lines (pf_content listed_file).
Proof.
  split.
  - exists (match parse (pf_content listed_file) with Ret (stmts, _) => stmts | _ => [] end).
    split; [vm_compute; reflexivity|]. split.
    + intros x _ I. vm_compute in I. exact I.
    + right. exists two_files. vm_compute. reflexivity.
  - split; [vm_compute; reflexivity|]. intros i H.
    destruct (le_lt_dec (length (pf_content listed_file)) i) as [L|L].
    { rewrite (eof_reached _ _ L) in H. discriminate. }
    assert (X : forallb (fun i => negb (match tok_type (token_at (pf_content listed_file) i) with TNotIn => true | _ => false end)) (seq 0 (length (pf_content listed_file))) = true)
      by (vm_compute; reflexivity).
    rewrite forallb_forall in X. assert (Is : In i (seq 0 (length (pf_content listed_file)))).
    { revert L. generalize (length (pf_content listed_file)). intros n L. apply in_seq. lia. }
    specialize (X i Is). cbv beta in X. rewrite H in X. discriminate X.
Qed.
Example C65_case :
  match print_targets FmtCsv pattern_always (mkProject [(mkPackage [] ($"p"), listed_file)] 0) with
  | Ret out => read_csv out = Some [[$"file-location"; $"rule"; $"target"]; [$"p/BUILD:1:23:"; $"cc_library"; $"//p:ab"];
      [$"p/BUILD:3:11-14:"; $"cc_test"; $"//p:long"]; [$"p/BUILD:5:11:"; $"x"; $"//p:1"]]
  | _ => False end.
Proof. vm_compute. reflexivity. Qed.

(** * C70: the external projects *)
(** A project root has one of the workspace files; the external projects are those declared
    in all of them, where they are extracted. *)
Theorem C70_load : forall is_directory can_read glob read_file r, load_workspace is_directory can_read glob read_file = Ret r ->
  exists decls, declarations read_file [$"WORKSPACE"; $"WORKSPACE.bazel"; $"WORKSPACE.bzlmod"; $"MODULE.bazel"] decls /\
    ((exists f, In f [$"WORKSPACE"; $"WORKSPACE.bazel"; $"WORKSPACE.bzlmod"; $"MODULE.bazel"] /\ read_file f <> None) <-> r <> None) /\
    forall w, r = Some w -> external_projects is_directory can_read glob decls w.
Proof. exact load_workspace_spec. Qed.
Print Assumptions C70_load.
Definition ws_disk (f : str) : option str :=
  if str_eqb f ($"WORKSPACE") then Some (nl ["http_archive(name = ""a"")"; "http_archive(name = ""b"", version = ""1"")"; "other(name = ""c"")"])
  else if str_eqb f ($"MODULE.bazel") then Some (nl ["bazel_dep(name = ""b"", version = ""1"", repo_name = ""bb"")"; "bazel_dep(name = ""a"", version = ""2"")"; "bazel_dep(name = ""d"")"])
  else None.
Definition ws_glob (p : str) : list str := if str_eqb p (external ($"d~*")) then [external ($"d~5"); external ($"d~6")] else [].
Definition ws_dir (d : str) : bool :=
  existsb (str_eqb d) [external ($"a"); external ($"b~1"); external ($"b"); external ($"a~override"); external ($"d~5")].
Example C70_case : load_workspace ws_dir ws_dir ws_glob ws_disk =
  Ret (Some [(($"a", []), external ($"a")); (($"a", $"2"), external ($"a")); (($"b", $"1"), external ($"b~1")); (($"bb", $"1"), external ($"b~1")); (($"d", []), external ($"d~5"))]).
Proof. vm_compute. reflexivity. Qed.
(** It always comes to an end. *)
Theorem C70_possible : forall is_directory can_read glob read_file,
  (forall f content, In f workspace_files -> read_file f = Some content -> exists stmts, parse content = Ret (stmts, [])) ->
  exists r, load_workspace is_directory can_read glob read_file = Ret r.
Proof.
  intros id cr gl rf H. unfold load_workspace.
  assert (K : forall fs x, (forall f, In f fs -> In f workspace_files) -> exists y, fold_left (load_file id cr gl rf) fs (Ret x) = Ret y).
  { induction fs as [|f fs IH]; intros [found w] I; cbn [fold_left]; [eauto|]. unfold load_file at 2. cbn [bind].
    destruct (rf f) as [content|] eqn:R.
    - destruct (H f content (I f (or_introl eq_refl)) R) as [stmts P]. rewrite P. cbn [bind].
      destruct (find_targets_defined [$"http_archive"; $"bazel_dep"] false stmts) as (rs & F & _).
      { eapply Forall_impl; [|exact (proj2 (parse_trees _ _ _ P) eq_refl)]. exact whole_statement_sound. }
      unfold find_targets. rewrite F. cbn [bind]. apply IH. intros g Ig. apply I. right; auto.
    - apply IH. intros g Ig. apply I. right; auto. }
  destruct (K workspace_files (false, []) (fun f I => I)) as [[found w] E].
  match goal with |- exists r, bind ?x _ = _ => assert (E' : x = Ret (found, w)) by exact E; rewrite E' end. cbn. eauto.
Qed.
Print Assumptions C70_possible.

(** * C67: what the tables of the commands say *)
Section Run.
Variable is_directory : str -> bool.
Variable can_read : str -> bool.
Variable glob : str -> list str.
Variable read_file : str -> option str.
Variable glob_in : workspace -> package -> list str -> list str -> list str.
Variable collect_build_files : workspace -> pattern -> list str.
Variable compilation_flags : workspace -> parsed_project -> pattern -> bool -> outcome str.
Notation run_command := (run_command is_directory can_read glob read_file glob_in collect_build_files compilation_flags).
Notation the_workspace := (the_workspace is_directory can_read glob read_file).
(** The BUILD files of a pattern are loaded. *)
Definition loaded (w : workspace) (pt : pattern) (eval : bool) (pr : parsed_project) : Prop :=
  holds_files w read_file (glob_in w) (collect_build_files w pt) (pat_project pt) eval pr.
Definition depth_of (fl : flags) : nat := Z.to_nat (fl_depth fl).
Definition shown (fl : flags) (pt : pattern) (t : target) : bool := (0 <? fl_depth fl)%Z || match_target pt t.
(** The files known after following dependencies: those there before are the same. *)
Definition followed (w : workspace) (fl : flags) (pt : pattern) (pr pr' : parsed_project) : Prop :=
  if (0 <=? fl_depth fl)%Z
  then exists g todo, build_graph w read_file can_read (glob_in w) pt (fl_depth fl) pr = Ret (g, pr', todo)
  else pr' = pr.

(** Without any workspace file nothing is printed. *)
Theorem C67_no_workspace : forall fl cmd pt out st, run_command fl cmd pt = Ret (out, st) ->
  (forall f, In f workspace_files -> read_file f = None) -> out = [] /\ st = ExitFailure.
Proof.
  intros fl cmd pt out st E N. apply run_spec in E as [(_ & A & B)|(w & pr & g & P & _)]; [auto|]. exfalso.
  unfold prepare in P. destruct (load_workspace is_directory can_read glob read_file) as [[w0|]| |] eqn:L; try discriminate.
  apply load_workspace_spec in L as (decls & _ & F & _). destruct (proj2 F) as (f & I & R); [discriminate|]. apply R. auto.
Qed.

Ltac start E w pr g P := apply run_spec in E as [(_ & _ & C)|(w & pr & g & P & E)]; [discriminate C|]; apply prepare_spec in P;
  cbn [needs_project elaborate_for wants_graph depth_for andb negb] in P; unfold perform in E; cbn [depth_for] in E.
Lemma shown_eq fl pt t : match_target (if (0 <? fl_depth fl)%Z then pattern_always else pt) t = shown fl pt t.
Proof. unfold shown. destruct (0 <? fl_depth fl)%Z; reflexivity. Qed.
Lemma filter_shown {A} fl pt (f : A -> target) l :
  filter (fun e => match_target (if (0 <? fl_depth fl)%Z then pattern_always else pt) (f e)) l = filter (fun e => shown fl pt (f e)) l.
Proof. apply filter_ext. intros a. apply shown_eq. Qed.
Lemma graph_entries w pt depth pr g pr' todo : project_ok pr -> build_graph w read_file can_read (glob_in w) pt depth pr = Ret (g, pr', todo) ->
  msorted (depends_on g) /\ msorted (has_dependents g) /\
  (forall t ds, In (t, ds) (depends_on g) <-> dependencies w read_file can_read (glob_in w) pr t ds /\
    exists j, j <= Z.to_nat depth /\ reach w read_file can_read (glob_in w) pr pt j t) /\
  forall a b, occurrences b (S_DepGraph.entry (depends_on g) a) = occurrences a (S_DepGraph.entry (has_dependents g) b).
Proof.
  intros OK B. destruct (graph_spec _ _ _ _ _ OK _ _ _ _ _ B) as (_ & [S1 S2] & Cv & K & D & _).
  split; [exact S1|]. split; [exact S2|]. split; [|exact Cv]. intros t ds. split.
  - intros I. apply msorted_find in I; auto. split; [auto|]. apply map_find_some_key in I. apply K in I as (_ & R). exact R.
  - intros ((r & R & ->) & J). assert (I : In t (keys (depends_on g))) by (apply K; split; [exists r; exact R|exact J]).
    apply in_keys in I as (ds & F). destruct (D _ _ F) as (r' & R' & ->). rewrite (rule_of_fun _ _ _ _ _ _ _ _ R' R) in F. apply map_find_in. exact F.
Qed.

(** depends-on: the targets within reach and what they depend on, in order. *)
Theorem C67_depends_on : forall fl pt out, fl_format fl = FmtCsv -> run_command fl CDependsOn pt = Ret (out, ExitSuccess) ->
  exists w pr m, the_workspace w /\ loaded w pt (fl_elaborate fl) pr /\ msorted m /\
    (forall t ds, In (t, ds) m <-> (0 <= fl_depth fl)%Z /\ dependencies w read_file can_read (glob_in w) pr t ds /\
       exists j, j <= depth_of fl /\ reach w read_file can_read (glob_in w) pr pt j t) /\
    read_csv out = Some ([$"library"; $"depends-on"] :: pair_rows (filter (fun e => shown fl pt (fst e)) m)).
Proof.
  intros fl pt out Fm E. start E w pr g P. rewrite Fm in E. destruct P as (W & pr0 & H & G). exists w, pr0, (depends_on g).
  destruct (print_one_to_n _ _ _ _ _) as [o| |] eqn:T; try discriminate. injection E as <-. apply one_to_n_rows in T. rewrite filter_shown in T.
  split; [exact W|]. split; [exact H|]. destruct (Z.leb_spec 0 (fl_depth fl)) as [L|L].
  - destruct G as (todo & B). destruct (graph_entries _ _ _ _ _ _ _ (holds_ok _ _ _ _ _ _ _ H) B) as (S1 & _ & K & _).
    split; [exact S1|]. split; [|exact T]. intros t ds. rewrite K. unfold depth_of. tauto.
  - destruct G as [-> ->]. split; [exact I|]. split; [|exact T]. intros t ds. split; [intros []|]. intros (C & _). lia.
Qed.

(** has-dependents: the converse, from all files of the project. *)
Theorem C67_has_dependents : forall fl pt out, fl_format fl = FmtCsv -> run_command fl CHasDependents pt = Ret (out, ExitSuccess) ->
  exists w pr m m', the_workspace w /\ loaded w pattern_always (fl_elaborate fl) pr /\ msorted m /\ msorted m' /\
    (forall t ds, In (t, ds) m <-> dependencies w read_file can_read (glob_in w) pr t ds /\
       exists j, ((0 < fl_depth fl)%Z -> j <= depth_of fl) /\ (j <= Z.to_nat INT_MAX \/ (0 < fl_depth fl)%Z) /\
         reach w read_file can_read (glob_in w) pr pattern_always j t) /\
    (forall d t, occurrences t (S_DepGraph.entry m' d) = occurrences d (S_DepGraph.entry m t)) /\
    read_csv out = Some ([$"library"; $"has-dependent"] :: pair_rows (filter (fun e => match_target pt (fst e)) m')).
Proof.
  intros fl pt out Fm E. start E w pr g P. rewrite Fm in E. destruct P as (W & pr0 & H & G). exists w, pr0, (depends_on g), (has_dependents g).
  destruct (print_one_to_n _ _ _ _ _) as [o| |] eqn:T; try discriminate. injection E as <-. apply one_to_n_rows in T.
  split; [exact W|]. split; [exact H|].
  assert (G' : exists depth todo, build_graph w read_file can_read (glob_in w) pattern_always depth pr0 = Ret (g, pr, todo) /\
     depth = if (fl_depth fl <=? 0)%Z then INT_MAX else fl_depth fl).
  { destruct (Z.leb_spec (fl_depth fl) 0).
    - destruct G as (todo & B). eauto.
    - destruct (Z.leb_spec 0 (fl_depth fl)); [|lia]. destruct G as (todo & B). eauto. }
  destruct G' as (depth & todo & B & Ed). destruct (graph_entries _ _ _ _ _ _ _ (holds_ok _ _ _ _ _ _ _ H) B) as (S1 & S2 & K & Cv).
  split; [exact S1|]. split; [exact S2|]. split; [|split; [intros d t; symmetry; apply Cv|exact T]].
  intros t ds. rewrite K. unfold depth_of. destruct (Z.leb_spec (fl_depth fl) 0) as [L|L]; subst depth.
  - split; intros (D & j & R); (split; [exact D|]); exists j.
    + destruct R as [R1 R2]. split; [lia|]. auto.
    + destruct R as (_ & [R1|R1] & R2); [auto|lia].
  - split; intros (D & j & R); (split; [exact D|]); exists j.
    + destruct R as [R1 R2]. auto.
    + destruct R as (R1 & _ & R2). auto.
Qed.

(** lib-headers: the headers of the libraries in the files known. *)
Theorem C67_lib_headers : forall fl pt out, fl_format fl = FmtCsv -> run_command fl CLibHeaders pt = Ret (out, ExitSuccess) ->
  exists w pr pr' rows, the_workspace w /\ loaded w pt (fl_elaborate fl) pr /\ followed w fl pt pr pr' /\
    read_csv out = Some ([$"header"; $"providing-rule"] :: rows) /\
    forall row, In row rows <-> exists p f t h, In (p, f) (pr_files pr') /\ provides pr' f t h /\ shown fl pt t = true /\ row = [h; target_to_string t].
Proof.
  intros fl pt out Fm E. start E w pr g P. rewrite Fm in E. destruct P as (W & pr0 & H & G).
  destruct (header_to_lib pr false) as [m| |] eqn:Hm; try discriminate. cbn [bind] in E.
  destruct (print_provided_set _ _ _ _) as [o| |] eqn:T; try discriminate. injection E as <-. apply provided_set_rows in T.
  eexists w, pr0, pr, _. split; [exact W|]. split; [exact H|].
  split. { unfold followed. destruct (0 <=? fl_depth fl)%Z; [destruct G as (todo & B); eauto|apply G]. }
  split; [exact T|]. assert (S := headers_sorted _ _ _ Hm). apply header_to_lib_spec in Hm as [Hm _].
  intros row. rewrite in_flat_map. split.
  - intros ([k ts] & I & It). cbn [fst snd] in It. apply in_map_iff in It as (t & <- & It). apply filter_In in It as [It M]. rewrite shown_eq in M.
    assert (X : In t (providers m k)) by (apply in_providers; eauto). apply Hm in X as (p & f & h & A & B & ->). exists p, f, t, h. auto.
  - intros (p & f & t & h & A & B & M & ->). assert (X : In t (providers m h)) by (apply Hm; exists p, f, h; auto).
    apply in_providers in X as (ts & I & It); auto. exists (h, ts). split; auto. cbn [fst snd]. apply in_map_iff. exists t. split; auto.
    apply filter_In. rewrite shown_eq. auto.
Qed.

(** genrule-outputs: the files generated in the files known. *)
Theorem C67_genrule_outputs : forall fl pt out, fl_format fl = FmtCsv -> run_command fl CGenruleOutputs pt = Ret (out, ExitSuccess) ->
  exists w pr pr' rss rows, the_workspace w /\ loaded w pt (fl_elaborate fl) pr /\ followed w fl pt pr pr' /\
    Forall2 (fun pf rs => find_targets [$"genrule"] (pf_ast (snd pf)) = Ret rs) (pr_files pr') rss /\
    read_csv out = Some ([$"generated-file"; $"providing-rule"] :: rows) /\
    forall row, In row rows <-> exists f t, shown fl pt t = true /\ row = [f; target_to_string t] /\
      first_with (flat_map (fun x => flat_map (outputs false (snd (fst x))) (snd x)) (combine (pr_files pr') rss)) f t.
Proof.
  intros fl pt out Fm E. start E w pr g P. rewrite Fm in E. destruct P as (W & pr0 & H & G).
  destruct (generated_from_genrule pr false) as [m| |] eqn:Hm; try discriminate. cbn [bind] in E.
  destruct (print_provided _ _ _ _) as [o| |] eqn:T; try discriminate. injection E as <-. apply provided_rows in T.
  assert (S := generated_sorted _ _ _ Hm). apply generated_spec in Hm as (rss & F2 & Hm).
  eexists w, pr0, pr, rss, _. split; [exact W|]. split; [exact H|].
  split. { unfold followed. destruct (0 <=? fl_depth fl)%Z; [destruct G as (todo & B); eauto|apply G]. }
  split; [exact F2|]. split; [exact T|]. intros row. rewrite in_map_iff. split.
  - intros ([k t] & <- & I). apply filter_In in I as [I M]. cbn [fst snd] in *. rewrite shown_eq in M. exists k, t.
    split; auto. split; auto. apply Hm. apply msorted_find; auto.
  - intros (k & t & M & -> & F). exists (k, t). split; auto. apply filter_In. cbn [snd]. rewrite shown_eq. split; auto. apply map_find_in. apply Hm. exact F.
Qed.

(** aliased-by: the aliases declared in the files of the pattern. *)
Theorem C67_aliased_by : forall fl pt out, fl_format fl = FmtCsv -> run_command fl CAliasedBy pt = Ret (out, ExitSuccess) ->
  exists w pr rss m, the_workspace w /\ loaded w pt (fl_elaborate fl) pr /\
    Forall2 (fun pf rs => find_targets [$"alias"] (pf_ast (snd pf)) = Ret rs) (pr_files pr) rss /\ msorted m /\
    (forall t l, In (t, l) m <-> l <> [] /\ l = flat_map (fun x => flat_map (declared_alias t (pf_package (snd (fst x)))) (snd x)) (combine (pr_files pr) rss)) /\
    read_csv out = Some ([$"actual"; $"aliased-by"] :: pair_rows (filter (fun e => shown fl pt (fst e)) m)).
Proof.
  intros fl pt out Fm E. start E w pr g P. rewrite Fm in E. destruct P as (W & pr0 & H & [-> ->]).
  destruct (extract_aliased_by pr0) as [m| |] eqn:Hm; try discriminate. cbn [bind] in E.
  destruct (print_one_to_n _ _ _ _ _) as [o| |] eqn:T; try discriminate. injection E as <-. apply one_to_n_rows in T. rewrite filter_shown in T.
  assert (S := aliased_sorted _ _ Hm). apply aliased_by_spec in Hm as (rss & F2 & En & K).
  exists w, pr0, rss, m. split; [exact W|]. split; [exact H|]. split; [exact F2|]. split; [exact S|]. split; [|exact T].
  intros t l. rewrite <- En. split.
  - intros I. assert (Et : S_DepGraph.entry m t = l) by (unfold S_DepGraph.entry; apply msorted_find in I; auto; rewrite I; reflexivity).
    split; [|auto]. rewrite <- Et. apply K. apply in_map_iff. exists (t, l). auto.
  - intros (N & ->). apply K in N. apply in_keys in N as (l & F). unfold S_DepGraph.entry. rewrite F. apply map_find_in. exact F.
Qed.

(** list-packages: the files known. *)
Theorem C67_list_packages : forall fl pt out, fl_format fl = FmtCsv -> run_command fl CListPackages pt = Ret (out, ExitSuccess) ->
  exists w pr pr', the_workspace w /\ loaded w pt (fl_elaborate fl) pr /\ followed w fl pt pr pr' /\
    read_csv out = Some ([$"bazel-file"; $"package"] :: map (fun e => [pf_name (snd e); package_to_string (fst e)]) (pr_files pr')).
Proof.
  intros fl pt out Fm E. start E w pr g P. rewrite Fm in E. destruct P as (W & pr0 & H & G).
  destruct (print_packages _ _) as [o| |] eqn:T; try discriminate. injection E as <-. apply package_rows in T.
  exists w, pr0, pr. split; [exact W|]. split; [exact H|].
  split. { unfold followed. destruct (0 <=? fl_depth fl)%Z; [destruct G as (todo & B); eauto|apply G]. } exact T.
Qed.

(** list-targets (C65) and workspace (C64). *)
Theorem C67_list_targets : forall fl pt out, fl_format fl = FmtCsv -> run_command fl CListTargets pt = Ret (out, ExitSuccess) ->
  (forall name content, read_file name = Some content -> plain_lines content) ->
  exists w pr pr' rows, the_workspace w /\ loaded w pt (fl_elaborate fl) pr /\ followed w fl pt pr pr' /\
    target_list (if (0 <? fl_depth fl)%Z then pattern_always else pt) (pr_files pr') rows /\
    read_csv out = Some ([$"file-location"; $"rule"; $"target"] :: rows).
Proof.
  intros fl pt out Fm E Pl. start E w pr g P. rewrite Fm in E. destruct P as (W & pr0 & H & G).
  destruct (print_targets _ _ _) as [o| |] eqn:T; try discriminate. injection E as <-.
  assert (Fo : followed w fl pt pr0 pr). { unfold followed. destruct (0 <=? fl_depth fl)%Z; [destruct G as (todo & B); eauto|apply G]. }
  apply C65_rows in T as (rows & T1 & T2); [exists w, pr0, pr, rows; auto|].
  intros p f I. assert (X : exists name, read_file name = Some (pf_content f)); [|destruct X as [n X]; eauto].
  destruct H as [S0 H]. assert (X0 : forall q g0, In (q, g0) (pr_files pr0) -> exists name, read_file name = Some (pf_content g0)).
  { intros q g0 I0. apply H in I0 as (n & c & st & er & ast & (a & b & _ & _ & R & _) & _ & _ & ->). eauto. }
  unfold followed in Fo. destruct (0 <=? fl_depth fl)%Z; [|subst; eauto]. destruct Fo as (g1 & todo & B).
  assert (OK : project_ok pr0). { apply holds_ok with (1 := conj S0 H). }
  destruct (graph_spec _ _ _ _ _ OK _ _ _ _ _ B) as (Gr & _). destruct Gr as ([S' _] & N & _).
  assert (F := I). apply (msorted_find _ _ _ S') in F. specialize (N _ _ F). unfold file_of in N.
  destruct (find_parsed pr0 p) as [f0|] eqn:F0; [subst f0; apply map_find_in in F0; eauto|].
  destruct N as (name & content & stmts & errs & ast & _ & R & _ & _ & ->). eauto.
Qed.
Theorem C67_workspace : forall fl pt out, fl_format fl = FmtCsv -> run_command fl CWorkspace pt = Ret (out, ExitSuccess) ->
  exists w sub, the_workspace w /\ msorted sub /\ read_csv out = Some ([$"project"; $"version"; $"directory"] :: map repo_cells sub) /\
    if is_matchall pt then sub = w
    else exists pr, loaded w pt (fl_elaborate fl) pr /\ forall vp d, In (vp, d) sub <-> exists proj, uses_project pr pt proj /\ first_version w (bare proj) vp d.
Proof.
  intros fl pt out Fm E. start E w pr g P. rewrite Fm in E. destruct P as (W & pr0 & H & [-> ->]).
  destruct (print_workspace _ _ _ _) as [o| |] eqn:T; try discriminate. injection E as <-.
  assert (S : msorted w). { destruct W as (decls & w0 & _ & [S _] & ->). apply (augment_spec is_directory glob w0 S). }
  destruct (is_matchall pt) eqn:M; cbn [negb] in H.
  - exists w, w. split; [exact W|]. split; [exact S|]. split; [|reflexivity].
    unfold print_workspace in T. rewrite M in T. cbn [bind] in T.
    apply csv_table in T; [|discriminate|apply repo_columns]. rewrite T, repo_rows. reflexivity.
  - destruct (C64_needed _ _ _ _ S M T) as (sub & S' & K & R). exists w, sub. split; [exact W|]. split; [exact S'|]. split; [exact R|].
    exists pr0. split; [exact H|exact K].
Qed.
End Run.
Print Assumptions C67_no_workspace.
Print Assumptions C67_depends_on.
Print Assumptions C67_has_dependents.
Print Assumptions C67_lib_headers.
Print Assumptions C67_genrule_outputs.
Print Assumptions C67_aliased_by.
Print Assumptions C67_list_packages.
Print Assumptions C67_list_targets.
Print Assumptions C67_workspace.

(** A run of the commands over the files of C27. *)
Definition cli_disk (name : str) : option str := if str_eqb name ($"MODULE.bazel") then Some [] else disk name.
Definition cli_readable (name : str) : bool := match cli_disk name with Some _ => true | None => false end.
Definition cli_collect (w : workspace) (pt : pattern) : list str := if is_matchall pt then [$"a/BUILD"; $"b/BUILD"] else [$"a/BUILD"].
Definition cli_flags (depth : Z) : flags := mkFlags false false true false depth FmtCsv NoGrep false.
Definition cli_run (read_file : str -> option str) (fl : flags) (args : list str) : option (outcome (str * cli_status)) :=
  run_cli (fun _ => false) cli_readable (fun _ => []) read_file (fun w p i e => []) cli_collect (fun _ _ _ _ => Ret []) fl args.
Definition cli_rows (depth : Z) (args : list str) : option (list (list str)) :=
  match cli_run cli_disk (cli_flags depth) args with Some (Ret (out, ExitSuccess)) => read_csv out | _ => None end.
Example C67_case :
  cli_rows 0 [$"depends-on"; $"//a:x"] = Some [[$"library"; $"depends-on"]; [$"//a:x"; $"//b:y"]; [$"//a:x"; $"//b:y"]] /\
  cli_rows (-1) [$"depends-on"; $"//a:x"] = Some [[$"library"; $"depends-on"]] /\
  cli_rows 5 [$"has"; $"//c/..."] = Some [[$"library"; $"has-dependent"]; [$"//c:no"; $"//b:y"]] /\
  cli_rows 0 [$"aliased"] = Some [[$"actual"; $"aliased-by"]; [$"//b:y"; $"//b:z"]] /\
  cli_rows 1 [$"list-p"; $"//a:x"] = Some [[$"bazel-file"; $"package"]; [$"a/BUILD"; $"//a"]; [$"b/BUILD"; $"//b"]].
Proof. vm_compute. auto 10. Qed.

(** * C68: the exit status *)
Definition takes_pattern (cmd : command) : Prop := cmd = CCanonicalize \/ cmd = CDwyu \/ cmd = CPrint.
(** What follows the command is not usable. *)
Definition unusable (cmd : command) (args : list str) : Prop :=
  match args with
  | [] => takes_pattern cmd
  | [arg] => parse_pattern arg = PatNone
  | _ => True
  end.
Lemma parsed_not_all arg pt : parse_pattern arg = PatOk pt -> is_matchall pt = false.
Proof.
  unfold parse_pattern, parse_pattern_in. destruct (parse_target arg _) as [t|]; [|discriminate].
  repeat match goal with
  | |- (if ?b then _ else _) = _ -> _ => destruct b
  | |- (match ?b with _ => _ end) = _ -> _ => destruct b
  end; intros E; try discriminate E; injection E as <-; reflexivity.
Qed.
Lemma script_nil edits : buildozer_script edits = [] <-> edits = [].
Proof. split; [|intros ->; reflexivity]. destruct edits as [|e l]; [auto|]. cbn [buildozer_script flat_map]. destruct e as [[]]; discriminate. Qed.
Section Status.
Variable is_directory : str -> bool.
Variable can_read : str -> bool.
Variable glob : str -> list str.
Variable read_file : str -> option str.
Variable glob_in : workspace -> package -> list str -> list str -> list str.
Variable collect_build_files : workspace -> pattern -> list str.
Variable compilation_flags : workspace -> parsed_project -> pattern -> bool -> outcome str.
Notation run_cli := (run_cli is_directory can_read glob read_file glob_in collect_build_files compilation_flags).
Notation run_command := (run_command is_directory can_read glob read_file glob_in collect_build_files compilation_flags).
Definition has_workspace : Prop := exists f, In f workspace_files /\ read_file f <> None.

(** What the exit status says, for a command. *)
Definition status_of (cmd : command) (args : list str) (out : str) (st : cli_status) : Prop :=
  match st with
  | ExitClarification => False
  | ExitFailure => out = [] /\ (unusable cmd args \/ ~ has_workspace)
  | ExitFindings => has_workspace /\ ~ unusable cmd args /\ (cmd = CDwyu \/ cmd = CCanonicalize) /\ out <> []
  | ExitSuccess => has_workspace /\ ~ unusable cmd args /\ (cmd = CDwyu \/ cmd = CCanonicalize -> out = [])
  end.
Lemma perform_status fl cmd pt w pr g out st : perform read_file compilation_flags fl cmd pt w pr g = Ret (out, st) ->
  (st = ExitFindings /\ (cmd = CDwyu \/ cmd = CCanonicalize) /\ out <> []) \/ (st = ExitSuccess /\ (cmd = CDwyu \/ cmd = CCanonicalize -> out = [])).
Proof.
  assert (Ok : forall x : outcome str, (do o <- x; Ret (o, ExitSuccess)) = Ret (out, st) -> st = ExitSuccess).
  { intros [o| |] E; try discriminate. injection E as _ <-. reflexivity. }
  assert (Sc : forall edits, (buildozer_script edits, if (0 <? length edits)%nat then ExitFindings else ExitSuccess) = (out, st) ->
    (st = ExitFindings /\ out <> []) \/ (st = ExitSuccess /\ out = [])).
  { intros edits E. injection E as <- <-. destruct edits as [|e l]; [right; auto|]. left. split; [reflexivity|]. rewrite script_nil. discriminate. }
  unfold perform. destruct cmd; intros E; try (right; split; [apply (Ok _ E)|intros [C|C]; discriminate C]).
  - right. destruct (fl_print_ast fl || fl_print_only_errors fl); [split; [apply (Ok _ E)|intros [C|C]; discriminate C]|].
    injection E as <- <-. split; [reflexivity|]. auto.
  - destruct (dependency_edits _ _ _ _ _) as [[evs x]| |]; try discriminate. cbn [bind] in E.
    apply ret_inj in E. apply Sc in E as [[-> N]|[-> ->]]; auto 6.
  - destruct (canonicalize_edits _ _) as [evs| |]; try discriminate. cbn [bind] in E.
    apply ret_inj in E. apply Sc in E as [[-> N]|[-> ->]]; auto 6.
Qed.
Lemma run_status fl cmd pt out st : run_command fl cmd pt = Ret (out, st) ->
  (st = ExitFailure /\ out = [] /\ ~ has_workspace) \/
  (has_workspace /\ ((st = ExitFindings /\ (cmd = CDwyu \/ cmd = CCanonicalize) /\ out <> []) \/ (st = ExitSuccess /\ (cmd = CDwyu \/ cmd = CCanonicalize -> out = [])))).
Proof.
  intros E. apply run_spec in E as [(P & -> & ->)|(w & pr & g & P & E)]; unfold prepare in P;
    destruct (load_workspace is_directory can_read glob read_file) as [[w0|]| |] eqn:L; try discriminate; cbn [bind] in P.
  - exfalso. repeat match type of P with
      | bind ?x _ = _ => destruct x as [?| |]; try discriminate; cbn [bind] in P
      | (let '(_, _) := ?x in _) = _ => destruct x
      end. discriminate.
  - left. split; [reflexivity|]. split; [reflexivity|]. apply load_workspace_spec in L as (decls & _ & F & _). unfold has_workspace. rewrite F. auto.
  - right. split; [apply load_workspace_spec in L as (decls & _ & F & _); apply F; discriminate|]. eapply perform_status; eauto.
Qed.
(** The command word is not one: 2.  Otherwise it depends on the command. *)
Theorem C68_status : forall fl args out st, run_cli fl args = Some (Ret (out, st)) ->
  match args with
  | [] => out = [] /\ st = ExitClarification
  | word :: rest =>
      match abbreviated command_names word with
      | [cmd] => status_of cmd rest out st
      | _ => out = [] /\ st = ExitClarification
      end
  end.
Proof.
  intros fl [|word rest] out st E; cbn [M_Commands.run_cli] in E; [injection E as <- <-; auto|].
  rewrite C49_lookup in E. destruct (abbreviated command_names word) as [|cmd [|]]; [injection E as <- <-; auto| |injection E as <- <-; auto].
  assert (Go : forall pt, ~ unusable cmd rest -> run_command fl cmd pt = Ret (out, st) -> status_of cmd rest out st).
  { intros pt U R. apply run_status in R as [(-> & -> & N)|(W & [(-> & C & N)|(-> & C)])]; cbn [status_of]; auto. }
  destruct rest as [|arg more].
  - cbn [is_matchall pattern_always pat_kind] in E. rewrite andb_true_r in E. injection E as E.
    destruct (needs_pattern cmd) eqn:N.
    + injection E as <- <-. cbn. split; [reflexivity|]. left. unfold takes_pattern. destruct cmd; try discriminate N; auto.
    + apply (Go _) in E; [exact E|]. cbn. unfold takes_pattern. intros [->|[->| ->]]; discriminate N.
  - destruct (parse_pattern arg) as [pt| |] eqn:P; [| |discriminate].
    + destruct more as [|m more]; cbn [is_nil] in E.
      * rewrite (parsed_not_all _ _ P), andb_false_r in E. injection E as E. apply (Go pt); [|exact E]. cbn. congruence.
      * injection E as <- <-. cbn. auto.
    + injection E as <- <-. destruct more; cbn; auto.
Qed.
End Status.
Print Assumptions C68_status.
Definition odd_disk (name : str) : option str :=
  if str_eqb name ($"WORKSPACE") then Some [] else if str_eqb name ($"a/BUILD") then Some (nl ["cc_library(name = ""x"", deps = [""//a:y""])"; "cc_library(name = ""y"")"]) else None.
Example C68_case :
  let run disk args := match cli_run disk (cli_flags 5) args with Some (Ret (out, st)) => Some (out, exit_code st) | _ => None end in
  run odd_disk [$"canonicalize"; $"//a:x"] = Some ($"buildozer 'replace deps //a:y :y' //a:x" ++ [NL], 3) /\ run odd_disk [$"canonicalize"; $"//a:y"] = Some ([], 0) /\
  run odd_disk [$"dwyu"; $"//a:x"] = Some ([], 0) /\ run (fun _ => None) [$"dwyu"; $"//a:x"] = Some ([], 1) /\
  run odd_disk [$"list"] = Some ([], 2) /\ run odd_disk [] = Some ([], 2) /\ run odd_disk [$"dwyu"] = Some ([], 1) /\
  run odd_disk [$"parse"; $"a:b:c"] = Some ([], 1) /\ run odd_disk [$"parse"; $"//a"; $"//b"] = Some ([], 1) /\ run odd_disk [$"parse"; $"//a"] = Some ([], 0).
Proof. vm_compute. auto 20. Qed.
