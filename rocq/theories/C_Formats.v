(** Property C87: the format of a table does not change what it says. *)
From Coq Require Import NArith Lia.
From Verif Require Import Base OMap M_Types M_Scanner M_Ast M_Parser M_Query M_Elab M_Workspace M_Project
  M_DepGraph M_Headers M_Dwyu M_Edits M_Table S_Table P_Table C_Table M_Commands S_Commands P_Commands C_Commands.
Local Open Scope string_scope.
Local Open Scope list_scope.

(** The same flags with another format. *)
Definition with_format (fl : flags) (fmt : output_format) : flags :=
  mkFlags (fl_print_ast fl) (fl_print_only_errors fl) (fl_elaborate fl) (fl_ignore_keep fl) (fl_depth fl) fmt (fl_grep fl) (fl_color fl).
(** The commands that print a table. *)
Definition prints_table (cmd : command) : bool :=
  match cmd with
  | CListPackages | CListTargets | CWorkspace | CLibHeaders | CAliasedBy | CGenruleOutputs | CHasDependents | CDependsOn => true
  | _ => false
  end.
(** What a text in one of the formats says: CSV, and S-expressions and property lists, are read
    back; JSON has a line for each entry, that is read back if the strings of the entry are safe
    and is not JSON otherwise; all other formats have aligned lines. *)
Definition says (fmt : output_format) (headers : list str) (entries : list entry) (text : str) : Prop :=
  let rows := flat_map entry_rows entries in
  match fmt with
  | FmtCsv => read_csv text = Some (headers :: rows)
  | FmtSExpr => read_sexpr text = Some (Paren (map entry_sexpr entries))
  | FmtPList => read_sexpr text = Some (Paren (map (entry_plist headers) entries))
  | FmtJson => exists lines, text = flat_map (fun l => l ++ [NL]) lines /\
      Forall2 (fun e line => ~ In NL line /\
        ((forall s, In s (entry_cells e) -> json_safe s) -> read_json line = Some (entry_json headers e)) /\
        ((exists s, In s (entry_cells e) /\ ~ json_safe s) -> read_json line = None)) entries lines
  | FmtNative | FmtGraphviz => exists lines, text = flat_map (fun l => l ++ [NL]) lines /\ Forall2 (aligned_row rows) rows lines
  end.

(** The headers of the commands. *)
Definition columns_of (cmd : command) : list str :=
  match cmd with
  | CListPackages => [$"bazel-file"; $"package"]
  | CListTargets => [$"file-location"; $"rule"; $"target"]
  | CWorkspace => [$"project"; $"version"; $"directory"]
  | CLibHeaders => [$"header"; $"providing-rule"]
  | CAliasedBy => [$"actual"; $"aliased-by"]
  | CGenruleOutputs => [$"generated-file"; $"providing-rule"]
  | CHasDependents => [$"library"; $"has-dependent"]
  | CDependsOn => [$"library"; $"depends-on"]
  | _ => []
  end.
Definition plain_char (c : ascii) : bool := ((97 <=? code c) && (code c <=? 122) || (code c =? 45))%N.
Lemma columns_plain cmd h c : In h (columns_of cmd) -> In c h -> plain_char c = true.
Proof.
  intros H C. assert (A : forallb (forallb plain_char) (columns_of cmd) = true) by (destruct cmd; vm_compute; reflexivity).
  rewrite forallb_forall in A. specialize (A h H). rewrite forallb_forall in A. exact (A c C).
Qed.
Lemma plain_code c : plain_char c = true -> (97 <= code c <= 122 \/ code c = 45)%N.
Proof. unfold plain_char. intros H. apply Bool.orb_prop in H as [H|H]; [apply andb_prop in H as [A B]; apply N.leb_le in A, B; left; lia|apply N.eqb_eq in H; auto]. Qed.
Lemma columns_safe cmd h : In h (columns_of cmd) -> json_safe h.
Proof.
  intros H c C. right. right. right. pose proof (plain_code _ (columns_plain _ _ _ H C)) as P. split; [lia|].
  intros ->. pose proof (columns_plain _ _ _ H C) as Q. vm_compute in Q. discriminate Q.
Qed.
Lemma columns_plain_header cmd : Forall plain_header (columns_of cmd).
Proof.
  apply (proj2 (Forall_forall _ _)). intros h H c C. pose proof (columns_plain _ _ _ H C) as P.
  repeat split; try (intros ->; vm_compute in P; discriminate P).
  destruct c as [[] [] [] [] [] [] [] []]; vm_compute in P |- *; congruence.
Qed.
Lemma columns_some cmd : prints_table cmd = true -> columns_of cmd <> [].
Proof. destruct cmd; discriminate. Qed.

(** A table says the same in all formats. *)
Lemma print_says cmd ops fmt : prints_table cmd = true ->
  (forall op, In op ops -> entry_columns (entry_of op) = length (columns_of cmd)) ->
  exists text, table_print fmt (columns_of cmd) ops = Ret text /\ says fmt (columns_of cmd) (map entry_of ops) text.
Proof.
  intros T W. pose proof (columns_some _ T) as NE.
  assert (LE : forall op, In op ops -> entry_columns (entry_of op) <= length (columns_of cmd)) by (intros op I; rewrite (W op I); auto).
  assert (R : flat_map entry_rows (map entry_of ops) = flat_map (fun op => entry_rows (entry_of op)) ops)
    by (rewrite flat_map_concat_map, map_map, <- flat_map_concat_map; reflexivity).
  assert (AL : fmt = FmtNative \/ fmt = FmtGraphviz -> exists text, table_print fmt (columns_of cmd) ops = Ret text /\ says fmt (columns_of cmd) (map entry_of ops) text).
  { intros F. destruct (C44_columns fmt (columns_of cmd) ops F NE W) as (lines & E & L). eexists. split; [exact E|].
    destruct F as [-> | ->]; cbn [says]; rewrite R; exists lines; auto. }
  destruct fmt; try (apply AL; auto; fail).
  - destruct (C43_sexpr (columns_of cmd) ops) as (t & E & S). exists t. split; [exact E|]. cbn [says]. rewrite map_map. exact S.
  - destruct (C43_plist (columns_of cmd) ops (columns_plain_header cmd) LE) as (t & E & S). exists t. split; [exact E|]. cbn [says]. rewrite map_map. exact S.
  - destruct (C43_json (columns_of cmd) ops LE) as (lines & E & S). eexists. split; [exact E|]. cbn [says]. exists lines. split; [reflexivity|].
    clear E NE LE R AL. induction S as [|op line ops lines (A & B & C) S IH]; [constructor|]. cbn [map]. constructor.
    + split; [exact A|]. split.
      * intros H. apply B. intros s I. apply in_app_or in I as [I|I]; [|auto].
        apply (columns_safe cmd). rewrite (W op (or_introl eq_refl)), firstn_all in I. exact I.
      * intros (s & I & N). apply C. exists s. split; [apply in_or_app; auto|exact N].
    + apply IH. intros o O. apply W. right. exact O.
  - destruct (C43_csv (columns_of cmd) ops NE) as (t & E & S).
    { intros op I. rewrite (W op I). destruct (columns_of cmd); [elim NE; reflexivity|discriminate]. }
    exists t. split; [exact E|]. cbn [says]. rewrite R. exact S.
Qed.

Lemma target_rows_three pt p f : forall rs ops, target_rows pt p f rs = Ret ops -> forall op, In op ops -> entry_columns (entry_of op) = 3.
Proof.
  induction rs as [|r rs IH]; cbn [target_rows]; intros ops E op I; [injection E as <-; destruct I|].
  destruct (parse_target _ p) as [t|]; [|eauto]. destruct (match_target pt t); [|eauto].
  destruct (loc f (q_name r)) as [l| |]; try discriminate E. cbn [bind] in E. destruct (target_rows pt p f rs) as [rows| |]; try discriminate E.
  injection E as <-. destruct I as [<-|I]; [reflexivity|eauto].
Qed.
Lemma target_rows_of_three pt : forall files ops, target_rows_of pt files = Ret ops -> forall op, In op ops -> entry_columns (entry_of op) = 3.
Proof.
  induction files as [|[p f] files IH]; cbn [target_rows_of]; intros ops E op I; [injection E as <-; destruct I|].
  destruct (find_targets [] (pf_ast f)) as [rs| |]; try discriminate E. cbn [bind] in E.
  destruct (target_rows pt p f rs) as [a| |] eqn:A; try discriminate E. cbn [bind] in E.
  destruct (target_rows_of pt files) as [b| |]; try discriminate E. injection E as <-.
  apply in_app_or in I as [I|I]; [exact (target_rows_three _ _ _ _ _ A _ I)|eauto].
Qed.

Section Run.
Variable is_directory : str -> bool.
Variable can_read : str -> bool.
Variable glob : str -> list str.
Variable read_file : str -> option str.
Variable glob_in : workspace -> package -> list str -> list str -> list str.
Variable collect_build_files : workspace -> pattern -> list str.
Variable compilation_flags : workspace -> parsed_project -> pattern -> bool -> outcome str.
Notation run_command := (run_command is_directory can_read glob read_file glob_in collect_build_files compilation_flags).
Notation prepare := (prepare is_directory can_read glob read_file glob_in collect_build_files).
Notation perform := (perform read_file compilation_flags).

(** The table a command prints, before it is printed. *)
Lemma perform_table fl cmd pt w pr g : prints_table cmd = true ->
  exists o : outcome (list table_op),
    (forall fmt, perform (with_format fl fmt) cmd pt w pr g
                 = do ops <- o; do t <- table_print fmt (columns_of cmd) ops; Ret (t, ExitSuccess)) /\
    forall ops, o = Ret ops -> forall op, In op ops -> entry_columns (entry_of op) = length (columns_of cmd).
Proof.
  set (print_pattern := if (0 <? depth_for cmd (fl_depth fl))%Z then pattern_always else pt).
  destruct cmd; intros T; try discriminate T; clear T;
    unfold M_Commands.perform, print_packages, print_targets, print_workspace, print_provided_set, print_provided, print_one_to_n;
    cbn [with_format fl_format fl_depth]; fold print_pattern; cbn [columns_of length].
  - eexists (Ret _). split; [intros fmt; cbn [bind]; reflexivity|]. intros ops [= <-] op I.
    apply in_map_iff in I as (e & <- & _). reflexivity.
  - exists (target_rows_of print_pattern (pr_files pr)). split.
    + intros fmt. destruct (target_rows_of print_pattern (pr_files pr)); reflexivity.
    + intros ops E op I. exact (target_rows_of_three _ _ _ E _ I).
  - exists (do sub <- (if is_matchall pt then Ret w else filtered_workspace w pr pt); Ret (map repo_row sub)). split.
    + intros fmt. destruct (if is_matchall pt then Ret w else filtered_workspace w pr pt); reflexivity.
    + destruct (if is_matchall pt then Ret w else filtered_workspace w pr pt); intros ops E; try discriminate E.
      injection E as <-. intros op I. apply in_map_iff in I as (e & <- & _). reflexivity.
  - eexists (do m <- header_to_lib pr false; Ret _). split.
    + intros fmt. destruct (header_to_lib pr false); cbn [bind]; reflexivity.
    + destruct (header_to_lib pr false); intros ops E; try discriminate E.
      injection E as <-. intros op I. apply in_map_iff in I as (e & <- & _). reflexivity.
  - eexists (do m <- extract_aliased_by pr; Ret _). split.
    + intros fmt. destruct (extract_aliased_by pr); cbn [bind]; reflexivity.
    + destruct (extract_aliased_by pr); intros ops E; try discriminate E.
      injection E as <-. intros op I. apply in_map_iff in I as (e & <- & _). reflexivity.
  - eexists (do m <- generated_from_genrule pr false; Ret _). split.
    + intros fmt. destruct (generated_from_genrule pr false); cbn [bind]; reflexivity.
    + destruct (generated_from_genrule pr false); intros ops E; try discriminate E.
      injection E as <-. intros op I. apply in_map_iff in I as (e & <- & _). reflexivity.
  - eexists (Ret _). split; [intros fmt; cbn [bind]; reflexivity|]. intros ops [= <-] op I.
    apply in_map_iff in I as (e & <- & _). reflexivity.
  - eexists (Ret _). split; [intros fmt; cbn [bind]; reflexivity|]. intros ops [= <-] op I.
    apply in_map_iff in I as (e & <- & _). reflexivity.
Qed.

(** C87: if a command succeeds in one format, it does in all of them, and the texts say the same. *)
Theorem C87_same : forall fl cmd pt out, prints_table cmd = true -> run_command fl cmd pt = Ret (out, ExitSuccess) ->
  exists entries, (forall e, In e entries -> entry_columns e = length (columns_of cmd)) /\
    says (fl_format fl) (columns_of cmd) entries out /\
    forall fmt, exists text, run_command (with_format fl fmt) cmd pt = Ret (text, ExitSuccess) /\
      says fmt (columns_of cmd) entries text.
Proof.
  intros fl cmd pt out T E.
  assert (F : with_format fl (fl_format fl) = fl) by (destruct fl; reflexivity).
  unfold M_Commands.run_command in *. change (prepare fl cmd pt) with (prepare (with_format fl (fl_format fl)) cmd pt) in E.
  assert (PF : forall fmt, prepare (with_format fl fmt) cmd pt = prepare fl cmd pt) by reflexivity.
  rewrite PF in E. destruct (prepare fl cmd pt) as [[[[w pr] g]|]| |] eqn:P; try discriminate E. cbn [bind] in E.
  destruct (perform_table fl cmd pt w pr g T) as (o & A & W). rewrite <- F in E at 1. rewrite A in E.
  destruct o as [ops| |]; try discriminate E. specialize (W ops eq_refl). cbn [bind] in A, E.
  exists (map entry_of ops). split; [intros e I; apply in_map_iff in I as (op & <- & I); auto|]. split.
  - destruct (print_says cmd ops (fl_format fl) T W) as (t & Et & S). rewrite Et in E. injection E as <-. exact S.
  - intros fmt. destruct (print_says cmd ops fmt T W) as (t & Et & S). exists t. split; [|exact S].
    rewrite PF. cbn [bind]. rewrite A, Et. reflexivity.
Qed.

(** C87: the other commands print the same text in all formats. *)
Theorem C87_others : forall fl cmd pt fmt, prints_table cmd = false ->
  run_command (with_format fl fmt) cmd pt = run_command fl cmd pt.
Proof. intros fl cmd pt fmt T. destruct cmd; try discriminate T; reflexivity. Qed.
End Run.
Print Assumptions C87_same.
Print Assumptions C87_others.

(** A library without dependencies has no row in CSV and in aligned columns, but an entry
    in the other formats. *)
Definition formatted (read_file : str -> option str) (fmt : output_format) : option (outcome (str * cli_status)) :=
  cli_run read_file (with_format (cli_flags 0) fmt) [$"depends-on"; $"//a:x"].
Definition lone_disk (name : str) : option str :=
  if str_eqb name ($"MODULE.bazel") then Some [] else if str_eqb name ($"a/BUILD") then Some ($"cc_library(name = ""x"")") else None.
Definition text_of (lines : list str) : option (outcome (str * cli_status)) := Some (Ret (flat_map (fun l => l ++ [NL]) lines, ExitSuccess)).
Example C87_case :
  formatted cli_disk FmtCsv = text_of [$"""library"",""depends-on"""; $"""//a:x"",""//b:y"""; $"""//a:x"",""//b:y"""] /\
  formatted cli_disk FmtSExpr = text_of [$"((""//a:x"" (""//b:y"""; $"           ""//b:y"")))"] /\
  formatted cli_disk FmtPList = text_of [$"((:library ""//a:x"" :depends-on (""//b:y"""; $"                                ""//b:y"")))"] /\
  formatted cli_disk FmtJson = text_of [$"{""library"": ""//a:x"", ""depends-on"": [""//b:y"", ""//b:y""]}"] /\
  formatted cli_disk FmtNative = text_of [$"//a:x //b:y"; $"//a:x //b:y"] /\
  formatted cli_disk FmtGraphviz = text_of [$"//a:x //b:y"; $"//a:x //b:y"] /\
  formatted lone_disk FmtCsv = text_of [$"""library"",""depends-on"""] /\
  formatted lone_disk FmtSExpr = text_of [$"((""//a:x"" ()))"] /\
  formatted lone_disk FmtJson = text_of [$"{""library"": ""//a:x"", ""depends-on"": []}"] /\
  formatted lone_disk FmtNative = text_of [].
Proof. repeat apply conj; vm_compute; reflexivity. Qed.
Example C87_entries : let entries := [Multi [$"//a:x"] [$"//b:y"; $"//b:y"]] in
  says FmtCsv [$"library"; $"depends-on"] entries (flat_map (fun l => l ++ [NL]) [$"""library"",""depends-on"""; $"""//a:x"",""//b:y"""; $"""//a:x"",""//b:y"""]) /\
  ~ says FmtCsv [$"library"; $"depends-on"] entries (flat_map (fun l => l ++ [NL]) [$"""library"",""depends-on"""; $"""//a:x"",""//b:y"""]) /\
  says FmtSExpr [$"library"; $"depends-on"] entries (flat_map (fun l => l ++ [NL]) [$"((""//a:x"" (""//b:y"""; $"           ""//b:y"")))"]).
Proof. split; [vm_compute; reflexivity|]. split; [vm_compute; discriminate|vm_compute; reflexivity]. Qed.
