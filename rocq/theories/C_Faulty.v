(** Property C17: files with syntax errors. *)
From Verif Require Import Base OMap M_Types M_Scanner M_Ast M_Parser M_Query M_Elab M_Workspace M_Project
  S_Parser P_Parser S_Elab P_Elab S_Query P_Query P_Shape P_Count C_Elab T_Parser T_Elab.
Local Open Scope string_scope.
Local Open Scope list_scope.

(** Whatever the content: all statements but the last one are complete. *)
Theorem C17_only_last : forall content stmts errs,
  parse content = Ret (stmts, errs) -> Forall whole_statement (removelast stmts).
Proof. exact parse_whole. Qed.
Print Assumptions C17_only_last.

(** They can be evaluated and queried, and the last one does not change them. *)
Theorem C17_others : forall multi_glob content stmts errs,
  parse content = Ret (stmts, errs) ->
  (forall x, In x (flat_map called (removelast stmts)) -> ~ In x (flat_map assigned (removelast stmts))) ->
  exists out, elaborate multi_glob (removelast stmts) = Ret out /\ queries_defined (removelast stmts) /\ queries_defined out /\
    forall r, elaborate multi_glob stmts = Ret r -> removelast r = out.
Proof.
  intros mg content stmts errs P H. assert (W := parse_whole _ _ _ P).
  destruct (elaborate_defined mg _ W H) as (out & E & S). exists out. split; [exact E|]. split; [|split].
  - intros i a. apply find_targets_defined. eapply Forall_impl; [|exact W]. exact whole_statement_sound.
  - intros i a. exact (find_targets_defined i a out S).
  - intros r R. destruct stmts as [|n l] using rev_ind.
    + cbn in R, E. injection R as <-. injection E as <-. reflexivity.
    + rewrite removelast_last in *. destruct (elaborate_last mg l n out r E R) as (last' & ->). apply removelast_last.
Qed.
Print Assumptions C17_others.

(** Before evaluation, rules can be looked for in any file: those reported are the matching calls. *)
Theorem C17_queries : forall content stmts errs interest allow, parse content = Ret (stmts, errs) ->
  find_targets_in interest allow stmts = Ret (reported interest allow None (flat_map rule_calls stmts)).
Proof. exact parsed_queries. Qed.
Print Assumptions C17_queries.
Example C17_queries_case : match parse ($"f(name = ""a"", deps = [""b"", = ])") with
  | Ret (stmts, errs) => errs <> [] /\ match find_targets [] stmts with Ret [r] => v_text (q_name r) = $"a" | _ => False end
  | _ => False end.
Proof. vm_compute. split; [discriminate|reflexivity]. Qed.

(** If nothing is missing in the last statement where it would be used, the whole
    file can be evaluated and queried. *)
Lemma last_split (l : list node) : l = [] \/ l = removelast l ++ [last l NNull].
Proof. destruct l as [|x l]; [auto|]. right. apply app_removelast_last. discriminate. Qed.
Lemma tolerable_queries out last' : Forall sound out -> tolerable last' -> queries_defined (out ++ [last']).
Proof.
  intros S T i a. apply find_targets_tolerable. apply Forall_app. split; [|constructor; auto].
  eapply Forall_impl; [|exact S]. intros n Hn. right. left. exact Hn.
Qed.
Theorem C17_tolerated : forall multi_glob content stmts errs,
  parse content = Ret (stmts, errs) -> tolerable (last stmts NNull) ->
  (forall x, In x (flat_map called stmts) -> ~ In x (flat_map assigned stmts)) ->
  queries_defined stmts /\ exists out, elaborate multi_glob stmts = Ret out /\ queries_defined out.
Proof.
  intros mg content stmts errs P T H. assert (W := parse_whole _ _ _ P).
  assert (W' : Forall sound (removelast stmts)) by (eapply Forall_impl; [|exact W]; exact whole_statement_sound).
  destruct (last_split stmts) as [->|E].
  - split; [|exists []; split; [reflexivity|]]; intros i a; apply find_targets_defined; constructor.
  - rewrite E in H |- *. destruct (elaborate_tolerable mg _ _ W' T H) as (out & last' & El & S & T').
    split; [apply tolerable_queries; auto|]. exists (out ++ [last']). split; [exact El|]. apply tolerable_queries; auto.
Qed.
Print Assumptions C17_tolerated.

(** All files of a project, each one for itself: a file with a syntax error of this
    kind leaves the others as they are without it. *)
Definition evaluable (f : parsed_file) : Prop :=
  parse (pf_content f) = Ret (pf_ast f, pf_errors f) /\ tolerable (last (pf_ast f) NNull) /\
  forall x, In x (flat_map called (pf_ast f)) -> ~ In x (flat_map assigned (pf_ast f)).
Definition evaluated (glob_in : package -> list str -> list str -> list str) (e e' : package * parsed_file) : Prop :=
  fst e' = fst e /\ elaborate (glob_in (pf_package (snd e))) (pf_ast (snd e)) = Ret (pf_ast (snd e')) /\
  queries_defined (pf_ast (snd e')) /\
  snd e' = mkFile (pf_package (snd e)) (pf_name (snd e)) (pf_content (snd e)) (pf_ast (snd e')) (pf_errors (snd e)).
Theorem C17_project : forall glob_in pr, (forall p f, In (p, f) (pr_files pr) -> evaluable f) ->
  exists pr', elaborate_project glob_in pr = Ret pr' /\ pr_error_count pr' = pr_error_count pr /\
    Forall2 (evaluated glob_in) (pr_files pr) (pr_files pr').
Proof.
  intros gi [files n] H. unfold elaborate_project. cbn [pr_files pr_error_count] in *.
  assert (K : exists l, elaborate_files gi files = Ret l /\ Forall2 (evaluated gi) files l).
  { induction files as [|[p f] l IH]; cbn [elaborate_files]; [eauto|].
    destruct (H p f (or_introl eq_refl)) as (P & T & N).
    destruct (C17_tolerated (gi (pf_package f)) _ _ _ P T N) as (_ & out & E & Q).
    destruct IH as (l' & E' & F); [intros q g I; apply (H q g); right; exact I|].
    unfold elaborate_file. rewrite E. cbn [bind]. rewrite E'. cbn [bind]. eexists. split; [reflexivity|].
    constructor; [|exact F]. unfold evaluated. cbn [fst snd pf_ast]. auto. }
  destruct K as (l & -> & F). cbn [bind]. eauto.
Qed.
Print Assumptions C17_project.

(** Files with errors that are harmless: a missing bracket, an argument without a
    value, an operator without its second operand. *)
Definition harmless (content : str) : Prop := exists stmts errs,
  parse content = Ret (stmts, errs) /\ errs <> [] /\ length stmts = 2%nat /\ tolerable (last stmts NNull) /\
  forall x, In x (flat_map called stmts) -> ~ In x (flat_map assigned stmts).
Ltac harmless := do 2 eexists; split; [vm_compute; reflexivity|]; split; [discriminate|]; split; [reflexivity|];
  split; [cbn [last]|cbn; intuition (subst; discriminate)].
Example C17_cases :
  harmless (nl ["x = 1"; "f(name = ""a"", srcs = [""b"", ""c"""]) /\
  harmless (nl ["x = 1"; "f(name = , srcs = [""c""])"]) /\
  harmless (nl ["x = 1"; "f(n = x == )"]) /\
  harmless (nl ["x = 1"; "y = "]).
Proof.
  split; [|split; [|split]]; harmless.
  - right. left. repeat first [constructor | left; constructor].
  - right. left. constructor. constructor; [|repeat first [constructor | left; constructor]].
    right. do 2 eexists. split; [reflexivity|]. split; discriminate.
  - right. left. constructor. constructor; [|constructor]. left. constructor. apply S_operator; [reflexivity| |]; [right; constructor|left; reflexivity].
  - right. right. eauto.
Qed.

(** In each of these places something that is missing is used: an operand of '+', an element of a
    list, an argument or a map, the key of a map, the value that a select() has, the lists of a glob(). *)
Definition dies (content : str) : Prop := exists stmts errs,
  parse content = Ret (stmts, errs) /\ errs <> [] /\ elaborate no_glob stmts = UB.
Theorem C17_exceptions_refuted :
  dies ($"x = [1] +") /\ dies ($"x = glob([ ""a"", = ])") /\ dies ($"x = select( = )") /\
  dies ($"x = select({""a"": 1, ""b""})") /\ dies ($"x = select({ : 1})") /\
  dies ($"x = select({""//conditions:default"": }) + [1]") /\ dies ($"x = glob(include = )") /\
  exists stmts errs r l, parse ($"f(name = ""a"", deps = [""b"", = ])") = Ret (stmts, errs) /\ find_targets [] stmts = Ret [r] /\
     elaborate no_glob stmts <> UB /\ q_deps r = Some l /\ string_list l = UB.
Proof.
  repeat split; try (do 2 eexists; split; [vm_compute; reflexivity|]; split; [discriminate|vm_compute; reflexivity]).
  do 4 eexists. split; [vm_compute; reflexivity|]. split; [vm_compute; reflexivity|].
  split; [vm_compute; discriminate|]. split; vm_compute; reflexivity.
Qed.
Print Assumptions C17_exceptions_refuted.

(** What is counted as an error: the files that cannot be read and those with syntax errors. *)
Theorem C17_count : forall w read_file collect pt pr,
  (pat_project pt = [] \/ find_path_by_project w (pat_project pt) <> None) ->
  fill_from_pattern w read_file collect empty_project pt = Ret pr ->
  pr_error_count pr =
    length (filter (fun x => match read_file x with Some _ => false | None => true end) (collect pt)) +
    length (filter (fun e => negb (is_nil (pf_errors (snd e)))) (pr_files pr)).
Proof.
  intros w rf col pt pr P E. pose proof (add_count w rf _ P _ _ _ E) as H. cbn [empty_project pr_files pr_error_count filter length] in H.
  rewrite Nat.add_0_r in H. exact H.
Qed.
Print Assumptions C17_count.
Example C17_count_case : exists pr,
  fill_from_pattern [] (fun x => if str_eqb x ($"a/BUILD") then Some ($"x = ") else if str_eqb x ($"b/BUILD") then Some ($"x = 1") else None)
    (fun _ => [$"a/BUILD"; $"b/BUILD"; $"c/BUILD"]) empty_project pattern_always = Ret pr /\
  pr_error_count pr = 2 /\ length (pr_files pr) = 2.
Proof. eexists. split; [vm_compute; reflexivity|]. split; reflexivity. Qed.
