(** Properties C51 and C63: scripts of edits and the canonicalize command. *)
From Verif Require Import Base OMap M_Types M_Scanner M_Ast M_Query M_Project M_Dwyu M_Edits S_Labels S_Shell P_Types P_Edits.
Local Open Scope string_scope. Local Open Scope list_scope.

(** C51: a shell runs one buildozer with the command and the target for each edit, as long
    as there are no single quotes in the labels and only plain characters in the target. *)
Theorem C51_script : forall edits,
  (forall e, In e edits ->
     ~ In SQ (e_before e) /\ ~ In SQ (e_after e) /\
     target_to_string (e_target e) <> [] /\ forallb plain_char (target_to_string (e_target e)) = true) ->
  shell_commands (buildozer_script edits)
  = Some (map (fun e => [$"buildozer"; edit_command e; target_to_string (e_target e)]) edits).
Proof. exact script_commands. Qed.
Print Assumptions C51_script.
(** C51: the words of the command, for labels without blanks. *)
Theorem C51_command : forall e, ~ In " "%char (e_before e) -> ~ In " "%char (e_after e) ->
  split " " (edit_command e) =
  match e_request e with
  | KRemove => [$"remove"; $"deps"; e_before e]
  | KAdd => [$"add"; $"deps"; e_after e]
  | KRename => [$"replace"; $"deps"; e_before e; e_after e]
  end.
Proof. exact command_words. Qed.
Print Assumptions C51_command.

(** The edits for one file with [content] in package //. *)
Definition script_for (content : str) : outcome (option (list (list str))) :=
  do (pr, _) <- add_build_file_content empty_project (mkPackage [] []) ($"BUILD") content;
  do evs <- canonicalize_edits pr (mkPattern (mkTarget (mkPackage [] []) []) KAlwaysMatch);
  Ret (shell_commands (buildozer_script (edits_of_canon evs))).
Definition evil : str := $"cc_library(name = ""x"", deps = [""a';rm -r 'src""])".
(** C51: without that condition, a BUILD file can get any command into the script. *)
Theorem C51_quote_refuted : exists content cmds,
  script_for content = Ret (Some cmds) /\ In [$"rm"; $"-r"; $"src"; $"//:x"] cmds.
Proof.
  exists evil. eexists. split; [vm_compute; reflexivity|]. cbn. auto 6.
Qed.
Print Assumptions C51_quote_refuted.
Example C51_case :
  script_for ($"cc_library(name = ""x"", deps = [""a"", "":b"", ""//c:c""])") =
  Ret (Some [[$"buildozer"; $"replace deps a :a"; $"//:x"]; [$"buildozer"; $"replace deps //c:c //c"; $"//:x"]]).
Proof. vm_compute. reflexivity. Qed.

(** C63: canonicalize emits the rename of a label iff a rule that matches the pattern has
    it among its dependencies and it is not its own canonical spelling. *)
Theorem C63_edits : forall pr pt evs, canonicalize_edits pr pt = Ret evs -> forall e,
  In e (edits_of_canon evs) <->
  exists key f rs r self deps d t, In (key, f) (pr_files pr) /\ find_targets [] (pf_ast f) = Ret rs /\ In r rs /\
    qualified_target (pf_package f) (v_text (q_name r)) = Some self /\ match_target pt self = true /\
    extract_string_list (q_deps r) = Ret deps /\ In d deps /\
    parse_target (v_text d) (pf_package f) = Some t /\ v_text d <> target_to_string_rel t (pf_package f) /\
    e = mkEdit KRename self (v_text d) (target_to_string_rel t (pf_package f)).
Proof.
  intros pr pt evs H e. unfold edits_of_canon. rewrite in_flat_map. split.
  - intros ([e'|l] & He & K); [|destruct K]. destruct K as [<-|[]].
    apply (canon_files_spec _ _ _ H) in He. destruct He as (key & f & rs & r & self & deps & d & A & B & C & D & E & F & G & I).
    apply canon_dep_edit in I. destruct I as (t & I & J & K). exists key, f, rs, r, self, deps, d, t. auto 12.
  - intros (key & f & rs & r & self & deps & d & t & A & B & C & D & E & F & G & I & J & ->).
    exists (CanonEdit (mkEdit KRename self (v_text d) (target_to_string_rel t (pf_package f)))). split; [|now left].
    apply (canon_files_spec _ _ _ H). exists key, f, rs, r, self, deps, d. do 7 (split; [assumption|]).
    apply canon_dep_edit. exists t. auto.
Qed.
Print Assumptions C63_edits.
(** C63: everything is reported once for each time it is there, in the order of the files. *)
Theorem C63_order : forall pr pt evs, canonicalize_edits pr pt = Ret evs ->
  exists per_file, Forall2 (file_events pt) (pr_files pr) per_file /\ evs = concat per_file.
Proof. intros pr pt evs. exact (canon_files_order pt (pr_files pr) evs). Qed.
Print Assumptions C63_order.
(** C63: labels that cannot be read are reported instead. *)
Theorem C63_invalid : forall pr pt evs, canonicalize_edits pr pt = Ret evs -> forall l,
  In (CanonInvalid l) evs <->
  exists key f rs r self deps d, In (key, f) (pr_files pr) /\ find_targets [] (pf_ast f) = Ret rs /\ In r rs /\
    qualified_target (pf_package f) (v_text (q_name r)) = Some self /\ match_target pt self = true /\
    extract_string_list (q_deps r) = Ret deps /\ In d deps /\
    l = v_text d /\ parse_target (v_text d) (pf_package f) = None.
Proof.
  intros pr pt evs H l. rewrite (canon_files_spec _ _ _ H (CanonInvalid l)).
  split; intros (key & f & rs & r & self & deps & d & A & B & C & D & E & F & G & I);
    exists key, f, rs, r, self, deps, d; do 7 (split; [assumption|]); now apply canon_dep_invalid in I || apply canon_dep_invalid.
Qed.
Print Assumptions C63_invalid.
(** C63: the new spelling names the same target, and is left alone by another run. *)
Theorem C63_same_target : forall p self dep e,
  wf_project (project p) -> In (CanonEdit e) (canon_dep p self dep) ->
  (forall t, parse_target dep p = Some t -> project (tpackage t) <> $"@" /\ target_to_string_rel t p <> []) ->
  parse_target (e_after e) p = parse_target dep p /\
  forall e', ~ In (CanonEdit e') (canon_dep p self (e_after e)).
Proof.
  intros p self dep e H1 H2 H3. apply canon_dep_edit in H2. destruct H2 as (t & Ht & Hn & ->).
  destruct (H3 t Ht) as [A B]. cbn [e_after]. split.
  - rewrite Ht. now apply (canonical_same_target dep).
  - intros e'. eapply canon_idempotent; eauto.
Qed.
Print Assumptions C63_same_target.

Example C63_case :
  let p := mkPackage [] ($"foo") in let self := mkTarget p ($"x") in
  canon_dep p self ($"//foo:bar") = [CanonEdit (mkEdit KRename self ($"//foo:bar") ($":bar"))] /\
  canon_dep p self ($":bar") = [] /\ canon_dep p self ($"a:b:c") = [CanonInvalid ($"a:b:c")].
Proof. repeat split; reflexivity. Qed.
