(** Property C73: the program comes to an end and does not crash. *)
From Coq Require Import NArith.
From Verif Require Import Base OMap M_Types M_Scanner M_Ast M_Parser P_Parser M_Query M_Elab S_Elab M_Workspace M_Project M_DepGraph S_DepGraph M_Walk S_Walk P_GlobFiles S_CompDb S_Run M_Table M_Highlight S_Print
  M_Commands M_Main M_System S_Order P_Order T_Walk C_Locations C_Commands C_Print C_Order S_Total P_Total.
Local Open Scope string_scope.
Local Open Scope list_scope.

(** Every command on the files of any such file system comes to an end, with an output and an exit status;
    those that write compilation flags can only crash on a rule without usable name, or with include_prefix
    in the main project. *)
Theorem C73_runs : forall fuel fs fl args, proper_names (fs_list fs) -> proper_files fs -> proper_workspace fs -> proper_grep (fl_grep fl) ->
  match run_in fuel fs fl args with
  | None => exists word arg more, args = word :: arg :: more /\ parse_pattern arg = PatUnmodelled
  | Some (Ret _) => True
  | Some OutOfFuel => False
  | Some UB => troublesome_rule fs /\ exists word more cmd, args = word :: more /\ find_command command_names word = Found cmd /\ about_flags cmd = true
  end.
Proof. intros fuel fs fl args P F W. exact (run_ends fuel fs P F W fl args). Qed.
Print Assumptions C73_runs.
(** The walks through directories in this end as well, if there are finitely many directories. *)
Theorem C73_walks : forall fs inodes fuel w pt p incl excl, proper_names (fs_list fs) -> inodes_are fs inodes -> length inodes < fuel ->
  (exists l, collect_build_files (fs_list fs) (fs_stat fs) (fs_link fs) fuel w pt = Ret l /\ found_build_files fuel fs w pt = map fp_path l) /\
  (exists l, glob_files (fs_list fs) (fs_stat fs) fuel w p incl excl = Ret l /\ globbed_files fuel fs w p incl excl = l).
Proof. intros fs inodes fuel w pt p incl excl P F L. exact (walks_end fs P inodes F fuel L w pt p incl excl). Qed.
Print Assumptions C73_walks.
(** The same with a command line: that can also have a number that is no int. *)
Theorem C73_program : forall fuel change_dir open_output seen is_terminal compile args,
  (forall dirs, proper_names (fs_list (seen dirs)) /\ proper_files (seen dirs) /\ proper_workspace (seen dirs)) ->
  (forall re find, compile re = Some find -> usable_search find) ->
  match program fuel change_dir open_output seen is_terminal compile args with
  | None => exists arg, parse_pattern arg = PatUnmodelled /\ In arg (snd (getopt args))
  | Some (Ret _) => True
  | Some OutOfFuel => False
  | Some UB => (exists fs n, In ("-"%char :: fs ++ "r"%char :: n) args /\ too_big n) \/
               (exists dirs, troublesome_rule (seen dirs)) /\ exists word cmd, In word (snd (getopt args)) /\ find_command command_names word = Found cmd /\ about_flags cmd = true
  end.
Proof. exact program_ends. Qed.
Print Assumptions C73_program.
(** The parts: each command on a project of such files; ... *)
Theorem C73_commands : forall read_file flags_out fl cmd pt w pr g, proper_grep (fl_grep fl) -> (forall p f, In (p, f) (pr_files pr) -> clean_file f) ->
  about_flags cmd = false -> exists r, perform read_file flags_out fl cmd pt w pr g = Ret r.
Proof.
  intros rf fo fl cmd pt w pr g U C A. destruct (perform_ends rf fo fl cmd pt w pr g U C) as [R|(B & _)]; [exact R|]. rewrite A in B. discriminate.
Qed.
Print Assumptions C73_commands.
(** ... and what is printed of it. *)
Theorem C66_possible : forall g color only_errors pt pr, proper_grep g -> (forall p f, In (p, f) (pr_files pr) -> clean_file f) ->
  exists out, print_project g color only_errors pt pr = Ret out.
Proof. exact print_ends. Qed.
Print Assumptions C66_possible.

(** * Cases *)
Definition foo : str := $"bazel-out/../../../external/foo~1".
Definition foo_files : list (str * str) :=
  [($"MODULE.bazel", $"bazel_dep(name = ""foo"", version = ""1"")"); ($"./a/BUILD", $"cc_library(name = ""x"", srcs = [""x.cc""], deps = [""//b:y""])");
   ($"b/BUILD.bazel", $"cc_library(name = ""y"", deps = [""@foo//:z""] + select({""//conditions:default"": []}))"); (foo ++ $"/BUILD", $"cc_library(name = ""z"")")].
Definition foo_fs : file_system :=
  mkFs (lookup [($".", [mkEntry ($"a") DtDir 11; file ($"MODULE.bazel")]); ($"./a", [file ($"BUILD")]); ($"b", [file ($"BUILD.bazel")]); (foo ++ $"/", [file ($"BUILD")])])
    (lookup [(foo, (13%N, true))]) (fun _ => false) (fun p => str_eqb p foo || match lookup foo_files p with Some _ => true | None => false end) (fun _ => []) (lookup foo_files) ($"/w").
Definition deep : flags := mkFlags false false false false 2 FmtCsv NoGrep false.
Definition out_of (fs : file_system) (args : list str) : option str :=
  match run_in 9 fs deep args with Some (Ret (out, ExitSuccess)) => Some out | _ => None end.
Lemma good_computed content stmts : parse content = Ret (stmts, []) -> forallb (fun x => negb (existsb (str_eqb x) (flat_map assigned stmts))) (flat_map called stmts) = true ->
  good_content called assigned content.
Proof.
  intros P H. exists stmts. split; [exact P|]. intros x I J. rewrite forallb_forall in H. specialize (H x I). apply negb_true_iff in H. apply not_true_iff_false in H. apply H.
  apply existsb_exists. exists x. split; [exact J|]. apply str_eqb_eq. reflexivity.
Qed.
Lemma foo_proper_files : proper_files foo_fs.
Proof.
  split.
  - intros f content _ E. cbn [fs_content foo_fs] in E. apply lookup_in in E.
    destruct E as [E|[E|[E|[E|[]]]]]; injection E as <- <-; (eapply good_computed; [vm_compute; reflexivity|vm_compute; reflexivity]).
  - intros f (d & N) C. cbn [fs_can_read fs_content foo_fs] in *. apply orb_prop in C as [C|C].
    + apply str_eqb_eq in C. exfalso. destruct N as [-> | ->]; apply (f_equal (fun s => nth 0 (rev s) " "%char)) in C; rewrite rev_app_distr in C; discriminate C.
    + destruct (lookup foo_files f) as [content|]; [eauto|discriminate].
Qed.
Lemma foo_proper_workspace : proper_workspace foo_fs.
Proof.
  intros w [n v] d (decls & w0 & D & [_ X] & ->) I. cbn in I. apply X in I as (a & r & b & E & (Ex & _ & _) & _). clear X.
  assert (H : In r decls) by (rewrite E; apply in_or_app; right; now left). clear E.
  assert (K : v_text (q_name r) = $"foo" /\ v_text (q_version r) = $"1").
  { unfold workspace_files in D. do 3 (inversion D as [|? ? ? ? D'|]; subst; [clear D; rename D' into D|match goal with R : fs_content foo_fs _ = Some _ |- _ => vm_compute in R; discriminate R end]).
    inversion D as [|? ? ? R|? ? content stmts errs rs rs' R P F D']; subst; [vm_compute in R; discriminate R|]. inversion D'; subst. vm_compute in R. injection R as <-. vm_compute in P. injection P as <- <-.
    vm_compute in F. injection F as <-. rewrite app_nil_r in H. destruct H as [<-|[]]. split; reflexivity. }
  destruct K as [Kn Kv]. destruct Ex as (_ & Ex). rewrite Kn, Kv in Ex.
  assert (Hd : In d (places ($"foo") ($"1"))) by (destruct Ex as [(x & y & -> & _)|(_ & more & G)]; [apply in_or_app; right; now left|discriminate G]).
  intros q ->. destruct Hd as [Hd|[Hd|[Hd|[]]]]; apply (f_equal (fun s => nth 0 (rev s) " "%char)) in Hd; rewrite (rev_app_distr q) in Hd; discriminate Hd.
Qed.
Example C73_case : proper_names (fs_list foo_fs) /\ proper_files foo_fs /\ proper_workspace foo_fs /\ inodes_are foo_fs [11%N] /\
  out_of foo_fs [$"depends-on"; $"//..."] = Some ($"""library"",""depends-on""" ++ [NL] ++ $"""//a:x"",""//b:y""" ++ [NL] ++ $"""//b:y"",""@foo//:z""" ++ [NL]).
Proof.
  split; [apply proper_table_ok; vm_compute; reflexivity|]. split; [exact foo_proper_files|]. split; [exact foo_proper_workspace|]. split.
  - intros d e i D. pose proof (proj1 D) as E. destruct E as ((l & L & I) & _). cbn [fs_list foo_fs] in L. apply lookup_in in L.
    destruct D as (_ & [(Dt & ->)|(Dt & _)]); destruct L as [L|[L|[L|[L|[]]]]]; injection L as <- <-; cbn in I; repeat (destruct I as [<-|I]; [try (cbn in Dt; destruct Dt; discriminate); try discriminate Dt|]); try (destruct I; fail).
    split; [split; discriminate|now left].
  - vm_compute. reflexivity.
Qed.

(** Without any one of these it can crash, or go on for ever. *)
Definition crashes (fs : file_system) (fl : flags) (args : list str) : Prop := run_in 9 fs fl args = Some UB.
Definition with_rule (rule : str) : file_system :=
  some_fs [($".", [file ($"BUILD")])] [] [] [($"MODULE.bazel", []); ($"./BUILD", rule)].
Definition build_directory : file_system :=
  mkFs (lookup [($"a", [file ($"BUILD")])]) (fun _ => None) (fun _ => false) (fun p => str_eqb p ($"b/BUILD")) (fun _ => [])
    (lookup [($"MODULE.bazel", []); ($"a/BUILD", $"cc_library(name = ""x"", deps = [""//b:y""])")]) ($"/w").
Definition slashes : str := $"bazel-out/../../../external/foo////////".
Definition many_slashes : file_system :=
  mkFs (lookup [(slashes ++ $"/", [file ($"BUILD")])]) (lookup [(slashes, (13%N, true))]) (fun _ => false) (fun _ => true) (fun _ => [])
    (lookup [($"MODULE.bazel", $"bazel_dep(name = ""foo////////"", repo_name = ""foo"")")]) ($"/w").
Definition anything (s : str) : option (nat * nat * nat) := Some (0, 0, 0)%nat.
Theorem C73_exceptions_refuted :
  crashes (with_rule ($"cc_library(name = ""x"", include_prefix = ""i"")")) deep [$"compilation-db"; $"//..."] /\
  crashes (with_rule ($"cc_library(name = "":"", srcs = [""x.cc""])")) deep [$"compile-flags"; $"//..."] /\
  crashes (with_rule ($"cc_library(name = ""x"", deps = [""y"", = ])")) csv [$"depends-on"; $"//..."] /\
  crashes (with_rule ($"x = ""y""" ++ [NL] ++ $"x(name = ""z"")")) C_Order.evaluated [$"print"; $"//..."] /\
  crashes build_directory deep [$"depends-on"; $"//a:x"] /\
  crashes many_slashes csv [$"list-targets"; $"@foo//..."] /\
  run_in 9 (with_rule ($"cc_library(name = ""x"")")) (mkFlags false false false false 0 FmtCsv (Grep anything) false) [$"print"; $"//..."] = Some OutOfFuel /\
  program 9 (fun _ _ => true) (fun _ _ => true) (fun _ => foo_fs) false (fun _ => None) [$"print"; $"-r2147483648"] = Some UB.
Proof.
  repeat split; vm_compute; reflexivity.
Qed.
Print Assumptions C73_exceptions_refuted.
