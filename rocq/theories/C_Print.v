(** Property C66: print. *)
From Verif Require Import Base OMap M_Types M_Scanner S_Scanner M_Ast M_Parser S_Parser M_Query S_Query P_Query M_Elab P_Elab M_Workspace M_Project M_DepGraph
  S_DepGraph M_Printer M_Highlight M_Commands S_Commands P_Commands S_Run P_Run S_Print P_Print T_Parser C_DepGraph C_Locations C_Commands.
Local Open Scope string_scope.
Local Open Scope list_scope.

(** All rules the pattern selects, in order, each with where it is. *)
Theorem C66_rules : forall pt only_errors pr out, (forall p f, In (p, f) (pr_files pr) -> plain_lines (pf_content f)) ->
  print_project NoGrep false only_errors pt pr = Ret out -> shown_rules (fun _ => true) only_errors pt (pr_files pr) out.
Proof. intros pt oe pr out P E. exact (print_files_spec None oe pt (pr_files pr) I P out E). Qed.
Print Assumptions C66_rules.
(** With -g: those in which a word matches. *)
Theorem C66_grep : forall find pt only_errors pr out, (forall p f, In (p, f) (pr_files pr) -> plain_lines (pf_content f)) ->
  usable_search find -> print_project (Grep find) false only_errors pt pr = Ret out ->
  shown_rules (fun r => grepped find (q_node r)) only_errors pt (pr_files pr) out.
Proof. intros find pt oe pr out P U E. exact (print_files_spec (Some find) oe pt (pr_files pr) U P out E). Qed.
Print Assumptions C66_grep.
(** Colours do not change what is seen. *)
Definition proper_grep (g : grep_flag) : Prop := match g with Grep find => usable_search find | _ => True end.
Theorem C66_colour : forall g pt only_errors pr out, proper_grep g -> print_project g true only_errors pt pr = Ret out ->
  exists text, print_project g false only_errors pt pr = Ret text /\ (~ In "027"%char text -> visible out = text).
Proof.
  intros g pt oe pr out U E. destruct g as [| |find]; cbn [print_project] in *.
  - apply print_files_shows in E as (s & -> & H); [|exact I]. exists s. split; [reflexivity|]. apply shows_visible, H.
  - injection E as <-. exists []. auto.
  - apply print_files_shows in E as (s & -> & H); [|exact U]. exists s. split; [reflexivity|]. apply shows_visible, H.
Qed.
Print Assumptions C66_colour.

(** A regular expression that matches nothing somewhere: bant does not come to an end. *)
Theorem C66_empty_match_refuted : forall find color s, find s = Some (0, 0, 0) -> forall rounds, highlight_loop color find rounds s = OutOfFuel.
Proof.
  intros find color s F. induction rounds as [|n IH]; cbn [highlight_loop]; unfold find_mark; rewrite F; cbn [option_map]; [reflexivity|].
  cbn [fst snd m_consumed skipn]. rewrite IH. reflexivity.
Qed.
Print Assumptions C66_empty_match_refuted.
(** What is given to -g is put in parentheses: with "a)(b" a matched text "ab" is shown as "a". *)
Definition unbalanced (s : str) : option (nat * nat * nat) := if str_eqb s ($"ab") then Some (0, 1, 2)%nat else None.
Theorem C66_unbalanced_refuted : exists find n out, hprint (Some find) false 0 n = Ret (out, true) /\ print 0 n <> Ret out.
Proof. exists unbalanced, (NId (mkView ($"ab") (InFile 0))), ($"a"). split; [reflexivity|discriminate]. Qed.
Print Assumptions C66_unbalanced_refuted.

Section Run.
Variable is_directory : str -> bool.
Variable can_read : str -> bool.
Variable glob : str -> list str.
Variable read_file : str -> option str.
Variable glob_in : workspace -> package -> list str -> list str -> list str.
Variable collect_build_files : workspace -> pattern -> list str.
Variable compilation_flags : workspace -> parsed_project -> pattern -> bool -> outcome str.
(** The command is about the files of the pattern; they are evaluated with -e. *)
Theorem C66_command : forall fl pt out,
  run_command is_directory can_read glob read_file glob_in collect_build_files compilation_flags fl CPrint pt = Ret (out, ExitSuccess) ->
  exists w pr, the_workspace is_directory can_read glob read_file w /\ loaded read_file glob_in collect_build_files w pt (fl_elaborate fl) pr /\
    print_project (fl_grep fl) (fl_color fl) (fl_print_only_errors fl) pt pr = Ret out.
Proof.
  intros fl pt out E. apply run_spec in E as [(_ & _ & C)|(w & pr & g & P & E)]; [discriminate C|]. apply prepare_spec in P.
  cbn [needs_project elaborate_for wants_graph depth_for andb] in P. destruct P as (W & pr0 & H & [_ ->]).
  exists w, pr0. split; [exact W|]. split; [exact H|]. unfold perform in E.
  destruct (print_project _ _ _ _ _) as [o| |]; try discriminate. injection E as <-. reflexivity.
Qed.
End Run.
Print Assumptions C66_command.

(** Looking for a word. *)
Fixpoint find_word (w : str) (skipped : nat) (s : str) : option (nat * nat * nat) :=
  if starts_with w s then Some (skipped, length w, skipped + length w)%nat
  else match s with [] => None | _ :: s => find_word w (S skipped) s end.
Lemma find_word_usable w : w <> [] -> usable_search (find_word w 0).
Proof.
  intros N s. assert (K : forall k start len stop, find_word w k s = Some (start, len, stop) -> (0 < len /\ start + len = stop /\ stop <= k + length s)%nat).
  { induction s as [|c s IH]; intros k start len stop E; cbn [find_word] in E; destruct (starts_with w _) eqn:St.
    - apply starts_with_iff in St as [r St]. destruct w; [congruence|discriminate].
    - discriminate.
    - injection E as <- <- <-. apply starts_with_iff in St as [r St]. rewrite St, app_length. destruct w; [congruence|]. cbn [length]. lia.
    - apply IH in E. cbn [length]. lia. }
  intros start len stop E. apply K in E. lia.
Qed.
Definition printed (g : grep_flag) (color : bool) (arg : string) : option str :=
  match parse_pattern ($arg) with
  | PatOk pt => match print_project g color false pt (mkProject [(mkPackage [] ($"p"), listed_file)] 0) with Ret out => Some out | _ => None end
  | _ => None
  end.
Example C66_case : usable_search (find_word ($"ong") 0) /\
  printed NoGrep false "//p:ab" = Some (nl ["# p/BUILD:1:1-10: //p:ab"; "cc_library(name = ""ab"",)"]) /\
  printed (Grep (find_word ($"ong") 0)) false "//p/..." = Some (nl ["# p/BUILD:2:1-7: //p:long"; "cc_test(name = ""long"",)"]) /\
  option_map visible (printed (Grep (find_word ($"ong") 0)) true "//p/...") = printed (Grep (find_word ($"ong") 0)) false "//p/..." /\
  printed (Grep (find_word ($"ong") 0)) true "//p/..." <> printed (Grep (find_word ($"ong") 0)) false "//p/...".
Proof. split; [apply find_word_usable; discriminate|]. vm_compute. repeat split; discriminate || reflexivity. Qed.
