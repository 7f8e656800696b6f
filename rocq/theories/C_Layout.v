(** Property C75: comments, blanks and line breaks do not change what a file means. *)
From Verif Require Import Base M_Types M_Scanner S_Scanner M_Ast M_Parser M_Query M_Elab M_Project S_Layout P_Layout P_LayoutParse P_LayoutMean P_LayoutSelf.
Local Open Scope string_scope.
Local Open Scope list_scope.

(** C75. The same words in the same order are the same tokens, *)
Theorem C75_tokens : forall c c', reformatted c c' ->
  map (fun t => (tok_type t, tok_text t)) (all_tokens c) = map (fun t => (tok_type t, tok_text t)) (all_tokens c').
Proof.
  intros c c' R. destruct (tokens_again c c' R) as (t & t' & ts & ts' & -> & -> & T1 & T2 & E & _). cbn [map]. rewrite T1, T2. f_equal.
  revert ts' E. induction ts as [|u ts IH]; intros [|u' ts'] E; try discriminate E; [reflexivity|]. apply map_cons_inv in E as [E1 E2]. cbn [map].
  pose proof (f_equal tok_type E1) as A. pose proof (f_equal tok_text E1) as B. cbn in A, B. rewrite A, B. f_equal. apply IH, E2.
Qed.
Print Assumptions C75_tokens.
(** are parsed to the same tree, with errors, if any, at the same words, *)
Theorem C75_tree : forall c c', reformatted c c' -> exists stmts errs stmts' errs',
  parse c = Ret (stmts, errs) /\ parse c' = Ret (stmts', errs') /\ map bare stmts = map bare stmts' /\ map bare_complaint errs = map bare_complaint errs'.
Proof. exact parse_again. Qed.
Print Assumptions C75_tree.
(** and mean the same: the expressions have the same values, and the same rules are found, with the same attributes. *)
Theorem C75_values : forall files_of c c', reformatted c c' ->
  seen (map bare) (do (stmts, _) <- parse c; elaborate files_of stmts) = seen (map bare) (do (stmts, _) <- parse c'; elaborate files_of stmts).
Proof. intros mg c c' R. destruct (parse_again c c' R) as (l & errs & l' & errs' & -> & -> & E & _). cbn [bind]. apply elaborate_bare, E. Qed.
Print Assumptions C75_values.
Theorem C75_rules : forall files_of interest allow_empty c c', reformatted c c' ->
  seen (map bare_result) (do (stmts, _) <- parse c; do stmts <- elaborate files_of stmts; find_targets_in interest allow_empty stmts) =
  seen (map bare_result) (do (stmts, _) <- parse c'; do stmts <- elaborate files_of stmts; find_targets_in interest allow_empty stmts).
Proof.
  intros mg fi ae c c' R. destruct (parse_again c c' R) as (l & errs & l' & errs' & -> & -> & E & _). cbn [bind].
  eapply seen_bind; [apply elaborate_bare, E|]. intros a a' A. apply find_targets_in_bare, A.
Qed.
Print Assumptions C75_rules.
(** Any file without ill-formed tokens may be re-spaced; leaving it as it is is one way. *)
Theorem C75_self : forall c, (forall t, In t (all_tokens c) -> tok_type t <> TError) -> reformatted c c.
Proof. exact reformatted_self. Qed.
Print Assumptions C75_self.

(** A file on one line, and the same on several, with a comment. *)
Definition one_line : str := $"cc_library(name=""a"",deps=["":b""]+[x not in y])#end".
Definition as_words : list word :=
  [mkWord [] ($"# about" ++ [NL]) ($"cc_library"); mkWord [] ($" ") ($"("); mkWord [] ([NL] ++ $"  ") ($"name"); mkWord [] ($" ") ($"=");
   mkWord [] ($" ") ($"""a"""); mkWord [] [] ($","); mkWord [] ([NL] ++ $"  # why" ++ [NL] ++ $"  ") ($"deps"); mkWord [] ($" ") ($"=");
   mkWord [] ($" ") ($"["); mkWord [] ([NL] ++ $"    ") ($""":b"""); mkWord [] ([NL] ++ $"  ") ($"]"); mkWord [] ($" ") ($"+"); mkWord [] ($" ") ($"["); mkWord [] [] ($"x");
   mkWord ($" ") ($"#z" ++ [NL]) ($"not in"); mkWord ($" ") ($"  ") ($"y"); mkWord [] [NL] ($"]"); mkWord [] [] ($")")].
Definition several_lines : str := as_after as_words ($" # keep" ++ [NL]).
Ltac a_gap := cbn [app]; lazymatch goal with
  | |- gap _ [] => apply gap_nil
  | |- gap _ ("#"%char :: ?s) =>
      let rec go s := lazymatch s with "010"%char :: ?g => constr:((@nil ascii, Some g)) | [] => constr:((@nil ascii, @None str))
        | ?c :: ?s => let r := go s in lazymatch r with (?b, ?g) => constr:((c :: b, g)) end end in
      let r := go s in
      lazymatch r with
      | (?b, Some ?g) => apply (gap_comment _ b g); [intros X; cbn in X; intuition discriminate|a_gap]
      | (?b, None) => apply (gap_last _ b); [reflexivity|intros X; cbn in X; intuition discriminate]
      end
  | |- gap _ (_ :: _) => apply gap_blank; [left; reflexivity|a_gap]
  end.
Example C75_case : reformatted one_line several_lines.
Proof.
  exists as_words, ($"#end"), ($" # keep" ++ [NL]). split; [reflexivity|]. split; [reflexivity|]. split; [vm_compute; reflexivity|]. split.
  - assert (H : forallb (fun t => negb (toktype_beq (tok_type t) TError)) (all_tokens one_line) = true) by (vm_compute; reflexivity).
    intros t I E. rewrite forallb_forall in H. specialize (H t I). rewrite E in H. discriminate H.
  - split; [|split; cbv; a_gap]. split.
    + unfold as_words. repeat apply Forall_cons; try apply Forall_nil; split; cbv; a_gap.
    + cbn [as_words kept_apart]. repeat split; try (cbn; tauto); try discriminate; cbn; intuition discriminate.
Qed.
Example C75_case_rules : seen (map bare_result) (do (stmts, _) <- parse several_lines; find_targets_in [$"cc_library"] false stmts) =
    seen (map bare_result) (do (stmts, _) <- parse one_line; find_targets_in [$"cc_library"] false stmts) /\
  match parse several_lines with Ret (stmts, []) => match find_targets_in [$"cc_library"] false stmts with Ret [r] => v_text (q_name r) = $"a" | _ => False end | _ => False end.
Proof. vm_compute. split; reflexivity. Qed.
(** What the conditions exclude does change the meaning: a bracket on the next line starts a new statement, *)
Example C75_bracket_refuted : exists c c' : str, c = $"y = x [0]" /\ c' = $"y = x" ++ [NL] ++ $"[0]" /\
  match parse c, parse c' with Ret (l, []), Ret (l', []) => length l = 1 /\ length l' = 2 | _, _ => False end.
Proof. eexists. eexists. split; [reflexivity|]. split; [reflexivity|]. vm_compute. split; reflexivity. Qed.
(** a comment after "not" that goes away, *)
Example C75_not_refuted : exists c c' : str, c = $"x = not #" ++ [NL] ++ $"index" /\ c' = $"x = not index" /\
  map tok_text (all_tokens c) = [$"x"; $"="; $"not"; $"index"; []] /\ map tok_text (all_tokens c') = [$"x"; $"="; $"not in"; $"dex"; []].
Proof. eexists. eexists. split; [reflexivity|]. split; [reflexivity|]. vm_compute. split; reflexivity. Qed.
(** and a blank after a malformed number. *)
Example C75_error_refuted : exists c c' : str, c = $"1.2.3" /\ c' = $"1.2 .3" /\ map tok_text (all_tokens c) = [$"1.2"; $".";  $"3"; []] /\
  map tok_type (all_tokens c) <> map tok_type (all_tokens c').
Proof. eexists. eexists. split; [reflexivity|]. split; [reflexivity|]. vm_compute. split; [reflexivity|discriminate]. Qed.
