(** Proofs for C17 and C73: even in a file with syntax errors every function call that the parser makes has
    a name and a list of arguments. *)
From Verif Require Import Base OMap M_Types M_Scanner M_Ast M_Parser M_Query S_Query P_Query P_Parser.

Fixpoint shaped (n : node) : bool :=
  match n with
  | NNull | NStr _ _ _ | NInt _ _ | NId _ => true
  | NUnary _ n => shaped n
  | NBin _ l r _ => shaped l && shaped r
  | NList _ l => forallb shaped l
  | NComp _ f => shaped f
  | NTernary c p n => shaped c && shaped p && shaped n
  | NAssign l r _ => shaped l && shaped r
  | NCall i a => match i, a with NId _, NList _ l => forallb shaped l | _, _ => false end
  end.
Definition input_shaped (p : production) : Prop :=
  match p with
  | PExpressionLoop n | PIfElse n => shaped n = true
  | PTupleLoop l | PList _ l _ _ => forallb shaped l = true
  | PComprehensionFor n t _ => shaped n = true /\ shaped t = true
  | _ => True
  end.
Definition result_shaped (p : production) (n : node) : Prop :=
  shaped n = true /\ match p with PList _ _ _ _ => exists ty l, n = NList ty l | _ => True end.
Ltac split_all := repeat (match goal with
  | H : Ret _ = Ret _ |- _ => injection H as <- <-
  | H : Ret _ = Ret _ |- _ => injection H as <-
  | H : UB = Ret _ |- _ => discriminate H
  | H : bind ?x _ = Ret _ |- _ => destruct x as [[? ?]| |] eqn:?; cbn [bind] in H; [|discriminate H..]
  | H : bind ?x _ = Ret _ |- _ => destruct x as [?| |] eqn:?; cbn [bind] in H; [|discriminate H..]
  | H : match ?x with _ => _ end = Ret _ |- _ => destruct x eqn:?
  end).
Section Step.
Variable self : production -> pstate -> outcome (node * pstate).
Hypothesis IH : forall p ps n ps', input_shaped p -> self p ps = Ret (n, ps') -> result_shaped p n.
Ltac known := repeat (match goal with
  | H : self ?p ?ps = Ret (?n, ?ps') |- _ =>
      let K := fresh "K" in assert (K : input_shaped p -> result_shaped p n) by (intros ?; eapply IH; eauto); clear H; cbn [input_shaped] in K; unfold result_shaped in K
  end).
Ltac shape := cbn [shaped forallb app] in *; rewrite ?forallb_app, ?andb_true_iff in *; cbn [shaped forallb] in *; rewrite ?andb_true_r, ?andb_true_iff in *; intuition eauto.
Lemma step_shaped p ps n ps' : input_shaped p -> production_step self p ps = Ret (n, ps') -> result_shaped p n.
Proof.
  intros In E. unfold result_shaped. destruct p; cbn [production_step input_shaped] in *.
  - unfold parse_expression in E. split_all; known; shape.
  - unfold parse_expression_loop in E. split_all; known; shape.
  - unfold parse_value_or_identifier, parse_int_from_token, string_node in E. split_all; known; shape.
  - unfold parse_paren_expression_or_tuple in E. split_all; known; shape.
  - unfold parse_tuple_loop in E. split_all; known; shape.
  - unfold parse_array_or_slice_access in E. split_all; known; shape.
  - unfold parse_if_else in E. split_all; known; shape.
  - unfold parse_element, expression_or_assignment, parse_node_assign_rhs, parse_map_tuple, parse_optional_identifier in E. split_all; known; shape.
  - unfold parse_list in E. split_all; known; shape.
  - unfold parse_list_or_list_comprehension in E. split_all; known; shape.
  - unfold parse_comprehension_for in E. split_all; known; shape.
  - unfold parse_fun_call in E. split_all; known. destruct (K eq_refl) as (S & ty & l & ->). cbn [shaped] in *. auto.
Qed.
End Step.
Lemma run_shaped fuel : forall p ps n ps', input_shaped p -> run fuel p ps = Ret (n, ps') -> result_shaped p n.
Proof. induction fuel as [|fuel IH]; intros p ps n ps' I E; [discriminate|]. eapply step_shaped; eauto. Qed.
Lemma toplevel_shaped fuel ps n ps' : parse_toplevel fuel ps = Ret (TopStatement n, ps') -> shaped n = true.
Proof.
  unfold parse_toplevel. intros E. split_all; try discriminate;
    repeat match goal with H : run _ ?p _ = Ret _ |- _ => apply run_shaped in H; [|cbn; auto]; destruct H as [? _] end;
    try match goal with H : parse_node_assign_rhs _ _ _ _ _ = Ret _ |- _ => unfold parse_node_assign_rhs in H; split_all end;
    repeat match goal with H : run _ ?p _ = Ret _ |- _ => apply run_shaped in H; [|cbn; auto]; destruct H as [? _] end; cbn [shaped]; rewrite ?andb_true_iff; auto.
Qed.
Lemma loop_shaped rounds fuel : forall stmts ps l ps', forallb shaped stmts = true -> parse_loop rounds fuel stmts ps = Ret (l, ps') -> forallb shaped l = true.
Proof.
  induction rounds as [|k IH]; intros stmts ps l ps' S E; cbn [parse_loop] in E; [discriminate|].
  destruct (p_errs ps); [|injection E as <- <-; exact S]. destruct (parse_toplevel fuel ps) as [[[n| |] ps1]| |] eqn:T; cbn [bind] in E; try discriminate.
  - apply toplevel_shaped in T. eapply IH; [|exact E]. rewrite forallb_app, S. cbn. now rewrite T.
  - eapply IH; eauto.
  - injection E as <- <-. exact S.
Qed.
Theorem parse_shaped content stmts errs : parse content = Ret (stmts, errs) -> forallb shaped stmts = true.
Proof. unfold parse, parse_tokens. intros E. split_all. eapply loop_shaped; [|eassumption]. reflexivity. Qed.
Lemma shaped_calls n c : shaped n = true -> In c (rule_calls n) -> proper_call c.
Proof.
  revert c. induction n using node_ind'; intros x H0 I; cbn [shaped rule_calls] in *; try (destruct I; fail); auto.
  - rewrite ?andb_true_iff in H0. apply in_app_or in I as [I|I]; intuition eauto.
  - apply in_flat_map in I as (y & Iy & I). rewrite Forall_forall in H. rewrite forallb_forall in H0. eauto.
  - rewrite ?andb_true_iff in H0. repeat (apply in_app_or in I as [I|I]); intuition eauto.
  - destruct I as [<-|[]]. unfold proper_call. destruct n1; try discriminate. destruct n2; try discriminate. eauto.
Qed.
Theorem parsed_queries content stmts errs interest allow : parse content = Ret (stmts, errs) ->
  find_targets_in interest allow stmts = Ret (reported interest allow None (flat_map rule_calls stmts)).
Proof.
  intros P. apply find_targets_spec. rewrite Forall_forall. intros c I. apply in_flat_map in I as (n & In_ & I). apply parse_shaped in P. rewrite forallb_forall in P. eapply shaped_calls; eauto.
Qed.
