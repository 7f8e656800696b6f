(** Properties C23 and C24: queries for rules. *)
From Verif Require Import Base M_Scanner M_Ast M_Parser M_Query S_Query P_Query P_Elab S_Parser P_Parser T_Parser T_Elab.
Local Open Scope string_scope.
Local Open Scope list_scope.

(** In a file without syntax errors all rule calls have a name and a list of
    arguments. *)
Theorem C23_calls_proper : forall content stmts,
  parse content = Ret (stmts, []) -> Forall proper_call (flat_map rule_calls stmts).
Proof.
  intros content stmts P. apply sound_proper. apply sound_flat.
  eapply Forall_impl; [|exact (proj2 (parse_trees _ _ _ P) eq_refl)]. exact whole_statement_sound.
Qed.
Print Assumptions C23_calls_proper.

(** C23. The rules reported are exactly the matching calls, once each, in order. *)
Theorem C23_exactly_once : forall interest allow_empty stmts rs,
  Forall proper_call (flat_map rule_calls stmts) ->
  find_targets_in interest allow_empty stmts = Ret rs ->
  map q_node rs = filter (matching interest allow_empty) (flat_map rule_calls stmts).
Proof. exact find_targets_once. Qed.
Print Assumptions C23_exactly_once.
(** With the last value of each keyword. *)
Theorem C23_C24_attributes : forall interest allow_empty stmts rs r,
  Forall proper_call (flat_map rule_calls stmts) ->
  find_targets_in interest allow_empty stmts = Ret rs -> In r rs ->
  exists a f ty args b, flat_map rule_calls stmts = a ++ NCall (NId f) (NList ty args) :: b /\
    matching interest allow_empty (NCall (NId f) (NList ty args)) = true /\
    r = completed (last_value as_list ($"default_visibility") (package_keywords a))
          (described (NCall (NId f) (NList ty args)) f (flat_map kwargs args)).
Proof. exact find_targets_attributes. Qed.
Print Assumptions C23_C24_attributes.
(** The query always comes back. *)
Theorem C23_total : forall interest allow_empty stmts,
  Forall proper_call (flat_map rule_calls stmts) ->
  find_targets_in interest allow_empty stmts =
  Ret (reported interest allow_empty None (flat_map rule_calls stmts)).
Proof. exact find_targets_spec. Qed.
Print Assumptions C23_total.

(** C24. The visibility: the rule's own, or that of the last package() before. *)
Theorem C24_visibility : forall interest allow_empty stmts rs r,
  Forall proper_call (flat_map rule_calls stmts) ->
  find_targets_in interest allow_empty stmts = Ret rs -> In r rs ->
  exists a b, flat_map rule_calls stmts = a ++ q_node r :: b /\
    q_visibility r = match last_value as_list ($"visibility") (call_keywords (q_node r)) with
                     | Some own => Some own
                     | None => last_value as_list ($"default_visibility") (package_keywords a)
                     end.
Proof.
  intros i al stmts rs r P E I.
  destruct (find_targets_attributes i al stmts rs r P E I) as (a & f & ty & args & b & Ec & _ & ->).
  exists a, b. split; [exact Ec|]. reflexivity.
Qed.
Print Assumptions C24_visibility.

Example C23_C24_case :
  match parse (nl ["package(default_visibility = [""//a:all""])"; "cc_library(name = ""x"", hdrs = [], hdrs = [""h""])";
     "package(default_visibility = [""//b:all""], n = 2)"; "y = cc_library(name = ""no"")"; "cc_test(name = ""z"", g(deps = [""d""]))";
     "[cc_library(name = ""w"", visibility = []), cc_library(srcs = [""nameless""])]"]) with
  | Ret (stmts, []) =>
      match find_targets [$"cc_library"; $"cc_test"] stmts with
      | Ret rs =>
          map (fun r => (v_text (q_name r), q_alwayslink r,
                 match q_visibility r with
                 | Some [NStr v _ _] => v_text v | Some [] => $"none" | _ => [] end,
                 length (opt_elems (q_deps r)))) rs =
          [($"x", false, $"//a:all", 0); ($"z", false, $"//b:all", 1); ($"w", true, $"none", 0)]
      | _ => False
      end
  | _ => False
  end.
Proof. vm_compute. reflexivity. Qed.
