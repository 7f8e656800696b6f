(** Properties C15, C16 (the syntax tree) and C18: parsing. *)
From Verif Require Import Base M_Scanner S_Scanner M_Ast M_Parser M_Printer S_Parser P_Parser.

(** C15. Parsing ends, with recursion depth and number of top-level rounds bounded
    by a linear function of the number of tokens, and without undefined behaviour
    on the way (reading an invalid string literal, or a source range that ends
    before it starts). *)
Theorem C15_parse_terminates : forall content,
  exists stmts errs, parse content = Ret (stmts, errs).
Proof. exact parse_total. Qed.
Print Assumptions C15_parse_terminates.

(** The list of tokens the model of the parser works on is what the scanner's
    Next() and Peek() deliver. *)
Theorem C15_parser_sees_scanner : forall content cs,
  list_calls cs (all_tokens content) = run_calls cs (scanner_init content).
Proof. exact token_list_is_scanner. Qed.
Print Assumptions C15_parser_sees_scanner.

(** Without a reported error the parser stops only at the end of the file: nothing
    is silently ignored. *)
Theorem C15_no_error_means_all_read : forall content, exists stmts ps,
  parse_loop (2 * length (all_tokens content) + 2) (parse_fuel (all_tokens content)) []
    (mkP (all_tokens content) []) = Ret (stmts, ps) /\
  parse content = Ret (stmts, p_errs ps) /\
  (p_errs ps = [] -> exists e, p_toks ps = [e] /\ tok_type e = TEof).
Proof. exact parse_to_end. Qed.
Print Assumptions C15_no_error_means_all_read.

(** C16. Nothing is missing in the tree of a file that parses without error. *)
Theorem C16_complete_tree : forall content stmts,
  parse content = Ret (stmts, []) -> Forall whole_statement stmts.
Proof. intros content stmts H. exact (proj2 (parse_trees content stmts [] H) eq_refl). Qed.
Print Assumptions C16_complete_tree.

Local Open Scope string_scope.
Local Open Scope list_scope.
Example C16_case : exists stmts,
  parse ($"cc_library(name=""a"", deps=[x[1:] for x in y] + [""b"" if c else -1])") = Ret (stmts, []) /\
  length stmts = 1 /\
  match stmts with [n] => print_node n = Ret ($"cc_library(" ++ [NL] ++ $"    name = ""a""," ++ [NL]
     ++ $"    deps = [x[1 : ] for (x,) in y] + [""b"" if c else -1]" ++ [NL] ++ $")") | _ => False end.
Proof. eexists. split; [vm_compute; reflexivity|]. split; vm_compute; reflexivity. Qed.
(** The condition is needed: with an error there are missing operands. *)
Example C16_error_case :
  match parse ($"x = a +") with
  | Ret ([NAssign _ (NBin TPlus (NId _) NNull _) _], _ :: _) => True
  | _ => False
  end.
Proof. vm_compute. exact I. Qed.

(** C18. Every identifier, string and number, and every operator, is where it
    claims to be in the file, even if there were errors. *)
Theorem C18_tree_is_located : forall content stmts errs n,
  parse content = Ret (stmts, errs) -> In n stmts ->
  Forall (view_in content) (views n) /\ Forall (range_in content) (ranges n) /\ Forall (op_at content) (operators n).
Proof.
  intros content stmts errs n H Hn.
  exact (proj1 (Forall_forall _ _) (proj1 (parse_trees content stmts errs H)) n Hn).
Qed.
Print Assumptions C18_tree_is_located.
Example C18_case : match parse ($"x = f(r""ab"", 12)") with
  | Ret ([n], []) => map (fun v => (v_text v, v_org v)) (views n) =
      [($"x", InFile 0); ($"f", InFile 4); ($"ab", InFile 8); ($"12", InFile 13)] /\
      ranges n = [mkRange 0 3]
  | _ => False
  end.
Proof. vm_compute. auto. Qed.
