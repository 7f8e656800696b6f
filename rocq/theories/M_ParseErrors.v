(** The messages of the parser (/repo/bant/frontend/parser.cc, scanner.cc, source-locator.cc). *)
From Verif Require Import Base M_Types M_Scanner M_Ast M_Parser M_Printer M_Table M_Query M_Elab M_Workspace M_Project M_Commands.

(** scanner.cc:74-83, operator<<(Token).  The types below 256 are the characters and kNot (scanner.h:29-48). *)
Definition is_char_type (ty : toktype) : bool :=
  match ty with
  | TOpenParen | TCloseParen | TOpenSquare | TCloseSquare | TOpenBrace | TCloseBrace | TComma | TColon
  | TPlus | TMinus | TMultiply | TDivide | TDot | TPercent | TPipe | TAssign | TLessThan | TGreaterThan | TNot => true
  | _ => false
  end.
Definition print_token (t : token) : str :=
  if is_char_type (tok_type t) then $"('" ++ tok_text t ++ $"')"
  else match tok_text t with
       | [] => print_op (tok_type t)
       | _ => print_op (tok_type t) ++ $"('" ++ c_escape (tok_text t) ++ $"')"
       end.

(** What is said after ErrAt(t), without the final newline; the lines of parser.cc are with the type [reason]. *)
Definition reason_text (t : token) (why : reason) : str :=
  match why with
  | RAssignment => $"Assignment operator = expected, got " ++ print_token t
  | RIdentifier => $"expected identifier, got " ++ print_token t
  | RCallOrAssignment => $"expected `(` or `=`"
  | RCommaOrClose end_tok => $"expected `,` or closing `" ++ print_op end_tok ++ $"`"
  | REmptyAccess => $"Can not have an empty array access"
  | RAccessEnd => $"Expected closing ']' of array access"
  | RNoBounds => $"Expected at least one valid expression before or after the ':'"
  | RColonOrSquare => $"Expected ':' or ']'"
  | RValue => $"expected value of sorts"
  | REmptyTuple => $"This looks like an empty tuple, but ')' is missing"
  | RTupleComma => $"expected `,` as tuple separator."
  | RInt => $"Error parsing int literal"
  | RMapColon => $"expected `:` in map-tuple"
  | RForOrClose end_tok => $"expected `for`, `" ++ print_op end_tok ++ $"', or `,`'"
  | RIn => $"expected 'in' after variable tuple"
  | RComprehensionEnd end_tok => $"expected " ++ print_op end_tok ++ $" at end of comprehension"
  end.

(** The line index (named-content.h:42-45) when the token at [off] was the last one scanned: ErrAt() is always
    called with the token that Next() or Peek() gave last. *)
Fixpoint lines_upto (fuel : nat) (sc : scanner) (off : nat) : line_map :=
  match fuel with
  | 0 => sc_lines sc
  | S fuel =>
      let '(t, sc') := next sc in
      if off <=? tok_off t then sc_lines sc' else lines_upto fuel sc' off
  end.
(** parser.cc:539-543, ErrAt(), with what is then printed; named-content.cc:28-32, source-locator.cc:26-56. *)
Definition parse_message (name content : str) (c : complaint) : outcome str :=
  let t := e_tok c in
  if length content <? tok_off t + length (tok_text t) then UB
  else
    match get_range (lines_upto (S (length content)) (scanner_init content) (tok_off t)) (tok_off t) (length (tok_text t)) with
    | Some r => Ret (name ++ $":" ++ print_lc_range r ++ $" got '" ++ tok_text t ++ $"'; " ++ reason_text t (e_why c) ++ [NL])
    | None => UB
    end.
Fixpoint all_messages (name content : str) (cs : list complaint) : outcome str :=
  match cs with
  | [] => Ret []
  | c :: cs => do m <- parse_message name content c; do ms <- all_messages name content cs; Ret (m ++ ms)
  end.
(** parsed-project.cc:197-205: error_collect, and what is printed to message_out.error(); the complaints are kept
    most recent first. *)
Definition file_messages (f : parsed_file) : outcome str := all_messages (pf_name f) (pf_content f) (rev (pf_errors f)).
