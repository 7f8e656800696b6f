(** The parser (/repo/bant/frontend/parser.cc). *)
From Verif Require Import Base M_Scanner M_Ast.

(** The token stream the parser sees.  parser.cc only calls Next() and Peek(); by
    theorem C08_next_and_peek both always show the next element of the token
    sequence of the content, whatever calls were made before, so the scanner is
    represented by the list of the tokens still to come.  It ends with the EOF
    token, which is never consumed. *)
Fixpoint tokens_from (fuel : nat) (sc : scanner) : list token :=
  match fuel with
  | 0 => []
  | S fuel =>
      let '(t, sc') := next sc in
      if toktype_beq (tok_type t) TEof then [t] else t :: tokens_from fuel sc'
  end.
(** All tokens of a content: at most one per byte, and the EOF. *)
Definition all_tokens (content : str) : list token :=
  tokens_from (S (length content)) (scanner_init content).

(** What is said of a token, in the order of parser.cc; the texts are in M_ParseErrors.  The message of
    parser.cc:109-112 is left out, ParseList() never gives nullptr. *)
Inductive reason :=
| RAssignment                       (* parser.cc:115 *)
| RIdentifier                       (* parser.cc:126 *)
| RCallOrAssignment                 (* parser.cc:148 *)
| RCommaOrClose (end_tok : toktype) (* parser.cc:198 *)
| REmptyAccess                      (* parser.cc:240 *)
| RAccessEnd                        (* parser.cc:247 *)
| RNoBounds                         (* parser.cc:251 *)
| RColonOrSquare                    (* parser.cc:257 *)
| RValue                            (* parser.cc:287 *)
| REmptyTuple                       (* parser.cc:371 *)
| RTupleComma                       (* parser.cc:381 *)
| RInt                              (* parser.cc:397 *)
| RMapColon                         (* parser.cc:408 *)
| RForOrClose (end_tok : toktype)   (* parser.cc:446 *)
| RIn                               (* parser.cc:493 *)
| RComprehensionEnd (end_tok : toktype). (* parser.cc:514 *)
Record complaint := mkComplaint { e_tok : token; e_why : reason }.

(** Parser::Impl (parser.cc:77-559).  [p_errs]: what ErrAt() was called with and
    what was then said, most recent first; [error_] is set iff it is not empty
    (parser.cc:539-543). *)
Record pstate := mkP { p_toks : list token; p_errs : list complaint }.

Definition eof_token : token := mkToken TEof 0 [] false.
Definition ppeek (ps : pstate) : token := hd eof_token (p_toks ps).
Definition pnext (ps : pstate) : token * pstate :=
  match p_toks ps with
  | [] => (eof_token, ps)              (* not reachable *)
  | [t] => (t, ps)
  | t :: ts => (t, mkP ts (p_errs ps))
  end.
Definition perr (t : token) (why : reason) (ps : pstate) : pstate := mkP (p_toks ps) (mkComplaint t why :: p_errs ps).
Definition skip (ps : pstate) : pstate := snd (pnext ps).
Definition is_tok (t : token) (ty : toktype) : bool := toktype_beq (tok_type t) ty.

(** The functions that are passed as ListElementParse. *)
Inductive elem_parser := EExpression | EExpressionOrAssignment | EMapTuple | EOptionalIdentifier.

(** The mutually recursive functions of the parser, with their loop bodies, as
    data; [production_step] says what each one does, calling others through
    [self]. *)
Inductive production :=
| PExpression (can_be_optional : bool)
| PExpressionLoop (n : node)                  (* parser.cc:309-349 *)
| PValueOrIdentifier (can_be_optional : bool)
| PParenExpressionOrTuple
| PTupleLoop (elems : list node)              (* parser.cc:377-389 *)
| PArrayOrSliceAccess
| PIfElse (if_branch : node)
| PElement (e : elem_parser)
| PList (ty : ltype) (elems : list node) (e : elem_parser) (end_tok : toktype)
| PListOrListComprehension (ty : ltype) (e : elem_parser)
| PComprehensionFor (target for_tree : node) (end_tok : toktype)
| PFunCall (identifier : token).

Section Step.
Variable self : production -> pstate -> outcome (node * pstate).

(** string_view{from.begin(), to.end()} and string_view{from.end(), to.begin()}: the
    constructor from two iterators requires them to be in order. *)
Definition covering (from to : token) : outcome srange :=
  let last := tok_off to + length (tok_text to) in
  if tok_off from <=? last then Ret (mkRange (tok_off from) (last - tok_off from)) else UB.
Definition between (from to : token) : outcome srange :=
  let first := tok_off from + length (tok_text from) in
  if first <=? tok_off to then Ret (mkRange first (tok_off to - first)) else UB.

(** parser.cc:155-169, ParseNodeAssignRhs, ParseIdAssignRhs. *)
Definition parse_node_assign_rhs (lhs : node) (from to : token) (ps : pstate) :=
  do (rhs, ps) <- self (PExpression false) ps;
  do range <- covering from to;
  Ret (NAssign lhs rhs range, ps).

(** parser.cc:171-181.  [id_token]: the place of the identifier in the file. *)
Definition id_token (v : view) : token :=
  mkToken TIdentifier (match v_org v with InFile o => o | Synth o _ => o end) (v_text v) false.
Definition expression_or_assignment (ps : pstate) :=
  do (value, ps) <- self (PExpression false) ps;
  if is_null value then Ret (NNull, ps)
  else
    let upcoming := ppeek ps in
    match value with
    | NId v =>
        if is_tok upcoming TAssign then
          parse_node_assign_rhs value
            (id_token v) upcoming (skip ps)
        else Ret (value, ps)
    | _ => Ret (value, ps)
    end.

(** parser.cc:183-205, ParseList, one round of the loop. *)
Definition parse_list (ty : ltype) (elems : list node) (e : elem_parser) (end_tok : toktype)
  (ps : pstate) :=
  if is_tok (ppeek ps) end_tok then
    Ret (NList ty elems, skip ps)
  else
    do (n, ps) <- self (PElement e) ps;
    let elems := elems ++ [n] in
    let upcoming := ppeek ps in
    if is_tok upcoming TComma then self (PList ty elems e end_tok) (skip ps)
    else if negb (is_tok upcoming end_tok) then
      let '(t, ps) := pnext ps in Ret (NList ty elems, perr t (RCommaOrClose end_tok) ps)
    else self (PList ty elems e end_tok) ps.

(** parser.cc:207-214 *)
Definition parse_fun_call (identifier : token) (ps : pstate) :=
  do (args, ps) <- self (PList LTuple [] EExpressionOrAssignment TCloseParen) ps;
  Ret (NCall (NId (token_view identifier)) args, ps).

(** parser.cc:216-229 *)
Definition parse_if_else (if_branch : node) (ps : pstate) :=
  do (condition, ps) <- self (PExpression false) (skip ps);
  if is_tok (ppeek ps) TElse then
    do (else_branch, ps) <- self (PExpression false) (skip ps);
    Ret (NTernary condition if_branch else_branch, ps)
  else Ret (NTernary condition if_branch NNull, ps).

(** parser.cc:231-259 *)
Definition parse_array_or_slice_access (ps : pstate) :=
  do (n, ps) <- self (PExpression true) ps;
  let '(sep, ps) := pnext ps in
  if is_tok sep TCloseSquare then
    Ret (n, if is_null n then perr sep REmptyAccess ps else ps)
  else if is_tok sep TColon then
    do (rhs, ps) <- self (PExpression true) ps;
    let '(e, ps) := pnext ps in
    if negb (is_tok e TCloseSquare) then Ret (NNull, perr e RAccessEnd ps)
    else if is_null n && is_null rhs then Ret (NNull, perr e RNoBounds ps)
    else Ret (NBin TColon n rhs (token_range sep), ps)
  else Ret (NNull, perr sep RColonOrSquare ps).

(** parser.cc:393-400, with IntScalar::FromLiteral (ast.cc:28-50). *)
Definition parse_int_from_token (t : token) (ps : pstate) : outcome (node * pstate) :=
  match int_from_literal (tok_text t) with
  | Some z => Ret (NInt (token_view t) z, ps)
  | None => Ret (NNull, perr t RInt ps)
  end.

(** StringScalar::FromLiteral (ast.cc:52-74). *)
Definition string_node (t : token) : outcome node :=
  match string_from_literal (tok_text t) with
  | Some (k, v, triple, raw) => Ret (NStr (mkView v (InFile (tok_off t + k))) triple raw)
  | None => UB
  end.

(** parser.cc:261-291 *)
Definition parse_value_or_identifier (can_be_optional : bool) (ps : pstate) :=
  let t := ppeek ps in
  match tok_type t with
  | TStringLiteral => do n <- string_node t; Ret (n, skip ps)
  | TNumberLiteral => parse_int_from_token t (skip ps)
  | TIdentifier =>
      let ps := skip ps in
      if is_tok (ppeek ps) TOpenParen then self (PFunCall t) (skip ps)
      else Ret (NId (token_view t), ps)
  | TOpenSquare => self (PListOrListComprehension LList EExpression) (skip ps)
  | TOpenBrace => self (PListOrListComprehension LMap EMapTuple) (skip ps)
  | _ => Ret (NNull, if can_be_optional then ps else perr t RValue ps)
  end.

(** parser.cc:293-307 *)
Definition parse_expression (can_be_optional : bool) (ps : pstate) :=
  let t := ppeek ps in
  do (n, ps) <-
    (match tok_type t with
     | TMinus | TNot =>
         do (n, ps) <- self (PExpression can_be_optional) (skip ps);
         Ret (NUnary (tok_type t) n, ps)
     | TOpenParen => self PParenExpressionOrTuple ps
     | _ => self (PValueOrIdentifier can_be_optional) ps
     end);
  if is_null n then Ret (n, ps) else self (PExpressionLoop n) ps.

(** parser.cc:317-334, the binary operators. *)
Definition is_binary_operator (t : toktype) : bool :=
  match t with
  | TPlus | TMinus | TMultiply | TDivide | TLessThan | TLessEqual | TEqualityComparison
  | TGreaterEqual | TGreaterThan | TNotEqual | TIn | TNotIn | TAnd | TOr | TPipe | TDot
  | TPercent => true
  | _ => false
  end.

(** parser.cc:309-349, one round of the loop. *)
Definition parse_expression_loop (n : node) (ps : pstate) :=
  let upcoming := ppeek ps in
  if is_tok upcoming TIf then self (PIfElse n) ps
  else if is_binary_operator (tok_type upcoming) then
    do (rhs, ps) <- self (PExpression false) (skip ps);
    Ret (NBin (tok_type upcoming) n rhs (token_range upcoming), ps)
  else if is_tok upcoming TOpenSquare then
    if tok_newline upcoming then Ret (n, ps)
    else
      do (acc, ps) <- self PArrayOrSliceAccess (skip ps);
      self (PExpressionLoop (NBin TOpenSquare n acc (token_range upcoming))) ps
  else Ret (n, ps).

(** parser.cc:352-375 *)
Definition parse_paren_expression_or_tuple (ps : pstate) :=
  do (exp, ps) <- self (PExpression true) (skip ps);
  let p := ppeek ps in
  if negb (is_null exp) && is_tok p TCloseParen then Ret (exp, skip ps)
  else if is_null exp then
    let '(p, ps) := pnext ps in
    Ret (NList LTuple [], if is_tok p TCloseParen then ps else perr p REmptyTuple ps)
  else self (PTupleLoop [exp]) ps.

(** parser.cc:377-390, one round of the loop. *)
Definition parse_tuple_loop (elems : list node) (ps : pstate) :=
  let '(sep, ps) := pnext ps in
  if is_tok sep TCloseParen then Ret (NList LTuple elems, ps)
  else if negb (is_tok sep TComma) then Ret (NList LTuple elems, perr sep RTupleComma ps)
  else if is_tok (ppeek ps) TCloseParen then Ret (NList LTuple elems, skip ps)
  else
    do (n, ps) <- self (PExpression false) ps;
    self (PTupleLoop (elems ++ [n])) ps.

(** parser.cc:402-413 *)
Definition parse_map_tuple (ps : pstate) :=
  do (lhs, ps) <- self (PExpression false) ps;
  let '(sep, ps) := pnext ps in
  if negb (is_tok sep TColon) then Ret (NNull, perr sep RMapColon ps)
  else
    do (rhs, ps) <- self (PExpression false) ps;
    Ret (NBin TColon lhs rhs (token_range sep), ps).

(** parser.cc:460-467 *)
Definition parse_optional_identifier (ps : pstate) : outcome (node * pstate) :=
  let t := ppeek ps in
  if is_tok t TIdentifier then Ret (NId (token_view t), skip ps) else Ret (NNull, ps).

Definition parse_element (e : elem_parser) (ps : pstate) :=
  match e with
  | EExpression => self (PExpression false) ps
  | EExpressionOrAssignment => expression_or_assignment ps
  | EMapTuple => parse_map_tuple ps
  | EOptionalIdentifier => parse_optional_identifier ps
  end.

(** parser.cc:521-528 *)
Definition end_token_for (ty : ltype) : toktype :=
  match ty with LList => TCloseSquare | LTuple => TCloseParen | LMap => TCloseBrace end.

(** parser.cc:416-457, 530-537 *)
Definition parse_list_or_list_comprehension (ty : ltype) (e : elem_parser) (ps : pstate) :=
  let close := end_token_for ty in
  if is_tok (ppeek ps) close then Ret (NList ty [], skip ps)
  else
    do (first, ps) <- self (PElement e) ps;
    if is_null first then Ret (NNull, ps)
    else
      let tok := ppeek ps in
      match tok_type tok with
      | TFor =>
          do (f, ps) <- self (PComprehensionFor first NNull close) ps;
          Ret (NComp ty f, ps)
      | TComma => self (PList ty [first] e close) (skip ps)
      | _ =>
          self (PList ty [first] e close) (if is_tok tok close then ps else perr tok (RForOrClose close) ps)
      end.

(** parser.cc:473-519, one round of the loop. *)
Definition parse_comprehension_for (target for_tree : node) (end_tok : toktype) (ps : pstate) :=
  if is_tok (ppeek ps) TFor then
    let '(start, ps) := pnext ps in
    do (vars, ps) <-
      (if is_tok (ppeek ps) TOpenParen then
         do (vars, ps) <- self (PList LTuple [] EOptionalIdentifier TCloseParen) (skip ps);
         let '(expected_in, ps) := pnext ps in
         Ret (vars, if is_tok expected_in TIn then ps else perr expected_in RIn ps)
       else self (PList LTuple [] EOptionalIdentifier TIn) ps);
    do (values, ps) <- self (PExpression false) ps;
    do range <- between start (ppeek ps);
    let t := NBin TFor target (NBin TIn vars values range) (token_range start) in
    self (PComprehensionFor t t end_tok) ps
  else
    let '(e, ps) := pnext ps in
    if negb (is_tok e end_tok) then Ret (NNull, perr e (RComprehensionEnd end_tok) ps) else Ret (for_tree, ps).

Definition production_step (p : production) (ps : pstate) : outcome (node * pstate) :=
  match p with
  | PExpression o => parse_expression o ps
  | PExpressionLoop n => parse_expression_loop n ps
  | PValueOrIdentifier o => parse_value_or_identifier o ps
  | PParenExpressionOrTuple => parse_paren_expression_or_tuple ps
  | PTupleLoop l => parse_tuple_loop l ps
  | PArrayOrSliceAccess => parse_array_or_slice_access ps
  | PIfElse n => parse_if_else n ps
  | PElement e => parse_element e ps
  | PList ty l e end_tok => parse_list ty l e end_tok ps
  | PListOrListComprehension ty e => parse_list_or_list_comprehension ty e ps
  | PComprehensionFor n t e => parse_comprehension_for n t e ps
  | PFunCall t => parse_fun_call t ps
  end.
End Step.

(** Calls nest at most [fuel] deep. *)
Fixpoint run (fuel : nat) (p : production) (ps : pstate) : outcome (node * pstate) :=
  match fuel with
  | 0 => OutOfFuel
  | S fuel => production_step (run fuel) p ps
  end.

(** parser.cc:85-153, parse(), one round of the loop: either a new statement, or
    nothing new, or the end. *)
Inductive toplevel := TopStatement (n : node) | TopNothing | TopEnd.

Definition parse_toplevel (fuel : nat) (ps : pstate) : outcome (toplevel * pstate) :=
  let '(tok, ps) := pnext ps in
  match tok_type tok with
  | TEof => Ret (TopEnd, ps)
  | TStringLiteral => Ret (TopNothing, ps)
  | TOpenSquare =>
      do (n, ps) <- run fuel (PListOrListComprehension LList EExpression) ps;
      Ret (TopStatement n, ps)
  | TOpenParen =>
      do (lhs, ps) <- run fuel (PList LTuple [] EOptionalIdentifier TCloseParen) ps;
      let '(assign, ps) := pnext ps in
      if negb (is_tok assign TAssign) then Ret (TopEnd, perr assign RAssignment ps)
      else
        do (n, ps) <- parse_node_assign_rhs (run fuel) lhs tok assign ps;
        Ret (TopStatement n, ps)
  | TIdentifier =>
      let '(after_id, ps) := pnext ps in
      match tok_type after_id with
      | TAssign =>
          do (n, ps) <- parse_node_assign_rhs (run fuel) (NId (token_view tok)) tok after_id ps;
          Ret (TopStatement n, ps)
      | TOpenParen =>
          do (n, ps) <- run fuel (PFunCall tok) ps;
          Ret (TopStatement n, ps)
      | TDot =>
          do (n, ps) <- run fuel (PExpression false) ps;
          Ret (TopStatement (NBin TDot (NId (token_view tok)) n (token_range after_id)), ps)
      | _ => Ret (TopEnd, perr after_id RCallOrAssignment ps)
      end
  | _ => Ret (TopEnd, perr tok RIdentifier ps)
  end.

Fixpoint parse_loop (rounds fuel : nat) (stmts : list node) (ps : pstate)
  : outcome (list node * pstate) :=
  match rounds with
  | 0 => OutOfFuel
  | S rounds =>
      match p_errs ps with
      | _ :: _ => Ret (stmts, ps)
      | [] =>
          do (r, ps) <- parse_toplevel fuel ps;
          match r with
          | TopEnd => Ret (stmts, ps)
          | TopNothing => parse_loop rounds fuel stmts ps
          | TopStatement n => parse_loop rounds fuel (stmts ++ [n]) ps
          end
      end
  end.

(** Parser::parse() and parse_error() on the given content: the statements and the
    complaints, most recent first. *)
Definition parse_fuel (toks : list token) : nat := 12 * length toks + 12.
Definition parse_tokens (toks : list token) : outcome (list node * list complaint) :=
  do (l, ps) <- parse_loop (2 * length toks + 2) (parse_fuel toks) [] (mkP toks []);
  Ret (l, p_errs ps).
Definition parse (content : str) : outcome (list node * list complaint) :=
  parse_tokens (all_tokens content).
