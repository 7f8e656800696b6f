(** The language of BUILD files as a grammar that relates token sequences to trees,
    independent of the parser. *)
From Verif Require Import Base M_Scanner M_Ast.

Definition binary (t : token) : Prop :=
  In (tok_type t) [TPlus; TMinus; TMultiply; TDivide; TPercent; TPipe; TDot; TLessThan; TLessEqual;
                   TEqualityComparison; TNotEqual; TGreaterEqual; TGreaterThan; TIn; TNotIn; TAnd; TOr].
Definition unary (t : token) : Prop := tok_type t = TMinus \/ tok_type t = TNot.

(** From the beginning of [a] to the end of [b]; from the end of [a] to the
    beginning of [b]. *)
Definition spans (a : nat) (b : token) (r : srange) : Prop :=
  r_off r = a /\ r_off r + r_len r = tok_off b + length (tok_text b).
Definition gap (a b : token) (r : srange) : Prop :=
  r_off r = tok_off a + length (tok_text a) /\ r_off r + r_len r = tok_off b.

(** A string literal with its prefix and quotes removed, at its place. *)
Inductive string_leaf (t : token) : node -> Prop :=
| string_leaf_intro k v triple raw :
    string_from_literal (tok_text t) = Some (k, v, triple, raw) ->
    string_leaf t (NStr (mkView v (InFile (tok_off t + k))) triple raw).

Inductive items_kind := Expressions | Arguments | Pairs | Variables.

(** [expr opt dangling ts n]: [ts] is an expression with tree [n].  [opt]: the
    operand of a unary operator may be missing (only directly in brackets).
    [dangling]: it ends with an if-expression that has no else-part.  All binary
    operators have the same precedence and associate to the right; a unary operator
    applies to everything after it. *)
Inductive expr : bool -> bool -> list token -> node -> Prop :=
| E_operand opt ts n : operand ts n -> expr opt false ts n
| E_unary opt d t ts n : unary t -> expr opt d ts n -> expr opt d (t :: ts) (NUnary (tok_type t) n)
| E_missing t : unary t -> expr true false [t] (NUnary (tok_type t) NNull)
| E_binary opt m d ls l op rs r :
    head m ls l -> (m = true -> opt = true /\ tok_type op <> TMinus) ->
    binary op -> expr false d rs r ->
    expr opt d (ls ++ op :: rs) (NBin (tok_type op) l r (token_range op))
| E_if opt m d ts n i cs c :
    head m ts n -> (m = true -> opt = true) -> tok_type i = TIf -> expr false d cs c ->
    expr opt true (ts ++ i :: cs) (NTernary c n NNull)
| E_if_else opt m d ts n i cs c e es el :
    head m ts n -> (m = true -> opt = true) -> tok_type i = TIf -> expr false false cs c ->
    tok_type e = TElse -> expr false d es el ->
    expr opt d (ts ++ i :: cs ++ e :: es) (NTernary c n el)

(** What stands left of a binary operator or "if"; [true] if it is a unary operator
    without operand. *)
with head : bool -> list token -> node -> Prop :=
| H_operand ts n : operand ts n -> head false ts n
| H_missing t : unary t -> head true [t] (NUnary (tok_type t) NNull)

with operand : list token -> node -> Prop :=
| O_id t : tok_type t = TIdentifier -> operand [t] (NId (token_view t))
| O_int t z : tok_type t = TNumberLiteral -> int_from_literal (tok_text t) = Some z ->
    operand [t] (NInt (token_view t) z)
| O_string t n : tok_type t = TStringLiteral -> string_leaf t n -> operand [t] n
| O_call ts n : call ts n -> operand ts n
| O_list o ts n : tok_type o = TOpenSquare -> bracket LList Expressions TCloseSquare ts n ->
    operand (o :: ts) n
| O_map o ts n : tok_type o = TOpenBrace -> bracket LMap Pairs TCloseBrace ts n ->
    operand (o :: ts) n
| O_paren o d ts n c : tok_type o = TOpenParen -> expr true d ts n -> tok_type c = TCloseParen ->
    operand (o :: ts ++ [c]) n
| O_unit o c : tok_type o = TOpenParen -> tok_type c = TCloseParen ->
    operand [o; c] (NList LTuple [])
| O_tuple o d ts n cm rs l : tok_type o = TOpenParen -> expr true d ts n -> tok_type cm = TComma ->
    tuple_rest (cm :: rs) l -> operand (o :: ts ++ cm :: rs) (NList LTuple (n :: l))
| O_index ts x o rs a c : operand ts x -> tok_type o = TOpenSquare -> tok_newline o = false ->
    access rs a -> tok_type c = TCloseSquare ->
    operand (ts ++ o :: rs ++ [c]) (NBin TOpenSquare x a (token_range o))

with call : list token -> node -> Prop :=
| C_call id o ts args : tok_type id = TIdentifier -> tok_type o = TOpenParen ->
    items Arguments TCloseParen ts args ->
    call (id :: o :: ts) (NCall (NId (token_view id)) (NList LTuple args))

(** The part of a tuple after an element, with the closing parenthesis. *)
with tuple_rest : list token -> list node -> Prop :=
| T_end c : tok_type c = TCloseParen -> tuple_rest [c] []
| T_comma cm c : tok_type cm = TComma -> tok_type c = TCloseParen -> tuple_rest [cm; c] []
| T_more cm d ts n rs l : tok_type cm = TComma -> expr false d ts n -> tuple_rest rs l ->
    tuple_rest (cm :: ts ++ rs) (n :: l)

(** Between the brackets of a subscript. *)
with access : list token -> node -> Prop :=
| A_index d ts n : expr true d ts n -> access ts n
| A_slice ts a co rs b : bound ts a -> tok_type co = TColon -> bound rs b ->
    (a <> NNull \/ b <> NNull) -> access (ts ++ co :: rs) (NBin TColon a b (token_range co))
with bound : list token -> node -> Prop :=
| B_none : bound [] NNull
| B_some d ts n : expr true d ts n -> bound ts n

(** A list of elements, or a comprehension, with its closing bracket. *)
with bracket : ltype -> items_kind -> toktype -> list token -> node -> Prop :=
| B_items ty k close ts l : items k close ts l -> bracket ty k close ts (NList ty l)
| B_comprehension ty k close ts n f rs t : item k ts n -> tok_type f = TFor ->
    clauses close n (f :: rs) t -> bracket ty k close (ts ++ f :: rs) (NComp ty t)

(** Elements separated by commas, maybe one more comma, and the closing token. *)
with items : items_kind -> toktype -> list token -> list node -> Prop :=
| I_end k close c : tok_type c = close -> items k close [c] []
| I_last k close ts n c : ts <> [] -> item k ts n -> tok_type c = close ->
    items k close (ts ++ [c]) [n]
| I_more k close ts n cm rs l : item k ts n -> tok_type cm = TComma -> items k close rs l ->
    items k close (ts ++ cm :: rs) (n :: l)
with item : items_kind -> list token -> node -> Prop :=
| I_expr d ts n : expr false d ts n -> item Expressions ts n
| I_arg d ts n : expr false d ts n -> item Arguments ts n
| I_keyword dl d ts v o a rs r rg : expr false dl ts (NId v) -> v_org v = InFile o ->
    tok_type a = TAssign ->
    expr false d rs r -> spans o a rg -> item Arguments (ts ++ a :: rs) (NAssign (NId v) r rg)
| I_pair d d' ts k co rs v : expr false d ts k -> tok_type co = TColon -> expr false d' rs v ->
    item Pairs (ts ++ co :: rs) (NBin TColon k v (token_range co))
| I_variable t : tok_type t = TIdentifier -> item Variables [t] (NId (token_view t))
| I_no_variable : item Variables [] NNull

(** The for-clauses after the element [n], with the closing token. *)
with clauses : toktype -> node -> list token -> node -> Prop :=
| F_end close c n : tok_type c = close -> clauses close n [c] n
| F_for close n f vs vars d es e nx rs rg t : tok_type f = TFor ->
    variables vs vars -> expr false d es e -> gap f nx rg ->
    clauses close (NBin TFor n (NBin TIn (NList LTuple vars) e rg) (token_range f)) (nx :: rs) t ->
    clauses close n (f :: vs ++ es ++ nx :: rs) t
(** The variables of a for-clause, with the "in". *)
with variables : list token -> list node -> Prop :=
| V_plain ts l o : hd_error ts = Some o -> tok_type o <> TOpenParen -> items Variables TIn ts l ->
    variables ts l
| V_paren o ts l i : tok_type o = TOpenParen -> items Variables TCloseParen ts l ->
    tok_type i = TIn -> variables (o :: ts ++ [i]) l.

(** A token [t] that does not continue the expression [ts] before it. *)
Definition ends_expr (dangling : bool) (ts : list token) (t : token) : Prop :=
  ~ binary t /\ tok_type t <> TIf /\ (tok_type t = TOpenSquare -> tok_newline t = true) /\
  (dangling = true -> tok_type t <> TElse) /\
  (forall ts' id, ts = ts' ++ [id] -> tok_type id = TIdentifier -> tok_type t <> TOpenParen).

(** Statements.  Those of the first kind end with an expression. *)
Inductive open_statement : bool -> list token -> node -> Prop :=
| S_assign d id a rs r rg : tok_type id = TIdentifier -> tok_type a = TAssign ->
    expr false d rs r -> spans (tok_off id) a rg ->
    open_statement d (id :: a :: rs) (NAssign (NId (token_view id)) r rg)
| S_unpack d o ts vars a rs r rg : tok_type o = TOpenParen -> items Variables TCloseParen ts vars ->
    tok_type a = TAssign -> expr false d rs r -> spans (tok_off o) a rg ->
    open_statement d (o :: ts ++ a :: rs) (NAssign (NList LTuple vars) r rg)
| S_dot d id dt rs r : tok_type id = TIdentifier -> tok_type dt = TDot -> expr false d rs r ->
    open_statement d (id :: dt :: rs) (NBin TDot (NId (token_view id)) r (token_range dt)).
Inductive closed_statement : list token -> node -> Prop :=
| S_call ts n : call ts n -> closed_statement ts n
| S_bracket o ts n : tok_type o = TOpenSquare -> bracket LList Expressions TCloseSquare ts n ->
    closed_statement (o :: ts) n.

(** A file: the statements in order; a string on its own is a comment. *)
Inductive program : list token -> list node -> Prop :=
| G_end e : tok_type e = TEof -> program [e] []
| G_comment t ts l : tok_type t = TStringLiteral -> program ts l -> program (t :: ts) l
| G_closed ts n rs l : closed_statement ts n -> program rs l -> program (ts ++ rs) (n :: l)
| G_open d ts n nx rs l : open_statement d ts n -> ends_expr d ts nx -> program (nx :: rs) l ->
    program (ts ++ nx :: rs) (n :: l).

Scheme expr_mut := Induction for expr Sort Prop
with head_mut := Induction for head Sort Prop
with operand_mut := Induction for operand Sort Prop
with call_mut := Induction for call Sort Prop
with tuple_rest_mut := Induction for tuple_rest Sort Prop
with access_mut := Induction for access Sort Prop
with bound_mut := Induction for bound Sort Prop
with bracket_mut := Induction for bracket Sort Prop
with items_mut := Induction for items Sort Prop
with item_mut := Induction for item Sort Prop
with clauses_mut := Induction for clauses Sort Prop
with variables_mut := Induction for variables Sort Prop.
Combined Scheme grammar_ind from expr_mut, head_mut, operand_mut, call_mut, tuple_rest_mut,
  access_mut, bound_mut, bracket_mut, items_mut, item_mut, clauses_mut, variables_mut.
