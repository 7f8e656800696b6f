(** Specification vocabulary for parsing, independent of the parser. *)
From Verif Require Import Base M_Scanner S_Scanner M_Ast.

(** What a mix of Next() and Peek() sees of a list of tokens whose last one stays. *)
Fixpoint list_calls (cs : list scan_call) (toks : list token) : list token :=
  match cs, toks with
  | [], _ | _, [] => []
  | CallPeek :: cs, t :: _ => t :: list_calls cs toks
  | CallNext :: cs, [t] => t :: list_calls cs toks
  | CallNext :: cs, t :: ts => t :: list_calls cs ts
  end.

(** A tree in which nothing is missing except what the language allows to be left
    out: the operand of a unary operator in parentheses or brackets, one bound of a
    slice, loop variables, and the "else" part. *)
Definition variable (n : node) : Prop := n = NNull \/ exists v, n = NId v.
Inductive whole : node -> Prop :=
| W_str v t r : whole (NStr v t r)
| W_int v z : whole (NInt v z)
| W_id v : whole (NId v)
| W_unary op n : n = NNull \/ whole n -> whole (NUnary op n)
| W_bin op l r rg : whole l -> whole r -> whole (NBin op l r rg)
| W_slice x a b rg1 rg2 :
    whole x -> (a = NNull \/ whole a) -> (b = NNull \/ whole b) -> ~ (a = NNull /\ b = NNull) ->
    whole (NBin TOpenSquare x (NBin TColon a b rg1) rg2)
| W_list ty l : Forall whole l -> whole (NList ty l)
| W_comp ty f : for_chain f -> whole (NComp ty f)
| W_ternary c p n : whole c -> whole p -> n = NNull \/ whole n -> whole (NTernary c p n)
| W_assign v r rg : whole r -> whole (NAssign (NId v) r rg)
| W_call v l : Forall whole l -> whole (NCall (NId v) (NList LTuple l))
with for_chain : node -> Prop :=
| F_for target vars values rg1 rg2 :
    whole target \/ for_chain target -> Forall variable vars -> whole values ->
    for_chain (NBin TFor target (NBin TIn (NList LTuple vars) values rg1) rg2).

(** A statement of a file: an expression, a call, or an assignment, possibly to a
    tuple of variables. *)
Inductive whole_statement : node -> Prop :=
| WS_node n : whole n -> whole_statement n
| WS_tuple vars r rg : Forall variable vars -> whole r ->
    whole_statement (NAssign (NList LTuple vars) r rg).

(** All texts of a tree and all source ranges. *)
Fixpoint views (n : node) : list view :=
  match n with
  | NNull => []
  | NStr v _ _ => [v]
  | NInt v _ => [v]
  | NId v => [v]
  | NUnary _ n => views n
  | NBin _ l r _ => views l ++ views r
  | NList _ l => flat_map views l
  | NComp _ f => views f
  | NTernary c p n => views c ++ views p ++ views n
  | NAssign l r _ => views l ++ views r
  | NCall i a => views i ++ views a
  end.
Fixpoint ranges (n : node) : list srange :=
  match n with
  | NNull | NStr _ _ _ | NInt _ _ | NId _ => []
  | NUnary _ n => ranges n
  | NBin _ l r rg => rg :: ranges l ++ ranges r
  | NList _ l => flat_map ranges l
  | NComp _ f => ranges f
  | NTernary c p n => ranges c ++ ranges p ++ ranges n
  | NAssign l r rg => rg :: ranges l ++ ranges r
  | NCall i a => ranges i ++ ranges a
  end.

(** The text is found in the content where it claims to be. *)
Definition view_in (content : str) (v : view) : Prop :=
  exists off, v_org v = InFile off /\ off + length (v_text v) <= length content /\
              firstn (length (v_text v)) (skipn off content) = v_text v.
Definition range_in (content : str) (r : srange) : Prop :=
  r_off r + r_len r <= length content.

(** The operators of a tree, and where they are said to be; the text of each; and that it is there.
    The "in" of a comprehension covers more than the word. *)
Fixpoint operators (n : node) : list (toktype * srange) :=
  match n with
  | NNull | NStr _ _ _ | NInt _ _ | NId _ => []
  | NUnary _ n => operators n
  | NBin op l r rg => (op, rg) :: operators l ++ operators r
  | NList _ l => flat_map operators l
  | NComp _ f => operators f
  | NTernary c p n => operators c ++ operators p ++ operators n
  | NAssign l r _ => operators l ++ operators r
  | NCall i a => operators i ++ operators a
  end.
Definition op_text (op : toktype) : option str :=
  match op with
  | TPlus => Some ($"+") | TMinus => Some ($"-") | TMultiply => Some ($"*") | TDivide => Some ($"/")
  | TPercent => Some ($"%") | TPipe => Some ($"|") | TDot => Some ($".") | TColon => Some ($":") | TOpenSquare => Some ($"[")
  | TLessThan => Some ($"<") | TLessEqual => Some ($"<=") | TEqualityComparison => Some ($"==")
  | TGreaterEqual => Some ($">=") | TGreaterThan => Some ($">") | TNotEqual => Some ($"!=")
  | TAnd => Some ($"and") | TOr => Some ($"or") | TFor => Some ($"for")
  | _ => None
  end.
Definition op_at (content : str) (o : toktype * srange) : Prop :=
  forall text, op_text (fst o) = Some text ->
  r_len (snd o) = length text /\ firstn (length text) (skipn (r_off (snd o)) content) = text.
