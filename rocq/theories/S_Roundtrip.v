(** Which trees can be printed and read back, said without the printer and the parser. *)
From Verif Require Import Base M_Scanner S_Scanner M_Ast M_Printer S_Grammar.

(** A tree without the places of its parts. *)
Definition anywhere (v : view) : view := mkView (v_text v) (InFile 0).
Fixpoint erase (n : node) : node :=
  match n with
  | NNull => NNull
  | NStr v t r => NStr (anywhere v) t r
  | NInt v z => NInt (anywhere v) z
  | NId v => NId (anywhere v)
  | NUnary op n => NUnary op (erase n)
  | NBin op l r _ => NBin op (erase l) (erase r) (mkRange 0 0)
  | NList ty l => NList ty (map erase l)
  | NComp ty f => NComp ty (erase f)
  | NTernary c p n => NTernary (erase c) (erase p) (erase n)
  | NAssign l r _ => NAssign (erase l) (erase r) (mkRange 0 0)
  | NCall i a => NCall (erase i) (erase a)
  end.

(** The text alone is one name, or one number that is not too big. *)
Definition name (s : str) : Prop := token_at s 0 = mkToken TIdentifier 0 s false.
Definition number (s : str) (z : Z) : Prop :=
  token_at s 0 = mkToken TNumberLiteral 0 s false /\ int_from_literal s = Some z.
(** Strings: in single quotes if there is a double quote in it.  It must not have such a quote that is not escaped and not end
    in the middle of an escape; triple single quotes are not understood. *)
Definition quotable (triple : bool) (s : str) : Prop :=
  escape_state s false = false /\
  (In DQ s -> triple = false /\ forall i, ~ active_quote SQ s i).

(** The name a tree begins with, and whether it ends with a name. *)
Fixpoint first_name (n : node) : option str :=
  match n with
  | NId v => Some (v_text v)
  | NCall i _ => first_name i
  | NBin _ l _ _ => first_name l
  | NAssign l _ _ => first_name l
  | NTernary _ p _ => first_name p
  | _ => None
  end.
Fixpoint last_is_name (n : node) : bool :=
  match n with
  | NId _ => true
  | NUnary _ n => last_is_name n
  | NBin op _ r _ => match op with TOpenSquare => false | _ => last_is_name r end
  | NAssign _ r _ => last_is_name r
  | NTernary c _ e => match e with NNull => last_is_name c | _ => last_is_name e end
  | _ => false
  end.
Definition is_int (n : node) : bool := match n with NInt _ _ => true | _ => false end.
Definition is_op (op : toktype) : Prop := binary (mkToken op 0 [] false).

Definition variable_name (n : node) : Prop := exists v, n = NId v /\ name (v_text v).

(** Trees that need no parentheses: the left side of an operator is an operand.  The first argument says that the
    expression ends with an if-expression without else-part. *)
Inductive plain : bool -> node -> Prop :=
| X_operand n : plain_operand n -> plain false n
| X_minus d n : plain d n -> plain d (NUnary TMinus n)
| X_not d n : plain d n -> (forall s, first_name n = Some s -> starts_with ($"in") s = false) -> plain d (NUnary TNot n)
| X_binary d op l r rg : plain_operand l -> is_op op -> (op = TDot -> is_int l = false) -> plain d r -> plain d (NBin op l r rg)
| X_if d n c : plain_operand n -> plain d c -> plain true (NTernary c n NNull)
| X_if_else d n c e : plain_operand n -> plain false c -> plain d e -> plain d (NTernary c n e)
with plain_operand : node -> Prop :=
| X_name v : name (v_text v) -> plain_operand (NId v)
| X_int v z : number (v_text v) z -> plain_operand (NInt v z)
| X_string v triple raw : quotable triple (v_text v) -> plain_operand (NStr v triple raw)
| X_call v args : name (v_text v) -> plain_items Arguments args -> plain_operand (NCall (NId v) (NList LTuple args))
| X_list l : plain_items Expressions l -> plain_operand (NList LList l)
| X_tuple l : plain_items Expressions l -> plain_operand (NList LTuple l)
| X_map l : plain_items Pairs l -> plain_operand (NList LMap l)
| X_list_for f : plain_for Expressions f -> plain_operand (NComp LList f)
| X_map_for f : plain_for Pairs f -> plain_operand (NComp LMap f)
| X_index d x a rg : plain_operand x -> plain d a -> plain_operand (NBin TOpenSquare x a rg)
| X_slice x a b rg rg' : plain_operand x -> plain_bound a -> plain_bound b -> a <> NNull \/ b <> NNull ->
    plain_operand (NBin TOpenSquare x (NBin TColon a b rg) rg')
with plain_bound : node -> Prop :=
| X_no_bound : plain_bound NNull
| X_bound d n : plain d n -> plain_bound n
with plain_items : items_kind -> list node -> Prop :=
| X_nil k : plain_items k []
| X_cons k n l : plain_item k n -> plain_items k l -> plain_items k (n :: l)
with plain_item : items_kind -> node -> Prop :=
| X_expression d n : plain d n -> plain_item Expressions n
| X_argument d n : plain d n -> plain_item Arguments n
| X_keyword d v r rg : name (v_text v) -> plain d r -> plain_item Arguments (NAssign (NId v) r rg)
| X_pair d d' a b rg : plain d a -> plain d' b -> plain_item Pairs (NBin TColon a b rg)
with plain_for : items_kind -> node -> Prop :=
| X_for d k n vars e rg rg' : plain_item k n -> Forall variable_name vars -> plain d e ->
    plain_for k (NBin TFor n (NBin TIn (NList LTuple vars) e rg) rg')
| X_for_more d k n vars e rg rg' : plain_for k n -> Forall variable_name vars -> plain d e ->
    plain_for k (NBin TFor n (NBin TIn (NList LTuple vars) e rg) rg').
Scheme plain_mut := Induction for plain Sort Prop
with plain_operand_mut := Induction for plain_operand Sort Prop
with plain_bound_mut := Induction for plain_bound Sort Prop
with plain_items_mut := Induction for plain_items Sort Prop
with plain_item_mut := Induction for plain_item Sort Prop
with plain_for_mut := Induction for plain_for Sort Prop.
Combined Scheme plain_ind_all from plain_mut, plain_operand_mut, plain_bound_mut, plain_items_mut, plain_item_mut, plain_for_mut.

(** Statements: those that end with an expression, and those that end with a bracket. *)
Inductive plain_open : node -> Prop :=
| X_assign d v r rg : name (v_text v) -> plain d r -> plain_open (NAssign (NId v) r rg)
| X_unpack d vars r rg : Forall variable_name vars -> plain d r -> plain_open (NAssign (NList LTuple vars) r rg)
| X_dot d v r rg : name (v_text v) -> plain d r -> plain_open (NBin TDot (NId v) r rg).
Inductive plain_closed : node -> Prop :=
| X_call_statement v args : name (v_text v) -> plain_items Arguments args -> plain_closed (NCall (NId v) (NList LTuple args))
| X_list_statement l : plain_items Expressions l -> plain_closed (NList LList l)
| X_for_statement f : plain_for Expressions f -> plain_closed (NComp LList f).
(** A parenthesis after a name is a call, even on the next line. *)
Definition unpacks (l : list node) : Prop := exists vars r rg l', l = NAssign (NList LTuple vars) r rg :: l'.
Inductive plain_file : list node -> Prop :=
| X_end : plain_file []
| X_closed n l : plain_closed n -> plain_file l -> plain_file (n :: l)
| X_open n l : plain_open n -> (unpacks l -> last_is_name n = false) -> plain_file l -> plain_file (n :: l).

(** A file that consists of the printed trees, each with a line end after it, maybe with comments before them. *)
Inductive written : list node -> str -> Prop :=
| W_end g : S_Scanner.gap false g -> written [] g
| W_tree n t g l r : S_Scanner.gap false g -> print_node n = Ret t -> written l r -> written (n :: l) (g ++ t ++ NL :: r).
