(** What a user is told about a BUILD file that does not parse. *)
From Verif Require Import Base M_Scanner S_Scanner M_Ast M_Parser M_Table M_Project M_Commands S_Commands.

(** How a token is shown: punctuation and [not] in quotes; others with the kind of thing they are, and their text
    escaped; the end of the file has no text. *)
Inductive kind : toktype -> str -> Prop :=
| K_word : kind TIdentifier ($"ident")
| K_string : kind TStringLiteral ($"string")
| K_number : kind TNumberLiteral ($"number")
| K_error : kind TError ($"<<ERROR>>")
| K_for : kind TFor ($"for")
| K_in : kind TIn ($"in")
| K_not_in : kind TNotIn ($"not in")
| K_and : kind TAnd ($"and")
| K_or : kind TOr ($"or")
| K_if : kind TIf ($"if")
| K_else : kind TElse ($"else")
| K_eq : kind TEqualityComparison ($"==")
| K_ne : kind TNotEqual ($"!=")
| K_le : kind TLessEqual ($"<=")
| K_ge : kind TGreaterEqual ($">=").
Inductive shown : token -> str -> Prop :=
| shown_eof t : tok_type t = TEof -> shown t ($"<<EOF>>")
| shown_kind t k : kind (tok_type t) k -> shown t (k ++ $"('" ++ c_escape (tok_text t) ++ $"')")
| shown_plain t : tok_type t <> TEof -> (forall k, ~ kind (tok_type t) k) -> shown t ($"('" ++ tok_text t ++ $"')").

(** What closes a list. *)
Inductive closer : toktype -> str -> Prop :=
| closer_paren : closer TCloseParen ($")")
| closer_square : closer TCloseSquare ($"]")
| closer_brace : closer TCloseBrace ($"}")
| closer_in : closer TIn ($"in").

(** [explained t why text words]: what is said of [t], and words that are right at its place: those the text names,
    or, where it asks for an identifier or a value, a variable. *)
Inductive explained (t : token) : reason -> str -> list str -> Prop :=
| X_assignment s : shown t s -> explained t RAssignment ($"Assignment operator = expected, got " ++ s) [$"="]
| X_identifier s : shown t s -> explained t RIdentifier ($"expected identifier, got " ++ s) [$"x"]
| X_statement : explained t RCallOrAssignment ($"expected `(` or `=`") [$"("; $"="]
| X_list close c : closer close c -> explained t (RCommaOrClose close) ($"expected `,` or closing `" ++ c ++ $"`") [$","; c]
| X_empty : explained t REmptyAccess ($"Can not have an empty array access") []
| X_access_end : explained t RAccessEnd ($"Expected closing ']' of array access") []
| X_no_bounds : explained t RNoBounds ($"Expected at least one valid expression before or after the ':'") []
| X_access : explained t RColonOrSquare ($"Expected ':' or ']'") [$":"]
| X_value : explained t RValue ($"expected value of sorts") [$"x"]
| X_empty_tuple : explained t REmptyTuple ($"This looks like an empty tuple, but ')' is missing") [$")"]
| X_tuple : explained t RTupleComma ($"expected `,` as tuple separator.") [$","]
| X_int : explained t RInt ($"Error parsing int literal") []
| X_map : explained t RMapColon ($"expected `:` in map-tuple") [$":"]
| X_brackets close c : closer close c -> explained t (RForOrClose close) ($"expected `for`, `" ++ c ++ $"', or `,`'") [$"for"; c; $","]
| X_in : explained t RIn ($"expected 'in' after variable tuple") [$"in"]
| X_comprehension close c : closer close c -> explained t (RComprehensionEnd close) ($"expected " ++ c ++ $" at end of comprehension") [c].

(** The message for a complaint about the file [name]. *)
Definition message (name content : str) (c : complaint) (m : str) : Prop :=
  exists p text words, place content (tok_off (e_tok c)) (length (tok_text (e_tok c))) p /\ explained (e_tok c) (e_why c) text words /\
    m = name ++ $":" ++ p ++ $" got '" ++ tok_text (e_tok c) ++ $"'; " ++ text ++ [NL].
