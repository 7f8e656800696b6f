(** Printing of syntax trees (/repo/bant/frontend/print-visitor.cc), without
    colours and highlighting (the constructor's default arguments). *)
From Verif Require Import Base M_Scanner M_Ast.

(** scanner.cc:32-72, operator<< for TokenType. *)
Definition print_op (t : toktype) : str :=
  match t with
  | TOpenParen => $"(" | TCloseParen => $")" | TOpenSquare => $"[" | TCloseSquare => $"]"
  | TOpenBrace => $"{" | TCloseBrace => $"}" | TComma => $"," | TColon => $":"
  | TPlus => $"+" | TMinus => $"-" | TMultiply => $"*" | TDivide => $"/" | TDot => $"."
  | TPercent => $"%" | TPipe => $"|" | TAssign => $"=" | TLessThan => $"<"
  | TGreaterThan => $">" | TNot => $"not" | TEqualityComparison => $"==" | TNotEqual => $"!="
  | TLessEqual => $"<=" | TGreaterEqual => $">=" | TIdentifier => $"ident"
  | TStringLiteral => $"string" | TNumberLiteral => $"number" | TFor => $"for" | TIn => $"in"
  | TNotIn => $"not in" | TAnd => $"and" | TOr => $"or" | TIf => $"if" | TElse => $"else"
  | TError => $"<<ERROR>>" | TEof => $"<<EOF>>"
  end.

(** print-visitor.cc:71-84 *)
Definition list_open (ty : ltype) : str :=
  match ty with LList => $"[" | LMap => $"{" | LTuple => $"(" end.
Definition list_close (ty : ltype) : str :=
  match ty with LList => $"]" | LMap => $"}" | LTuple => $")" end.

(** operator<< of an int64_t. *)
Fixpoint digits_of (fuel : nat) (z : Z) (acc : str) : str :=
  match fuel with
  | 0 => acc
  | S fuel =>
      let acc := ch (48 + Z.to_nat (z mod 10)) :: acc in
      if (z / 10 =? 0)%Z then acc else digits_of fuel (z / 10) acc
  end.
Definition print_int (z : Z) : str :=
  if (z <? 0)%Z then $"-" ++ digits_of 20 (- z) [] else digits_of 20 z [].

(** print-visitor.cc:157-178, VisitScalar for strings. *)
Definition print_string (v : str) (triple raw : bool) : str :=
  let q := if find_first DQ v then SQ else DQ in
  let quotes := if triple then [q; q; q] else [q] in
  (if raw then $"r" else []) ++ quotes ++ v ++ quotes.

(** print-visitor.cc:86-112, VisitList: the elements; [first] is is_first. *)
Section Elements.
Variable print : nat -> node -> outcome str.
Fixpoint print_elems (indent : nat) (multiline first : bool) (l : list node) : outcome str :=
  match l with
  | [] => Ret []
  | n :: l =>
      do a <- (match n with NNull => Ret ($"NIL") | _ => print indent n end);
      do b <- print_elems indent multiline false l;
      Ret ((if first then [] else $"," ++ [NL])
             ++ (if multiline then repeat " "%char indent else []) ++ a ++ b)
  end.
End Elements.

(** print-visitor.cc:64-182, the visitor; [UB] if the identifier of a call is not
    an Identifier. *)
Fixpoint print (indent : nat) (n : node) : outcome str :=
  match n with
  | NNull => Ret []                                       (* WalkNonNull, ast.h:330-333 *)
  | NStr v triple raw => Ret (print_string (v_text v) triple raw)
  | NInt v z => Ret (match v_text v with [] => print_int z | s => s end)
  | NId v => Ret (v_text v)
  | NUnary op n =>
      do a <- print indent n;
      Ret (print_op op ++ (match op with TNot => $" " | _ => [] end) ++ a)
  | NAssign l r _ =>
      do a <- print indent l;
      do b <- print indent r;
      Ret (a ++ $" = " ++ b)
  | NBin op l r _ =>
      do a <- print indent l;
      do b <- print indent r;
      Ret (a ++ (match op with
                 | TDot | TOpenSquare => print_op op
                 | _ => $" " ++ print_op op ++ $" "
                 end) ++ b ++ (match op with TOpenSquare => $"]" | _ => [] end))
  | NComp ty f =>
      do a <- print indent f;
      Ret (list_open ty ++ a ++ list_close ty)
  | NTernary c p n =>
      do a <- print indent p;
      do b <- print indent c;
      do e <- (match n with
               | NNull => Ret []
               | _ => do e <- print indent n; Ret ($" else " ++ e)
               end);
      Ret (a ++ $" if " ++ b ++ e)
  | NList ty elems =>
      let multiline := 1 <? length elems in
      do a <- print_elems print (indent + 4) multiline true elems;
      Ret (list_open ty ++ (if multiline then [NL] else []) ++ a
             ++ (match ty, elems with LTuple, [_] => $"," | _, _ => [] end)
             ++ (if multiline then [NL] ++ repeat " "%char indent else []) ++ list_close ty)
  | NCall id args =>
      match id with
      | NId v => do a <- print indent args; Ret (v_text v ++ a)
      | _ => UB
      end
  end.

(** print-visitor.cc:184-189, operator<< *)
Definition print_node (n : node) : outcome str :=
  match n with NNull => Ret ($"NIL") | _ => print 0 n end.
