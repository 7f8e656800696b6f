(** Specification of the kinds of tokens by their text, independent of the scanner. *)
From Verif Require Import Base M_Scanner S_Scanner.
Local Open Scope string_scope.
Local Open Scope list_scope.

(** Operators, punctuation and keywords. *)
Definition fixed_words : list (string * toktype) :=
  [("(", TOpenParen); (")", TCloseParen); ("[", TOpenSquare); ("]", TCloseSquare);
   ("{", TOpenBrace); ("}", TCloseBrace); (",", TComma); (":", TColon); ("+", TPlus);
   ("-", TMinus); ("*", TMultiply); ("/", TDivide); (".", TDot); ("%", TPercent); ("|", TPipe);
   ("=", TAssign); ("<", TLessThan); (">", TGreaterThan); ("!", TNot); ("not", TNot);
   ("==", TEqualityComparison); ("!=", TNotEqual); ("<=", TLessEqual); (">=", TGreaterEqual);
   ("for", TFor); ("in", TIn); ("and", TAnd); ("or", TOr); ("if", TIf); ("else", TElse)].
Definition fixed (s : str) (ty : toktype) : Prop := exists w, In (w, ty) fixed_words /\ s = $w.

Definition starts_string (s : str) : Prop :=
  exists q r, (q = DQ \/ q = SQ) /\
    (s = q :: r \/ exists c, (c = "r"%char \/ c = "R"%char) /\ s = c :: q :: r).

(** [next]: the byte after the token, if any. *)
Definition kind_text (ty : toktype) (s : str) (next : option ascii) : Prop :=
  match ty with
  | TEof => s = [] /\ next = None
  | TIdentifier =>
      s <> [] /\ (forall c, In c s -> In c word_chars) /\
      (forall c r, s = c :: r -> is_digit c = false) /\ (forall ty, ~ fixed s ty)
  | TNumberLiteral =>
      exists pre body hex, s = pre ++ body /\
        (if hex : bool then pre = $"0x" else pre = $"0o" \/ exists c, is_digit c = true /\ pre = [c]) /\
        let part c := (if hex then is_xdigit c else is_digit c) = true \/ c = "."%char in
        (forall c, In c body -> part c) /\ count_char "." body <= 1 /\
        (forall c, next = Some c -> ~ part c)
  | TStringLiteral => starts_string s
  | TNotIn => exists blank, (forall c, In c blank -> is_space c = true) /\ s = $"not" ++ blank ++ $"in"
  | TError =>
      starts_string s \/
      (exists c r, s = c :: r /\ is_digit c = true /\ next = Some "."%char) \/
      (exists c, s = [c] /\ ~ In c word_chars /\ (forall ty, ~ fixed s ty))
  | _ => fixed s ty
  end.
(** Relations and '=' are not cut off before a '='. *)
Definition operator_whole (s : str) (next : option ascii) : Prop :=
  In s [$"="; $"<"; $">"; $"!"] -> next <> Some "="%char.
