(** The repository's own unit tests for the scanner, the line index and the named
    content (/repo/bant/frontend/scanner_test.cc, linecolumn-map_test.cc,
    named-content_test.cc), replayed on the model. *)
From Verif Require Import Base M_Scanner.

Fixpoint run_tokens (n : nat) (sc : scanner) : list token :=
  match n with
  | 0 => []
  | S n => let '(t, sc') := next sc in t :: run_tokens n sc'
  end.
Definition toks n (s : str) := map (fun t => (tok_type t, tok_text t)) (run_tokens n (scanner_init s)).
Definition types n (s : str) := map tok_type (run_tokens n (scanner_init s)).

Example eof_tests : types 2 [] = [TEof; TEof] /\ types 2 ($" # foo") = [TEof; TEof] /\
  types 2 ($"@") = [TError; TEof] /\ types 3 ($"if\else") = [TIf; TElse; TEof].
Proof. vm_compute. auto. Qed.

Example newline_test :
  map (fun t => (tok_type t, tok_newline t)) (run_tokens 4 (scanner_init ($"foo bar" ++ [NL] ++ $"baz")))
  = [(TIdentifier, false); (TIdentifier, false); (TIdentifier, true); (TEof, false)].
Proof. vm_compute. auto. Qed.

Definition simple (p : string * toktype) := toks 2 ($(fst p)) = [(snd p, $(fst p)); (TEof, [])].
Example simple_tokens :
  let t := [("(", TOpenParen); (")", TCloseParen); ("[", TOpenSquare); ("]", TCloseSquare);
    ("{", TOpenBrace); ("}", TCloseBrace); (",", TComma); (":", TColon); ("+", TPlus);
    ("-", TMinus); ("*", TMultiply); ("/", TDivide); (".", TDot); ("%", TPercent);
    ("=", TAssign); ("==", TEqualityComparison); ("!=", TNotEqual); ("<=", TLessEqual);
    (">=", TGreaterEqual); (">", TGreaterThan); ("<", TLessThan); ("not", TNot); ("!", TNot);
    ("for", TFor); ("in", TIn); ("not in", TNotIn); ("not  in", TNotIn); ("if", TIf);
    ("else", TElse); ("some_random_thing", TIdentifier)]%string in
  map (fun p => toks 2 ($(fst p))) t = map (fun p => [(snd p, $(fst p)); (TEof, [])]) t.
Proof. vm_compute. reflexivity. Qed.

Example number_string :
  toks 5 ($"42 0o42 0xff ""hello world""")
  = [(TNumberLiteral, $"42"); (TNumberLiteral, $"0o42"); (TNumberLiteral, $"0xff");
     (TStringLiteral, $"""hello world"""); (TEof, [])].
Proof. vm_compute. reflexivity. Qed.

Example double_word :
  toks 7 ($"43 not in answer foo in 12")
  = [(TNumberLiteral, $"43"); (TNotIn, $"not in"); (TIdentifier, $"answer");
     (TIdentifier, $"foo"); (TIn, $"in"); (TNumberLiteral, $"12"); (TEof, [])].
Proof. vm_compute. reflexivity. Qed.

Example string_literals :
  let l := [$"""double"""; $"'single'"; $"""hello \"" ' world"""; $"'hello "" \' world'";
            $"""\\"""; $"""\\\\"""; $"""""""hello """" world"""""""; $""""""""""""""; $"r''"] in
  map (toks 2) l = map (fun s => [(TStringLiteral, s); (TEof, [])]) l
  /\ toks 2 ($"""""""""""") = [(TError, $""""""""""""); (TEof, [])]
  /\ toks 2 ($"  r'foo'  ") = [(TStringLiteral, $"r'foo'"); (TEof, [])].
Proof. vm_compute. auto. Qed.

Example line_column :
  let text := [NL] ++ $"line 2" ++ [NL] ++ $"line 3" ++ [NL] ++ $"  line 4" in
  get_range (line_map_of text) 1 6 = Some (mkLC 1 0, mkLC 1 6) /\
  get_range (line_map_of text) 17 6 = Some (mkLC 3 2, mkLC 3 8).
Proof. vm_compute. auto. Qed.

Example surrounding :
  get_surrounding_line ($"foo") 1 1 = Some (0, 3) /\
  get_surrounding_line ([NL] ++ $"foo" ++ [NL]) 1 1 = Some (1, 3) /\
  get_surrounding_line ($"foo" ++ [NL] ++ $"bar" ++ [NL] ++ $"baz") 5 1 = Some (4, 3).
Proof. vm_compute. auto. Qed.
