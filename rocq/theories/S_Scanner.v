(** Specification vocabulary for scanning, independent of the scanner. *)
From Verif Require Import Base M_Scanner.

(** Text between tokens: white space, backslashes and comments.  A comment that is
    not ended by a newline can only be the last thing ([at_eof]). *)
Inductive gap (at_eof : bool) : str -> Prop :=
| gap_nil : gap at_eof []
| gap_blank c g : is_space c = true \/ c = BSL -> gap at_eof g -> gap at_eof (c :: g)
| gap_comment body g : ~ In NL body -> gap at_eof g -> gap at_eof ("#"%char :: body ++ NL :: g)
| gap_last body : at_eof = true -> ~ In NL body -> gap at_eof ("#"%char :: body).

(** [tiles off s toks]: the tokens cover the text [s], which begins at offset
    [off], leaving only gaps. *)
Inductive tiles : nat -> str -> list token -> Prop :=
| tiles_eof off g :
    gap true g -> tiles off g [mkToken TEof (off + length g) [] false]
| tiles_token off g text rest ty nl toks :
    gap false g -> text <> [] -> ty <> TEof ->
    (ty <> TNotIn -> (nl = true <-> In NL (g ++ text))) ->
    tiles (off + length g + length text) rest toks ->
    tiles off (g ++ text ++ rest) (mkToken ty (off + length g) text nl :: toks).

(** The n-th token delivered by successive calls of Next(). *)
Fixpoint after_next (n : nat) (sc : scanner) : scanner :=
  match n with 0 => sc | S n => after_next n (snd (next sc)) end.
Definition token_at (content : str) (n : nat) : token :=
  fst (next (after_next n (scanner_init content))).

(** The true line and column of offset [p]. *)
Definition is_position (content : str) (p : nat) (lc : line_column) : Prop :=
  exists before line,
    firstn p content = before ++ line /\ ~ In NL line /\
    (before = [] \/ exists b, before = b ++ [NL]) /\
    lc_line lc = count_char NL before /\ lc_col lc = length line.

(** Mixed calls. *)
Inductive scan_call := CallNext | CallPeek.
Fixpoint run_calls (cs : list scan_call) (sc : scanner) : list token :=
  match cs with
  | [] => []
  | CallNext :: cs => let '(t, sc') := next sc in t :: run_calls cs sc'
  | CallPeek :: cs => let '(t, sc') := peek sc in t :: run_calls cs sc'
  end.
(** What they must see: a cursor into the token sequence. *)
Fixpoint expected_calls (cs : list scan_call) (tok : nat -> token) (i : nat) : list token :=
  match cs with
  | [] => []
  | CallNext :: cs => tok i :: expected_calls cs tok (S i)
  | CallPeek :: cs => tok i :: expected_calls cs tok i
  end.

(** Shape of a string literal: prefix, quotes, body, quotes. *)
Definition string_literal (raw : option ascii) (q : ascii) (triple : bool) (body : str) : str :=
  (match raw with Some r => [r] | None => [] end)
    ++ (if triple then [q; q; q] else [q]) ++ body ++ (if triple then [q; q; q] else [q]).

(** [unescaped_in body i]: the byte at index [i] of the body is not preceded by an
    active backslash. *)
Fixpoint escape_state (s : str) (esc : bool) : bool :=
  match s with
  | [] => esc
  | c :: s' => escape_state s' (ceqb c BSL && negb esc)
  end.
Definition active_quote (q : ascii) (body : str) (i : nat) : Prop :=
  nth_error body i = Some q /\ escape_state (firstn i body) false = false.

(** Value of a digit string in positional notation. *)
Inductive digit : ascii -> Z -> Prop :=
| digit_dec i c : find_first c ($"0123456789") = Some i -> digit c (Z.of_nat i)
| digit_low i c : find_first c ($"abcdef") = Some i -> digit c (10 + Z.of_nat i)
| digit_upp i c : find_first c ($"ABCDEF") = Some i -> digit c (10 + Z.of_nat i).
Inductive numeral (base : Z) : str -> Z -> Prop :=
| numeral_one c d : digit c d -> (d < base)%Z -> numeral base [c] d
| numeral_more c s d v :
    digit c d -> (d < base)%Z -> numeral base s v ->
    numeral base (c :: s) (d * base ^ Z.of_nat (length s) + v).

(** Bytes that words consist of. *)
Definition word_chars : str :=
  $"abcdefghijklmnopqrstuvwxyzABCDEFGHIJKLMNOPQRSTUVWXYZ_0123456789".
Definition is_word_token (t : token) : Prop :=
  In (tok_type t) [TIdentifier; TFor; TIn; TAnd; TOr; TIf; TElse] \/
  (tok_type t = TNot /\ tok_text t <> $"!").
