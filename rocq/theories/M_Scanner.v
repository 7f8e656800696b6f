(** Model of /repo/bant/frontend: linecolumn-map.cc, named-content.cc, scanner.{h,cc}
    and the literal conversions of ast.cc.

    Content pointers are byte offsets into the content. *)
From Verif Require Import Base.

(** ** Line index *)

(** linecolumn-map.h:56, [line_map_]: offsets of the line beginnings, in order of
    insertion. *)
Definition line_map := list nat.

(** linecolumn-map.cc:28-31, the CHECK of PushNewline. *)
Definition push_newline_check (m : line_map) (pos : nat) : bool :=
  match m with [] => true | _ => last m 0 <=? pos end.

(** std::upper_bound on the line map: index of the first entry greater than
    [pos].  Simplification: linear instead of binary search; both return the
    partition point of a sorted sequence. *)
Fixpoint upper_bound (pos : nat) (m : line_map) : nat :=
  match m with
  | [] => 0
  | x :: m' => if x <=? pos then S (upper_bound pos m') else 0
  end.

Record line_column := mkLC { lc_line : nat; lc_col : nat }.

(** linecolumn-map.cc:33-41, GetPos; [None] if the CHECK fails. *)
Definition get_pos (m : line_map) (pos : nat) : option line_column :=
  match upper_bound pos m with
  | 0 => None
  | S i => Some (mkLC i (pos - nth i m 0))
  end.

(** linecolumn-map.cc:43-48, GetRange of the view at [start] with length [len]. *)
Definition get_range (m : line_map) (start len : nat) : option (line_column * line_column) :=
  match get_pos m start, get_pos m (start + len) with
  | Some a, Some b => Some (a, b)
  | _, _ => None
  end.

(** linecolumn-map.cc:50-60, InitializeFromStringView: positions after each
    newline of [s], which starts at offset [pos].  The loop over find_first_of
    is written as one pass over the bytes. *)
Fixpoint newline_starts (pos : nat) (s : str) : list nat :=
  match s with
  | [] => []
  | c :: s' => (if ceqb c NL then [S pos] else []) ++ newline_starts (S pos) s'
  end.
Definition line_map_of (s : str) : line_map := 0 :: newline_starts 0 s.

(** ** Named content *)

Fixpoint take_until_nl (s : str) : nat :=
  match s with
  | [] => 0
  | c :: s' => if ceqb c NL then 0 else S (take_until_nl s')
  end.

(** named-content.cc:34-51, GetSurroundingLine of the view [start, start+len);
    [None] if the CHECK of line 36 fails.  Result: start and length. *)
Definition get_surrounding_line (content : str) (start len : nat) : option (nat * nat) :=
  if start + len <=? length content then
    let back := take_until_nl (rev (firstn start content)) in
    let fwd := take_until_nl (skipn (start + len) content) in
    Some (start - back, start + len + fwd - (start - back))
  else None.

(** ** Tokens *)

(** scanner.h:28-72, enum TokenType. *)
Inductive toktype :=
| TOpenParen | TCloseParen | TOpenSquare | TCloseSquare | TOpenBrace | TCloseBrace
| TComma | TColon | TPlus | TMinus | TMultiply | TDivide | TDot | TPercent | TPipe
| TAssign | TLessThan | TGreaterThan | TNot
| TEqualityComparison | TNotEqual | TLessEqual | TGreaterEqual
| TIdentifier | TStringLiteral | TNumberLiteral
| TFor | TIn | TNotIn | TAnd | TOr | TIf | TElse
| TError | TEof.

Scheme Equality for toktype.

(** scanner.h:76-80, struct Token; the string view is an offset and its text. *)
Record token := mkToken {
  tok_type : toktype;
  tok_off : nat;
  tok_text : str;
  tok_newline : bool }.

(** scanner.h:119-128, the members of Scanner.  [sc_rest] is the content from
    [pos_] to [end_].  Simplification: the two uint32_t newline counters do not
    wrap around (content with fewer than 2^32 lines). *)
Record scanner := mkScanner {
  sc_rest : str;
  sc_off : nat;
  sc_lines : line_map;
  sc_newlines : nat;
  sc_last_newlines : nat;
  sc_upcoming : option token }.

(** scanner.cc:85-91, constructor. *)
Definition scanner_init (content : str) : scanner :=
  mkScanner content 0 [0] 0 0 None.

(** scanner.cc:93-107, SkipSpace: number of bytes skipped and newline positions
    pushed. *)
Fixpoint skip_space (s : str) (pos : nat) (in_comment : bool) : nat * list nat :=
  match s with
  | [] => (0, [])
  | c :: s' =>
      if is_space c || ceqb c BSL || ceqb c "#" || in_comment then
        if ceqb c "#" then
          let '(n, p) := skip_space s' (S pos) true in (S n, p)
        else if ceqb c NL then
          let '(n, p) := skip_space s' (S pos) false in (S n, S pos :: p)
        else
          let '(n, p) := skip_space s' (S pos) in_comment in (S n, p)
      else (0, [])
  end.

(** scanner.cc:109-111. *)
Definition is_identifier_char (c : ascii) : bool :=
  is_alpha c || ceqb c "_" || is_digit c.

(** scanner.cc:142-144 (and 116-118): length of the longest prefix of bytes
    satisfying [f]. *)
Fixpoint span_len (f : ascii -> bool) (s : str) : nat :=
  match s with
  | c :: s' => if f c then S (span_len f s') else 0
  | [] => 0
  end.

(** scanner.cc:113-124, ConsumeOptionalIn: bytes consumed if successful. *)
Definition consume_optional_in (s : str) : option nat :=
  let n := span_len is_space s in
  if starts_with ($"in") (skipn n s) then Some (n + 2) else None.

(** scanner.cc:181-195, the loop of HandleString: whether the closing quote was
    found, number of bytes before it, newline positions pushed. *)
Fixpoint scan_string (q : ascii) (triple : bool) (s : str) (pos : nat)
         (close_quote_count : nat) (last_was_escape : bool) : bool * nat * list nat :=
  match s with
  | [] => (false, 0, [])
  | c :: s' =>
      let full := if triple then 3 else 1 in
      let is_quote := ceqb c q && negb last_was_escape in
      let count := if is_quote then close_quote_count - 1 else full in
      if is_quote && (count =? 0) then (true, 0, [])
      else
        let esc := ceqb c BSL && negb last_was_escape in
        let '(ok, n, p) := scan_string q triple s' (S pos) count esc in
        (ok, S n, (if ceqb c NL then [S pos] else []) ++ p)
  end.

(** scanner.cc:165-201, HandleString on the text [s] at offset [pos]: token type,
    token length, newline positions pushed. *)
Definition handle_string (s : str) (pos : nat) : toktype * nat * list nat :=
  let prefix := match s with
                | c :: _ => if ceqb c "r" || ceqb c "R" then 1 else 0
                | [] => 0
                end in
  match skipn prefix s with
  | [] => (TError, prefix, [])       (* not reachable: callers checked the quote *)
  | q :: body =>
      let triple := match body with
                    | a :: b :: _ => ceqb a q && ceqb b q
                    | _ => false
                    end in
      let open := prefix + (if triple then 3 else 1) in
      let '(closed, n, p) :=
        scan_string q triple (skipn open s) (pos + open) (if triple then 3 else 1) false in
      if closed then (TStringLiteral, open + n + 1, p) else (TError, open + n, p)
  end.

(** scanner.cc:126-163. *)
Definition handle_identifier (s : str) (pos : nat) : toktype * nat * list nat :=
  match s with
  | [] => (TError, 0, [])            (* not reachable: pos_ < end_ *)
  | c :: r =>
      if (2 <? length s) && (ceqb c "r" || ceqb c "R") &&
         match r with d :: _ => ceqb d DQ || ceqb d SQ | [] => false end
      then handle_string s pos
      else if negb (is_identifier_char c) then (TError, 1, [])
      else
        let n := span_len is_identifier_char s in
        let text := firstn n s in
        if str_eqb text ($"not") then
          match consume_optional_in (skipn n s) with
          | Some k => (TNotIn, n + k, [])
          | None => (TNot, n, [])
          end
        else if str_eqb text ($"in") then (TIn, n, [])
        else if str_eqb text ($"for") then (TFor, n, [])
        else if str_eqb text ($"and") then (TAnd, n, [])
        else if str_eqb text ($"or") then (TOr, n, [])
        else if str_eqb text ($"if") then (TIf, n, [])
        else if str_eqb text ($"else") then (TElse, n, [])
        else (TIdentifier, n, [])
  end.

(** scanner.cc:224-232, the loop of HandleNumber: [false] if a second dot was
    found.  isdigit()/isxdigit() are called with a possibly negative char, which
    is undefined by the C standard for bytes >= 128; modelled as what the C
    library in use (glibc) does: not a digit. *)
Fixpoint scan_number (f : ascii -> bool) (s : str) (dot_seen : bool) : bool * nat :=
  match s with
  | [] => (true, 0)
  | c :: s' =>
      if f c || ceqb c "." then
        if ceqb c "." && dot_seen then (false, 0)
        else
          let '(ok, n) := scan_number f s' (dot_seen || ceqb c ".") in (ok, S n)
      else (true, 0)
  end.

(** scanner.cc:203-234, HandleNumber. *)
Definition handle_number (s : str) : toktype * nat * list nat :=
  match s with
  | [] => (TError, 0, [])            (* not reachable *)
  | c :: r =>
      let '(f, skip) :=
        match r with
        | d :: _ =>
            if ceqb c "0" then
              if ceqb d "x" then (is_xdigit, 2)
              else if ceqb d "o" then (is_digit, 2)
              else (is_digit, 1)
            else (is_digit, 1)
        | [] => (is_digit, 1)
        end in
      let '(ok, n) := scan_number f (skipn skip s) false in
      (if ok then TNumberLiteral else TError, skip + n, [])
  end.

(** scanner.cc:236-252, HandleAssignOrRelational and HandleNotOrNotEquals. *)
Definition handle_relational (single with_eq : toktype) (s : str) : toktype * nat * list nat :=
  match s with
  | _ :: d :: _ => if ceqb d "=" then (with_eq, 2, []) else (single, 1, [])
  | _ => (single, 1, [])
  end.

(** scanner.cc:265-306, the dispatch in Next() on the byte at [pos_]. *)
Definition scan_token (s : str) (pos : nat) : toktype * nat * list nat :=
  match s with
  | [] => (TEof, 0, [])              (* not reachable *)
  | c :: _ =>
      if ceqb c "(" then (TOpenParen, 1, [])
      else if ceqb c ")" then (TCloseParen, 1, [])
      else if ceqb c "{" then (TOpenBrace, 1, [])
      else if ceqb c "}" then (TCloseBrace, 1, [])
      else if ceqb c "[" then (TOpenSquare, 1, [])
      else if ceqb c "]" then (TCloseSquare, 1, [])
      else if ceqb c "," then (TComma, 1, [])
      else if ceqb c ":" then (TColon, 1, [])
      else if ceqb c "+" then (TPlus, 1, [])
      else if ceqb c "-" then (TMinus, 1, [])
      else if ceqb c "*" then (TMultiply, 1, [])
      else if ceqb c "/" then (TDivide, 1, [])
      else if ceqb c "." then (TDot, 1, [])
      else if ceqb c "%" then (TPercent, 1, [])
      else if ceqb c "|" then (TPipe, 1, [])
      else if ceqb c "!" then handle_relational TNot TNotEqual s
      else if ceqb c "<" then handle_relational TLessThan TLessEqual s
      else if ceqb c ">" then handle_relational TGreaterThan TGreaterEqual s
      else if ceqb c "=" then handle_relational TAssign TEqualityComparison s
      else if is_digit c then handle_number s
      else if ceqb c DQ || ceqb c SQ then handle_string s pos
      else handle_identifier s pos
  end.

(** scanner.cc:254-312, Next(). *)
Definition next (sc : scanner) : token * scanner :=
  match sc_upcoming sc with
  | Some t =>
      (t, mkScanner (sc_rest sc) (sc_off sc) (sc_lines sc) (sc_newlines sc)
                    (sc_last_newlines sc) None)
  | None =>
      let '(n, p) := skip_space (sc_rest sc) (sc_off sc) false in
      let rest := skipn n (sc_rest sc) in
      let off := sc_off sc + n in
      let lines := sc_lines sc ++ p in
      let newlines := sc_newlines sc + length p in
      match rest with
      | [] => (mkToken TEof off [] false,
               mkScanner rest off lines newlines (sc_last_newlines sc) None)
      | _ =>
          let '(ty, k, p2) := scan_token rest off in
          let newlines := newlines + length p2 in
          (mkToken ty off (firstn k rest) (negb (sc_last_newlines sc =? newlines)),
           mkScanner (skipn k rest) (off + k) (lines ++ p2) newlines newlines None)
      end
  end.

(** scanner.h:97-103, Peek(). *)
Definition peek (sc : scanner) : token * scanner :=
  match sc_upcoming sc with
  | Some t => (t, sc)
  | None =>
      let '(t, sc') := next sc in
      (t, mkScanner (sc_rest sc') (sc_off sc') (sc_lines sc') (sc_newlines sc')
                    (sc_last_newlines sc') (Some t))
  end.

(** ** Literals *)

(** std::from_chars<int64_t>(text, base): an optional minus sign and the longest
    run of digits of the base; [None] for no digits or a value out of range. *)
Definition digit_value (c : ascii) : Z :=
  let n := Z.of_N (code c) in
  if is_digit c then n - 48
  else if is_lower c then n - 87
  else if is_upper c then n - 55
  else 1000.
Definition is_base_digit (base : Z) (c : ascii) : bool := (digit_value c <? base)%Z.
Fixpoint digits_value (base acc : Z) (s : str) : Z :=
  match s with
  | [] => acc
  | c :: s' => digits_value base (acc * base + digit_value c) s'
  end.
Definition int64_min : Z := -9223372036854775808.
Definition int64_max : Z := 9223372036854775807.
Definition from_chars (base : Z) (s : str) : option Z :=
  let '(neg, s) := match s with
                   | c :: s' => if ceqb c "-" then (true, s') else (false, s)
                   | [] => (false, s)
                   end in
  let n := span_len (is_base_digit base) s in
  if n =? 0 then None
  else
    let v := digits_value base 0 (firstn n s) in
    let v := if neg : bool then (- v)%Z else v in
    if (int64_min <=? v)%Z && (v <=? int64_max)%Z then Some v else None.

(** ast.cc:28-50, IntScalar::FromLiteral; [None] is nullptr. *)
Definition int_from_literal (literal : str) : option Z :=
  match literal with
  | _ :: b :: r =>
      if ceqb b "o" then from_chars 8 r
      else if ceqb b "x" then from_chars 16 r
      else from_chars 10 literal
  | _ => from_chars 10 literal
  end.

(** ast.cc:52-74, StringScalar::FromLiteral on a token of type kStringLiteral.
    Result: number of bytes of the literal before the value, value,
    is_triple_quoted, is_raw.  [None] stands for the undefined behaviour of
    [literal[0]] or remove_suffix on a too short literal (std::out_of_range for
    substr). *)
Definition string_from_literal (literal : str) : option (nat * str * bool * bool) :=
  match literal with
  | [] => None
  | c :: _ =>
      let is_raw := ceqb c "r" || ceqb c "R" in
      let pre := if is_raw then 1 else 0 in
      let l := skipn pre literal in
      if (6 <=? length l) && starts_with [DQ; DQ; DQ] l then
        Some (pre + 3, firstn (length l - 6) (skipn 3 l), true, is_raw)
      else if 2 <=? length l then
        Some (pre + 1, firstn (length l - 2) (skipn 1 l), false, is_raw)
      else None
  end.
