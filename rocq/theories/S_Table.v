(** What the printed tables mean: readers of the output formats, written independently of
    the printers. *)
From Coq Require Import NArith.
From Verif Require Import Base.

(** * Reading text into tokens *)
(** Escape sequences: what the characters after a backslash stand for. *)
Inductive escape := EscIs (value : str) | EscMore | EscBad.
(** C: the simple ones and three octal digits. *)
Definition octal_value (c : ascii) : option N :=
  if in_range "0" "7" c then Some (code c - 48)%N else None.
Definition c_escapes (chars : str) : escape :=
  match chars with
  | [e] =>
      if ceqb e "n" then EscIs [ascii_of_nat 10]
      else if ceqb e "r" then EscIs [ascii_of_nat 13]
      else if ceqb e "t" then EscIs [ascii_of_nat 9]
      else if ceqb e DQ || ceqb e SQ || ceqb e BSL then EscIs [e]
      else match octal_value e with Some _ => EscMore | None => EscBad end
  | [a; b] => match octal_value b with Some _ => EscMore | None => EscBad end
  | [a; b; c] =>
      match octal_value a, octal_value b, octal_value c with
      | Some x, Some y, Some z => if (x <=? 3)%N then EscIs [ascii_of_N (x * 64 + y * 8 + z)] else EscBad
      | _, _, _ => EscBad
      end
  | _ => EscBad
  end.
(** JSON, RFC 8259, section 7; \u gives the bytes of UTF-8 (surrogates are not combined). *)
Definition hex_value (c : ascii) : option N :=
  if is_digit c then Some (code c - 48)%N
  else if in_range "a" "f" c then Some (code c - 87)%N
  else if in_range "A" "F" c then Some (code c - 55)%N
  else None.
Definition utf8 (n : N) : str :=
  if (n <? 128)%N then [ascii_of_N n]
  else if (n <? 2048)%N then [ascii_of_N (192 + n / 64); ascii_of_N (128 + n mod 64)]
  else [ascii_of_N (224 + n / 4096); ascii_of_N (128 + (n / 64) mod 64); ascii_of_N (128 + n mod 64)].
Definition json_escapes (chars : str) : escape :=
  match chars with
  | [e] =>
      if ceqb e DQ || ceqb e BSL || ceqb e "/" then EscIs [e]
      else if ceqb e "b" then EscIs [ascii_of_nat 8]
      else if ceqb e "f" then EscIs [ascii_of_nat 12]
      else if ceqb e "n" then EscIs [ascii_of_nat 10]
      else if ceqb e "r" then EscIs [ascii_of_nat 13]
      else if ceqb e "t" then EscIs [ascii_of_nat 9]
      else if ceqb e "u" then EscMore else EscBad
  | [u; a; b; c; d] =>
      match hex_value a, hex_value b, hex_value c, hex_value d with
      | Some w, Some x, Some y, Some z => EscIs (utf8 (w * 4096 + x * 256 + y * 16 + z))
      | _, _, _, _ => EscBad
      end
  | u :: _ => EscMore
  | [] => EscBad
  end.

Inductive tok := TStr (s : str) | TSym (c : ascii) | TWord (w : str).
(** Where the reader is: between tokens, in a word, in a string, after a backslash. *)
Inductive mode := MOut | MWord (w : str) | MStr (s : str) | MEsc (s e : str).

Section Lex.
Variable escapes : str -> escape.
(** Characters that are a token of their own, and those to ignore. *)
Variable punct blank : ascii -> bool.

Definition lex_out (toks : list tok) (c : ascii) : list tok * mode :=
  if ceqb c DQ then (toks, MStr [])
  else if punct c then (toks ++ [TSym c], MOut)
  else if blank c then (toks, MOut)
  else (toks, MWord [c]).
(** One more character; no string contains a control character as it is. *)
Definition lex_step (st : option (list tok * mode)) (c : ascii) : option (list tok * mode) :=
  match st with
  | None => None
  | Some (toks, MOut) => Some (lex_out toks c)
  | Some (toks, MWord w) =>
      if ceqb c DQ || punct c || blank c then Some (lex_out (toks ++ [TWord w]) c)
      else Some (toks, MWord (w ++ [c]))
  | Some (toks, MStr s) =>
      if ceqb c DQ then Some (toks ++ [TStr s], MOut)
      else if ceqb c BSL then Some (toks, MEsc s [])
      else if (code c <? 32)%N then None
      else Some (toks, MStr (s ++ [c]))
  | Some (toks, MEsc s e) =>
      match escapes (e ++ [c]) with
      | EscIs v => Some (toks, MStr (s ++ v))
      | EscMore => Some (toks, MEsc s (e ++ [c]))
      | EscBad => None
      end
  end.
Definition lex (s : str) : option (list tok) :=
  match fold_left lex_step s (Some ([], MOut)) with
  | Some (toks, MOut) => Some toks
  | Some (toks, MWord w) => Some (toks ++ [TWord w])
  | _ => None
  end.
End Lex.

(** A reader is a state machine over tokens. *)
Fixpoint feed {S : Type} (step : S -> tok -> option S) (toks : list tok) (st : S) : option S :=
  match toks with
  | [] => Some st
  | t :: toks => match step st t with Some st => feed step toks st | None => None end
  end.

(** * CSV: lines of quoted strings with commas between them *)
(** The lines so far, the fields of the line, and whether the last token was a field. *)
Record csv_state := mkCsv { csv_lines : list (list str); csv_fields : list str; csv_after_field : bool }.
Definition csv_step (st : csv_state) (t : tok) : option csv_state :=
  let '(mkCsv lines fields after) := st in
  match t with
  | TStr s => if after then None else Some (mkCsv lines (fields ++ [s]) true)
  | TSym c =>
      if after then
        if ceqb c "," then Some (mkCsv lines fields false)
        else Some (mkCsv (lines ++ [fields]) [] false)
      else None
  | TWord _ => None
  end.
Definition read_csv (s : str) : option (list (list str)) :=
  match lex c_escapes (fun c => ceqb c "," || ceqb c NL) (fun _ => false) s with
  | None => None
  | Some toks =>
      match feed csv_step toks (mkCsv [] [] false) with
      | Some (mkCsv lines [] false) => Some lines
      | _ => None
      end
  end.

(** * S-expressions *)
Inductive sexpr := Str (s : str) | Word (w : str) | Paren (l : list sexpr).
(** The open lists, innermost first, and what is complete outside of them. *)
Record sexpr_state := mkSexpr { sx_open : list (list sexpr); sx_done : list sexpr }.
Definition sexpr_add (x : sexpr) (st : sexpr_state) : sexpr_state :=
  match st with
  | mkSexpr [] done => mkSexpr [] (done ++ [x])
  | mkSexpr (l :: open) done => mkSexpr ((l ++ [x]) :: open) done
  end.
Definition sexpr_step (st : sexpr_state) (t : tok) : option sexpr_state :=
  match t with
  | TStr s => Some (sexpr_add (Str s) st)
  | TWord w => Some (sexpr_add (Word w) st)
  | TSym c =>
      if ceqb c "(" then Some (mkSexpr ([] :: sx_open st) (sx_done st))
      else match st with
           | mkSexpr (l :: open) done => Some (sexpr_add (Paren l) (mkSexpr open done))
           | mkSexpr [] _ => None
           end
  end.
(** The one expression that [s] is. *)
Definition read_sexpr (s : str) : option sexpr :=
  match lex c_escapes (fun c => ceqb c "(" || ceqb c ")") is_space s with
  | None => None
  | Some toks =>
      match feed sexpr_step toks (mkSexpr [] []) with
      | Some (mkSexpr [] [x]) => Some x
      | _ => None
      end
  end.

(** * JSON: an object with strings and lists of strings *)
Inductive jvalue := JStr (s : str) | JArr (l : list str).
Inductive json_mode :=
| JStart | JFirst | JKey | JColon (k : str) | JValue (k : str)
| JArrFirst (k : str) | JArrItem (k : str) (l : list str) | JArrNext (k : str) (l : list str)
| JNext | JEnd.
Definition json_step (st : list (str * jvalue) * json_mode) (t : tok) : option (list (str * jvalue) * json_mode) :=
  let (members, m) := st in
  match m, t with
  | JStart, TSym c => if ceqb c "{" then Some (members, JFirst) else None
  | JFirst, TSym c => if ceqb c "}" then Some (members, JEnd) else None
  | JFirst, TStr k | JKey, TStr k => Some (members, JColon k)
  | JColon k, TSym c => if ceqb c ":" then Some (members, JValue k) else None
  | JValue k, TStr v => Some (members ++ [(k, JStr v)], JNext)
  | JValue k, TSym c => if ceqb c "[" then Some (members, JArrFirst k) else None
  | JArrFirst k, TSym c => if ceqb c "]" then Some (members ++ [(k, JArr [])], JNext) else None
  | JArrFirst k, TStr v => Some (members, JArrNext k [v])
  | JArrItem k l, TStr v => Some (members, JArrNext k (l ++ [v]))
  | JArrNext k l, TSym c =>
      if ceqb c "," then Some (members, JArrItem k l)
      else if ceqb c "]" then Some (members ++ [(k, JArr l)], JNext) else None
  | JNext, TSym c =>
      if ceqb c "," then Some (members, JKey)
      else if ceqb c "}" then Some (members, JEnd) else None
  | _, _ => None
  end.
Definition read_json (s : str) : option (list (str * jvalue)) :=
  match lex json_escapes (fun c => contains_char c ($"{}[]:,"))
              (fun c => ceqb c " " || ceqb c NL || ceqb c "013" || ceqb c "009") s with
  | None => None
  | Some toks =>
      match feed json_step toks ([], JStart) with
      | Some (members, JEnd) => Some members
      | _ => None
      end
  end.

(** * The contents of a table *)
(** One thing put in: a row, with one value or a list of values in the last column. *)
Inductive entry := Plain (row : list str) | Multi (row_prefix values : list str).
(** The rows when every value gets its own. *)
Definition entry_rows (e : entry) : list (list str) :=
  match e with
  | Plain row => [row]
  | Multi row_prefix values => map (fun v => row_prefix ++ [v]) values
  end.
Definition entry_columns (e : entry) : nat :=
  match e with Plain row => length row | Multi row_prefix _ => S (length row_prefix) end.
Definition entry_cells (e : entry) : list str :=
  match e with Plain row => row | Multi row_prefix values => row_prefix ++ values end.
Definition entry_sexpr (e : entry) : sexpr :=
  match e with
  | Plain row => Paren (map Str row)
  | Multi row_prefix values => Paren (map Str row_prefix ++ [Paren (map Str values)])
  end.
(** Every value has its header in front. *)
Definition keyed (headers : list str) (values : list sexpr) : list sexpr :=
  flat_map (fun hv => [Word (":"%char :: fst hv); snd hv]) (combine headers values).
Definition entry_plist (headers : list str) (e : entry) : sexpr :=
  match e with
  | Plain row => Paren (keyed headers (map Str row))
  | Multi row_prefix values => Paren (keyed headers (map Str row_prefix ++ [Paren (map Str values)]))
  end.
Definition entry_json (headers : list str) (e : entry) : list (str * jvalue) :=
  match e with
  | Plain row => combine headers (map JStr row)
  | Multi row_prefix values => combine headers (map JStr row_prefix ++ [JArr values])
  end.
(** Headers that can be read as part of a word. *)
Definition plain_header (h : str) : Prop :=
  forall c, In c h -> c <> DQ /\ c <> "("%char /\ c <> ")"%char /\ is_space c = false.
(** Strings that C and JSON escape alike. *)
Definition json_safe (s : str) : Prop :=
  forall c, In c s -> c = ascii_of_nat 9 \/ c = ascii_of_nat 10 \/ c = ascii_of_nat 13 \/ (32 <= code c <= 126)%N /\ c <> SQ.

(** * Aligned columns *)
(** The width of column [i]. *)
Definition column_width (rows : list (list str)) (i : nat) : nat :=
  list_max (map (fun row => length (nth i row [])) rows).
(** Where column [i] starts. *)
Fixpoint column_start (rows : list (list str)) (i : nat) : nat :=
  match i with
  | 0 => 0
  | S i => column_start rows i + column_width rows i + 1
  end.
(** What one aligned line looks like: every cell is where its column starts, with at least one blank
    and nothing else up to the next column; the last one ends the line. *)
Definition aligned_row (rows : list (list str)) (row : list str) (line : str) : Prop :=
  forall i c, nth_error row i = Some c ->
    exists before after, line = before ++ c ++ after /\ length before = column_start rows i /\
      (S i < length row -> exists k rest, after = repeat " "%char (S k) ++ rest /\
                             column_start rows i + length c + S k = column_start rows (S i)) /\
      (S i = length row -> after = if is_nil c then [" "%char] else []).
(** The words of a line. *)
Definition words (line : str) : list str := filter (fun w => negb (is_nil w)) (split " " line).
