(** Printing tables: /repo/bant/util/table-printer.cc; used by all commands that list
    things. *)
From Coq Require Import NArith.
From Verif Require Import Base M_Ast.

(** * absl::CEscape *)
(** One octal digit. *)
Definition octal_digit (n : N) : ascii := ascii_of_N (48 + n mod 8)%N.
(** absl/strings/escaping.cc, CEscape of one byte (not in /repo): the usual escapes for
    newline, carriage return, tab, both quotes and backslash; three octal digits for other
    control characters and bytes from 127 up. *)
Definition c_escape_char (c : ascii) : str :=
  if ceqb c NL then [BSL; "n"%char]
  else if ceqb c "013"%char then [BSL; "r"%char]
  else if ceqb c "009"%char then [BSL; "t"%char]
  else if ceqb c DQ then [BSL; DQ]
  else if ceqb c SQ then [BSL; SQ]
  else if ceqb c BSL then [BSL; BSL]
  else if (code c <? 32)%N || (127 <=? code c)%N then
    [BSL; octal_digit (code c / 64); octal_digit (code c / 8); octal_digit (code c)]
  else [c].
Definition c_escape (s : str) : str := flat_map c_escape_char s.
(** << "\"" << absl::CEscape(s) << "\"", used all over the file. *)
Definition quoted (s : str) : str := DQ :: c_escape s ++ [DQ].

(** What the loops with "if (c != 0) out_ << separator" print. *)
Fixpoint separated {A} (sep : list A) (items : list (list A)) : list A :=
  match items with
  | [] => []
  | [i] => i
  | i :: items => i ++ sep ++ separated sep items
  end.

(** * The printers *)
(** output-format.h:22-29. *)
Inductive output_format := FmtNative | FmtSExpr | FmtPList | FmtJson | FmtCsv | FmtGraphviz.
(** table-printer.h: what is called on a printer before Finish(). *)
Inductive table_op :=
| AddRow (row : list str)
| AddRowWithRepeatedLastColumn (row_prefix repeat_col : list str).

(** [headers_[c]]; outside of the vector it is undefined behaviour. *)
Definition header_at (headers : list str) (c : nat) : outcome str :=
  match nth_error headers c with Some h => Ret h | None => UB end.

(** The rows a denormalizing printer makes out of one with a repeated column:
    table-printer.cc:53-64 and 204-215. *)
Definition denormalize (row_prefix repeat_col : list str) : list (list str) :=
  map (fun last_col => row_prefix ++ [last_col]) repeat_col.

(** ** AlignedTextColumnPrinter, table-printer.cc:37-82 *)
(** table-printer.cc:47-49: all widths but the last one are updated. *)
Fixpoint update_widths (widths : list nat) (row : list str) : list nat :=
  match widths, row with
  | [w], _ => [w]
  | w :: widths, cell :: row => Nat.max w (length cell) :: update_widths widths row
  | _, _ => widths
  end.
(** absl::StrFormat("%*s", -width - 1, cell): left-justified, padded with blanks. *)
Definition pad_cell (width : nat) (cell : str) : str :=
  cell ++ repeat " "%char (width + 1 - length cell).
(** table-printer.cc:44-51, AddRow, on (widths_, buffer_); a failing CHECK aborts.  The int
    widths are natural numbers here; with no headers at all widths_.size() - 1 wraps around
    and the row is accessed out of bounds. *)
Definition aligned_add_row (row : list str) (st : list nat * list (list str)) : outcome (list nat * list (list str)) :=
  let (widths, buffer) := st in
  if negb (length row =? length widths) then UB
  else if length widths =? 0 then UB
  else Ret (update_widths widths row, buffer ++ [row]).
Fixpoint aligned_add_rows (rows : list (list str)) (st : list nat * list (list str)) : outcome (list nat * list (list str)) :=
  match rows with
  | [] => Ret st
  | row :: rows => do st <- aligned_add_row row st; aligned_add_rows rows st
  end.
(** table-printer.cc:53-64. *)
Definition aligned_op (op : table_op) (st : list nat * list (list str)) : outcome (list nat * list (list str)) :=
  match op with
  | AddRow row => aligned_add_row row st
  | AddRowWithRepeatedLastColumn row_prefix repeat_col =>
      if negb (S (length row_prefix) =? length (fst st)) then UB
      else aligned_add_rows (denormalize row_prefix repeat_col) st
  end.
Fixpoint aligned_ops (ops : list table_op) (st : list nat * list (list str)) : outcome (list nat * list (list str)) :=
  match ops with
  | [] => Ret st
  | op :: ops => do st <- aligned_op op st; aligned_ops ops st
  end.
(** table-printer.cc:68-70: one row. *)
Fixpoint aligned_line (widths : list nat) (row : list str) : str :=
  match widths, row with
  | w :: widths, cell :: row => pad_cell w cell ++ aligned_line widths row
  | _, _ => []
  end.
(** table-printer.cc:66-73, Finish. *)
Definition aligned_finish (st : list nat * list (list str)) : str :=
  flat_map (fun row => aligned_line (fst st) row ++ [NL]) (snd st).
Definition aligned_print (headers : list str) (ops : list table_op) : outcome str :=
  do st <- aligned_ops ops (repeat 0 (length headers), []);
  Ret (aligned_finish st).

(** ** SExprTablePrinter, table-printer.cc:84-147 *)
Section SExpr.
Variable as_plist : bool.
Variable headers : list str.
(** table-printer.cc:96 and 114-117, 126-129: the header in front of a value, nothing in
    S-expressions. *)
Definition plist_header (c : nat) : outcome str :=
  if as_plist then do h <- header_at headers c; Ret (":"%char :: h ++ [" "%char]) else Ret [].
(** table-printer.cc:94-98 and 109-121: the values from column [c] on. *)
Fixpoint sexpr_cells (c : nat) (row : list str) : outcome str :=
  match row with
  | [] => Ret []
  | cell :: row =>
      do h <- plist_header c;
      do r <- sexpr_cells (S c) row;
      Ret ((if c =? 0 then [] else [" "%char]) ++ h ++ quoted cell ++ r)
  end.
(** table-printer.cc:109-121: indent_width after the loop. *)
Fixpoint prefix_indent (c : nat) (row : list str) : outcome nat :=
  match row with
  | [] => Ret 0
  | cell :: row =>
      do h <- (if as_plist then do h <- header_at headers c; Ret (length h + 2) else Ret 0);
      do r <- prefix_indent (S c) row;
      Ret ((if c =? 0 then 0 else 1) + h + (length (c_escape cell) + 2) + r)
  end.
(** table-printer.cc:92-93. *)
Definition row_open (row_printed : bool) : str := (if row_printed then $"
 (" else $"(").
(** table-printer.cc:132-135: the repeated values. *)
Definition repeated_cells (indent : nat) (repeat_col : list str) : str :=
  separated (NL :: repeat " "%char indent) (map quoted repeat_col).
(** table-printer.cc:92-138: the text of one operation. *)
Definition sexpr_op (row_printed : bool) (op : table_op) : outcome str :=
  match op with
  | AddRow row =>
      do cells <- sexpr_cells 0 row;
      Ret (row_open row_printed ++ cells ++ [")"%char])
  | AddRowWithRepeatedLastColumn row_prefix repeat_col =>
      let c := length row_prefix in
      do cells <- sexpr_cells 0 row_prefix;
      do indent_width <- prefix_indent 0 row_prefix;
      do h <- plist_header c;
      do hw <- (if as_plist then do h <- header_at headers c; Ret (length h + 2) else Ret 0);
      Ret (row_open row_printed ++ cells ++ (if c =? 0 then [] else [" "%char]) ++ h
           ++ "("%char :: repeated_cells (indent_width + 1 + hw + 3) repeat_col ++ $"))")
  end.
Fixpoint sexpr_ops (row_printed : bool) (ops : list table_op) : outcome str :=
  match ops with
  | [] => Ret []
  | op :: ops =>
      do t <- sexpr_op row_printed op;
      do r <- sexpr_ops true ops;
      Ret (t ++ r)
  end.
(** table-printer.cc:86-90 and 140: what is around the rows. *)
Definition sexpr_print (ops : list table_op) : outcome str :=
  do r <- sexpr_ops false ops;
  Ret ("("%char :: r ++ [")"%char; NL]).
End SExpr.

(** ** JSonTablePrinter, table-printer.cc:149-190 *)
Section Json.
Variable headers : list str.
(** table-printer.cc:157, 169, 173: header and colon. *)
Definition json_header (c : nat) : outcome str :=
  do h <- header_at headers c; Ret (quoted h ++ $": ").
(** table-printer.cc:155-159 and 167-171. *)
Fixpoint json_cells (c : nat) (row : list str) : outcome str :=
  match row with
  | [] => Ret []
  | cell :: row =>
      do h <- json_header c;
      do r <- json_cells (S c) row;
      Ret ((if c =? 0 then [] else $", ") ++ h ++ quoted cell ++ r)
  end.
(** table-printer.cc:154-181. *)
Definition json_op (op : table_op) : outcome str :=
  match op with
  | AddRow row =>
      do cells <- json_cells 0 row;
      Ret ("{"%char :: cells ++ ["}"%char; NL])
  | AddRowWithRepeatedLastColumn row_prefix repeat_col =>
      let c := length row_prefix in
      do cells <- json_cells 0 row_prefix;
      do h <- json_header c;
      Ret ("{"%char :: cells ++ (if c =? 0 then [] else $", ") ++ h
           ++ "["%char :: separated ($", ") (map quoted repeat_col) ++ ["]"%char; "}"%char; NL])
  end.
Fixpoint json_print (ops : list table_op) : outcome str :=
  match ops with
  | [] => Ret []
  | op :: ops => do t <- json_op op; do r <- json_print ops; Ret (t ++ r)
  end.
End Json.

(** ** CSVTablePrinter, table-printer.cc:192-222 *)
(** table-printer.cc:195-200 and 203-207. *)
Definition csv_line (row : list str) : str := separated [","%char] (map quoted row) ++ [NL].
Definition csv_op (op : table_op) : str :=
  match op with
  | AddRow row => csv_line row
  | AddRowWithRepeatedLastColumn row_prefix repeat_col =>
      flat_map csv_line (denormalize row_prefix repeat_col)
  end.
Definition csv_print (headers : list str) (ops : list table_op) : str :=
  csv_line headers ++ flat_map csv_op ops.

(** table-printer.cc:227-242, Create, followed by [ops] and Finish(): the text written. *)
Definition table_print (format : output_format) (headers : list str) (ops : list table_op) : outcome str :=
  match format with
  | FmtSExpr => sexpr_print false headers ops
  | FmtPList => sexpr_print true headers ops
  | FmtJson => json_print headers ops
  | FmtCsv => Ret (csv_print headers ops)
  | FmtNative | FmtGraphviz => aligned_print headers ops
  end.
