(** Printing of syntax trees with colours and with the matches of a regular expression
    marked (/repo/bant/frontend/print-visitor.cc); M_Printer is the same without either. *)
From Verif Require Import Base M_Scanner M_Ast M_Printer.

(** print-visitor.cc:29-46, the escape sequences. *)
Definition ESC : ascii := "027"%char.
Definition color_bold : str := ESC :: $"[1m".
Definition color_lhs : str := ESC :: $"[35m".
Definition color_reset : str := ESC :: $"[0m".
Definition color_highlight : str := ESC :: $"[7m".
Definition color_reset_highlight : str := ESC :: $"[27m".

(** RE2::FindAndConsume(&text, re, &highlight): where the first group is found, its length, and
    the number of bytes consumed; None if there is no match.  RE2 itself is not modelled. *)
Definition finder_fn := str -> option (nat * nat * nat).
Record mark := mkMark { m_start : nat; m_len : nat; m_consumed : nat }.
Definition find_mark (find : finder_fn) (s : str) : option mark :=
  option_map (fun x => mkMark (fst (fst x)) (snd (fst x)) (snd x)) (find s).

Section Visitor.
Variable highlight_re : option finder_fn.
Variable do_color : bool.
Definition colored (c : str) : str := if do_color then c else [].

(** print-visitor.cc:49-63, PrintMaybeHighlight: what is printed and whether any_highlight_ is
    set.  A match always starts where the search began or later, and last_end is where it
    began: the text from there to the match is printed before it.  Each round consumes some
    text or repeats itself for ever, so one more round than there are bytes is enough:
    [OutOfFuel] is a loop that does not end. *)
Fixpoint highlight_loop (find : finder_fn) (fuel : nat) (s : str) : outcome (str * bool) :=
  match find_mark find s with
  | None => Ret (s, false)
  | Some m =>
      match fuel with
      | 0 => OutOfFuel
      | S fuel =>
          do (rest, _) <- highlight_loop find fuel (skipn (m_consumed m) s);
          Ret (firstn (m_start m) s ++ colored color_highlight ++ substr s (m_start m) (m_len m)
                 ++ colored color_reset_highlight ++ rest, true)
      end
  end.
Definition maybe_highlight (s : str) : outcome (str * bool) :=
  match highlight_re with
  | None => Ret (s, false)
  | Some find => highlight_loop find (S (length s)) s
  end.

(** print-visitor.cc:86-112, VisitList: the elements, as in M_Printer. *)
Section Elements.
Variable print : nat -> node -> outcome (str * bool).
Fixpoint hprint_elems (indent : nat) (multiline first : bool) (l : list node) : outcome (str * bool) :=
  match l with
  | [] => Ret ([], false)
  | n :: l =>
      do (a, ha) <- (match n with NNull => Ret ($"NIL", false) | _ => print indent n end);
      do (b, hb) <- hprint_elems indent multiline false l;
      Ret ((if first then [] else $"," ++ [NL])
             ++ (if multiline then repeat " "%char indent else []) ++ a ++ b, ha || hb)
  end.
End Elements.

(** print-visitor.cc:157-178, VisitScalar for strings. *)
Definition hprint_string (v : str) (triple raw : bool) : outcome (str * bool) :=
  let q := if find_first DQ v then SQ else DQ in
  let quotes := if triple then [q; q; q] else [q] in
  do (t, h) <- maybe_highlight v;
  Ret ((if raw then $"r" else []) ++ quotes ++ t ++ quotes, h).

(** print-visitor.cc:64-182, the visitor: what is printed, and any_highlight(). *)
Fixpoint hprint (indent : nat) (n : node) : outcome (str * bool) :=
  match n with
  | NNull => Ret ([], false)
  | NStr v triple raw => hprint_string (v_text v) triple raw
  | NInt v z => Ret (match v_text v with [] => print_int z | s => s end, false)
  | NId v => maybe_highlight (v_text v)
  | NUnary op n =>
      do (a, h) <- hprint indent n;
      Ret (print_op op ++ (match op with TNot => $" " | _ => [] end) ++ a, h)
  | NAssign l r _ =>
      do (a, ha) <- hprint indent l;
      do (b, hb) <- hprint indent r;
      Ret (colored color_lhs ++ a ++ colored color_reset ++ $" = " ++ b, ha || hb)
  | NBin op l r _ =>
      do (a, ha) <- hprint indent l;
      do (b, hb) <- hprint indent r;
      Ret (a ++ (match op with
                 | TDot | TOpenSquare => print_op op
                 | _ => $" " ++ print_op op ++ $" "
                 end) ++ b ++ (match op with TOpenSquare => $"]" | _ => [] end), ha || hb)
  | NComp ty f =>
      do (a, h) <- hprint indent f;
      Ret (list_open ty ++ a ++ list_close ty, h)
  | NTernary c p n =>
      do (a, ha) <- hprint indent p;
      do (b, hb) <- hprint indent c;
      do (e, he) <- (match n with
                     | NNull => Ret ([], false)
                     | _ => do (e, he) <- hprint indent n; Ret ($" else " ++ e, he)
                     end);
      Ret (a ++ $" if " ++ b ++ e, ha || hb || he)
  | NList ty elems =>
      let multiline := 1 <? length elems in
      do (a, h) <- hprint_elems hprint (indent + 4) multiline true elems;
      Ret (list_open ty ++ (if multiline then [NL] else []) ++ a
             ++ (match ty, elems with LTuple, [_] => $"," | _, _ => [] end)
             ++ (if multiline then [NL] ++ repeat " "%char indent else []) ++ list_close ty, h)
  | NCall id args =>
      match id with
      | NId v =>
          do (f, hf) <- maybe_highlight (v_text v);
          do (a, ha) <- hprint indent args;
          Ret (colored color_bold ++ f ++ colored color_reset ++ a, hf || ha)
      | _ => UB
      end
  end.
End Visitor.
