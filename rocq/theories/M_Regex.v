(** The part of RE2 that bant relies on.

    bant assembles regular expressions as text and compiles them with RE2
    (/repo/bant/types-bazel.cc:202-217, /repo/bant/util/glob-match-builder.cc:
    54-98).  RE2 itself is not in /repo: this file transcribes its documented
    behaviour for the syntax these expressions use.  Syntax outside of that
    (character classes other than [^/], counted repetition, anchors, ...) gives
    the explicit result [ReUnmodelled].

    Simplification: matching is byte-wise.  RE2 matches UTF-8 code points; for
    the expressions generated here, where [.] and [[^/]] only occur starred,
    both readings agree on valid UTF-8 text. *)
From Verif Require Import Base.

Inductive regex :=
| REmpty                       (* matches nothing *)
| REps                         (* matches the empty string *)
| RLit (c : ascii)
| RAny                         (* "." : any byte but newline *)
| RNotSlash                    (* "[^/]" : any byte but '/' (newline included) *)
| RSeq (a b : regex)
| RAlt (a b : regex)
| RStar (a : regex).

Definition ROpt (r : regex) : regex := RAlt r REps.
Definition RPlus (r : regex) : regex := RSeq r (RStar r).

(** Matching by derivatives. *)
Fixpoint nullable (r : regex) : bool :=
  match r with
  | REmpty => false | REps => true | RLit _ => false | RAny => false
  | RNotSlash => false
  | RSeq a b => nullable a && nullable b
  | RAlt a b => nullable a || nullable b
  | RStar _ => true
  end.

Fixpoint deriv (x : ascii) (r : regex) : regex :=
  match r with
  | REmpty => REmpty | REps => REmpty
  | RLit c => if ceqb c x then REps else REmpty
  | RAny => if ceqb x NL then REmpty else REps
  | RNotSlash => if ceqb x "/" then REmpty else REps
  | RSeq a b => if nullable a then RAlt (RSeq (deriv x a) b) (deriv x b)
                else RSeq (deriv x a) b
  | RAlt a b => RAlt (deriv x a) (deriv x b)
  | RStar a => RSeq (deriv x a) (RStar a)
  end.

(** RE2::FullMatch *)
Fixpoint full_match (r : regex) (s : str) : bool :=
  match s with
  | [] => nullable r
  | x :: s' => full_match (deriv x r) s'
  end.

(** RE2::QuoteMeta: every byte that is not [A-Za-z0-9_] and has its high bit
    clear is preceded by a backslash; NUL becomes "\x00". *)
Definition high_bit (c : ascii) : bool := (128 <=? code c)%N.
Definition needs_no_quote (c : ascii) : bool :=
  is_alnum c || ceqb c "_" || high_bit c.
Definition quote_char (c : ascii) : str :=
  if ceqb c "000" then $"\x00"
  else if needs_no_quote c then [c] else [BSL; c].
Definition quote_meta (s : str) : str := flat_map quote_char s.

(** Compiling the text of an expression. *)
Inductive re_result :=
| ReOk (r : regex)
| ReError                      (* RE2 reports !ok() *)
| ReUnmodelled.                (* syntax this model does not cover *)

(** One open group: the alternatives finished so far and the current sequence
    (reversed). *)
Record re_frame := { fr_alts : list regex; fr_seq : list regex }.

Definition seq_of (l : list regex) : regex := fold_left (fun acc r => RSeq r acc) l REps.
Definition alt_of (alts : list regex) (last : regex) : regex :=
  fold_left (fun acc r => RAlt r acc) alts last.
Definition close_frame (f : re_frame) : regex := alt_of (fr_alts f) (seq_of (fr_seq f)).

Definition push_atom (r : regex) (f : re_frame) : re_frame :=
  {| fr_alts := fr_alts f; fr_seq := r :: fr_seq f |}.
Definition push_alt (f : re_frame) : re_frame :=
  {| fr_alts := seq_of (fr_seq f) :: fr_alts f; fr_seq := [] |}.
Definition empty_frame : re_frame := {| fr_alts := []; fr_seq := [] |}.

(** Bytes that are operators or openers in RE2 syntax and are not given a
    meaning below. *)
Definition re_special (c : ascii) : bool :=
  existsb (ceqb c) ($"^$[{").

(** The parser reads the text left to right with a stack of open groups.
    [rep] says that the previous item was a repetition operator: RE2 rejects
    "**", "*+" and the like ("bad repetition operator"), while "*?" is the
    non-greedy form, which denotes the same language. *)
Fixpoint re_parse (s : str) (rep : bool) (top : re_frame) (stack : list re_frame)
  : re_result :=
  match s with
  | [] => match stack with [] => ReOk (close_frame top) | _ => ReError end
  | c :: s1 =>
      if ceqb c BSL then
        match s1 with
        | [] => ReError
        | d :: s2 =>
            if ceqb d "x" then
              match s2 with
              | h :: l :: s3 =>
                  if ceqb h "0" && ceqb l "0"
                  then re_parse s3 false (push_atom (RLit "000") top) stack
                  else ReUnmodelled
              | _ => ReUnmodelled
              end
            else if is_alnum d || high_bit d then ReUnmodelled
            else re_parse s2 false (push_atom (RLit d) top) stack
        end
      else if ceqb c "." then re_parse s1 false (push_atom RAny top) stack
      else if ceqb c "[" then
        match s1 with
        | a :: b :: d :: s2 =>
            if ceqb a "^" && ceqb b "/" && ceqb d "]"
            then re_parse s2 false (push_atom RNotSlash top) stack
            else ReUnmodelled
        | _ => ReUnmodelled
        end
      else if ceqb c "*" then
        match fr_seq top with
        | r :: q => if rep then ReError
                    else re_parse s1 true {| fr_alts := fr_alts top; fr_seq := RStar r :: q |} stack
        | [] => ReError
        end
      else if ceqb c "+" then
        match fr_seq top with
        | r :: q => if rep then ReError
                    else re_parse s1 true {| fr_alts := fr_alts top; fr_seq := RPlus r :: q |} stack
        | [] => ReError
        end
      else if ceqb c "?" then
        match fr_seq top with
        | r :: q => if rep then
                      match s1 with
                      | n :: _ => if ceqb n "?" || ceqb n "*" || ceqb n "+" then ReError
                                  else re_parse s1 true top stack
                      | [] => re_parse s1 true top stack
                      end
                    else re_parse s1 true {| fr_alts := fr_alts top; fr_seq := ROpt r :: q |} stack
        | [] => ReError
        end
      else if ceqb c "(" then
        match s1 with
        | n :: _ => if ceqb n "?" then ReUnmodelled
                    else re_parse s1 false empty_frame (top :: stack)
        | [] => ReError
        end
      else if ceqb c ")" then
        match stack with
        | f :: st => re_parse s1 false (push_atom (close_frame top) f) st
        | [] => ReError
        end
      else if ceqb c "|" then re_parse s1 false (push_alt top) stack
      else if re_special c then ReUnmodelled
      else re_parse s1 false (push_atom (RLit c) top) stack
  end.

(** RE2::RE2(pattern) *)
Definition re2_compile (pattern : str) : re_result :=
  re_parse pattern false empty_frame [].
