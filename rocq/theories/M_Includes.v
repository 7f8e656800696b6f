(** Looking for #include in sources (/repo/bant/tool/dwyu.cc). *)
From Verif Require Import Base.

(** RE2's \s: [\t\n\f\r ]. *)
Definition re_space (c : ascii) : bool :=
  ceqb c " " || ceqb c "009" || ceqb c NL || ceqb c "012" || ceqb c "013".
(** [0-9a-zA-Z_/+-] *)
Definition path_char (c : ascii) : bool :=
  is_alnum c || ceqb c "_" || ceqb c "/" || ceqb c "+" || ceqb c "-".
Fixpoint skip_while (f : ascii -> bool) (s : str) : str :=
  match s with c :: r => if f c then skip_while f r else s | [] => [] end.
Fixpoint skip_dotdot (fuel : nat) (s : str) : str :=
  match fuel with
  | 0 => s
  | S fuel => if starts_with ($"../") s then skip_dotdot fuel (skipn 3 s) else s
  end.
(** [(\.[a-zA-Z]+)*] matching all of [s], which is as long as [fuel] or shorter. *)
Fixpoint match_suffixes (fuel : nat) (s : str) : bool :=
  match fuel with
  | 0 => is_nil s
  | S fuel =>
      match s with
      | [] => true
      | c :: r => ceqb c "." && match r with d :: _ => is_alpha d | [] => false end
                  && match_suffixes fuel (skip_while is_alpha r)
      end
  end.
(** dwyu.cc:533-534: [(\.\./)*[0-9a-zA-Z_/+-]+(\.[a-zA-Z]+)*] matching all of [s]. No
    two of the parts can match the same text, hence no backtracking. *)
Definition match_path (s : str) : bool :=
  let s := skip_dotdot (length s) s in
  match s with
  | c :: _ => path_char c && match_suffixes (length s) (skip_while path_char s)
  | [] => false
  end.
(** dwyu.cc:533-534: [\s*#\s*include\s+"(path)"] at the beginning of [s]; gives the path
    and what is left.  The path ends at the next quote, as it can not contain one. *)
Definition match_include (s : str) : option (str * str) :=
  match skip_while re_space s with
  | c :: s =>
      if negb (ceqb c "#") then None
      else
        let s := skip_while re_space s in
        if negb (starts_with ($"include") s) then None
        else
          match skipn 7 s with
          | d :: s =>
              if negb (re_space d) then None
              else
                match skip_while re_space s with
                | q :: s =>
                    if negb (ceqb q DQ) then None
                    else
                      match find_first DQ s with
                      | Some n => if match_path (firstn n s) then Some (firstn n s, skipn (S n) s) else None
                      | None => None
                      end
                | [] => None
                end
          | [] => None
          end
  | [] => None
  end.
(** RE2::FindAndConsume with the expression of dwyu.cc:533-534, flag (?m): the first
    place with a quote, or with an include at the beginning of a line or of the text
    given ([bol]).  The path, if there is one, and what is left. *)
Fixpoint find_and_consume (s : str) (bol : bool) : option (option str * str) :=
  match s with
  | [] => None
  | c :: r =>
      if ceqb c DQ then Some (None, r)
      else
        match (if bol then match_include s else None) with
        | Some (p, rest) => Some (Some p, rest)
        | None => find_and_consume r (ceqb c NL)
        end
  end.
(** dwyu.cc:531-558, ExtractCCIncludes: the offsets and texts of the paths.  Each round
    takes at least one character, so the length of the text is enough fuel.  The line
    index made for messages is left out. *)
Fixpoint includes_loop (fuel : nat) (size : nat) (run : str) (in_quote : bool) : list (nat * str) :=
  match fuel with
  | 0 => []
  | S fuel =>
      match find_and_consume run true with
      | None => []
      | Some (None, rest) => includes_loop fuel size rest (negb in_quote)
      | Some (Some p, rest) =>
          (if in_quote then [] else [(size - length rest - 1 - length p, p)])
          ++ includes_loop fuel size rest in_quote
      end
  end.
Definition extract_cc_includes (content : str) : list (nat * str) :=
  includes_loop (length content) (length content) content false.
