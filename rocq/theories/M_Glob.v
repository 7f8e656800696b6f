(** Patterns of glob() (/repo/bant/util/glob-match-builder.cc). *)
From Verif Require Import Base OMap M_Types M_Regex.

(** absl::StrReplaceAll: from left to right, the longest of the texts that is found at
    a place is replaced; [reps] has the longer ones first.  [skip]: characters still to
    be left out. *)
Fixpoint replace_all (reps : list (str * str)) (s : str) (skip : nat) : str :=
  match s with
  | [] => []
  | c :: r =>
      match skip with
      | S k => replace_all reps r k
      | 0 =>
          match find (fun ft => starts_with (fst ft) s) reps with
          | Some (from, to) => to ++ replace_all reps r (length from - 1)
          | None => c :: replace_all reps r 0
          end
      end
  end.
(** The number of replacements for a single text; the return value of the in-place
    version of absl::StrReplaceAll. *)
Fixpoint count_replaced (from : str) (s : str) (skip : nat) : nat :=
  match s with
  | [] => 0
  | c :: r =>
      match skip with
      | S k => count_replaced from r k
      | 0 => if starts_with from s then S (count_replaced from r (length from - 1)) else count_replaced from r 0
      end
  end.
(** absl::StrJoin(.., "|") *)
Definition join_or (l : list str) : str := join "|" l.

(** glob-match-builder.cc:36-50, class PathMatcher. *)
Record path_matcher := mkMatcher { pm_re : re_result; pm_verbatim : list str }.
(** glob-match-builder.cc:43-45; FullMatch with an expression that is not valid is false. *)
Definition pm_match (m : path_matcher) (s : str) : bool :=
  set_mem s (pm_verbatim m) || match pm_re m with ReOk r => full_match r s | _ => false end.

(** glob-match-builder.cc:61-63: the expression for a pattern. *)
Definition file_text (p : str) : str :=
  replace_all [($"\*\*\/", $".*/?"); ($"\*", $"[^/]*")] (quote_meta p) 0.
(** glob-match-builder.cc:54-70, MakeFilenameMatcher; a pattern without '*' is kept as
    it is. *)
Definition has_star (p : str) : bool := contains_char "*" p.
Definition make_filename_matcher (patterns : list str) : path_matcher :=
  mkMatcher (re2_compile (join_or (map file_text (filter has_star patterns))))
            (set_of_list (filter (fun p => negb (has_star p)) patterns)).

(** glob-match-builder.cc:89-99: the expression for the directory part of a pattern. *)
Definition dir_text (p : str) : str :=
  let t := replace_all [($"\*\*", $".*/?"); ($"\*", $"[^/]*")] (quote_meta p) 0 in
  replace_all [($"\/", $"(\/")] t 0 ++ concat (repeat ($")?") (count_replaced ($"\/") t 0)).
(** glob-match-builder.cc:102-108: all prefixes of [p] that end before a slash. *)
Fixpoint slash_prefixes (before p : str) : list str :=
  match p with
  | [] => []
  | c :: r => (if ceqb c "/" then [before] else []) ++ slash_prefixes (before ++ [c]) r
  end.
(** glob-match-builder.cc:77-84, 100 and 106-109: what one pattern adds to the expressions and to
    the verbatim texts. *)
Definition dir_part (p : str) : option str :=
  match find_last "/" p with Some n => Some (firstn n p) | None => None end.
Definition dir_re (p : str) : list str :=
  match dir_part p with Some d => if has_star d then [dir_text d] else [] | None => [] end.
Definition dir_verbatim (p : str) : list str :=
  match dir_part p with
  | None => [[]]
  | Some d => if has_star d then [] else slash_prefixes [] d ++ [d]
  end.
(** glob-match-builder.cc:72-114, MakeDirectoryMatcher. *)
Definition make_directory_matcher (patterns : list str) : path_matcher :=
  mkMatcher (re2_compile (join_or (set_of_list (flat_map dir_re patterns))))
            (set_of_list (flat_map dir_verbatim patterns)).

(** glob-match-builder.h:29-46 and glob-match-builder.cc:117-139, class
    GlobMatchBuilder. *)
Record glob_builder := mkGlob { g_include : list str; g_exclude : list str }.
Definition new_glob : glob_builder := mkGlob [] [].
Definition add_include (p : str) (g : glob_builder) : glob_builder := mkGlob (set_insert p (g_include g)) (g_exclude g).
Definition add_exclude (p : str) (g : glob_builder) : glob_builder := mkGlob (g_include g) (set_insert p (g_exclude g)).
Definition file_predicate (g : glob_builder) (s : str) : bool :=
  if negb (pm_match (make_filename_matcher (g_include g)) s) then false
  else negb (pm_match (make_filename_matcher (g_exclude g)) s).
Definition directory_predicate (g : glob_builder) (s : str) : bool :=
  pm_match (make_directory_matcher (g_include g)) s.
