(** How a POSIX shell reads simple commands (Shell Command Language, 2.2 and 2.9.1):
    specification for edit scripts. *)
From Verif Require Import Base.

(** Characters without special meaning in a word. *)
Definition plain_char (c : ascii) : bool := is_alnum c || contains_char c ($"@/:._-+,%=").
(** Commands so far, the words of the current one, the current word, and whether in single
    quotes. *)
Record shell := mkShell { sh_done : list (list str); sh_words : list str; sh_word : option str; sh_quote : bool }.
Definition end_word (s : shell) : shell :=
  match sh_word s with
  | None => s
  | Some w => mkShell (sh_done s) (sh_words s ++ [w]) None false
  end.
Definition end_command (s : shell) : shell :=
  let s := end_word s in
  match sh_words s with
  | [] => s
  | ws => mkShell (sh_done s ++ [ws]) [] None false
  end.
Definition add_char (c : ascii) (s : shell) : shell :=
  mkShell (sh_done s) (sh_words s) (Some (match sh_word s with Some w => w ++ [c] | None => [c] end)) (sh_quote s).
(** Everything in single quotes is literal.  What is not known to have no special meaning
    is not read at all. *)
Definition shell_step (s : option shell) (c : ascii) : option shell :=
  match s with
  | None => None
  | Some s =>
      if sh_quote s then
        if ceqb c SQ then Some (mkShell (sh_done s) (sh_words s) (sh_word s) false)
        else Some (add_char c s)
      else if ceqb c SQ then
        Some (mkShell (sh_done s) (sh_words s) (Some (match sh_word s with Some w => w | None => [] end)) true)
      else if ceqb c " " then Some (end_word s)
      else if ceqb c NL || ceqb c ";" then Some (end_command s)
      else if plain_char c then Some (add_char c s)
      else None
  end.
(** The commands that [text] runs, each with its arguments. *)
Definition shell_commands (text : str) : option (list (list str)) :=
  match fold_left shell_step text (Some (mkShell [] [] None false)) with
  | Some s => if sh_quote s then None else Some (sh_done (end_command s))
  | None => None
  end.
