(** Specification of the command line. *)
From Verif Require Import Base M_Ast M_Table M_Commands S_Commands M_Main.

(** * Words and options *)
(** Letters that stand alone, letters with an argument, and -r. *)
Definition flag_letter (c : ascii) : Prop := In c ($"qvhpecbVki").
Definition argument_letter (c : ascii) : Prop := In c ($"Cofg").
Definition recursion_letter (c : ascii) : Prop := c = "r"%char.
(** Not an option: no '-' first, or only that. *)
Definition plain_word (w : str) : Prop := w = $"-" \/ forall r, w <> "-"%char :: r.
Definition flag_events (fs : str) : list opt_event := map (fun c => Opt c None) fs.
(** A word of flags, with an option that has an argument last: the argument is the rest of the word
    or else the next word; for -r it is the rest of the word only. *)
Inductive option_word : str -> list str -> list opt_event -> list str -> Prop :=
| only_flags fs next : fs <> [] -> Forall flag_letter fs -> option_word ("-"%char :: fs) next (flag_events fs) next
| in_this_word fs c arg next : Forall flag_letter fs -> argument_letter c \/ recursion_letter c -> arg <> [] ->
    option_word ("-"%char :: fs ++ c :: arg) next (flag_events fs ++ [Opt c (Some arg)]) next
| in_next_word fs c arg next : Forall flag_letter fs -> argument_letter c ->
    option_word ("-"%char :: fs ++ [c]) (arg :: next) (flag_events fs ++ [Opt c (Some arg)]) next
| without_argument fs c next : Forall flag_letter fs -> recursion_letter c ->
    option_word ("-"%char :: fs ++ [c]) next (flag_events fs ++ [Opt c None]) next.
(** Options and other words in any order; only other words after "--". *)
Inductive command_line : list str -> list opt_event -> list str -> Prop :=
| no_more : command_line [] [] []
| other_words args : command_line ($"--" :: args) [] args
| other_word w args evs words : plain_word w -> command_line args evs words -> command_line (w :: args) evs (w :: words)
| an_option w args evs args' evs' words : option_word w args evs args' -> command_line args' evs' words ->
    command_line (w :: args) (evs ++ evs') words.
(** Options and words that need nothing after them. *)
Inductive complete : list str -> Prop :=
| complete_nil : complete []
| complete_word w l : plain_word w -> complete l -> complete (w :: l)
| complete_option w evs l : option_word w [] evs [] -> complete l -> complete (w :: l)
| complete_pair w arg evs l : option_word w [arg] evs [] -> complete l -> complete (w :: arg :: l).

(** * Their meaning *)
Definition is_given (c : ascii) (ev : opt_event) : bool := match ev with Opt c' _ => ceqb c' c | OptBad => false end.
Definition given (c : ascii) (evs : list opt_event) : bool := existsb (is_given c) evs.
Definition arguments (c : ascii) (evs : list opt_event) : list (option str) :=
  flat_map (fun ev => match ev with Opt c' a => if ceqb c' c then [a] else [] | OptBad => [] end) evs.
(** The last one counts. *)
Definition last_argument (c : ascii) (evs : list opt_event) : option (option str) :=
  fold_left (fun _ a => Some a) (arguments c evs) None.
(** A format is given by a name or the beginning of one. *)
Definition format_of (word : str) (f : output_format) : Prop := exists name, In (name, f) format_names /\ exists r, name = word ++ r.

Record meaning (evs : list opt_event) (st : settings) : Prop := {
  means_verbose : s_verbose st = length (arguments "v" evs);
  means_ast : s_print_ast st = given "p" evs;
  means_errors : s_print_only_errors st = false;
  means_elaborate : s_elaborate st = given "e" evs || given "b" evs;
  means_keep : s_ignore_keep st = given "k" evs;
  means_depth : match last_argument "r" evs with
                | None => s_depth st = 0%Z
                | Some None => s_depth st = INT_MAX
                | Some (Some n) => atoi n = Ret (s_depth st)
                end;
  means_format : match last_argument "f" evs with
                 | Some (Some w) => format_of w (s_format st) /\ (w = [] -> s_format st = FmtCsv)
                 | _ => s_format st = FmtNative
                 end;
  means_regex : s_regex st = match last_argument "g" evs with Some (Some re) => re | _ => [] end;
  means_insensitive : s_insensitive st = given "i" evs;
  means_quiet : s_quiet st = given "q" evs;
  means_dirs : map Some (s_dirs st) = arguments "C" evs;
  means_output : s_output st = match last_argument "o" evs with
                               | Some (Some w) => if str_eqb w ($"-") then None else Some w
                               | _ => None
                               end }.
(** An option that is no reason to stop. *)
Definition acceptable (change_dir open_output : list str -> str -> bool) (before : list opt_event) (ev : opt_event) : Prop :=
  let dirs := flat_map (fun a => match a with Some d => [d] | None => [] end) (arguments "C" before) in
  match ev with
  | OptBad => False
  | Opt c a =>
      ~ In c ($"hcV") /\
      forall w, a = Some w ->
        (c = "C"%char -> change_dir dirs w = true) /\
        (c = "o"%char -> w = $"-" \/ open_output dirs w = true) /\
        (c = "f"%char -> exists f, format_of w f) /\
        (c = "r"%char -> exists z, atoi w = Ret z)
  end.
Definition all_acceptable (change_dir open_output : list str -> str -> bool) (evs : list opt_event) : Prop :=
  forall before ev after, evs = before ++ ev :: after -> acceptable change_dir open_output before ev.
