(** The command line (/repo/bant/bant.cc, main()), with getopt(3) of the GNU C library in its
    default mode: options and other words can be mixed.  Messages are not modelled. *)
From Verif Require Import Base OMap M_Types M_Ast M_Workspace M_Project M_Table M_Highlight M_Commands.

(** * getopt *)
Inductive takes := TakesNothing | TakesArgument | TakesOptional.
(** bant.cc:150, "C:qo:vhpecbf:r::Vkg:i" *)
Definition option_letters : list (ascii * takes) :=
  [("C"%char, TakesArgument); ("q"%char, TakesNothing); ("o"%char, TakesArgument); ("v"%char, TakesNothing);
   ("h"%char, TakesNothing); ("p"%char, TakesNothing); ("e"%char, TakesNothing); ("c"%char, TakesNothing);
   ("b"%char, TakesNothing); ("f"%char, TakesArgument); ("r"%char, TakesOptional); ("V"%char, TakesNothing);
   ("k"%char, TakesNothing); ("g"%char, TakesArgument); ("i"%char, TakesNothing)].
Definition letter (c : ascii) : option takes := option_map snd (find (fun x => ceqb (fst x) c) option_letters).
(** What getopt() returns: an option and optarg, or '?'. *)
Inductive opt_event := Opt (c : ascii) (arg : option str) | OptBad.
(** getopt(3): the letters of a word after '-'; [next] are the words after it.  The flag says whether
    the next word was used as argument. *)
Fixpoint cluster (letters : str) (next : list str) : list opt_event * bool :=
  match letters with
  | [] => ([], false)
  | c :: rest =>
      match letter c with
      | None => let '(evs, used) := cluster rest next in (OptBad :: evs, used)
      | Some TakesNothing => let '(evs, used) := cluster rest next in (Opt c None :: evs, used)
      | Some TakesOptional => ([Opt c (if is_nil rest then None else Some rest)], false)
      | Some TakesArgument =>
          if is_nil rest then
            match next with
            | [] => ([OptBad], false)
            | a :: _ => ([Opt c (Some a)], true)
            end
          else ([Opt c (Some rest)], false)
      end
  end.
(** getopt(3), called until it returns -1: the options, and what is at argv[optind] and after it. *)
Fixpoint getopt (args : list str) : list opt_event * list str :=
  match args with
  | [] => ([], [])
  | a :: args' =>
      if str_eqb a ($"--") then ([], args')
      else
        match a with
        | dash :: (_ :: _) as letters =>
            if ceqb dash "-" then
              let '(evs, used) := cluster letters args' in
              let '(evs', pos) := (if used then match args' with [] => ([], []) | _ :: rest => getopt rest end else getopt args') in
              (evs ++ evs', pos)
            else let '(evs, pos) := getopt args' in (evs, a :: pos)
        | _ => let '(evs, pos) := getopt args' in (evs, a :: pos)
        end
  end.

(** * The options *)
(** bant.cc:123-147 and session.h:50-59: the variables main() sets; [s_dirs] are the directories
    changed into, [s_output] the file of -o, None for the standard output. *)
Record settings := mkSettings {
  s_verbose : nat;
  s_print_ast : bool;
  s_print_only_errors : bool;
  s_elaborate : bool;
  s_ignore_keep : bool;
  s_depth : Z;
  s_format : output_format;
  s_regex : str;
  s_insensitive : bool;
  s_quiet : bool;
  s_dirs : list str;
  s_output : option str }.
Definition default_settings : settings := mkSettings 0 false false false false 0 FmtNative [] false false [] None.
(** bant.cc:143-147, kFormatOutNames, in the order of the std::map. *)
Definition format_names : list (str * output_format) :=
  [($"csv", FmtCsv); ($"graphviz", FmtGraphviz); ($"json", FmtJson); ($"native", FmtNative);
   ($"plist", FmtPList); ($"s-expr", FmtSExpr)].
(** bant.cc:202-208, -f. *)
Definition find_format (word : str) : option output_format :=
  match snd (lower_bound word format_names) with
  | (name, f) :: _ => if starts_with word name then Some f else None
  | [] => None
  end.
(** atoi(3); not defined if the number is not an int. *)
Fixpoint leading_number (acc : Z) (s : str) : Z :=
  match s with
  | [] => acc
  | c :: s => if is_digit c then leading_number (10 * acc + Z.of_nat (nat_of_ascii c - 48)) s else acc
  end.
Fixpoint skip_spaces (s : str) : str :=
  match s with
  | [] => []
  | c :: s' => if is_space c then skip_spaces s' else s
  end.
Definition atoi (s : str) : outcome Z :=
  let z := match skip_spaces s with
           | c :: r => if ceqb c "-" then (- leading_number 0 r)%Z
                       else if ceqb c "+" then leading_number 0 r else leading_number 0 (c :: r)
           | [] => 0%Z
           end in
  if (-2147483648 <=? z)%Z && (z <=? INT_MAX)%Z then Ret z else UB.

Inductive next_step := Continue (st : settings) | Return (code : nat).
Section Main.
(** Whether the directory can be changed to, and whether the file can be written; where depends on
    the directories before. *)
Variable change_dir : list str -> str -> bool.
Variable open_output : list str -> str -> bool.
(** bant.cc:151-213, the switch. *)
Definition handle_option (st : settings) (ev : opt_event) : outcome next_step :=
  let '(mkSettings v p oe e k d f re i q dirs out) := st in
  match ev with
  | OptBad => Ret (Return 0)
  | Opt c optarg =>
      let arg := match optarg with Some a => a | None => [] end in
      if ceqb c "C" then
        Ret (if change_dir dirs arg then Continue (mkSettings v p oe e k d f re i q (dirs ++ [arg]) out) else Return 1)
      else if ceqb c "q" then Ret (Continue (mkSettings v p oe e k d f re i true dirs out))
      else if ceqb c "o" then
        Ret (if str_eqb arg ($"-") then Continue (mkSettings v p oe e k d f re i q dirs None)
             else if open_output dirs arg then Continue (mkSettings v p oe e k d f re i q dirs (Some arg)) else Return 1)
      else if ceqb c "r" then
        do d <- (match optarg with Some a => atoi a | None => Ret INT_MAX end);
        Ret (Continue (mkSettings v p oe e k d f re i q dirs out))
      else if ceqb c "k" then Ret (Continue (mkSettings v p oe e true d f re i q dirs out))
      else if ceqb c "g" then Ret (Continue (mkSettings v p oe e k d f arg i q dirs out))
      else if ceqb c "i" then Ret (Continue (mkSettings v p oe e k d f re true q dirs out))
      else if ceqb c "p" then Ret (Continue (mkSettings v true oe e k d f re i q dirs out))
      else if ceqb c "E" then Ret (Continue (mkSettings v p true e k d f re i q dirs out))
      else if ceqb c "b" || ceqb c "e" then Ret (Continue (mkSettings v p oe true k d f re i q dirs out))
      else if ceqb c "f" then
        Ret (match find_format arg with
             | Some f => Continue (mkSettings v p oe e k d f re i q dirs out)
             | None => Return 1
             end)
      else if ceqb c "v" then Ret (Continue (mkSettings (S v) p oe e k d f re i q dirs out))
      else Ret (Return 0)
  end.
(** bant.cc:150-214, the loop. *)
Fixpoint handle_options (st : settings) (evs : list opt_event) : outcome next_step :=
  match evs with
  | [] => Ret (Continue st)
  | ev :: evs =>
      do n <- handle_option st ev;
      match n with
      | Continue st => handle_options st evs
      | Return code => Ret (Return code)
      end
  end.
(** bant.cc:116-231: main() up to the command: its exit code, or settings and words for it. *)
Definition read_command_line (args : list str) : outcome (next_step * list str) :=
  let '(evs, pos) := getopt args in
  do n <- handle_options default_settings evs;
  Ret (n, pos).
(** bant.cc:216-222: the regular expression that is compiled. *)
Definition regex_text (st : settings) : str :=
  if is_nil (s_regex st) then []
  else $"(" ++ (if s_insensitive st then $"(?i)" else []) ++ s_regex st ++ $")".

(** What the program is run in: the file system as seen from a directory, whether the output is
    a terminal, and regular expressions. *)
Record surroundings := mkSurroundings {
  sur_is_directory : str -> bool;
  sur_can_read : str -> bool;
  sur_glob : str -> list str;
  sur_read_file : str -> option str;
  sur_glob_in : workspace -> package -> list str -> list str -> list str;
  sur_collect : workspace -> pattern -> list str;
  sur_flags : workspace -> parsed_project -> pattern -> bool -> outcome str }.
Variable seen_from : list str -> surroundings.
Variable is_terminal : bool.
Variable compile : str -> option finder_fn.
Definition flags_of (st : settings) : flags :=
  mkFlags (s_print_ast st) (s_print_only_errors st) (s_elaborate st) (s_ignore_keep st) (s_depth st) (s_format st)
    (if is_nil (regex_text st) then NoGrep else match compile (regex_text st) with Some find => Grep find | None => BadGrep end)
    is_terminal.
(** bant.cc:116-249, main(): where the output goes, the output and the exit code. *)
Definition main (args : list str) : option (outcome (option str * str * nat)) :=
  match read_command_line args with
  | Ret (Return code, _) => Some (Ret (None, [], code))
  | Ret (Continue st, pos) =>
      let s := seen_from (s_dirs st) in
      match run_cli (sur_is_directory s) (sur_can_read s) (sur_glob s) (sur_read_file s) (sur_glob_in s)
                    (sur_collect s) (sur_flags s) (flags_of st) pos with
      | Some r => Some (do (out, status) <- r; Ret (s_output st, out, exit_code status))
      | None => None
      end
  | UB => Some UB
  | OutOfFuel => Some OutOfFuel
  end.
End Main.
