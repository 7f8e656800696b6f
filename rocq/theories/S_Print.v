(** Specification of "print": what is shown of a rule, and of which rules. *)
From Verif Require Import Base M_Types M_Scanner M_Ast M_Query S_Query M_Project S_Commands M_Printer.

(** The words of a tree: names and the contents of strings. *)
Fixpoint words (n : node) : list str :=
  match n with
  | NNull | NInt _ _ => []
  | NStr v _ _ => [v_text v]
  | NId v => [v_text v]
  | NUnary _ n => words n
  | NBin _ l r _ => words l ++ words r
  | NList _ l => flat_map words l
  | NComp _ f => words f
  | NTernary c p n => words c ++ words p ++ words n
  | NAssign l r _ => words l ++ words r
  | NCall i a => words i ++ words a
  end.

(** What a regular expression finds in a text: start and length of the match, and where it ends.  It
    is usable if it never matches nothing and the match is what is in the outer parentheses. *)
Definition search := str -> option (nat * nat * nat).
Definition usable_search (find : search) : Prop :=
  forall s start len stop, find s = Some (start, len, stop) -> 0 < len /\ start + len = stop /\ stop <= length s.
Definition matches (find : search) (s : str) : bool := match find s with Some _ => true | None => false end.
(** A rule is shown if any of its words matches. *)
Definition grepped (find : search) (n : node) : bool := existsb (matches find) (words n).

(** What a terminal shows: without the sequences from ESC to "m". *)
Fixpoint visible_from (in_sequence : bool) (s : str) : str :=
  match s with
  | [] => []
  | c :: s =>
      if in_sequence then visible_from (negb (ceqb c "m")) s
      else if ceqb c "027" then visible_from true s
      else c :: visible_from false s
  end.
Definition visible (s : str) : str := visible_from false s.

(** The target a rule defines, if it has a name. *)
Definition rule_target (p : package) (r : result) : option target :=
  match v_text (q_name r) with
  | [] => None
  | c :: s => if ceqb c ":" then match s with [] => None | _ => Some (mkTarget p s) end else Some (mkTarget p (c :: s))
  end.
(** The pattern has "..." or is for this target. *)
Definition selected (pt : pattern) (p : package) (r : result) : bool :=
  is_recursive pt || match rule_target p r with Some t => match_target pt t | None => false end.
(** The strings and numbers in a visibility list. *)
Definition scalar_text (n : node) : list str :=
  match n with NStr v _ _ => [v_text v] | NInt v _ => [v_text v] | _ => [] end.
Definition visibility_note (vis : option (list node)) : str :=
  match vis with
  | None => []
  | Some l => $" (visibility:" ++ flat_map (fun s => $" " ++ s) (flat_map scalar_text l) ++ $")"
  end.
(** A comment with place, target and visibility; then the rule. *)
Definition shown_rule (p : package) (f : parsed_file) (r : result) (s : str) : Prop :=
  exists id args at_place text, q_node r = NCall (NId id) args /\ shown_at f id at_place /\ print 0 (q_node r) = Ret text /\
    s = $"# " ++ at_place ++ (match rule_target p r with Some t => $" " ++ target_to_string t | None => [] end)
        ++ visibility_note (q_visibility r) ++ [NL] ++ text ++ [NL].
(** Of all files that match, in order; [wanted] is about the rules. *)
Inductive shown_rules (wanted : result -> bool) (only_errors : bool) (pt : pattern) : list (package * parsed_file) -> str -> Prop :=
| nothing_shown : shown_rules wanted only_errors pt [] []
| file_not_shown p f files s : (only_errors = true /\ pf_errors f = []) \/ match_package pt p = false ->
    shown_rules wanted only_errors pt files s -> shown_rules wanted only_errors pt ((p, f) :: files) s
| file_shown p f files rs rules s : (only_errors = true -> pf_errors f <> []) -> match_package pt p = true ->
    find_targets_allow_empty [] (pf_ast f) = Ret rs ->
    Forall2 (shown_rule p f) (filter (fun r => selected pt p r && wanted r) rs) rules ->
    shown_rules wanted only_errors pt files s -> shown_rules wanted only_errors pt ((p, f) :: files) (concat rules ++ s).
