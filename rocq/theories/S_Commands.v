(** Specification of the commands: independent of how the output is computed. *)
From Verif Require Import Base OMap M_Types M_Scanner S_Scanner M_Ast M_Query S_Query M_Workspace S_Workspace M_Project M_DepGraph S_DepGraph.

(** * The command a word stands for *)
(** The entries of a table of names a word abbreviates. *)
Definition abbreviated {A} (names : list (str * A)) (word : str) : list A :=
  map snd (filter (fun e => starts_with word (fst e)) names).

(** * The external projects a pattern needs *)
(** The texts of a rule that can name something in another project: what load() is called with, or
    the dependencies and the actual target of a rule that matches. *)
Definition referring (pt : pattern) (p : package) (r : result) (ref : str) : Prop :=
  (v_text (q_rule r) = $"load" /\ exists f ty args, q_node r = NCall f (NList ty args) /\ In ref (texts args)) \/
  (v_text (q_rule r) <> $"load" /\ In ref (mentioned r) /\
   exists t, qualified_target p (v_text (q_name r)) = Some t /\ match_target pt t = true).
(** A package that matches, in the project, that refers to [proj] that is not its own. *)
Definition uses_project (pr : parsed_project) (pt : pattern) (proj : str) : Prop :=
  exists q f rs r ref t, In (q, f) (pr_files pr) /\ match_package pt (pf_package f) = true /\
    find_targets_allow_empty [] (pf_ast f) = Ret rs /\ In r rs /\ referring pt (pf_package f) r ref /\
    parse_target ref (pf_package f) = Some t /\ project (tpackage t) = proj /\ proj <> [] /\ proj <> project (pf_package f).

(** * Places in files *)
(** [s] is the number [n] in decimal. *)
Definition digit (c : ascii) : nat := nat_of_ascii c - 48.
Definition decimal (n : nat) (s : str) : Prop :=
  s <> [] /\ Forall (fun c => is_digit c = true) s /\ (forall r, s = "0"%char :: r -> r = []) /\
  fold_left (fun a c => 10 * a + digit c) s 0 = n.
(** How a place is shown: line and column, counted from one, of the first and of the last character;
    only the column if the line is the same, and nothing if it is the same character. *)
Definition place (content : str) (off len : nat) (s : str) : Prop :=
  exists l1 c1 l2 c2 a b c d,
    is_position content off (mkLC l1 c1) /\ is_position content (off + len) (mkLC l2 c2) /\
    decimal (l1 + 1) a /\ decimal (c1 + 1) b /\ decimal (l2 + 1) c /\ decimal c2 d /\
    s = a ++ $":" ++ b ++ (if l1 =? l2 then if c1 + 1 <? c2 then $"-" ++ d else [] else $":" ++ c ++ $":" ++ d) ++ $":".
(** The place of a text, in the file it comes from. *)
Definition shown_at (f : parsed_file) (v : view) (s : str) : Prop :=
  exists p, s = pf_name f ++ $":" ++ p /\
    match v_org v with
    | InFile off => place (pf_content f) off (length (v_text v)) p
    | Synth off len => place (pf_content f) off len p
    end.
(** No "not in" with the words on different lines (C09), and not unreasonably large. *)
Definition plain_lines (content : str) : Prop :=
  (Z.of_nat (length content) < 2147483647)%Z /\
  forall i, tok_type (token_at content i) = TNotIn -> ~ In NL (tok_text (token_at content i)).

(** * The targets of the files *)
(** The rules of a file that have a usable name and match, and a row for each. *)
Definition listed (pt : pattern) (p : package) (r : result) : bool :=
  negb (contains_char ":" (v_text (q_name r))) && match_target pt (mkTarget p (v_text (q_name r))).
Definition target_row (p : package) (f : parsed_file) (r : result) (row : list str) : Prop :=
  exists at_place, shown_at f (q_name r) at_place /\
    row = [at_place; v_text (q_rule r); target_to_string (mkTarget p (v_text (q_name r)))].
Inductive target_list (pt : pattern) : list (package * parsed_file) -> list (list str) -> Prop :=
| no_targets : target_list pt [] []
| more_targets p f files rs rows rows' : find_targets [] (pf_ast f) = Ret rs ->
    Forall2 (target_row p f) (filter (listed pt p) rs) rows -> target_list pt files rows' ->
    target_list pt ((p, f) :: files) (rows ++ rows').
