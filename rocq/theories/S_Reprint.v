(** What a parsed tree must not contain to survive printing. *)
From Verif Require Import Base M_Types M_Scanner S_Scanner M_Ast S_Grammar S_Roundtrip M_Query M_Project S_Print.

(** Trees that need no parentheses to the left of an operator. *)
Definition is_operand (n : node) : bool :=
  match n with
  | NStr _ _ _ | NInt _ _ | NId _ | NList _ _ | NComp _ _ | NCall _ _ => true
  | NBin TOpenSquare _ _ _ => true
  | _ => false
  end.
(** It ends with an if-expression without else-part. *)
Fixpoint dangling (n : node) : bool :=
  match n with
  | NUnary _ n => dangling n
  | NBin op _ r _ => match op with TOpenSquare => false | _ => dangling r end
  | NTernary _ _ NNull => true
  | NTernary _ _ e => dangling e
  | _ => false
  end.
(** Strings with a double quote are printed with single quotes. *)
Definition quotes_ok (triple : bool) (s : str) : Prop :=
  In DQ s -> triple = false /\ forall i, ~ active_quote SQ s i.
(** Operators whose left side can be anything. *)
Definition loose (op : toktype) : bool := match op with TColon | TFor => true | _ => false end.
(** Nothing that was in parentheses or in unusual quotes. *)
Fixpoint simple (n : node) : Prop :=
  match n with
  | NNull | NInt _ _ | NId _ => True
  | NStr v triple _ => quotes_ok triple (v_text v)
  | NUnary op n => n <> NNull /\ simple n /\
      (op = TNot -> forall s, first_name n = Some s -> starts_with ($"in") s = false)
  | NBin op l r _ => (loose op = false -> is_operand l = true) /\ (op = TDot -> is_int l = false) /\ simple l /\ simple r
  | NList _ l => (fix all l := match l with [] => True | n :: l => (n <> NNull /\ simple n) /\ all l end) l
  | NComp _ f => simple f
  | NTernary c p e => is_operand p = true /\ (e <> NNull -> dangling c = false) /\ simple c /\ simple p /\ simple e
  | NAssign l r _ => simple l /\ simple r
  | NCall i a => simple i /\ simple a
  end.
(** A parenthesis on the line after a name is read as a call. *)
Fixpoint simple_file (l : list node) : Prop :=
  match l with
  | [] => True
  | n :: l => simple n /\ (unpacks l -> last_is_name n = false) /\ simple_file l
  end.

(** The rules of a file that "print" shows. *)
Definition shown_results (wanted : result -> bool) (only_errors : bool) (pt : pattern) (p : package) (f : parsed_file) : list result :=
  if (only_errors && is_nil (pf_errors f)) || negb (match_package pt p) then []
  else match find_targets_allow_empty [] (pf_ast f) with
       | Ret rs => filter (fun r => selected pt p r && wanted r) rs
       | _ => []
       end.
(** The comment before a rule is one line: no line end in the name of the file, the target and the visibility. *)
Definition one_line (p : package) (f : parsed_file) (r : result) : Prop :=
  ~ In NL (pf_name f) /\ (forall t, rule_target p r = Some t -> ~ In NL (target_to_string t)) /\ ~ In NL (visibility_note (q_visibility r)).
