(** Files that differ in white space and comments only, said without the scanner's state. *)
From Verif Require Import Base M_Types M_Scanner S_Scanner M_Ast M_Parser M_Query M_Project.

(** A word of a file, with what stands before it in the one and in the other version. *)
Record word := mkWord { w_gap : str; w_gap' : str; w_text : str }.
Definition as_before (ws : list word) (e : str) : str := flat_map (fun w => w_gap w ++ w_text w) ws ++ e.
Definition as_after (ws : list word) (e : str) : str := flat_map (fun w => w_gap' w ++ w_text w) ws ++ e.

(** What must not change between the word [u] and the next one: words that were apart stay apart; a bracket stays on its line, if
    it is not the first word; and what is after "not" does not become "not in". *)
Definition may_follow (u : str) (w : word) : Prop :=
  (w_gap w <> [] -> w_gap' w <> []) /\
  (w_text w = $"[" -> (In NL (w_gap w) <-> In NL (w_gap' w))) /\
  (u = $"not" -> starts_with ($"in") (w_text w) = true -> forallb is_space (w_gap' w) = false).
Fixpoint kept_apart (u : str) (ws : list word) : Prop :=
  match ws with
  | [] => True
  | w :: ws => may_follow u w /\ kept_apart (w_text w) ws
  end.
Definition respaced (ws : list word) : Prop :=
  Forall (fun w => gap false (w_gap w) /\ gap false (w_gap' w)) ws /\
  match ws with [] => True | w :: ws => kept_apart (w_text w) ws end.

(** [c'] has the same words as [c], whatever is between them.  The words are the tokens of [c], none of which is in error. *)
Definition reformatted (c c' : str) : Prop :=
  exists ws e e', c = as_before ws e /\ c' = as_after ws e' /\
    map tok_text (all_tokens c) = map w_text ws ++ [[]] /\
    (forall t, In t (all_tokens c) -> tok_type t <> TError) /\
    respaced ws /\ gap true e /\ gap true e'.

(** Without places: only whether a text is in the file or was assembled from several. *)
Definition bare_view (v : view) : view :=
  mkView (v_text v) (match v_org v with InFile _ => InFile 0 | Synth _ _ => Synth 0 0 end).
Fixpoint bare (n : node) : node :=
  match n with
  | NNull => NNull
  | NStr v t r => NStr (bare_view v) t r
  | NInt v z => NInt (bare_view v) z
  | NId v => NId (bare_view v)
  | NUnary op n => NUnary op (bare n)
  | NBin op l r _ => NBin op (bare l) (bare r) (mkRange 0 0)
  | NList ty l => NList ty (map bare l)
  | NComp ty f => NComp ty (bare f)
  | NTernary c p n => NTernary (bare c) (bare p) (bare n)
  | NAssign l r _ => NAssign (bare l) (bare r) (mkRange 0 0)
  | NCall i a => NCall (bare i) (bare a)
  end.
Definition bare_token (t : token) : token := mkToken (tok_type t) 0 (tok_text t) false.
Definition bare_complaint (e : complaint) : complaint := mkComplaint (bare_token (e_tok e)) (e_why e).
Definition bare_list (l : option (list node)) : option (list node) := option_map (map bare) l.
Definition bare_result (r : result) : result :=
  mkResult (bare (q_node r)) (bare_view (q_rule r)) (bare_view (q_name r)) (bare_view (q_actual r)) (bare_view (q_include_prefix r))
    (bare_view (q_strip_include_prefix r)) (bare_view (q_version r)) (bare_view (q_repo_name r)) (bare_view (q_deprecation r))
    (q_alwayslink r) (q_testonly r) (bare_list (q_srcs r)) (bare_list (q_hdrs r)) (bare_list (q_textual_hdrs r))
    (bare_list (q_public_hdrs r)) (bare_list (q_deps r)) (bare_list (q_includes r)) (bare_list (q_outs r)) (bare_list (q_visibility r)).
Definition bare_file (f : parsed_file) : parsed_file :=
  mkFile (pf_package f) (pf_name f) [] (map bare (pf_ast f)) (map bare_complaint (pf_errors f)).
Definition bare_project (pr : parsed_project) : parsed_project :=
  mkProject (map (fun e => (fst e, bare_file (snd e))) (pr_files pr)) (pr_error_count pr).
(** The outcome of a computation, seen through [f]. *)
Definition seen {A B} (f : A -> B) (x : outcome A) : outcome B :=
  match x with Ret a => Ret (f a) | UB => UB | OutOfFuel => OutOfFuel end.
