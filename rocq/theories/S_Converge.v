(** Specification of what it means to follow the advice of "depend on what you use": the
    project afterwards is as before, but for the deps of the rules concerned.  Where texts
    are in a file does not matter, and the order of deps does not, either. *)
From Verif Require Import Base OMap M_Types M_Scanner M_Ast M_Parser M_Query S_Query M_Workspace M_Project M_DepGraph S_DepGraph
  M_Headers S_Headers M_Dwyu S_Dwyu.

(** A dependency has a comment to keep it. *)
Definition marked (content : str) (dep : view) : Prop := exists line, on_line content dep line /\ keeps line.

(** The deps of [t] have changed as told: gone are those to be removed and new are those
    to be added.  Comments that keep a dependency have stayed. *)
Definition deps_edited (ev : list event) (t : target) (content content' : str) (deps deps' : list node) : Prop :=
  (forall label, In label (texts deps') <-> (In label (texts deps) /\ ~ In (EvRemove t label) ev) \/ In (EvAdd t label) ev) /\
  (forall dep', In dep' (entries deps') -> In (EvAdd t (v_text dep')) ev \/
     exists dep, In dep (entries deps) /\ v_text dep = v_text dep' /\ (marked content dep -> marked content' dep')).

(** A list of the rule is the same. *)
Definition same_list (o o' : option (list node)) : Prop := texts (list_of o) = texts (list_of o').
Definition same_labels (o o' : option (list node)) : Prop :=
  match o, o' with
  | None, None => True
  | Some l, Some l' => label_texts l = label_texts l'
  | _, _ => False
  end.
Definition is_edited_kind (r : result) : Prop := In (v_text (q_rule r)) edited_kinds.
Definition rule_edited (ev : list event) (f f' : parsed_file) (r r' : result) : Prop :=
  v_text (q_rule r) = v_text (q_rule r') /\ v_text (q_name r) = v_text (q_name r') /\
  v_text (q_actual r) = v_text (q_actual r') /\ v_text (q_include_prefix r) = v_text (q_include_prefix r') /\
  v_text (q_strip_include_prefix r) = v_text (q_strip_include_prefix r') /\ v_text (q_deprecation r) = v_text (q_deprecation r') /\
  q_alwayslink r = q_alwayslink r' /\ q_testonly r = q_testonly r' /\
  same_list (q_srcs r) (q_srcs r') /\ same_list (q_hdrs r) (q_hdrs r') /\ same_list (q_textual_hdrs r) (q_textual_hdrs r') /\
  same_list (q_public_hdrs r) (q_public_hdrs r') /\ same_list (q_includes r) (q_includes r') /\
  same_labels (q_visibility r) (q_visibility r') /\
  (is_edited_kind r -> forall t, named (pf_package f) r t ->
     deps_edited ev t (pf_content f) (pf_content f') (list_of (q_deps r)) (list_of (q_deps r'))) /\
  (~ is_edited_kind r -> same_list (q_deps r) (q_deps r')).
Definition file_edited (ev : list event) (f f' : parsed_file) : Prop :=
  pf_package f = pf_package f' /\
  Forall proper_call (flat_map rule_calls (pf_ast f)) /\ Forall proper_call (flat_map rule_calls (pf_ast f')) /\
  exists rs rs', find_targets [] (pf_ast f) = Ret rs /\ find_targets [] (pf_ast f') = Ret rs' /\ Forall2 (rule_edited ev f f') rs rs'.
Definition project_edited (ev : list event) (pr pr' : parsed_project) : Prop :=
  Forall2 (fun x x' => fst x = fst x' /\ file_edited ev (snd x) (snd x')) (pr_files pr) (pr_files pr').

(** The targets of the project. *)
Definition declared (pr : parsed_project) (d : target) : Prop :=
  exists p f rs r, In (p, f) (pr_files pr) /\ find_targets [] (pf_ast f) = Ret rs /\ In r rs /\ named (pf_package f) r d.
(** No two rules looked at have the same name. *)
Definition distinct (pr : parsed_project) (pt : pattern) : Prop :=
  forall t r f r' f', edited pr pt t r f -> edited pr pt t r' f' -> r = r' /\ f = f'.
(** The label of [d] as written in the package of [t] is understood there as [d]. *)
Definition reads_back (t d : target) : Prop :=
  parse_target (target_to_string_rel d (tpackage t)) (tpackage t) = Some d.
(** What is not advice to change anything. *)
Definition only_messages (ev : list event) : Prop :=
  forall e, In e ev -> match e with EvRemove _ _ | EvAdd _ _ => False | _ => True end.
