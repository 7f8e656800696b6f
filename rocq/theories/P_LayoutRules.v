(** What the commands take from rules does not depend on places. *)
From Coq Require Import Lia.
From Verif Require Import Base OMap M_Types M_Scanner M_Ast M_Parser M_Query M_Elab M_Workspace M_Project M_DepGraph M_Headers M_Includes M_Dwyu M_Edits M_CompDb M_Commands
  S_Layout S_Attributes P_LayoutMean P_Attributes.

Lemma bind_alike {A B C} (f : A -> B) r r' (k k' : A -> outcome C) : seen f r = seen f r' -> (forall a a', f a = f a' -> k a = k' a') -> bind r k = bind r' k'.
Proof. destruct r, r'; cbn [seen bind]; intros E H; try discriminate E; auto. apply H. now injection E. Qed.
Lemma bind_same {A C} r (k k' : A -> outcome C) : (forall a, k a = k' a) -> bind r k = bind r k'.
Proof. destruct r; cbn; auto. Qed.
Lemma texts_alike {C} o o' (k k' : list view -> outcome C) : bare_list o = bare_list o' -> (forall l l', map v_text l = map v_text l' -> k l = k' l') ->
  bind (extract_string_list o) k = bind (extract_string_list o') k'.
Proof. intros E H. eapply bind_alike; [apply extract_bare, E|]. intros l l' L. apply H, bare_views_texts, L. Qed.
Lemma fold_texts {A} (g : A -> str -> A) l : forall l' st, map v_text l = map v_text l' -> fold_left (fun st v => g st (v_text v)) l st = fold_left (fun st v => g st (v_text v)) l' st.
Proof. induction l as [|v l IH]; intros [|v' l'] st E; try discriminate E; [reflexivity|]. apply map_cons_inv in E as [E1 E2]. cbn [fold_left]. rewrite E1. apply IH, E2. Qed.
Lemma found_alike {C} interest ast ast' (k k' : list result -> outcome C) : statements_alike ast ast' -> (forall rs rs', rules_alike rs rs' -> k rs = k' rs') ->
  bind (find_targets interest ast) k = bind (find_targets interest ast') k'.
Proof. intros E H. eapply bind_rel; [apply find_statements_alike, E|]. exact H. Qed.
Lemma found_empty_alike {C} interest ast ast' (k k' : list result -> outcome C) : statements_alike ast ast' -> (forall rs rs', rules_alike rs rs' -> k rs = k' rs') ->
  bind (find_targets_allow_empty interest ast) k = bind (find_targets_allow_empty interest ast') k'.
Proof. intros E H. eapply bind_rel; [apply find_statements_alike, E|]. exact H. Qed.

Ltac texts E := apply texts_alike; [exact E|]; let l := fresh "l" in let l' := fresh "l'" in let L := fresh "L" in intros l l' L; rewrite ?L.
(** * The graph *)
Lemma to_follow_alike r r' : rule_alike r r' -> to_follow r = to_follow r'.
Proof. intros A. unfold to_follow. texts (al_deps _ _ A). now rewrite (al_actual _ _ A). Qed.
Lemma visit_rules_alike p rs rs' : rules_alike rs rs' -> forall st, visit_rules p rs st = visit_rules p rs' st.
Proof.
  induction 1 as [|r r' rs rs' A _ IH]; intros st; cbn [visit_rules]; [reflexivity|]. assert (visit_rule p st r = visit_rule p st r') as ->.
  { unfold visit_rule. rewrite (al_name _ _ A). destruct (qualified_target _ _); [|reflexivity]. destruct (negb _); [reflexivity|]. now rewrite (to_follow_alike _ _ A). }
  apply bind_same. exact IH.
Qed.
Lemma initial_alike p pt rs rs' : rules_alike rs rs' -> forall todo,
  fold_left (fun todo r => match qualified_target p (v_text (q_name r)) with Some t => if match_target pt t then set_insert t todo else todo | None => todo end) rs todo =
  fold_left (fun todo r => match qualified_target p (v_text (q_name r)) with Some t => if match_target pt t then set_insert t todo else todo | None => todo end) rs' todo.
Proof. induction 1 as [|r r' rs rs' A _ IH]; intros todo; cbn [fold_left]; [reflexivity|]. rewrite (al_name _ _ A). apply IH. Qed.
Lemma alias_rules_alike p rs rs' : rules_alike rs rs' -> forall m, fold_left (alias_rule p) rs m = fold_left (alias_rule p) rs' m.
Proof. induction 1 as [|r r' rs rs' A _ IH]; intros m; cbn [fold_left]; [reflexivity|]. unfold alias_rule at 2 4. rewrite (al_name _ _ A), (al_actual _ _ A). apply IH. Qed.
(** * Headers *)
Lemma library_headers_alike p r r' : rule_alike r r' -> library_headers p r = library_headers p r'.
Proof.
  intros A. unfold library_headers. rewrite (al_name _ _ A). destruct (qualified_target _ _) as [lib|]; [|reflexivity].
  texts (al_hdrs _ _ A). texts (al_textual _ _ A). texts (al_public _ _ A).
  assert (H : forall skip hs, headers_names p r skip hs = headers_names p r' skip hs).
  { intros skip. induction hs as [|h hs IH]; cbn [headers_names]; [reflexivity|]. rewrite IH. assert (header_names p r h = header_names p r' h) as ->; [|reflexivity].
    unfold header_names. rewrite (al_prefix _ _ A). destruct (negb _); [reflexivity|]. texts (al_includes _ _ A). now rewrite (al_strip _ _ A). }
  now rewrite H.
Qed.
Lemma add_libraries_alike ai si p rs rs' : rules_alike rs rs' -> forall m, add_libraries ai si p rs m = add_libraries ai si p rs' m.
Proof. induction 1 as [|r r' rs rs' A _ IH]; intros m; cbn [add_libraries]; [reflexivity|]. rewrite (library_headers_alike p _ _ A). apply bind_same. intros l. apply IH. Qed.
Lemma proto_libs_alike p rs rs' : rules_alike rs rs' -> forall m, proto_libs p rs m = proto_libs p rs' m.
Proof.
  induction 1 as [|r r' rs rs' A _ IH]; intros m; cbn [proto_libs]; [reflexivity|]. rewrite (al_name _ _ A). assert (is_grpc r = is_grpc r') as -> by (unfold is_grpc; now rewrite (al_rule _ _ A)).
  destruct (qualified_target _ _); [|apply IH]. destruct (is_grpc r'); [texts (al_srcs _ _ A)|texts (al_deps _ _ A)]; apply IH.
Qed.
Lemma add_proto_libraries_alike p reverse libs rs rs' : rules_alike rs rs' -> forall m, add_proto_libraries p reverse libs rs m = add_proto_libraries p reverse libs rs' m.
Proof.
  induction 1 as [|r r' rs rs' A _ IH]; intros m; cbn [add_proto_libraries]; [reflexivity|]. rewrite (al_name _ _ A). destruct (qualified_target _ _) as [t|]; [|apply IH].
  assert (H : forall l n m, add_proto_library p reverse t r l n m = add_proto_library p reverse t r' l n m).
  { intros l n m0. unfold add_proto_library. destruct (map_find t l); [|reflexivity]. texts (al_srcs _ _ A). reflexivity. }
  rewrite H. apply bind_same. intros m1. rewrite H. apply bind_same. exact IH.
Qed.
Lemma genrules_alike p si rs rs' : rules_alike rs rs' -> forall m, genrules p si rs m = genrules p si rs' m.
Proof. induction 1 as [|r r' rs rs' A _ IH]; intros m; cbn [genrules]; [reflexivity|]. rewrite (al_name _ _ A). texts (al_outs _ _ A). apply IH. Qed.
(** * canonicalize and workspace *)
Lemma canon_rules_alike pt p rs rs' : rules_alike rs rs' -> canon_rules pt p rs = canon_rules pt p rs'.
Proof.
  induction 1 as [|r r' rs rs' A _ IH]; cbn [canon_rules]; [reflexivity|]. rewrite (al_name _ _ A). destruct (qualified_target _ _) as [self|]; [|exact IH].
  destruct (match_target _ _); [|exact IH]. texts (al_deps _ _ A). now rewrite IH.
Qed.
Lemma attribute_strings l : attributes l -> extract_string_list (Some l) = Ret [].
Proof.
  unfold extract_string_list. cbn [opt_elems]. induction l as [|a l IH]; intros AT; [reflexivity|]. apply attributes_cons in AT as (k & K & AT & _). apply attribute_inv in K as (v & x & g & -> & _). cbn [string_list cast_scalar bind].
  rewrite (IH AT). reflexivity.
Qed.
Lemma external_refs_alike pt p r r' : rule_alike r r' -> external_refs pt p r = external_refs pt p r'.
Proof.
  intros A. unfold external_refs. rewrite (al_rule _ _ A), (al_name _ _ A). destruct (str_eqb _ _).
  - destruct (al_node _ _ A) as [N|N].
    + destruct (q_node r), (q_node r'); cbn [bare] in N; try discriminate N; try reflexivity.
      assert (N2 : bare n2 = bare n4) by exact (f_equal (fun n => match n with NCall _ a => a | _ => NNull end) N).
      destruct n2, n4; cbn [bare] in N2; try discriminate N2; try reflexivity. apply texts_alike; [|intros l l' L; now rewrite L].
      cbn [bare_list option_map]. f_equal. exact (f_equal (fun n => match n with NList _ a => a | _ => [] end) N2).
    + apply reordered_inv in N as (v & v' & ty & al & al2 & al' & -> & -> & _ & AT & P & E).
      rewrite (attribute_strings al AT). apply (attributes_perm _ _ P) in AT. rewrite (attribute_strings al'); [reflexivity|]. apply (names_attributes al2); [rewrite <- (names_bare al'), <- E; apply names_bare|exact AT].
  - destruct (qualified_target _ _) as [t|]; [|reflexivity]. destruct (match_target _ _); [|reflexivity]. texts (al_deps _ _ A). now rewrite (al_actual _ _ A).
Qed.
Lemma transfer_rules_alike w pt p rs rs' : rules_alike rs rs' -> forall sub, transfer_rules w pt p rs sub = transfer_rules w pt p rs' sub.
Proof. induction 1 as [|r r' rs rs' A _ IH]; intros sub; cbn [transfer_rules]; [reflexivity|]. rewrite (external_refs_alike pt p _ _ A). apply bind_same. intros l. apply IH. Qed.
(** * Compilation flags *)
Lemma rules_dirs_alike w p rs rs' : rules_alike rs rs' -> forall st, rules_dirs w p rs st = rules_dirs w p rs' st.
Proof.
  induction 1 as [|r r' rs rs' A _ IH]; intros st; cbn [rules_dirs]; [reflexivity|]. assert (rule_dirs w p r st = rule_dirs w p r' st) as ->; [|apply bind_same; exact IH].
  unfold rule_dirs. apply texts_alike; [apply A|]. intros l l' L.
  rewrite (fold_texts (fun st i => want_dir (fully_qualified_file w p i) st) l l' st L). rewrite (al_name _ _ A), (al_prefix _ _ A), (al_rule _ _ A).
  destruct (qualified_target _ _) as [t|]; [|reflexivity]. apply bind_same. intros st1. apply texts_alike; [apply A|]. intros d d' D.
  now rewrite (fold_texts (fun st i => want_project w p i st) d d' _ D).
Qed.
Lemma write_rules_alike w pt cwd json p rs rs' : rules_alike rs rs' -> forall wr, write_rules w pt cwd json p rs wr = write_rules w pt cwd json p rs' wr.
Proof.
  induction 1 as [|r r' rs rs' A _ IH]; intros wr; cbn [write_rules]; [reflexivity|]. rewrite (al_name _ _ A). destruct (qualified_target _ _) as [t|]; [|apply IH].
  destruct (match_target _ _); [|apply IH].
  assert (S : seen (map v_text) (rule_sources r) = seen (map v_text) (rule_sources r')).
  { unfold rule_sources. eapply seen_bind; [apply extract_bare, A|]. intros a a' E1. eapply seen_bind; [apply extract_bare, A|]. intros b b' E2.
    apply seen_ret. rewrite !map_app. f_equal; apply bare_views_texts; assumption. }
  eapply bind_alike; [exact S|]. intros a a' E. assert (map (fun v => fully_qualified_file w p (v_text v)) a = map (fun v => fully_qualified_file w p (v_text v)) a') as ->.
  { rewrite <- (map_map v_text (fully_qualified_file w p) a), E, map_map. reflexivity. }
  destruct (write_entries _ _ _ _) as [out wr']. now rewrite IH.
Qed.
