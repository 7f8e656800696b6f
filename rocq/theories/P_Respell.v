(** Proofs for C76: how dependencies are spelled does not matter. *)
From Coq Require Import Lia.
From Verif Require Import Base OMap M_Types M_Scanner M_Ast M_Parser M_Query S_Query P_Query M_Elab M_Workspace M_Project M_DepGraph S_DepGraph
  M_Headers S_Headers P_Headers M_Includes M_Dwyu S_Dwyu P_Dwyu S_Converge P_Converge M_Edits M_CompDb M_Commands S_Respell.

(** What comes back from both is related. *)
Definition both {A} (R : A -> A -> Prop) (x x' : outcome A) : Prop := forall a a', x = Ret a -> x' = Ret a' -> R a a'.
Lemma both_bind {A C} (R : A -> A -> Prop) (Q : C -> C -> Prop) r r' k k' :
  both R r r' -> (forall a a', R a a' -> both Q (k a) (k' a')) -> both Q (bind r k) (bind r' k').
Proof. intros B H c c'. destruct r as [a| |]; try discriminate. destruct r' as [a'| |]; try discriminate. cbn [bind]. apply H, B; reflexivity. Qed.
Lemma both_ret {A} (R : A -> A -> Prop) a a' : R a a' -> both R (Ret a) (Ret a').
Proof. intros H b b' E E'. congruence. Qed.
Lemma both_same {A} (x : outcome A) : both eq x x.
Proof. intros a a' E E'. congruence. Qed.
Lemma both_eq {A} (x x' : outcome A) : x = x' -> both eq x x'.
Proof. intros ->. apply both_same. Qed.
Lemma both_ub_l {A} (R : A -> A -> Prop) x : both R UB x.
Proof. intros a a'. discriminate. Qed.
Lemma both_ub_r {A} (R : A -> A -> Prop) x : both R x UB.
Proof. intros a a' _. discriminate. Qed.

(** * Rules *)
Record alike (p : package) (f f' : parsed_file) (r r' : result) : Prop := mkAlike {
  al_rule : v_text (q_rule r) = v_text (q_rule r');
  al_name : v_text (q_name r) = v_text (q_name r');
  al_actual : v_text (q_actual r) = v_text (q_actual r');
  al_prefix : v_text (q_include_prefix r) = v_text (q_include_prefix r');
  al_strip : v_text (q_strip_include_prefix r) = v_text (q_strip_include_prefix r');
  al_deprecation : v_text (q_deprecation r) = v_text (q_deprecation r');
  al_alwayslink : q_alwayslink r = q_alwayslink r';
  al_testonly : q_testonly r = q_testonly r';
  al_srcs : same_list (q_srcs r) (q_srcs r');
  al_hdrs : same_list (q_hdrs r) (q_hdrs r');
  al_textual : same_list (q_textual_hdrs r) (q_textual_hdrs r');
  al_public : same_list (q_public_hdrs r) (q_public_hdrs r');
  al_includes : same_list (q_includes r) (q_includes r');
  al_outs : same_list (q_outs r) (q_outs r');
  al_visibility : same_labels (q_visibility r) (q_visibility r');
  al_load : load_texts r = load_texts r';
  al_deps : Forall2 (fun d d' => parse_target (v_text d) p = parse_target (v_text d') p /\ (marked (pf_content f) d <-> marked (pf_content f') d'))
    (entries (list_of (q_deps r))) (entries (list_of (q_deps r'))) }.
Arguments al_rule {p f f' r r'}. Arguments al_name {p f f' r r'}. Arguments al_actual {p f f' r r'}. Arguments al_prefix {p f f' r r'}. Arguments al_strip {p f f' r r'}.
Arguments al_deprecation {p f f' r r'}. Arguments al_alwayslink {p f f' r r'}. Arguments al_testonly {p f f' r r'}. Arguments al_srcs {p f f' r r'}. Arguments al_hdrs {p f f' r r'}.
Arguments al_textual {p f f' r r'}. Arguments al_public {p f f' r r'}. Arguments al_includes {p f f' r r'}. Arguments al_outs {p f f' r r'}. Arguments al_visibility {p f f' r r'}.
Arguments al_load {p f f' r r'}. Arguments al_deps {p f f' r r'}.
Lemma with_alike p f f' r r' : rule_with (means_same p r) f f' r r' -> alike p f f' r r'.
Proof. intros (H1 & H2 & H3 & H4 & H5 & H6 & H7 & H8 & H9 & H10 & H11 & H12 & H13 & H14 & H15 & H16 & H17). constructor; assumption. Qed.
Lemma Forall2_self {A} (R : A -> A -> Prop) l : (forall x, R x x) -> Forall2 R l l.
Proof. intros H. induction l; constructor; auto. Qed.
Lemma alike_self p f r : alike p f f r r.
Proof. constructor; try reflexivity. - destruct (q_visibility r); reflexivity. - apply Forall2_self. tauto. Qed.

Definition chosen (kinds : list str) (allow : bool) (r : result) : bool :=
  (is_nil kinds || existsb (str_eqb (v_text (q_rule r))) kinds) && (allow || negb (is_nil (v_text (q_name r)))).
Lemma reported_chosen kinds allow calls : Forall proper_call calls -> forall vis,
  reported kinds allow vis calls = filter (chosen kinds allow) (reported [] true vis calls).
Proof.
  intros F. induction F as [|n calls (g & ty & args & ->) F IH]; intros vis; [reflexivity|]. cbn [reported].
  destruct (str_eqb (v_text g) ($"package")); [apply IH|]. rewrite filter_app, IH. f_equal. cbn [is_nil orb filter]. unfold chosen.
  set (d := S_Query.described (NCall (NId g) (NList ty args)) g (flat_map kwargs args)). change (v_text (q_rule (completed vis d))) with (v_text g). change (q_name (completed vis d)) with (q_name d).
  destruct (is_nil kinds || existsb (str_eqb (v_text g)) kinds); [|reflexivity]. cbn [andb]. destruct (allow || negb (is_nil (v_text (q_name d)))); reflexivity.
Qed.
Lemma Forall2_chosen (R : result -> result -> Prop) kinds allow rs rs' : (forall r r', R r r' -> v_text (q_rule r) = v_text (q_rule r') /\ v_text (q_name r) = v_text (q_name r')) ->
  Forall2 R rs rs' -> Forall2 R (filter (chosen kinds allow) rs) (filter (chosen kinds allow) rs').
Proof.
  intros H. induction 1 as [|r r' rs rs' A F IH]; [constructor|]. cbn [filter]. destruct (H _ _ A) as [E1 E2]. assert (chosen kinds allow r = chosen kinds allow r') as -> by (unfold chosen; now rewrite E1, E2).
  destruct (chosen kinds allow r'); [constructor; assumption|exact IH].
Qed.
Definition found_with (R : parsed_file -> parsed_file -> result -> result -> Prop) (f f' : parsed_file) : Prop :=
  forall kinds allow, both (Forall2 (R f f')) (find_targets_in kinds allow (pf_ast f)) (find_targets_in kinds allow (pf_ast f')).
Lemma with_found D f f' : file_with D f f' -> forall kinds allow,
  both (Forall2 (fun r r' => rule_with (D (pf_package f) r) f f' r r')) (find_targets_in kinds allow (pf_ast f)) (find_targets_in kinds allow (pf_ast f')).
Proof.
  intros (_ & _ & P & P' & all & all' & A & A' & F) kinds allow rs rs' E E'. unfold find_targets_allow_empty in *. rewrite find_targets_spec in A, A', E, E' by auto.
  injection A as <-. injection A' as <-. injection E as <-. injection E' as <-. rewrite (reported_chosen kinds allow _ P), (reported_chosen kinds allow _ P').
  apply Forall2_chosen; [|exact F]. intros r r' (E1 & E2 & _). auto.
Qed.
Record similar (f f' : parsed_file) : Prop := mkSimilar {
  si_package : pf_package f = pf_package f';
  si_name : pf_name f = pf_name f';
  si_rules : forall kinds allow, both (Forall2 (alike (pf_package f) f f')) (find_targets_in kinds allow (pf_ast f)) (find_targets_in kinds allow (pf_ast f')) }.
Lemma respelled_similar f f' : file_respelled f f' -> similar f f'.
Proof.
  intros [<-|H]; constructor; try reflexivity; try apply H.
  - intros kinds allow rs rs' E E'. assert (rs = rs') as <- by congruence. apply Forall2_self, alike_self.
  - intros kinds allow rs rs' E E'. pose proof (with_found _ _ _ H kinds allow rs rs' E E') as F. revert F. apply Forall2_first. intros r r'. apply with_alike.
Qed.

(** Texts of lists. *)
Lemma texts_both o o' : same_list o o' -> both (fun l l' => map v_text l = map v_text l') (extract_string_list o) (extract_string_list o').
Proof. intros S l l' E E'. eapply texts_same; eauto. Qed.
Definition same_meaning (p : package) (l l' : list str) : Prop := Forall2 (fun x x' => parse_target x p = parse_target x' p) l l'.
Lemma deps_both p f f' r r' : alike p f f' r r' ->
  both (Forall2 (fun d d' => parse_target (v_text d) p = parse_target (v_text d') p /\ (marked (pf_content f) d <-> marked (pf_content f') d')))
    (extract_string_list (q_deps r)) (extract_string_list (q_deps r')).
Proof. intros A l l' E E'. apply extract_entries in E. apply extract_entries in E'. subst. apply A. Qed.
Lemma deps_texts p f f' r r' : alike p f f' r r' -> both (fun l l' => same_meaning p (map v_text l) (map v_text l')) (extract_string_list (q_deps r)) (extract_string_list (q_deps r')).
Proof. intros A l l' E E'. pose proof (deps_both _ _ _ _ _ A l l' E E') as F. induction F as [|d d' l0 l0' [H _] F IH]; [constructor|]. constructor; [exact H|]. clear - F. induction F as [|? ? ? ? [? _]]; constructor; auto. Qed.
Lemma fold_meaning {A} p (g : A -> str -> A) : (forall st l l', parse_target l p = parse_target l' p -> g st l = g st l') ->
  forall l l', same_meaning p l l' -> forall st, fold_left g l st = fold_left g l' st.
Proof. intros H l l' F. induction F as [|x x' l l' E F IH]; intros st; cbn [fold_left]; [reflexivity|]. rewrite (H st x x' E). apply IH. Qed.
Lemma meaning_self p l : same_meaning p l l.
Proof. apply Forall2_self. reflexivity. Qed.
Lemma meaning_app p a a' b b' : same_meaning p a a' -> same_meaning p b b' -> same_meaning p (a ++ b) (a' ++ b').
Proof. apply Forall2_app. Qed.

(** * The graph *)
Section Rules.
Variable p : package.
Variables f f' : parsed_file.
Notation same := (alike p f f').
Lemma to_follow_both r r' : same r r' -> both (same_meaning p) (to_follow r) (to_follow r').
Proof.
  intros A. unfold to_follow. eapply both_bind; [apply (deps_texts _ _ _ _ _ A)|]. intros l l' L. apply both_ret. rewrite (al_actual A). apply meaning_app; [exact L|apply meaning_self].
Qed.
Lemma add_dependency_same t st l l' : parse_target l p = parse_target l' p -> add_dependency p t st l = add_dependency p t st l'.
Proof. intros E. unfold add_dependency. now rewrite E. Qed.
Lemma visit_rules_both rs rs' : Forall2 same rs rs' -> forall st, both eq (visit_rules p rs st) (visit_rules p rs' st).
Proof.
  induction 1 as [|r r' rs rs' A _ IH]; intros st; cbn [visit_rules]; [apply both_same|]. eapply (both_bind eq); [|intros a a' <-; apply IH].
  unfold visit_rule. rewrite (al_name A). destruct (qualified_target _ _); [|apply both_same]. destruct (negb _); [apply both_same|].
  eapply both_bind; [apply (to_follow_both _ _ A)|]. intros l l' L. apply both_ret. apply (fold_meaning p); [|exact L]. intros. now apply add_dependency_same.
Qed.
Lemma initial_same pt rs rs' : Forall2 same rs rs' -> forall todo,
  fold_left (fun todo r => match qualified_target p (v_text (q_name r)) with Some t => if match_target pt t then set_insert t todo else todo | None => todo end) rs todo =
  fold_left (fun todo r => match qualified_target p (v_text (q_name r)) with Some t => if match_target pt t then set_insert t todo else todo | None => todo end) rs' todo.
Proof. induction 1 as [|r r' rs rs' A _ IH]; intros todo; cbn [fold_left]; [reflexivity|]. rewrite (al_name A). apply IH. Qed.
Lemma alias_rules_same rs rs' : Forall2 same rs rs' -> forall m, fold_left (alias_rule p) rs m = fold_left (alias_rule p) rs' m.
Proof. induction 1 as [|r r' rs rs' A _ IH]; intros m; cbn [fold_left]; [reflexivity|]. unfold alias_rule at 2 4. rewrite (al_name A), (al_actual A). apply IH. Qed.
(** * Headers *)
Lemma header_names_both r r' h : same r r' -> both eq (header_names p r h) (header_names p r' h).
Proof.
  intros A. unfold header_names. rewrite (al_prefix A). destruct (negb _); [apply both_same|]. eapply both_bind; [apply (texts_both _ _ (al_includes A))|]. intros l l' L.
  rewrite (al_strip A), L. apply both_same.
Qed.
Lemma headers_names_both r r' skip hs : same r r' -> both eq (headers_names p r skip hs) (headers_names p r' skip hs).
Proof.
  intros A. induction hs as [|h hs IH]; cbn [headers_names]; [apply both_same|]. destruct (skip && _); [exact IH|]. eapply both_bind; [apply (header_names_both _ _ h A)|]. intros a a' <-.
  eapply both_bind; [exact IH|]. intros b b' <-. apply both_same.
Qed.
Lemma library_headers_both r r' : same r r' -> both eq (library_headers p r) (library_headers p r').
Proof.
  intros A. unfold library_headers. rewrite (al_name A). destruct (qualified_target _ _); [|apply both_same].
  eapply both_bind; [apply (texts_both _ _ (al_hdrs A))|]. intros a a' Ea. eapply both_bind; [apply (texts_both _ _ (al_textual A))|]. intros b b' Eb. rewrite Ea, Eb.
  eapply both_bind; [apply (texts_both _ _ (al_public A))|]. intros c c' Ec. rewrite Ec. eapply both_bind; [apply headers_names_both, A|]. intros x x' <-. apply both_same.
Qed.
Lemma add_libraries_both ai si rs rs' : Forall2 same rs rs' -> forall m, both eq (add_libraries ai si p rs m) (add_libraries ai si p rs' m).
Proof. induction 1 as [|r r' rs rs' A _ IH]; intros m; cbn [add_libraries]; [apply both_same|]. eapply both_bind; [apply (library_headers_both _ _ A)|]. intros a a' <-. apply IH. Qed.
Lemma proto_deps_same t l l' : same_meaning p l l' -> forall m, add_proto_deps p t l m = add_proto_deps p t l' m.
Proof. intros L m. unfold add_proto_deps. apply (fold_meaning p); [|exact L]. intros st x x' ->. reflexivity. Qed.
Lemma proto_libs_both rs rs' : Forall2 same rs rs' -> forall m, both eq (proto_libs p rs m) (proto_libs p rs' m).
Proof.
  induction 1 as [|r r' rs rs' A _ IH]; intros m; cbn [proto_libs]; [apply both_same|]. rewrite (al_name A). destruct (qualified_target _ _) as [t|]; [|apply IH].
  assert (is_grpc r = is_grpc r') as -> by (unfold is_grpc; now rewrite (al_rule A)).
  eapply (both_bind (fun l l' => same_meaning p (map v_text l) (map v_text l'))).
  - destruct (is_grpc r'); [|apply (deps_texts _ _ _ _ _ A)]. intros l l' E E'. rewrite (texts_both _ _ (al_srcs A) l l' E E'). apply meaning_self.
  - intros l l' L. rewrite !(proto_deps_same t _ _ L). apply IH.
Qed.
Lemma add_proto_libraries_both rev libs rs rs' : Forall2 same rs rs' -> forall m, both eq (add_proto_libraries p rev libs rs m) (add_proto_libraries p rev libs rs' m).
Proof.
  induction 1 as [|r r' rs rs' A _ IH]; intros m; cbn [add_proto_libraries]; [apply both_same|]. rewrite (al_name A). destruct (qualified_target _ _) as [t|]; [|apply IH].
  assert (H : forall l n m, both eq (add_proto_library p rev t r l n m) (add_proto_library p rev t r' l n m)).
  { intros l n m0. unfold add_proto_library. destruct (map_find t l); [|apply both_same]. eapply both_bind; [apply (texts_both _ _ (al_srcs A))|]. intros x x' X. rewrite X. apply both_same. }
  eapply both_bind; [apply H|]. intros m1 m1' <-. eapply both_bind; [apply H|]. intros m2 m2' <-. apply IH.
Qed.
Lemma genrules_both si rs rs' : Forall2 same rs rs' -> forall m, both eq (genrules p si rs m) (genrules p si rs' m).
Proof.
  induction 1 as [|r r' rs rs' A _ IH]; intros m; cbn [genrules]; [apply both_same|]. eapply both_bind; [apply (texts_both _ _ (al_outs A))|]. intros l l' L. rewrite (al_name A), L. apply IH.
Qed.
(** * The workspace *)
Lemma external_refs_both pt r r' : same r r' -> both (same_meaning p) (external_refs pt p r) (external_refs pt p r').
Proof.
  intros A. unfold external_refs. rewrite (al_rule A), (al_name A). destruct (str_eqb _ _).
  - pose proof (al_load A) as L. unfold load_texts in L. destruct (q_node r); try apply both_ub_l. match goal with |- both _ (match ?x with NNull => _ | _ => _ end) _ => destruct x end; try apply both_ub_l.
    destruct (q_node r'); try apply both_ub_r. match goal with |- context [match ?x with NNull => _ | _ => _ end] => destruct x end; try apply both_ub_r.
    eapply (both_bind (fun l l' => map v_text l = map v_text l')); [apply texts_both; exact L|]. intros x x' X. apply both_ret. rewrite X. apply meaning_self.
  - destruct (qualified_target _ _); [|apply both_ret, meaning_self]. destruct (match_target _ _); [|apply both_ret, meaning_self].
    eapply both_bind; [apply (deps_texts _ _ _ _ _ A)|]. intros l l' L. apply both_ret. rewrite (al_actual A). apply meaning_app; [exact L|apply meaning_self].
Qed.
Lemma transfer_rules_both w pt rs rs' : Forall2 same rs rs' -> forall sub, both eq (transfer_rules w pt p rs sub) (transfer_rules w pt p rs' sub).
Proof.
  induction 1 as [|r r' rs rs' A _ IH]; intros sub; cbn [transfer_rules]; [apply both_same|]. eapply both_bind; [apply (external_refs_both pt _ _ A)|]. intros l l' L.
  rewrite (fold_meaning p (transfer_ref w p)) with (l' := l'); [apply IH| |exact L]. intros st x x' E. unfold transfer_ref. now rewrite E.
Qed.
(** * Compilation flags *)
Lemma fold_views {A} (g : A -> str -> A) l : forall st, fold_left (fun st v => g st (v_text v)) l st = fold_left g (map v_text l) st.
Proof. induction l as [|v l IH]; intros st; cbn [fold_left map]; [reflexivity|apply IH]. Qed.
Lemma rules_dirs_both w rs rs' : Forall2 same rs rs' -> forall st, both eq (rules_dirs w p rs st) (rules_dirs w p rs' st).
Proof.
  induction 1 as [|r r' rs rs' A _ IH]; intros st; cbn [rules_dirs]; [apply both_same|]. eapply (both_bind eq); [|intros a a' <-; apply IH]. unfold rule_dirs.
  eapply both_bind; [apply (texts_both _ _ (al_includes A))|]. intros l l' L. rewrite !(fold_views (fun st i => want_dir (fully_qualified_file w p i) st)), L, (al_name A), (al_prefix A), (al_rule A).
  destruct (qualified_target _ _) as [t|]; [|apply both_same]. eapply both_bind; [apply both_same|]. intros s s' <-.
  eapply both_bind; [apply (deps_texts _ _ _ _ _ A)|]. intros d d' D. apply both_ret. rewrite !(fold_views (fun st i => want_project w p i st)).
  apply (fold_meaning p); [|exact D]. intros x y y' E. unfold want_project. now rewrite E.
Qed.
Lemma rule_sources_both r r' : same r r' -> both (fun l l' => map v_text l = map v_text l') (rule_sources r) (rule_sources r').
Proof.
  intros A. unfold rule_sources. eapply both_bind; [apply (texts_both _ _ (al_srcs A))|]. intros a a' Ea. eapply both_bind; [apply (texts_both _ _ (al_hdrs A))|]. intros b b' Eb.
  apply both_ret. now rewrite !map_app, Ea, Eb.
Qed.
Lemma write_rules_both w pt cwd json rs rs' : Forall2 same rs rs' -> forall wr, both eq (write_rules w pt cwd json p rs wr) (write_rules w pt cwd json p rs' wr).
Proof.
  induction 1 as [|r r' rs rs' A _ IH]; intros wr; cbn [write_rules]; [apply both_same|]. rewrite (al_name A). destruct (qualified_target _ _) as [t|]; [|apply IH]. destruct (match_target _ _); [|apply IH].
  eapply both_bind; [apply (rule_sources_both _ _ A)|]. intros l l' L. assert (map (fun v => fully_qualified_file w p (v_text v)) l = map (fun v => fully_qualified_file w p (v_text v)) l') as ->.
  { rewrite <- (map_map v_text (fully_qualified_file w p) l), L, map_map. reflexivity. }
  destruct (write_entries _ _ _ _) as [out wr1]. eapply both_bind; [apply IH|]. intros x x' <-. apply both_same.
Qed.
End Rules.

(** * Projects *)
Definition files_similar (l l' : list (package * parsed_file)) : Prop := Forall2 (fun e e' => fst e = fst e' /\ similar (snd e) (snd e')) l l'.
Definition projects_similar (pr pr' : parsed_project) : Prop := files_similar (pr_files pr) (pr_files pr').
Lemma project_similar pr pr' : project_respelled pr pr' -> projects_similar pr pr'.
Proof. apply Forall2_first. intros e e' [E R]. split; [exact E|apply respelled_similar, R]. Qed.
Lemma find_similar q l l' : files_similar l l' -> match map_find q l, map_find q l' with Some f, Some f' => similar f f' | None, None => True | _, _ => False end.
Proof. induction 1 as [|[k f] [k' f'] l l' [E A] _ IH]; cbn [map_find]; [exact I|]. cbn [fst snd] in *. subst k'. destruct (keqb q k); [exact A|exact IH]. Qed.
Lemma insert_similar q f f' l l' : similar f f' -> files_similar l l' -> files_similar (map_insert q f l) (map_insert q f' l').
Proof.
  intros A. induction 1 as [|[k g] [k' g'] l l' [E B] F IH]; cbn [map_insert]; [constructor; [split; [reflexivity|exact A]|constructor]|]. cbn [fst snd] in *. subst k'.
  destruct (kcmp q k); [constructor; auto|constructor; [auto|constructor; auto]|constructor; [auto|exact IH]].
Qed.
Lemma set_insert_twice q f g (l : list (package * parsed_file)) : map_find q l = None -> map_set q f (map_insert q g l) = map_insert q f l.
Proof.
  unfold map_set. induction l as [|[k x] l IH]; cbn [map_find map_insert]; intros E.
  - cbn [map_update]. now rewrite (proj2 (kcmp_eq q q) eq_refl).
  - destruct (keqb q k) eqn:K; [discriminate|]. destruct (kcmp q k) eqn:C.
    + apply kcmp_eq in C. subst k. unfold keqb in K. rewrite (proj2 (kcmp_eq q q) eq_refl) in K. discriminate.
    + cbn [map_update]. now rewrite (proj2 (kcmp_eq q q) eq_refl).
    + cbn [map_update]. rewrite C. f_equal. apply IH, E.
Qed.
