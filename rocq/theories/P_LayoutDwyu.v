(** "Depend on what you use" on files that differ in layout only. *)
From Coq Require Import Lia.
From Verif Require Import Base OMap M_Types M_Scanner M_Ast M_Parser M_Query M_Elab M_Workspace M_Project M_DepGraph M_Headers M_Includes M_Dwyu M_Edits
  S_Layout S_Attributes P_LayoutParse P_LayoutMean P_Attributes P_LayoutRules P_LayoutRun.

(** If both come back, it is with the same. *)
Definition agree {A} (x x' : outcome A) : Prop := forall a a', x = Ret a -> x' = Ret a' -> a = a'.
Lemma agree_same {A} (x : outcome A) : agree x x.
Proof. intros a a' -> E. now injection E. Qed.
Lemma agree_bind {A C} (r r' : outcome A) (k k' : A -> outcome C) : agree r r' -> (forall a, agree (k a) (k' a)) -> agree (bind r k) (bind r' k').
Proof. intros A1 A2 c c'. destruct r as [a| |]; try discriminate. destruct r' as [a'| |]; try discriminate. cbn [bind]. rewrite (A1 a a' eq_refl eq_refl). apply A2. Qed.
Lemma agree_orel {A C} (R : A -> A -> Prop) r r' (k k' : A -> outcome C) : orel R r r' -> (forall a a', R a a' -> agree (k a) (k' a')) -> agree (bind r k) (bind r' k').
Proof. destruct r, r'; cbn [orel bind]; intros E H; try contradiction E; auto; intros a1 a2; discriminate. Qed.

(** * Libraries *)
Definition known_alike (m m' : list (target * result)) : Prop := Forall2 (fun e e' => fst e = fst e' /\ rule_alike (snd e) (snd e')) m m'.
Lemma known_find t m m' : known_alike m m' -> match map_find t m, map_find t m' with Some r, Some r' => rule_alike r r' | None, None => True | _, _ => False end.
Proof. induction 1 as [|[q f] [q' f'] l l' [E A] _ IH]; cbn [map_find]; [exact I|]. cbn [fst snd] in *. subst q'. destruct (keqb t q); [exact A|exact IH]. Qed.
Lemma known_insert t r r' m m' : rule_alike r r' -> known_alike m m' -> known_alike (map_insert t r m) (map_insert t r' m').
Proof.
  intros A. induction 1 as [|[q g] [q' g'] l l' [E B] F IH]; cbn [map_insert]; [constructor; [split; [reflexivity|exact A]|constructor]|]. cbn [fst snd] in *. subst q'.
  destruct (kcmp t q); [constructor; auto|constructor; [auto|constructor; auto]|constructor; [auto|exact IH]].
Qed.
Lemma add_known_alike p rs rs' : rules_alike rs rs' -> forall m m', known_alike m m' -> known_alike (fold_left (add_known p) rs m) (fold_left (add_known p) rs' m').
Proof.
  induction 1 as [|r r' rs rs' A _ IH]; intros m m' M; cbn [fold_left]; [exact M|]. apply IH. unfold add_known. rewrite (al_name _ _ A).
  destruct (qualified_target _ _); [apply known_insert; assumption|exact M].
Qed.
Lemma found_rel {C} (Q : C -> C -> Prop) interest ast ast' (k k' : list result -> outcome C) : statements_alike ast ast' -> (forall rs rs', rules_alike rs rs' -> orel Q (k rs) (k' rs')) ->
  orel Q (bind (find_targets interest ast) k) (bind (find_targets interest ast') k').
Proof. intros E H. eapply orel_bind; [apply find_statements_alike, E|]. exact H. Qed.
Lemma known_in_alike ok l l' : entries_alike ok l l' -> forall m m', known_alike m m' -> orel known_alike (known_in l m) (known_in l' m').
Proof.
  induction 1 as [|[q f] [q' f'] l l' [_ A] _ IH]; intros m m' M; cbn [known_in]; [exact M|]. cbn [snd] in A. apply found_rel; [eapply alike_ast, A|]. intros rs rs' R.
  apply IH. rewrite (alike_package _ _ _ A). apply add_known_alike; assumption.
Qed.

Section Dwyu.
Variable w : workspace.
Variables read read' : str -> option str.
Variable ignore_keep : bool.
Variable headers : provided_set.
Variables known known' : list (target * result).
Variable ok : str -> Prop.
Hypothesis KA : known_alike known known'.
Hypothesis INC : forall f, option_map (fun c => map snd (extract_cc_includes c)) (read f) = option_map (fun c => map snd (extract_cc_includes c)) (read' f).
Hypothesis KEEP : ignore_keep = true \/ forall c, ok c -> contains ($"keep") c = false.

Lemma alwayslink_alike t : is_alwayslink known t = is_alwayslink known' t.
Proof. unfold is_alwayslink. pose proof (known_find t _ _ KA) as E. destruct (map_find t known), (map_find t known'); try contradiction E; [apply E|reflexivity]. Qed.
Lemma testonly_alike t dep : is_testonly_compatible known t dep = is_testonly_compatible known' t dep.
Proof.
  unfold is_testonly_compatible. pose proof (known_find dep _ _ KA) as E. destruct (map_find dep known), (map_find dep known'); try contradiction E; [|reflexivity]. rewrite (al_testonly _ _ E). destruct (negb _); [reflexivity|].
  pose proof (known_find t _ _ KA) as E'. destruct (map_find t known), (map_find t known'); try contradiction E'; [|reflexivity]. now rewrite (al_testonly _ _ E'), (al_rule _ _ E').
Qed.
Lemma visible_by_alike l : forall l' t dep any, map bare l = map bare l' -> visible_by l t dep any = visible_by l' t dep any.
Proof.
  induction l as [|n l IH]; intros [|n' l'] t dep any E; try discriminate E; [reflexivity|]. apply map_cons_inv in E as [E1 E2]. cbn [visible_by].
  eapply bind_alike; [apply cast_scalar_bare, E1|]. intros s s' H. destruct s as [[b v]|], s' as [[b' v']|]; try discriminate H; [|apply IH, E2].
  injection H as _ H _. rewrite H. destruct (parse_visibility _ _); try (apply IH, E2). destruct (match_target _ _); [reflexivity|apply IH, E2].
Qed.
Lemma can_see_alike t dep : can_see known t dep = can_see known' t dep.
Proof.
  unfold can_see. pose proof (known_find dep _ _ KA) as E. destruct (map_find dep known) as [r|], (map_find dep known') as [r'|]; try contradiction E; [|reflexivity].
  rewrite (al_deprecation _ _ E). destruct (negb _); [reflexivity|]. destruct (package_eqb _ _); [reflexivity|]. destruct (str_eqb _ _); [reflexivity|].
  pose proof (al_visibility _ _ E) as V. destruct (q_visibility r), (q_visibility r'); try discriminate V; [|reflexivity]. injection V as V. apply visible_by_alike, V.
Qed.
Lemma visible_only_alike t l : visible_only known t l = visible_only known' t l.
Proof. induction l as [|a l IH]; cbn [visible_only]; [reflexivity|]. now rewrite can_see_alike, IH. Qed.
Lemma by_includes_alike t p srcs incs : needed_by_includes headers known t p srcs incs = needed_by_includes headers known' t p srcs incs.
Proof. induction incs as [|i incs IH]; cbn [needed_by_includes]; [reflexivity|]. rewrite IH. destruct (attribute _ _ _ _ _); try reflexivity. now rewrite visible_only_alike. Qed.
Lemma open_alike f : option_map (fun c => map snd (extract_cc_includes c)) (try_open read f) = option_map (fun c => map snd (extract_cc_includes c)) (try_open read' f).
Proof.
  unfold try_open. induction source_locations as [|l ls IH]; cbn [try_locations]; [reflexivity|]. pose proof (INC (l ++ f)) as E.
  destruct (read (l ++ f)), (read' (l ++ f)); try discriminate E; [exact E|exact IH].
Qed.
Lemma by_sources_alike t p srcs todo : needed_by_sources w read headers known t p srcs todo = needed_by_sources w read' headers known' t p srcs todo.
Proof.
  induction todo as [|s todo IH]; cbn [needed_by_sources]; [reflexivity|]. rewrite IH. pose proof (open_alike (fully_qualified_file w p s)) as E.
  destruct (try_open read _) as [c|], (try_open read' _) as [c'|]; try discriminate E; [|reflexivity]. cbn [option_map] in E.
  assert (map snd (extract_cc_includes c) = map snd (extract_cc_includes c')) as -> by congruence. now rewrite by_includes_alike.
Qed.
Lemma add_needed_alike t l : add_all_needed known t l = add_all_needed known' t l.
Proof.
  induction l as [|s l IH]; cbn [add_all_needed]; [reflexivity|]. rewrite IH. f_equal. unfold add_needed. destruct s as [|a [|b s]]; try reflexivity.
  rewrite can_see_alike, testonly_alike. reflexivity.
Qed.
(** Lines. *)
Definition dep_alike (f f' : parsed_file) (d d' : view) : Prop := v_text d = v_text d' /\
  forall line line', surrounding_line f d = Ret line -> surrounding_line f' d' = Ret line' -> ignore_keep || negb (keep_comment line) = ignore_keep || negb (keep_comment line').
Lemma check_dep_alike t f f' ak d d' needed checked : dep_alike f f' d d' ->
  agree (check_dep ignore_keep known t f ak d needed checked) (check_dep ignore_keep known' t f' ak d' needed checked).
Proof.
  intros [T L]. unfold check_dep. rewrite T. destruct (parse_target _ _) as [x|]; [|apply agree_same]. destruct (check_off x needed) as [[s nd]|]; [apply agree_same|].
  destruct (map_find x checked); [apply agree_same|]. rewrite alwayslink_alike. destruct (_ && _); [|apply agree_same].
  intros a a'. destruct (surrounding_line f d) as [line| |] eqn:E; try discriminate. destruct (surrounding_line f' d') as [line'| |] eqn:E'; try discriminate. cbn [bind].
  rewrite (L line line' eq_refl eq_refl). congruence.
Qed.
Lemma check_deps_alike t f f' ak ds ds' : Forall2 (dep_alike f f') ds ds' -> forall needed checked,
  agree (check_deps ignore_keep known t f ak ds needed checked) (check_deps ignore_keep known' t f' ak ds' needed checked).
Proof.
  induction 1 as [|d d' ds ds' D _ IH]; intros needed checked; cbn [check_deps]; [apply agree_same|]. apply agree_bind; [apply check_dep_alike, D|]. intros [[n c] ev].
  apply agree_bind; [apply IH|]. intros [n' ev']. apply agree_same.
Qed.
Lemma kept_contains line : keep_comment line = true -> contains ($"keep") line = true.
Proof.
  induction line as [|c r IH]; cbn [keep_comment]; [discriminate|]. intros H. apply contains_iff. apply orb_true_iff in H as [H|H].
  - apply andb_true_iff in H as [_ H]. apply contains_iff in H as (a & b & E). exists (c :: a), (b ++ skipn (take_until_nl r) r).
    rewrite <- (firstn_skipn (take_until_nl r) r) at 1. rewrite E. cbn [app]. now rewrite <- !app_assoc.
  - apply IH, contains_iff in H as (a & b & ->). exists (c :: a), b. reflexivity.
Qed.
Lemma kept_by_line c start len line : line = firstn len (skipn start c) -> contains ($"keep") c = false -> keep_comment line = false.
Proof.
  intros -> K. destruct (keep_comment _) eqn:E; [|reflexivity]. apply kept_contains, contains_iff in E as (a & b & E). rewrite <- K. symmetry. apply contains_iff.
  exists (firstn start c ++ a), (b ++ skipn len (skipn start c)). rewrite <- (firstn_skipn start c) at 1. rewrite <- (firstn_skipn len (skipn start c)) at 1. rewrite E. now rewrite <- !app_assoc.
Qed.
Lemma views_alike f f' l l' : f = f' /\ l = l' \/ (ok (pf_content f) /\ ok (pf_content f') /\ map bare_view l = map bare_view l') -> Forall2 (dep_alike f f') l l'.
Proof.
  intros [[<- <-]|(O & O' & E)].
  - induction l as [|v l IH]; constructor; [|exact IH]. split; [reflexivity|]. intros line line' -> X. now injection X as <-.
  - revert l' E. induction l as [|v l IH]; intros [|v' l'] E; try discriminate E; [constructor|]. apply map_cons_inv in E as [E1 E2]. constructor; [|apply IH, E2].
    split; [apply bare_view_text, E1|]. intros line line'. destruct KEEP as [->|K]; [reflexivity|]. unfold surrounding_line. pose proof (f_equal v_org E1) as VO. cbn in VO.
    destruct (v_org v) as [off|], (v_org v') as [off'|]; try discriminate VO; [|intros X X'; injection X as <-; injection X' as <-; now rewrite (bare_view_text _ _ E1)].
    destruct (get_surrounding_line (pf_content f) off _) as [[st ln]|]; [|discriminate]. destruct (get_surrounding_line (pf_content f') off' _) as [[st' ln']|]; [|discriminate].
    intros X X'. injection X as X. injection X' as X'. rewrite (kept_by_line _ _ _ _ (eq_sym X) (K _ O)), (kept_by_line _ _ _ _ (eq_sym X') (K _ O')). reflexivity.
Qed.
Definition same_place (f f' : parsed_file) (r r' : result) : Prop := f = f' /\ r = r' \/ (ok (pf_content f) /\ ok (pf_content f') /\ rule_alike r r').
Lemma edits_alike t f f' r r' : pf_package f = pf_package f' -> same_place f f' r r' ->
  agree (create_edits_for_target w read ignore_keep headers known t r f) (create_edits_for_target w read' ignore_keep headers known' t r' f').
Proof.
  intros P S. assert (A : rule_alike r r') by (destruct S as [[_ <-]|(_ & _ & S)]; [apply rule_self|exact S]). unfold create_edits_for_target. rewrite P.
  apply (agree_orel (fun l l' => map bare_view l = map bare_view l')); [apply (orel_seen (map bare_view)), extract_bare, A|]. intros s s' E1.
  apply (agree_orel (fun l l' => map bare_view l = map bare_view l')); [apply (orel_seen (map bare_view)), extract_bare, A|]. intros h h' E2.
  rewrite (bare_views_texts _ _ E1), (bare_views_texts _ _ E2), by_sources_alike. apply agree_bind; [apply agree_same|]. intros [needed ak]. apply agree_bind; [apply agree_same|]. intros nd.
  apply (agree_orel (fun l l' => Forall2 (dep_alike f f') l l')).
  - destruct S as [[<- <-]|(O & O' & _)].
    + destruct (extract_string_list (q_deps r)); cbn [orel]; auto. apply views_alike. left. auto.
    + pose proof (extract_bare _ _ (al_deps _ _ A)) as X. apply orel_seen in X. destruct (extract_string_list (q_deps r)), (extract_string_list (q_deps r')); cbn [orel] in *; try contradiction X; auto.
      apply views_alike. right. auto.
  - intros ds ds' D. apply agree_bind; [apply check_deps_alike, D|]. intros [n ev]. rewrite add_needed_alike. apply agree_same.
Qed.
Lemma rules_edits_alike pt f f' rs rs' : pf_package f = pf_package f' -> Forall2 (same_place f f') rs rs' ->
  agree (edits_for_rules w read ignore_keep headers known pt f rs) (edits_for_rules w read' ignore_keep headers known' pt f' rs').
Proof.
  intros P. induction 1 as [|r r' rs rs' S _ IH]; cbn [edits_for_rules]; [apply agree_same|]. rewrite P. 
  assert (v_text (q_name r) = v_text (q_name r')) as -> by (destruct S as [[_ <-]|(_ & _ & S)]; [reflexivity|apply S]).
  destruct (qualified_target _ _) as [t|]; [|exact IH]. destruct (match_target _ _); [|exact IH]. apply agree_bind; [apply edits_alike; assumption|]. intros ev.
  apply agree_bind; [exact IH|]. intros [ev' n]. apply agree_same.
Qed.
Lemma files_edits_alike pt l l' : entries_alike ok l l' -> agree (edits_for_files w read ignore_keep headers known pt l) (edits_for_files w read' ignore_keep headers known' pt l').
Proof.
  induction 1 as [|[q f] [q' f'] l l' [_ A] _ IH]; cbn [edits_for_files]; [apply agree_same|]. cbn [snd] in A. rewrite (alike_package _ _ _ A). destruct (match_package _ _); [|exact IH].
  apply (agree_orel (Forall2 (same_place f f'))).
  - destruct A as [<-|(_ & _ & E & _ & O & O')].
    + destruct (find_targets _ (pf_ast f)) as [rs| |]; cbn [orel]; auto. induction rs; constructor; auto. left. auto.
    + pose proof (find_statements_alike [$"cc_library"; $"cc_binary"; $"cc_test"] false _ _ E) as X. fold (find_targets [$"cc_library"; $"cc_binary"; $"cc_test"] (pf_ast f)) in X.
      fold (find_targets [$"cc_library"; $"cc_binary"; $"cc_test"] (pf_ast f')) in X.
      destruct (find_targets _ (pf_ast f)) as [rs| |], (find_targets _ (pf_ast f')) as [rs'| |]; cbn [orel] in *; try contradiction X; auto.
      induction X as [|r r' rs rs' R _ IH2]; constructor; auto. right. auto.
  - intros rs rs' R. apply agree_bind; [apply rules_edits_alike; [apply (alike_package _ _ _ A)|exact R]|]. intros [ev n]. apply agree_bind; [exact IH|]. intros [ev' n']. apply agree_same.
Qed.
End Dwyu.
Theorem dwyu_alike (ok : str -> Prop) w read read' ignore_keep pt pr pr' :
  (forall f, option_map (fun c => map snd (extract_cc_includes c)) (read f) = option_map (fun c => map snd (extract_cc_includes c)) (read' f)) ->
  (ignore_keep = true \/ forall c, ok c -> contains ($"keep") c = false) -> projects_alike ok pr pr' ->
  agree (dependency_edits w read ignore_keep pr pt) (dependency_edits w read' ignore_keep pr' pt).
Proof.
  intros INC KEEP P. unfold dependency_edits. rewrite (header_to_lib_alike _ _ _ true P). apply agree_bind; [apply agree_same|]. intros headers.
  apply (agree_orel known_alike); [apply (known_in_alike ok); [apply P|constructor]|]. intros k k' K. eapply files_edits_alike; eauto. apply P.
Qed.
