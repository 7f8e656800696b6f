(** Proofs about "print". *)
From Verif Require Import Base OMap M_Types M_Scanner S_Scanner M_Ast M_Parser S_Parser M_Query S_Query P_Query M_Elab P_Elab M_Workspace M_Project M_DepGraph S_DepGraph M_Printer M_Highlight M_Commands S_Commands P_Commands S_Print.

(** * Trees *)
Lemma substr_whole s i l : i + l <= length s -> firstn i s ++ substr s i l ++ skipn (i + l) s = s.
Proof.
  intros H. unfold substr. rewrite <- (firstn_skipn i s) at 4. f_equal.
  rewrite <- (firstn_skipn l (skipn i s)) at 2. f_equal. clear. revert s. induction i; intros [|c s]; cbn; auto. destruct l; reflexivity.
Qed.
Definition grep_result (find : option finder_fn) (s : str) : bool := match find with Some find => matches find s | None => false end.
Definition usable_grep (find : option finder_fn) : Prop := match find with Some find => usable_search find | None => True end.

Lemma highlight_plain find : usable_search find -> forall fuel s, length s < fuel -> highlight_loop false find fuel s = Ret (s, matches find s).
Proof.
  intros U. induction fuel as [|fuel IH]; intros s L; [lia|]. cbn [highlight_loop]. unfold find_mark, matches.
  destruct (find s) as [[[i l] c]|] eqn:F; cbn [option_map]; [|reflexivity]. cbn [fst snd m_start m_len m_consumed].
  apply U in F as (A & B & C). subst c. rewrite IH by (rewrite skipn_length; lia). cbn [bind colored]. unfold colored. cbn [app].
  rewrite substr_whole by lia. reflexivity.
Qed.
Lemma maybe_plain find s : usable_grep find -> maybe_highlight find false s = Ret (s, grep_result find s).
Proof. destruct find as [find|]; intros U; unfold maybe_highlight; [apply highlight_plain; auto|reflexivity]. Qed.

(** Without colours the text does not depend on the regular expression. *)
Definition any_word (find : option finder_fn) (n : node) : bool := existsb (grep_result find) (words n).
Theorem hprint_plain find : usable_grep find -> forall n i, hprint find false i n = do t <- print i n; Ret (t, any_word find n).
Proof.
  intros U. unfold any_word. induction n using node_ind'; intros i; cbn [hprint print words existsb]; unfold colored;
    rewrite ?orb_false_r; try reflexivity.
  - unfold hprint_string. rewrite maybe_plain by auto. reflexivity.
  - rewrite maybe_plain by auto. reflexivity.
  - rewrite IHn. destruct (print i n); reflexivity.
  - rewrite IHn1. destruct (print i n1); cbn [bind]; auto. rewrite IHn2. destruct (print i n2); cbn [bind]; auto. rewrite existsb_app. reflexivity.
  - assert (E : forall j ml first, hprint_elems (hprint find false) j ml first elems =
                do t <- print_elems print j ml first elems; Ret (t, existsb (grep_result find) (flat_map words elems))).
    { intros j ml. induction elems as [|x l IHl]; intros first; [reflexivity|]. cbn [hprint_elems print_elems flat_map]. inversion H; subst.
      assert (Ex : (match x with NNull => Ret ($"NIL", false) | _ => hprint find false j x end) =
                do a <- match x with NNull => Ret ($"NIL") | _ => print j x end; Ret (a, existsb (grep_result find) (words x))).
      { destruct x; try apply H2. reflexivity. }
      rewrite Ex. destruct (match x with NNull => Ret ($"NIL") | _ => print j x end); cbn [bind]; auto.
      rewrite IHl by auto. destruct (print_elems print j ml false l); cbn [bind]; auto. rewrite existsb_app. reflexivity. }
    rewrite E. destruct (print_elems _ _ _ _ _); reflexivity.
  - rewrite IHn. destruct (print i n); reflexivity.
  - rewrite IHn2. destruct (print i n2); cbn [bind]; auto. rewrite IHn1. destruct (print i n1); cbn [bind]; auto.
    assert (E : (match n3 with NNull => Ret ([], false) | _ => do (e, he) <- hprint find false i n3; Ret ($" else " ++ e, he) end) =
      do e <- match n3 with NNull => Ret [] | _ => do e <- print i n3; Ret ($" else " ++ e) end; Ret (e, existsb (grep_result find) (words n3))).
    { destruct n3; try reflexivity; rewrite IHn3; match goal with |- context[print i ?x] => destruct (print i x) end; reflexivity. }
    rewrite E. destruct (match n3 with NNull => Ret [] | _ => do e <- print i n3; Ret ($" else " ++ e) end); cbn [bind]; auto.
    rewrite !existsb_app. do 2 f_equal. destruct (existsb _ (words n1)), (existsb _ (words n2)); reflexivity.
  - rewrite IHn1. destruct (print i n1); cbn [bind]; auto. rewrite IHn2. destruct (print i n2); cbn [bind]; auto. rewrite existsb_app. reflexivity.
  - destruct n1; try reflexivity. rewrite maybe_plain by auto. cbn [bind]. rewrite IHn2. destruct (print i n2); cbn [bind]; auto.
Qed.

(** * Colours *)
(** What is shown, whatever follows. *)
Definition shows (o t : str) : Prop := ~ In ESC t -> forall b, visible_from false (o ++ b) = t ++ visible_from false b.
Lemma shows_app o t o' t' : shows o t -> shows o' t' -> shows (o ++ o') (t ++ t').
Proof. intros H H' N b. rewrite in_app_iff in N. rewrite <- !app_assoc, H, H' by tauto. reflexivity. Qed.
Lemma shows_text s : shows s s.
Proof.
  induction s as [|c s IH]; intros N b; [reflexivity|]. cbn [app visible_from].
  destruct (ceqb c "027") eqn:E; [apply ceqb_eq in E; subst; destruct N; left; reflexivity|]. f_equal. apply IH. intros I. apply N. right; auto.
Qed.
Lemma shows_color c o t : In c [color_bold; color_lhs; color_reset; color_highlight; color_reset_highlight; ESC :: $"[2;37m"] -> shows o t -> shows (c ++ o) t.
Proof. intros I H N b. rewrite <- app_assoc. rewrite <- (H N b). destruct I as [<-|[<-|[<-|[<-|[<-|[<-|[]]]]]]]; reflexivity. Qed.
Lemma shows_colored k c o t : In c [color_bold; color_lhs; color_reset; color_highlight; color_reset_highlight] -> shows o t -> shows (colored k c ++ o) t.
Proof. intros I H. unfold colored. destruct k; [apply shows_color; auto; cbn in *; tauto|exact H]. Qed.

Lemma highlight_shows k find : usable_search find -> forall fuel s o h, highlight_loop k find fuel s = Ret (o, h) -> shows o s.
Proof.
  intros U. induction fuel as [|fuel IH]; intros s o h; cbn [highlight_loop]; unfold find_mark;
    (destruct (find s) as [[[i l] c]|] eqn:F; cbn [option_map fst snd m_start m_len m_consumed]; [|intros E; injection E as <- <-; apply shows_text]); [discriminate|].
  apply U in F as (A & B & C). subst c.
  destruct (highlight_loop k find fuel _) as [[r hr]| |] eqn:E; try discriminate. cbn [bind]. intros X. injection X as <- <-. apply IH in E.
  rewrite <- (substr_whole s i l) at 3 by lia. apply shows_app; [apply shows_text|]. apply shows_colored; [cbn; auto 10|].
  apply shows_app; [apply shows_text|]. apply shows_colored; [cbn; auto 10|exact E].
Qed.
Lemma maybe_shows find k s o h : usable_grep find -> maybe_highlight find k s = Ret (o, h) -> shows o s.
Proof. destruct find as [find|]; intros U; unfold maybe_highlight; [apply highlight_shows; auto|]. intros E. injection E as <- <-. apply shows_text. Qed.

Lemma ret_pair {A B} (a c : A) (b d : B) : Ret (a, b) = Ret (c, d) -> a = c /\ b = d.
Proof. intros E. injection E. auto. Qed.
Ltac piece := repeat first [apply shows_text | assumption | apply shows_app].
Theorem hprint_shows find k : usable_grep find -> forall n i o h, hprint find k i n = Ret (o, h) -> exists t, print i n = Ret t /\ shows o t.
Proof.
  intros U. induction n using node_ind'; intros i o h E; cbn [hprint print] in *.
  - apply ret_pair in E as [<- <-]. eexists. split; [reflexivity|piece].
  - unfold hprint_string in E. destruct (maybe_highlight find k (v_text v)) as [[a ha]| |] eqn:M; try discriminate. cbn [bind] in E.
    apply ret_pair in E as [<- <-]. apply maybe_shows in M; auto. eexists. split; [reflexivity|]. unfold print_string. piece.
  - apply ret_pair in E as [<- <-]. eexists. split; [reflexivity|piece].
  - apply maybe_shows in E; auto. eexists. split; [reflexivity|auto].
  - destruct (hprint find k i n) as [[a ha]| |] eqn:E1; try discriminate. cbn [bind] in E. apply ret_pair in E as [<- <-].
    apply IHn in E1 as (t & -> & H). cbn [bind]. eexists. split; [reflexivity|piece].
  - destruct (hprint find k i n1) as [[a ha]| |] eqn:E1; try discriminate. cbn [bind] in E.
    destruct (hprint find k i n2) as [[b hb]| |] eqn:E2; try discriminate. cbn [bind] in E. apply ret_pair in E as [<- <-].
    apply IHn1 in E1 as (t1 & -> & H1). apply IHn2 in E2 as (t2 & -> & H2). cbn [bind]. eexists. split; [reflexivity|piece].
  - assert (K : forall j ml first o h, hprint_elems (hprint find k) j ml first elems = Ret (o, h) ->
                exists t, print_elems print j ml first elems = Ret t /\ shows o t).
    { clear E o h. intros j ml. induction elems as [|x l IHl]; intros first o h E; cbn [hprint_elems print_elems] in *.
      - apply ret_pair in E as [<- <-]. eexists. split; [reflexivity|piece].
      - inversion H as [|? ? Hx Hl]; subst.
        destruct (match x with NNull => Ret ($"NIL", false) | _ => hprint find k j x end) as [[a ha]| |] eqn:E1; try discriminate. cbn [bind] in E.
        destruct (hprint_elems (hprint find k) j ml false l) as [[b hb]| |] eqn:E2; try discriminate. cbn [bind] in E. apply ret_pair in E as [<- <-].
        apply IHl in E2 as (t2 & -> & H2); auto.
        assert (E1' : exists t, (match x with NNull => Ret ($"NIL") | _ => print j x end) = Ret t /\ shows a t).
        { destruct x; try (apply Hx in E1 as (t & -> & H1); eauto; fail). apply ret_pair in E1 as [<- <-]. eexists. split; [reflexivity|piece]. }
        destruct E1' as (t1 & -> & H1). cbn [bind]. eexists. split; [reflexivity|piece]. }
    destruct (hprint_elems (hprint find k) _ _ _ _) as [[a ha]| |] eqn:E1; try discriminate. cbn [bind] in E. apply ret_pair in E as [<- <-].
    apply K in E1 as (t & -> & Ht). cbn [bind]. eexists. split; [reflexivity|piece].
  - destruct (hprint find k i n) as [[a ha]| |] eqn:E1; try discriminate. cbn [bind] in E. apply ret_pair in E as [<- <-].
    apply IHn in E1 as (t & -> & H). cbn [bind]. eexists. split; [reflexivity|piece].
  - destruct (hprint find k i n2) as [[a ha]| |] eqn:E1; try discriminate. cbn [bind] in E.
    destruct (hprint find k i n1) as [[b hb]| |] eqn:E2; try discriminate. cbn [bind] in E.
    destruct (match n3 with NNull => Ret ([], false) | _ => do (e, he) <- hprint find k i n3; Ret ($" else " ++ e, he) end) as [[e he]| |] eqn:E3; try discriminate.
    cbn [bind] in E. apply ret_pair in E as [<- <-]. apply IHn2 in E1 as (t1 & -> & H1). apply IHn1 in E2 as (t2 & -> & H2). cbn [bind].
    assert (K : exists t, (match n3 with NNull => Ret [] | _ => do e <- print i n3; Ret ($" else " ++ e) end) = Ret t /\ shows e t).
    { destruct n3; try (apply ret_pair in E3 as [<- <-]; eexists; split; [reflexivity|piece]; fail);
        match goal with E3 : bind ?x _ = _ |- _ => destruct x as [[e' h']| |] eqn:E4; try discriminate E3 end; cbn [bind] in E3; apply ret_pair in E3 as [<- <-];
        apply IHn3 in E4 as (t & -> & H3); cbn [bind]; eexists; (split; [reflexivity|]); piece. }
    destruct K as (t3 & K3 & H3). rewrite K3. cbn [bind]. eexists. split; [reflexivity|piece].
  - destruct (hprint find k i n1) as [[a ha]| |] eqn:E1; try discriminate. cbn [bind] in E.
    destruct (hprint find k i n2) as [[b hb]| |] eqn:E2; try discriminate. cbn [bind] in E. apply ret_pair in E as [<- <-].
    apply IHn1 in E1 as (t1 & -> & H1). apply IHn2 in E2 as (t2 & -> & H2). cbn [bind]. eexists. split; [reflexivity|].
    apply shows_colored; [cbn; auto 10|]. apply shows_app; [exact H1|]. apply shows_colored; [cbn; auto 10|piece].
  - destruct n1; try discriminate. destruct (maybe_highlight find k (v_text v)) as [[a ha]| |] eqn:M; try discriminate. cbn [bind] in E.
    destruct (hprint find k i n2) as [[b hb]| |] eqn:E2; try discriminate. cbn [bind] in E. apply ret_pair in E as [<- <-].
    apply maybe_shows in M; auto. apply IHn2 in E2 as (t2 & -> & H2). cbn [bind]. eexists. split; [reflexivity|].
    apply shows_colored; [cbn; auto 10|]. apply shows_app; [exact M|]. apply shows_colored; [cbn; auto 10|piece].
Qed.
Lemma shows_visible o t : shows o t -> ~ In ESC t -> visible o = t.
Proof. intros H N. specialize (H N []). rewrite !app_nil_r in H. exact H. Qed.

Lemma highlight_flag k find fuel s o h : highlight_loop k find fuel s = Ret (o, h) -> h = matches find s.
Proof.
  destruct fuel as [|fuel]; cbn [highlight_loop]; unfold find_mark, matches; destruct (find s) as [[[i l] c]|]; cbn [option_map]; try discriminate;
    try (intros E; injection E as <- <-; reflexivity).
  destruct (highlight_loop k find fuel _) as [[r hr]| |]; try discriminate. cbn [bind]. intros E. injection E. auto.
Qed.
Lemma maybe_flag find k s o h : maybe_highlight find k s = Ret (o, h) -> h = grep_result find s.
Proof. destruct find as [find|]; unfold maybe_highlight; [apply highlight_flag|]. intros E. injection E. auto. Qed.
Ltac unbind E := repeat match type of E with
  | bind ?x _ = Ret _ => let E' := fresh "E" in destruct x as [[? ?]| |] eqn:E'; try discriminate E; cbn [bind] in E
  end; apply ret_pair in E as [? <-].
Theorem hprint_flag find k : forall n i o h, hprint find k i n = Ret (o, h) -> h = any_word find n.
Proof.
  unfold any_word. induction n using node_ind'; intros i o h E; cbn [hprint words] in *; rewrite ?existsb_app; cbn [existsb]; rewrite ?orb_false_r.
  - apply ret_pair in E as [_ <-]. reflexivity.
  - unfold hprint_string in E. unbind E. eapply maybe_flag; eauto.
  - apply ret_pair in E as [_ <-]. reflexivity.
  - eapply maybe_flag; eauto.
  - unbind E. eauto.
  - unbind E. f_equal; eauto.
  - unbind E. match goal with E' : hprint_elems _ ?j ?ml ?first _ = _ |- _ => revert E'; generalize j ml first end. clear o H0. revert s b.
    induction elems as [|x l IHl]; intros o h j ml first E; cbn [hprint_elems flat_map] in *; [apply ret_pair in E as [_ <-]; reflexivity|].
    inversion H as [|? ? Hx Hl]; subst. unbind E. rewrite existsb_app. f_equal; [|eapply IHl; eauto].
    destruct x; try (eapply Hx; eauto; fail). injection E0 as <- <-. reflexivity.
  - unbind E. eauto.
  - unbind E. rewrite <- (IHn2 _ _ _ E0), <- (IHn1 _ _ _ E1).
    assert (X : b1 = existsb (grep_result find) (words n3)).
    { destruct n3; try (unbind E2; eapply IHn3; eauto; fail). injection E2 as <- <-. reflexivity. }
    subst. destruct b, b0; reflexivity.
  - unbind E. f_equal; eauto.
  - destruct n1; try discriminate. unbind E. cbn [words existsb]. rewrite orb_false_r. f_equal; [eapply maybe_flag|]; eauto.
Qed.

(** * Rules *)
Lemma rule_target_eq p r : (if is_nil (v_text (q_name r)) then None else qualified_target p (v_text (q_name r))) = rule_target p r.
Proof. unfold rule_target. destruct (v_text (q_name r)) as [|c s]; [reflexivity|]. cbn [is_nil qualified_target]. destruct (ceqb c ":"); reflexivity. Qed.
Lemma visibility_words_spec l : forall s, visibility_words l = Ret s -> s = flat_map (fun s => $" " ++ s) (flat_map scalar_text l).
Proof.
  induction l as [|n l IH]; intros s E; cbn [visibility_words] in E; [injection E as <-; reflexivity|].
  destruct (cast_scalar n) as [c| |] eqn:C; try discriminate. cbn [bind] in E. destruct (visibility_words l) as [r| |]; try discriminate. cbn [bind] in E.
  specialize (IH r eq_refl). change (flat_map scalar_text (n :: l)) with (scalar_text n ++ flat_map scalar_text l). rewrite flat_map_app. unfold str in *. rewrite <- IH.
  destruct n; try discriminate; injection C as <-; injection E as <-; cbn [scalar_text flat_map app]; rewrite ?app_nil_r; reflexivity.
Qed.
Lemma visibility_spec vis s : print_visibility vis = Ret s -> s = visibility_note vis.
Proof.
  destruct vis as [l|]; cbn [print_visibility]; [|intros E; injection E; auto]. destruct (visibility_words l) as [w| |] eqn:W; try discriminate.
  cbn [bind]. intros E. injection E as <-. apply visibility_words_spec in W. subst. reflexivity.
Qed.
Definition wanted_by (find : option finder_fn) (r : result) : bool := match find with Some find => grepped find (q_node r) | None => true end.
Lemma any_grepped find n : any_word (Some find) n = grepped find n.
Proof. reflexivity. Qed.

Lemma print_rule_spec find p f r text any : usable_grep find -> plain_lines (pf_content f) ->
  print_rule find false f (rule_target p r) r = Ret (text, any) -> shown_rule p f r text /\ any = any_word find (q_node r).
Proof.
  intros U P E. unfold print_rule in E. destruct (q_node r) as [| | | | | | | | | |id args] eqn:N; try discriminate. destruct id as [| | |id| | | | | | |]; try discriminate.
  destruct (loc f id) as [l| |] eqn:L; try discriminate. cbn [bind] in E.
  destruct (print_visibility (q_visibility r)) as [v| |] eqn:V; try discriminate. cbn [bind] in E. apply visibility_spec in V. subst v.
  destruct (hprint find false 0 (NCall (NId id) args)) as [[t h]| |] eqn:H; try discriminate. cbn [bind] in E. apply ret_pair in E as [<- <-].
  rewrite hprint_plain in H by auto. destruct (print 0 (NCall (NId id) args)) as [t'| |] eqn:T; try discriminate. cbn [bind] in H. apply ret_pair in H as [<- <-].
  split; [|reflexivity]. exists id, args, l, t'. rewrite N. split; [reflexivity|]. split; [apply loc_spec; auto|]. split; [exact T|]. cbn [app]. reflexivity.
Qed.
Lemma print_rules_spec find pt p f : usable_grep find -> plain_lines (pf_content f) -> forall rs s, print_rules find false pt p f rs = Ret s ->
  exists rules, Forall2 (shown_rule p f) (filter (fun r => selected pt p r && wanted_by find r) rs) rules /\ s = concat rules.
Proof.
  intros U P. induction rs as [|r rs IH]; intros s E; cbn [print_rules] in E.
  - injection E as <-. exists []. split; [constructor|reflexivity].
  - rewrite rule_target_eq in E. cbn [filter].
    assert (X : negb (is_recursive pt) && match rule_target p r with Some t => negb (match_target pt t) | None => true end = negb (selected pt p r)).
    { unfold selected. destruct (is_recursive pt), (rule_target p r) as [t|]; try reflexivity. }
    rewrite X in E. destruct (selected pt p r) eqn:Se; cbn [negb andb] in *; [|auto].
    destruct (print_rule find false f (rule_target p r) r) as [[text any]| |] eqn:R; try discriminate. cbn [bind] in E.
    destruct (print_rules find false pt p f rs) as [rest| |]; try discriminate. cbn [bind] in E. injection E as <-.
    destruct (IH rest eq_refl) as (rules & F & ->). apply print_rule_spec in R as [R ->]; auto.
    destruct find as [find|]; cbn [wanted_by] in *.
    + rewrite any_grepped. destruct (grepped find (q_node r)); [|eauto]. exists (text :: rules). split; [constructor; auto|reflexivity].
    + exists (text :: rules). split; [constructor; auto|reflexivity].
Qed.
Theorem print_files_spec find only_errors pt files : usable_grep find -> (forall p f, In (p, f) files -> plain_lines (pf_content f)) ->
  forall s, print_files find false only_errors pt files = Ret s -> shown_rules (wanted_by find) only_errors pt files s.
Proof.
  intros U. induction files as [|[p f] files IH]; intros P s E; cbn [print_files] in E; [injection E as <-; constructor|].
  assert (P' : forall q g, In (q, g) files -> plain_lines (pf_content g)) by (intros q g I; apply (P q g); right; auto).
  destruct ((only_errors && is_nil (pf_errors f)) || negb (match_package pt p)) eqn:Sk.
  - apply file_not_shown; [|auto]. apply orb_true_iff in Sk as [Sk|Sk].
    + left. apply andb_true_iff in Sk as [A B]. split; auto. destruct (pf_errors f); [reflexivity|discriminate].
    + right. apply negb_true_iff in Sk. exact Sk.
  - apply orb_false_iff in Sk as [A B]. apply negb_false_iff in B.
    destruct (find_targets_allow_empty [] (pf_ast f)) as [rs| |] eqn:F; try discriminate. cbn [bind] in E.
    destruct (print_rules find false pt p f rs) as [a| |] eqn:R; try discriminate. cbn [bind] in E.
    destruct (print_files find false only_errors pt files) as [b| |]; try discriminate. cbn [bind] in E. injection E as <-.
    apply print_rules_spec in R as (rules & R & ->); [|auto|apply (P p f); left; reflexivity].
    eapply file_shown; eauto. intros -> N. rewrite N in A. discriminate.
Qed.

(** Colours make no difference to what is seen. *)
Lemma print_rule_shows find f t r o any : usable_grep find -> print_rule find true f t r = Ret (o, any) ->
  exists text, print_rule find false f t r = Ret (text, any) /\ shows o text.
Proof.
  intros U E. unfold print_rule in *. destruct (q_node r) as [| | | | | | | | | |id args] eqn:N; try discriminate. destruct id as [| | |id| | | | | | |]; try discriminate.
  destruct (loc f id) as [l| |] eqn:L; try discriminate. cbn [bind] in *.
  destruct (print_visibility (q_visibility r)) as [v| |] eqn:V; try discriminate. cbn [bind] in *.
  destruct (hprint find true 0 (NCall (NId id) args)) as [[h fl]| |] eqn:H; try discriminate. cbn [bind] in E. apply ret_pair in E as [<- <-].
  pose proof (hprint_flag _ _ _ _ _ _ H) as ->. apply hprint_shows in H as (tx & T & H); auto.
  rewrite hprint_plain, T by auto. cbn [bind]. eexists. split; [reflexivity|].
  apply shows_color; [cbn; auto 10|]. apply (shows_app ($"# ") ($"# ")); [apply shows_text|].
  repeat (apply shows_app; [apply shows_text|]). apply (shows_app color_reset []); [|piece].
  replace color_reset with (color_reset ++ []) by apply app_nil_r. apply shows_color; [cbn; auto 10|apply shows_text].
Qed.
Theorem print_files_shows find only_errors pt files : usable_grep find -> forall o, print_files find true only_errors pt files = Ret o ->
  exists s, print_files find false only_errors pt files = Ret s /\ shows o s.
Proof.
  intros U. induction files as [|[p f] files IH]; intros o E; cbn [print_files] in *; [injection E as <-; exists []; split; [reflexivity|apply shows_text]|].
  destruct ((only_errors && is_nil (pf_errors f)) || negb (match_package pt p)); [auto|].
  destruct (find_targets_allow_empty [] (pf_ast f)) as [rs| |] eqn:F; try discriminate. cbn [bind] in *.
  destruct (print_rules find true pt p f rs) as [a| |] eqn:R; try discriminate. cbn [bind] in E.
  destruct (print_files find true only_errors pt files) as [b| |]; try discriminate. cbn [bind] in E. injection E as <-.
  destruct (IH b eq_refl) as (s & -> & H).
  assert (K : exists a', print_rules find false pt p f rs = Ret a' /\ shows a a').
  { clear F. revert a R. induction rs as [|r rs IHr]; intros a R; cbn [print_rules] in *; [injection R as <-; exists []; split; [reflexivity|apply shows_text]|].
    destruct (negb _ && _); [auto|].
    match type of R with bind ?x _ = _ => destruct x as [[text any]| |] eqn:R1; try discriminate R end. cbn [bind] in R.
    destruct (print_rules find true pt p f rs) as [rest| |]; try discriminate. cbn [bind] in R. injection R as <-.
    apply print_rule_shows in R1 as (t1 & -> & H1); auto. cbn [bind]. destruct (IHr rest eq_refl) as (r1 & -> & H2). cbn [bind].
    eexists. split; [reflexivity|]. apply shows_app; auto. destruct find; auto. destruct any; auto. apply shows_text. }
  destruct K as (a' & -> & Ha). cbn [bind]. eexists. split; [reflexivity|]. apply shows_app; auto.
Qed.
