(** Proofs about edit scripts and canonicalization. *)
From Verif Require Import Base OMap M_Types M_Scanner M_Ast M_Query M_Project M_Dwyu M_Edits S_Labels S_Shell P_Types.

(** * The script *)
Notation step := (fold_left shell_step).
Lemma step_none s : step s None = None.
Proof. induction s; auto. Qed.
Lemma step_quoted s : forall d ws w, ~ In SQ s ->
  step s (Some (mkShell d ws (Some w) true)) = Some (mkShell d ws (Some (w ++ s)) true).
Proof.
  induction s as [|c s IH]; intros d ws w H; cbn [fold_left].
  - now rewrite app_nil_r.
  - cbn [shell_step sh_quote]. destruct (ceqb_spec c SQ); [subst; exfalso; apply H; now left|].
    unfold add_char. cbn. rewrite IH by (intros K; apply H; now right). now rewrite <- app_assoc.
Qed.
Lemma step_plain s : forall d ws w, forallb plain_char s = true ->
  step s (Some (mkShell d ws (Some w) false)) = Some (mkShell d ws (Some (w ++ s)) false).
Proof.
  induction s as [|c s IH]; intros d ws w H; cbn [fold_left].
  - now rewrite app_nil_r.
  - cbn [forallb] in H. apply andb_prop in H. destruct H as [H1 H2].
    assert (K : shell_step (Some (mkShell d ws (Some w) false)) c = Some (mkShell d ws (Some (w ++ [c])) false)).
    { cbn [shell_step sh_quote]. rewrite H1.
      destruct (ceqb_spec c SQ); [subst; discriminate|]. destruct (ceqb_spec c " "); [subst; discriminate|].
      destruct (ceqb_spec c NL); [subst; discriminate|]. destruct (ceqb_spec c ";"); [subst; discriminate|]. reflexivity. }
    rewrite K, IH by auto. now rewrite <- app_assoc.
Qed.
Lemma step_plain_word s d ws : s <> [] -> forallb plain_char s = true ->
  step s (Some (mkShell d ws None false)) = Some (mkShell d ws (Some s) false).
Proof.
  destruct s as [|c s]; [congruence|]. intros _ H. cbn [forallb] in H. apply andb_prop in H. destruct H as [H1 H2].
  cbn [fold_left].
  assert (K : shell_step (Some (mkShell d ws None false)) c = Some (mkShell d ws (Some [c]) false)).
  { cbn [shell_step sh_quote]. rewrite H1.
    destruct (ceqb_spec c SQ); [subst; discriminate|]. destruct (ceqb_spec c " "); [subst; discriminate|].
    destruct (ceqb_spec c NL); [subst; discriminate|]. destruct (ceqb_spec c ";"); [subst; discriminate|]. reflexivity. }
  rewrite K. now apply (step_plain s d ws [c]).
Qed.

(** The command that buildozer gets. *)
Definition edit_command (e : edit) : str :=
  match e_request e with
  | KRemove => $"remove deps " ++ e_before e
  | KAdd => $"add deps " ++ e_after e
  | KRename => $"replace deps " ++ e_before e ++ $" " ++ e_after e
  end.
Definition edit_safe (e : edit) : Prop :=
  ~ In SQ (e_before e) /\ ~ In SQ (e_after e) /\
  target_to_string (e_target e) <> [] /\ forallb plain_char (target_to_string (e_target e)) = true.
Lemma line_shape e : buildozer_line e = $"buildozer '" ++ edit_command e ++ $"' " ++ target_to_string (e_target e) ++ [NL].
Proof. unfold buildozer_line, edit_command. destruct (e_request e); cbn; rewrite <- ?app_assoc; reflexivity. Qed.
Lemma command_no_quote e : edit_safe e -> ~ In SQ (edit_command e).
Proof.
  intros (H1 & H2 & _). unfold edit_command. destruct (e_request e); rewrite ?in_app_iff; cbn; intuition discriminate.
Qed.
Lemma line_step e d : edit_safe e ->
  step (buildozer_line e) (Some (mkShell d [] None false))
  = Some (mkShell (d ++ [[$"buildozer"; edit_command e; target_to_string (e_target e)]]) [] None false).
Proof.
  intros H. assert (Hc := command_no_quote e H). destruct H as (_ & _ & Hn & Ht).
  rewrite line_shape, !fold_left_app.
  change (step ($"buildozer '") (Some (mkShell d [] None false))) with (Some (mkShell d [$"buildozer"] (Some []) true)).
  rewrite step_quoted by auto.
  change (step ($"' ") (Some (mkShell d [$"buildozer"] (Some ([] ++ edit_command e)) true)))
    with (Some (mkShell d ([$"buildozer"] ++ [edit_command e]) None false)).
  rewrite step_plain_word by auto. reflexivity.
Qed.
Lemma script_step edits : forall d, (forall e, In e edits -> edit_safe e) ->
  step (buildozer_script edits) (Some (mkShell d [] None false))
  = Some (mkShell (d ++ map (fun e => [$"buildozer"; edit_command e; target_to_string (e_target e)]) edits) [] None false).
Proof.
  induction edits as [|e edits IH]; intros d H; cbn [buildozer_script flat_map map].
  - cbn. now rewrite app_nil_r.
  - rewrite fold_left_app, line_step by (apply H; now left). fold (buildozer_script edits).
    rewrite IH by (intros x Hx; apply H; now right). rewrite <- app_assoc. reflexivity.
Qed.
Lemma script_commands edits : (forall e, In e edits -> edit_safe e) ->
  shell_commands (buildozer_script edits)
  = Some (map (fun e => [$"buildozer"; edit_command e; target_to_string (e_target e)]) edits).
Proof. intros H. unfold shell_commands. rewrite script_step by auto. reflexivity. Qed.
(** buildozer splits its command at blanks. *)
Lemma split_no_blank s : ~ In " "%char s -> split " " s = [s].
Proof.
  induction s as [|x s IH]; intros H; cbn [split]; [reflexivity|].
  destruct (ceqb_spec x " "); [subst; exfalso; apply H; now left|].
  rewrite IH by (intros K; apply H; now right). reflexivity.
Qed.
Lemma split_blank s r : ~ In " "%char s -> split " " (s ++ " "%char :: r) = s :: split " " r.
Proof.
  induction s as [|x s IH]; intros H; cbn [app split].
  - now rewrite ceqb_refl.
  - destruct (ceqb_spec x " "); [subst; exfalso; apply H; now left|].
    rewrite IH by (intros K; apply H; now right). reflexivity.
Qed.
Lemma command_words e : ~ In " "%char (e_before e) -> ~ In " "%char (e_after e) ->
  split " " (edit_command e) =
  match e_request e with
  | KRemove => [$"remove"; $"deps"; e_before e]
  | KAdd => [$"add"; $"deps"; e_after e]
  | KRename => [$"replace"; $"deps"; e_before e; e_after e]
  end.
Proof.
  intros H1 H2. unfold edit_command. destruct (e_request e).
  - change ($"remove deps " ++ e_before e) with ($"remove" ++ " "%char :: $"deps" ++ " "%char :: e_before e).
    rewrite !split_blank, split_no_blank by (auto; cbn; intuition discriminate). reflexivity.
  - change ($"add deps " ++ e_after e) with ($"add" ++ " "%char :: $"deps" ++ " "%char :: e_after e).
    rewrite !split_blank, split_no_blank by (auto; cbn; intuition discriminate). reflexivity.
  - change ($"replace deps " ++ e_before e ++ $" " ++ e_after e)
      with ($"replace" ++ " "%char :: $"deps" ++ " "%char :: e_before e ++ " "%char :: e_after e).
    rewrite !split_blank, split_no_blank by (auto; cbn; intuition discriminate). reflexivity.
Qed.

(** * Canonicalization *)
Lemma canon_dep_edit p self dep e : In (CanonEdit e) (canon_dep p self dep) <->
  exists t, parse_target dep p = Some t /\ dep <> target_to_string_rel t p /\
            e = mkEdit KRename self dep (target_to_string_rel t p).
Proof.
  unfold canon_dep. destruct (parse_target dep p) as [t|].
  - destruct (str_eqb dep (target_to_string_rel t p)) eqn:E; cbn [negb].
    + apply str_eqb_eq in E. split; [intros []|]. intros (u & Hu & Hn & _). injection Hu as <-. congruence.
    + split.
      * intros [H|[]]. injection H as <-. exists t. split; auto. split; auto. intros K. apply str_eqb_eq in K. congruence.
      * intros (u & Hu & _ & ->). injection Hu as <-. now left.
  - split; [intros [H|[]]; discriminate|]. intros (u & Hu & _). discriminate.
Qed.
Lemma canon_dep_invalid p self dep l : In (CanonInvalid l) (canon_dep p self dep) <-> l = dep /\ parse_target dep p = None.
Proof.
  unfold canon_dep. destruct (parse_target dep p) as [t|].
  - destruct (negb _); cbn; intuition discriminate.
  - cbn. split; [intros [H|[]]; injection H as <-; auto|]. intros [-> _]. auto.
Qed.
Lemma canon_rules_spec pt p rs : forall evs, canon_rules pt p rs = Ret evs -> forall e,
  In e evs <-> exists r self deps d, In r rs /\ qualified_target p (v_text (q_name r)) = Some self /\
    match_target pt self = true /\ extract_string_list (q_deps r) = Ret deps /\ In d deps /\
    In e (canon_dep p self (v_text d)).
Proof.
  induction rs as [|r rs IH]; intros evs H e; cbn [canon_rules] in H.
  - injection H as <-. split; [intros []|]. intros (r & _ & _ & _ & [] & _).
  - assert (Skip : forall evs, canon_rules pt p rs = Ret evs ->
      (forall self, qualified_target p (v_text (q_name r)) = Some self -> match_target pt self = true -> False) ->
      (In e evs <-> exists r0 self deps d, In r0 (r :: rs) /\ qualified_target p (v_text (q_name r0)) = Some self /\
    match_target pt self = true /\ extract_string_list (q_deps r0) = Ret deps /\ In d deps /\
    In e (canon_dep p self (v_text d)))).
    { intros evs' H' No. rewrite (IH _ H'). split; intros (r0 & self & deps & d & Hr & H1 & H2 & K).
      - exists r0, self, deps, d. split; [now right|auto].
      - destruct Hr as [<-|Hr]; [exfalso; eauto|]. exists r0, self, deps, d. auto. }
    destruct (qualified_target p (v_text (q_name r))) as [self|] eqn:Eq.
    2:{ apply Skip; auto. intros s Hs. congruence. }
    destruct (match_target pt self) eqn:Em.
    2:{ apply Skip; auto. intros s Hs. injection Hs as <-. congruence. }
    destruct (extract_string_list (q_deps r)) as [deps| |] eqn:Ed; try discriminate. cbn [bind] in H.
    destruct (canon_rules pt p rs) as [evs2| |] eqn:E2; try discriminate. cbn [bind] in H. injection H as <-.
    rewrite in_app_iff, (IH _ eq_refl), in_flat_map. split.
    + intros [(x & Hx & He)|(r0 & self0 & deps0 & d & Hr & K)].
      * apply in_map_iff in Hx. destruct Hx as (d & <- & Hd). exists r, self, deps, d. split; [now left|auto 10].
      * exists r0, self0, deps0, d. split; [now right|auto].
    + intros (r0 & self0 & deps0 & d & [<-|Hr] & H1 & H2 & H3 & H4 & H5).
      * left. rewrite Eq in H1. injection H1 as <-. rewrite Ed in H3. injection H3 as <-. exists (v_text d). split; auto. now apply in_map.
      * right. exists r0, self0, deps0, d. auto 10.
Qed.
Lemma qualified_package p name t : qualified_target p name = Some t -> tpackage t = p.
Proof.
  unfold qualified_target. intros H. destruct name as [|c r]; [discriminate|].
  repeat match type of H with context [if ?b then _ else _] => destruct b end; try discriminate; injection H as <-; reflexivity.
Qed.
Lemma canon_files_spec pt files : forall evs, canon_files pt files = Ret evs -> forall e,
  In e evs <-> exists key f rs r self deps d, In (key, f) files /\ find_targets [] (pf_ast f) = Ret rs /\ In r rs /\
    qualified_target (pf_package f) (v_text (q_name r)) = Some self /\
    match_target pt self = true /\ extract_string_list (q_deps r) = Ret deps /\ In d deps /\
    In e (canon_dep (pf_package f) self (v_text d)).
Proof.
  induction files as [|[k f] files IH]; intros evs H e; cbn [canon_files] in H.
  - injection H as <-. split; [intros []|]. intros (? & ? & ? & ? & ? & ? & ? & [] & _).
  - destruct (match_package pt (pf_package f)) eqn:Em.
    + destruct (find_targets [] (pf_ast f)) as [rs| |] eqn:Er; try discriminate. cbn [bind] in H.
      destruct (canon_rules pt (pf_package f) rs) as [e1| |] eqn:E1; try discriminate. cbn [bind] in H.
      destruct (canon_files pt files) as [e2| |] eqn:E2; try discriminate. cbn [bind] in H. injection H as <-.
      rewrite in_app_iff, (canon_rules_spec _ _ _ _ E1), (IH _ eq_refl). split.
      * intros [(r & self & deps & d & K)|(key & g & rs0 & r & self & deps & d & Hf & K)].
        -- exists k, f, rs, r, self, deps, d. destruct K as (A & B & C & D & E & F).
           split; [now left|]. auto 10.
        -- exists key, g, rs0, r, self, deps, d. split; [now right|auto].
      * intros (key & g & rs0 & r & self & deps & d & [Hf|Hf] & H1 & H2 & K).
        -- injection Hf as <- <-. left. rewrite Er in H1. injection H1 as <-. exists r, self, deps, d. auto.
        -- right. exists key, g, rs0, r, self, deps, d. auto.
    + rewrite (IH _ H). split; intros (key & g & rs0 & r & self & deps & d & Hf & H1 & H2 & H3 & H4 & K).
      * exists key, g, rs0, r, self, deps, d. split; [now right|auto].
      * destruct Hf as [Hf|Hf].
        -- injection Hf as <- <-. exfalso. apply qualified_package in H3. apply match_package_filter in H4. congruence.
        -- exists key, g, rs0, r, self, deps, d. auto 10.
Qed.
(** A second run: [after] is canonical. *)
Lemma canon_idempotent p self dep t e :
  wf_project (project p) -> parse_target dep p = Some t -> project (tpackage t) <> $"@" -> target_to_string_rel t p <> [] ->
  ~ In (CanonEdit e) (canon_dep p self (target_to_string_rel t p)).
Proof.
  intros H1 H2 H3 H4 K. apply canon_dep_edit in K. destruct K as (u & Hu & Hn & _).
  rewrite (canonical_same_target dep p t) in Hu by auto. injection Hu as <-. congruence.
Qed.
(** The edits of one rule, of one file, and of all files, in this order. *)
Definition rule_events (pt : pattern) (p : package) (r : result) (evs : list canon_event) : Prop :=
  (exists self deps, qualified_target p (v_text (q_name r)) = Some self /\ match_target pt self = true /\
     extract_string_list (q_deps r) = Ret deps /\ evs = flat_map (canon_dep p self) (map v_text deps)) \/
  ((forall self, qualified_target p (v_text (q_name r)) = Some self -> match_target pt self = false) /\ evs = []).
Definition file_events (pt : pattern) (kf : package * parsed_file) (evs : list canon_event) : Prop :=
  let f := snd kf in
  (exists rs per_rule, find_targets [] (pf_ast f) = Ret rs /\
     Forall2 (rule_events pt (pf_package f)) rs per_rule /\ evs = concat per_rule) \/
  (match_package pt (pf_package f) = false /\ evs = []).
Lemma canon_rules_order pt p rs : forall evs, canon_rules pt p rs = Ret evs ->
  exists per_rule, Forall2 (rule_events pt p) rs per_rule /\ evs = concat per_rule.
Proof.
  induction rs as [|r rs IH]; intros evs H; cbn [canon_rules] in H.
  - injection H as <-. exists []. split; [constructor|reflexivity].
  - assert (Skip : forall evs, canon_rules pt p rs = Ret evs ->
      (forall self, qualified_target p (v_text (q_name r)) = Some self -> match_target pt self = false) ->
      exists per_rule, Forall2 (rule_events pt p) (r :: rs) per_rule /\ evs = concat per_rule).
    { intros evs' H' No. destruct (IH _ H') as (per & F & ->). exists ([] :: per). split; [|reflexivity].
      constructor; auto. right. auto. }
    destruct (qualified_target p (v_text (q_name r))) as [self|] eqn:Eq.
    2:{ apply Skip; auto. intros s Hs. congruence. }
    destruct (match_target pt self) eqn:Em.
    2:{ apply Skip; auto. intros s Hs. injection Hs as <-. congruence. }
    destruct (extract_string_list (q_deps r)) as [deps| |] eqn:Ed; try discriminate. cbn [bind] in H.
    destruct (canon_rules pt p rs) as [evs2| |] eqn:E2; try discriminate. cbn [bind] in H. injection H as <-.
    destruct (IH _ eq_refl) as (per & F & ->). eexists (_ :: per). split; [|reflexivity].
    constructor; auto. left. exists self, deps. auto.
Qed.
Lemma canon_files_order pt files : forall evs, canon_files pt files = Ret evs ->
  exists per_file, Forall2 (file_events pt) files per_file /\ evs = concat per_file.
Proof.
  induction files as [|[k f] files IH]; intros evs H; cbn [canon_files] in H.
  - injection H as <-. exists []. split; [constructor|reflexivity].
  - destruct (match_package pt (pf_package f)) eqn:Em.
    + destruct (find_targets [] (pf_ast f)) as [rs| |] eqn:Er; try discriminate. cbn [bind] in H.
      destruct (canon_rules pt (pf_package f) rs) as [e1| |] eqn:E1; try discriminate. cbn [bind] in H.
      destruct (canon_files pt files) as [e2| |] eqn:E2; try discriminate. cbn [bind] in H. injection H as <-.
      destruct (IH _ eq_refl) as (per & F & ->). exists (e1 :: per). split; [|reflexivity].
      constructor; auto. left. destruct (canon_rules_order _ _ _ _ E1) as (pr & Fr & ->). exists rs, pr. auto.
    + destruct (IH _ H) as (per & F & ->). exists ([] :: per). split; [|reflexivity]. constructor; auto. now right.
Qed.
