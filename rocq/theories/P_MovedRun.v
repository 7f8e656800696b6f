(** Proofs for C94: runs over files in which the rules are in another order. *)
From Coq Require Import ZArith Lia Permutation.
From Verif Require Import Base OMap M_Types M_Scanner M_Ast M_Parser P_Parser M_Query M_Elab S_Elab M_Workspace M_Project P_Project M_DepGraph S_DepGraph P_DepGraph
  M_Commands P_Commands S_Run P_Run P_Order S_Layout S_Attributes P_Attributes S_Moved P_Moved.

(** * The same dependencies *)
Definition contents_equal (content content' : str -> option str) : Prop := forall f,
  match content f, content' f with Some c, Some c' => texts_equal c c' | None, None => True | _, _ => False end.
Lemma contents_sym c c' : contents_equal c c' -> contents_equal c' c.
Proof. intros E f. specialize (E f). destruct (c f), (c' f); auto. apply texts_sym, E. Qed.
Definition files_equal (pr pr' : parsed_project) : Prop := forall p,
  match find_parsed pr p, find_parsed pr' p with Some f, Some f' => trees_equal (pf_ast f) (pf_ast f') | None, None => True | _, _ => False end.
Lemma files_sym pr pr' : files_equal pr pr' -> files_equal pr' pr.
Proof. intros E p. specialize (E p). destruct (find_parsed pr p), (find_parsed pr' p); auto. apply trees_sym, E. Qed.
Lemma holds_equal w glob_in names proj eval content content' pr pr' : contents_equal content content' ->
  holds_files w content glob_in names proj eval pr -> holds_files w content' glob_in names proj eval pr' -> files_equal pr pr'.
Proof.
  intros C H H'. assert (HALF : forall content content' pr pr', contents_equal content content' -> holds_files w content glob_in names proj eval pr -> holds_files w content' glob_in names proj eval pr' ->
    forall p f, find_parsed pr p = Some f -> exists f', find_parsed pr' p = Some f' /\ trees_equal (pf_ast f) (pf_ast f')).
  { clear. intros content content' pr pr' C [S K] [S' K'] p f F. unfold find_parsed in *. apply map_find_in in F. apply K in F as (n & c & st & er & ast & FF & PA & EL & ->).
    destruct FF as (a & b & E & PK & R & FI). pose proof (C n) as X. rewrite R in X. destruct (content' n) as [c'|] eqn:R'; [|destruct X]. unfold texts_equal in X. rewrite PA in X.
    destruct (parse c') as [[st' er']| |] eqn:PA'; try contradiction X. destruct X as [T TE]. cbn [fst] in T, TE.
    assert (X : exists ast', (if eval then elaborate (glob_in p) st' = Ret ast' else ast' = st') /\ trees_equal ast ast').
    { destruct eval; [|subst; eauto]. specialize (TE (glob_in p)). rewrite EL in TE. destruct (elaborate (glob_in p) st') as [ast'| |]; try contradiction TE. exists ast'. split; [reflexivity|exact TE]. }
    destruct X as (ast' & EL' & T'). exists (mkFile p n c' ast' er'). split; [|exact T']. apply msorted_find; [exact S'|]. apply K'. exists n, c', st', er', ast'. repeat split; auto.
    exists a, b. repeat split; auto. intros x I PX. specialize (FI x I PX). specialize (C x). rewrite FI in C. destruct (content' x); [destruct C|reflexivity]. }
  intros p. destruct (find_parsed pr p) as [f|] eqn:F, (find_parsed pr' p) as [f'|] eqn:F'; auto.
  - destruct (HALF _ _ _ _ C H H' _ _ F) as (g & G & T). rewrite F' in G. injection G as ->. exact T.
  - destruct (HALF _ _ _ _ C H H' _ _ F) as (g & G & _). congruence.
  - destruct (HALF _ _ _ _ (contents_sym _ _ C) H' H _ _ F') as (g & G & _). congruence.
Qed.
Section Worlds.
Variable w : workspace.
Variables content content' : str -> option str.
Variable can_read : str -> bool.
Variable glob_in : package -> list str -> list str -> list str.
Variables pr pr' : parsed_project.
Hypothesis C : contents_equal content content'.
Hypothesis Q : files_equal pr pr'.
Lemma dependencies_of t ds : dependencies w content can_read glob_in pr t ds <->
  exists f rs, file_of w content can_read glob_in pr (tpackage t) f /\ find_targets [] (pf_ast f) = Ret rs /\ offers (tpackage t) rs t ds.
Proof.
  split.
  - intros (r & (f & a & b & F & T & N & FI) & ->). exists f, (a ++ r :: b). split; [exact F|]. split; [exact T|]. exists r. split; [|reflexivity]. apply first_find. exists a, b. split; [reflexivity|].
    split; [apply called_iff, N|]. intros x I. destruct (called_so (tpackage t) t x) eqn:X; [|reflexivity]. exfalso. exact (FI x I (proj1 (called_iff _ _) X)).
  - intros (f & rs & F & T & r & O & ->). apply first_find in O as (a & b & -> & N & FI). exists r. split; [|reflexivity]. exists f, a, b. split; [exact F|]. split; [exact T|]. split; [apply called_iff, N|].
    intros x I X. apply called_iff in X. rewrite (FI x I) in X. discriminate X.
Qed.
Lemma file_moves p f : file_of w content can_read glob_in pr p f -> exists f', file_of w content' can_read glob_in pr' p f' /\ trees_equal (pf_ast f) (pf_ast f').
Proof.
  unfold file_of. intros F. pose proof (Q p) as X. destruct (find_parsed pr p) as [f0|], (find_parsed pr' p) as [f0'|]; try contradiction X.
  - subst f0. exists f0'. auto.
  - destruct F as (n & c & st & er & ast & PF & R & PA & EL & ->). specialize (C n). rewrite R in C. destruct (content' n) as [c'|] eqn:R'; [|destruct C]. unfold texts_equal in C. rewrite PA in C.
    destruct (parse c') as [[st' er']| |] eqn:PA'; try contradiction C. destruct C as [_ TE]. cbn [fst] in TE. specialize (TE (glob_in p)). rewrite EL in TE.
    destruct (elaborate (glob_in p) st') as [ast'| |] eqn:EL'; try contradiction TE. exists (mkFile p n c' ast' er'). split; [|exact TE]. exists n, c', st', er', ast'. auto 8.
Qed.
End Worlds.
Lemma dependencies_move w content content' can_read glob_in pr pr' t ds : contents_equal content content' -> files_equal pr pr' ->
  dependencies w content can_read glob_in pr t ds -> dependencies w content' can_read glob_in pr' t ds.
Proof.
  intros C Q D. apply dependencies_of in D as (f & rs & F & T & O). destruct (file_moves _ _ _ _ _ _ _ C Q _ _ F) as (f' & F' & E). unfold trees_equal in E. rewrite T in E.
  destruct (find_targets [] (pf_ast f')) as [rs'| |] eqn:T'; try contradiction E. apply dependencies_of. exists f', rs'. split; [exact F'|]. split; [exact T'|]. apply (proj1 E), O.
Qed.
Lemma matches_move pr pr' pt t : files_equal pr pr' -> matches_pattern pr pt t -> matches_pattern pr' pt t.
Proof.
  intros Q (M & f & rs & r & F & T & I & N). split; [exact M|]. pose proof (Q (tpackage t)) as X. rewrite F in X. destruct (find_parsed pr' (tpackage t)) as [f'|] eqn:F'; [|destruct X].
  unfold trees_equal in X. rewrite T in X. destruct (find_targets [] (pf_ast f')) as [rs'| |] eqn:T'; try contradiction X. cbn [orel] in X.
  assert (O : exists ds, offers (tpackage t) rs t ds).
  { destruct (find (called_so (tpackage t) t) rs) as [r0|] eqn:E; [exists (resolved (tpackage t) (mentioned r0)), r0; auto|]. apply called_iff in N. rewrite (find_none _ _ E r I) in N. discriminate N. }
  destruct O as (ds & O). apply (proj1 X) in O as (r' & O & _). apply find_some in O as [I' N']. exists f', rs', r'. repeat split; auto. apply called_iff, N'.
Qed.
Lemma reach_move w content content' can_read glob_in pr pr' pt j t : contents_equal content content' -> files_equal pr pr' ->
  reach w content can_read glob_in pr pt j t -> reach w content' can_read glob_in pr' pt j t.
Proof.
  intros C Q R. induction R as [t M|n s t _ IH (ds & D & I)]; [constructor; eapply matches_move; eassumption|]. econstructor; [exact IH|]. exists ds. split; [|exact I]. eapply dependencies_move; eassumption.
Qed.

(** * Success *)
Lemma set_todo p t labels : forall st, rd_todo (fold_left (add_dependency p t) labels st) = rd_todo st.
Proof. induction labels as [|l labels IH]; intros st; cbn [fold_left]; [reflexivity|]. rewrite IH. unfold add_dependency. destruct (parse_target l p); reflexivity. Qed.
Definition followed (p : package) (rs : list result) (todo : list target) : Prop :=
  forall t r, In t todo -> find (called_so p t) rs = Some r -> exists l, to_follow r = Ret l.
Lemma called_named p t r : called_so p t r = true <-> qualified_target p (v_text (q_name r)) = Some t.
Proof. unfold called_so. destruct (qualified_target _ _) as [t'|]; [|split; discriminate]. rewrite target_eqb_eq. split; congruence. Qed.
Lemma visit_rules_followed p rs : forall st, (exists st', visit_rules p rs st = Ret st') <-> followed p rs (rd_todo st).
Proof.
  induction rs as [|r rs IH]; intros st; cbn [visit_rules].
  { split; [intros _ t r _ E; discriminate E|eauto]. }
  unfold visit_rule. destruct (qualified_target p (v_text (q_name r))) as [t|] eqn:Q.
  - assert (CT : called_so p t r = true) by (apply called_named, Q). assert (CO : forall s, s <> t -> called_so p s r = false).
    { intros s N. destruct (called_so p s r) eqn:X; [|reflexivity]. apply called_named in X. congruence. }
    destruct (set_mem t (rd_todo st)) eqn:M; cbn [negb bind].
    + apply set_mem_in in M. destruct (to_follow r) as [l| |] eqn:T; cbn [bind].
      * rewrite IH, set_todo. cbn [rd_todo]. split; intros F s x I E.
        -- cbn [find] in E. destruct (called_so p s r) eqn:X; [injection E as <-; eauto|]. apply (F s); [|exact E]. apply set_erase_in. split; [exact I|]. intros ->. congruence.
        -- apply set_erase_in in I as [I N]. apply (F s); [exact I|]. cbn [find]. rewrite (CO _ N). exact E.
      * split; [intros (s & E); discriminate E|]. intros F. destruct (F t r M) as (l & E); [cbn [find]; rewrite CT; reflexivity|congruence].
      * split; [intros (s & E); discriminate E|]. intros F. destruct (F t r M) as (l & E); [cbn [find]; rewrite CT; reflexivity|congruence].
    + apply set_mem_false in M. rewrite IH. split; intros F s x I E; apply (F s); auto; cbn [find] in *; rewrite (CO s) in * by congruence; exact E.
  - cbn [bind]. rewrite IH. assert (C : forall s, called_so p s r = false) by (intros s; unfold called_so; rewrite Q; reflexivity).
    split; intros F s x I E; apply (F s); auto; cbn [find] in *; rewrite C in *; exact E.
Qed.
Lemma visit_rules_todo p rs : forall st st', visit_rules p rs st = Ret st' -> (forall t, In t (rd_todo st') -> In t (rd_todo st)) /\ (forall t, tpackage t <> p -> In t (rd_todo st) -> In t (rd_todo st')).
Proof.
  induction rs as [|r rs IH]; intros st st' E; cbn [visit_rules] in E; [injection E as <-; auto|]. destruct (visit_rule p st r) as [s| |] eqn:V; try discriminate E. cbn [bind] in E. apply IH in E as [A B].
  assert (X : (forall t, In t (rd_todo s) -> In t (rd_todo st)) /\ (forall t, tpackage t <> p -> In t (rd_todo st) -> In t (rd_todo s))).
  { unfold visit_rule in V. destruct (qualified_target p _) as [t|] eqn:Q; [|injection V as <-; auto]. destruct (negb _); [injection V as <-; auto|]. destruct (to_follow r) as [l| |]; try discriminate V.
    cbn [bind] in V. injection V as <-. rewrite set_todo. cbn [rd_todo]. split; intros u; [intros I; apply set_erase_in in I; tauto|]. intros N I. apply set_erase_in. split; [exact I|]. intros ->. elim N. eapply qualified_package, Q. }
  destruct X as [X Y]. split; auto.
Qed.
Definition scannable (pr : parsed_project) (ps : list package) (todo : list target) : Prop := forall p f, In p ps -> find_parsed pr p = Some f ->
  exists rs, find_targets [] (pf_ast f) = Ret rs /\ followed p rs todo.
Lemma called_package p t rs r : find (called_so p t) rs = Some r -> tpackage t = p.
Proof. intros E. apply find_some in E as [_ C]. apply called_named in C. eapply qualified_package, C. Qed.
Lemma scan_success pr ps : NoDup ps -> forall st, (exists st', scan_packages pr ps st = Ret st') <-> scannable pr ps (rd_todo st).
Proof.
  induction 1 as [|p ps N _ IH]; intros st; cbn [scan_packages]; [split; [intros _ p f []|eauto]|].
  destruct (find_parsed pr p) as [f|] eqn:F.
  2:{ rewrite IH. split; intros X q f I E; [destruct I as [<-|I]; [congruence|eauto]|apply (X q f); [right; exact I|exact E]]. }
  destruct (find_targets [] (pf_ast f)) as [rs| |] eqn:T; cbn [bind].
  2,3: split; [intros (s & E); discriminate E|]; intros X; destruct (X p f (or_introl eq_refl) F) as (rs & E & _); congruence.
  destruct (visit_rules p rs st) as [s| |] eqn:V; cbn [bind].
  - assert (FO : followed p rs (rd_todo st)) by (apply visit_rules_followed; eauto). apply visit_rules_todo in V as [A B]. rewrite IH. split; intros X q g I E.
    + destruct I as [<-|I]; [rewrite F in E; injection E as <-; eauto|]. destruct (X q g I E) as (rs2 & T2 & FO2). exists rs2. split; [exact T2|]. intros t r It C. apply (FO2 t r); [|exact C]. apply B; [|exact It].
      rewrite (called_package _ _ _ _ C). intros ->. contradiction.
    + destruct (X q g (or_intror I) E) as (rs2 & T2 & FO2). exists rs2. split; [exact T2|]. intros t r It C. apply (FO2 t r); auto.
  - split; [intros (s & E); discriminate E|]. intros X. destruct (X p f (or_introl eq_refl) F) as (rs2 & T2 & FO2). rewrite T in T2. injection T2 as <-. apply visit_rules_followed in FO2 as (s & E). congruence.
  - split; [intros (s & E); discriminate E|]. intros X. destruct (X p f (or_introl eq_refl) F) as (rs2 & T2 & FO2). rewrite T in T2. injection T2 as <-. apply visit_rules_followed in FO2 as (s & E). congruence.
Qed.
Lemma nodup_set l : NoDup (set_of_list (map tpackage l)).
Proof. apply ssorted_nodup, set_of_list_sorted. Qed.
Section Two.
Variable w : workspace.
Variables content content' : str -> option str.
Variable can_read : str -> bool.
Variable glob_in : package -> list str -> list str -> list str.
Variables pr0 pr0' : parsed_project.
Hypothesis C : contents_equal content content'.
Hypothesis Q : files_equal pr0 pr0'.
Hypothesis OK : project_ok pr0.
Hypothesis OK' : project_ok pr0'.
Lemma missing_success want : forall pr', P_DepGraph.grown w content' can_read glob_in pr0' pr' ->
  (forall p n, In p want -> path_for_package w can_read p = Some n -> find_parsed pr0' p = None -> exists f, file_of w content' can_read glob_in pr0' p f) ->
  exists pr2, find_and_parse_missing w content' can_read glob_in want pr' = Ret pr2.
Proof.
  induction want as [|p want IH]; intros pr' G H; cbn [find_and_parse_missing]; [eauto|].
  assert (X : exists pr1, parse_missing w content' can_read glob_in pr' p = Ret pr1).
  { unfold parse_missing. destruct (find_parsed pr' p) eqn:F; [eauto|]. destruct (path_for_package w can_read p) as [n|] eqn:PA; [|eauto].
    assert (F0 : find_parsed pr0' p = None) by (destruct (find_parsed pr0' p) eqn:F0; [apply G in F0; congruence|reflexivity]).
    destruct (H p n (or_introl eq_refl) PA F0) as (f & FF). unfold file_of in FF. rewrite F0 in FF. destruct FF as (n2 & c & st & er & ast & PA2 & R & P & E & _).
    rewrite PA in PA2. injection PA2 as <-. unfold add_build_file, add_build_file_content. rewrite R, F, P. cbn [bind]. unfold elaborate_file. cbn [pf_package pf_ast]. rewrite E. cbn [bind]. eauto. }
  destruct X as (pr1 & E). rewrite E. cbn [bind]. apply IH; [|intros q n I; apply H; right; exact I].
  eapply parse_missing_step; eauto.
Qed.
Definition even (g g' : graph) (pr pr' : parsed_project) (todo todo' : list target) : Prop :=
  P_DepGraph.grown w content can_read glob_in pr0 pr /\ P_DepGraph.grown w content' can_read glob_in pr0' pr' /\
  gsorted g /\ gsorted g' /\ converse g /\ converse g' /\
  (forall t, In t todo -> ~ In t (keys (depends_on g))) /\ (forall t, In t (keys (depends_on g)) <-> In t (keys (depends_on g'))) /\ (forall t, In t todo <-> In t todo').
Lemma depends_moves a b c d t s : contents_equal a b -> files_equal c d -> depends w a can_read glob_in c t s -> depends w b can_read glob_in d t s.
Proof. intros X Y (ds & D & I). exists ds. split; [|exact I]. eapply dependencies_move; eauto. Qed.
Lemma exists_moves a b c d t : contents_equal a b -> files_equal c d -> exists_target w a can_read glob_in c t -> exists_target w b can_read glob_in d t.
Proof. intros X Y (r & R). destruct (dependencies_move w a b can_read glob_in c d t (resolved (tpackage t) (mentioned r)) X Y) as (r' & R' & _); [exists r; auto|]. exists r'. exact R'. Qed.
Lemma round_success g g' pr pr' todo todo' h q next : even g g' pr pr' todo todo' -> run_round w content can_read glob_in g pr todo = Ret (h, q, next) ->
  exists h' q' next', run_round w content' can_read glob_in g' pr' todo' = Ret (h', q', next') /\ even h h' q q' next next'.
Proof.
  intros (G & G' & S & S' & CV & CV' & D & K & T) E.
  assert (D' : forall t, In t todo' -> ~ In t (keys (depends_on g'))) by (intros t I J; apply K in J; apply T in I; exact (D t I J)).
  pose proof (round_spec _ _ _ _ _ _ _ _ _ _ _ G S CV D E) as (G1 & S1 & CV1 & _ & K1 & _ & _ & N1).
  assert (X : exists y, run_round w content' can_read glob_in g' pr' todo' = Ret y).
  { unfold run_round in *. assert (SC : set_of_list (map tpackage todo) = set_of_list (map tpackage todo')).
    { apply ssorted_ext; [apply set_of_list_sorted..|]. intros p. rewrite !set_of_list_in, !in_map_iff. split; intros (t & A & B); exists t; (split; [exact A|]); apply T; exact B. }
    rewrite <- SC. set (scan := set_of_list (map tpackage todo)) in *. destruct (find_and_parse_missing w content can_read glob_in scan pr) as [p1| |] eqn:M; try discriminate E. cbn [bind] in E.
    pose proof (parsed_file_of _ _ _ _ _ _ _ _ G M) as PF. destruct (parse_missing_all _ _ _ _ _ _ _ _ G M) as (GP & _ & PN & _).
    destruct (missing_success scan pr' G') as (p1' & M').
    { intros p n I PA F0. destruct (find_parsed p1 p) as [f|] eqn:F; [|rewrite (PN p I F) in PA; discriminate PA]. apply PF in F; [|exact I]. destruct (file_moves _ _ _ _ _ _ _ C Q _ _ F) as (f' & F' & _). eauto. }
    rewrite M'. cbn [bind]. pose proof (parsed_file_of _ _ _ _ _ _ _ _ G' M') as PF'. destruct (scan_packages p1 scan _) as [st| |] eqn:SP; try discriminate E.
    assert (SB : scannable p1 scan todo) by (apply (scan_success p1 scan (nodup_set todo) (mkRound g todo [])); eauto).
    assert (SB' : scannable p1' scan todo').
    { intros p f' I F'. apply PF' in F'; [|exact I]. destruct (file_moves _ _ _ _ _ _ _ (contents_sym _ _ C) (files_sym _ _ Q) _ _ F') as (f & F & TE). apply PF in F; [|exact I].
      destruct (SB p f I F) as (rs & FT & FO). unfold trees_equal in TE. rewrite FT in TE. destruct (find_targets [] (pf_ast f')) as [rs'| |]; try contradiction TE. exists rs'. split; [reflexivity|].
      destruct TE as [_ TE]. intros t r' It FI. specialize (TE p t). rewrite FI in TE. destruct (find (called_so p t) rs) as [r|] eqn:FR; [|discriminate TE]. cbn [option_map] in TE. injection TE as TE. rewrite TE. apply (FO t r); [apply T, It|exact FR]. }
    apply (scan_success p1' scan (nodup_set todo) (mkRound g' todo' [])) in SB' as (st' & E'). rewrite E'. cbn [bind]. eauto. }
  destruct X as ([[h' q'] next'] & E'). exists h', q', next'. split; [exact E'|].
  pose proof (round_spec _ _ _ _ _ _ _ _ _ _ _ G' S' CV' D' E') as (G1' & S1' & CV1' & _ & K1' & _ & _ & N1').
  repeat (split; [assumption|]). assert (KK : forall t, In t (keys (depends_on h)) <-> In t (keys (depends_on h'))).
  { intros t. rewrite K1, K1', K, T. split; (intros [A|[A B]]; [auto|]); right; (split; [exact A|]); eapply exists_moves; try exact B; auto using contents_sym, files_sym. }
  split; [|split; [exact KK|]].
  - intros t I J. apply N1 in I as (A & B & _). apply K1 in J as [J|[J _]]; contradiction.
  - intros d. rewrite N1, N1', K, T. split; intros (A & B & t & I & DP); (split; [exact A|]); (split; [exact B|]); exists t; (split; [apply T, I|]); eapply depends_moves; try exact DP; auto using contents_sym, files_sym.
Qed.
Lemma rounds_success depth : forall g g' pr pr' todo todo' x, even g g' pr pr' todo todo' -> rounds w content can_read glob_in depth g pr todo = Ret x ->
  exists x', rounds w content' can_read glob_in depth g' pr' todo' = Ret x'.
Proof.
  induction depth as [|depth IH]; intros g g' pr pr' todo todo' x EV E; cbn [rounds] in *; (destruct (run_round w content can_read glob_in g pr todo) as [[[h q] next]| |] eqn:R; try discriminate E);
    destruct (round_success _ _ _ _ _ _ _ _ _ EV R) as (h' & q' & next' & R' & EV'); rewrite R'; cbn [bind] in *; [eauto|].
  assert (N : is_nil next' = is_nil next).
  { destruct EV' as (_ & _ & _ & _ & _ & _ & _ & _ & T). destruct next as [|t next], next' as [|t' next']; auto; [destruct (proj2 (T t') (or_introl eq_refl))|destruct (proj1 (T t) (or_introl eq_refl))]. }
  rewrite N. destruct (is_nil next); [eauto|]. eapply IH; eassumption.
Qed.
Definition startable (pt : pattern) (l : list (package * parsed_file)) : Prop := forall p f, In (p, f) l -> match_package pt (pf_package f) = true -> exists rs, find_targets [] (pf_ast f) = Ret rs.
Lemma initial_success pt l : forall todo, (exists todo', initial_todo pt l todo = Ret todo') <-> startable pt l.
Proof.
  induction l as [|[p f] l IH]; intros todo; cbn [initial_todo]; [split; [intros _ p f []|eauto]|]. unfold initial_in_file.
  assert (SP : startable pt ((p, f) :: l) <-> (match_package pt (pf_package f) = true -> exists rs, find_targets [] (pf_ast f) = Ret rs) /\ startable pt l).
  { split; [intros H; split; [apply (H p f); left; reflexivity|intros q g I; apply (H q g); right; exact I]|]. intros [A B] q g [I|I]; [injection I as <- <-; exact A|exact (B q g I)]. }
  rewrite SP. destruct (match_package pt (pf_package f)); cbn [negb bind]; [|rewrite IH; split; [split; [discriminate|assumption]|tauto]].
  destruct (find_targets [] (pf_ast f)) as [rs| |]; cbn [bind]; [rewrite IH; split; [split; eauto|tauto]| |]; (split; [intros (x & E); discriminate E|intros [A _]; destruct (A eq_refl) as (rs & E); discriminate E]).
Qed.
Lemma graph_success pt depth x : build_graph w content can_read glob_in pt depth pr0 = Ret x -> exists x', build_graph w content' can_read glob_in pt depth pr0' = Ret x'.
Proof.
  unfold build_graph. intros E. destruct (initial_todo pt (pr_files pr0) []) as [todo| |] eqn:I0; try discriminate E. cbn [bind] in E.
  assert (ST : startable pt (pr_files pr0)) by (apply (initial_success pt _ []); eauto).
  assert (ST' : startable pt (pr_files pr0')).
  { intros p f' I M. pose proof (Q p) as X. rewrite (msorted_find _ _ _ (proj1 OK') I : find_parsed pr0' p = Some f') in X. destruct (find_parsed pr0 p) as [f|] eqn:F; [|destruct X].
    unfold find_parsed in F. apply map_find_in in F. destruct (ST p f F) as (rs & T); [rewrite (proj2 OK _ _ F); rewrite (proj2 OK' _ _ I) in M; exact M|].
    unfold trees_equal in X. rewrite T in X. destruct (find_targets [] (pf_ast f')) as [rs'| |]; try contradiction X. eauto. }
  apply (initial_success pt _ []) in ST' as (todo' & I0'). rewrite I0'. cbn [bind]. eapply rounds_success; [|exact E].
  destruct (initial_spec _ OK pt todo I0) as (_ & H). destruct (initial_spec _ OK' pt todo' I0') as (_ & H').
  split; [apply grown0, OK|]. split; [apply grown0, OK'|]. split; [split; exact I|]. split; [split; exact I|]. split; [intros a b; reflexivity|]. split; [intros a b; reflexivity|]. cbn [depends_on keys map In].
  split; [auto|]. split; [reflexivity|]. intros t. rewrite H, H'. split; apply matches_move; [exact Q|apply files_sym, Q].
Qed.
End Two.
Lemma elaborate_success w glob_in names proj content content' pr pr' x : contents_equal content content' ->
  holds_files w content glob_in names proj false pr -> holds_files w content' glob_in names proj false pr' ->
  elaborate_project glob_in pr = Ret x -> exists x', elaborate_project glob_in pr' = Ret x'.
Proof.
  intros C [S K] [S' K'] E. unfold elaborate_project in *. destruct (elaborate_files glob_in (pr_files pr)) as [l| |] eqn:L; try discriminate E.
  assert (OK : forall p f, In (p, f) (pr_files pr) -> exists a, elaborate (glob_in p) (pf_ast f) = Ret a).
  { assert (PK : forall p f, In (p, f) (pr_files pr) -> pf_package f = p) by (intros p f I; apply K in I as (n & c & st & er & ast & _ & _ & _ & ->); reflexivity). clear - L PK. revert l L.
    induction (pr_files pr) as [|[q g] files IH]; intros l L p f I; [destruct I|]. cbn [elaborate_files] in L. unfold elaborate_file in L. rewrite (PK q g (or_introl eq_refl)) in L.
    destruct (elaborate (glob_in q) (pf_ast g)) as [a| |] eqn:A; try discriminate L. cbn [bind] in L. destruct (elaborate_files glob_in files) as [l2| |]; try discriminate L.
    destruct I as [I|I]; [injection I as <- <-; eauto|]. eapply IH; eauto. intros q2 g2 I2. apply PK. right. exact I2. }
  assert (OK' : forall p f, In (p, f) (pr_files pr') -> pf_package f = p /\ exists a, elaborate (glob_in p) (pf_ast f) = Ret a).
  { intros p f I. apply K' in I as (n & c' & st' & er' & ast & FF & PA' & -> & ->). split; [reflexivity|]. cbn [pf_ast]. destruct FF as (a & b & EN & PK & R' & FI).
    pose proof (C n) as X. rewrite R' in X. destruct (content n) as [c|] eqn:R; [|destruct X]. unfold texts_equal in X. rewrite PA' in X. destruct (parse c) as [[st er]| |] eqn:PA; try contradiction X. destruct X as [_ X]. cbn [fst] in X.
    destruct (OK p (mkFile p n c st er)) as (y & Y).
    { apply K. exists n, c, st, er, st. repeat split; auto. exists a, b. repeat split; auto. intros z Z PZ. specialize (FI z Z PZ). specialize (C z). rewrite FI in C. destruct (content z); [destruct C|reflexivity]. }
    cbn [pf_ast] in Y. specialize (X (glob_in p)). rewrite Y in X. destruct (elaborate (glob_in p) st'); try contradiction X. eauto. }
  assert (Z : exists l', elaborate_files glob_in (pr_files pr') = Ret l').
  { clear - OK'. induction (pr_files pr') as [|[q g] files IH]; cbn [elaborate_files]; [eauto|]. unfold elaborate_file. destruct (OK' q g (or_introl eq_refl)) as (-> & a & ->). cbn [bind].
    destruct IH as (l & ->); [intros p f I; apply OK'; right; exact I|]. cbn [bind]. eauto. }
  destruct Z as (l' & ->). cbn [bind]. eauto.
Qed.
Lemma fill_success w content content' collect pt x : fill_from_pattern w content collect empty_project pt = Ret x -> exists x', fill_from_pattern w content' collect empty_project pt = Ret x'.
Proof.
  unfold fill_from_pattern. generalize (collect pt). intros files. generalize empty_project at 2. generalize empty_project. induction files as [|f files IH]; intros pr pr' E; cbn [add_build_files] in *; [eauto|].
  unfold add_build_file_in in *. destruct (package_of_build_file w f (pat_project pt)) as [[p|]| |]; cbn [bind] in *; try discriminate E; [|eapply IH, E].
  destruct (add_build_file content pr f p) as [[a o]| |]; cbn [bind] in E; try discriminate E.
  assert (A : exists y, add_build_file content' pr' f p = Ret y).
  { unfold add_build_file. destruct (content' f) as [c|]; [|eauto]. unfold add_build_file_content. destruct (find_parsed pr' p); [cbn [bind]; eauto|]. destruct (parse_total c) as (st & er & ->). cbn [bind]. eauto. }
  destruct A as ([a' o'] & ->). cbn [bind]. eapply IH, E.
Qed.
Lemma prepare_success is_dir can_read glob glob_in collect content content' fl cmd pt x : contents_equal content content' ->
  load_workspace is_dir can_read glob content' = load_workspace is_dir can_read glob content ->
  prepare is_dir can_read glob content glob_in collect fl cmd pt = Ret x ->
  exists x', prepare is_dir can_read glob content' glob_in collect fl cmd pt = Ret x' /\ match x, x' with Some (w, _, _), Some (w', _, _) => w = w' | None, None => True | _, _ => False end.
Proof.
  intros C W E. unfold prepare in *. rewrite W. destruct (load_workspace is_dir can_read glob content) as [[w|]| |]; try discriminate E; cbn [bind] in *; [|injection E as <-; exists None; auto].
  set (w1 := augment_from_external_dir is_dir glob w) in *. set (dp := match cmd with CHasDependents => pattern_always | _ => pt end) in *.
  destruct (if needs_project cmd pt then _ else _) as [a| |] eqn:A in E; try discriminate E. cbn [bind] in E.
  assert (A' : exists a', (if needs_project cmd pt then fill_from_pattern w1 content' (collect w1) empty_project dp else Ret empty_project) = Ret a') by (destruct (needs_project cmd pt); [eapply fill_success, A|eauto]).
  destruct A' as (a' & A'). rewrite A'. cbn [bind].
  assert (H : holds_files w1 content (glob_in w1) (if needs_project cmd pt then collect w1 dp else []) (pat_project dp) false a) by (destruct (needs_project cmd pt); [apply fill_spec; exact A|injection A as <-; apply empty_holds]).
  assert (H' : holds_files w1 content' (glob_in w1) (if needs_project cmd pt then collect w1 dp else []) (pat_project dp) false a') by (destruct (needs_project cmd pt); [apply fill_spec; exact A'|injection A' as <-; apply empty_holds]).
  destruct (if elaborate_for cmd _ then _ else _) as [b| |] eqn:B in E; try discriminate E. cbn [bind] in E.
  assert (B' : exists b', (if elaborate_for cmd (fl_elaborate fl) then elaborate_project (glob_in w1) a' else Ret a') = Ret b') by (destruct (elaborate_for cmd (fl_elaborate fl)); [eapply elaborate_success; eauto|eauto]).
  destruct B' as (b' & B'). rewrite B'. cbn [bind].
  assert (J : holds_files w1 content (glob_in w1) (if needs_project cmd pt then collect w1 dp else []) (pat_project dp) (elaborate_for cmd (fl_elaborate fl)) b) by (destruct (elaborate_for cmd (fl_elaborate fl)); [eapply elaborate_holds; eauto|injection B as <-; exact H]).
  assert (J' : holds_files w1 content' (glob_in w1) (if needs_project cmd pt then collect w1 dp else []) (pat_project dp) (elaborate_for cmd (fl_elaborate fl)) b') by (destruct (elaborate_for cmd (fl_elaborate fl)); [eapply elaborate_holds; eauto|injection B' as <-; exact H']).
  destruct (wants_graph cmd && _).
  - destruct (build_graph w1 content can_read (glob_in w1) dp (depth_for cmd (fl_depth fl)) b) as [[[g q] t]| |] eqn:G; try discriminate E. cbn [bind] in E. injection E as <-.
    destruct (graph_success w1 content content' can_read (glob_in w1) b b' C (holds_equal _ _ _ _ _ _ _ _ _ C J J') (holds_ok _ _ _ _ _ _ _ J) (holds_ok _ _ _ _ _ _ _ J') _ _ _ G) as ([[g' q'] t'] & ->). cbn [bind]. eexists. split; [reflexivity|]. reflexivity.
  - cbn [bind] in *. injection E as <-. eexists. split; [reflexivity|]. reflexivity.
Qed.
