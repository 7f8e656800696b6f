(** Proofs for C95: more statements in BUILD files. *)
From Coq Require Import ZArith Lia.
From Verif Require Import Base OMap M_Types M_Scanner M_Ast M_Parser P_Parser M_Query S_Query P_Query M_Elab S_Elab P_Elab M_Workspace M_Project P_Project M_DepGraph S_DepGraph P_DepGraph
  S_Run P_Run S_Layout P_LayoutMean S_Attributes P_Attributes P_LayoutRules P_Moved P_MovedRun C_Elab S_Extended.

(** * Rules found are kept *)
Lemma visit_out i a n : forall st st', visit i a n st = Ret st' -> exists more, f_out st' = f_out st ++ more.
Proof.
  assert (SAME : forall st : finder, exists more, f_out st = f_out st ++ more) by (intros st; exists []; rewrite app_nil_r; reflexivity).
  assert (TWO : forall x y z : list result, (exists m, y = x ++ m) -> (exists m, z = y ++ m) -> exists m, z = x ++ m) by (intros x y z (m & ->) (k & ->); exists (m ++ k); rewrite app_assoc; reflexivity).
  assert (ELEMS : forall l, Forall (fun n => forall st st', visit i a n st = Ret st' -> exists more, f_out st' = f_out st ++ more) l ->
    forall st st', visit_elems (visit i a) l st = Ret st' -> exists more, f_out st' = f_out st ++ more).
  { induction 1 as [|k l N _ IH]; intros st st' E; cbn [visit_elems] in E; [injection E as <-; apply SAME|].
    destruct (visit i a k st) as [s| |] eqn:L; try discriminate E. cbn [bind] in E. eapply TWO; eauto. }
  induction n as [|v t r|v z|v|op n IH|op l r rg IHl IHr|ty l IH|ty f IH|c p n IHc IHp IHn|l r rg IHl IHr|id ar IHi IHa] using node_ind'; intros st st' E; cbn [visit] in E; try (injection E as <-; apply SAME); eauto.
  - destruct (visit i a l st) as [s| |] eqn:L; try discriminate E. cbn [bind] in E. eapply TWO; [exact (IHl _ _ L)|exact (IHr _ _ E)].
  - destruct (visit i a c st) as [s| |] eqn:L; try discriminate E. cbn [bind] in E. destruct (visit i a p s) as [s2| |] eqn:M; try discriminate E. cbn [bind] in E.
    eapply TWO; [exact (IHc _ _ L)|]. eapply TWO; [exact (IHp _ _ M)|exact (IHn _ _ E)].
  - injection E as <-. destruct (f_rel st) eqn:R; exact (SAME st).
  - destruct (f_rel st) eqn:R; try (apply (IHa _ _ E)). destruct id; try discriminate E. destruct (is_relevant _ _); try (injection E as <-; apply SAME).
    all: destruct ar as [| | | | | |ty l| | | |]; try discriminate E; (destruct (visit_elems (visit i a) l _) as [s| |] eqn:V; try discriminate E); cbn [bind] in E; apply (IHa _ s) in V; cbn [f_out] in V; injection E as <-; cbn [f_out]; try exact V.
    eapply TWO; [exact V|]. unfold inform_caller. destruct (negb _ && _); [apply SAME|]. destruct (f_cur s). cbn [f_out]. eauto.
Qed.
Lemma found_prefix i m x rs' : find_targets i (m ++ x) = Ret rs' -> exists rs more, find_targets i m = Ret rs /\ rs' = rs ++ more.
Proof.
  unfold find_targets, find_targets_in. cbn [visit]. rewrite visit_elems_app. destruct (visit_elems (visit i false) m initial_finder) as [st| |]; try discriminate. cbn [bind]. intros E.
  destruct (visit_elems (visit i false) x st) as [st2| |] eqn:V; try discriminate E. cbn [bind] in E. injection E as <-. destruct (visit_out i false (NList LList x) st st2 V) as (more & M). exists (f_out st), more. auto.
Qed.
Lemma offers_app p rs more t ds : offers p rs t ds -> offers p (rs ++ more) t ds.
Proof. intros (r & F & E). exists r. split; [|exact E]. rewrite find_app, F. reflexivity. Qed.

(** * Trees and texts *)
Definition rules_grow (rs rs' : list result) : Prop := exists rs0 more, rules_alike rs rs0 /\ rs' = rs0 ++ more.
Definition tree_grows (l l' : list node) : Prop := forall i rs, find_targets i l = Ret rs -> exists rs', find_targets i l' = Ret rs' /\ rules_grow rs rs'.
Lemma rules_self rs : rules_alike rs rs.
Proof. induction rs as [|r rs IH]; constructor; [apply bare_rule; reflexivity|exact IH]. Qed.
Lemma tree_grows_refl l : tree_grows l l.
Proof. intros i rs E. exists rs. split; [exact E|]. exists rs, []. split; [apply rules_self|rewrite app_nil_r; reflexivity]. Qed.
Lemma grows_offers rs rs' p t ds : rules_grow rs rs' -> offers p rs t ds -> offers p rs' t ds.
Proof. intros (rs0 & more & A & ->) O. apply offers_app. apply (offers_alike _ _ A), O. Qed.
Lemma tree_extended st st' extra : statements_alike st st' -> (forall i, exists rs', find_targets i (st' ++ extra) = Ret rs') -> tree_grows st (st' ++ extra).
Proof.
  intros A D i rs F. destruct (D i) as (rs' & E). exists rs'. split; [exact E|]. destruct (found_prefix _ _ _ _ E) as (rs2 & more & F2 & ->). exists rs2, more. split; [|reflexivity].
  pose proof (find_statements_alike i false _ _ A) as X. fold (find_targets i st) in X. fold (find_targets i st') in X. rewrite F, F2 in X. exact X.
Qed.
Definition text_grows (c c' : str) : Prop := forall st er, parse c = Ret (st, er) -> exists st' er', parse c' = Ret (st', er') /\ tree_grows st st' /\
  forall mg, match elaborate mg st, elaborate mg st' with Ret y, Ret y' => tree_grows y y' | Ret _, _ => False | _, Ret _ => False | _, _ => True end.
Lemma text_grows_refl c : text_grows c c.
Proof. intros st er E. exists st, er. split; [exact E|]. split; [apply tree_grows_refl|]. intros mg. destruct (elaborate mg st); auto. apply tree_grows_refl. Qed.
Lemma extended_grows c c' : extended c c' -> text_grows c c'.
Proof.
  intros (st & er & st' & extra & P & P' & B & N) s e E. rewrite P in E. injection E as <- <-. apply bare_statements in B. exists (st' ++ extra), []. split; [exact P'|]. split.
  - apply tree_extended; [exact B|]. intros i. destruct (C16_queries_defined _ _ P' i false) as (rs' & F & _). eauto.
  - intros mg. destruct (C16_elaboration_defined mg _ _ P' N) as (y' & E' & D). rewrite E'. pose proof (elaborate_statements_alike mg _ _ B) as X.
    unfold elaborate in E'. rewrite elems_app in E'. destruct (elab_elems (elab mg 0) st' []) as [[m1 g1]| |] eqn:E1; try discriminate E'. cbn [bind fst snd] in E'.
    destruct (elab_elems (elab mg 0) extra g1) as [[m2 g2]| |]; try discriminate E'. cbn [bind fst snd] in E'. injection E' as <-.
    assert (E2 : elaborate mg st' = Ret m1) by (unfold elaborate; rewrite E1; reflexivity). rewrite E2 in X. destruct (elaborate mg st) as [y| |]; try contradiction X.
    apply tree_extended; [exact X|]. intros i. destruct (D i false) as (rs' & F & _). eauto.
Qed.

(** * Projects *)
Definition contents_grow (content content' : str -> option str) : Prop := forall f,
  match content f, content' f with Some c, Some c' => text_grows c c' | None, None => True | _, _ => False end.
Record grows_to (f f' : parsed_file) : Prop := mkGrows { gr_name : pf_name f' = pf_name f; gr_package : pf_package f' = pf_package f; gr_tree : tree_grows (pf_ast f) (pf_ast f') }.
Definition files_grow (pr pr' : parsed_project) : Prop := forall p,
  match find_parsed pr p, find_parsed pr' p with Some f, Some f' => grows_to f f' | None, None => True | _, _ => False end.
Lemma holds_grow w glob_in names proj eval content content' pr pr' : contents_grow content content' ->
  holds_files w content glob_in names proj eval pr -> holds_files w content' glob_in names proj eval pr' -> files_grow pr pr'.
Proof.
  intros C [S K] [S' K'].
  assert (UP : forall p f, find_parsed pr p = Some f -> exists f', find_parsed pr' p = Some f' /\ grows_to f f').
  { intros p f F. unfold find_parsed in *. apply map_find_in in F. apply K in F as (n & c & st & er & ast & (a & b & E & PK & R & FI) & PA & EL & ->).
    pose proof (C n) as X. rewrite R in X. destruct (content' n) as [c'|] eqn:R'; [|destruct X]. destruct (X _ _ PA) as (st' & er' & PA' & T & TE).
    assert (Y : exists ast', (if eval then elaborate (glob_in p) st' = Ret ast' else ast' = st') /\ tree_grows ast ast').
    { destruct eval; [|subst; eauto]. specialize (TE (glob_in p)). rewrite EL in TE. destruct (elaborate (glob_in p) st') as [ast'| |]; try contradiction TE. eauto. }
    destruct Y as (ast' & EL' & T'). exists (mkFile p n c' ast' er'). split; [|constructor; [reflexivity|reflexivity|exact T']]. apply msorted_find; [exact S'|]. apply K'. exists n, c', st', er', ast'. repeat split; auto.
    exists a, b. repeat split; auto. intros x I PX. specialize (FI x I PX). specialize (C x). rewrite FI in C. destruct (content' x); [destruct C|reflexivity]. }
  intros p. destruct (find_parsed pr p) as [f|] eqn:F.
  - destruct (UP p f F) as (f' & -> & T). exact T.
  - destruct (find_parsed pr' p) as [f'|] eqn:F'; [|exact I]. unfold find_parsed in *. apply map_find_in in F'. apply K' in F' as (n & c' & st' & er' & ast' & (a & b & E & PK & R' & FI) & PA' & EL' & ->).
    pose proof (C n) as X. rewrite R' in X. destruct (content n) as [c|] eqn:R; [|destruct X]. destruct (parse_total c) as (st & er & PA). destruct (X _ _ PA) as (st2 & er2 & PA2 & _ & TE). rewrite PA' in PA2. injection PA2 as <- <-.
    assert (Y : exists ast, if eval then elaborate (glob_in p) st = Ret ast else ast = st).
    { destruct eval; [|eauto]. specialize (TE (glob_in p)). rewrite EL' in TE. destruct (elaborate (glob_in p) st); try contradiction TE. eauto. }
    destruct Y as (ast & EL). apply map_find_none in F. elim F. apply in_map_iff. exists (p, mkFile p n c ast er). split; [reflexivity|]. apply K. exists n, c, st, er, ast. repeat split; auto.
    exists a, b. repeat split; auto. intros x I PX. specialize (FI x I PX). specialize (C x). rewrite FI in C. destruct (content x); [destruct C|reflexivity].
Qed.
Section Worlds.
Variable w : workspace.
Variables content content' : str -> option str.
Variable can_read : str -> bool.
Variable glob_in : package -> list str -> list str -> list str.
Variables pr pr' : parsed_project.
Hypothesis C : contents_grow content content'.
Hypothesis Q : files_grow pr pr'.
Lemma file_grows p f : file_of w content can_read glob_in pr p f -> exists f', file_of w content' can_read glob_in pr' p f' /\ grows_to f f'.
Proof.
  unfold file_of. intros F. pose proof (Q p) as X. destruct (find_parsed pr p) as [f0|], (find_parsed pr' p) as [f0'|]; try contradiction X.
  - subst f0. exists f0'. auto.
  - destruct F as (n & c & st & er & ast & PF & R & PA & EL & ->). specialize (C n). rewrite R in C. destruct (content' n) as [c'|] eqn:R'; [|destruct C].
    destruct (C _ _ PA) as (st' & er' & PA' & _ & TE). specialize (TE (glob_in p)). rewrite EL in TE.
    destruct (elaborate (glob_in p) st') as [ast'| |] eqn:EL'; try contradiction TE. exists (mkFile p n c' ast' er'). split; [|constructor; [reflexivity|reflexivity|exact TE]]. exists n, c', st', er', ast'. auto 8.
Qed.
Lemma dependencies_grow t ds : dependencies w content can_read glob_in pr t ds -> dependencies w content' can_read glob_in pr' t ds.
Proof.
  intros D. apply dependencies_of in D as (f & rs & F & T & O). destruct (file_grows _ _ F) as (f' & F' & [_ _ E]). destruct (E _ _ T) as (rs' & T' & E').
  apply dependencies_of. exists f', rs'. split; [exact F'|]. split; [exact T'|]. eapply grows_offers; eassumption.
Qed.
Lemma matches_grow pt t : matches_pattern pr pt t -> matches_pattern pr' pt t.
Proof.
  intros (M & f & rs & r & F & T & I & N). split; [exact M|]. pose proof (Q (tpackage t)) as X. rewrite F in X. destruct (find_parsed pr' (tpackage t)) as [f'|] eqn:F'; [|destruct X].
  destruct X as [_ _ X]. destruct (X _ _ T) as (rs' & T' & E).
  assert (O : exists ds, offers (tpackage t) rs t ds).
  { destruct (find (called_so (tpackage t) t) rs) as [r0|] eqn:Z; [exists (resolved (tpackage t) (mentioned r0)), r0; auto|]. apply called_iff in N. rewrite (find_none _ _ Z r I) in N. discriminate N. }
  destruct O as (ds & O). apply (grows_offers _ _ _ _ _ E) in O as (r' & O & _). apply find_some in O as [I' N']. exists f', rs', r'. repeat split; auto. apply called_iff, N'.
Qed.
Lemma reach_grow pt j t : reach w content can_read glob_in pr pt j t -> reach w content' can_read glob_in pr' pt j t.
Proof.
  intros R. induction R as [t M|n s t _ IH (ds & D & I)]; [constructor; apply matches_grow, M|]. econstructor; [exact IH|]. exists ds. split; [|exact I]. apply dependencies_grow, D.
Qed.
End Worlds.
