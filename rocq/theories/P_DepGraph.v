(** Proofs about the dependency graph. *)
From Verif Require Import Base OMap M_Types P_Types M_Scanner M_Ast M_Parser S_Parser P_Parser M_Query S_Query P_Query M_Elab
  S_Elab P_Elab M_Workspace M_Project M_DepGraph S_DepGraph.

(** * Reading lists *)
Lemma string_list_texts l vs : string_list l = Ret vs -> map v_text vs = texts l.
Proof.
  revert vs; induction l as [|n l IH]; intros vs E; cbn in E; [inversion E; reflexivity|].
  unfold texts. cbn [flat_map]. fold (texts l).
  destruct (cast_scalar n) as [s| |] eqn:Ec; try discriminate.
  destruct (string_list l) as [rest| |] eqn:El; try discriminate. cbn in E.
  specialize (IH _ eq_refl).
  destruct n; cbn in Ec; inversion Ec; subst; inversion E; subst; cbn [as_text]; auto.
  - destruct (is_nil (v_text v)); cbn; congruence.
  - destruct (is_nil (v_text v)); cbn; congruence.
Qed.
Lemma to_follow_spec r ls : to_follow r = Ret ls -> ls = mentioned r.
Proof.
  unfold to_follow, mentioned, extract_string_list. destruct (string_list _) as [vs| |] eqn:E; cbn; try discriminate.
  intros H; inversion H. rewrite (string_list_texts _ _ E).
  unfold opt_elems. destruct (q_deps r), (v_text (q_actual r)); reflexivity.
Qed.

Lemma target_eqb_eq a b : target_eqb a b = true <-> a = b.
Proof.
  unfold target_eqb, package_eqb. destruct a as [[a1 a2] a3], b as [[b1 b2] b3]. simpl.
  rewrite !andb_true_iff, !str_eqb_eq. split.
  - intros [[-> ->] ->]; reflexivity.
  - intros H; inversion H; auto.
Qed.
Lemma qualified_package p n t : qualified_target p n = Some t -> tpackage t = p.
Proof.
  unfold qualified_target. destruct n as [|c n]; [discriminate|].
  destruct (ceqb c ":").
  - destruct n; intros H; inversion H; reflexivity.
  - intros H; inversion H; reflexivity.
Qed.

Section P.
Variable w : workspace.
Variable read_file : str -> option str.
Variable can_read : str -> bool.
Variable glob_in : package -> list str -> list str -> list str.
Variable pr0 : parsed_project.
Hypothesis ok0 : project_ok pr0.
Notation file_of := (file_of w read_file can_read glob_in pr0).
Notation rule_of := (rule_of w read_file can_read glob_in pr0).
Notation exists_target := (exists_target w read_file can_read glob_in pr0).
Notation dependencies := (dependencies w read_file can_read glob_in pr0).
Notation depends := (depends w read_file can_read glob_in pr0).
Notation reach := (reach w read_file can_read glob_in pr0).
Notation path_for_package := (path_for_package w can_read).
Notation find_and_parse_missing := (find_and_parse_missing w read_file can_read glob_in).

(** * Files *)
Lemma file_of_fun p f g : file_of p f -> file_of p g -> f = g.
Proof.
  unfold S_DepGraph.file_of. destruct (find_parsed pr0 p); [congruence|].
  intros (n1 & c1 & s1 & e1 & a1 & P1 & R1 & Q1 & L1 & ->) (n2 & c2 & s2 & e2 & a2 & P2 & R2 & Q2 & L2 & ->).
  congruence.
Qed.
Lemma rule_of_fun t r r' : rule_of t r -> rule_of t r' -> r = r'.
Proof.
  intros (f & a & b & F & E & N & L) (f' & a' & b' & F' & E' & N' & L').
  rewrite (file_of_fun _ _ _ F' F) in E'. rewrite E in E'. injection E' as X. clear E.
  revert a' X L'. induction a as [|x a IH]; intros [|y a'] X L'; cbn in X; inversion X; auto.
  - exfalso. apply (L' y); [left; reflexivity|subst; exact N].
  - exfalso. apply (L x); [left; reflexivity|subst; exact N'].
  - eapply IH; eauto.
    + intros r0 I. apply L. right; exact I.
    + intros r0 I. apply L'. right; exact I.
Qed.

(** The project while it grows. *)
Definition grown (pr : parsed_project) : Prop :=
  project_ok pr /\ (forall p f, find_parsed pr p = Some f -> file_of p f) /\
  (forall p f, find_parsed pr0 p = Some f -> find_parsed pr p = Some f).
Lemma ok_find pr p f : project_ok pr -> find_parsed pr p = Some f -> pf_package f = p.
Proof. intros [_ H] F. apply H. apply map_find_in. exact F. Qed.
Lemma grown0 : grown pr0.
Proof.
  split; [exact ok0|]. split; [|auto]. intros p f F. unfold S_DepGraph.file_of. rewrite F. reflexivity.
Qed.

Lemma parse_missing_step pr p pr' : grown pr ->
  parse_missing w read_file can_read glob_in pr p = Ret pr' ->
  grown pr' /\ (forall q f, find_parsed pr q = Some f -> find_parsed pr' q = Some f) /\
  (forall q, find_parsed pr q = None -> q <> p -> find_parsed pr' q = None) /\
  (find_parsed pr' p = None -> path_for_package p = None /\ find_parsed pr p = None).
Proof.
  intros (OK & FI & EX) E. unfold parse_missing in E.
  destruct (find_parsed pr p) as [f0|] eqn:F.
  { inversion E; subst. repeat split; auto; try apply OK. congruence. congruence. }
  destruct (path_for_package p) as [name|] eqn:Pa.
  2: { inversion E; subst. repeat split; auto; apply OK. }
  unfold add_build_file in E. destruct (read_file name) as [content|] eqn:Rd; [|discriminate].
  unfold add_build_file_content in E. rewrite F in E.
  destruct (parse content) as [[stmts errs]| |] eqn:Ps; cbn in E; try discriminate.
  unfold elaborate_file in E. cbn in E.
  destruct (elaborate (glob_in p) stmts) as [ast| |] eqn:El; cbn in E; try discriminate.
  inversion E; subst; clear E.
  set (f1 := mkFile p name content stmts errs). set (f2 := mkFile p name content ast errs).
  assert (Ms : msorted (map_insert p f1 (pr_files pr))) by (apply map_insert_sorted, OK).
  assert (Fd : forall q, find_parsed (mkProject (map_set p f2 (map_insert p f1 (pr_files pr)))
             (if is_nil errs then pr_error_count pr else S (pr_error_count pr))) q
           = if keqb q p then Some f2 else find_parsed pr q).
  { intros q. unfold find_parsed. cbn [pr_files]. rewrite map_set_find by exact Ms.
    rewrite map_insert_find by apply OK. destruct (keqb_spec q p) as [e|N].
    - reflexivity.
    - destruct (keqb q p) eqn:K; [apply keqb_eq in K; contradiction|].
      destruct (map_find q (pr_files pr)); reflexivity. }
  assert (Ff : file_of p f2).
  { unfold S_DepGraph.file_of. destruct (find_parsed pr0 p) as [f3|] eqn:F0.
    - rewrite (EX _ _ F0) in F. discriminate.
    - exists name, content, stmts, errs, ast. auto. }
  split; [split; [split|split]|split; [|split]].
  - cbn [pr_files]. apply map_update_sorted. exact Ms.
  - intros q f I. assert (S0 : find_parsed (mkProject (map_set p f2 (map_insert p f1 (pr_files pr)))
             (if is_nil errs then pr_error_count pr else S (pr_error_count pr))) q = Some f).
    { unfold find_parsed. cbn [pr_files] in *. apply msorted_find; [apply map_update_sorted; exact Ms|exact I]. }
    rewrite Fd in S0. destruct (keqb_spec q p) as [e|N].
    + inversion S0; subst. reflexivity.
    + eapply ok_find; eauto.
  - intros q f. rewrite Fd. destruct (keqb_spec q p) as [e|N]; [|apply FI].
    intros H; inversion H; subst. exact Ff.
  - intros q f H. rewrite Fd. destruct (keqb_spec q p) as [e|N]; [|auto].
    subst. rewrite (EX _ _ H) in F. discriminate.
  - intros q f H. rewrite Fd. destruct (keqb_spec q p) as [e|N]; [|auto]. subst; congruence.
  - intros q H N. rewrite Fd. destruct (keqb_spec q p) as [e|N']; [contradiction|auto].
  - rewrite Fd, keqb_refl. discriminate.
Qed.
Lemma parse_missing_all want : forall pr pr', grown pr ->
  find_and_parse_missing want pr = Ret pr' ->
  grown pr' /\ (forall q f, find_parsed pr q = Some f -> find_parsed pr' q = Some f) /\
  (forall q, In q want -> find_parsed pr' q = None -> path_for_package q = None) /\
  (forall q, find_parsed pr q = None -> ~ In q want -> find_parsed pr' q = None).
Proof.
  induction want as [|p want IH]; intros pr pr' G E; cbn in E.
  - inversion E; subst. split; [exact G|]. split; [auto|]. split; [intros q []|]. auto.
  - destruct (parse_missing _ _ _ _ pr p) as [pr1| |] eqn:E1; cbn in E; try discriminate.
    destruct (parse_missing_step _ _ _ G E1) as (G1 & X1 & N1 & P1).
    destruct (IH _ _ G1 E) as (G2 & X2 & P2 & N2).
    split; [exact G2|]. split; [auto|]. split.
    + intros q [<-|I] H; [|apply P2; auto].
      destruct (find_parsed pr1 p) as [f|] eqn:F; [rewrite (X2 _ _ F) in H; discriminate|].
      apply P1; auto.
    + intros q H NI. apply N2; [|intros I; apply NI; right; exact I].
      apply N1; auto. intros ->. apply NI. left; reflexivity.
Qed.
(** After the missing packages were parsed, the project has what there is. *)
Lemma parsed_file_of want pr pr' : grown pr -> find_and_parse_missing want pr = Ret pr' ->
  forall p f, In p want -> (find_parsed pr' p = Some f <-> file_of p f).
Proof.
  intros G E p f I. destruct (parse_missing_all _ _ _ G E) as (G' & _ & P & _). split.
  - apply G'.
  - intros F. destruct (find_parsed pr' p) as [f'|] eqn:F'.
    + f_equal. eapply file_of_fun; [apply G', F'|exact F].
    + exfalso. pose proof (P p I F') as N. unfold S_DepGraph.file_of in F.
      destruct (find_parsed pr0 p) as [f0|] eqn:F0.
      * rewrite (proj2 (proj2 G') _ _ F0) in F'. discriminate.
      * destruct F as (n & c & s & e & a & Pa & _). congruence.
Qed.

(** * Where to start *)
Lemma insert_fold p pt rs : forall todo t,
  In t (fold_left (fun todo r =>
           match qualified_target p (v_text (q_name r)) with
           | Some t => if match_target pt t then set_insert t todo else todo
           | None => todo
           end) rs todo) <->
  In t todo \/ exists r, In r rs /\ qualified_target p (v_text (q_name r)) = Some t /\ match_target pt t = true.
Proof.
  induction rs as [|r rs IH]; intros todo t; cbn [fold_left].
  - split; [auto|]. intros [H|(r & [] & _)]; auto.
  - rewrite IH. destruct (qualified_target p (v_text (q_name r))) as [t'|] eqn:Q.
    + destruct (match_target pt t') eqn:M.
      * rewrite set_insert_in. split.
        -- intros [[->|H]|(r' & I & H)]; eauto 6 using in_eq, in_cons.
        -- intros [H|(r' & [<-|I] & Q' & M')]; eauto.
           rewrite Q in Q'. inversion Q'; auto.
      * split.
        -- intros [H|(r' & I & H)]; eauto 6 using in_cons.
        -- intros [H|(r' & [<-|I] & Q' & M')]; eauto. congruence.
    + split.
      * intros [H|(r' & I & H)]; eauto 6 using in_cons.
      * intros [H|(r' & [<-|I] & Q' & M')]; eauto. congruence.
Qed.
Lemma insert_fold_sorted p pt rs : forall todo, ssorted todo ->
  ssorted (fold_left (fun todo r =>
           match qualified_target p (v_text (q_name r)) with
           | Some t => if match_target pt t then set_insert t todo else todo
           | None => todo
           end) rs todo).
Proof.
  induction rs as [|r rs IH]; intros todo H; cbn [fold_left]; [exact H|].
  apply IH. destruct (qualified_target p _); [|exact H]. destruct (match_target pt t); [|exact H].
  apply set_insert_sorted; exact H.
Qed.
Lemma initial_todo_spec pt files : forall todo todo',
  (forall p f, In (p, f) files -> pf_package f = p) ->
  initial_todo pt files todo = Ret todo' -> ssorted todo ->
  ssorted todo' /\ forall t, In t todo' <->
    In t todo \/ (match_target pt t = true /\ exists f rs r, In (tpackage t, f) files /\
      find_targets [] (pf_ast f) = Ret rs /\ In r rs /\ names t r).
Proof.
  induction files as [|[p f] files IH]; intros todo todo' K E So; cbn [initial_todo] in E.
  - inversion E; subst. split; [exact So|]. intros t. split; [auto|]. intros [H|(_ & f & rs & r & [] & _)]; auto.
  - unfold initial_in_file in E. pose proof (K p f (or_introl eq_refl)) as Kp. rewrite Kp in E.
    assert (K' : forall p f, In (p, f) files -> pf_package f = p) by (intros; apply K; right; auto).
    destruct (match_package pt p) eqn:Mp; cbn [negb] in E.
    + destruct (find_targets [] (pf_ast f)) as [rs| |] eqn:Fr; cbn in E; try discriminate.
      destruct (IH _ _ K' E (insert_fold_sorted _ _ _ _ So)) as (S' & H). split; [exact S'|].
      intros t. rewrite H, insert_fold. split.
      * intros [[I|(r & I & Q & M)]|(M & f' & rs' & r & I & H')]; [auto| |].
        -- right. split; [exact M|]. pose proof (qualified_package _ _ _ Q) as <-.
           exists f, rs, r. split; [left; reflexivity|]. auto.
        -- right. split; [exact M|]. exists f', rs', r. split; [right; exact I|exact H'].
      * intros [I|(M & f' & rs' & r & [I|I] & Fr' & Ir & Nm)]; [auto| |].
        -- inversion I; subst. rewrite Fr in Fr'. inversion Fr'; subst. left. right.
           exists r. auto.
        -- right. split; [exact M|]. exists f', rs', r. auto.
    + cbn in E. destruct (IH _ _ K' E So) as (S' & H). split; [exact S'|].
      intros t. rewrite H. split.
      * intros [I|(M & f' & rs' & r & I & H')]; [auto|]. right. split; [exact M|].
        exists f', rs', r. split; [right; exact I|exact H'].
      * intros [I|(M & f' & rs' & r & [I|I] & H')]; [auto| |].
        -- injection I as Ep Ef. pose proof (match_package_filter _ _ M) as Mt. congruence.
        -- right. split; [exact M|]. exists f', rs', r. auto.
Qed.
Lemma initial_spec pt todo : initial_todo pt (pr_files pr0) [] = Ret todo ->
  ssorted todo /\ forall t, In t todo <-> matches_pattern pr0 pt t.
Proof.
  intros E. destruct (initial_todo_spec pt _ _ _ (proj2 ok0) E I) as (S' & H). split; [exact S'|].
  intros t. rewrite H. unfold matches_pattern. split.
  - intros [[]|(M & f & rs & r & I & H')]. split; [exact M|]. exists f, rs, r. split; [|exact H'].
    apply msorted_find; [apply ok0|exact I].
  - intros (M & f & rs & r & F & H'). right. split; [exact M|]. exists f, rs, r. split; [|exact H'].
    apply map_find_in. exact F.
Qed.

(** * One round *)
Lemma occurrences_app t a b : occurrences t (a ++ b) = occurrences t a + occurrences t b.
Proof. unfold occurrences. rewrite filter_app, app_length. reflexivity. Qed.
Lemma occurrences_one a b : occurrences a [b] = if target_eqb a b then 1 else 0.
Proof. unfold occurrences. cbn [filter]. destruct (target_eqb a b); reflexivity. Qed.
Lemma target_eqb_sym a b : target_eqb a b = target_eqb b a.
Proof.
  destruct (target_eqb a b) eqn:E, (target_eqb b a) eqn:F; auto; exfalso.
  - apply target_eqb_eq in E. subst. rewrite (proj2 (target_eqb_eq b b) eq_refl) in F. discriminate.
  - apply target_eqb_eq in F. subst. rewrite (proj2 (target_eqb_eq a a) eq_refl) in E. discriminate.
Qed.
Lemma target_eqb_keqb a b : target_eqb a b = keqb a b.
Proof.
  destruct (target_eqb a b) eqn:E; symmetry.
  - apply keqb_eq, target_eqb_eq, E.
  - apply keqb_neq. intros ->. rewrite (proj2 (target_eqb_eq b b) eq_refl) in E. discriminate.
Qed.

(** b occurs in depends_on[a] as often as a in has_dependents[b]. *)
Definition converse (g : graph) : Prop := forall a b,
  occurrences b (entry (depends_on g) a) = occurrences a (entry (has_dependents g) b).
Definition gsorted (g : graph) : Prop := msorted (depends_on g) /\ msorted (has_dependents g).

Lemma fold_add p t labels : forall st l0,
  gsorted (rd_graph st) -> map_find t (depends_on (rd_graph st)) = Some l0 -> converse (rd_graph st) ->
  let st' := fold_left (add_dependency p t) labels st in
  let ds := resolved p labels in
  gsorted (rd_graph st') /\ converse (rd_graph st') /\ rd_todo st' = rd_todo st /\
  map_find t (depends_on (rd_graph st')) = Some (l0 ++ ds) /\
  (forall s, s <> t -> map_find s (depends_on (rd_graph st')) = map_find s (depends_on (rd_graph st))) /\
  (forall d, In d (rd_next st') <-> In d (rd_next st) \/
     (In d ds /\ ~ In d (keys (depends_on (rd_graph st))) /\ ~ In d (rd_todo st))).
Proof.
  induction labels as [|lab labels IH]; intros st l0 So F C; cbn [fold_left].
  - cbv zeta. split; [exact So|]. split; [exact C|]. split; [reflexivity|]. split; [rewrite app_nil_r; exact F|].
    split; [auto|]. intros d. split; [auto|]. intros [H|[[] _]]; auto.
  - cbv zeta. unfold resolved. cbn [flat_map]. fold (resolved p labels).
    remember (add_dependency p t st lab) as st1 eqn:Est. unfold add_dependency in Est.
    destruct (parse_target lab p) as [d|] eqn:Pd.
    2: { cbn [app]. subst st1. apply (IH st l0 So F C). }
    set (g := rd_graph st) in *.
    set (g1 := mkGraph (map_update t [] (fun l => l ++ [d]) (depends_on g))
                 (map_update d [] (fun l => l ++ [t]) (has_dependents g))).
    set (next := match map_find d (depends_on g) with
        | None => if negb (set_mem d (rd_todo st)) then set_insert d (rd_next st) else rd_next st
        | Some _ => rd_next st end).
    assert (Est' : st1 = mkRound g1 (rd_todo st) next) by exact Est. clear Est. subst st1.
    assert (Fd : forall s, map_find s (depends_on g1) = if keqb s t then Some (l0 ++ [d]) else map_find s (depends_on g)).
    { intros s. unfold g1. cbn [depends_on]. rewrite map_update_find by apply So. rewrite F. reflexivity. }
    assert (Kk : forall s, In s (keys (depends_on g1)) <-> In s (keys (depends_on g))).
    { intros s. unfold g1. cbn [depends_on]. rewrite map_update_keys. split; [|auto].
      intros [->|H]; [|exact H]. eapply map_find_some_key; eauto. }
    assert (S1 : gsorted g1).
    { split; unfold g1; cbn; apply map_update_sorted; apply So. }
    assert (C1 : converse g1).
    { intros a b. unfold entry. rewrite Fd. unfold g1. cbn [has_dependents].
      rewrite map_update_find by apply So. specialize (C a b). unfold entry in C.
      destruct (keqb_spec a t) as [e|N].
      - subst a. rewrite F in C. rewrite occurrences_app, occurrences_one, C.
        destruct (keqb_spec b d) as [e|N].
        + subst b. rewrite (proj2 (target_eqb_eq d d) eq_refl), occurrences_app, occurrences_one.
          rewrite (proj2 (target_eqb_eq t t) eq_refl). reflexivity.
        + destruct (target_eqb b d) eqn:Eb; [apply target_eqb_eq in Eb; contradiction|]. lia.
      - destruct (keqb_spec b d) as [e|N'].
        + subst b. rewrite occurrences_app, occurrences_one.
          destruct (target_eqb a t) eqn:Ea; [apply target_eqb_eq in Ea; contradiction|].
          rewrite C. lia.
        + exact C. }
    destruct (IH (mkRound g1 (rd_todo st) next) (l0 ++ [d]) S1) as (R1 & R2 & R3 & R4 & R5 & R6).
    { cbn [rd_graph]. rewrite Fd, keqb_refl. reflexivity. }
    { exact C1. }
    cbn [rd_graph rd_todo rd_next] in *.
    split; [exact R1|]. split; [exact R2|]. split; [exact R3|].
    split; [rewrite R4, <- app_assoc; reflexivity|].
    split.
    { intros s N. rewrite R5 by exact N. rewrite Fd. destruct (keqb_spec s t) as [e|N']; [contradiction|reflexivity]. }
    intros x. rewrite R6. rewrite Kk.
    assert (Nx : In x next <-> In x (rd_next st) \/ (x = d /\ ~ In d (keys (depends_on g)) /\ ~ In d (rd_todo st))).
    { unfold next. destruct (map_find d (depends_on g)) as [ds'|] eqn:Md.
      - split; [auto|]. intros [H|(_ & H & _)]; [exact H|]. exfalso. apply H. eapply map_find_some_key; eauto.
      - apply map_find_none in Md. destruct (set_mem d (rd_todo st)) eqn:Mm; cbn [negb].
        + apply set_mem_in in Mm. split; [auto|]. intros [H|(_ & _ & H)]; [exact H|contradiction].
        + apply set_mem_false in Mm. rewrite set_insert_in. split.
          * intros [->|H]; auto.
          * intros [H|(-> & _)]; auto. }
    rewrite Nx. cbn [app]. split.
    + intros [[H|(-> & H)]|(H & H')].
      * auto.
      * right. split; [left; reflexivity|exact H].
      * right. split; [right; exact H|exact H'].
    + intros [H|([->|H] & H')]; auto.
Qed.

Section Round.
(** The graph at the beginning of the round, and the targets to resolve. *)
Variable g0 : graph.
Variable T0 : list target.
Notation K0 := (keys (depends_on g0)).
Hypothesis disjoint0 : forall t, In t T0 -> ~ In t K0.

Record inv (st : round) : Prop := mkInv {
  i_sorted : gsorted (rd_graph st);
  i_todo : forall t, In t (rd_todo st) <-> In t T0 /\ ~ In t (keys (depends_on (rd_graph st)));
  i_keys : forall t, In t (keys (depends_on (rd_graph st))) -> In t K0 \/ In t T0;
  i_keep : forall t ds, map_find t (depends_on g0) = Some ds -> map_find t (depends_on (rd_graph st)) = Some ds;
  i_new : forall t ds, map_find t (depends_on (rd_graph st)) = Some ds -> ~ In t K0 -> dependencies t ds;
  i_next : forall d, In d (rd_next st) <->
             ~ In d K0 /\ ~ In d T0 /\ exists t ds, ~ In t K0 /\ map_find t (depends_on (rd_graph st)) = Some ds /\ In d ds;
  i_conv : converse (rd_graph st)
}.

Lemma inv_init : gsorted g0 -> converse g0 -> inv (mkRound g0 T0 []).
Proof.
  intros So C. constructor; cbn [rd_graph rd_todo rd_next]; auto.
  - intros t. split; [intros I; split; [exact I|apply disjoint0, I]|intros [I _]; exact I].
  - intros t ds F N. exfalso. apply N. eapply map_find_some_key; eauto.
  - intros d. split; [intros []|]. intros (_ & _ & t & ds & N & F & _). exfalso. apply N.
    eapply map_find_some_key; eauto.
Qed.

(** One rule, which is the first of its name if its target is still to be resolved. *)
Lemma visit_rule_inv p st r st' f a b : inv st ->
  file_of p f -> find_targets [] (pf_ast f) = Ret (a ++ r :: b) ->
  (forall t, In t (rd_todo st) -> tpackage t = p -> forall r', In r' a -> ~ names t r') ->
  visit_rule p st r = Ret st' ->
  inv st' /\ (forall t, In t (rd_todo st') -> In t (rd_todo st)) /\
  (forall t, In t (rd_todo st') -> tpackage t = p -> forall r', In r' (a ++ [r]) -> ~ names t r').
Proof.
  intros Iv F Fr Un E. unfold visit_rule in E.
  destruct (qualified_target p (v_text (q_name r))) as [t|] eqn:Q.
  2: { inversion E; subst. split; [exact Iv|]. split; [auto|]. intros t I Tp r' Ir Nm.
       apply in_app_iff in Ir as [Ir|[<-|[]]]; [exact (Un t I Tp r' Ir Nm)|].
       unfold names in Nm. rewrite Tp, Q in Nm. discriminate. }
  pose proof (qualified_package _ _ _ Q) as Tp.
  destruct (set_mem t (rd_todo st)) eqn:Mt; cbn [negb] in E.
  2: { inversion E; subst. split; [exact Iv|]. split; [auto|]. intros t' I Tp' r' Ir Nm.
       apply in_app_iff in Ir as [Ir|[<-|[]]]; [exact (Un t' I Tp' r' Ir Nm)|].
       unfold names in Nm. rewrite Tp', Q in Nm. inversion Nm; subst.
       apply set_mem_false in Mt. contradiction. }
  apply set_mem_in in Mt.
  destruct (to_follow r) as [labels| |] eqn:Tf; cbn [bind] in E; try discriminate.
  apply to_follow_spec in Tf. subst labels. inversion E; subst st'; clear E.
  destruct Iv as [So To Ke Kp Nw Nx Cv].
  pose proof (proj1 (To t) Mt) as (Tt & Tk).
  set (g := rd_graph st) in *.
  set (g1 := mkGraph (map_insert t [] (depends_on g)) (has_dependents g)).
  assert (Fd : forall s, map_find s (depends_on g1) = if keqb s t then Some [] else map_find s (depends_on g)).
  { intros s. unfold g1. cbn [depends_on]. rewrite map_insert_find by apply So.
    destruct (keqb_spec s t) as [e|N].
    - subst s. apply map_find_none in Tk. rewrite Tk. reflexivity.
    - destruct (map_find s (depends_on g)); reflexivity. }
  assert (S1 : gsorted g1).
  { split; unfold g1; cbn; [apply map_insert_sorted|]; apply So. }
  assert (C1 : converse g1).
  { intros x y. unfold entry. rewrite Fd. specialize (Cv x y). unfold entry in Cv.
    unfold g1. cbn [has_dependents]. rewrite <- Cv. destruct (keqb_spec x t) as [e|N]; [|reflexivity].
    subst x. apply map_find_none in Tk. rewrite Tk. reflexivity. }
  destruct (fold_add p t (mentioned r) (mkRound g1 (set_erase t (rd_todo st)) (rd_next st)) [] S1)
    as (R1 & R2 & R3 & R4 & R5 & R6).
  { cbn [rd_graph]. rewrite Fd, keqb_refl. reflexivity. }
  { exact C1. }
  cbn [rd_graph rd_todo rd_next app] in *.
  set (st' := fold_left (add_dependency p t) (mentioned r) (mkRound g1 (set_erase t (rd_todo st)) (rd_next st))) in *.
  assert (Fs : forall s, map_find s (depends_on (rd_graph st')) =
              if keqb s t then Some (resolved p (mentioned r)) else map_find s (depends_on g)).
  { intros s. destruct (keqb_spec s t) as [e|N]; [subst s; exact R4|].
    rewrite R5 by exact N. rewrite Fd. destruct (keqb_spec s t) as [e|N']; [contradiction|reflexivity]. }
  assert (Ks : forall s, In s (keys (depends_on (rd_graph st'))) <-> s = t \/ In s (keys (depends_on g))).
  { intros s. rewrite in_keys. rewrite Fs. destruct (keqb_spec s t) as [e|N].
    - split; [auto|]. intros _. eauto.
    - rewrite <- in_keys. split; [auto|]. intros [H|H]; [contradiction|exact H]. }
  assert (K1 : forall s, In s (keys (depends_on g1)) <-> s = t \/ In s (keys (depends_on g))).
  { intros s. rewrite in_keys, Fd. destruct (keqb_spec s t) as [e|N].
    - split; [auto|]. intros _. eauto.
    - rewrite <- in_keys. split; [auto|]. intros [H|H]; [contradiction|exact H]. }
  assert (Dt : dependencies t (resolved p (mentioned r))).
  { exists r. rewrite Tp. split; [|reflexivity]. exists f, a, b. rewrite Tp. split; [exact F|]. split; [exact Fr|].
    split; [unfold names; rewrite Tp; exact Q|]. intros r' I. apply Un; auto. }
  split; [constructor|split].
  - exact R1.
  - intros s. rewrite R3, set_erase_in, To, Ks. split.
    + intros [[A B] N]. split; [exact A|]. intros [H|H]; auto.
    + intros [A N]. split; [split; [exact A|]|]; intros H; apply N; auto.
  - intros s H. apply Ks in H as [->|H]; auto.
  - intros s ds H. rewrite Fs. destruct (keqb_spec s t) as [e|N]; [|apply Kp; exact H].
    subst s. exfalso. apply (disjoint0 t Tt). eapply map_find_some_key; eauto.
  - intros s ds H N. rewrite Fs in H. destruct (keqb_spec s t) as [e|N'].
    + subst s. inversion H; subst. exact Dt.
    + apply Nw; assumption.
  - intros d. rewrite R6, Nx. split.
    + intros [(A & B & s & ds & H1 & H2 & H3)|(H1 & H2 & H3)].
      * split; [exact A|]. split; [exact B|]. exists s, ds. split; [exact H1|]. split; [|exact H3].
        rewrite Fs. destruct (keqb_spec s t) as [e|N]; [|exact H2].
        subst s. exfalso. apply Tk. eapply map_find_some_key; eauto.
      * rewrite K1 in H2. rewrite set_erase_in, To in H3.
        assert (D1 : d <> t) by (intros ->; apply H2; auto).
        assert (D2 : ~ In d (keys (depends_on g))) by (intros H; apply H2; auto).
        split.
        { intros H. apply D2. apply in_keys in H as (ds & H). eapply map_find_some_key, Kp, H. }
        split; [intros H; apply H3; auto|].
        exists t, (resolved p (mentioned r)). split; [apply disjoint0; exact Tt|].
        split; [rewrite Fs, keqb_refl; reflexivity|exact H1].
    + intros (A & B & s & ds & H1 & H2 & H3). rewrite Fs in H2. destruct (keqb_spec s t) as [e|N].
      * subst s. inversion H2; subst ds. right. split; [exact H3|]. rewrite K1, set_erase_in, To.
        split; [|intros [[H _] _]; contradiction].
        intros [->|H]; [contradiction|]. apply Ke in H as [H|H]; contradiction.
      * left. split; [exact A|]. split; [exact B|]. exists s, ds. auto.
  - exact R2.
  - intros s H. rewrite R3, set_erase_in in H. apply H.
  - intros s H Sp r' Ir Nm. rewrite R3, set_erase_in in H. destruct H as [H Ns].
    apply in_app_iff in Ir as [Ir|[<-|[]]]; [exact (Un s H Sp r' Ir Nm)|].
    unfold names in Nm. rewrite Sp, Q in Nm. inversion Nm; subst. contradiction.
Qed.

Lemma visit_rules_inv p f rs : forall a st st', inv st -> file_of p f ->
  find_targets [] (pf_ast f) = Ret (a ++ rs) ->
  (forall t, In t (rd_todo st) -> tpackage t = p -> forall r', In r' a -> ~ names t r') ->
  visit_rules p rs st = Ret st' ->
  inv st' /\ (forall t, In t (rd_todo st') -> In t (rd_todo st)) /\
  (forall t, In t (rd_todo st') -> tpackage t = p -> ~ exists_target t).
Proof.
  induction rs as [|r rs IH]; intros a st st' Iv F Fr Un E; cbn [visit_rules] in E.
  - inversion E; subst. split; [exact Iv|]. split; [auto|].
    intros t I Tp (r & f' & a' & b' & F' & Fr' & Nm & _). rewrite Tp in F'.
    rewrite (file_of_fun _ _ _ F' F), Fr, app_nil_r in Fr'. inversion Fr'; subst a.
    apply (Un t I Tp r); [|exact Nm]. apply in_app_iff. right. left. reflexivity.
  - destruct (visit_rule p st r) as [st1| |] eqn:E1; cbn [bind] in E; try discriminate.
    destruct (visit_rule_inv p st r st1 f a rs Iv F Fr Un E1) as (I1 & M1 & U1).
    assert (Fr1 : find_targets [] (pf_ast f) = Ret ((a ++ [r]) ++ rs)) by (rewrite <- app_assoc; exact Fr).
    destruct (IH (a ++ [r]) st1 st' I1 F Fr1 U1 E) as (I2 & M2 & U2).
    split; [exact I2|]. split; [auto|exact U2].
Qed.

Lemma scan_inv pr ps : forall st st', inv st ->
  (forall p f, In p ps -> (find_parsed pr p = Some f <-> file_of p f)) ->
  scan_packages pr ps st = Ret st' ->
  inv st' /\ (forall t, In t (rd_todo st') -> In t (rd_todo st)) /\
  (forall t, In t (rd_todo st') -> In (tpackage t) ps -> ~ exists_target t).
Proof.
  induction ps as [|p ps IH]; intros st st' Iv H E; cbn [scan_packages] in E.
  - inversion E; subst. split; [exact Iv|]. split; [auto|]. intros t _ [].
  - assert (H' : forall p f, In p ps -> (find_parsed pr p = Some f <-> file_of p f)) by (intros; apply H; right; auto).
    destruct (find_parsed pr p) as [f|] eqn:Fp.
    + pose proof (proj1 (H p f (or_introl eq_refl)) Fp) as F.
      destruct (find_targets [] (pf_ast f)) as [rs| |] eqn:Fr; cbn [bind] in E; try discriminate.
      destruct (visit_rules p rs st) as [st1| |] eqn:E1; cbn [bind] in E; try discriminate.
      destruct (visit_rules_inv p f rs [] st st1 Iv F Fr) as (I1 & M1 & U1); [intros t _ _ r' []|exact E1|].
      destruct (IH st1 st' I1 H' E) as (I2 & M2 & U2).
      split; [exact I2|]. split; [auto|]. intros t It [Hp|Hp]; [|apply U2; assumption].
      apply U1; auto.
    + destruct (IH st st' Iv H' E) as (I2 & M2 & U2).
      split; [exact I2|]. split; [exact M2|]. intros t It [Hp|Hp]; [|apply U2; assumption].
      intros (r & f' & a' & b' & F' & _). rewrite <- Hp in F'.
      apply (H p f' (or_introl eq_refl)) in F'. congruence.
Qed.
End Round.

(** What a round does. *)
Lemma round_spec g pr todo g' pr' todo' :
  grown pr -> gsorted g -> converse g -> (forall t, In t todo -> ~ In t (keys (depends_on g))) ->
  run_round w read_file can_read glob_in g pr todo = Ret (g', pr', todo') ->
  grown pr' /\ gsorted g' /\ converse g' /\
  (forall q f, find_parsed pr q = Some f -> find_parsed pr' q = Some f) /\
  (forall t, In t (keys (depends_on g')) <-> In t (keys (depends_on g)) \/ (In t todo /\ exists_target t)) /\
  (forall t ds, map_find t (depends_on g) = Some ds -> map_find t (depends_on g') = Some ds) /\
  (forall t ds, ~ In t (keys (depends_on g)) -> map_find t (depends_on g') = Some ds -> dependencies t ds) /\
  (forall d, In d todo' <-> ~ In d (keys (depends_on g)) /\ ~ In d todo /\ exists t, In t todo /\ depends t d).
Proof.
  intros G So C Dj E. unfold run_round in E.
  set (scan := set_of_list (map tpackage todo)) in *.
  destruct (find_and_parse_missing scan pr) as [pr1| |] eqn:E1; cbn [bind] in E; try discriminate.
  destruct (scan_packages pr1 scan (mkRound g todo [])) as [st| |] eqn:E2; cbn [bind] in E; try discriminate.
  inversion E; subst; clear E.
  destruct (parse_missing_all _ _ _ G E1) as (G' & Ex & _ & _).
  pose proof (parsed_file_of _ _ _ G E1) as Pf.
  assert (Sc : forall t, In t todo -> In (tpackage t) scan).
  { intros t I. apply set_of_list_in. apply in_map. exact I. }
  destruct (scan_inv g todo Dj pr' scan _ st (inv_init g todo Dj So C)) as (Iv & Mo & Un).
  { intros p f I. apply Pf. exact I. }
  { exact E2. }
  destruct Iv as [So' To Ke Kp Nw Nx Cv].
  assert (Ks : forall t, In t (keys (depends_on (rd_graph st))) <->
             In t (keys (depends_on g)) \/ (In t todo /\ exists_target t)).
  { intros t. split.
    - intros H. destruct (Ke t H) as [H'|H']; [auto|]. right. split; [exact H'|].
      apply in_keys in H as (ds & H). destruct (Nw t ds H (Dj t H')) as (r & R & _). exists r. exact R.
    - intros [H|[H X]].
      + apply in_keys in H as (ds & H). eapply map_find_some_key, Kp, H.
      + destruct (in_dec key_dec t (keys (depends_on (rd_graph st)))) as [I|N]; [exact I|].
        exfalso. assert (It : In t (rd_todo st)) by (apply To; auto). apply (Un t It (Sc t H) X). }
  split; [exact G'|]. split; [exact So'|]. split; [exact Cv|]. split; [exact Ex|]. split; [exact Ks|].
  split; [exact Kp|]. split; [intros t ds N F; apply Nw; assumption|].
  intros d. rewrite Nx. split.
  - intros (A & B & t & ds & H1 & H2 & H3). split; [exact A|]. split; [exact B|]. exists t.
    pose proof (Ke t (map_find_some_key _ _ _ H2)) as [H|H]; [contradiction|]. split; [exact H|].
    exists ds. split; [apply Nw; assumption|exact H3].
  - intros (A & B & t & H1 & ds & (r & R & ->) & H3). split; [exact A|]. split; [exact B|].
    assert (X : In t (keys (depends_on (rd_graph st)))) by (apply Ks; right; split; [exact H1|exists r; exact R]).
    apply in_keys in X as (ds' & X). exists t, ds'. split; [apply Dj; exact H1|]. split; [exact X|].
    destruct (Nw t ds' X (Dj t H1)) as (r' & R' & ->). rewrite (rule_of_fun _ _ _ R' R). exact H3.
Qed.

(** * All rounds *)
Section Rounds.
Variable pt : pattern.
Notation reach := (reach pt).

(** After k rounds. *)
Record rinv (k : nat) (g : graph) (pr : parsed_project) (todo : list target) : Prop := mkRinv {
  v_grown : grown pr;
  v_sorted : gsorted g;
  v_conv : converse g;
  v_disj : forall t, In t todo -> ~ In t (keys (depends_on g));
  v_keys : forall t, In t (keys (depends_on g)) <-> exists_target t /\ exists j, j < k /\ reach j t;
  v_todo : forall t, In t todo -> reach k t;
  v_all : forall t, reach k t -> exists_target t -> In t (keys (depends_on g)) \/ In t todo;
  v_deps : forall t ds, map_find t (depends_on g) = Some ds -> dependencies t ds;
  v_closed : forall s d, In s (keys (depends_on g)) -> depends s d -> exists_target d ->
               In d (keys (depends_on g)) \/ In d todo;
  v_size : todo <> [] -> k <= length (depends_on g)
}.

Lemma rinv_start todo : initial_todo pt (pr_files pr0) [] = Ret todo ->
  rinv 0 (mkGraph [] []) pr0 todo.
Proof.
  intros E. destruct (initial_spec pt todo E) as (So & H).
  constructor; cbn; auto.
  - apply grown0.
  - split; exact I.
  - intros a b. reflexivity.
  - intros t. split; [intros []|]. intros (_ & j & L & _). lia.
  - intros t I. apply reach_start. apply H. exact I.
  - intros t R _. right. inversion R; subst. apply H. assumption.
  - discriminate.
Qed.

Lemma rinv_round k g pr todo g' pr' todo' : rinv k g pr todo ->
  run_round w read_file can_read glob_in g pr todo = Ret (g', pr', todo') ->
  rinv (S k) g' pr' todo'.
Proof.
  intros [G So C Dj Ks To Al De Cl Sz] E.
  destruct (round_spec _ _ _ _ _ _ G So C Dj E) as (G' & So' & C' & Ex & Ks' & Kp & Nw & Nx).
  assert (Kold : forall t, In t (keys (depends_on g)) -> In t (keys (depends_on g'))) by (intros; apply Ks'; auto).
  assert (Cl' : forall s d, In s (keys (depends_on g')) -> depends s d -> exists_target d ->
               In d (keys (depends_on g')) \/ In d todo').
  { intros s d Hs D X. apply Ks' in Hs as [Hs|[Hs Xs]].
    - destruct (Cl s d Hs D X) as [H|H]; [auto|]. left. apply Ks'. auto.
    - destruct (in_dec key_dec d (keys (depends_on g))) as [I1|N1]; [auto|].
      destruct (in_dec key_dec d todo) as [I2|N2]; [left; apply Ks'; auto|].
      right. apply Nx. split; [exact N1|]. split; [exact N2|]. exists s. auto. }
  constructor; auto.
  - intros d I H. apply Nx in I as (A & B & _). apply Ks' in H as [H|[H _]]; contradiction.
  - intros t. rewrite Ks', Ks. split.
    + intros [(X & j & L & R)|(H & X)]; (split; [exact X|]).
      * exists j. split; [lia|exact R].
      * exists k. split; [lia|auto].
    + intros (X & j & L & R). destruct (Nat.eq_dec j k) as [->|N].
      * destruct (Al t R X) as [H|H]; [left; apply Ks; exact H|auto].
      * left. split; [exact X|]. exists j. split; [lia|exact R].
  - intros d I. apply Nx in I as (_ & _ & t & It & D). eapply reach_step; [apply To, It|exact D].
  - intros d R X. inversion R; subst.
    assert (Hs : In s (keys (depends_on g'))).
    { match goal with H : depends _ _ |- _ => destruct H as (ds & (r & Rr & _) & _) end.
      apply Ks'. destruct (Al s) as [H|H]; [assumption|exists r; exact Rr|auto|].
      right. split; [exact H|exists r; exact Rr]. }
    eapply Cl'; eauto.
  - intros t ds F. destruct (in_dec key_dec t (keys (depends_on g))) as [I|N].
    + apply in_keys in I as (ds' & F'). rewrite (Kp _ _ F') in F. inversion F; subst. apply De. exact F'.
    + apply Nw; assumption.
  - intros Ne. destruct todo' as [|d todo']; [contradiction|].
    destruct (proj1 (Nx d) (or_introl eq_refl)) as (_ & _ & t & It & ds & (r & R & _) & _).
    assert (L : k <= length (depends_on g)) by (apply Sz; intros ->; destruct It).
    assert (L2 : length (t :: keys (depends_on g)) <= length (keys (depends_on g'))).
    { apply NoDup_incl_length.
      - constructor; [apply Dj; exact It|]. apply ssorted_nodup. apply So.
      - intros x [<-|Hx]; [apply Ks'; right; split; [exact It|exists r; exact R]|auto]. }
    unfold keys in L2. cbn [length] in L2. rewrite !map_length in L2. lia.
Qed.

Lemma rounds_spec depth : forall k g pr todo g' pr' todo', rinv k g pr todo ->
  rounds w read_file can_read glob_in depth g pr todo = Ret (g', pr', todo') ->
  exists n, k < n <= k + depth + 1 /\ rinv n g' pr' todo' /\ (todo' = [] \/ n = k + depth + 1).
Proof.
  induction depth as [|depth IH]; intros k g pr todo g' pr' todo' Iv E; cbn [rounds] in E;
    destruct (run_round _ _ _ _ g pr todo) as [[[g1 pr1] todo1]| |] eqn:E1; cbn [bind] in E; try discriminate;
    pose proof (rinv_round _ _ _ _ _ _ _ Iv E1) as Iv1.
  - inversion E; subst. exists (S k). split; [lia|]. split; [exact Iv1|]. right. lia.
  - destruct (is_nil todo1) eqn:Nt.
    + inversion E; subst. exists (S k). split; [lia|]. split; [exact Iv1|]. left. apply is_nil_true. exact Nt.
    + destruct (IH (S k) _ _ _ _ _ _ Iv1 E) as (n & L & H & D). exists n. split; [lia|]. split; [exact H|].
      destruct D as [D|D]; [auto|right; lia].
Qed.

(** If nothing is left to do, all that is reachable was found. *)
Lemma rinv_complete n g pr : rinv n g pr [] -> 0 < n ->
  forall t, In t (keys (depends_on g)) <-> exists_target t /\ exists j, reach j t.
Proof.
  intros Iv L t. split.
  - intros H. apply (v_keys _ _ _ _ Iv) in H as (X & j & _ & R). eauto.
  - intros (X & j & R). revert t X R. induction j as [|j IH]; intros t X R.
    + apply (v_keys _ _ _ _ Iv). split; [exact X|]. exists 0. auto.
    + inversion R; subst.
      assert (Hs : In s (keys (depends_on g))).
      { apply IH; [|assumption].
        match goal with H : depends _ _ |- _ => destruct H as (ds & (r & Rr & _) & _) end. exists r. exact Rr. }
      destruct (v_closed _ _ _ _ Iv s t Hs) as [H|[]]; assumption.
Qed.

(** The graph built. *)
Theorem graph_spec depth g pr todo :
  build_graph w read_file can_read glob_in pt depth pr0 = Ret (g, pr, todo) ->
  grown pr /\ gsorted g /\ converse g /\
  (forall t, In t (keys (depends_on g)) <-> exists_target t /\ exists j, j <= Z.to_nat depth /\ reach j t) /\
  (forall t ds, map_find t (depends_on g) = Some ds -> dependencies t ds) /\
  (todo = [] -> forall t, In t (keys (depends_on g)) <-> exists_target t /\ exists j, reach j t) /\
  (todo <> [] -> Z.to_nat depth < length (depends_on g)).
Proof.
  unfold build_graph. destruct (initial_todo pt (pr_files pr0) []) as [todo0| |] eqn:E0; cbn [bind]; try discriminate.
  intros E. destruct (rounds_spec _ _ _ _ _ _ _ _ (rinv_start _ E0) E) as (n & L & Iv & D).
  split; [apply Iv|]. split; [apply Iv|]. split; [apply Iv|]. split; [|split; [apply Iv|split]].
  - intros t. destruct D as [->| ->].
    + split.
      * intros H. apply (v_keys _ _ _ _ Iv) in H as (X & j & Lj & R). split; [exact X|]. exists j. split; [lia|exact R].
      * intros (X & j & _ & R). apply (rinv_complete _ _ _ Iv); [lia|]. eauto.
    + rewrite (v_keys _ _ _ _ Iv). split; intros (X & j & Lj & R); (split; [exact X|]); exists j; (split; [lia|exact R]).
  - intros ->. apply (rinv_complete _ _ _ Iv). lia.
  - intros N. destruct D as [D|D]; [contradiction|]. pose proof (v_size _ _ _ _ Iv N). lia.
Qed.

(** More depth does not matter once all is done, or if something went wrong. *)
Lemma rounds_more d : forall m g pr todo,
  match rounds w read_file can_read glob_in d g pr todo with
  | Ret (g', pr', []) => rounds w read_file can_read glob_in (d + m) g pr todo = Ret (g', pr', [])
  | Ret _ => True
  | x => rounds w read_file can_read glob_in (d + m) g pr todo = x
  end.
Proof.
  induction d as [|d IH]; intros m g pr todo.
  - cbn [rounds]. destruct (run_round _ _ _ _ g pr todo) as [[[g1 pr1] todo1]| |] eqn:E1; cbn [bind].
    + destruct todo1; [|exact I]. destruct m; cbn [Nat.add rounds]; rewrite E1; reflexivity.
    + destruct m; cbn [Nat.add rounds]; rewrite E1; reflexivity.
    + destruct m; cbn [Nat.add rounds]; rewrite E1; reflexivity.
  - cbn [Nat.add rounds]. destruct (run_round _ _ _ _ g pr todo) as [[[g1 pr1] todo1]| |] eqn:E1; cbn [bind]; auto.
    destruct (is_nil todo1) eqn:Nt; [apply is_nil_true in Nt; subst; reflexivity|]. apply IH.
Qed.
Theorem depth_enough (U : list target) d :
  (forall t j, exists_target t -> reach j t -> In t U) -> length U <= d ->
  forall depth, (Z.of_nat d <= depth)%Z ->
  build_graph w read_file can_read glob_in pt depth pr0 = build_graph w read_file can_read glob_in pt (Z.of_nat d) pr0 /\
  forall g pr todo, build_graph w read_file can_read glob_in pt depth pr0 = Ret (g, pr, todo) -> todo = [].
Proof.
  intros HU Ld depth Le.
  assert (Fin : forall depth g pr todo, (Z.of_nat d <= depth)%Z ->
     build_graph w read_file can_read glob_in pt depth pr0 = Ret (g, pr, todo) -> todo = []).
  { intros dp g pr todo L E. destruct (graph_spec _ _ _ _ E) as (_ & So & _ & Ks & _ & _ & Sz).
    destruct todo as [|t todo]; [reflexivity|]. exfalso.
    assert (Lt : Z.to_nat dp < length (depends_on g)) by (apply Sz; discriminate).
    assert (L2 : length (keys (depends_on g)) <= length U).
    { apply NoDup_incl_length; [apply ssorted_nodup, So|]. intros x Hx. apply Ks in Hx as (X & j & _ & R). eauto. }
    unfold keys in L2. rewrite map_length in L2. lia. }
  split; [|intros g pr todo; apply Fin; exact Le].
  pose proof (Fin (Z.of_nat d)) as F1. unfold build_graph in *.
  destruct (initial_todo pt (pr_files pr0) []) as [todo0| |]; cbn [bind] in *; try reflexivity.
  rewrite Nat2Z.id in *.
  replace (Z.to_nat depth) with (d + (Z.to_nat depth - d)) by lia.
  pose proof (rounds_more d (Z.to_nat depth - d) (mkGraph [] []) pr0 todo0) as M.
  destruct (rounds w read_file can_read glob_in d (mkGraph [] []) pr0 todo0) as [[[g pr] todo]| |] eqn:E.
  - pose proof (F1 g pr todo (Z.le_refl _) eq_refl). subst. exact M.
  - exact M.
  - exact M.
Qed.
End Rounds.
End P.
