(** Proofs about the compilation database: reasons for directories, crashes, entries, and reading it. *)
From Coq Require Import NArith Lia.
From Verif Require Import Base OMap M_Types M_Scanner M_Ast M_Query S_Query P_Query S_Elab P_Elab M_Workspace M_Project S_DepGraph S_Headers P_Headers S_Table P_Table P_Types P_Print.
From Verif Require Import M_CompDb S_CompDb P_CompDb.

(** * Why a directory is there *)
Lemma asked w earlier p r t k ds : named p r t -> In (k, ds) (rule_asks w earlier p r t) ->
  own_dir w p r k /\ ds = [k] \/
  is_protobuf p /\ (k = mark /\ ds = [] \/ protobuf_dir p k /\ ds = [k]) \/
  needs_project p r k /\ forall d, In d ds <-> project_dir w k d.
Proof.
  intros N. unfold rule_asks. rewrite !in_app_iff. intros [[H|H]|[H|H]].
  - apply in_map_iff in H as (i & E & I). unfold itself in E. injection E as <- <-. left. split; [|reflexivity]. now apply included.
  - left. unfold virtual_asks in H. destruct (v_text (q_include_prefix r)) eqn:E; [destruct H|]. destruct H as [H|[]]. unfold itself in H. injection H as <- <-.
    split; [|reflexivity]. apply prefixed; [exact N|congruence].
  - unfold protobuf_asks in H. destruct (contains ($"protobuf") (project p)) eqn:C; [|destruct H].
    assert (PB : is_protobuf p) by (apply contains_iff in C as (a & b & C); exists a, b; exact C).
    apply in_app_iff in H as [H|H].
    + right; left. split; [exact PB|]. destruct (existsb _ _); [destruct H|]. destruct H as [H|H]; [injection H as <- <-; auto|].
      right. apply in_map_iff in H as (x & E & I). unfold itself in E. injection E as <- <-. split; [|reflexivity]. exists x. auto.
    + left. destruct (str_eqb (v_text (q_rule r)) ($"proto_library")) eqn:K; [|destruct H]. apply str_eqb_eq in K. destruct H as [H|[]]. unfold itself in H. injection H as <- <-.
      split; [|reflexivity]. now apply proto.
  - right; right. apply in_flat_map in H as (label & I & H). unfold project_asks in H. destruct (parse_target label p) as [t'|] eqn:P; [|destruct H].
    destruct (project (tpackage t')) as [|c name] eqn:Pn; [destruct H|]. destruct H as [H|[]]. injection H as <- <-. split.
    + exists label, t'. rewrite Pn. repeat split; auto. discriminate.
    + intros d. unfold project_dir. destruct (find_path_by_project w (c :: name)) as [dir|].
      * cbn [In tl]. split; [intros [<-|[<-|[]]]; exists dir; auto|]. intros (dir' & E & [->| ->]); injection E as <-; auto.
      * split; [intros []|]. intros (dir & E & _). discriminate.
Qed.
Lemma asks_own w earlier p r t d : named p r t -> own_dir w p r d -> In (d, [d]) (rule_asks w earlier p r t).
Proof.
  intros N H. unfold rule_asks. rewrite !in_app_iff. destruct H as [i I|t' N' E|t' N' K (a & b & C)].
  - left; left. apply in_map_iff. exists i. auto.
  - left; right. unfold named in *. rewrite N in N'. injection N' as <-. unfold virtual_asks. destruct (v_text (q_include_prefix r)); [congruence|]. left. reflexivity.
  - right; left. unfold named in *. rewrite N in N'. injection N' as <-. unfold protobuf_asks. rewrite (proj2 (contains_iff _ _)) by eauto.
    rewrite K, (proj2 (str_eqb_eq _ _) eq_refl). apply in_app_iff. right. left. reflexivity.
Qed.
Lemma asks_project w earlier p r t proj : needs_project p r proj -> exists ds, In (proj, ds) (rule_asks w earlier p r t).
Proof.
  intros (label & t' & I & P & -> & N). unfold rule_asks. destruct (project (tpackage t')) as [|c name] eqn:E; [congruence|].
  eexists. rewrite !in_app_iff. right; right. apply in_flat_map. exists label. split; [exact I|]. unfold project_asks. rewrite P, E. left. reflexivity.
Qed.
Section Reasons.
Variables (w : workspace) (pr : parsed_project) (asks : list (str * list str)).
Hypothesis FA : files_ask w (pr_files pr) [] asks.
Lemma asks_from x : In x asks -> exists p r t earlier later, rule_in pr p r /\ named p r t /\ asks = earlier ++ rule_asks w earlier p r t ++ later /\
  In x (rule_asks w earlier p r t).
Proof.
  intros I. destruct (files_ask_in _ _ _ _ FA) as (_ & H & _). destruct (H x I) as [[]|(key & f & rs & r & t & e & A1 & A2 & A3 & A4 & (later & A5) & A6)].
  exists (pf_package f), r, t, e, later. repeat split; auto. exists key, f, rs. auto.
Qed.
Lemma asks_rule p r : rule_in pr p r -> exists t earlier later, named p r t /\ asks = earlier ++ rule_asks w earlier p r t ++ later.
Proof.
  intros (key & f & rs & I & F & R & ->). destruct (files_ask_in _ _ _ _ FA) as (_ & _ & H). destruct (H key f rs r I F R) as (t & e & N & later & E).
  exists t, e, later. auto.
Qed.
Lemma in_asks e p r t later x : asks = e ++ rule_asks w e p r t ++ later -> In x (rule_asks w e p r t) -> In x asks.
Proof. intros -> I. rewrite !in_app_iff. auto. Qed.
Hypothesis NC : no_clash w pr.
Lemma one_dir p r d ds : rule_in pr p r -> own_dir w p r d \/ is_protobuf p /\ protobuf_dir p d -> In (d, ds) asks -> ds = [d].
Proof.
  intros R O I. apply asks_from in I as (p' & r' & t & e & later & R' & N & _ & I). destruct (proj1 NC _ _ _ R O) as [M P].
  apply asked in I; [|exact N]. destruct I as [(_ & E)|[(_ & [(E & _)|(_ & E)])|(E & _)]]; auto; [contradiction|]. destruct (P _ _ R' E).
Qed.
Lemma listed_dir p r d more : rule_in pr p r -> own_dir w p r d \/ is_protobuf p /\ protobuf_dir p d -> In (d, [d]) asks -> collected asks more -> In d more.
Proof. intros R O I C. apply (collected_all _ _ C d [d]); [exact I| |left; reflexivity]. intros ds. now apply (one_dir p r). Qed.
Lemma protobuf_listed p r more : rule_in pr p r -> is_protobuf p -> collected asks more ->
  exists p' r', rule_in pr p' r' /\ is_protobuf p' /\ forall d, protobuf_dir p' d -> In d more.
Proof.
  intros R PB C.
  assert (G : forall p' r' t e later, rule_in pr p' r' -> named p' r' t -> asks = e ++ rule_asks w e p' r' t ++ later -> is_protobuf p' ->
    In (mark, []) (rule_asks w e p' r' t) -> forall d, protobuf_dir p' d -> In d more).
  { intros p' r' t e later R' N E PB' I d D. apply (listed_dir p' r' d more R' (or_intror (conj PB' D))); [|exact C]. apply (in_asks _ _ _ _ _ _ E).
    unfold rule_asks in I |- *. rewrite !in_app_iff in *. right; left. destruct I as [[I|I]|[I|I]].
    - apply in_map_iff in I as (x & X & _). discriminate.
    - unfold virtual_asks in I. destruct (v_text _); [destruct I|]. destruct I as [I|[]]. discriminate.
    - unfold protobuf_asks in *. destruct (contains _ _); [|destruct I]. apply in_app_iff in I as [I|I].
      + apply in_app_iff. left. destruct (existsb _ _); [destruct I|]. right. destruct D as (rest & K & ->). apply in_map_iff. exists rest. auto.
      + destruct (str_eqb _ _); [|destruct I]. destruct I as [I|[]]. discriminate.
    - exfalso. apply (proj2 NC _ _ R'). apply in_flat_map in I as (label & L & I). unfold project_asks in I. destruct (parse_target label p') as [t'|] eqn:P; [|destruct I].
      destruct (project (tpackage t')) as [|c name] eqn:Pn; [destruct I|]. destruct I as [I|[]]. apply (f_equal fst) in I. cbn [fst] in I. exists label, t'. split; [exact L|]. split; [exact P|]. split; [congruence|]. intros X. discriminate X. }
  destruct (asks_rule p r R) as (t & e & later & N & E).
  destruct (existsb (str_eqb mark) (map fst (e ++ map (fun i => itself (fully_qualified_file w p i)) (texts (list_of (q_includes r))) ++ virtual_asks p r t))) eqn:M.
  - apply seen_iff, in_map_iff in M as ((k & ds) & K & I). cbn [fst] in K. subst k.
    assert (J : In (mark, ds) asks). { rewrite E. unfold rule_asks. rewrite !in_app_iff in *. tauto. }
    apply asks_from in J as (p' & r' & t' & e' & later' & R' & N' & E' & J). assert (J' := J). apply asked in J'; [|exact N'].
    destruct J' as [(O & _)|[(PB' & [(_ & ->)|(D & _)])|(P & _)]].
    + destruct (proj1 NC _ _ _ R' (or_introl O)) as [H _]. contradiction.
    + exists p', r'. split; [exact R'|]. split; [exact PB'|]. eapply G; eauto.
    + destruct (proj1 NC _ _ _ R' (or_intror (conj PB' D))) as [H _]. contradiction.
    + destruct (proj2 NC _ _ R' P).
  - exists p, r. split; [exact R|]. split; [exact PB|]. apply (G p r t e later); auto. unfold rule_asks. cbv zeta. rewrite M. rewrite !in_app_iff. right; left.
    unfold protobuf_asks. destruct PB as (a & b & PB). rewrite (proj2 (contains_iff _ _)) by eauto. left. reflexivity.
Qed.
End Reasons.
Theorem dirs_reason w pr dirs d : include_dirs w pr dirs -> In d dirs ->
  d = $"." \/ d = $"bazel-bin" \/
  exists p r, rule_in pr p r /\ (own_dir w p r d \/ is_protobuf p /\ protobuf_dir p d \/ exists proj, needs_project p r proj /\ project_dir w proj d).
Proof.
  intros E I. destruct E as (asks & more & FA & C & ->). change ($"." :: $"bazel-bin" :: more) with (first_dirs ++ more) in *. apply in_app_iff in I as [[<-|[<-|[]]]|I]; auto. right; right.
  destruct (collected_from _ _ C d I) as (k & ds & J & D). destruct (asks_from _ _ _ FA _ J) as (p & r & t & e & later & R & N & _ & A).
  exists p, r. split; [exact R|]. apply asked in A; [|exact N]. destruct A as [(O & ->)|[(PB & [(_ & ->)|(O & ->)])|(O & H)]].
  - destruct D as [<-|[]]. auto.
  - destruct D.
  - destruct D as [<-|[]]. auto.
  - right; right. exists k. split; [exact O|]. now apply H.
Qed.
Theorem dirs_complete w pr dirs p r d : include_dirs w pr dirs -> no_clash w pr -> rule_in pr p r ->
  own_dir w p r d \/ (exists proj, needs_project p r proj /\ project_dir w proj d) -> In d dirs.
Proof.
  intros E NC R O. destruct E as (asks & more & FA & C & ->). change ($"." :: $"bazel-bin" :: more) with (first_dirs ++ more) in *. apply in_app_iff. right.
  destruct (asks_rule _ _ _ FA p r R) as (t & e & later & N & A). destruct O as [O|(proj & P & D)].
  - apply (listed_dir w pr asks FA NC p r d); auto. rewrite A, !in_app_iff. right; left. now apply asks_own.
  - destruct (asks_project w e p r t proj P) as (ds & I). assert (J : In (proj, ds) asks) by (rewrite A; rewrite !in_app_iff; auto).
    assert (G : forall ds, In (proj, ds) asks -> forall d, In d ds <-> project_dir w proj d).
    { intros ds' J'. destruct (asks_from _ _ _ FA _ J') as (p' & r' & t' & e' & later' & R' & N' & _ & A'). apply asked in A'; [|exact N'].
      destruct A' as [(O & _)|[(PB & [(-> & _)|(O & _)])|(_ & H)]]; [| | |exact H].
      - destruct (proj1 NC _ _ _ R' (or_introl O)) as [_ H]. destruct (H _ _ R P).
      - destruct (proj2 NC _ _ R P).
      - destruct (proj1 NC _ _ _ R' (or_intror (conj PB O))) as [_ H]. destruct (H _ _ R P). }
    clear I. revert J D G. clear - C. intros J D G. 
    assert (U : exists ds0, In (proj, ds0) asks /\ forall x, In x ds0 -> In x more).
    { clear D G. revert ds J. induction C as [|l r k ds' K C IH|l r k ds' K C IH]; intros ds J; [destruct J| |].
      - assert (In proj (map fst l)). { apply in_app_iff in J as [J|[J|[]]]; [apply in_map_iff; exists (proj, ds); auto|]. injection J as -> _. exact K. }
        apply in_map_iff in H as ((k0 & x) & X & H). cbn [fst] in X. subst k0. destruct (IH _ H) as (y & Y & Z). exists y. rewrite in_app_iff. auto.
      - apply in_app_iff in J as [J|[J|[]]].
        + destruct (IH _ J) as (y & Y & Z). exists y. rewrite in_app_iff. split; [auto|]. intros x X. rewrite in_app_iff. auto.
        + injection J as -> ->. exists ds. rewrite in_app_iff. cbn [In]. split; [auto|]. intros x X. rewrite in_app_iff. auto. }
    destruct U as (ds0 & J0 & U). apply U. now apply (G _ J0).
Qed.
Theorem protobuf_complete w pr dirs p r : include_dirs w pr dirs -> no_clash w pr -> rule_in pr p r -> is_protobuf p ->
  exists p' r', rule_in pr p' r' /\ is_protobuf p' /\ forall d, protobuf_dir p' d -> In d dirs.
Proof.
  intros E NC R PB. destruct E as (asks & more & FA & C & ->). change ($"." :: $"bazel-bin" :: more) with (first_dirs ++ more) in *. destruct (protobuf_listed w pr asks FA NC p r more R PB C) as (p' & r' & R' & PB' & H).
  exists p', r'. split; [exact R'|]. split; [exact PB'|]. intros d D. apply in_app_iff. auto.
Qed.

(** * When there is a result *)
Lemma rule_defined w p r st : readable_results [r] ->
  (rule_dirs w p r st = UB /\ crashing p r) \/ (exists st', rule_dirs w p r st = Ret st') /\ ~ crashing p r.
Proof.
  intros R. assert (R' : forall l, In l (result_lists r) -> exists strs, string_list l = Ret strs) by (intros l; apply R; left; reflexivity).
  unfold rule_dirs. destruct (extract_defined r (q_includes r) R') as [vs ->]; [cbn; auto 10|]. cbn [bind].
  destruct (extract_defined r (q_deps r) R') as [ds ->]; [cbn; auto 10|]. unfold crashing. destruct (qualified_target p (v_text (q_name r))) as [t|] eqn:Q.
  - assert (NN : ~ (v_text (q_name r) = [] \/ v_text (q_name r) = $":")) by (rewrite <- (no_rule_label p); congruence).
    rewrite (qualified_package _ _ _ Q). destruct (v_text (q_include_prefix r)) as [|c l] eqn:Pf; cbn [is_nil bind]; [right; split; [eauto|]; intros [H|[H|(H & _)]]; tauto|].
    destruct (project p) as [|c' l'] eqn:Pj; cbn [bind]; [left; split; [reflexivity|]; right; right; split; [discriminate|reflexivity]|].
    right. split; [eauto|]. intros [H|[H|(_ & H)]]; [tauto|tauto|discriminate].
  - left. split; [reflexivity|]. apply no_rule_label in Q. tauto.
Qed.
Lemma rules_defined w p rs : readable_results rs -> forall st,
  (rules_dirs w p rs st = UB /\ exists r, In r rs /\ crashing p r) \/ (exists st', rules_dirs w p rs st = Ret st') /\ forall r, In r rs -> ~ crashing p r.
Proof.
  induction rs as [|r rs IH]; intros R st; cbn [rules_dirs]; [right; split; [eauto|intros r []]|]. apply readable_cons in R as [R1 R2].
  destruct (rule_defined w p r st R1) as [(-> & C)|((st' & ->) & C)]; cbn [bind]; [left; split; [reflexivity|]; exists r; cbn [In]; auto|].
  destruct (IH R2 st') as [(-> & r' & I & C')|(H & C')]; [left; split; [reflexivity|]; exists r'; cbn [In]; auto|].
  right. split; [exact H|]. intros r' [<-|I]; auto.
Qed.
Lemma files_defined w files : (forall k f, In (k, f) files -> Forall sound (pf_ast f)) -> forall st,
  (files_dirs w files st = UB /\ exists k f rs r, In (k, f) files /\ find_targets include_kinds (pf_ast f) = Ret rs /\ In r rs /\ crashing (pf_package f) r) \/
  (exists st', files_dirs w files st = Ret st') /\
    forall k f rs r, In (k, f) files -> find_targets include_kinds (pf_ast f) = Ret rs -> In r rs -> ~ crashing (pf_package f) r.
Proof.
  induction files as [|[k f] files IH]; intros R st; cbn [files_dirs]; [right; split; [eauto|intros ? ? ? ? []]|].
  destruct (find_targets_defined include_kinds false (pf_ast f)) as (rs & F & RR); [apply (R k); left; reflexivity|].
  change (find_targets include_kinds (pf_ast f) = Ret rs) in F. fold include_kinds. rewrite F. cbn [bind].
  destruct (rules_defined w (pf_package f) rs RR st) as [(-> & r & I & C)|((st' & ->) & C)]; cbn [bind].
  - left. split; [reflexivity|]. exists k, f, rs, r. cbn [In]. auto.
  - destruct (IH (fun k f I => R k f (or_intror I)) st') as [(-> & k' & f' & rs' & r' & I & F' & C')|(H & C')].
    + left. split; [reflexivity|]. exists k', f', rs', r'. cbn [In]. auto.
    + right. split; [exact H|]. intros k' f' rs' r' [E|I] F' I'; [|eauto]. injection E as <- <-. rewrite F in F'. injection F' as <-. auto.
Qed.
Theorem dirs_defined w pr : readable_project pr ->
  (collect_inc_dirs w pr = UB <-> exists p r, rule_in pr p r /\ crashing p r) /\ collect_inc_dirs w pr <> OutOfFuel.
Proof.
  intros R. unfold collect_inc_dirs. destruct (files_defined w (pr_files pr) R (mkDirs [] [$"."; $"bazel-bin"])) as [(-> & k & f & rs & r & I & F & J & C)|((st & ->) & C)]; cbn [bind].
  - split; [|discriminate]. split; [intros _|reflexivity]. exists (pf_package f), r. split; [|exact C]. exists k, f, rs. auto.
  - split; [|discriminate]. split; [discriminate|]. intros (p & r & (k & f & rs & I & F & J & ->) & D). destruct (C k f rs r I F J D).
Qed.

(** * The files *)
Lemma write_entries_spec cwd json files : forall written,
  write_entries cwd json files written = (flat_map (db_entry cwd json) (unseen written files), rev (unseen written files) ++ written).
Proof.
  induction files as [|f files IH]; intros written; cbn [write_entries unseen]; [reflexivity|]. destruct (existsb (str_eqb f) written); [apply IH|].
  rewrite IH. cbn [flat_map rev]. rewrite <- app_assoc. reflexivity.
Qed.
Lemma sources_texts r vs : rule_sources r = Ret vs -> map v_text vs = texts (list_of (q_srcs r)) ++ texts (list_of (q_hdrs r)).
Proof.
  unfold rule_sources. destruct (extract_string_list (q_srcs r)) as [a| |] eqn:A; try discriminate. destruct (extract_string_list (q_hdrs r)) as [b| |] eqn:B; try discriminate.
  cbn [bind]. intros E. injection E as <-. rewrite map_app, (extract_texts _ _ A), (extract_texts _ _ B). reflexivity.
Qed.
Lemma write_rules_spec w pt cwd json p rs : forall written out written', write_rules w pt cwd json p rs written = Ret (out, written') ->
  let l := flat_map (rule_files w pt p) rs in out = flat_map (db_entry cwd json) (unseen written l) /\ written' = rev (unseen written l) ++ written.
Proof.
  induction rs as [|r rs IH]; intros written out written' E; cbn [write_rules] in E; [apply ret_pair in E as [<- <-]; split; reflexivity|].
  cbn [flat_map]. unfold rule_files at 1 3. destruct (qualified_target p (v_text (q_name r))) as [t|]; [|apply IH; exact E].
  destruct (match_target pt t); [|apply IH; exact E]. destruct (rule_sources r) as [vs| |] eqn:S; try discriminate. cbn [bind] in E.
  rewrite <- (map_map v_text (fully_qualified_file w p)), (sources_texts _ _ S) in E. rewrite write_entries_spec in E.
  match type of E with context [write_rules _ _ _ _ _ _ ?x] => destruct (write_rules w pt cwd json p rs x) as [[more wr]| |] eqn:M end; try discriminate. cbn [bind] in E.
  apply ret_pair in E as [<- <-]. destruct (IH _ _ _ M) as [-> ->]. cbn zeta. rewrite unseen_app, flat_map_app, rev_app_distr, <- app_assoc. auto.
Qed.
Lemma write_files_spec w pt cwd json files : forall written out written', write_files w pt cwd json files written = Ret (out, written') ->
  exists l, sources w pt files l /\ out = flat_map (db_entry cwd json) (unseen written l) /\ written' = rev (unseen written l) ++ written.
Proof.
  induction files as [|[k f] files IH]; intros written out written' E; cbn [write_files] in E; [apply ret_pair in E as [<- <-]; exists []; repeat split; constructor|].
  destruct (match_package pt (pf_package f)) eqn:MP.
  - destruct (find_targets _ (pf_ast f)) as [rs| |] eqn:F; try discriminate. cbn [bind] in E.
    destruct (write_rules w pt cwd json (pf_package f) rs written) as [[o wr]| |] eqn:R; try discriminate. cbn [bind] in E.
    destruct (write_files w pt cwd json files wr) as [[o' wr']| |] eqn:W; try discriminate. cbn [bind] in E. apply ret_pair in E as [<- <-].
    apply write_rules_spec in R as [-> ->]. destruct (IH _ _ _ W) as (l & S & -> & ->). eexists. split; [eapply this_package; eauto|].
    rewrite unseen_app, flat_map_app, rev_app_distr, <- app_assoc. auto.
  - destruct (IH _ _ _ E) as (l & S & A & B). exists l. split; [now apply other_package|auto].
Qed.
Lemma sources_fun w pt files l : sources w pt files l -> forall l', sources w pt files l' -> l = l'.
Proof.
  induction 1 as [|k f files l M S IH|k f files rs l M F S IH]; intros l' H; inversion H; subst; try congruence; auto.
  match goal with X : find_targets source_kinds (pf_ast f) = Ret ?rs' |- _ => rewrite F in X; injection X as <- end. f_equal. auto.
Qed.

Theorem include_unique w pr dirs dirs' : include_dirs w pr dirs -> include_dirs w pr dirs' -> dirs = dirs'.
Proof.
  intros (A & m & F & C & ->) (A' & m' & F' & C' & ->). 
  assert (R : forall p rs l l1, rules_ask w p rs l l1 -> forall l2, rules_ask w p rs l l2 -> l1 = l2).
  { induction 1 as [l|r rs t l l' N H IH]; intros l2 H2; inversion H2; subst; [reflexivity|]. apply IH.
    match goal with X : named _ _ ?t' |- _ => match type of N with named _ _ ?t0 => replace t0 with t' in * by (unfold named in *; congruence) end end. assumption. }
  assert (G : forall files l l1, files_ask w files l l1 -> forall l2, files_ask w files l l2 -> l1 = l2).
  { induction 1 as [l|k f files rs l l' l'' Fi H1 H2 IH]; intros l2 H; inversion H; subst; [reflexivity|]. apply IH.
    match goal with X : find_targets include_kinds (pf_ast f) = Ret ?rs' |- _ => rewrite Fi in X; injection X as <- end.
    match goal with X : rules_ask _ _ _ _ ?x |- _ => tryif constr_eq x l' then fail else rewrite (R _ _ _ _ H1 _ X) end. assumption. }
  rewrite (G _ _ _ F _ F') in C. rewrite (collected_fun _ _ C _ C'). reflexivity.
Qed.
Lemma sources_defined w pt cwd json files : (forall k f, In (k, f) files -> Forall sound (pf_ast f)) -> forall written,
  exists out written', write_files w pt cwd json files written = Ret (out, written').
Proof.
  assert (R : forall p rs, readable_results rs -> forall written, exists out written', write_rules w pt cwd json p rs written = Ret (out, written')).
  { intros p. induction rs as [|r rs IH]; intros RR written; cbn [write_rules]; [eauto|]. apply readable_cons in RR as [R1 R2].
    destruct (qualified_target p (v_text (q_name r))) as [t|]; [|auto]. destruct (match_target pt t); [|auto].
    assert (R' : forall l, In l (result_lists r) -> exists strs, string_list l = Ret strs) by (intros l; apply R1; left; reflexivity).
    unfold rule_sources. destruct (extract_defined r (q_srcs r) R') as [a ->]; [cbn; auto 10|]. destruct (extract_defined r (q_hdrs r) R') as [b ->]; [cbn; auto 10|].
    cbn [bind]. destruct (write_entries _ _ _ _) as [o wr]. destruct (IH R2 wr) as (o' & wr' & ->). cbn [bind]. eauto. }
  induction files as [|[k f] files IH]; intros S written; cbn [write_files]; [eauto|].
  assert (S' : forall k f, In (k, f) files -> Forall sound (pf_ast f)) by (intros k' f' I; apply (S k'); right; exact I).
  destruct (match_package pt (pf_package f)); [|auto]. destruct (find_targets_defined compiled_kinds false (pf_ast f)) as (rs & F & RR); [apply (S k); left; reflexivity|].
  change (find_targets compiled_kinds (pf_ast f) = Ret rs) in F. rewrite F. cbn [bind]. destruct (R (pf_package f) rs RR written) as (o & wr & ->). cbn [bind].
  destruct (IH S' wr) as (o' & wr' & ->). cbn [bind]. eauto.
Qed.
Theorem flags_defined cwd rc w pr pt as_db : readable_project pr ->
  (write_flags cwd rc w pr pt as_db = UB <-> exists p r, rule_in pr p r /\ crashing p r) /\ write_flags cwd rc w pr pt as_db <> OutOfFuel.
Proof.
  intros R. destruct (dirs_defined w pr R) as (D & O). rewrite <- D. unfold write_flags, write_compilation_db, write_compile_flags.
  destruct (collect_inc_dirs w pr) as [dirs| |]; [| |contradiction]; destruct as_db; cbn [bind]; try (split; [split; auto; discriminate|discriminate]).
  match goal with |- context [write_files w pt cwd ?j _ []] => destruct (sources_defined w pt cwd j (pr_files pr) R []) as (o & wr & ->) end. cbn [bind].
  split; [split; discriminate|discriminate].
Qed.

(** * Reading it *)
Notation jlexes := (lexes json_escapes json_punct json_blank).
Lemma plain_step s toks : quotable s -> forall acc,
  fold_left (lex_step json_escapes json_punct json_blank) s (Some (toks, MStr acc)) = Some (toks, MStr (acc ++ s)).
Proof.
  induction s as [|c s IH]; intros Q acc; cbn [fold_left]; [now rewrite app_nil_r|]. destruct (Q c (or_introl eq_refl)) as (Q1 & Q2 & Q3).
  unfold lex_step at 2. destruct (ceqb c DQ) eqn:E1; [apply ceqb_eq in E1; contradiction|]. destruct (ceqb c BSL) eqn:E2; [apply ceqb_eq in E2; contradiction|].
  destruct (code c <? 32)%N eqn:E3; [apply N.ltb_lt in E3; lia|]. rewrite IH, <- app_assoc; [reflexivity|]. intros x X. apply Q. right. exact X.
Qed.
Lemma lexes_q s : quotable s -> jlexes (q s) [TStr s] true.
Proof. intros Q pre. unfold q. rewrite !fold_left_app. cbn [fold_left lex_step]. unfold lex_out at 1. cbn [fold_left]. rewrite (proj2 (ceqb_eq DQ DQ) eq_refl).
  rewrite plain_step by exact Q. cbn [fold_left lex_step app]. rewrite (proj2 (ceqb_eq DQ DQ) eq_refl). reflexivity. Qed.
Lemma jlexes_app t1 t2 k1 k2 : jlexes t1 k1 true -> jlexes t2 k2 true -> jlexes (t1 ++ t2) (k1 ++ k2) true.
Proof. apply (lexes_app _ _ _ t1 t2 k1 k2 true true). Qed.
Lemma lex_prefix s : forall pre toks m, fold_left (lex_step json_escapes json_punct json_blank) s (Some (pre ++ toks, m)) =
  match fold_left (lex_step json_escapes json_punct json_blank) s (Some (toks, m)) with Some (toks, m) => Some (pre ++ toks, m) | None => None end.
Proof.
  assert (O : forall c pre toks, lex_out json_punct json_blank (pre ++ toks) c = let (toks, m) := lex_out json_punct json_blank toks c in (pre ++ toks, m)).
  { intros c pre toks. unfold lex_out. destruct (ceqb c DQ); [reflexivity|]. destruct (json_punct c); [now rewrite app_assoc|]. destruct (json_blank c); reflexivity. }
  assert (NO : forall s, fold_left (lex_step json_escapes json_punct json_blank) s None = None) by (clear; induction s; auto).
  induction s as [|c s IH]; intros pre toks m; [reflexivity|]. cbn [fold_left]. destruct m as [|wd|t|t e]; cbn [lex_step].
  - rewrite O. destruct (lex_out json_punct json_blank toks c) as [k m']. apply IH.
  - destruct (_ || _ || _); [|apply IH]. rewrite <- app_assoc, O. destruct (lex_out json_punct json_blank (toks ++ [TWord wd]) c) as [k m']. apply IH.
  - destruct (ceqb c DQ); [rewrite <- app_assoc; apply IH|]. destruct (ceqb c BSL); [apply IH|]. destruct (_ <? _)%N; [rewrite NO; reflexivity|apply IH].
  - destruct (json_escapes (e ++ [c])); [apply IH|apply IH|rewrite NO; reflexivity].
Qed.
Lemma lexes_lit s toks : fold_left (lex_step json_escapes json_punct json_blank) s (Some ([], MOut)) = Some (toks, MOut) -> jlexes s toks true.
Proof. intros H pre. rewrite <- (app_nil_r pre) at 1. rewrite lex_prefix, H. reflexivity. Qed.
Ltac lit := apply lexes_lit; vm_compute; reflexivity.
Definition str_toks (s : str) : list tok := [TStr s; TSym ","].
Lemma option_lexes o : quotable o -> jlexes ($"      " ++ q o ++ $"," ++ [NL]) (str_toks o) true.
Proof. intros Q. apply (jlexes_app _ _ [] (str_toks o)); [lit|]. apply (jlexes_app _ _ [TStr o] [TSym ","]); [now apply lexes_q|lit]. Qed.
Lemma quotable_lit s : forallb (fun c => negb (ceqb c DQ) && negb (ceqb c BSL) && (32 <=? code c)%N) s = true -> quotable s.
Proof.
  intros H c I. rewrite forallb_forall in H. specialize (H c I). rewrite !andb_true_iff, !negb_true_iff, N.leb_le in H. destruct H as ((A & B) & C).
  repeat split; [| |exact C]; intros ->; [rewrite (proj2 (ceqb_eq DQ DQ) eq_refl) in A|rewrite (proj2 (ceqb_eq BSL BSL) eq_refl) in B]; discriminate.
Qed.
Definition dir_toks (d : str) : list tok := str_toks ($"-iquote") ++ str_toks d.
Lemma dir_lexes d : quotable d -> jlexes ($"      " ++ q ($"-iquote") ++ $", " ++ q d ++ $"," ++ [NL]) (dir_toks d) true.
Proof.
  intros Q. apply (jlexes_app _ _ [] (dir_toks d)); [lit|]. apply (jlexes_app _ _ [TStr ($"-iquote")] (TSym "," :: str_toks d)); [apply lexes_q, quotable_lit; reflexivity|].
  apply (jlexes_app _ _ [TSym ","] (str_toks d)); [lit|]. apply (jlexes_app _ _ [TStr d] [TSym ","]); [now apply lexes_q|lit].
Qed.
Definition flags_toks (opts dirs : list str) : list tok := flat_map str_toks opts ++ flat_map dir_toks dirs.
Lemma flags_lexes opts dirs : Forall quotable opts -> Forall quotable dirs -> jlexes (flags_json opts dirs) (flags_toks opts dirs) true.
Proof.
  rewrite !Forall_forall. intros O D. apply jlexes_app; apply lexes_flat; intros x X; [apply option_lexes; auto|apply dir_lexes; auto].
Qed.
Definition entry_toks (cwd : str) (opts dirs : list str) (f : str) : list tok :=
  [TSym "{"; TStr ($"file"); TSym ":"; TStr f; TSym ","; TStr ($"arguments"); TSym ":"; TSym "["]
  ++ flat_map str_toks (command_for opts dirs f) ++ [TSym "]"; TSym ","; TStr ($"directory"); TSym ":"; TStr cwd; TSym "}"; TSym ","].
Lemma command_toks opts dirs f : flat_map str_toks (command_for opts dirs f) =
  flat_map str_toks ($"gcc" :: default_options) ++ flags_toks opts dirs ++ flat_map str_toks [$"-c"; f].
Proof.
  unfold command_for, flags_toks. rewrite !flat_map_app, <- !app_assoc. f_equal. f_equal. f_equal.
  induction dirs as [|d dirs IH]; [reflexivity|]. cbn [flat_map]. rewrite !flat_map_app, IH. reflexivity.
Qed.
Lemma entry_lexes cwd opts dirs f : quotable cwd -> Forall quotable opts -> Forall quotable dirs -> quotable f ->
  jlexes (db_entry cwd (flags_json opts dirs) f) (entry_toks cwd opts dirs f) true.
Proof.
  intros C O D F. unfold db_entry, entry_toks. rewrite command_toks.
  change (flat_map str_toks ($"gcc" :: default_options)) with ([TStr ($"gcc"); TSym ","] ++ flat_map str_toks default_options). rewrite <- !app_assoc.
  apply (jlexes_app _ _ [TSym "{"]); [lit|]. apply (jlexes_app [NL] _ []); [lit|]. apply (jlexes_app ($"    ") _ []); [lit|].
  apply (jlexes_app _ _ [TStr ($"file")]); [apply lexes_q, quotable_lit; reflexivity|]. apply (jlexes_app ($": ") _ [TSym ":"]); [lit|].
  apply (jlexes_app _ _ [TStr f]); [now apply lexes_q|]. apply (jlexes_app ($",") _ [TSym ","]); [lit|]. apply (jlexes_app [NL] _ []); [lit|].
  apply (jlexes_app ($"    ") _ []); [lit|]. apply (jlexes_app _ _ [TStr ($"arguments")]); [apply lexes_q, quotable_lit; reflexivity|].
  apply (jlexes_app ($": [") _ [TSym ":"; TSym "["]); [lit|]. apply (jlexes_app [NL] _ []); [lit|]. apply (jlexes_app ($"      ") _ []); [lit|].
  apply (jlexes_app _ _ [TStr ($"gcc")]); [apply lexes_q, quotable_lit; reflexivity|]. apply (jlexes_app ($",") _ [TSym ","]); [lit|]. apply (jlexes_app [NL] _ []); [lit|].
  apply (jlexes_app _ _ (flat_map str_toks default_options)); [lit|].
  apply (jlexes_app _ _ (flags_toks opts dirs)); [now apply flags_lexes|]. apply (jlexes_app ($"      ") _ []); [lit|].
  apply (jlexes_app _ _ [TStr ($"-c")]); [apply lexes_q, quotable_lit; reflexivity|]. apply (jlexes_app ($", ") _ [TSym ","]); [lit|].
  apply (jlexes_app _ _ [TStr f]); [now apply lexes_q|]. apply (jlexes_app ($",") _ [TSym ","]); [lit|]. apply (jlexes_app [NL] _ []); [lit|].
  apply (jlexes_app ($"     ],") _ [TSym "]"; TSym ","]); [lit|]. apply (jlexes_app [NL] _ []); [lit|]. apply (jlexes_app ($"     ") _ []); [lit|].
  apply (jlexes_app _ _ [TStr ($"directory")]); [apply lexes_q, quotable_lit; reflexivity|]. apply (jlexes_app ($": ") _ [TSym ":"]); [lit|].
  apply (jlexes_app _ _ [TStr cwd]); [now apply lexes_q|]. lit.
Qed.
Lemma feed_strings b l a st m : m = AtFirst \/ m = AtMore ->
  feed (reader_step b) (flat_map str_toks l) (InArray a :: st, m) = Some (InArray (a ++ map JText l) :: st, match l with [] => m | _ => AtMore end).
Proof.
  revert a m. induction l as [|s l IH]; intros a m M; [cbn; now rewrite app_nil_r|].
  transitivity (feed (reader_step b) (flat_map str_toks l) (InArray (a ++ [JText s]) :: st, AtMore)); [destruct M as [-> | ->]; reflexivity|].
  rewrite IH by auto. cbn [map]. rewrite <- app_assoc. destruct l; reflexivity.
Qed.
Lemma feed_entry b cwd opts dirs f a st m : m = AtFirst \/ m = AtMore ->
  feed (reader_step b) (entry_toks cwd opts dirs f) (InArray a :: st, m) =
    if b then Some (InArray (a ++ [entry_for cwd opts dirs f]) :: st, AtMore) else None.
Proof.
  intros M. unfold entry_toks. rewrite feed_app.
  replace (feed _ _ _) with (Some (InArray [] :: InObject [($"file", JText f)] ($"arguments") :: InArray a :: st, AtFirst)) by (destruct M as [-> | ->]; reflexivity).
  rewrite feed_app, feed_strings by auto. cbn [app]. unfold command_for. cbn [app]. destruct b; [|reflexivity]. cbn -[map]. unfold entry_for, command_for. reflexivity.
Qed.
Lemma feed_entries cwd opts dirs files : forall a m, m = AtFirst \/ m = AtMore ->
  exists m', (m' = AtFirst \/ m' = AtMore) /\
  feed (reader_step true) (flat_map (entry_toks cwd opts dirs) files) ([InArray a], m) = Some ([InArray (a ++ map (entry_for cwd opts dirs) files)], m').
Proof.
  induction files as [|f files IH]; intros a m M; [exists m; split; [exact M|]; cbn; now rewrite app_nil_r|]. cbn [flat_map]. 
  destruct (IH (a ++ [entry_for cwd opts dirs f]) AtMore (or_intror eq_refl)) as (m' & M' & E). exists m'. split; [exact M'|].
  rewrite feed_app, feed_entry, E by exact M. cbn [map]. rewrite <- app_assoc. reflexivity.
Qed.
Theorem db_reads cwd opts dirs files : quotable cwd -> Forall quotable opts -> Forall quotable dirs -> Forall quotable files ->
  let text := $"[" ++ [NL] ++ flat_map (db_entry cwd (flags_json opts dirs)) files ++ $"]" ++ [NL] in
  read_value true text = Some (JArray (map (entry_for cwd opts dirs) files)) /\
  read_value false text = match files with [] => Some (JArray []) | _ => None end.
Proof.
  intros C O D F text.
  assert (L : jlexes text (TSym "[" :: flat_map (entry_toks cwd opts dirs) files ++ [TSym "]"]) true).
  { apply (jlexes_app _ _ [TSym "["]); [lit|]. apply (jlexes_app [NL] _ []); [lit|]. apply jlexes_app; [|lit].
    apply lexes_flat. rewrite Forall_forall in F. intros f I. apply entry_lexes; auto. }
  apply lexes_lex in L. unfold read_value. rewrite L. clear L text. split.
  - change (feed (reader_step true) (TSym "[" :: flat_map (entry_toks cwd opts dirs) files ++ [TSym "]"]) ([], AtValue))
      with (feed (reader_step true) (flat_map (entry_toks cwd opts dirs) files ++ [TSym "]"]) ([InArray []], AtFirst)).
    destruct (feed_entries cwd opts dirs files [] AtFirst (or_introl eq_refl)) as (m' & [-> | ->] & E); rewrite feed_app, E; reflexivity.
  - change (feed (reader_step false) (TSym "[" :: flat_map (entry_toks cwd opts dirs) files ++ [TSym "]"]) ([], AtValue))
      with (feed (reader_step false) (flat_map (entry_toks cwd opts dirs) files ++ [TSym "]"]) ([InArray []], AtFirst)).
    destruct files as [|f files]; [reflexivity|]. cbn [flat_map]. rewrite <- app_assoc, feed_app, feed_entry by auto. reflexivity.
Qed.
