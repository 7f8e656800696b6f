(** Proofs for C76, continued: projects, the graph and "depend on what you use". *)
From Coq Require Import Lia.
From Verif Require Import Base OMap M_Types S_Labels P_Types M_Scanner M_Ast M_Parser M_Query S_Query P_Query M_Elab M_Workspace M_Project M_DepGraph S_DepGraph
  M_Headers S_Headers P_Headers M_Includes M_Dwyu S_Dwyu P_Dwyu S_Converge P_Converge M_Edits P_Edits M_CompDb M_Commands S_Respell P_Respell.

Lemma found_both {C} (Q : C -> C -> Prop) kinds f f' k k' : similar f f' -> (forall rs rs', Forall2 (alike (pf_package f) f f') rs rs' -> both Q (k rs) (k' rs')) ->
  both Q (bind (find_targets kinds (pf_ast f)) k) (bind (find_targets kinds (pf_ast f')) k').
Proof. intros S H. eapply both_bind; [apply (si_rules _ _ S)|]. exact H. Qed.
Lemma found_empty_both {C} (Q : C -> C -> Prop) kinds f f' k k' : similar f f' -> (forall rs rs', Forall2 (alike (pf_package f) f f') rs rs' -> both Q (k rs) (k' rs')) ->
  both Q (bind (find_targets_allow_empty kinds (pf_ast f)) k) (bind (find_targets_allow_empty kinds (pf_ast f')) k').
Proof. intros S H. eapply both_bind; [apply (si_rules _ _ S)|]. exact H. Qed.

Lemma aliases_both l l' : files_similar l l' -> forall m, both eq (aliases_in l m) (aliases_in l' m).
Proof.
  induction 1 as [|[q f] [q' f'] l l' [_ A] _ IH]; intros m; cbn [aliases_in snd] in *; [apply both_same|]. apply found_both; [exact A|]. intros rs rs' R.
  rewrite <- (si_package _ _ A), (alias_rules_same _ _ _ _ _ R). apply IH.
Qed.
Lemma headers_both ai si l l' : files_similar l l' -> forall m, both eq (headers_of_files ai si l m) (headers_of_files ai si l' m).
Proof.
  induction 1 as [|[q f] [q' f'] l l' [_ A] _ IH]; intros m; cbn [headers_of_files snd] in *; [apply both_same|]. eapply (both_bind eq).
  - unfold append_cc_library_headers. rewrite <- (si_package _ _ A). apply found_both; [exact A|]. intros rs rs' R. eapply add_libraries_both, R.
  - intros m1 m1' <-. eapply (both_bind eq); [|intros m2 m2' <-; apply IH]. unfold append_proto_library_headers. rewrite <- (si_package _ _ A). apply found_both; [exact A|]. intros rs rs' R.
    eapply both_bind; [eapply proto_libs_both, R|]. intros libs libs' <-. apply found_both; [exact A|]. intros rs2 rs2' R2. eapply add_proto_libraries_both, R2.
Qed.
Lemma header_to_lib_both pr pr' si : projects_similar pr pr' -> both eq (header_to_lib pr si) (header_to_lib pr' si).
Proof. intros F. unfold header_to_lib, extract_aliased_by. eapply both_bind; [apply aliases_both, F|]. intros m m' <-. apply headers_both, F. Qed.
Lemma genrules_files_both si l l' : files_similar l l' -> forall m, both eq (genrules_of_files si l m) (genrules_of_files si l' m).
Proof.
  induction 1 as [|[q f] [q' f'] l l' [_ A] _ IH]; intros m; cbn [genrules_of_files snd] in *; [apply both_same|]. apply found_both; [exact A|]. intros rs rs' R.
  rewrite <- (si_package _ _ A). eapply both_bind; [eapply genrules_both, R|]. intros x x' <-. apply IH.
Qed.
Lemma filter_files_both w pt l l' : files_similar l l' -> forall sub, both eq (filter_files w pt l sub) (filter_files w pt l' sub).
Proof.
  induction 1 as [|[q f] [q' f'] l l' [_ A] _ IH]; intros sub; cbn [filter_files snd] in *; [apply both_same|]. rewrite <- (si_package _ _ A). destruct (match_package _ _); [|apply IH].
  apply found_empty_both; [exact A|]. intros rs rs' R. eapply both_bind; [eapply transfer_rules_both, R|]. intros x x' <-. apply IH.
Qed.
Lemma files_dirs_both w l l' : files_similar l l' -> forall st, both eq (files_dirs w l st) (files_dirs w l' st).
Proof.
  induction 1 as [|[q f] [q' f'] l l' [_ A] _ IH]; intros st; cbn [files_dirs snd] in *; [apply both_same|]. apply found_both; [exact A|]. intros rs rs' R.
  rewrite <- (si_package _ _ A). eapply both_bind; [eapply rules_dirs_both, R|]. intros x x' <-. apply IH.
Qed.
Lemma write_files_both w pt cwd json l l' : files_similar l l' -> forall wr, both eq (write_files w pt cwd json l wr) (write_files w pt cwd json l' wr).
Proof.
  induction 1 as [|[q f] [q' f'] l l' [_ A] _ IH]; intros wr; cbn [write_files snd] in *; [apply both_same|]. rewrite <- (si_package _ _ A). destruct (match_package _ _); [|apply IH].
  apply found_both; [exact A|]. intros rs rs' R. eapply both_bind; [eapply write_rules_both, R|]. intros [out wr1] x <-. eapply both_bind; [apply IH|]. intros [o2 wr2] x <-. apply both_same.
Qed.
Lemma write_flags_both cwd rc w pr pr' pt b : projects_similar pr pr' -> both eq (write_flags cwd rc w pr pt b) (write_flags cwd rc w pr' pt b).
Proof.
  intros F. unfold write_flags, write_compilation_db, write_compile_flags, collect_inc_dirs.
  assert (D : both eq (bind (files_dirs w (pr_files pr) (mkDirs [] [$"."; $"bazel-bin"])) (fun st => Ret (id_dirs st))) (bind (files_dirs w (pr_files pr') (mkDirs [] [$"."; $"bazel-bin"])) (fun st => Ret (id_dirs st)))).
  { eapply both_bind; [apply files_dirs_both, F|]. intros x x' <-. apply both_same. }
  destruct b; (eapply both_bind; [exact D|]); intros x x' <-; [|apply both_same]. eapply both_bind; [apply write_files_both, F|]. intros [out wr] y <-. apply both_same.
Qed.

(** * The graph *)
Section Disk.
Variable w : workspace.
Variables read read' : str -> option str.
Variable can_read : str -> bool.
Variable glob_in : package -> list str -> list str -> list str.
(** The files that are read. *)
Variable asked : package -> str -> Prop.
Hypothesis DISK : forall p f f', asked p (pf_name f) -> on_disk w read can_read glob_in p f -> on_disk w read' can_read glob_in p f' -> file_respelled f f'.
Definition within (pr : parsed_project) : Prop := forall p f, In (p, f) (pr_files pr) -> asked p (pf_name f).
Definition grows (pr pr1 : parsed_project) : Prop := forall p f, In (p, f) (pr_files pr) -> In (p, f) (pr_files pr1).
Lemma within_before pr pr1 : grows pr pr1 -> within pr1 -> within pr.
Proof. intros G W p f M. apply W, G, M. Qed.
Lemma insert_kept e p f (l : list (package * parsed_file)) : In e l -> In e (map_insert p f l).
Proof. induction l as [|[k x] l IH]; cbn [map_insert In]; [tauto|]. destruct (kcmp p k); cbn [In]; tauto. Qed.
Lemma inserted p f (l : list (package * parsed_file)) : map_find p l = None -> map_find p (map_insert p f l) = Some f.
Proof.
  assert (R : keqb p p = true) by (apply keqb_eq; reflexivity).
  induction l as [|[k x] l IH]; cbn [map_insert map_find]; intros N; [now rewrite R|]. destruct (keqb p k) eqn:K; [discriminate|].
  destruct (kcmp p k) eqn:C; cbn [map_find].
  - apply kcmp_eq in C. subst k. congruence.
  - now rewrite R.
  - rewrite K. apply IH, N.
Qed.

(** What is added to the project. *)
Lemma missing_added rd pr p pr1 : parse_missing w rd can_read glob_in pr p = Ret pr1 ->
  (exists f, map_find p (pr_files pr) = Some f) /\ pr1 = pr \/
  map_find p (pr_files pr) = None /\ path_for_package w can_read p = None /\ pr1 = pr \/
  map_find p (pr_files pr) = None /\ path_for_package w can_read p <> None /\ exists f, on_disk w rd can_read glob_in p f /\ pr_files pr1 = map_insert p f (pr_files pr).
Proof.
  unfold parse_missing, find_parsed. destruct (map_find p (pr_files pr)) as [f|] eqn:F; [intros E; injection E as <-; left; eauto|].
  destruct (path_for_package w can_read p) as [name|] eqn:N; [|intros E; injection E as <-; auto]. intros E. right. right. split; [reflexivity|]. split; [discriminate|].
  unfold add_build_file, add_build_file_content, find_parsed in E. destruct (rd name) as [c|] eqn:R; [|discriminate E]. rewrite F in E.
  destruct (parse c) as [[stmts errs]| |] eqn:P; try discriminate E. cbn [bind] in E. unfold elaborate_file in E. cbn [pf_package pf_name pf_content pf_ast pf_errors] in E.
  destruct (elaborate (glob_in p) stmts) as [ast| |] eqn:El; try discriminate E. cbn [bind pr_files pr_error_count] in E. injection E as <-. cbn [pr_files].
  exists (mkFile p name c ast errs). split; [exists name, c, stmts, errs, ast; auto|]. apply set_insert_twice, F.
Qed.
Lemma missing_grows rd pr p pr1 : parse_missing w rd can_read glob_in pr p = Ret pr1 -> grows pr pr1.
Proof.
  intros E q g M. apply missing_added in E. destruct E as [[_ ->]|[(_ & _ & ->)|(N & _ & f & _ & Ins)]]; [exact M|exact M|]. rewrite Ins. apply insert_kept, M.
Qed.
Lemma find_missing_grows rd want : forall pr pr1, find_and_parse_missing w rd can_read glob_in want pr = Ret pr1 -> grows pr pr1.
Proof.
  induction want as [|p want IH]; intros pr pr1 E; cbn [find_and_parse_missing] in E; [injection E as <-; intros q g M; exact M|].
  destruct (parse_missing w rd can_read glob_in pr p) as [pr2| |] eqn:M; try discriminate E. cbn [bind] in E. intros q g X. eapply IH; [exact E|]. eapply missing_grows; eauto.
Qed.
Lemma parse_missing_both pr pr' p pr1 pr1' : projects_similar pr pr' -> parse_missing w read can_read glob_in pr p = Ret pr1 -> parse_missing w read' can_read glob_in pr' p = Ret pr1' ->
  within pr1 -> projects_similar pr1 pr1'.
Proof.
  intros S E E' W. apply missing_added in E. apply missing_added in E'. pose proof (find_similar p _ _ S) as F.
  destruct E as [[(f & M) ->]|[(M & N & ->)|(M & N & f & D & Ins)]]; destruct E' as [[(f' & M') ->]|[(M' & N' & ->)|(M' & N' & f' & D' & Ins')]];
    try exact S; try (rewrite M, M' in F; contradiction F); try contradiction.
  unfold projects_similar. rewrite Ins, Ins'. apply insert_similar; [|exact S]. apply respelled_similar, (DISK p); [|exact D|exact D']. apply W. rewrite Ins. apply map_find_in, inserted, M.
Qed.
Lemma find_missing_both want : forall pr pr' pr1 pr1', projects_similar pr pr' ->
  find_and_parse_missing w read can_read glob_in want pr = Ret pr1 -> find_and_parse_missing w read' can_read glob_in want pr' = Ret pr1' -> within pr1 -> projects_similar pr1 pr1'.
Proof.
  induction want as [|p want IH]; intros pr pr' pr1 pr1' P E E' W; cbn [find_and_parse_missing] in *; [now injection E as <-; injection E' as <-|].
  destruct (parse_missing w read can_read glob_in pr p) as [a| |] eqn:A; try discriminate E. destruct (parse_missing w read' can_read glob_in pr' p) as [a'| |] eqn:A'; try discriminate E'. cbn [bind] in E, E'.
  eapply (IH a a'); eauto. eapply parse_missing_both; eauto. eapply within_before; [eapply find_missing_grows, E|exact W].
Qed.
(** The file found for a package is the file of that package. *)
Definition at_home (pr : parsed_project) : Prop := forall p f, map_find p (pr_files pr) = Some f -> pf_package f = p.
Lemma insert_found q p f (l : list (package * parsed_file)) g : map_find q (map_insert p f l) = Some g -> map_find q l = Some g \/ q = p /\ f = g.
Proof.
  induction l as [|[k x] l IH]; cbn [map_insert map_find].
  - destruct (keqb q p) eqn:K; [|discriminate]. apply keqb_eq in K. intros E. injection E as ->. auto.
  - destruct (kcmp p k); cbn [map_find].
    + auto.
    + destruct (keqb q p) eqn:K; [|auto]. apply keqb_eq in K. intros E. injection E as ->. auto.
    + destruct (keqb q k); [auto|exact IH].
Qed.
Lemma missing_home rd pr p pr1 : at_home pr -> parse_missing w rd can_read glob_in pr p = Ret pr1 -> at_home pr1.
Proof.
  intros H E. apply missing_added in E. destruct E as [[_ ->]|[(_ & _ & ->)|(M & _ & f & D & Ins)]]; [exact H|exact H|]. intros q g. rewrite Ins.
  destruct D as (name & c & stmts & errs & ast & _ & _ & _ & _ & ->). intros G.
  apply insert_found in G as [G|[-> <-]]; [apply H, G|reflexivity].
Qed.
Lemma find_missing_home rd want : forall pr pr1, at_home pr -> find_and_parse_missing w rd can_read glob_in want pr = Ret pr1 -> at_home pr1.
Proof.
  induction want as [|p want IH]; intros pr pr1 H E; cbn [find_and_parse_missing] in E; [now injection E as <-|].
  destruct (parse_missing w rd can_read glob_in pr p) as [pr2| |] eqn:M; try discriminate E. cbn [bind] in E. eapply IH; [|exact E]. eapply missing_home; eauto.
Qed.
Lemma scan_both ps : forall pr pr' st, at_home pr -> projects_similar pr pr' -> both eq (scan_packages pr ps st) (scan_packages pr' ps st).
Proof.
  induction ps as [|p ps IH]; intros pr pr' st H P; cbn [scan_packages]; [apply both_same|]. unfold find_parsed. pose proof (find_similar p _ _ P) as E.
  destruct (map_find p (pr_files pr)) as [f|] eqn:M, (map_find p (pr_files pr')) as [f'|]; try contradiction E; [|apply IH; assumption].
  apply found_both; [exact E|]. rewrite (H _ _ M). intros rs rs' R. eapply both_bind; [eapply visit_rules_both, R|]. intros a a' <-. apply IH; assumption.
Qed.
Definition graphs_similar (x x' : graph * parsed_project * list target) : Prop :=
  fst (fst x) = fst (fst x') /\ projects_similar (snd (fst x)) (snd (fst x')) /\ snd x = snd x' /\ at_home (snd (fst x)).
Lemma round_grows rd g pr todo x : run_round w rd can_read glob_in g pr todo = Ret x -> grows pr (snd (fst x)).
Proof.
  unfold run_round. destruct (find_and_parse_missing _ _ _ _ _ _) as [a| |] eqn:A; try discriminate. cbn [bind]. destruct (scan_packages _ _ _) as [st| |]; try discriminate. cbn [bind].
  intros E. injection E as <-. cbn [fst snd]. eapply find_missing_grows, A.
Qed.
Lemma rounds_grow rd depth : forall g pr todo x, rounds w rd can_read glob_in depth g pr todo = Ret x -> grows pr (snd (fst x)).
Proof.
  induction depth as [|depth IH]; intros g pr todo x; cbn [rounds]; destruct (run_round w rd can_read glob_in g pr todo) as [[[h a] t]| |] eqn:R; try discriminate; cbn [bind]; apply round_grows in R; cbn [fst snd] in R.
  - intros E. injection E as <-. exact R.
  - destruct (is_nil t); [intros E; injection E as <-; exact R|]. intros E q f M. eapply IH; eauto.
Qed.
Lemma round_both g pr pr' todo x x' : at_home pr -> projects_similar pr pr' -> run_round w read can_read glob_in g pr todo = Ret x -> run_round w read' can_read glob_in g pr' todo = Ret x' ->
  within (snd (fst x)) -> graphs_similar x x'.
Proof.
  intros H P. unfold run_round. set (scan := set_of_list (map tpackage todo)). destruct (find_and_parse_missing w read can_read glob_in scan pr) as [a| |] eqn:A; try discriminate. cbn [bind].
  destruct (find_and_parse_missing w read' can_read glob_in scan pr') as [a'| |] eqn:A'; try discriminate. cbn [bind]. intros E E' W.
  assert (WA : within a) by (destruct (scan_packages a scan _); try discriminate E; cbn [bind] in E; injection E as <-; exact W).
  pose proof (find_missing_both _ _ _ _ _ P A A' WA) as S. pose proof (find_missing_home _ _ _ _ H A) as B. revert E E'. 
  assert (X : forall st, both graphs_similar (do st1 <- scan_packages a scan st; Ret (rd_graph st1, a, rd_next st1)) (do st1 <- scan_packages a' scan st; Ret (rd_graph st1, a', rd_next st1))); [|apply X].
  intros st. eapply both_bind; [apply (scan_both scan a a' _ B S)|]. intros s1 s1' <-. apply both_ret. repeat split; assumption.
Qed.
Lemma rounds_both depth : forall g pr pr' todo x x', at_home pr -> projects_similar pr pr' ->
  rounds w read can_read glob_in depth g pr todo = Ret x -> rounds w read' can_read glob_in depth g pr' todo = Ret x' -> within (snd (fst x)) -> graphs_similar x x'.
Proof.
  induction depth as [|depth IH]; intros g pr pr' todo x x' H P; cbn [rounds]; destruct (run_round w read can_read glob_in g pr todo) as [[[h a] t]| |] eqn:R; try discriminate;
    destruct (run_round w read' can_read glob_in g pr' todo) as [[[h' a'] t']| |] eqn:R'; try discriminate; cbn [bind].
  - intros E E' W. injection E as <-. injection E' as <-. eapply round_both; eauto.
  - intros E E' W. assert (WA : within a).
    { destruct (is_nil t); [injection E as <-; exact W|]. eapply within_before; [eapply rounds_grow, E|exact W]. }
    destruct (round_both _ _ _ _ _ _ H P R R' WA) as (G & A & T & B). cbn [fst snd] in *. subst h' t'.
    destruct (is_nil t); [injection E as <-; injection E' as <-; repeat split; assumption|]. eapply IH; eauto.
Qed.
Lemma initial_todo_both pt l l' : files_similar l l' -> forall todo, both eq (initial_todo pt l todo) (initial_todo pt l' todo).
Proof.
  induction 1 as [|[q f] [q' f'] l l' [_ A] _ IH]; intros todo; cbn [initial_todo snd] in *; [apply both_same|]. eapply (both_bind eq); [|intros a a' <-; apply IH].
  unfold initial_in_file. rewrite <- (si_package _ _ A). destruct (negb _); [apply both_same|]. apply found_both; [exact A|]. intros rs rs' R. apply both_ret. eapply initial_same, R.
Qed.
Lemma graph_grows rd pt depth pr x : build_graph w rd can_read glob_in pt depth pr = Ret x -> grows pr (snd (fst x)).
Proof. unfold build_graph. destruct (initial_todo _ _ _); try discriminate. cbn [bind]. apply rounds_grow. Qed.
Theorem graph_both pt depth pr pr' x x' : at_home pr -> projects_similar pr pr' ->
  build_graph w read can_read glob_in pt depth pr = Ret x -> build_graph w read' can_read glob_in pt depth pr' = Ret x' -> within (snd (fst x)) -> graphs_similar x x'.
Proof.
  intros H P. unfold build_graph. destruct (initial_todo pt (pr_files pr) []) as [a| |] eqn:A; try discriminate. destruct (initial_todo pt (pr_files pr') []) as [a'| |] eqn:A'; try discriminate. cbn [bind].
  rewrite <- (initial_todo_both pt _ _ P _ _ _ A A'). apply rounds_both; assumption.
Qed.
End Disk.

(** * Depend on what you use *)
Definition known_similar (m m' : list (target * result)) : Prop :=
  Forall2 (fun e e' => fst e = fst e' /\ exists p f f', alike p f f' (snd e) (snd e')) m m'.
Lemma known_found t m m' : known_similar m m' -> match map_find t m, map_find t m' with Some r, Some r' => exists p f f', alike p f f' r r' | None, None => True | _, _ => False end.
Proof. induction 1 as [|[q f] [q' f'] l l' [E A] _ IH]; cbn [map_find]; [exact I|]. cbn [fst snd] in *. subst q'. destruct (keqb t q); [exact A|exact IH]. Qed.
Lemma known_inserted t r r' m m' : (exists p f f', alike p f f' r r') -> known_similar m m' -> known_similar (map_insert t r m) (map_insert t r' m').
Proof.
  intros A. induction 1 as [|[q g] [q' g'] l l' [E B] F IH]; cbn [map_insert]; [constructor; [split; [reflexivity|exact A]|constructor]|]. cbn [fst snd] in *. subst q'.
  destruct (kcmp t q); [constructor; auto|constructor; [auto|constructor; auto]|constructor; [auto|exact IH]].
Qed.
Lemma add_known_similar p f f' rs rs' : Forall2 (alike p f f') rs rs' -> forall m m', known_similar m m' -> known_similar (fold_left (add_known p) rs m) (fold_left (add_known p) rs' m').
Proof.
  induction 1 as [|r r' rs rs' A _ IH]; intros m m' M; cbn [fold_left]; [exact M|]. apply IH. unfold add_known. rewrite (al_name A).
  destruct (qualified_target _ _); [apply known_inserted; [exists p, f, f'; exact A|exact M]|exact M].
Qed.
Lemma known_in_both l l' : files_similar l l' -> forall m m', known_similar m m' -> both known_similar (known_in l m) (known_in l' m').
Proof.
  induction 1 as [|[q f] [q' f'] l l' [_ A] _ IH]; intros m m' M; cbn [known_in snd] in *; [apply both_ret, M|]. apply found_both; [exact A|]. intros rs rs' R.
  rewrite <- (si_package _ _ A). apply IH. eapply add_known_similar; eassumption.
Qed.

Section Dwyu.
Variable w : workspace.
Variable read : str -> option str.
Variable ignore_keep : bool.
Variable headers : provided_set.
Variables known known' : list (target * result).
Hypothesis KA : known_similar known known'.

Lemma alwayslink_same t : is_alwayslink known t = is_alwayslink known' t.
Proof. unfold is_alwayslink. pose proof (known_found t _ _ KA) as E. destruct (map_find t known), (map_find t known'); try contradiction E; [destruct E as (p & f & f' & E); apply E|reflexivity]. Qed.
Lemma testonly_same t dep : is_testonly_compatible known t dep = is_testonly_compatible known' t dep.
Proof.
  unfold is_testonly_compatible. pose proof (known_found dep _ _ KA) as E. destruct (map_find dep known), (map_find dep known'); try contradiction E; [|reflexivity].
  destruct E as (p & f & f' & E). rewrite (al_testonly E). destruct (negb _); [reflexivity|].
  pose proof (known_found t _ _ KA) as E'. destruct (map_find t known), (map_find t known'); try contradiction E'; [|reflexivity]. destruct E' as (p' & g & g' & E').
  now rewrite (al_testonly E'), (al_rule E').
Qed.
Lemma visible_by_both l l' t dep : label_texts l = label_texts l' -> both eq (visible_by l t dep false) (visible_by l' t dep false).
Proof.
  intros L b b' E E'. apply visible_by_spec in E. apply visible_by_spec in E'. rewrite L in E. rewrite <- E' in E. destruct b, b'; try reflexivity; [symmetry; now apply E|now apply E].
Qed.
Lemma can_see_both t dep : both eq (can_see known t dep) (can_see known' t dep).
Proof.
  unfold can_see. pose proof (known_found dep _ _ KA) as E. destruct (map_find dep known) as [r|], (map_find dep known') as [r'|]; try contradiction E; [|apply both_same].
  destruct E as (p & f & f' & E). rewrite (al_deprecation E). destruct (negb _); [apply both_same|]. destruct (package_eqb _ _); [apply both_same|]. destruct (str_eqb _ _); [apply both_same|].
  pose proof (al_visibility E) as V. unfold same_labels in V. destruct (q_visibility r), (q_visibility r'); try contradiction V; [|apply both_same]. apply visible_by_both, V.
Qed.
Lemma visible_only_both t l : both eq (visible_only known t l) (visible_only known' t l).
Proof. induction l as [|a l IH]; cbn [visible_only]; [apply both_same|]. eapply both_bind; [apply can_see_both|]. intros x x' <-. eapply both_bind; [exact IH|]. intros y y' <-. apply both_same. Qed.
Lemma by_includes_both t p srcs incs : both eq (needed_by_includes headers known t p srcs incs) (needed_by_includes headers known' t p srcs incs).
Proof.
  induction incs as [|i incs IH]; cbn [needed_by_includes]; [apply both_same|]. destruct (attribute _ _ _ _ _).
  - exact IH.
  - eapply both_bind; [apply visible_only_both|]. intros x x' <-. eapply both_bind; [exact IH|]. intros y y' <-. apply both_same.
  - eapply both_bind; [exact IH|]. intros y y' <-. apply both_same.
Qed.
Lemma by_sources_both t p srcs todo : both eq (needed_by_sources w read headers known t p srcs todo) (needed_by_sources w read headers known' t p srcs todo).
Proof.
  induction todo as [|s todo IH]; cbn [needed_by_sources]; [apply both_same|]. destruct (try_open read _) as [c|].
  - eapply both_bind; [apply by_includes_both|]. intros [r ok] x' <-. eapply both_bind; [exact IH|]. intros [r1 ok1] y' <-. apply both_same.
  - eapply both_bind; [exact IH|]. intros y y' <-. apply both_same.
Qed.
Lemma add_needed_both t l : both eq (add_all_needed known t l) (add_all_needed known' t l).
Proof.
  induction l as [|s l IH]; cbn [add_all_needed]; [apply both_same|]. eapply (both_bind eq).
  - unfold add_needed. destruct s as [|a [|b s]]; try apply both_same. eapply both_bind; [apply can_see_both|]. intros v v' <-. rewrite testonly_same. apply both_same.
  - intros e e' <-. eapply both_bind; [exact IH|]. intros r r' <-. apply both_same.
Qed.
Variables f f' : parsed_file.
Definition dep_similar (p : package) (d d' : view) : Prop :=
  parse_target (v_text d) p = parse_target (v_text d') p /\ (marked (pf_content f) d <-> marked (pf_content f') d').
Lemma line_marks g d line : surrounding_line g d = Ret line -> (keep_comment line = true <-> marked (pf_content g) d).
Proof.
  intros S. apply line_spec in S. rewrite keep_spec. split.
  - intros K. exists line. auto.
  - intros (l & O & K). now rewrite (on_line_unique _ _ _ _ S O).
Qed.
Definition deps_result (x x' : list (list target) * list (target * target) * list event) : Prop :=
  fst x = fst x' /\ Forall2 same_event (snd x) (snd x').
Lemma check_dep_both t ak d d' needed checked : dep_similar (tpackage t) d d' ->
  both deps_result (check_dep ignore_keep known t f ak d needed checked) (check_dep ignore_keep known' t f' ak d' needed checked).
Proof.
  intros [T L]. unfold check_dep. rewrite <- T. destruct (parse_target (v_text d) (tpackage t)) as [x|] eqn:X.
  2:{ apply both_ret. split; [reflexivity|]. constructor; [|constructor]. cbn [same_event]. split; [reflexivity|congruence]. }
  destruct (check_off x needed) as [[s nd]|]; [apply both_ret; split; [reflexivity|constructor]|].
  destruct (map_find x checked); [apply both_ret; split; [reflexivity|constructor; [cbn [same_event]; repeat split; congruence|constructor]]|].
  rewrite alwayslink_same. destruct (ak && negb (is_alwayslink known' x)).
  - intros a a'. destruct (surrounding_line f d) as [line| |] eqn:E; try discriminate. destruct (surrounding_line f' d') as [line'| |] eqn:E'; try discriminate. cbn [bind].
    apply line_marks in E. apply line_marks in E'. assert (K : keep_comment line = keep_comment line').
    { destruct (keep_comment line), (keep_comment line'); try reflexivity; [symmetry; apply E', L, E; reflexivity|apply E, L, E'; reflexivity]. }
    rewrite K. intros A A'. injection A as <-. injection A' as <-. split; [reflexivity|]. destruct (ignore_keep || _); [|constructor]. constructor; [|constructor]. cbn [same_event]. split; [reflexivity|congruence].
  - apply both_ret. split; [reflexivity|]. destruct (negb ak); [|constructor]. constructor; [|constructor]. cbn [same_event]. split; [reflexivity|congruence].
Qed.
Lemma check_deps_both t ak ds ds' : Forall2 (dep_similar (tpackage t)) ds ds' -> forall needed checked,
  both (fun x x' => fst x = fst x' /\ Forall2 same_event (snd x) (snd x')) (check_deps ignore_keep known t f ak ds needed checked) (check_deps ignore_keep known' t f' ak ds' needed checked).
Proof.
  induction 1 as [|d d' ds ds' D _ IH]; intros needed checked; cbn [check_deps]; [apply both_ret; split; [reflexivity|constructor]|].
  eapply both_bind; [apply check_dep_both, D|]. intros [[n c] ev] [[n' c'] ev'] [E1 E2]. cbn [fst snd] in *. injection E1 as <- <-.
  eapply both_bind; [apply IH|]. intros [n1 ev1] [n1' ev1'] [E3 E4]. cbn [fst snd] in *. subst n1'. apply both_ret. cbn [fst snd]. split; [reflexivity|now apply Forall2_app].
Qed.
Lemma event_self e : same_event e e.
Proof. destruct e; cbn; auto. Qed.
Lemma edits_both t r r' : pf_package f = pf_package f' -> tpackage t = pf_package f -> alike (pf_package f) f f' r r' ->
  both (Forall2 same_event) (create_edits_for_target w read ignore_keep headers known t r f) (create_edits_for_target w read ignore_keep headers known' t r' f').
Proof.
  intros P T A. unfold create_edits_for_target. rewrite <- P. eapply both_bind; [apply (texts_both _ _ (al_srcs A))|]. intros s s' E1. eapply both_bind; [apply (texts_both _ _ (al_hdrs A))|]. intros h h' E2.
  rewrite E1, E2. eapply both_bind; [apply by_sources_both|]. intros [needed ak] x <-. eapply both_bind; [apply both_same|]. intros nd nd' <-.
  eapply both_bind; [apply (deps_both _ _ _ _ _ A)|]. rewrite <- T. intros ds ds' D. eapply both_bind; [apply check_deps_both, D|]. intros [n ev] [n' ev'] [E3 E4]. cbn [fst snd] in *. subst n'.
  eapply both_bind; [apply add_needed_both|]. intros e e' <-. apply both_ret, Forall2_app; [exact E4|apply Forall2_self, event_self].
Qed.
Lemma rules_edits_both pt rs rs' : pf_package f = pf_package f' -> Forall2 (alike (pf_package f) f f') rs rs' ->
  both (fun x x' => Forall2 same_event (fst x) (fst x') /\ snd x = snd x') (edits_for_rules w read ignore_keep headers known pt f rs) (edits_for_rules w read ignore_keep headers known' pt f' rs').
Proof.
  intros P. induction 1 as [|r r' rs rs' A _ IH]; cbn [edits_for_rules]; [apply both_ret; split; [constructor|reflexivity]|]. rewrite <- P, (al_name A).
  destruct (qualified_target _ _) as [t|] eqn:Q; [|exact IH]. destruct (match_target _ _); [|exact IH]. eapply both_bind; [apply edits_both; [exact P|exact (qualified_package _ _ _ Q)|exact A]|]. intros ev ev' E.
  eapply both_bind; [exact IH|]. intros [e n] [e' n'] [E2 E3]. cbn [fst snd] in *. subst n'. apply both_ret. split; [now apply Forall2_app|reflexivity].
Qed.
End Dwyu.
Lemma files_edits_both w read ignore_keep headers known known' pt l l' : known_similar known known' -> files_similar l l' ->
  both (fun x x' => Forall2 same_event (fst x) (fst x') /\ snd x = snd x') (edits_for_files w read ignore_keep headers known pt l) (edits_for_files w read ignore_keep headers known' pt l').
Proof.
  intros K. induction 1 as [|[q f] [q' f'] l l' [_ A] _ IH]; cbn [edits_for_files snd] in *; [apply both_ret; split; [constructor|reflexivity]|]. rewrite <- (si_package _ _ A). destruct (match_package _ _); [|exact IH].
  apply found_both; [exact A|]. intros rs rs' R. eapply both_bind; [apply rules_edits_both; [exact K|apply (si_package _ _ A)|exact R]|]. intros [e n] [e' n'] [E1 E2].
  eapply both_bind; [exact IH|]. intros [e1 n1] [e1' n1'] [E3 E4]. cbn [fst snd] in *. subst n' n1'. apply both_ret. split; [now apply Forall2_app|reflexivity].
Qed.
Theorem dwyu_both w read ignore_keep pr pr' pt : projects_similar pr pr' ->
  both (fun x x' => Forall2 same_event (fst x) (fst x') /\ snd x = snd x') (dependency_edits w read ignore_keep pr pt) (dependency_edits w read ignore_keep pr' pt).
Proof.
  intros P. unfold dependency_edits. eapply both_bind; [apply header_to_lib_both, P|]. intros h h' <-. eapply both_bind; [apply known_in_both; [exact P|constructor]|]. intros k k' K. apply files_edits_both; assumption.
Qed.
