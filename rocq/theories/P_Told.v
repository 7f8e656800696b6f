(** What is said on the way does not change what is computed. *)
From Coq Require Import Lia.
From Verif Require Import Base OMap M_Types M_Scanner S_Scanner P_Scanner M_Ast M_Parser S_Parser P_Parser M_Query M_Elab M_Workspace M_Project M_DepGraph M_Printer M_Table M_Headers
  M_Dwyu M_Edits M_Highlight M_Commands S_Commands P_Commands M_Messages P_Messages S_Locations P_Locations C_Locations M_ParseErrors P_ErrLocal P_ParseErrors M_Told.

(** * Leaving out what is said *)
Definition plain {A} (x : told A) : outcome A := do (a, _) <- x; Ret a.
Lemma plain_say {A} l (a : A) : plain (say l a) = Ret a.
Proof. reflexivity. Qed.
Lemma plain_silent {A} (x : outcome A) : plain (silent x) = x.
Proof. destruct x; reflexivity. Qed.
Lemma plain_bind {A B} (x : told A) (f : A -> told B) : plain (tbind x f) = bind (plain x) (fun a => plain (f a)).
Proof. unfold plain, tbind. destruct x as [[a l]| |]; [|reflexivity..]. cbn [bind]. destruct (f a) as [[b l']| |]; reflexivity. Qed.
Lemma plain_ret {A} (x : told A) a l : x = Ret (a, l) -> plain x = Ret a.
Proof. now intros ->. Qed.
Lemma plain_back {A} (x : told A) a : plain x = Ret a -> exists l, x = Ret (a, l).
Proof. destruct x as [[b l]| |]; [|discriminate..]. intros [= ->]. exists l. reflexivity. Qed.
Lemma bind_ext {A B} (x : outcome A) (f g : A -> outcome B) : (forall a, f a = g a) -> bind x f = bind x g.
Proof. intros H. destruct x; cbn [bind]; auto. Qed.
Lemma bind_bind {A B C} (x : outcome A) (f : A -> outcome B) (g : B -> outcome C) : bind (bind x f) g = bind x (fun a => bind (f a) g).
Proof. destruct x; reflexivity. Qed.
Lemma bind_ret {A} (x : outcome A) : bind x Ret = x.
Proof. destruct x; reflexivity. Qed.
(** The two parts of what is said. *)
Lemma hear_split {A B} (x : told A) (f : A -> told B) b l : tbind x f = Ret (b, l) ->
  exists a l1 l2, x = Ret (a, l1) /\ f a = Ret (b, l2) /\ l = l1 ++ l2.
Proof.
  unfold tbind. destruct x as [[a l1]| |]; [|discriminate..]. cbn [bind]. destruct (f a) as [[b' l2]| |] eqn:E; [|discriminate..]. cbn [bind].
  intros H. injection H as <- <-. exists a, l1, l2. auto.
Qed.
Lemma silent_split {A} (x : outcome A) a l : silent x = Ret (a, l) -> x = Ret a /\ l = [].
Proof. destruct x; [|discriminate..]. cbn. intros H. injection H as <- <-. auto. Qed.
Lemma say_split {A} l0 (a0 a : A) l : say l0 a0 = Ret (a, l) -> a = a0 /\ l = l0.
Proof. intros H. injection H as <- <-. auto. Qed.

(** * The text for a file *)
Lemma after_lines i : forall sc, exists p, sc_lines (after_next i sc) = sc_lines sc ++ p.
Proof.
  induction i as [|i IH]; intros sc; cbn [after_next]; [exists []; now rewrite app_nil_r|].
  destruct (IH (snd (next sc))) as (p & ->). destruct (next_lines sc) as (q & ->). exists (q ++ p). now rewrite app_assoc.
Qed.
Lemma range_defined content i off len : exists r, get_range (sc_lines (after_next i (scanner_init content))) off len = Some r.
Proof.
  destruct (after_lines i (scanner_init content)) as (p & ->). change (sc_lines (scanner_init content)) with [0]. cbn [app].
  unfold get_range, get_pos. cbn [upper_bound Nat.leb]. eauto.
Qed.
Lemma message_defined name content c : In (e_tok c) (all_tokens content) -> exists m, parse_message name content c = Ret m.
Proof.
  intros I. destruct (in_tokens _ _ _ I) as (i & E & L & N). assert (T : e_tok c = token_at content i) by exact E.
  destruct (token_text_located content i) as [_ Le]. unfold parse_message. rewrite T in *.
  destruct (Nat.ltb_spec (length content) (tok_off (token_at content i) + length (tok_text (token_at content i)))); [lia|].
  rewrite (lines_upto_at (S (length content)) (scanner_init content) i eq_refl L N : lines_upto _ _ (tok_off (token_at content i)) = _).
  destruct (range_defined content (S i) (tok_off (token_at content i)) (length (tok_text (token_at content i)))) as (r & ->). eauto.
Qed.
Lemma file_messages_defined f stmts : parse (pf_content f) = Ret (stmts, pf_errors f) -> exists text, file_messages f = Ret text.
Proof.
  intros P. apply complaints_fit in P. apply Forall_rev in P. unfold file_messages. induction P as [|c cs [I C] _ (t & IH)]; [exists []; reflexivity|].
  cbn [all_messages]. destruct (message_defined (pf_name f) (pf_content f) c I) as (m & ->). cbn [bind]. rewrite IH. cbn [bind]. eauto.
Qed.

(** * Reading *)
Section Loading.
Variable w : workspace.
Variable read_file : str -> option str.
Variable can_read : str -> bool.
Variable glob_in : package -> list str -> list str -> list str.
Variable collect_build_files : pattern -> list str.

Lemma add_content_plain pr p filename content : plain (add_content_told pr p filename content) = add_build_file_content pr p filename content.
Proof.
  unfold add_content_told, add_build_file_content. destruct (find_parsed pr p); [reflexivity|]. destruct (parse content) as [[ast errs]| |] eqn:P; [|reflexivity..]. cbn [bind].
  destruct (file_messages_defined (mkFile p filename content ast errs) ast P) as (t & ->). reflexivity.
Qed.
Lemma add_file_plain pr f p : plain (add_file_told read_file pr f p) = add_build_file read_file pr f p.
Proof.
  unfold add_file_told, add_build_file. destruct (read_file f); [|reflexivity]. rewrite plain_bind, add_content_plain. apply bind_ext. intros [pr' f']. reflexivity.
Qed.
Lemma add_file_in_plain pr f proj : plain (add_file_in_told w read_file pr f proj) = add_build_file_in w read_file pr f proj.
Proof.
  unfold add_file_in_told, add_build_file_in. rewrite plain_bind, plain_silent. apply bind_ext. intros [p|]; [|reflexivity].
  rewrite plain_bind, add_file_plain. apply bind_ext. intros [pr' f']. reflexivity.
Qed.
Lemma add_files_plain files proj : forall pr, plain (add_files_told w read_file pr files proj) = add_build_files w read_file pr files proj.
Proof.
  induction files as [|f files IH]; intros pr; cbn [add_files_told add_build_files]; [reflexivity|]. rewrite plain_bind, add_file_in_plain. apply bind_ext. auto.
Qed.
Lemma fill_plain pr pt : plain (fill_told w read_file collect_build_files pr pt) = fill_from_pattern w read_file collect_build_files pr pt.
Proof. unfold fill_told, fill_from_pattern. cbv zeta. rewrite plain_bind, plain_say. cbn [bind]. rewrite plain_bind, add_files_plain. apply bind_ret. Qed.

Lemma parse_missing_plain pr errs p : bind (plain (parse_missing_told w read_file can_read glob_in (pr, errs) p)) (fun st => Ret (fst st)) = parse_missing w read_file can_read glob_in pr p.
Proof.
  unfold parse_missing_told, parse_missing. destruct (find_parsed pr p); [reflexivity|]. destruct (path_for_package w can_read p) as [name|]; [|reflexivity].
  rewrite plain_bind, bind_bind, add_file_plain. apply bind_ext. intros [pr' [f|]]; [|reflexivity]. rewrite plain_bind, plain_silent, bind_bind. apply bind_ext. reflexivity.
Qed.
Lemma find_missing_plain want : forall pr errs, bind (plain (find_missing_told w read_file can_read glob_in want (pr, errs))) (fun st => Ret (fst st)) = find_and_parse_missing w read_file can_read glob_in want pr.
Proof.
  induction want as [|p want IH]; intros pr errs; cbn [find_missing_told find_and_parse_missing]; [reflexivity|].
  rewrite plain_bind, bind_bind, <- (parse_missing_plain pr errs), bind_bind. apply bind_ext. intros [pr' errs']. cbn [bind fst]. apply IH.
Qed.
Lemma round_plain g pr mi todo : bind (plain (round_told w read_file can_read glob_in g pr mi todo)) (fun '(g, pr, _, todo) => Ret (g, pr, todo)) = run_round w read_file can_read glob_in g pr todo.
Proof.
  unfold round_told, run_round. cbv zeta. rewrite plain_bind, bind_bind, <- (find_missing_plain _ pr (mi_packages mi)), bind_bind. apply bind_ext. intros [pr' errs']. cbn [bind fst].
  rewrite plain_bind, plain_silent, bind_bind. apply bind_ext. reflexivity.
Qed.
Lemma rounds_plain depth : forall g pr mi todo,
  bind (plain (rounds_told w read_file can_read glob_in depth g pr mi todo)) (fun '(g, pr, _, todo) => Ret (g, pr, todo)) = rounds w read_file can_read glob_in depth g pr todo.
Proof.
  induction depth as [|depth IH]; intros g pr mi todo; cbn [rounds_told rounds]; rewrite plain_bind, bind_bind, <- (round_plain g pr mi todo), bind_bind; apply bind_ext; intros [[[g' pr'] mi'] todo']; cbn [bind]; [reflexivity|].
  destruct (is_nil todo'); [reflexivity|apply IH].
Qed.
Lemma graph_plain verbose pt depth pr :
  plain (graph_told w read_file can_read glob_in verbose pt depth pr) = do (g, pr, _) <- build_graph w read_file can_read glob_in pt depth pr; Ret (g, pr).
Proof.
  unfold graph_told, build_graph. rewrite plain_bind, plain_silent, bind_bind. apply bind_ext. intros todo. rewrite plain_bind, <- (rounds_plain _ _ _ (mkMissing [] [])), bind_bind.
  apply bind_ext. intros [[[g' pr'] mi'] todo']. reflexivity.
Qed.
End Loading.

(** * The workspace *)
Section Workspace.
Variable is_directory : str -> bool.
Variable can_read : str -> bool.
Variable glob : str -> list str.
Variable read_file : str -> option str.
Lemma rules_unfound_defined f rs : (forall r, In r rs -> within (pf_content f) (q_name r)) -> exists s, rules_unfound is_directory can_read glob f rs = Ret s.
Proof.
  induction rs as [|r rs IH]; intros H; cbn [rules_unfound]; [eauto|]. destruct IH as (s & ->); [intros r' I; apply H; now right|].
  destruct (project_dir is_directory can_read glob _ _) as [d|]; cbn [bind]; [eauto|].
  assert (W := H r (or_introl eq_refl)). destruct (loc_defined f (q_name r)) as (l & ->); [unfold within in W; destruct (v_org (q_name r)); apply W|]. cbn [bind]. eauto.
Qed.
Lemma parsed_within content stmts errs n v : parse content = Ret (stmts, errs) -> In n stmts -> In v (views n) -> within content v.
Proof.
  intros P I V. destruct (proj1 (Forall_forall _ _) (proj1 (parse_trees content stmts errs P)) n I) as (F & _ & _).
  rewrite Forall_forall in F. destruct (F v V) as (off & Ho & Lv). unfold within. rewrite Ho. exact Lv.
Qed.
Lemma parsed_results content stmts errs interest allow rs : parse content = Ret (stmts, errs) -> find_targets_in interest allow stmts = Ret rs ->
  forall r v, In r rs -> In v (result_views r) -> within content v.
Proof.
  intros P F r v I V. assert (H := find_targets_views (within content) ltac:(cbn; split; [lia|reflexivity]) interest allow stmts rs).
  assert (Fo : Forall (fun n => Forall (within content) (views n)) stmts).
  { rewrite Forall_forall. intros n Hn. rewrite Forall_forall. intros x Hx. eapply parsed_within; eauto. }
  specialize (H Fo F). rewrite Forall_forall in H. specialize (H r I). rewrite Forall_forall in H. auto.
Qed.
Lemma name_view r : In (q_name r) (result_views r).
Proof. unfold result_views. apply in_or_app. right. right. left. reflexivity. Qed.
Lemma load_file_plain found w ws : bind (plain (load_file_told is_directory can_read glob read_file (found, w) ws)) (fun '(st, _) => Ret st) = load_file is_directory can_read glob read_file (Ret (found, w)) ws.
Proof.
  unfold load_file_told, load_file. cbn [bind]. destruct (read_file ws) as [content|]; [|reflexivity]. destruct (parse content) as [[ast errs]| |] eqn:P; [|reflexivity..]. cbn [bind].
  destruct (file_messages_defined (mkFile (mkPackage [] []) ws content ast errs) ast P) as (t & ->). cbn [bind]. destruct (find_targets _ ast) as [rs| |] eqn:F; [|reflexivity..]. cbn [bind].
  destruct (rules_unfound_defined (mkFile (mkPackage [] []) ws content ast errs) rs) as (s & ->); [|reflexivity].
  intros r I. eapply parsed_results; [exact P|exact F|exact I|apply name_view].
Qed.
Lemma load_files_plain files : forall st,
  bind (plain (load_files_told is_directory can_read glob read_file files st)) (fun '(st, _) => Ret st) = fold_left (load_file is_directory can_read glob read_file) files (Ret st).
Proof.
  induction files as [|ws files IH]; intros [found w]; cbn [load_files_told fold_left]; [reflexivity|]. rewrite <- load_file_plain, plain_bind, bind_bind.
  destruct (plain (load_file_told _ _ _ _ _ ws)) as [[[found' w'] m]| |]; cbn [bind].
  - rewrite <- (IH (found', w')), plain_bind, bind_bind. apply bind_ext. intros [st ms]. reflexivity.
  - clear. induction files; cbn [fold_left]; auto.
  - clear. induction files; cbn [fold_left]; auto.
Qed.
Lemma load_workspace_plain : plain (load_workspace_told is_directory can_read glob read_file) = load_workspace is_directory can_read glob read_file.
Proof.
  unfold load_workspace_told, load_workspace.
  assert (X : fold_left (load_file is_directory can_read glob read_file) workspace_files (Ret (false, [])) =
    fold_left (load_file is_directory can_read glob read_file) (firstn 2 workspace_files ++ skipn 2 workspace_files) (Ret (false, []))) by reflexivity.
  rewrite X, fold_left_app, <- load_files_plain, plain_bind. clear X.
  generalize (skipn 2 workspace_files) (firstn 2 workspace_files). intros l1 l2.
  destruct (plain (load_files_told _ _ _ _ l2 _)) as [[st m]| |]; cbn [bind].
  - rewrite <- (load_files_plain l1), plain_bind, bind_bind. apply bind_ext. intros [[found w] ms]. reflexivity.
  - clear. induction l1; cbn [fold_left]; auto.
  - clear. induction l1; cbn [fold_left]; auto.
Qed.
End Workspace.

(** * The run *)
Section Run.
Variable is_directory : str -> bool.
Variable can_read : str -> bool.
Variable glob : str -> list str.
Variable read_file : str -> option str.
Variable glob_in : workspace -> package -> list str -> list str -> list str.
Variable collect_build_files : workspace -> pattern -> list str.
Variable compilation_flags : workspace -> parsed_project -> pattern -> bool -> outcome str.
Variable verbose : nat.
Variable texts : library_texts.
Lemma prepare_plain fl cmd pt : plain (prepare_told is_directory can_read glob read_file glob_in collect_build_files verbose fl cmd pt)
  = prepare is_directory can_read glob read_file glob_in collect_build_files fl cmd pt.
Proof.
  unfold prepare_told, prepare. rewrite plain_bind, load_workspace_plain. apply bind_ext. intros [w|]; [|reflexivity]. cbv zeta.
  rewrite plain_bind. destruct (needs_project cmd pt); [rewrite fill_plain|rewrite plain_say]; apply bind_ext; intros pr; rewrite plain_bind, plain_silent; apply bind_ext; intros pr1; rewrite plain_bind.
  all: destruct (wants_graph cmd && _); [|reflexivity]; rewrite plain_bind, graph_plain, !bind_bind; apply bind_ext; intros [[g pr'] todo]; reflexivity.
Qed.
(** What is said is never wrong about what is done. *)
Lemma perform_same fl cmd pt w pr g out st notes :
  perform_told read_file compilation_flags verbose texts fl cmd pt w pr g = Ret (out, st, notes) ->
  perform read_file compilation_flags fl cmd pt w pr g = Ret (out, st).
Proof.
  unfold perform_told. destruct cmd; try (intros H; apply silent_split in H as [H _]; exact H); unfold perform; cbv zeta.
  - destruct (_ || _); [|intros H; apply say_split in H as [H _]; now rewrite H]. intros H. step H as o by S. apply say_split in H as [H _]. rewrite H. reflexivity.
  - intros H. step H as o by S. apply say_split in H as [H _]. rewrite H. reflexivity.
  - intros H. step H as [m l] by S. step H as o by S0. apply say_split in H as [H _]. rewrite H. unfold generated_from_genrule. apply genrules_of_files_erase in S. rewrite S. cbn [bind]. rewrite S0. reflexivity.
  - intros H. step H as [[evs n] l] by S. apply say_split in H as [H _]. apply told_same in S. rewrite S, H. reflexivity.
  - intros H. step H as evs by S. step H as l by S0. apply say_split in H as [H _]. rewrite H. reflexivity.
Qed.
Lemma run_command_same fl cmd pt out st notes :
  run_command_told is_directory can_read glob read_file glob_in collect_build_files compilation_flags verbose texts fl cmd pt = Ret (out, st, notes) ->
  run_command is_directory can_read glob read_file glob_in collect_build_files compilation_flags fl cmd pt = Ret (out, st).
Proof.
  unfold run_command_told, run_command. intros H. apply hear_split in H as (a & l1 & l2 & E & H & _). rewrite <- prepare_plain, (plain_ret _ _ _ E). cbn [bind].
  destruct a as [[[w pr] g]|]; [now apply perform_same in H|]. apply say_split in H as [H _]. rewrite H. reflexivity.
Qed.
Theorem run_same fl args out st notes :
  run_cli_told is_directory can_read glob read_file glob_in collect_build_files compilation_flags verbose texts fl args = Some (Ret (out, st, notes)) ->
  run_cli is_directory can_read glob read_file glob_in collect_build_files compilation_flags fl args = Some (Ret (out, st)).
Proof.
  unfold run_cli_told, run_cli. cbv zeta. destruct args as [|word args]; [intros [= <- <- _]; reflexivity|].
  destruct (find_command command_names word) as [cmd| |]; try (intros [= <- <- _]; reflexivity).
  assert (K : forall pt, Some (if needs_pattern cmd && is_matchall pt
      then say [NUsage ($"Please provide a bazel pattern for this command." ++ [NL] ++ $"Examples: //... or //foo/bar:baz" ++ [NL])] ([], ExitFailure)
      else run_command_told is_directory can_read glob read_file glob_in collect_build_files compilation_flags verbose texts fl cmd pt) = Some (Ret (out, st, notes)) ->
    Some (if needs_pattern cmd && is_matchall pt then Ret ([], ExitFailure)
      else run_command is_directory can_read glob read_file glob_in collect_build_files compilation_flags fl cmd pt) = Some (Ret (out, st))).
  { intros pt. destruct (_ && _); [intros [= <- <- _]; reflexivity|]. intros H. injection H as H. now rewrite (run_command_same _ _ _ _ _ _ H). }
  destruct args as [|arg more]; [apply K|]. destruct (parse_pattern arg) as [pt| |]; [|intros [= <- <- _]; reflexivity|discriminate].
  destruct more as [|x more]; [apply K|]. intros [= <- <- _]. reflexivity.
Qed.
(** It is only undefined where the program is, or where a location is asked for. *)
Theorem run_none fl args :
  run_cli_told is_directory can_read glob read_file glob_in collect_build_files compilation_flags verbose texts fl args = None <->
  run_cli is_directory can_read glob read_file glob_in collect_build_files compilation_flags fl args = None.
Proof.
  unfold run_cli_told, run_cli. cbv zeta. destruct args as [|word args]; [split; discriminate|]. destruct (find_command command_names word) as [cmd| |]; try (split; discriminate).
  destruct args as [|arg more]; [split; discriminate|]. destruct (parse_pattern arg) as [pt| |]; [|split; discriminate|split; reflexivity]. destruct more; split; discriminate.
Qed.
End Run.
