(** Proofs for C89. *)
From Coq Require Import ZArith Lia.
From Verif Require Import Base OMap M_Types M_Scanner M_Ast M_Parser M_Query M_Elab M_Workspace M_Project M_DepGraph S_DepGraph P_DepGraph P_Project
  M_Table S_Table P_Table M_Commands S_Commands P_Commands S_Run P_Run C_Commands C_Formats.
Local Open Scope string_scope. Local Open Scope list_scope.

(** The same flags with another depth. *)
Definition with_depth (fl : flags) (depth : Z) : flags :=
  mkFlags (fl_print_ast fl) (fl_print_only_errors fl) (fl_elaborate fl) (fl_ignore_keep fl) depth (fl_format fl) (fl_grep fl) (fl_color fl).
Definition keeps (pr pr' : parsed_project) : Prop := forall p f, find_parsed pr p = Some f -> find_parsed pr' p = Some f.

Lemma occurs_in t l : In t l <-> occurrences t l <> 0.
Proof.
  unfold occurrences. split.
  - intros I Z. apply length_zero_iff_nil in Z. assert (X : In t (filter (target_eqb t) l)) by (apply filter_In; split; [exact I|apply target_eqb_eq; reflexivity]).
    rewrite Z in X. destruct X.
  - intros N. destruct (filter (target_eqb t) l) as [|x r] eqn:F; [contradiction|]. assert (X : In x (filter (target_eqb t) l)) by (rewrite F; left; reflexivity).
    apply filter_In in X as [X Y]. apply target_eqb_eq in Y. subst. exact X.
Qed.

Section Rounds.
Variable w : workspace.
Variable read_file : str -> option str.
Variable can_read : str -> bool.
Variable glob_in : package -> list str -> list str -> list str.
Notation rounds := (rounds w read_file can_read glob_in).
Notation run_round := (run_round w read_file can_read glob_in).
Lemma round_keeps g pr todo g' pr' todo' : project_ok pr -> run_round g pr todo = Ret (g', pr', todo') -> project_ok pr' /\ keeps pr pr'.
Proof.
  intros OK E. unfold M_DepGraph.run_round in E. destruct (find_and_parse_missing _ _ _ _ _ pr) as [pr1| |] eqn:F; try discriminate E. cbn [bind] in E.
  destruct (scan_packages _ _ _) as [st| |]; try discriminate E. cbn [bind] in E. injection E as <- <- <-.
  destruct (parse_missing_all w read_file can_read glob_in pr _ _ _ (grown0 _ _ _ _ _ OK) F) as ((OK' & _) & K & _). split; [exact OK'|exact K].
Qed.
Lemma rounds_keep d : forall g pr todo g' pr' todo', project_ok pr -> rounds d g pr todo = Ret (g', pr', todo') -> project_ok pr' /\ keeps pr pr'.
Proof.
  induction d as [|d IH]; intros g pr todo g' pr' todo' OK E; cbn [M_DepGraph.rounds] in E;
    destruct (run_round g pr todo) as [[[g1 pr1] t1]| |] eqn:R; try discriminate E; cbn [bind] in E; destruct (round_keeps _ _ _ _ _ _ OK R) as (OK1 & K1).
  - injection E as <- <- <-. auto.
  - destruct (is_nil t1); [injection E as <- <- <-; auto|]. destruct (IH _ _ _ _ _ _ OK1 E) as (OK2 & K2). split; [exact OK2|]. intros p f X. auto.
Qed.
Lemma rounds_deeper d m : forall g pr todo g1 pr1 t1 g2 pr2 t2, project_ok pr -> rounds d g pr todo = Ret (g1, pr1, t1) ->
  rounds (d + m) g pr todo = Ret (g2, pr2, t2) -> keeps pr1 pr2.
Proof.
  induction d as [|d IH]; intros g pr todo g1 pr1 t1 g2 pr2 t2 OK E E2.
  - cbn [M_DepGraph.rounds Nat.add] in E, E2. destruct (run_round g pr todo) as [[[g0 pr0] t0]| |] eqn:R; try discriminate E. cbn [bind] in E. injection E as <- <- <-.
    destruct (round_keeps _ _ _ _ _ _ OK R) as (OK0 & K0). destruct m as [|m]; cbn [M_DepGraph.rounds] in E2; rewrite R in E2; cbn [bind] in E2; [injection E2 as <- <- <-; intros p f X; exact X|].
    destruct (is_nil t0); [injection E2 as <- <- <-; intros p f X; exact X|]. apply (rounds_keep _ _ _ _ _ _ _ OK0 E2).
  - cbn [M_DepGraph.rounds Nat.add] in E, E2. destruct (run_round g pr todo) as [[[g0 pr0] t0]| |] eqn:R; try discriminate E. cbn [bind] in E, E2.
    destruct (round_keeps _ _ _ _ _ _ OK R) as (OK0 & K0). destruct (is_nil t0).
    + injection E as <- <- <-. injection E2 as <- <- <-. intros p f X; exact X.
    + exact (IH _ _ _ _ _ _ _ _ _ OK0 E E2).
Qed.
Lemma graph_deeper pt d d' pr g1 pr1 t1 g2 pr2 t2 : project_ok pr -> (d <= d')%Z ->
  build_graph w read_file can_read glob_in pt d pr = Ret (g1, pr1, t1) ->
  build_graph w read_file can_read glob_in pt d' pr = Ret (g2, pr2, t2) -> keeps pr1 pr2.
Proof.
  intros OK L E E2. unfold build_graph in E, E2. destruct (initial_todo _ _ _) as [todo| |]; try discriminate E. cbn [bind] in E, E2.
  replace (Z.to_nat d') with (Z.to_nat d + (Z.to_nat d' - Z.to_nat d)) in E2 by lia. exact (rounds_deeper _ _ _ _ _ _ _ _ _ _ _ OK E E2).
Qed.
Lemma graph_keeps pt d pr g1 pr1 t1 : project_ok pr -> build_graph w read_file can_read glob_in pt d pr = Ret (g1, pr1, t1) -> keeps pr pr1 /\ project_ok pr1.
Proof.
  intros OK E. unfold build_graph in E. destruct (initial_todo _ _ _) as [todo| |]; try discriminate E. cbn [bind] in E.
  destruct (rounds_keep _ _ _ _ _ _ _ OK E). auto.
Qed.
End Rounds.

Section Run.
Variable is_directory : str -> bool.
Variable can_read : str -> bool.
Variable glob : str -> list str.
Variable read_file : str -> option str.
Variable glob_in : workspace -> package -> list str -> list str -> list str.
Variable collect_build_files : workspace -> pattern -> list str.
Notation prepare := (prepare is_directory can_read glob read_file glob_in collect_build_files).
Definition graph_at (w : workspace) (cmd : command) (pt : pattern) (pr0 : parsed_project) (depth : Z) (pr : parsed_project) (g : graph) : Prop :=
  if wants_graph cmd && (0 <=? depth)%Z
  then exists todo, build_graph w read_file can_read (glob_in w) (match cmd with CHasDependents => pattern_always | _ => pt end) depth pr0 = Ret (g, pr, todo)
  else g = mkGraph [] [] /\ pr = pr0.
(** Two runs differ in nothing else before the dependencies are followed. *)
Lemma prepare_same fl d d' cmd pt w pr g w' pr' g' :
  prepare (with_depth fl d) cmd pt = Ret (Some (w, pr, g)) -> prepare (with_depth fl d') cmd pt = Ret (Some (w', pr', g')) ->
  w = w' /\ exists pr0, project_ok pr0 /\ graph_at w cmd pt pr0 (depth_for cmd d) pr g /\ graph_at w cmd pt pr0 (depth_for cmd d') pr' g'.
Proof.
  intros E E'. assert (P := E). apply prepare_spec in P as (_ & prx & H & _).
  unfold M_Commands.prepare in E, E'. destruct (load_workspace is_directory can_read glob read_file) as [[w0|]| |]; try discriminate. cbn [bind] in E, E'.
  set (w1 := augment_from_external_dir is_directory glob w0) in *.
  set (dp := match cmd with CHasDependents => pattern_always | _ => pt end) in *.
  destruct (if needs_project cmd pt then _ else _) as [pr1| |] eqn:F; try discriminate. cbn [bind] in E, E'.
  assert (H1 : holds_files w1 read_file (glob_in w1) (if needs_project cmd pt then collect_build_files w1 dp else []) (pat_project dp) false pr1).
  { destruct (needs_project cmd pt); [apply fill_spec; exact F|]. injection F as <-. apply empty_holds. }
  cbn [with_depth fl_elaborate fl_depth] in E, E'.
  destruct (if elaborate_for cmd (fl_elaborate fl) then _ else _) as [pr2| |] eqn:El; try discriminate. cbn [bind] in E, E'.
  assert (H2 : holds_files w1 read_file (glob_in w1) (if needs_project cmd pt then collect_build_files w1 dp else []) (pat_project dp) (elaborate_for cmd (fl_elaborate fl)) pr2).
  { destruct (elaborate_for cmd (fl_elaborate fl)); [eapply elaborate_holds; eauto|]. injection El as <-. exact H1. }
  assert (A : forall dd u v x, (do (g, pr) <- (if wants_graph cmd && (0 <=? depth_for cmd dd)%Z
                     then do (g, pr, _) <- build_graph w1 read_file can_read (glob_in w1) dp (depth_for cmd dd) pr2; Ret (g, pr)
                     else Ret (mkGraph [] [], pr2)); Ret (Some (w1, pr, g))) = Ret (Some (u, v, x)) -> u = w1 /\ graph_at w1 cmd pt pr2 (depth_for cmd dd) v x).
  { intros dd u v x Q. unfold graph_at. fold dp. destruct (wants_graph cmd && (0 <=? depth_for cmd dd)%Z).
    - destruct (build_graph w1 read_file can_read (glob_in w1) dp (depth_for cmd dd) pr2) as [[[g1 pq] todo]| |] eqn:B; try discriminate.
      cbn [bind] in Q. injection Q as <- <- <-. split; [reflexivity|]. exists todo. reflexivity.
    - cbn [bind] in Q. injection Q as <- <- <-. auto. }
  apply A in E as [-> G1]. apply A in E' as [-> G2]. split; [reflexivity|]. exists pr2. split; [exact (holds_ok _ _ _ _ _ _ _ H2)|]. auto.
Qed.
(** More files, more entries. *)
Lemma graph_at_deeper w cmd pt pr0 d d' pr g pr' g' : project_ok pr0 -> (d <= d')%Z ->
  graph_at w cmd pt pr0 d pr g -> graph_at w cmd pt pr0 d' pr' g' ->
  project_ok pr /\ project_ok pr' /\ keeps pr pr' /\ incl (depends_on g) (depends_on g') /\
  forall b ds a, In (b, ds) (has_dependents g) -> In a ds -> exists ds', In (b, ds') (has_dependents g') /\ In a ds'.
Proof.
  intros OK L A B. unfold graph_at in A, B. set (dp := match cmd with CHasDependents => pattern_always | _ => pt end) in *.
  destruct (wants_graph cmd); cbn [andb] in A, B.
  2:{ destruct A as [-> ->], B as [-> ->]. split; [exact OK|]. split; [exact OK|]. split; [intros ? ? X; exact X|]. split; [intros ? []|intros b ds a []]. }
  destruct (Z.leb_spec 0 d) as [L1|L1].
  - destruct (Z.leb_spec 0 d') as [L2|L2]; [|lia]. destruct A as (t1 & A), B as (t2 & B).
    destruct (graph_keeps _ _ _ _ _ _ _ _ _ _ OK A) as (_ & OK1). destruct (graph_keeps _ _ _ _ _ _ _ _ _ _ OK B) as (_ & OK2).
    split; [exact OK1|]. split; [exact OK2|]. split; [exact (graph_deeper _ _ _ _ _ _ _ _ _ _ _ _ _ _ OK L A B)|].
    destruct (graph_entries can_read read_file glob_in w dp d pr0 g pr t1 OK A) as (S1 & T1 & K1 & C1).
    destruct (graph_entries can_read read_file glob_in w dp d' pr0 g' pr' t2 OK B) as (S2 & T2 & K2 & C2).
    assert (I : incl (depends_on g) (depends_on g')).
    { intros [t ds] X. apply K2. apply K1 in X as (D & j & J & R). split; [exact D|]. exists j. split; [lia|exact R]. }
    split; [exact I|]. intros b ds a X Ia.
    assert (Eb : S_DepGraph.entry (has_dependents g) b = ds) by (unfold S_DepGraph.entry; apply msorted_find in X; auto; rewrite X; reflexivity).
    assert (Y : In a (S_DepGraph.entry (has_dependents g') b)).
    { apply occurs_in. rewrite <- C2. apply occurs_in. rewrite <- Eb in Ia. apply occurs_in in Ia. rewrite <- C1 in Ia. apply occurs_in in Ia.
      unfold S_DepGraph.entry in Ia |- *. destruct (map_find a (depends_on g)) as [l|] eqn:F; [|destruct Ia].
      apply map_find_in in F. apply I in F. apply msorted_find in F; auto. rewrite F. exact Ia. }
    exists (S_DepGraph.entry (has_dependents g') b). split; [|exact Y]. unfold S_DepGraph.entry in *.
    destruct (map_find b (has_dependents g')) as [l|] eqn:F; [apply map_find_in; exact F|destruct Y].
  - destruct A as [-> ->]. split; [exact OK|]. destruct (Z.leb_spec 0 d') as [L2|L2].
    + destruct B as (t2 & B). destruct (graph_keeps _ _ _ _ _ _ _ _ _ _ OK B) as (K & OK2). split; [exact OK2|]. split; [exact K|]. split; [intros ? []|intros b ds a []].
    + destruct B as [-> ->]. split; [exact OK|]. split; [intros ? ? X; exact X|]. split; [intros ? []|intros b ds a []].
Qed.
End Run.


(** * Rows *)
Lemma keeps_files pr pr' : project_ok pr -> project_ok pr' -> keeps pr pr' -> incl (pr_files pr) (pr_files pr').
Proof. intros [S _] _ K [p f] I. apply (msorted_find _ _ _ S) in I. apply K in I. apply map_find_in. exact I. Qed.
Lemma pair_rows_more pt pt' m m' : (forall t, match_target pt t = true -> match_target pt' t = true) ->
  (forall t ds a, In (t, ds) m -> In a ds -> exists ds', In (t, ds') m' /\ In a ds') ->
  incl (pair_rows (filter (fun e => match_target pt (fst e)) m)) (pair_rows (filter (fun e => match_target pt' (fst e)) m')).
Proof.
  intros P H row I. unfold pair_rows in *. apply in_flat_map in I as ([t ds] & I & R). apply filter_In in I as [I M]. cbn [fst snd] in *.
  apply in_map_iff in R as (a & <- & Ia). destruct (H _ _ _ I Ia) as (ds' & I' & Ia'). apply in_flat_map. exists (t, ds'). split.
  - apply filter_In. split; [exact I'|]. apply P. exact M.
  - apply in_map_iff. exists a. auto.
Qed.
Lemma target_rows_more pt pt' p f : (forall t, match_target pt t = true -> match_target pt' t = true) ->
  forall rs a b, target_rows pt p f rs = Ret a -> target_rows pt' p f rs = Ret b -> incl a b.
Proof.
  intros P. induction rs as [|r rs IH]; intros a b A B; cbn [target_rows] in A, B.
  - injection A as <-. intros x [].
  - destruct (parse_target _ p) as [t|]; [|eauto]. destruct (match_target pt t) eqn:M.
    + rewrite (P _ M) in B. destruct (loc f (q_name r)) as [l| |]; try discriminate. cbn [bind] in A, B.
      destruct (target_rows pt p f rs) as [a'| |] eqn:A'; try discriminate. destruct (target_rows pt' p f rs) as [b'| |] eqn:B'; try discriminate.
      injection A as <-. injection B as <-. intros x [->|X]; [left; reflexivity|right]. exact (IH _ _ eq_refl eq_refl x X).
    + destruct (match_target pt' t); [|eauto]. destruct (loc f (q_name r)) as [l| |]; try discriminate. cbn [bind] in B.
      destruct (target_rows pt' p f rs) as [b'| |] eqn:B'; try discriminate. injection B as <-. intros x X. right. exact (IH _ _ A eq_refl x X).
Qed.
Lemma target_rows_of_in pt files : forall ops, target_rows_of pt files = Ret ops -> forall x, In x ops <->
  exists p f rs a, In (p, f) files /\ find_targets [] (pf_ast f) = Ret rs /\ target_rows pt p f rs = Ret a /\ In x a.
Proof.
  induction files as [|[p f] files IH]; intros ops E x; cbn [target_rows_of] in E.
  - injection E as <-. split; [intros []|intros (? & ? & ? & ? & [] & _)].
  - destruct (find_targets [] (pf_ast f)) as [rs| |] eqn:F; try discriminate. cbn [bind] in E.
    destruct (target_rows pt p f rs) as [a| |] eqn:A; try discriminate. cbn [bind] in E. destruct (target_rows_of pt files) as [b| |]; try discriminate.
    injection E as <-. rewrite in_app_iff, (IH _ eq_refl). split.
    + intros [X|(q & h & rs' & a' & I & R)]; [exists p, f, rs, a; auto using in_eq|]. exists q, h, rs', a'. split; [right; exact I|exact R].
    + intros (q & h & rs' & a' & [[= <- <-]|I] & Q & R & X).
      * rewrite F in Q. injection Q as <-. rewrite A in R. injection R as <-. left. exact X.
      * right. exists q, h, rs', a'. auto.
Qed.
Lemma target_rows_of_all pt files : forall ops, target_rows_of pt files = Ret ops -> forall p f, In (p, f) files ->
  exists rs a, find_targets [] (pf_ast f) = Ret rs /\ target_rows pt p f rs = Ret a.
Proof.
  induction files as [|[p f] files IH]; intros ops E q h I; cbn [target_rows_of] in E; [destruct I|].
  destruct (find_targets [] (pf_ast f)) as [rs| |] eqn:F; try discriminate. cbn [bind] in E.
  destruct (target_rows pt p f rs) as [a| |] eqn:A; try discriminate. cbn [bind] in E. destruct (target_rows_of pt files) as [b| |]; try discriminate.
  destruct I as [[= <- <-]|I]; eauto.
Qed.
Lemma target_ops_more pt pt' files files' ops ops' : (forall t, match_target pt t = true -> match_target pt' t = true) -> incl files files' ->
  target_rows_of pt files = Ret ops -> target_rows_of pt' files' = Ret ops' -> incl ops ops'.
Proof.
  intros P I E E' x X. apply (target_rows_of_in _ _ _ E) in X as (p & f & rs & a & If & F & A & X).
  destruct (target_rows_of_all _ _ _ E' p f (I _ If)) as (rs' & b & F' & B). rewrite F in F'. injection F' as <-.
  apply (target_rows_of_in _ _ _ E'). exists p, f, rs, b. split; [auto|]. split; [exact F|]. split; [exact B|]. exact (target_rows_more _ _ _ _ P _ _ _ A B x X).
Qed.
Lemma target_rows_plain pt p f : forall rs a, target_rows pt p f rs = Ret a -> forall op, In op a -> exists x y z, op = AddRow [x; y; z].
Proof.
  induction rs as [|r rs IH]; intros a A op I; cbn [target_rows] in A; [injection A as <-; destruct I|].
  destruct (parse_target _ p) as [t|]; [|eauto]. destruct (match_target pt t); [|eauto]. destruct (loc f (q_name r)) as [l| |]; try discriminate. cbn [bind] in A.
  destruct (target_rows pt p f rs) as [a'| |]; try discriminate. injection A as <-. destruct I as [<-|I]; eauto.
Qed.
Lemma target_csv pt pr out : print_targets FmtCsv pt pr = Ret out -> exists ops, target_rows_of pt (pr_files pr) = Ret ops /\
  read_csv out = Some ([$"file-location"; $"rule"; $"target"] :: flat_map (fun op => entry_rows (entry_of op)) ops).
Proof.
  intros E. unfold print_targets in E. destruct (target_rows_of pt (pr_files pr)) as [ops| |] eqn:T; try discriminate. cbn [bind] in E. exists ops. split; [reflexivity|].
  apply csv_table in E; [exact E|discriminate|]. intros op I. apply (target_rows_of_in _ _ _ T) in I as (p & f & rs & a & _ & _ & A & I).
  destruct (target_rows_plain _ _ _ _ _ A _ I) as (x & y & z & ->). discriminate.
Qed.
