(** Proofs about the project: locations of packages (C28), files (C54), finiteness and
    definedness of the dependency graph (C25). *)
From Verif Require Import Base OMap M_Types S_Labels P_Types M_Scanner M_Ast M_Parser S_Parser P_Parser M_Query S_Query P_Query M_Elab
  S_Elab P_Elab M_Workspace M_Project M_DepGraph S_DepGraph P_DepGraph.

(** * Nothing runs out of fuel *)
Lemma bind_fuel {A B} (x : outcome A) (f : A -> outcome B) :
  x <> OutOfFuel -> (forall a, x = Ret a -> f a <> OutOfFuel) -> bind x f <> OutOfFuel.
Proof. destruct x; cbn; intros H K; [apply K; reflexivity|discriminate|contradiction]. Qed.
Lemma cast_list_fuel n : cast_list n <> OutOfFuel. Proof. destruct n; discriminate. Qed.
Lemma cast_scalar_fuel n : cast_scalar n <> OutOfFuel. Proof. destruct n; discriminate. Qed.
Lemma cast_binop_fuel n : cast_binop n <> OutOfFuel. Proof. destruct n; discriminate. Qed.
Lemma string_list_fuel l : string_list l <> OutOfFuel.
Proof.
  induction l as [|n l IH]; cbn [string_list]; [discriminate|].
  apply bind_fuel; [apply cast_scalar_fuel|]. intros s _. apply bind_fuel; [exact IH|].
  intros r _. destruct s as [[b v]|]; discriminate.
Qed.
Lemma visit_elems_fuel i a l : Forall (fun n => forall st, visit i a n st <> OutOfFuel) l ->
  forall st, visit_elems (visit i a) l st <> OutOfFuel.
Proof.
  induction 1 as [|n l H _ IH]; intros st; cbn [visit_elems]; [discriminate|].
  apply bind_fuel; [apply H|]. intros st' _. apply IH.
Qed.
Lemma visit_fuel i a n : forall st, visit i a n st <> OutOfFuel.
Proof.
  induction n using node_ind'; intros st; cbn [visit]; try discriminate; auto.
  - apply bind_fuel; [apply IHn1|]. intros; apply IHn2.
  - apply visit_elems_fuel. assumption.
  - apply bind_fuel; [apply IHn1|]. intros st1 _. apply bind_fuel; [apply IHn2|]. intros; apply IHn3.
  - destruct (f_rel st); [|apply IHn2|apply IHn2].
    destruct n1; try discriminate. destruct (is_relevant i (v_text v)); try discriminate.
    + destruct n2; try discriminate.
      intros E. revert E. apply (bind_fuel (A := finder)); [|intros; discriminate].
      specialize (IHn2 (mkFinder UserQuery (empty_result (NCall (NId v) (NList ty elems)) v) (f_default_visibility st) (f_out st))).
      exact IHn2.
    + destruct n2; try discriminate.
      intros E. revert E. apply (bind_fuel (A := finder)); [|intros; discriminate].
      specialize (IHn2 (mkFinder PackageInfo (empty_result (NCall (NId v) (NList ty elems)) v) (f_default_visibility st) (f_out st))).
      exact IHn2.
Qed.
Lemma find_targets_fuel i a l : find_targets_in i a l <> OutOfFuel.
Proof. unfold find_targets_in. apply bind_fuel; [apply visit_fuel|]. intros; discriminate. Qed.

Lemma select_entry_fuel l : select_entry l <> OutOfFuel.
Proof.
  induction l as [|n l IH]; cbn [select_entry]; [discriminate|].
  apply bind_fuel; [apply cast_binop_fuel|]. intros [[[op x] y]|] _; [|exact IH].
  destruct op; try exact IH. apply bind_fuel; [apply cast_scalar_fuel|].
  intros [[b v]|] _; [|exact IH]. destruct (str_eqb _ _); [discriminate|exact IH].
Qed.
Lemma handle_select_fuel l : handle_select l <> OutOfFuel.
Proof.
  induction l as [|n l IH]; cbn [handle_select]; [discriminate|].
  apply bind_fuel; [apply cast_list_fuel|]. intros [[ty x]|] _; [|exact IH].
  destruct ty; try exact IH. apply bind_fuel; [apply select_entry_fuel|].
  intros [m|] _; [discriminate|exact IH].
Qed.
Lemma glob_args_fuel l : forall i e, glob_args l i e <> OutOfFuel.
Proof.
  induction l as [|n l IH]; intros i e; cbn [glob_args]; [discriminate|].
  apply bind_fuel; [apply cast_list_fuel|]. intros [[ty x]|] _; [apply IH|].
  destruct n; try apply IH. destruct n1; try apply IH.
  destruct (str_eqb _ _); [apply bind_fuel; [apply cast_list_fuel|intros; apply IH]|].
  destruct (str_eqb _ _); [apply bind_fuel; [apply cast_list_fuel|intros; apply IH]|apply IH].
Qed.
Lemma elab_plus_fuel l r g : elab_plus l r g <> OutOfFuel.
Proof.
  unfold elab_plus. apply bind_fuel; [apply cast_list_fuel|]. intros [[t1 e1]|] _;
    (apply bind_fuel; [apply cast_list_fuel|]); intros [[t2 e2]|] _; try discriminate.
  destruct l; try discriminate. destruct r; discriminate.
Qed.
Lemma elab_elems_fuel (f : node -> genv -> outcome (node * genv)) l :
  Forall (fun n => forall g, f n g <> OutOfFuel) l -> forall g, elab_elems f l g <> OutOfFuel.
Proof.
  induction 1 as [|n l H _ IH]; intros g; cbn [elab_elems]; [discriminate|].
  apply bind_fuel; [apply H|]. intros [n' g'] _. apply bind_fuel; [apply IH|]. intros [l' g''] _. discriminate.
Qed.
Lemma elab_fuel mg n : forall level g, elab mg level n g <> OutOfFuel.
Proof.
  induction n using node_ind'; intros level g; cbn [elab]; try discriminate.
  - apply bind_fuel; [apply IHn|]. intros [n' g'] _. discriminate.
  - apply bind_fuel; [apply IHn1|]. intros [n1' g1] _. apply bind_fuel; [apply IHn2|]. intros [n2' g2] _.
    destruct op; try discriminate. apply bind_fuel; [apply elab_plus_fuel|]. intros; discriminate.
  - apply bind_fuel; [|intros [l' g'] _; discriminate]. apply elab_elems_fuel.
    eapply Forall_impl; [|exact H]. intros m Hm. apply Hm.
  - apply bind_fuel; [apply IHn|]. intros [n' g'] _. discriminate.
  - apply bind_fuel; [apply IHn1|]. intros [n1' g1] _. apply bind_fuel; [apply IHn2|]. intros [n2' g2] _.
    apply bind_fuel; [apply IHn3|]. intros [n3' g3] _. discriminate.
  - apply bind_fuel; [apply IHn2|]. intros [n2' g2] _. discriminate.
  - apply bind_fuel; [apply IHn1|]. intros [n1' g1] _. apply bind_fuel; [apply IHn2|]. intros [n2' g2] _.
    destruct n1'; try discriminate. destruct (str_eqb _ _); [|destruct (str_eqb _ _)].
    + destruct n2'; try discriminate. apply bind_fuel; [|intros; discriminate].
      unfold handle_glob. apply bind_fuel; [apply glob_args_fuel|]. intros [i e] _.
      apply bind_fuel; [apply string_list_fuel|]. intros i' _. apply bind_fuel; [apply string_list_fuel|].
      intros; discriminate.
    + destruct n2'; try discriminate. apply bind_fuel; [apply handle_select_fuel|]. intros; discriminate.
    + discriminate.
Qed.
Lemma elaborate_fuel mg l : elaborate mg l <> OutOfFuel.
Proof.
  unfold elaborate. apply bind_fuel; [|intros [a b] _; discriminate]. apply elab_elems_fuel.
  apply Forall_forall. intros n _ g. apply elab_fuel.
Qed.
Lemma parse_fuel_total c : parse c <> OutOfFuel.
Proof. destruct (parse_total c) as (a & b & ->). discriminate. Qed.

Section P.
Variable w : workspace.
Variable read_file : str -> option str.
Variable can_read : str -> bool.
Variable glob_in : package -> list str -> list str -> list str.

Lemma parse_missing_fuel pr p : parse_missing w read_file can_read glob_in pr p <> OutOfFuel.
Proof.
  unfold parse_missing. destruct (find_parsed pr p); [discriminate|].
  destruct (path_for_package w can_read p); [|discriminate].
  unfold add_build_file. apply bind_fuel.
  - destruct (read_file s); [|discriminate]. apply bind_fuel; [|intros [a b] _; discriminate].
    unfold add_build_file_content. destruct (find_parsed pr p); [discriminate|].
    apply bind_fuel; [apply parse_fuel_total|]. intros [a b] _. discriminate.
  - intros [pr' [f|]] _; [|discriminate]. apply bind_fuel; [|intros; discriminate].
    unfold elaborate_file. apply bind_fuel; [apply elaborate_fuel|]. intros; discriminate.
Qed.
Lemma visit_rules_fuel p rs : forall st, visit_rules p rs st <> OutOfFuel.
Proof.
  induction rs as [|r rs IH]; intros st; cbn [visit_rules]; [discriminate|].
  apply bind_fuel; [|intros; apply IH]. unfold visit_rule.
  destruct (qualified_target p _); [|discriminate]. destruct (negb _); [discriminate|].
  apply bind_fuel; [|intros; discriminate]. unfold to_follow. apply bind_fuel; [apply string_list_fuel|].
  intros; discriminate.
Qed.
Lemma rounds_fuel d : forall g pr todo, rounds w read_file can_read glob_in d g pr todo <> OutOfFuel.
Proof.
  assert (R : forall g pr todo, run_round w read_file can_read glob_in g pr todo <> OutOfFuel).
  { intros g pr todo. unfold run_round. apply bind_fuel.
    - generalize (set_of_list (map tpackage todo)). intros l. revert pr.
      induction l as [|p l IH]; intros pr; cbn [find_and_parse_missing]; [discriminate|].
      apply bind_fuel; [apply parse_missing_fuel|]. intros; apply IH.
    - intros pr' _. apply bind_fuel; [|intros; discriminate].
      generalize (mkRound g todo []). generalize (set_of_list (map tpackage todo)). intros l.
      induction l as [|p l IH]; intros st; cbn [scan_packages]; [discriminate|].
      destruct (find_parsed pr' p); [|apply IH]. apply bind_fuel; [apply find_targets_fuel|].
      intros rs _. apply bind_fuel; [apply visit_rules_fuel|]. intros; apply IH. }
  induction d as [|d IH]; intros g pr todo; cbn [rounds]; (apply bind_fuel; [apply R|]); intros [[g' pr'] todo'] _.
  - discriminate.
  - destruct (is_nil todo'); [discriminate|apply IH].
Qed.
Theorem build_graph_fuel pt d pr : build_graph w read_file can_read glob_in pt d pr <> OutOfFuel.
Proof.
  unfold build_graph. apply bind_fuel; [|intros; apply rounds_fuel].
  generalize ([] : list target). induction (pr_files pr) as [|[p f] l IH]; intros todo; cbn [initial_todo]; [discriminate|].
  apply bind_fuel; [|intros; apply IH]. unfold initial_in_file. destruct (negb _); [discriminate|].
  apply bind_fuel; [apply find_targets_fuel|]. intros; discriminate.
Qed.

(** * Finitely many labels give finitely many targets *)
Definition no_context : package := mkPackage [] [].
Lemma parse_target_package l c d : parse_target l c = Some d ->
  exists d0, parse_target l no_context = Some d0 /\
    (tpackage d = c \/ tpackage d = tpackage d0 \/ tpackage d = mkPackage (project c) (path (tpackage d0))).
Proof.
  unfold parse_target. 
  match goal with |- match ?m with _ => _ end = _ -> _ => destruct m as [[pkg tgt]|]; [|discriminate] end.
  destruct (is_nil pkg).
  - intros H; inversion H; subst. eexists. split; [reflexivity|]. left. reflexivity.
  - destruct (parse_package pkg) as [q|]; [|discriminate].
    intros H; inversion H; subst; clear H. eexists. split; [reflexivity|]. cbn [tpackage].
    destruct (is_nil (project q)) eqn:N; cbn [project path]; auto.
Qed.

Section Finite.
Variable pr0 : parsed_project.
Variable labels : list str.
Definition own_packages : list package := map fst (pr_files pr0).
Definition label_packages : list package :=
  flat_map (fun l => match parse_target l no_context with Some d => [tpackage d] | None => [] end) labels.
Definition contexts : list package :=
  own_packages ++ label_packages ++
  flat_map (fun c => map (fun q => mkPackage (project c) (path q)) label_packages) (own_packages ++ label_packages).
Definition own_targets : list target :=
  flat_map (fun pf => match find_targets [] (pf_ast (snd pf)) with
                      | Ret rs => flat_map (fun r => match qualified_target (fst pf) (v_text (q_name r)) with
                                                     | Some t => [t] | None => [] end) rs
                      | _ => [] end) (pr_files pr0).
Definition all_targets : list target := own_targets ++ flat_map (fun c => resolved c labels) contexts.

Lemma label_packages_in l d : In l labels -> parse_target l no_context = Some d -> In (tpackage d) label_packages.
Proof. intros I E. apply in_flat_map. exists l. split; [exact I|]. rewrite E. left. reflexivity. Qed.
Lemma contexts_project c : In c contexts -> exists c', In c' (own_packages ++ label_packages) /\ project c = project c'.
Proof.
  unfold contexts. rewrite !in_app_iff, in_flat_map. intros [H|[H|(c' & I & H)]].
  - exists c. split; [apply in_app_iff; auto|reflexivity].
  - exists c. split; [apply in_app_iff; auto|reflexivity].
  - exists c'. split; [exact I|]. apply in_map_iff in H as (q & <- & _). reflexivity.
Qed.
Lemma contexts_closed c l d : In c contexts -> In l labels -> parse_target l c = Some d -> In (tpackage d) contexts.
Proof.
  intros C I E. destruct (parse_target_package _ _ _ E) as (d0 & E0 & [->|[->| ->]]).
  - exact C.
  - unfold contexts. rewrite !in_app_iff. right. left. eapply label_packages_in; eauto.
  - unfold contexts. rewrite !in_app_iff. right. right.
    destruct (contexts_project c C) as (c' & I' & ->). apply in_flat_map. exists c'. split; [exact I'|].
    apply in_map_iff. exists (tpackage d0). split; [reflexivity|]. eapply label_packages_in; eauto.
Qed.

Hypothesis ok0 : project_ok pr0.
Variable pt : pattern.
Hypothesis labels_all : forall p f rs r,
  file_of w read_file can_read glob_in pr0 p f -> find_targets [] (pf_ast f) = Ret rs -> In r rs ->
  incl (mentioned r) labels.
Lemma reach_finite j : forall t, reach w read_file can_read glob_in pr0 pt j t -> In t all_targets /\ In (tpackage t) contexts.
Proof.
  induction j as [|j IH]; intros t R; inversion R; subst.
  - match goal with H : matches_pattern _ _ _ |- _ => destruct H as (_ & f & rs & r & F & Fr & Ir & Nm) end.
    apply map_find_in in F. split.
    + apply in_app_iff. left. apply in_flat_map. exists (tpackage t, f). split; [exact F|]. cbn [fst snd].
      rewrite Fr. apply in_flat_map. exists r. split; [exact Ir|]. rewrite Nm. left. reflexivity.
    + apply in_app_iff. left. apply in_map_iff. exists (tpackage t, f). auto.
  - destruct (IH s) as (_ & C); [assumption|].
    match goal with H : depends _ _ _ _ _ _ _ |- _ => destruct H as (ds & (r & (f & a & b & F & Fr & _) & ->) & Id) end.
    assert (L : incl (mentioned r) labels).
    { eapply labels_all; [exact F|exact Fr|]. apply in_app_iff. right. left. reflexivity. }
    unfold resolved in Id. apply in_flat_map in Id as (l & Il & Id).
    destruct (parse_target l (tpackage s)) as [d|] eqn:E; [|destruct Id].
    destruct Id as [<-|[]]. split.
    + apply in_app_iff. right. apply in_flat_map. exists (tpackage s). split; [exact C|].
      apply in_flat_map. exists l. split; [apply L; exact Il|]. rewrite E. left. reflexivity.
    + eapply contexts_closed; [exact C|apply L; exact Il|exact E].
Qed.
Theorem graph_ends : exists n, forall depth, (Z.of_nat n <= depth)%Z ->
  build_graph w read_file can_read glob_in pt depth pr0 = build_graph w read_file can_read glob_in pt (Z.of_nat n) pr0 /\
  forall g pr todo, build_graph w read_file can_read glob_in pt depth pr0 = Ret (g, pr, todo) -> todo = [].
Proof.
  exists (length all_targets). apply (depth_enough w read_file can_read glob_in pr0 ok0 pt all_targets); [|lia].
  intros t j _ R. apply (reach_finite j t R).
Qed.
End Finite.

(** * When nothing goes wrong *)
Lemma sound_readable ast : Forall sound ast -> readable_tree ast.
Proof.
  intros H. destruct (find_targets_defined [] false ast H) as (rs & E & D). exists rs. split; [exact E|].
  intros r l I Q. apply (D r l I). unfold result_lists. rewrite !flat_map_concat_map. cbn. rewrite Q.
  destruct (q_srcs r), (q_hdrs r), (q_textual_hdrs r), (q_public_hdrs r); cbn; auto 10.
Qed.
Section Defined.
Variable pr0 : parsed_project.
Hypothesis ok0 : project_ok pr0.
Hypothesis files0 : forall p f, find_parsed pr0 p = Some f -> readable_tree (pf_ast f).
Hypothesis disk : forall p name, path_for_package w can_read p = Some name ->
  exists content, read_file name = Some content /\ good_content called assigned content.

Lemma file_of_readable p f : file_of w read_file can_read glob_in pr0 p f -> readable_tree (pf_ast f).
Proof.
  unfold file_of. destruct (find_parsed pr0 p) as [f0|] eqn:F; [intros ->; eauto|].
  intros (name & content & stmts & errs & ast & Pa & Rd & Ps & El & ->). cbn [pf_ast].
  destruct (disk p name Pa) as (content' & Rd' & stmts' & Ps' & Hc).
  rewrite Rd in Rd'. inversion Rd'; subst content'. rewrite Ps in Ps'. inversion Ps'; subst stmts' errs.
  destruct (elaborate_defined (glob_in p) stmts (proj2 (parse_trees _ _ _ Ps) eq_refl) Hc) as (out & El' & So).
  rewrite El in El'. inversion El'; subst. apply sound_readable. exact So.
Qed.
Lemma parse_missing_defined pr p : grown w read_file can_read glob_in pr0 pr ->
  exists pr', parse_missing w read_file can_read glob_in pr p = Ret pr'.
Proof.
  intros G. unfold parse_missing. destruct (find_parsed pr p) eqn:F; [eauto|].
  destruct (path_for_package w can_read p) as [name|] eqn:Pa; [|eauto].
  destruct (disk p name Pa) as (content & Rd & stmts & Ps & Hc).
  unfold add_build_file. rewrite Rd. unfold add_build_file_content. rewrite F, Ps. cbn [bind].
  unfold elaborate_file. cbn [pf_package pf_ast].
  destruct (elaborate_defined (glob_in p) stmts (proj2 (parse_trees _ _ _ Ps) eq_refl) Hc) as (out & El' & So).
  rewrite El'. cbn [bind]. eauto.
Qed.
Lemma find_and_parse_defined want : forall pr, grown w read_file can_read glob_in pr0 pr ->
  exists pr', find_and_parse_missing w read_file can_read glob_in want pr = Ret pr'.
Proof.
  induction want as [|p want IH]; intros pr G; cbn [find_and_parse_missing]; [eauto|].
  destruct (parse_missing_defined pr p G) as (pr1 & E). rewrite E. cbn [bind].
  apply IH. eapply parse_missing_step; eauto.
Qed.
Lemma visit_rules_defined p rs : (forall r l, In r rs -> q_deps r = Some l -> exists strs, string_list l = Ret strs) ->
  forall st, exists st', visit_rules p rs st = Ret st'.
Proof.
  induction rs as [|r rs IH]; intros H st; cbn [visit_rules]; [eauto|].
  assert (E : exists st1, visit_rule p st r = Ret st1).
  { unfold visit_rule. destruct (qualified_target p _); [|eauto]. destruct (negb _); [eauto|].
    unfold to_follow, extract_string_list. destruct (q_deps r) as [l|] eqn:Q.
    - destruct (H r l (or_introl eq_refl) Q) as (strs & E). cbn [opt_elems]. rewrite E. cbn [bind]. eauto.
    - cbn [opt_elems string_list bind]. eauto. }
  destruct E as (st1 & ->). cbn [bind]. apply IH. intros r' l I. apply H. right. exact I.
Qed.
Lemma run_round_defined g pr todo : grown w read_file can_read glob_in pr0 pr ->
  exists g' pr' todo', run_round w read_file can_read glob_in g pr todo = Ret (g', pr', todo') /\
    grown w read_file can_read glob_in pr0 pr'.
Proof.
  intros G. unfold run_round. destruct (find_and_parse_defined (set_of_list (map tpackage todo)) pr G) as (pr1 & E).
  rewrite E. cbn [bind]. assert (G1 : grown w read_file can_read glob_in pr0 pr1) by (eapply parse_missing_all; eauto).
  assert (Sc : forall ps st, exists st', scan_packages pr1 ps st = Ret st').
  { induction ps as [|p ps IH]; intros st; cbn [scan_packages]; [eauto|].
    destruct (find_parsed pr1 p) as [f|] eqn:F; [|apply IH].
    destruct (file_of_readable p f (proj1 (proj2 G1) p f F)) as (rs & Er & D). rewrite Er. cbn [bind].
    destruct (visit_rules_defined p rs D st) as (st1 & ->). cbn [bind]. apply IH. }
  destruct (Sc (set_of_list (map tpackage todo)) (mkRound g todo [])) as (st & ->). cbn [bind]. eauto 6.
Qed.
Theorem graph_defined pt depth : exists g pr todo,
  build_graph w read_file can_read glob_in pt depth pr0 = Ret (g, pr, todo).
Proof.
  unfold build_graph.
  assert (In0 : forall files, incl files (pr_files pr0) -> forall todo, exists todo', initial_todo pt files todo = Ret todo').
  { induction files as [|[p f] files IH]; intros Inc todo; cbn [initial_todo]; [eauto|].
    unfold initial_in_file. destruct (negb _); cbn [bind].
    - apply IH. intros x Hx. apply Inc. right. exact Hx.
    - destruct (files0 p f) as (rs & Er & _).
      { apply msorted_find; [apply ok0|]. apply Inc. left. reflexivity. }
      rewrite Er. cbn [bind]. apply IH. intros x Hx. apply Inc. right. exact Hx. }
  destruct (In0 _ (incl_refl _) []) as (todo & ->). cbn [bind].
  generalize (mkGraph [] []). generalize (grown0 w read_file can_read glob_in pr0 ok0). generalize pr0 at 2 3.
  revert todo. induction (Z.to_nat depth) as [|d IH]; intros todo pr G g; cbn [rounds];
    destruct (run_round_defined g pr todo G) as (g' & pr' & todo' & E & G'); rewrite E; cbn [bind].
  - eauto.
  - destruct (is_nil todo'); [eauto|]. apply IH. exact G'.
Qed.
End Defined.

(** * Histories of a project *)
Lemma ok_insert pr p f n : project_ok pr -> pf_package f = p ->
  project_ok (mkProject (map_insert p f (pr_files pr)) n).
Proof.
  intros [S K] Fp. split; cbn [pr_files].
  - apply map_insert_sorted. exact S.
  - intros q g I. apply msorted_find in I; [|apply map_insert_sorted; exact S].
    rewrite map_insert_find in I by exact S. destruct (map_find q (pr_files pr)) as [g0|] eqn:F.
    + inversion I; subst. apply K. apply map_find_in. exact F.
    + destruct (keqb_spec q p) as [e|N]; [|discriminate]. inversion I; subst. reflexivity.
Qed.
(** Adding a file: what was there stays, and otherwise the file is parsed. *)
Lemma add_content_spec pr p name content pr' f : project_ok pr ->
  add_build_file_content pr p name content = Ret (pr', f) ->
  project_ok pr' /\ find_parsed pr' p = Some f /\
  (forall q, q <> p -> find_parsed pr' q = find_parsed pr q) /\
  match find_parsed pr p with
  | Some f0 => f = f0 /\ pr' = pr
  | None => exists stmts errs, parse content = Ret (stmts, errs) /\ f = mkFile p name content stmts errs /\
              pr_error_count pr' = pr_error_count pr + (if is_nil errs then 0 else 1)
  end.
Proof.
  intros OK. unfold add_build_file_content. destruct (find_parsed pr p) as [f0|] eqn:F.
  - intros E; inversion E; subst. auto.
  - destruct (parse content) as [[stmts errs]| |] eqn:Ps; cbn [bind]; try discriminate.
    intros E; inversion E; subst; clear E. split; [apply ok_insert; auto|].
    unfold find_parsed in *. cbn [pr_files pr_error_count]. split; [|split].
    + rewrite map_insert_find by apply OK. rewrite F, keqb_refl. reflexivity.
    + intros q N. rewrite map_insert_find by apply OK. destruct (map_find q (pr_files pr)); [reflexivity|].
      apply keqb_neq in N. rewrite N. reflexivity.
    + exists stmts, errs. split; [reflexivity|]. split; [reflexivity|]. destruct (is_nil errs); lia.
Qed.
Lemma run_op_spec op pr pr' : project_ok pr ->
  run_op w read_file can_read glob_in op pr = Ret pr' ->
  project_ok pr' /\ (forall q f, find_parsed pr q = Some f -> find_parsed pr' q = Some f) /\
  (forall q f, find_parsed pr q = None -> find_parsed pr' q = Some f ->
     pf_package f = q /\ read_file (pf_name f) = Some (pf_content f) /\
     exists stmts, parse (pf_content f) = Ret (stmts, pf_errors f) /\
       (pf_ast f = stmts \/ elaborate (glob_in q) stmts = Ret (pf_ast f))).
Proof.
  intros OK E.
  assert (Add : forall name p r, add_build_file read_file pr name p = Ret (pr', r) ->
    project_ok pr' /\ (forall q f, find_parsed pr q = Some f -> find_parsed pr' q = Some f) /\
    (forall q f, find_parsed pr q = None -> find_parsed pr' q = Some f ->
     pf_package f = q /\ read_file (pf_name f) = Some (pf_content f) /\
     exists stmts, parse (pf_content f) = Ret (stmts, pf_errors f) /\
       (pf_ast f = stmts \/ elaborate (glob_in q) stmts = Ret (pf_ast f)))).
  { intros name p r A. unfold add_build_file in A. destruct (read_file name) as [content|] eqn:Rd.
    - destruct (add_build_file_content pr p name content) as [[pr1 f1]| |] eqn:Ac; cbn [bind] in A; try discriminate.
      inversion A; subst; clear A.
      destruct (add_content_spec _ _ _ _ _ _ OK Ac) as (OK' & Fp & Ot & H). split; [exact OK'|]. split.
      + intros q f F. destruct (key_dec q p) as [->|N]; [|rewrite Ot by exact N; exact F].
        rewrite F in H. destruct H as [-> ->]. exact F.
      + intros q f F F'. destruct (key_dec q p) as [->|N]; [|rewrite Ot in F' by exact N; congruence].
        rewrite F in H. destruct H as (stmts & errs & Ps & -> & _). rewrite Fp in F'. inversion F'; subst. cbn.
        split; [reflexivity|]. split; [exact Rd|]. exists stmts. auto.
    - inversion A; subst; clear A. split; [exact OK|]. split; [auto|]. unfold find_parsed. cbn [pr_files]. congruence. }
  destruct op as [name p|name proj|p]; cbn [run_op] in E.
  - destruct (add_build_file read_file pr name p) as [[pr1 r]| |] eqn:A; cbn [bind] in E; try discriminate.
    inversion E; subst. apply (Add name p r). exact A.
  - unfold add_build_file_in in E.
    destruct (package_of_build_file w name proj) as [[p|]| |]; cbn [bind] in E; try discriminate.
    + destruct (add_build_file read_file pr name p) as [[pr1 r]| |] eqn:A; cbn [bind] in E; try discriminate.
      inversion E; subst. apply (Add name p r). exact A.
    + inversion E; subst. split; [exact OK|]. split; [auto|congruence].
  - destruct (parse_missing_step w read_file can_read glob_in pr pr p pr' (grown0 w read_file can_read glob_in pr OK) E)
      as ((OK' & Fi & _) & Ke & _ & _).
    split; [exact OK'|]. split; [exact Ke|]. intros q f F F'. pose proof (Fi q f F') as Ff.
    unfold file_of in Ff. rewrite F in Ff.
    destruct Ff as (name & content & stmts & errs & ast & Pa & Rd & Ps & El & ->). cbn. eauto 8.
Qed.
Theorem history_spec ops : forall pr pr', project_ok pr ->
  run_ops w read_file can_read glob_in ops pr = Ret pr' ->
  project_ok pr' /\ (forall q f, find_parsed pr q = Some f -> find_parsed pr' q = Some f) /\
  (forall q f, find_parsed pr q = None -> find_parsed pr' q = Some f ->
     pf_package f = q /\ read_file (pf_name f) = Some (pf_content f) /\
     exists stmts, parse (pf_content f) = Ret (stmts, pf_errors f) /\
       (pf_ast f = stmts \/ elaborate (glob_in q) stmts = Ret (pf_ast f))).
Proof.
  induction ops as [|op ops IH]; intros pr pr' OK E; cbn [run_ops] in E.
  - inversion E; subst. split; [exact OK|]. split; [auto|congruence].
  - destruct (run_op _ _ _ _ op pr) as [pr1| |] eqn:E1; cbn [bind] in E; try discriminate.
    destruct (run_op_spec _ _ _ OK E1) as (OK1 & K1 & N1). destruct (IH _ _ OK1 E) as (OK2 & K2 & N2).
    split; [exact OK2|]. split; [auto|]. intros q f F F'.
    destruct (find_parsed pr1 q) as [f1|] eqn:F1; [|apply N2; assumption].
    rewrite (K2 _ _ F1) in F'. inversion F'; subst. apply N1; assumption.
Qed.
End P.
