(** Property C92: a change in one BUILD file concerns only its package. *)
From Coq Require Import NArith ZArith Lia.
From Verif Require Import Base OMap M_Types M_Scanner M_Ast M_Parser M_Query M_Elab M_Workspace M_Project P_Project M_Walk S_Walk M_Table S_Table P_Table M_DepGraph S_DepGraph P_DepGraph
  M_Highlight M_Edits M_Commands M_System P_Commands S_Run P_Run S_Order P_Order C_Walk C_Order C_Commands S_Packages P_Packages C_Packages P_Deeper S_Relaid S_Reads P_Reads S_Local P_Local.
Local Open Scope string_scope. Local Open Scope list_scope.

Section Change.
Variable fuel : nat.
Variable fs : file_system.
Variable content' : str -> option str.
(** One BUILD file is different (or new, or no longer there); it is for the package [p]. *)
Variable b : str.
Variable p : package.
Hypothesis diff : differs_at b (fs_content fs) content'.
Hypothesis is_for : for_package b p.
Hypothesis not_workspace : ~ about_workspace b.
Notation run content := (run_here fuel (with_content fs content)).
Notation prep content := (prepare (is_dir fs) (fs_can_read fs) (fs_glob fs) content (globbed_files fuel fs) (found_build_files fuel fs)).
Notation before := (fs_content fs).

Lemma prepared fl cmd pt w pr g w' pr' g' : In cmd [CPrint; CCanonicalize; CListPackages; CListTargets; CDependsOn; CAliasedBy] -> pat_project pt = [] ->
  prep before fl cmd pt = Ret (Some (w, pr, g)) -> prep content' fl cmd pt = Ret (Some (w', pr', g')) ->
  w' = w /\ exists pr0 pr0', project_ok pr0 /\ project_ok pr0' /\
    (forall k v, k <> p -> In (k, v) (pr_files pr0) <-> In (k, v) (pr_files pr0')) /\
    (forall e, In e (pr_files pr0) \/ In e (pr_files pr0') -> for_package (pf_name (snd e)) (fst e)) /\
    (if wants_graph cmd && (0 <=? fl_depth fl)%Z then exists todo, build_graph w before (fs_can_read fs) (globbed_files fuel fs w) pt (fl_depth fl) pr0 = Ret (g, pr, todo) else g = mkGraph [] [] /\ pr = pr0) /\
    (if wants_graph cmd && (0 <=? fl_depth fl)%Z then exists todo, build_graph w content' (fs_can_read fs) (globbed_files fuel fs w) pt (fl_depth fl) pr0' = Ret (g', pr', todo) else g' = mkGraph [] [] /\ pr' = pr0').
Proof.
  intros C Pj P P'.
  assert (W : w' = w).
  { unfold prepare in P, P'. rewrite (workspace_same _ _ _ _ _ b diff not_workspace) in P'. destruct (load_workspace _ _ _ _) as [[w0|]| |]; try discriminate P. cbn [bind] in P, P'.
    repeat match type of P with bind ?x _ = _ => destruct x as [[? ?]| |] || destruct x as [?| |]; try discriminate P; cbn [bind] in P end. injection P as <- _ _.
    repeat match type of P' with bind ?x _ = _ => destruct x as [[? ?]| |] || destruct x as [?| |]; try discriminate P'; cbn [bind] in P' end. now injection P' as <- _ _. }
  split; [exact W|]. subst w'. apply prepare_spec in P as (_ & pr0 & H & G). apply prepare_spec in P' as (_ & pr0' & H' & G'). exists pr0, pr0'.
  split; [exact (holds_ok _ _ _ _ _ _ _ H)|]. split; [exact (holds_ok _ _ _ _ _ _ _ H')|].
  assert (N : forall content eval r, holds_files w content (globbed_files fuel fs w) (found_build_files fuel fs w pt) [] eval r -> forall e, In e (pr_files r) -> for_package (pf_name (snd e)) (fst e)).
  { intros content eval r [_ K] [q f] I. apply K in I as (n & c & st & er & ast & F & _ & _ & ->). apply file_for_in in F as (In_ & Pk & _). cbn [fst snd pf_name]. exact (for_package_of w n q (found_named _ _ _ _ _ In_) Pk). }
  destruct C as [<-|[<-|[<-|[<-|[<-|[<-|[]]]]]]]; cbn [needs_project elaborate_for wants_graph depth_for andb] in *; rewrite Pj in H, H';
    (split; [intros k v; exact (holds_differ before content' (globbed_files fuel fs) b p diff is_for w _ _ pr0 pr0' H H' k v)|]); (split; [intros e [I|I]; eauto|]); auto.
Qed.
Lemma no_graph fl cmd pt w pr g w' pr' g' : In cmd [CPrint; CCanonicalize; CListPackages; CListTargets] -> pat_project pt = [] ->
  (wants_graph cmd = true -> (fl_depth fl <= 0)%Z) ->
  prep before fl cmd pt = Ret (Some (w, pr, g)) -> prep content' fl cmd pt = Ret (Some (w', pr', g')) ->
  project_ok pr /\ project_ok pr' /\ differ_between (fun e => fst e = p) (pr_files pr) (pr_files pr') /\
    (forall e, In e (pr_files pr) \/ In e (pr_files pr') -> for_package (pf_name (snd e)) (fst e)).
Proof.
  intros C Pj D P P'. destruct (prepared fl cmd pt w pr g w' pr' g') as (-> & pr0 & pr0' & OK & OK' & Q & N & G & G'); auto.
  { destruct C as [<-|[<-|[<-|[<-|[]]]]]; cbn [In]; auto 8. }
  assert (pr = pr0). { destruct (wants_graph cmd); [|apply G]. cbn [andb] in G. destruct (0 <=? fl_depth fl)%Z; [destruct G as (todo & G); exact (depth_none _ _ _ _ _ _ _ _ _ _ OK (D eq_refl) G)|apply G]. } subst pr0.
  assert (pr' = pr0'). { destruct (wants_graph cmd); [|apply G']. cbn [andb] in G'. destruct (0 <=? fl_depth fl)%Z; [destruct G' as (todo & G'); exact (depth_none _ _ _ _ _ _ _ _ _ _ OK' (D eq_refl) G')|apply G']. } subst pr0'.
  split; [exact OK|]. split; [exact OK'|]. split; [|exact N]. apply differ_at; [apply OK|apply OK'|exact Q].
Qed.

(** list-targets: the rows of other packages are the same, in the same places. *)
Theorem C92_list_targets : forall fl pt out out', fl_format fl = FmtCsv -> (fl_depth fl <= 0)%Z -> pat_project pt = [] ->
  run before fl CListTargets pt = Ret (out, ExitSuccess) -> run content' fl CListTargets pt = Ret (out', ExitSuccess) ->
  exists l l' : list (str * str * target),
    read_csv out = Some ([$"file-location"; $"rule"; $"target"] :: map (fun x => [fst (fst x); snd (fst x); target_to_string (snd x)]) l) /\
    read_csv out' = Some ([$"file-location"; $"rule"; $"target"] :: map (fun x => [fst (fst x); snd (fst x); target_to_string (snd x)]) l') /\
    differ_between (fun x => tpackage (snd x) = p) l l'.
Proof.
  intros fl pt out out' Fm D Pj E E'. apply run_spec in E as [(_ & _ & X)|(w & pr & g & P & E)]; [discriminate X|].
  apply run_spec in E' as [(_ & _ & X)|(w' & pr' & g' & P' & E')]; [discriminate X|].
  destruct (no_graph fl CListTargets pt w pr g w' pr' g') as (OK & OK' & Df & _); auto; [cbn [In]; auto|].
  unfold perform in E, E'. cbn [depth_for] in E, E'. rewrite Fm in E, E'. destruct (Z.ltb_spec 0 (fl_depth fl)) as [X|_]; [lia|].
  destruct (print_targets _ pt pr) as [o| |] eqn:T; try discriminate E. destruct (print_targets _ pt pr') as [o'| |] eqn:T'; try discriminate E'.
  injection E as <-. injection E' as <-. apply target_csv in T as (ops & A & T). apply target_csv in T' as (ops' & A' & T').
  destruct (rows_differ pt p _ _ _ _ Df A A') as (l & l' & -> & -> & Dl). exists l, l'. rewrite T, T'.
  assert (FM : forall k, flat_map (fun op => entry_rows (entry_of op)) (map (fun x => AddRow (row_of x)) k) = map row_of k).
  { intros k. induction k as [|x k IH]; [reflexivity|]. cbn [map flat_map]. rewrite IH. reflexivity. }
  rewrite !FM. auto.
Qed.
(** list-packages. *)
Theorem C92_list_packages : forall fl pt out out', fl_format fl = FmtCsv -> (fl_depth fl <= 0)%Z -> pat_project pt = [] ->
  run before fl CListPackages pt = Ret (out, ExitSuccess) -> run content' fl CListPackages pt = Ret (out', ExitSuccess) ->
  exists l l' : list (str * package),
    read_csv out = Some ([$"bazel-file"; $"package"] :: map (fun x => [fst x; package_to_string (snd x)]) l) /\
    read_csv out' = Some ([$"bazel-file"; $"package"] :: map (fun x => [fst x; package_to_string (snd x)]) l') /\
    differ_between (fun x => snd x = p) l l' /\ NoDup (map snd l) /\ NoDup (map snd l') /\ forall x, In x l \/ In x l' -> for_package (fst x) (snd x).
Proof.
  intros fl pt out out' Fm D Pj E E'. apply run_spec in E as [(_ & _ & X)|(w & pr & g & P & E)]; [discriminate X|].
  apply run_spec in E' as [(_ & _ & X)|(w' & pr' & g' & P' & E')]; [discriminate X|].
  destruct (no_graph fl CListPackages pt w pr g w' pr' g') as (OK & OK' & Df & Nm); auto; [cbn [In]; auto|].
  unfold perform in E, E'. rewrite Fm in E, E'.
  destruct (print_packages _ pr) as [o| |] eqn:T; try discriminate E. destruct (print_packages _ pr') as [o'| |] eqn:T'; try discriminate E'.
  injection E as <-. injection E' as <-. apply package_rows in T. apply package_rows in T'.
  set (f := fun e : package * parsed_file => (pf_name (snd e), fst e)). exists (map f (pr_files pr)), (map f (pr_files pr')). rewrite !map_map. cbn [fst snd f].
  split; [exact T|]. split; [exact T'|]. split; [|split; [|split]].
  - destruct Df as (a & m & m' & c & -> & -> & M & M' & N). exists (map f a), (map f m), (map f m'), (map f c). rewrite !map_app. split; [reflexivity|]. split; [reflexivity|].
    split; [|split]; [apply Forall_map; exact M|apply Forall_map; exact M'|]. intros x [I|I] X; apply in_map_iff in I as (e & <- & I); exact (N e ltac:(auto) X).
  - exact (ssorted_nodup _ (proj1 OK)).
  - exact (ssorted_nodup _ (proj1 OK')).
  - intros x [I|I]; apply in_map_iff in I as (e & <- & I); cbn [f fst snd]; apply Nm; auto.
Qed.
(** print: the output is made of blocks that begin with the name of a BUILD file; those of other packages are the same, in the same places. *)
Theorem C92_print : forall fl pt out out' st st', pat_project pt = [] ->
  run before fl CPrint pt = Ret (out, st) -> run content' fl CPrint pt = Ret (out', st') ->
  exists l l' : list (package * str), out = concat (map snd l) /\ out' = concat (map snd l') /\ differ_between (fun x => fst x = p) l l' /\
    forall x, In x l \/ In x l' -> exists file rest, for_package file (fst x) /\ snd x = (if fl_color fl then ESC :: $"[2;37m" else []) ++ $"# " ++ file ++ $":" ++ rest.
Proof.
  intros fl pt out out' st st' Pj E E'.
  assert (Em : forall (Q : Prop), ((out = [] /\ out' = []) -> Q) -> (forall w pr g w' pr' g', prep before fl CPrint pt = Ret (Some (w, pr, g)) -> prep content' fl CPrint pt = Ret (Some (w', pr', g')) ->
    print_project (fl_grep fl) (fl_color fl) (fl_print_only_errors fl) pt pr = Ret out -> print_project (fl_grep fl) (fl_color fl) (fl_print_only_errors fl) pt pr' = Ret out' -> Q) -> Q).
  { intros Q Q0 Q1.
    assert (W : prep before fl CPrint pt = Ret None <-> load_workspace (is_dir fs) (fs_can_read fs) (fs_glob fs) before = Ret None).
    { unfold prepare. destruct (load_workspace _ _ _ before) as [[w0|]| |]; cbn [bind]; try (split; (reflexivity || discriminate)). split; [|discriminate]. intros X.
      repeat match type of X with bind ?x _ = _ => destruct x as [[? ?]| |] || destruct x as [?| |]; try discriminate X; cbn [bind] in X end. }
    assert (W' : prep content' fl CPrint pt = Ret None <-> load_workspace (is_dir fs) (fs_can_read fs) (fs_glob fs) before = Ret None).
    { unfold prepare. rewrite (workspace_same _ _ _ _ _ b diff not_workspace). destruct (load_workspace _ _ _ before) as [[w0|]| |]; cbn [bind]; try (split; (reflexivity || discriminate)). split; [|discriminate]. intros X.
      repeat match type of X with bind ?x _ = _ => destruct x as [[? ?]| |] || destruct x as [?| |]; try discriminate X; cbn [bind] in X end. }
    apply run_spec in E as [(N & -> & _)|(w & pr & g & P & E)]; apply run_spec in E' as [(N' & -> & _)|(w' & pr' & g' & P' & E')].
    - auto.
    - apply W in N. apply W' in N. change (prep content' fl CPrint pt = Ret (Some (w', pr', g'))) in P'. congruence.
    - change (prep content' fl CPrint pt = Ret None) in N'. apply W' in N'. apply W in N'. change (prep before fl CPrint pt = Ret (Some (w, pr, g))) in P. congruence.
    - unfold perform in E, E'. destruct (print_project _ _ _ pt pr) as [o| |] eqn:T; try discriminate E. destruct (print_project _ _ _ pt pr') as [o'| |] eqn:T'; try discriminate E'.
      injection E as <- _. injection E' as <- _. eapply Q1; eauto. }
  assert (Z : out = [] /\ out' = [] -> exists l l' : list (package * str), out = concat (map snd l) /\ out' = concat (map snd l') /\ differ_between (fun x => fst x = p) l l' /\
    forall x, In x l \/ In x l' -> exists file rest, for_package file (fst x) /\ snd x = (if fl_color fl then ESC :: $"[2;37m" else []) ++ $"# " ++ file ++ $":" ++ rest).
  { intros [-> ->]. exists [], []. split; [reflexivity|]. split; [reflexivity|]. split; [|intros x [[]|[]]]. exists [], [], [], []. repeat split; auto. intros x [[]|[]]. }
  apply Em; [exact Z|]. clear Em. intros w pr g w' pr' g' P P' T T'.
  destruct (no_graph fl CPrint pt w pr g w' pr' g') as (OK & OK' & Df & Nm); auto; [cbn [In]; auto|discriminate|].
  unfold print_project in T, T'. destruct (fl_grep fl) as [| |find]; [|apply Z; split; congruence|].
  - destruct (print_differ _ _ _ _ _ _ _ _ _ Df T T') as (l & l' & -> & -> & Dl & B & B'). exists l, l'. split; [reflexivity|]. split; [reflexivity|]. split; [exact Dl|].
    intros x [I|I]; [apply B in I as (e & rest & Ie & Fx & Sx)|apply B' in I as (e & rest & Ie & Fx & Sx)]; exists (pf_name (snd e)), rest; (split; [rewrite Fx; auto|]);
      rewrite Sx; unfold block_start; rewrite <- !app_assoc; reflexivity.
  - destruct (print_differ _ _ _ _ _ _ _ _ _ Df T T') as (l & l' & -> & -> & Dl & B & B'). exists l, l'. split; [reflexivity|]. split; [reflexivity|]. split; [exact Dl|].
    intros x [I|I]; [apply B in I as (e & rest & Ie & Fx & Sx)|apply B' in I as (e & rest & Ie & Fx & Sx)]; exists (pf_name (snd e)), rest; (split; [rewrite Fx; auto|]);
      rewrite Sx; unfold block_start; rewrite <- !app_assoc; reflexivity.
Qed.
(** canonicalize. *)
Theorem C92_canonicalize : forall fl pt out out' st st', pat_project pt = [] -> st <> ExitFailure -> st' <> ExitFailure ->
  run before fl CCanonicalize pt = Ret (out, st) -> run content' fl CCanonicalize pt = Ret (out', st') ->
  exists l l' : list (str * str * target),
    out = flat_map (fun x => $"buildozer 'replace deps " ++ fst (fst x) ++ $" " ++ snd (fst x) ++ $"' " ++ target_to_string (snd x) ++ [NL]) l /\
    out' = flat_map (fun x => $"buildozer 'replace deps " ++ fst (fst x) ++ $" " ++ snd (fst x) ++ $"' " ++ target_to_string (snd x) ++ [NL]) l' /\
    differ_between (fun x => tpackage (snd x) = p) l l'.
Proof.
  intros fl pt out out' st st' Pj S S' E E'. apply run_spec in E as [(_ & _ & X)|(w & pr & g & P & E)]; [contradiction|].
  apply run_spec in E' as [(_ & _ & X)|(w' & pr' & g' & P' & E')]; [contradiction|].
  destruct (no_graph fl CCanonicalize pt w pr g w' pr' g') as (OK & OK' & Df & _); auto; [cbn [In]; auto|discriminate|].
  unfold perform in E, E'. unfold canonicalize_edits in E, E'. destruct (canon_files pt (pr_files pr)) as [evs| |] eqn:T; try discriminate E. destruct (canon_files pt (pr_files pr')) as [evs'| |] eqn:T'; try discriminate E'.
  cbn [bind] in E, E'. injection E as <- _. injection E' as <- _.
  pose proof (edits_differ pt p pr pr' evs evs' OK OK' Df T T') as De. set (f := fun e : edit => (e_before e, e_after e, e_target e)).
  exists (map f (edits_of_canon evs)), (map f (edits_of_canon evs')).
  assert (Sc : forall files evs, canon_files pt files = Ret evs -> buildozer_script (edits_of_canon evs) =
    flat_map (fun x : str * str * target => $"buildozer 'replace deps " ++ fst (fst x) ++ $" " ++ snd (fst x) ++ $"' " ++ target_to_string (snd x) ++ [NL]) (map f (edits_of_canon evs))).
  { intros files ev Ev. apply edits_emitted in Ev. assert (R : Forall (fun e => e_request e = KRename) (edits_of_canon ev)).
    { apply Forall_forall. intros e I. destruct (all_emit_in _ _ _ Ev e I) as (fl0 & ys & _ & Em & Iy). unfold emits_edits in Em. destruct (match_package _ _); [|subst; destruct Iy].
      destruct Em as (rs & ev0 & _ & C & ->). exact (proj1 (canon_rules_in _ _ _ _ C e Iy)). }
    unfold buildozer_script. clear Ev. induction R as [|e l R _ IH]; [reflexivity|]. cbn [flat_map map]. rewrite IH. f_equal. unfold buildozer_line. rewrite R. reflexivity. }
  split; [exact (Sc _ _ T)|]. split; [exact (Sc _ _ T')|].
  destruct De as (a & m & m' & c & -> & -> & M & M' & N). exists (map f a), (map f m), (map f m'), (map f c). rewrite !map_app. split; [reflexivity|]. split; [reflexivity|].
  split; [|split]; [apply Forall_map; exact M|apply Forall_map; exact M'|]. intros x [I|I] X; apply in_map_iff in I as (e & <- & I); exact (N e ltac:(auto) X).
Qed.
(** depends-on: the targets of other packages depend on the same. *)
Theorem C92_depends_on : forall fl pt out out', fl_format fl = FmtCsv -> (fl_depth fl <= 0)%Z -> pat_project pt = [] ->
  run before fl CDependsOn pt = Ret (out, ExitSuccess) -> run content' fl CDependsOn pt = Ret (out', ExitSuccess) ->
  exists m m' : list (target * list target),
    read_csv out = Some ([$"library"; $"depends-on"] :: pair_rows m) /\ read_csv out' = Some ([$"library"; $"depends-on"] :: pair_rows m') /\
    msorted m /\ msorted m' /\ forall t ds, tpackage t <> p -> In (t, ds) m <-> In (t, ds) m'.
Proof.
  intros fl pt out out' Fm D Pj E E'. apply run_spec in E as [(_ & _ & X)|(w & pr & g & P & E)]; [discriminate X|].
  apply run_spec in E' as [(_ & _ & X)|(w' & pr' & g' & P' & E')]; [discriminate X|].
  destruct (prepared fl CDependsOn pt w pr g w' pr' g') as (-> & pr0 & pr0' & OK & OK' & Q & _ & G & G'); auto; [cbn [In]; auto 8|].
  unfold perform in E, E'. cbn [depth_for] in E, E'. rewrite Fm in E, E'. destruct (Z.ltb_spec 0 (fl_depth fl)) as [X|_]; [lia|].
  destruct (print_one_to_n _ pt (depends_on g) _ _) as [o| |] eqn:T; try discriminate E. destruct (print_one_to_n _ pt (depends_on g') _ _) as [o'| |] eqn:T'; try discriminate E'.
  injection E as <-. injection E' as <-. apply one_to_n_rows in T. apply one_to_n_rows in T'. clear P P'.
  exists (filter (fun e => match_target pt (fst e)) (depends_on g)), (filter (fun e => match_target pt (fst e)) (depends_on g')). split; [exact T|]. split; [exact T'|]. clear T T'.
  cbn [wants_graph andb] in G, G'. destruct (Z.leb_spec 0 (fl_depth fl)) as [L|L].
  2:{ destruct G as (-> & _), G' as (-> & _). cbn. repeat split; auto. }
  destruct G as (todo & G), G' as (todo' & G').
  destruct (graph_entries _ _ _ _ _ _ _ _ _ _ OK G) as (S1 & _ & K & _).
  destruct (graph_entries _ _ _ _ _ _ _ _ _ _ OK' G') as (S1' & _ & K' & _).
  split; [apply (filter_msorted' (match_target pt)); exact S1|]. split; [apply (filter_msorted' (match_target pt)); exact S1'|].
  intros t ds N. rewrite !filter_In. cbn [fst]. rewrite K, K'. assert (Z0 : Z.to_nat (fl_depth fl) = 0) by lia. rewrite Z0.
  assert (Fp : forall f, find_parsed pr0 (tpackage t) = Some f <-> find_parsed pr0' (tpackage t) = Some f).
  { intros f. unfold find_parsed. split; intros F; apply map_find_in in F; (apply msorted_find; [apply OK' || apply OK|]); apply (Q _ _ N); exact F. }
  split; intros (((r & R & Ed) & j & J & Re) & M); (split; [|exact M]); (destruct Re as [t (Mt & f & rs & r0 & F & Ft & Ir & Nr)|]; [|lia]).
  - assert (F' := proj1 (Fp f) F). split; [exists r; split; [|exact Ed]; destruct R as (f0 & x & y & Fo & Rest); exists f0, x, y; split; [|exact Rest]; unfold file_of in *; rewrite F in Fo; rewrite F'; exact Fo|].
    exists 0. split; [lia|]. constructor. split; [exact Mt|]. exists f, rs, r0. auto.
  - assert (F' := proj2 (Fp f) F). split; [exists r; split; [|exact Ed]; destruct R as (f0 & x & y & Fo & Rest); exists f0, x, y; split; [|exact Rest]; unfold file_of in *; rewrite F in Fo; rewrite F'; exact Fo|].
    exists 0. split; [lia|]. constructor. split; [exact Mt|]. exists f, rs, r0. auto.
Qed.
End Change.
Print Assumptions C92_list_targets.
Print Assumptions C92_list_packages.
Print Assumptions C92_print.
Print Assumptions C92_canonicalize.
Print Assumptions C92_depends_on.

(** * Cases *)
(** Two packages; the second one changes. *)
Definition two_fs : file_system :=
  C_Order.some_fs [($".", [mkEntry ($"a") DtDir 11; mkEntry ($"b") DtDir 12; C_Order.file ($"MODULE.bazel")]); ($"./a", [C_Order.file ($"BUILD")]); ($"./b", [C_Order.file ($"BUILD")])] [] []
    [($"MODULE.bazel", []); ($"./a/BUILD", $"cc_library(name = ""x"", deps = [""//b:b""])"); ($"./b/BUILD", $"cc_library(name = ""y"", deps = [""//a:a""])")].
Definition changed (f : str) : option str := if str_eqb f ($"./b/BUILD") then Some ($"cc_library(name = ""z"")") else fs_content two_fs f.
Example C92_case : differs_at ($"./b/BUILD") (fs_content two_fs) changed /\ for_package ($"./b/BUILD") (mkPackage [] ($"b")) /\ ~ about_workspace ($"./b/BUILD") /\
  pat_project pattern_always = [] /\
  run_here 9 two_fs C_Order.csv CListTargets pattern_always =
    Ret ($"""file-location"",""rule"",""target""" ++ [NL] ++ $"""./a/BUILD:1:20:"",""cc_library"",""//a:x""" ++ [NL] ++ $"""./b/BUILD:1:20:"",""cc_library"",""//b:y""" ++ [NL], ExitSuccess) /\
  run_here 9 (with_content two_fs changed) C_Order.csv CListTargets pattern_always =
    Ret ($"""file-location"",""rule"",""target""" ++ [NL] ++ $"""./a/BUILD:1:20:"",""cc_library"",""//a:x""" ++ [NL] ++ $"""./b/BUILD:1:20:"",""cc_library"",""//b:z""" ++ [NL], ExitSuccess) /\
  run_here 9 two_fs C_Order.csv CCanonicalize pattern_always = Ret ($"buildozer 'replace deps //b:b //b' //a:x" ++ [NL] ++ $"buildozer 'replace deps //a:a //a' //b:y" ++ [NL], ExitFindings) /\
  run_here 9 (with_content two_fs changed) C_Order.csv CCanonicalize pattern_always = Ret ($"buildozer 'replace deps //b:b //b' //a:x" ++ [NL], ExitFindings) /\
  run_here 9 two_fs C_Order.csv CDependsOn pattern_always = Ret ($"""library"",""depends-on""" ++ [NL] ++ $"""//a:x"",""//b""" ++ [NL] ++ $"""//b:y"",""//a""" ++ [NL], ExitSuccess) /\
  run_here 9 (with_content two_fs changed) C_Order.csv CDependsOn pattern_always = Ret ($"""library"",""depends-on""" ++ [NL] ++ $"""//a:x"",""//b""" ++ [NL], ExitSuccess) /\
  run_here 9 (with_content two_fs changed) C_Order.csv CPrint pattern_always = Ret ($"# ./a/BUILD:1:1-10: //a:x" ++ [NL] ++ $"cc_library(" ++ [NL] ++ $"    name = ""x""," ++ [NL] ++
    $"    deps = [""//b:b""]" ++ [NL] ++ $")" ++ [NL] ++ $"# ./b/BUILD:1:1-10: //b:z" ++ [NL] ++ $"cc_library(name = ""z"",)" ++ [NL], ExitSuccess) /\
  run_here 9 two_fs C_Order.csv CListPackages pattern_always = Ret ($"""bazel-file"",""package""" ++ [NL] ++ $"""./a/BUILD"",""//a""" ++ [NL] ++ $"""./b/BUILD"",""//b""" ++ [NL], ExitSuccess).
Proof.
  split; [|split; [|split; [|split; [reflexivity|]]]].
  - intros f N. unfold changed. destruct (str_eqb f _) eqn:E; [apply str_eqb_eq in E; contradiction|reflexivity].
  - split; [reflexivity|]. split; [intros c r [= <- <-]; split; discriminate|]. exists ($"./"), ($"BUILD"). split; [reflexivity|]. split; [intros c [<-|[<-|[]]]; auto|cbn; intuition discriminate].
  - unfold about_workspace. intuition discriminate.
  - repeat (split; [vm_compute; reflexivity|]). vm_compute. reflexivity.
Qed.
(** If dependencies are followed, a change can add and take away packages that are shown. *)
Definition near_fs : file_system :=
  C_Order.some_fs [($"a", [C_Order.file ($"BUILD")])] [] []
    [($"MODULE.bazel", []); ($"a/BUILD", $"cc_library(name = ""x"", deps = [""//b:y""])"); ($"b/BUILD", $"cc_library(name = ""y"")")].
Definition alone (f : str) : option str := if str_eqb f ($"a/BUILD") then Some ($"cc_library(name = ""x"")") else fs_content near_fs f.
Definition in_a : pattern := mkPattern (mkTarget (mkPackage [] ($"a")) []) KRecursive.
Definition one_deep : flags := mkFlags false false false false 1 FmtCsv NoGrep false.
Theorem C92_deeper_refuted : exists fuel fs content' b p fl pt out out', differs_at b (fs_content fs) content' /\ for_package b p /\ ~ about_workspace b /\ pat_project pt = [] /\ fl_format fl = FmtCsv /\
  (0 < fl_depth fl)%Z /\ run_here fuel fs fl CListPackages pt = Ret (out, ExitSuccess) /\ run_here fuel (with_content fs content') fl CListPackages pt = Ret (out', ExitSuccess) /\
  exists rows rows' file q, read_csv out = Some rows /\ read_csv out' = Some rows' /\ q <> p /\ In [file; package_to_string q] rows /\ ~ In [file; package_to_string q] rows'.
Proof.
  exists 9, near_fs, alone, ($"a/BUILD"), (mkPackage [] ($"a")), one_deep, in_a. eexists. eexists. split; [|split; [|split; [|split; [reflexivity|split; [reflexivity|split; [reflexivity|split; [vm_compute; reflexivity|split; [vm_compute; reflexivity|]]]]]]]].
  - intros f N. unfold alone. destruct (str_eqb f _) eqn:E; [apply str_eqb_eq in E; contradiction|reflexivity].
  - split; [reflexivity|]. split; [intros c r [= <- <-]; split; discriminate|]. exists [], ($"BUILD"). split; [reflexivity|]. split; [intros c []|cbn; intuition discriminate].
  - unfold about_workspace. intuition discriminate.
  - eexists. eexists. exists ($"b/BUILD"), (mkPackage [] ($"b")). split; [vm_compute; reflexivity|]. split; [vm_compute; reflexivity|]. split; [discriminate|]. split; [vm_compute; auto|vm_compute; intuition discriminate].
Qed.
Print Assumptions C92_deeper_refuted.
