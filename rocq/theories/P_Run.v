(** Proofs about what commands work on and the tables they print. *)
From Verif Require Import Base OMap M_Types M_Scanner M_Ast M_Parser P_Parser M_Query M_Elab M_Workspace P_Workspace M_Project M_DepGraph
  S_DepGraph P_DepGraph P_Project M_Headers S_Headers P_Headers M_Dwyu M_Edits M_Table S_Table P_Table M_Commands S_Run.

(** * External projects *)
Section External.
Variable is_directory : str -> bool.
Variable can_read : str -> bool.
Variable glob : str -> list str.
Variable read_file : str -> option str.
Notation usable := (usable is_directory can_read).
Notation project_dir := (project_dir is_directory can_read glob).
Notation declares := (declares is_directory can_read glob).

Lemma usable_eq d : is_directory d && can_read d = true <-> usable d.
Proof. unfold S_Run.usable. apply andb_true_iff. Qed.
Lemma places_eq n v : map (fs_path external_base_dir) (search_dirs n v) = places n v.
Proof. unfold search_dirs, places. destruct v; reflexivity. Qed.
Lemma find_first_of {A} (f : A -> bool) l x : find f l = Some x <-> f x = true /\ exists a b, l = a ++ x :: b /\ forall y, In y a -> f y = false.
Proof.
  induction l as [|y l IH]; cbn [find].
  - split; [discriminate|]. intros (_ & a & b & E & _). destruct a; discriminate.
  - destruct (f y) eqn:F.
    + split.
      * intros E. injection E as <-. split; auto. exists [], l. split; auto. intros ? [].
      * intros (Fx & a & b & E & H). destruct a as [|z a]; [cbn in E; congruence|]. injection E as <- ->.
        rewrite (H y (or_introl eq_refl)) in F. discriminate.
    + rewrite IH. split; intros (Fx & a & b & E & H); (split; [exact Fx|]).
      * exists (y :: a), b. split; [cbn; congruence|]. intros z [<-|I]; auto.
      * destruct a as [|z a]; [cbn in E; congruence|]. injection E as <- ->. exists a, b. split; auto. intros y' I. apply H. right; auto.
Qed.
Lemma find_none_of {A} (f : A -> bool) l : find f l = None <-> forall y, In y l -> f y = false.
Proof.
  split; [apply find_none|]. induction l as [|y l IH]; intros H; [reflexivity|]. cbn [find]. rewrite (H y (or_introl eq_refl)). apply IH. intros z I. apply H. right; auto.
Qed.
Lemma not_usable d : is_directory d && can_read d = false <-> ~ usable d.
Proof. rewrite <- usable_eq. destruct (_ && _); split; congruence. Qed.
Lemma project_dir_spec n v d : project_dir n v = Some d <-> extracted_in is_directory can_read glob n v d.
Proof.
  unfold M_Workspace.project_dir, extracted_in. rewrite places_eq.
  change (external_base_dir ++ $"/" ++ n ++ $"~*") with (external n ++ $"~*").
  destruct (find _ (places n v)) as [p|] eqn:F.
  - apply find_first_of in F as (U & a & b & E & H). apply usable_eq in U. split.
    + intros Ed. injection Ed as <-. split; [exact U|]. left. exists a, b. split; auto. intros x I. apply not_usable. auto.
    + intros (Ud & [(a' & b' & E' & H')|(H' & _)]).
      * f_equal. assert (S1 : Some p = Some d); [|congruence].
        assert (F1 : find (fun p => is_directory p && can_read p) (places n v) = Some p).
        { apply find_first_of. split; [now apply usable_eq|]. eauto. }
        assert (F2 : find (fun p => is_directory p && can_read p) (places n v) = Some d).
        { apply find_first_of. split; [now apply usable_eq|]. exists a', b'. split; auto. intros y I. apply not_usable. auto. }
        congruence.
      * exfalso. apply (H' p); [rewrite E; apply in_elt|exact U].
  - assert (N := proj1 (find_none_of _ _) F). split.
    + destruct (glob (external n ++ $"~*")) as [|p more] eqn:G; [discriminate|]. destruct (_ && _) eqn:U; [|discriminate].
      intros E. injection E as <-. split; [now apply usable_eq|]. right. split; [intros x I; apply not_usable; auto|]. eauto.
    + intros (U & [(a & b & E & _)|(_ & more & G)]).
      * exfalso. assert (I : In d (places n v)) by (rewrite E; apply in_elt). specialize (N d I). apply not_usable in N. auto.
      * rewrite G. apply usable_eq in U. rewrite U. reflexivity.
Qed.
Lemma load_rule_spec w r : msorted w ->
  let w' := load_rule is_directory can_read glob w r in
  msorted w' /\ forall n v d, In ((n, v), d) w' <-> declares r n v d \/ (In ((n, v), d) w /\ forall d', ~ declares r n v d').
Proof.
  intros S. unfold load_rule, S_Run.declares. destruct (project_dir (v_text (q_name r)) (v_text (q_version r))) as [p|] eqn:D.
  - apply project_dir_spec in D as D'. cbn zeta.
    set (name := if is_nil (v_text (q_repo_name r)) then v_text (q_name r) else v_text (q_repo_name r)).
    assert (En : name = match v_text (q_repo_name r) with [] => v_text (q_name r) | n => n end) by (unfold name; destruct (v_text (q_repo_name r)); reflexivity).
    rewrite <- En. split; [apply map_set_sorted; exact S|]. intros n v d. rewrite map_set_in by exact S. split.
    + intros [(E & E')|(N & I)].
      * inversion E; subst. left. auto.
      * right. split; auto. intros d' (_ & -> & ->). apply N. reflexivity.
    + intros [(X & -> & ->)|(I & H)].
      * left. apply project_dir_spec in X. split; congruence.
      * right. split; auto. intros E. inversion E; subst. apply (H p). auto.
  - split; [exact S|]. intros n v d. split.
    + intros I. right. split; auto. intros d' (X & _). apply project_dir_spec in X. congruence.
    + intros [(X & _)|(I & _)]; auto. apply project_dir_spec in X. congruence.
Qed.
Lemma load_rules_spec rs : forall decls w, external_projects is_directory can_read glob decls w ->
  external_projects is_directory can_read glob (decls ++ rs) (fold_left (load_rule is_directory can_read glob) rs w).
Proof.
  induction rs as [|r rs IH]; intros decls w H; cbn [fold_left]; [rewrite app_nil_r; exact H|].
  replace (decls ++ r :: rs) with ((decls ++ [r]) ++ rs) by (rewrite <- app_assoc; reflexivity). apply IH.
  destruct H as [S H]. destruct (load_rule_spec w r S) as [S' H']. split; [exact S'|]. intros n v d. rewrite H', H. split.
  - intros [D|((a & x & b & E & D & L) & N)].
    + exists decls, r, []. split; [reflexivity|]. split; [exact D|]. intros r' d' [].
    + exists a, x, (b ++ [r]). split; [rewrite E, <- app_assoc; reflexivity|]. split; [exact D|]. intros r' d' I. apply in_app_or in I as [I|[<-|[]]]; auto.
  - intros (a & x & b & E & D & L). destruct (exists_last (l := x :: b)) as (b' & y & Eb); [discriminate|].
    rewrite Eb, app_assoc in E. apply app_inj_tail in E as [E <-]. destruct b' as [|z b'].
    + injection Eb as -> ->. auto.
    + injection Eb as -> ->. right. split; [|intros d'; apply (L r d'); apply in_or_app; right; left; auto].
      exists a, z, b'. split; [exact E|]. split; [exact D|]. intros r' d' I. apply L. apply in_or_app. auto.
Qed.
Lemma load_file_bad fs : forall x, (forall p, x <> Ret p) -> forall p, fold_left (load_file is_directory can_read glob read_file) fs x <> Ret p.
Proof.
  induction fs as [|f fs IH]; intros x H p; cbn [fold_left]; [apply H|]. apply IH. intros q. unfold load_file. destruct x as [a| |]; [exfalso; eapply H; eauto|discriminate|discriminate].
Qed.
Lemma load_files_spec fs : forall decls found w found' w', external_projects is_directory can_read glob decls w ->
  fold_left (load_file is_directory can_read glob read_file) fs (Ret (found, w)) = Ret (found', w') ->
  exists rs, declarations read_file fs rs /\ external_projects is_directory can_read glob (decls ++ rs) w' /\
    (found' = true <-> found = true \/ exists f, In f fs /\ read_file f <> None).
Proof.
  induction fs as [|f fs IH]; intros decls found w found' w' H E; cbn [fold_left] in E.
  - injection E as <- <-. exists []. split; [constructor|]. rewrite app_nil_r. split; auto. split; [auto|]. intros [?|(f & [] & _)]. auto.
  - unfold load_file at 2 in E. cbn [bind] in E. destruct (read_file f) as [content|] eqn:R.
    + destruct (parse content) as [[stmts errs]| |] eqn:P; try (exfalso; revert E; apply load_file_bad; discriminate). cbn [bind] in E.
      destruct (find_targets _ stmts) as [rs| |] eqn:F; try (exfalso; revert E; apply load_file_bad; discriminate). cbn [bind] in E.
      destruct (IH _ _ _ _ _ (load_rules_spec rs decls w H) E) as (rs' & D & X & Fo). exists (rs ++ rs').
      split; [eapply file_declares; eauto|]. split; [rewrite app_assoc; exact X|]. rewrite Fo. split; auto. intros _. right. exists f. split; [left; auto|congruence].
    + destruct (IH _ _ _ _ _ H E) as (rs & D & X & Fo). exists rs. split; [constructor; auto|]. split; auto. rewrite Fo. split.
      * intros [?|(g & I & N)]; auto. right. exists g. split; [right|]; auto.
      * intros [?|(g & [<-|I] & N)]; [auto|contradiction|]. right. eauto.
Qed.
Theorem load_workspace_spec r : load_workspace is_directory can_read glob read_file = Ret r ->
  exists decls, declarations read_file workspace_files decls /\
    ((exists f, In f workspace_files /\ read_file f <> None) <-> r <> None) /\
    forall w, r = Some w -> external_projects is_directory can_read glob decls w.
Proof.
  unfold load_workspace. destruct (fold_left _ workspace_files _) as [[found w]| |] eqn:E; try discriminate. cbn [bind]. intros R.
  assert (H0 : external_projects is_directory can_read glob [] []).
  { split; [exact I|]. intros n v d. split; [intros []|]. intros (a & x & b & E' & _). destruct a; discriminate. }
  destruct (load_files_spec _ _ _ _ _ _ H0 E) as (rs & D & X & Fo). exists rs. split; auto. injection R as <-. split.
  - destruct found.
    + split; [discriminate|]. intros _. destruct (proj1 Fo eq_refl) as [?|?]; [discriminate|auto].
    + split; [|contradiction]. intros K. assert (false = true) by (apply Fo; auto). discriminate.
  - intros w' E'. destruct found; [|discriminate]. injection E' as <-. exact X.
Qed.
End External.

(** * The files *)
Section Files.
Variable w : workspace.
Variable read_file : str -> option str.
Variable glob_in : package -> list str -> list str -> list str.
Notation file_for := (file_for w read_file).

Lemma file_for_snoc names proj x p name content : file_for (names ++ [x]) proj p name content <->
  file_for names proj p name content \/
  (name = x /\ package_of_build_file w x proj = Ret (Some p) /\ read_file x = Some content /\
   forall y c, In y names -> package_of_build_file w y proj = Ret (Some p) -> read_file y <> Some c).
Proof.
  unfold S_Run.file_for. split.
  - intros (a & b & E & P & R & L). destruct (exists_last (l := name :: b)) as (b' & y & Eb); [discriminate|].
    rewrite Eb, app_assoc in E. apply app_inj_tail in E as [E <-]. destruct b' as [|z b'].
    + injection Eb as -> ->. right. rewrite app_nil_r in E. subst a. split; auto. split; auto. split; auto. intros y c I Py. rewrite (L y I Py). discriminate.
    + injection Eb as -> ->. left. exists a, b'. auto.
  - intros [(a & b & -> & P & R & L)|(-> & P & R & L)].
    + exists a, (b ++ [x]). rewrite <- app_assoc. auto.
    + exists names, []. split; auto. split; auto. split; auto. intros y I Py. destruct (read_file y) as [c|] eqn:Ry; auto. exfalso. eapply L; eauto.
Qed.
(** A package has a file, or none. *)
Lemma file_for_dec names proj p : (exists name content, file_for names proj p name content) \/
  (forall y c, In y names -> package_of_build_file w y proj = Ret (Some p) -> read_file y <> Some c).
Proof.
  induction names as [|x names IH] using rev_ind; [right; intros ? ? []|].
  destruct IH as [(n & c & H)|H]; [left; exists n, c; apply file_for_snoc; auto|].
  destruct (package_of_build_file w x proj) as [[q|]| |] eqn:P.
  2-4: right; intros y c I Py; apply in_app_or in I as [I|[<-|[]]]; [eauto|congruence].
  destruct (keqb_spec q p) as [->|N].
  - destruct (read_file x) as [c|] eqn:R.
    + left. exists x, c. apply file_for_snoc. right. auto.
    + right. intros y c I Py. apply in_app_or in I as [I|[<-|[]]]; [eauto|congruence].
  - right. intros y c I Py. apply in_app_or in I as [I|[<-|[]]]; [eauto|congruence].
Qed.
Lemma file_for_in names proj p name content : file_for names proj p name content ->
  In name names /\ package_of_build_file w name proj = Ret (Some p) /\ read_file name = Some content.
Proof. intros (a & b & -> & P & R & _). split; [apply in_elt|auto]. Qed.
Lemma add_file_spec names proj pr x pr' : holds_files w read_file glob_in names proj false pr ->
  add_build_file_in w read_file pr x proj = Ret pr' -> holds_files w read_file glob_in (names ++ [x]) proj false pr'.
Proof.
  intros [S H] E. assert (OK : project_ok pr).
  { split; [exact S|]. intros p f I. apply H in I as (n & c & st & er & ast & _ & _ & _ & ->). reflexivity. }
  unfold add_build_file_in in E. destruct (package_of_build_file w x proj) as [[q|]| |] eqn:P; try discriminate; cbn [bind] in E.
  2:{ injection E as <-. split; [exact S|]. intros p f. rewrite H. split; intros (n & c & st & er & ast & F & R); exists n, c, st, er, ast; (split; [|exact R]).
      - apply file_for_snoc; auto.
      - apply file_for_snoc in F as [F|(_ & F & _)]; [auto|congruence]. }
  unfold add_build_file in E. destruct (read_file x) as [content|] eqn:Rd; cbn [bind] in E.
  2:{ injection E as <-. split; [exact S|]. intros p f. cbn [pr_files]. rewrite H. split; intros (n & c & st & er & ast & F & R); exists n, c, st, er, ast; (split; [|exact R]).
      - apply file_for_snoc; auto.
      - apply file_for_snoc in F as [F|(_ & _ & F & _)]; [auto|congruence]. }
  destruct (add_build_file_content pr q x content) as [[pr1 f1]| |] eqn:A; try discriminate. cbn [bind] in E. injection E as <-.
  destruct (add_content_spec _ _ _ _ _ _ OK A) as ([S' _] & Fq & Fo & M). split; [exact S'|]. intros p f.
  assert (K : In (p, f) (pr_files pr1) <-> if keqb p q then f = f1 else In (p, f) (pr_files pr)).
  { unfold find_parsed in *. destruct (keqb_spec p q) as [->|N].
    - split; [intros I; apply (msorted_find _ _ _ S') in I; congruence|intros ->; apply map_find_in; exact Fq].
    - split; intros I; apply map_find_in; apply msorted_find in I; auto; [rewrite <- (Fo p N)|rewrite (Fo p N)]; exact I. }
  rewrite K. destruct (keqb_spec p q) as [->|N].
  - destruct (find_parsed pr q) as [f0|] eqn:F0.
    + destruct M as [-> ->]. assert (I0 : In (q, f0) (pr_files pr)) by (apply map_find_in; exact F0).
      split.
      * intros ->. apply H in I0 as (n & c & st & er & ast & F & R). exists n, c, st, er, ast. split; [apply file_for_snoc; auto|exact R].
      * intros (n & c & st & er & ast & F & Ps & -> & ->). apply file_for_snoc in F as [F|(_ & _ & _ & L)].
        -- assert (I : In (q, mkFile q n c st er) (pr_files pr)) by (apply H; exists n, c, st, er, st; auto).
           apply (msorted_find _ _ _ S) in I. unfold find_parsed in F0. congruence.
        -- exfalso. apply H in I0 as (n' & c' & _ & _ & _ & F & _). apply file_for_in in F as (I' & P' & R'). eapply L; eauto.
    + destruct M as (st & er & Ps & -> & _).
      assert (L : forall y c, In y names -> package_of_build_file w y proj = Ret (Some q) -> read_file y <> Some c).
      { destruct (file_for_dec names proj q) as [(n & c & F)|L]; [|exact L]. exfalso. destruct (parse_total c) as (st' & er' & Pc).
        assert (I : In (q, mkFile q n c st' er') (pr_files pr)) by (apply H; exists n, c, st', er', st'; auto).
          apply (msorted_find _ _ _ S) in I. unfold find_parsed in F0. congruence. }
      split.
      * intros ->. exists x, content, st, er, st. split; [apply file_for_snoc; right; auto|auto].
      * intros (n & c & st' & er' & ast & F & Ps' & -> & ->). apply file_for_snoc in F as [F|(-> & _ & R & _)].
        -- exfalso. apply file_for_in in F as (I' & P' & R'). eapply L; eauto.
        -- congruence.
  - rewrite H. split; intros (n & c & st & er & ast & F & R); exists n, c, st, er, ast; (split; [|exact R]).
    + apply file_for_snoc; auto.
    + apply file_for_snoc in F as [F|(_ & F & _)]; [auto|congruence].
Qed.
Lemma add_files_spec l : forall names proj pr pr', holds_files w read_file glob_in names proj false pr ->
  add_build_files w read_file pr l proj = Ret pr' -> holds_files w read_file glob_in (names ++ l) proj false pr'.
Proof.
  induction l as [|x l IH]; intros names proj pr pr' H E; cbn [add_build_files] in E; [injection E as <-; rewrite app_nil_r; exact H|].
  destruct (add_build_file_in w read_file pr x proj) as [pr1| |] eqn:E1; try discriminate. cbn [bind] in E.
  replace (names ++ x :: l) with ((names ++ [x]) ++ l) by (rewrite <- app_assoc; reflexivity).
  eapply IH; [|exact E]. eapply add_file_spec; eauto.
Qed.
Lemma fill_spec collect pt pr : fill_from_pattern w read_file collect empty_project pt = Ret pr ->
  holds_files w read_file glob_in (collect pt) (pat_project pt) false pr.
Proof.
  intros E. apply (add_files_spec _ []) in E; [exact E|]. split; [exact I|]. intros p f. split; [intros []|].
  intros (n & c & st & er & ast & (a & b & K & _) & _). destruct a; discriminate.
Qed.
Lemma empty_holds proj eval : holds_files w read_file glob_in [] proj eval empty_project.
Proof.
  split; [exact I|]. intros p f. split; [intros []|].
  intros (n & c & st & er & ast & (a & b & K & _) & _). destruct a; discriminate.
Qed.
Lemma elaborate_files_in l : forall l', elaborate_files glob_in l = Ret l' ->
  keys l' = keys l /\ forall p f, In (p, f) l' <-> exists g, In (p, g) l /\ elaborate_file glob_in g = Ret f.
Proof.
  induction l as [|[q g] l IH]; intros l' E; cbn [elaborate_files] in E.
  - injection E as <-. split; auto. intros p f. split; [intros []|intros (g & [] & _)].
  - destruct (elaborate_file glob_in g) as [g'| |] eqn:Eg; try discriminate. cbn [bind] in E.
    destruct (elaborate_files glob_in l) as [l1| |]; try discriminate. injection E as <-. destruct (IH _ eq_refl) as [K H].
    split; [unfold keys in *; cbn [map fst]; congruence|]. intros p f. cbn [In]. rewrite H. split.
    + intros [Ef|(g0 & I & E0)]; [injection Ef as <- <-; exists g; auto|exists g0; auto].
    + intros (g0 & [Ef|I] & E0); [injection Ef as <- <-; left; congruence|right; eauto].
Qed.
Lemma elaborate_holds names proj pr pr' : holds_files w read_file glob_in names proj false pr ->
  elaborate_project glob_in pr = Ret pr' -> holds_files w read_file glob_in names proj true pr'.
Proof.
  intros [S H] E. unfold elaborate_project in E. destruct (elaborate_files glob_in (pr_files pr)) as [l| |] eqn:El; try discriminate.
  injection E as <-. destruct (elaborate_files_in _ _ El) as [K F]. split; [unfold msorted in *; cbn [pr_files]; rewrite K; exact S|].
  intros p f. cbn [pr_files]. rewrite F. split.
  - intros (g & I & Eg). apply H in I as (n & c & st & er & ast & Ff & Ps & -> & ->).
    unfold elaborate_file in Eg. cbn in Eg. destruct (elaborate (glob_in p) st) as [ast| |] eqn:Ea; try discriminate. injection Eg as <-.
    exists n, c, st, er, ast. auto.
  - intros (n & c & st & er & ast & Ff & Ps & Ea & ->). exists (mkFile p n c st er). split; [apply H; exists n, c, st, er, st; auto|].
    unfold elaborate_file. cbn. rewrite Ea. reflexivity.
Qed.
Lemma holds_ok names proj eval pr : holds_files w read_file glob_in names proj eval pr -> project_ok pr.
Proof. intros [S H]. split; [exact S|]. intros p f I. apply H in I as (n & c & st & er & ast & _ & _ & _ & ->). reflexivity. Qed.
End Files.

(** * Tables *)
Lemma match_always t : match_target pattern_always t = true. Proof. reflexivity. Qed.
Lemma csv_table headers ops : headers <> [] -> (forall op, In op ops -> entry_columns (entry_of op) <> 0) ->
  forall out, table_print FmtCsv headers ops = Ret out -> read_csv out = Some (headers :: flat_map (fun op => entry_rows (entry_of op)) ops).
Proof. intros H1 H2 out E. injection E as <-. exact (csv_read headers ops H1 H2). Qed.
Lemma one_to_n_rows pt m h1 h2 out : print_one_to_n FmtCsv pt m h1 h2 = Ret out ->
  read_csv out = Some ([h1; h2] :: pair_rows (filter (fun e => match_target pt (fst e)) m)).
Proof.
  intros E. apply csv_table in E; [|discriminate|].
  - rewrite E. clear E. do 2 f_equal. induction (filter _ m) as [|[t ds] l IH]; [reflexivity|]. cbn [map flat_map pair_rows fst snd]. unfold pair_rows in IH. rewrite IH.
    f_equal. cbn [entry_of entry_rows]. rewrite map_map. reflexivity.
  - intros op I. apply in_map_iff in I as (e & <- & _). discriminate.
Qed.
Lemma provided_rows h pt m out : print_provided FmtCsv h pt m = Ret out ->
  read_csv out = Some ([h; $"providing-rule"] :: map (fun e => [fst e; target_to_string (snd e)]) (filter (fun e => match_target pt (snd e)) m)).
Proof.
  intros E. apply csv_table in E; [|discriminate|].
  - rewrite E. clear E. do 2 f_equal. induction (filter _ m) as [|[t ds] l IH]; [reflexivity|]. cbn [map flat_map fst snd]. rewrite IH. reflexivity.
  - intros op I. apply in_map_iff in I as (e & <- & _). discriminate.
Qed.
Lemma provided_set_rows h pt m out : print_provided_set FmtCsv h pt m = Ret out ->
  read_csv out = Some ([h; $"providing-rule"] :: flat_map (fun e => map (fun t => [fst e; target_to_string t]) (filter (match_target pt) (snd e))) m).
Proof.
  intros E. apply csv_table in E; [|discriminate|].
  - rewrite E. clear E. do 2 f_equal. induction m as [|[t ds] l IH]; [reflexivity|]. cbn [map flat_map fst snd]. rewrite IH. f_equal.
    cbn [entry_of entry_rows]. rewrite map_map. reflexivity.
  - intros op I. apply in_map_iff in I as (e & <- & _). discriminate.
Qed.
Lemma package_rows pr out : print_packages FmtCsv pr = Ret out ->
  read_csv out = Some ([$"bazel-file"; $"package"] :: map (fun e => [pf_name (snd e); package_to_string (fst e)]) (pr_files pr)).
Proof.
  intros E. apply csv_table in E; [|discriminate|].
  - rewrite E. clear E. do 2 f_equal. induction (pr_files pr) as [|[t ds] l IH]; [reflexivity|]. cbn [map flat_map fst snd]. rewrite IH. reflexivity.
  - intros op I. apply in_map_iff in I as (e & <- & _). discriminate.
Qed.

(** * Sorted maps *)
Lemma aliased_sorted pr m : extract_aliased_by pr = Ret m -> msorted m.
Proof.
  unfold extract_aliased_by. assert (S0 : msorted ([] : list (target * list target))) by exact I.
  assert (N0 : no_empty []) by (intros t l; discriminate). revert S0 N0. generalize ([] : list (target * list target)). generalize (pr_files pr).
  induction l as [|[p f] files IH]; intros m0 S N E; cbn [aliases_in] in E; [injection E as <-; exact S|].
  destruct (find_targets _ (pf_ast f)) as [rs| |]; try discriminate. cbn [bind] in E.
  destruct (alias_rules_spec (pf_package f) rs m0 S N) as (S1 & N1 & _). eauto.
Qed.
Lemma headers_sorted pr sfx m : header_to_lib pr sfx = Ret m -> msorted m.
Proof.
  unfold header_to_lib. destruct (extract_aliased_by pr) as [al| |] eqn:Al; cbn [bind]; try discriminate.
  intros E. destruct (files_spec sfx pr al Al _ _ _ E I) as (S & _). exact S.
Qed.
Lemma generated_sorted pr sfx m : generated_from_genrule pr sfx = Ret m -> msorted m.
Proof.
  unfold generated_from_genrule. assert (S0 : msorted ([] : provided)) by exact I. revert S0. generalize ([] : provided). generalize (pr_files pr).
  induction l as [|[p f] files IH]; intros m0 S E; cbn [genrules_of_files] in E; [injection E as <-; exact S|].
  destruct (find_targets _ (pf_ast f)) as [rs| |]; try discriminate. cbn [bind] in E.
  destruct (genrules (pf_package f) sfx rs m0) as [m2| |] eqn:Eg; try discriminate. cbn [bind] in E.
  destruct (genrules_spec sfx f _ _ _ Eg S) as [S1 _]. eauto.
Qed.
Lemma in_providers m k t : msorted m -> (exists ts, In (k, ts) m /\ In t ts) <-> In t (providers m k).
Proof.
  intros S. unfold providers. split.
  - intros (ts & I & It). apply msorted_find in I; auto. rewrite I. exact It.
  - destruct (map_find k m) as [ts|] eqn:F; [|intros []]. intros It. exists ts. split; auto. apply map_find_in. exact F.
Qed.

(** * Commands *)
Section Run.
Variable is_directory : str -> bool.
Variable can_read : str -> bool.
Variable glob : str -> list str.
Variable read_file : str -> option str.
Variable glob_in : workspace -> package -> list str -> list str -> list str.
Variable collect_build_files : workspace -> pattern -> list str.
Variable compilation_flags : workspace -> parsed_project -> pattern -> bool -> outcome str.
Notation prepare := (prepare is_directory can_read glob read_file glob_in collect_build_files).
Notation run_command := (run_command is_directory can_read glob read_file glob_in collect_build_files compilation_flags).

Notation the_workspace := (the_workspace is_directory can_read glob read_file).
Lemma prepare_spec fl cmd pt w pr g : prepare fl cmd pt = Ret (Some (w, pr, g)) ->
  let dep_pattern := match cmd with CHasDependents => pattern_always | _ => pt end in
  let depth := depth_for cmd (fl_depth fl) in
  the_workspace w /\ exists pr0,
    holds_files w read_file (glob_in w) (if needs_project cmd pt then collect_build_files w dep_pattern else [])
      (pat_project dep_pattern) (elaborate_for cmd (fl_elaborate fl)) pr0 /\
    if wants_graph cmd && (0 <=? depth)%Z
    then exists todo, build_graph w read_file can_read (glob_in w) dep_pattern depth pr0 = Ret (g, pr, todo)
    else g = mkGraph [] [] /\ pr = pr0.
Proof.
  unfold M_Commands.prepare. intros E. cbn zeta.
  destruct (load_workspace is_directory can_read glob read_file) as [[w0|]| |] eqn:L; try discriminate. cbn [bind] in E.
  destruct (load_workspace_spec _ _ _ _ _ L) as (decls & D & _ & X). specialize (X w0 eq_refl).
  set (w1 := augment_from_external_dir is_directory glob w0) in *.
  set (dp := match cmd with CHasDependents => pattern_always | _ => pt end) in *.
  destruct (if needs_project cmd pt then _ else _) as [pr1| |] eqn:F; try discriminate. cbn [bind] in E.
  assert (H1 : holds_files w1 read_file (glob_in w1) (if needs_project cmd pt then collect_build_files w1 dp else []) (pat_project dp) false pr1).
  { destruct (needs_project cmd pt); [apply fill_spec; exact F|]. injection F as <-. apply empty_holds. }
  destruct (if elaborate_for cmd (fl_elaborate fl) then _ else _) as [pr2| |] eqn:El; try discriminate. cbn [bind] in E.
  assert (H2 : holds_files w1 read_file (glob_in w1) (if needs_project cmd pt then collect_build_files w1 dp else []) (pat_project dp) (elaborate_for cmd (fl_elaborate fl)) pr2).
  { destruct (elaborate_for cmd (fl_elaborate fl)); [eapply elaborate_holds; eauto|]. injection El as <-. exact H1. }
  destruct (wants_graph cmd && (0 <=? depth_for cmd (fl_depth fl))%Z).
  - destruct (build_graph w1 read_file can_read (glob_in w1) dp (depth_for cmd (fl_depth fl)) pr2) as [[[g' pr'] todo]| |] eqn:B; try discriminate.
    cbn [bind] in E. injection E as <- <- <-. split; [exists decls, w0; auto|]. exists pr2. split; [exact H2|]. exists todo. exact B.
  - cbn [bind] in E. injection E as <- <- <-. split; [exists decls, w0; auto|]. exists pr2. auto.
Qed.
Lemma run_spec fl cmd pt out st : run_command fl cmd pt = Ret (out, st) ->
  (prepare fl cmd pt = Ret None /\ out = [] /\ st = ExitFailure) \/
  exists w pr g, prepare fl cmd pt = Ret (Some (w, pr, g)) /\ perform read_file compilation_flags fl cmd pt w pr g = Ret (out, st).
Proof.
  unfold M_Commands.run_command. destruct (prepare fl cmd pt) as [[[[w pr] g]|]| |] eqn:P; try discriminate; cbn [bind]; intros E.
  - right. eauto 8.
  - injection E as <- <-. auto.
Qed.
End Run.
