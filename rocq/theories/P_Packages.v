(** Proofs for C88. *)
From Coq Require Import NArith ZArith Lia.
From Verif Require Import Base OMap M_Types M_Scanner M_Ast M_Parser S_Parser P_Parser M_Query M_Elab M_Workspace M_Project M_DepGraph S_DepGraph P_DepGraph P_Project
  P_Workspace M_Walk S_Walk P_Walk P_WalkPaths M_Table S_Table P_Table M_Commands S_Commands P_Commands S_Run P_Run M_Main M_System S_Order P_Order S_Packages.
Local Open Scope string_scope. Local Open Scope list_scope.

(** * Depth 0 reads no other packages *)
Lemma missing_none w rf cr gi want : forall pr, (forall p, In p want -> exists f, find_parsed pr p = Some f) ->
  find_and_parse_missing w rf cr gi want pr = Ret pr.
Proof.
  induction want as [|p want IH]; intros pr H; cbn [find_and_parse_missing]; [reflexivity|].
  unfold parse_missing. destruct (H p (or_introl eq_refl)) as (f & ->). cbn [bind]. apply IH. intros q I. apply H. now right.
Qed.
Lemma depth_none w rf cr gi pt depth pr g pr' todo : project_ok pr -> (depth <= 0)%Z ->
  build_graph w rf cr gi pt depth pr = Ret (g, pr', todo) -> pr' = pr.
Proof.
  intros OK D B. unfold build_graph in B. destruct (initial_todo pt (pr_files pr) []) as [todo0| |] eqn:E0; try discriminate B. cbn [bind] in B.
  replace (Z.to_nat depth) with 0 in B by lia. cbn [rounds] in B. unfold run_round in B.
  destruct (initial_todo_spec pt _ _ _ (proj2 OK) E0 I) as (_ & H).
  rewrite missing_none in B.
  - cbn [bind] in B. destruct (scan_packages _ _ _) as [st| |]; try discriminate B. cbn [bind] in B. now injection B as _ <- _.
  - intros p Ip. rewrite set_of_list_in in Ip. apply in_map_iff in Ip as (t & <- & It). apply H in It as [[]|(_ & f & rs & r & I & _)].
    exists f. apply msorted_find; [apply OK|exact I].
Qed.

(** * Directories *)
Section Fs.
Variable fs : file_system.
Hypothesis proper : proper_names (fs_list fs).
Notation build_dir := (build_dir (fs_list fs) (fs_stat fs) (fs_link fs)).
Notation dir_entry := (dir_entry (fs_list fs) (fs_stat fs)).
Notation file_entry := (file_entry (fs_list fs) (fs_stat fs)).

Lemma at_snoc root names n : at_path root (names ++ [n]) = at_path root names ++ "/"%char :: n.
Proof. unfold at_path. rewrite fold_left_app. reflexivity. Qed.
Lemma at_app root a b : at_path root (a ++ b) = at_path (at_path root a) b.
Proof. unfold at_path. apply fold_left_app. Qed.
Definition no_slash_end (s : str) : Prop := strip_back "/" s = s.
Lemma package_dir_end rec root names : no_slash_end root -> package_dir fs rec root names -> no_slash_end (at_path root names).
Proof.
  intros R H. destruct H as [|names e i _ _ D _ _]; [exact R|]. rewrite at_snoc. destruct (dir_name _ _ proper _ _ _ D) as (N1 & N2). now apply name_end.
Qed.
Lemma package_build rec root names : no_slash_end root -> package_dir fs rec root names -> build_dir rec root (at_path root names).
Proof.
  intros R. induction 1 as [|names e i Rc P IH D L N]; [constructor|]. rewrite at_snoc.
  pose proof (BD_sub _ _ _ _ _ _ _ _ Rc IH D L N) as B. rewrite path_at_path, (package_dir_end _ _ _ R P) in B. exact B.
Qed.
Lemma build_package rec root d : no_slash_end root -> build_dir rec root d -> exists names, package_dir fs rec root names /\ d = at_path root names.
Proof.
  intros R. induction 1 as [|d e i Rc B (names & P & ->) D L N]; [exists []; split; [constructor|reflexivity]|].
  exists (names ++ [d_name e]). split; [eapply PD_below; eauto|]. rewrite path_at_path, (package_dir_end _ _ _ R P), at_snoc. reflexivity.
Qed.
Lemma path_here rec root names e : no_slash_end root -> package_dir fs rec root names ->
  fp_path (path_at (at_path root names) e) = at_path root names ++ "/"%char :: d_name e.
Proof. intros R P. rewrite path_at_path, (package_dir_end _ _ _ R P). reflexivity. Qed.

Lemma one_way_second w pt root : pat_project pt = [] -> no_slash_end root -> search_dir w pt = Some root -> one_way fs root -> no_second_way fs w pt.
Proof.
  intros Pj R S O root' d e d' e' i S' B B' D D'. assert (root' = root) as -> by congruence.
  destruct (build_package _ _ _ R B) as (names & P & ->), (build_package _ _ _ R B') as (names' & P' & ->).
  destruct (O _ _ _ _ _ P P' D D') as (-> & ->). reflexivity.
Qed.
Lemma search_main w pt : pat_project pt = [] -> search_dir w pt = Some (start_of (pat_path pt)).
Proof. intros Pj. unfold search_dir. rewrite Pj. cbn [is_nil]. destruct (pat_path pt); reflexivity. Qed.

(** The package of a directory. *)
Lemma start_end path : plain_start path -> no_slash_end (start_of path).
Proof.
  intros (A & _). destruct path as [|c r]; [reflexivity|]. unfold no_slash_end. cbn [start_of].
  destruct (strip_back_repeat "/" (c :: r)) as (n & E). destruct n as [|n]; [rewrite app_nil_r in E; auto|].
  exfalso. replace (S n) with (n + 1) in E by lia. rewrite repeat_app in E. cbn [repeat] in E. rewrite app_assoc in E. exact (A _ E).
Qed.
Lemma at_first root names c r : root = c :: r -> exists t, at_path root names = c :: t.
Proof.
  revert root r. induction names as [|n names IH]; intros root r ->; [exists r; reflexivity|].
  cbn [at_path fold_left]. apply (IH ((c :: r) ++ "/"%char :: n) (r ++ "/"%char :: n)). reflexivity.
Qed.
Lemma at_prefix a root names : at_path (a ++ root) names = a ++ at_path root names.
Proof.
  revert root. induction names as [|n names IH]; intros root; [reflexivity|]. cbn [at_path fold_left]. rewrite <- app_assoc. apply IH.
Qed.
Lemma first_name rec root names : package_dir fs rec root names -> match names with [] => True | n :: _ => n <> [] /\ ~ In "/"%char n end.
Proof.
  induction 1 as [|names e i _ _ IH D _ _]; [exact I|]. destruct (dir_name _ _ proper _ _ _ D) as (N1 & N2).
  destruct names; cbn [app]; auto.
Qed.
Lemma stripped_path rec path names : plain_start path -> package_dir fs rec (start_of path) names -> not_hidden path names ->
  $"//" ++ strip_dots_slashes (strip_back "/" (at_path (start_of path) names)) = label_at path names.
Proof.
  intros Ps P H. rewrite (package_dir_end _ _ _ (start_end _ Ps) P). unfold label_at. f_equal. destruct Ps as (_ & P1 & P2).
  destruct path as [|c r]; cbn [start_of] in *.
  - destruct names as [|n names]; [reflexivity|]. pose proof (first_name _ _ _ P) as (N1 & N2). cbn beta iota.
    change (at_path ($".") (n :: names)) with (at_path ($"./" ++ n) names). rewrite at_prefix.
    destruct n as [|c n]; [congruence|]. destruct (at_first (c :: n) names c n eq_refl) as (t & E). rewrite E.
    change (strip_dots_slashes (c :: t) = c :: t). apply strip_dots_id; intros u X; injection X as -> _.
    + apply (H eq_refl).
    + apply N2. now left.
  - destruct (at_first (c :: r) names c r eq_refl) as (t & E). rewrite E. apply strip_dots_id; intros u X; injection X as -> _; [now apply (P1 r)|now apply (P2 r)].
Qed.
End Fs.

(** * The table of packages *)
Section Packages.
Variable fs : file_system.
Hypothesis proper : proper_names (fs_list fs).
Variable inodes : list N.
Hypothesis finite : inodes_are fs inodes.
Variable fuel : nat.
Hypothesis enough : length inodes < fuel.
Notation run := (run_command (is_dir fs) (fs_can_read fs) (fs_glob fs) (fs_content fs) (globbed_files fuel fs) (found_build_files fuel fs) (flags_output fs)).

Lemma in_order w pt : no_second_way fs w pt -> forall f, In f (found_build_files fuel fs w pt) <-> has_build_file fs w pt f.
Proof.
  intros U. apply (found_order fs (fs_list fs)) with inodes; auto. intros d. destruct (fs_list fs d); auto.
Qed.
(** What is read for a pattern. *)
Definition listed (pt : pattern) (pr : parsed_project) : Prop :=
  msorted (pr_files pr) /\
  (forall p f, In (p, f) (pr_files pr) -> project p = [] /\ exists names, package_dir fs (is_recursive pt) (start_of (pat_path pt)) names /\
     build_file fs (at_path (start_of (pat_path pt)) names) (pf_name f) /\ package_to_string p = label_at (pat_path pt) names) /\
  (forall names file, package_dir fs (is_recursive pt) (start_of (pat_path pt)) names -> build_file fs (at_path (start_of (pat_path pt)) names) file ->
     exists p f, In (p, f) (pr_files pr) /\ package_to_string p = label_at (pat_path pt) names).
Lemma file_for_some w rf proj p : forall names, (exists name content, In name names /\ package_of_build_file w name proj = Ret (Some p) /\ rf name = Some content) ->
  exists name content, file_for w rf names proj p name content.
Proof.
  intros names. induction names as [|x names IH] using rev_ind; intros (name & content & I & P & R); [destruct I|].
  destruct (file_for_dec w rf names proj p) as [(n & c & F)|F].
  - exists n, c. apply file_for_snoc. auto.
  - apply in_app_or in I as [I|[<-|[]]].
    + destruct (IH (ex_intro _ name (ex_intro _ content (conj I (conj P R))))) as (n & c & F'). exists n, c. apply file_for_snoc. auto.
    + exists x, content. apply file_for_snoc. right. auto.
Qed.
Lemma fill_listed w pt pr : pat_project pt = [] -> plain_start (pat_path pt) -> one_way fs (start_of (pat_path pt)) ->
  (forall names, package_dir fs (is_recursive pt) (start_of (pat_path pt)) names -> not_hidden (pat_path pt) names) ->
  holds_files w (fs_content fs) (globbed_files fuel fs w) (found_build_files fuel fs w pt) (pat_project pt) false pr -> listed pt pr.
Proof.
  intros Pj Ps O H (S & Hf). pose proof (start_end _ Ps) as R. pose proof (search_main w pt Pj) as Sd.
  pose proof (in_order w pt (one_way_second fs proper w pt _ Pj R Sd O)) as F.
  assert (Q : forall names e, package_dir fs (is_recursive pt) (start_of (pat_path pt)) names -> (d_name e = $"BUILD" \/ d_name e = $"BUILD.bazel") ->
    exists p, package_of_build_file w (fp_path (path_at (at_path (start_of (pat_path pt)) names) e)) (pat_project pt) = Ret (Some p) /\ project p = [] /\ package_to_string p = label_at (pat_path pt) names).
  { intros names e P N. rewrite Pj. rewrite build_file_package by exact N. eexists. split; [reflexivity|]. split; [reflexivity|].
    unfold package_to_string. cbn [project path app]. exact (stripped_path fs proper _ _ _ Ps P (H _ P)). }
  split; [exact S|]. split.
  - intros p f I. apply Hf in I as (name & content & st & er & ast & (a & b & E & Pk & Rd & _) & _ & _ & ->). cbn [pf_name].
    assert (I : In name (found_build_files fuel fs w pt)) by (rewrite E; apply in_or_app; right; left; reflexivity).
    apply F in I as (root & d & e & Sr & B & Fe & N & ->). assert (root = start_of (pat_path pt)) as -> by congruence.
    destruct (build_package fs proper _ _ _ R B) as (names & P & ->). destruct (Q names e P N) as (q & Eq & Pq & L). assert (q = p) as -> by congruence. split; [exact Pq|]. exists names. split; [exact P|]. split.
    + exists e, content. split; [exact Fe|]. split; [exact N|]. split; [exact (path_here fs proper _ _ _ _ R P)|exact Rd].
    + exact L.
  - intros names file P (e & content & Fe & N & -> & Rd). destruct (Q names e P N) as (p & Ep & _ & L).
    rewrite (path_here fs proper _ _ _ _ R P) in Ep.
    destruct (file_for_some w (fs_content fs) (pat_project pt) p (found_build_files fuel fs w pt)) as (n & c & Ff).
    { exists (at_path (start_of (pat_path pt)) names ++ "/"%char :: d_name e), content. split; [|auto]. apply F.
      exists (start_of (pat_path pt)), (at_path (start_of (pat_path pt)) names), e. split; [exact Sd|]. split; [exact (package_build fs proper _ _ _ R P)|].
      split; [exact Fe|]. split; [exact N|]. symmetry. exact (path_here fs proper _ _ _ _ R P). }
    destruct (parse_total c) as (st & er & Pc). exists p, (mkFile p n c st er). split; [|exact L]. apply Hf. exists n, c, st, er, st. auto.
Qed.
Lemma listed_elaborated gi pt pr pr' : elaborate_project gi pr = Ret pr' -> listed pt pr -> listed pt pr'.
Proof.
  intros E (S & A & B). unfold elaborate_project in E. destruct (elaborate_files gi (pr_files pr)) as [l| |] eqn:El; try discriminate E.
  injection E as <-. destruct (elaborate_files_in _ _ _ El) as [K F]. split; [unfold msorted in *; cbn [pr_files]; rewrite K; exact S|]. cbn [pr_files]. split.
  - intros p f I. apply F in I as (g & I & Eg). destruct (A _ _ I) as (Pq & names & P & Bf & L). split; [exact Pq|]. exists names. split; [exact P|]. split; [|exact L].
    unfold elaborate_file in Eg. destruct (elaborate _ _); try discriminate Eg. injection Eg as <-. exact Bf.
  - intros names file P Bf. destruct (B names file P Bf) as (p & f & I & L).
    assert (Ik : In p (keys l)) by (rewrite K; unfold keys; apply in_map_iff; exists (p, f); auto).
    unfold keys in Ik. apply in_map_iff in Ik as ((q & g) & <- & I'). exists q, g. auto.
Qed.
Theorem packages_listed fl pt out : fl_format fl = FmtCsv -> (fl_depth fl <= 0)%Z ->
  pat_project pt = [] -> plain_start (pat_path pt) -> one_way fs (start_of (pat_path pt)) ->
  (forall names, package_dir fs (is_recursive pt) (start_of (pat_path pt)) names -> not_hidden (pat_path pt) names) ->
  run fl CListPackages pt = Ret (out, ExitSuccess) ->
  exists pr, listed pt pr /\
    read_csv out = Some ([$"bazel-file"; $"package"] :: map (fun e => [pf_name (snd e); package_to_string (fst e)]) (pr_files pr)).
Proof.
  intros Fm D Pj Ps O H E. apply run_spec in E as [(_ & _ & C)|(w & pr & g & P & E)]; [discriminate C|].
  unfold perform in E. rewrite Fm in E. destruct (print_packages _ _) as [o| |] eqn:T; try discriminate. injection E as <-. apply package_rows in T.
  exists pr. split; [|exact T]. clear T. unfold prepare in P.
  destruct (load_workspace _ _ _ _) as [[w0|]| |]; try discriminate P. cbn [bind] in P.
  set (w1 := augment_from_external_dir (is_dir fs) (fs_glob fs) w0) in *. cbn [needs_project elaborate_for wants_graph depth_for andb] in P.
  destruct (fill_from_pattern _ _ _ _ _) as [pr1| |] eqn:F; try discriminate P. cbn [bind] in P.
  assert (L1 := fill_listed w1 pt pr1 Pj Ps O H (fill_spec _ _ _ _ _ _ F)).
  pose proof (holds_ok _ _ _ _ _ _ _ (fill_spec w1 (fs_content fs) (globbed_files fuel fs w1) _ _ _ F)) as OK1.
  destruct (if fl_elaborate fl then _ else _) as [pr2| |] eqn:El; try discriminate P. cbn [bind] in P.
  assert (L2 : listed pt pr2). { destruct (fl_elaborate fl); [eapply listed_elaborated; eauto|]. injection El as <-. exact L1. }
  assert (OK2 : project_ok pr2).
  { destruct (fl_elaborate fl); [|injection El as <-; exact OK1].
    exact (holds_ok _ _ _ _ _ _ _ (elaborate_holds w1 (fs_content fs) (globbed_files fuel fs w1) _ _ _ _ (fill_spec _ _ _ _ _ _ F) El)). }
  destruct (0 <=? fl_depth fl)%Z; [|cbn [bind] in P; injection P as _ <- _; exact L2].
  destruct (build_graph _ _ _ _ _ _ _) as [[[g' pr'] todo]| |] eqn:B; try discriminate P. cbn [bind] in P. injection P as _ <- _.
  apply depth_none in B; auto. subst. exact L2.
Qed.
End Packages.

(** * A part of the packages *)
Section Part.
Variable fs : file_system.
Hypothesis proper : proper_names (fs_list fs).
Hypothesis here : here_is_here fs.
Notation dir_entry := (dir_entry (fs_list fs) (fs_stat fs)).
Notation file_entry := (file_entry (fs_list fs) (fs_stat fs)).

Lemma here_path d e : d <> [] -> no_slash_end d -> fp_path (path_at ($"./" ++ d) e) = $"./" ++ fp_path (path_at d e).
Proof.
  intros N E. rewrite !path_at_path. rewrite E. rewrite strip_back_id; [rewrite <- app_assoc; reflexivity|].
  intros r X. unfold no_slash_end in E. destruct d as [|c d _] using rev_ind; [congruence|].
  rewrite app_assoc in X. apply app_inj_tail in X as (_ & ->). apply (strip_back_notail "/" (d ++ ["/"%char]) d). exact E.
Qed.
Lemma here_dir d e i : d <> [] -> no_slash_end d -> dir_entry ($"./" ++ d) e i <-> dir_entry d e i.
Proof.
  intros N E. unfold S_Walk.dir_entry, S_Walk.entry. rewrite (here_path d e N E). destruct (here d N) as (-> & _).
  assert (P : fp_path (path_at d e) <> []) by (rewrite path_at_path; destruct (strip_back "/" d); discriminate).
  destruct (here _ P) as (_ & -> & _). reflexivity.
Qed.
Lemma here_file d e : d <> [] -> no_slash_end d -> file_entry ($"./" ++ d) e <-> file_entry d e.
Proof.
  intros N E. unfold S_Walk.file_entry. split; intros (A & B); (split; [|intros i D; apply (B i); now apply here_dir]).
  - unfold S_Walk.entry in *. destruct (here d N) as (<- & _). exact A.
  - unfold S_Walk.entry in *. destruct (here d N) as (-> & _). exact A.
Qed.
Lemma here_link d e : d <> [] -> no_slash_end d -> link_entry (fs_link fs) ($"./" ++ d) e <-> link_entry (fs_link fs) d e.
Proof.
  intros N E. unfold link_entry. rewrite (here_path d e N E).
  assert (P : fp_path (path_at d e) <> []) by (rewrite path_at_path; destruct (strip_back "/" d); discriminate).
  destruct (here _ P) as (_ & _ & -> & _). reflexivity.
Qed.
Lemma here_build d f : d <> [] -> no_slash_end d -> build_file fs ($"./" ++ d) f <-> exists f', f = $"./" ++ f' /\ build_file fs d f'.
Proof.
  intros N E. unfold build_file. split.
  - intros (e & c & F & B & -> & R). exists (d ++ "/"%char :: d_name e). split; [now rewrite app_assoc|].
    exists e, c. split; [now apply here_file|]. split; [exact B|]. split; [reflexivity|].
    rewrite <- app_assoc in R. destruct (here (d ++ "/"%char :: d_name e)) as (_ & _ & _ & <-); [destruct d; discriminate|exact R].
  - intros (f' & -> & e & c & F & B & -> & R). exists e, c. split; [now apply here_file|]. split; [exact B|]. split; [now rewrite <- app_assoc|].
    destruct (here (d ++ "/"%char :: d_name e)) as (_ & _ & _ & ->); [destruct d; discriminate|exact R].
Qed.

Variables (n : str) (ns : list str).
Notation a := (at_path n ns).
Hypothesis plain : plain_start a.
Hypothesis reached : package_dir fs true ($".") (n :: ns).
Lemma a_some : a <> [].
Proof.
  pose proof (first_name fs proper _ _ _ reached) as (N & _). destruct n as [|c r]; [congruence|].
  destruct (at_first (c :: r) ns c r eq_refl) as (t & ->). discriminate.
Qed.
Lemma a_start : start_of a = a. Proof. pose proof a_some. destruct a; [congruence|reflexivity]. Qed.
Lemma a_end : no_slash_end a. Proof. rewrite <- a_start. apply start_end. exact plain. Qed.
Lemma dot_at names : at_path ($".") ((n :: ns) ++ names) = $"./" ++ at_path a names.
Proof. rewrite at_app. change (at_path ($".") (n :: ns)) with (at_path ($"./" ++ n) ns). rewrite !at_prefix. reflexivity. Qed.
Lemma below_some names : at_path a names <> [].
Proof. pose proof a_some as N. destruct a as [|c r] eqn:E; [congruence|]. destruct (at_first (c :: r) names c r eq_refl) as (t & X). rewrite X. discriminate. Qed.
Lemma below_dot names : package_dir fs true a names -> package_dir fs true ($".") ((n :: ns) ++ names).
Proof.
  induction 1 as [|names e i Rc P IH D L N]; [rewrite app_nil_r; exact reached|]. rewrite app_assoc.
  pose proof (package_dir_end fs proper _ _ _ a_end P) as E. apply PD_below with i; auto; rewrite dot_at.
  - apply here_dir; auto. apply below_some.
  - intros X. apply L. apply here_link; auto. apply below_some.
Qed.
Lemma dot_below names : package_dir fs true ($".") ((n :: ns) ++ names) -> package_dir fs true a names.
Proof.
  induction names as [|x names IH] using rev_ind; intros H; [constructor|]. rewrite app_assoc in H.
  remember (((n :: ns) ++ names) ++ [x]) as whole eqn:W. destruct H as [|l e i Rc P D L N]; [destruct ((n :: ns) ++ names); discriminate W|]. apply app_inj_tail in W as (-> & <-).
  specialize (IH P). rewrite dot_at in D, L. pose proof (package_dir_end fs proper _ _ _ a_end IH) as E. apply PD_below with i; auto.
  - apply (proj1 (here_dir _ e i (below_some names) E)). exact D.
  - intros X. apply L. apply here_link; auto. apply below_some.
Qed.
Lemma part_one_way : one_way fs ($".") -> one_way fs a.
Proof.
  intros O names names' e e' i P P' D D'.
  pose proof (package_dir_end fs proper _ _ _ a_end P) as E. pose proof (package_dir_end fs proper _ _ _ a_end P') as E'.
  destruct (O ((n :: ns) ++ names) ((n :: ns) ++ names') e e' i) as (X & Y).
  - now apply below_dot.
  - now apply below_dot.
  - rewrite dot_at. apply here_dir; auto. apply below_some.
  - rewrite dot_at. apply here_dir; auto. apply below_some.
  - apply app_inv_head in X. auto.
Qed.
Lemma part_label names : label_at a names = label_at [] ((n :: ns) ++ names).
Proof.
  unfold label_at. cbn [app]. rewrite at_app. f_equal. pose proof a_some. destruct a; [congruence|reflexivity].
Qed.
Lemma part_file names f : package_dir fs true a names ->
  build_file fs (at_path ($".") ((n :: ns) ++ names)) f <-> exists f', f = $"./" ++ f' /\ build_file fs (at_path a names) f'.
Proof.
  intros P. rewrite dot_at. apply here_build; [apply below_some|]. exact (package_dir_end fs proper _ _ _ a_end P).
Qed.
End Part.

(** Paths that begin alike. *)
Definition slashed (l : list str) : str := flat_map (fun x => "/"%char :: x) l.
Lemma at_slashed l : forall n, at_path n l = n ++ slashed l.
Proof. induction l as [|x l IH]; intros n; [symmetry; apply app_nil_r|]. cbn [at_path fold_left slashed flat_map]. fold (at_path (n ++ "/"%char :: x) l). rewrite IH, <- app_assoc. reflexivity. Qed.
Definition slash_next (s : str) : Prop := match s with [] => True | c :: _ => c = "/"%char end.
Lemma head_word a : forall b s t, ~ In "/"%char a -> ~ In "/"%char b -> slash_next s -> slash_next t -> a ++ s = b ++ t -> a = b /\ s = t.
Proof.
  induction a as [|c a IH]; intros [|d b] s t A B S T E; cbn [app] in E.
  - auto.
  - destruct s as [|x s]; [discriminate|]. injection E as -> _. cbn in S. subst. elim B. now left.
  - destruct t as [|x t]; [discriminate|]. injection E as -> _. cbn in T. subst. elim A. now left.
  - injection E as -> E. destruct (IH b s t) as (-> & ->); auto; [intros X; apply A; now right|intros X; apply B; now right].
Qed.
Lemma slashed_next l : slash_next (slashed l). Proof. destruct l; reflexivity || exact I. Qed.
Lemma prefix_names l : forall l' n n' r, Forall (fun x => ~ In "/"%char x) (n :: l) -> Forall (fun x => ~ In "/"%char x) (n' :: l') -> slash_next r ->
  at_path n' l' = at_path n l ++ r -> exists names, n' :: l' = (n :: l) ++ names.
Proof.
  induction l as [|x l IH]; intros l' n n' r F F' R E; rewrite !at_slashed in E; rewrite <- app_assoc in E.
  - apply head_word in E as (-> & _); [exists l'; reflexivity|now inversion F'|now inversion F|apply slashed_next|exact R].
  - apply head_word in E as (-> & E); [|now inversion F'|now inversion F|apply slashed_next|reflexivity].
    destruct l' as [|x' l']; [discriminate E|]. cbn [slashed flat_map app] in E. injection E as E.
    destruct (IH l' x x' r) as (names & X); [now inversion F|now inversion F'|exact R| |].
    + rewrite !at_slashed, <- app_assoc. unfold slashed. rewrite <- app_assoc in E. exact E.
    + exists names. cbn [app]. f_equal. exact X.
Qed.
Lemma names_slash fs rec root names : proper_names (fs_list fs) -> package_dir fs rec root names -> Forall (fun x => ~ In "/"%char x) names.
Proof.
  intros Pn. induction 1 as [|names e i _ _ IH D _ _]; [constructor|]. apply Forall_app. split; [exact IH|]. constructor; [|constructor].
  apply (dir_name _ _ Pn _ _ _ D).
Qed.
