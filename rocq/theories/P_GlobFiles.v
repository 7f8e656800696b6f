(** Proofs about the files of glob() and the BUILD files. *)
From Coq Require Import NArith.
From Verif Require Import Base OMap M_Types M_Ast M_Workspace M_Glob S_Glob P_Glob M_Walk S_Walk P_Walk P_WalkPaths.

Local Notation slash := "/"%char.

Definition all_dirs (f : fpath) : bool := true.
Definition calls_of (incl excl : list str) : list (bool * str) := map (pair true) incl ++ map (pair false) excl.
Lemma calls_in incl excl b p : In (b, p) (calls_of incl excl) <-> if b then In p incl else In p excl.
Proof.
  unfold calls_of. rewrite in_app_iff, !in_map_iff. destruct b; split.
  - intros [(x & [= <-] & I)|(x & E & _)]; [auto|discriminate].
  - intros I. left. eauto.
  - intros [(x & E & _)|(x & [= <-] & I)]; [discriminate|auto].
  - intros I. right. eauto.
Qed.
Lemma glob_builder_built incl excl : glob_builder_of incl excl = built (calls_of incl excl).
Proof.
  unfold glob_builder_of, built, calls_of. rewrite fold_left_app.
  assert (A : forall l g, fold_left (fun g p => add_include p g) l g = fold_left add_pattern (map (pair true) l) g) by (induction l as [|p l IH]; intros g; auto; cbn [map fold_left]; apply IH).
  assert (B : forall l g, fold_left (fun g p => add_exclude p g) l g = fold_left add_pattern (map (pair false) l) g) by (induction l as [|p l IH]; intros g; auto; cbn [map fold_left]; apply IH).
  now rewrite B, A.
Qed.
(** The meaning of the arguments of glob(). *)
Definition selected (incl excl : list str) (name : str) : Prop :=
  (exists p, In p incl /\ glob_match p name) /\ ~ exists p, In p excl /\ glob_match p name.
Lemma selected_spec incl excl s : s <> [] -> (file_predicate (glob_builder_of incl excl) s = true <-> selected incl excl s).
Proof.
  intros N. rewrite glob_builder_built, file_predicate_spec by auto. unfold selected.
  assert (E : forall b, (exists p, In (b, p) (calls_of incl excl) /\ glob_match p s) <-> exists p, (if b then In p incl else In p excl) /\ glob_match p s).
  { intros b. split; intros (p & I & G); exists p; split; auto; apply calls_in; auto. }
  rewrite (E true), (E false). reflexivity.
Qed.

Section Glob.
Variable readdir : str -> option (list dirent).
Variable stat : str -> option (N * bool).
Hypothesis proper : proper_names readdir.
Notation dir_entry := (dir_entry readdir stat).
Notation file_entry := (file_entry readdir stat).
Notation visited := (visited readdir stat).
Notation below := (below readdir stat).
Variable root : str.
Hypothesis root_end : no_end root.

Lemma skip_root r : skipn (length root + 1) (root ++ slash :: r) = r.
Proof. rewrite skipn_app. replace (length root + 1 - length root) with 1 by lia. rewrite skipn_all2 by lia. reflexivity. Qed.
Lemma after_root f r : fp_path f = root ++ slash :: r -> after_prefix root f = Some r.
Proof.
  intros E. unfold after_prefix. rewrite E, skip_root, app_length. cbn [length]. destruct (Nat.ltb_spec (length root + S (length r)) (length root + 1)); [lia|reflexivity].
Qed.
(** Every path asked about starts with that of the package. *)
Lemma below_path want d e : visited want root d -> entry readdir d e -> exists r, r <> [] /\ fp_path (path_at d e) = root ++ slash :: r.
Proof.
  intros V E. rewrite path_at_path. pose proof (entry_name readdir proper d e E) as (N1 & N2). apply (visited_path readdir stat proper) in V as [->|(Ne & r & ->)].
  - rewrite root_end. eauto.
  - rewrite Ne, root_end, <- app_assoc. cbn [app]. exists (r ++ slash :: d_name e). split; auto. destruct r; discriminate.
Qed.
Lemma visited_below want d : visited want root d -> (d = root \/ no_end d /\ exists r, d = root ++ slash :: r /\ forall f, below d f -> below root (r ++ slash :: f)).
Proof.
  induction 1 as [|d e i V IH De W]; auto. right. rewrite path_at_path. destruct (dir_name readdir stat proper _ _ _ De) as (N1 & N2). split; [now apply name_end|].
  assert (X : forall f, below (strip_back slash d ++ slash :: d_name e) f -> below d (d_name e ++ slash :: f)).
  { intros f B. eapply B_sub; eauto. now rewrite path_at_path. }
  destruct IH as [->|(Ne & r & E & H)].
  - exists (d_name e). rewrite root_end in *. split; auto.
  - exists (r ++ slash :: d_name e). split; [rewrite Ne, E, <- app_assoc; reflexivity|]. intros f B. rewrite <- app_assoc. cbn [app]. apply H. now apply X.
Qed.
Variable incl excl : list str.
Notation g := (glob_builder_of incl excl).
Notation wd := (fun d => match after_prefix root d with Some s => directory_predicate g s | None => false end).
Notation wf := (fun f => match after_prefix root f with Some s => file_predicate g s | None => false end).
Lemma glob_names_spec l : (forall f, In f l -> exists r, r <> [] /\ fp_path f = root ++ slash :: r) ->
  exists names, glob_names (length root + 1) l = Ret names /\ map fp_path l = map (fun n => root ++ slash :: n) names.
Proof.
  induction l as [|f l IH]; intros H; [exists []; auto|]. destruct IH as (names & E & M); [intros x I; apply H; now right|].
  destruct (H f (or_introl eq_refl)) as (r & Nr & Er). cbn [glob_names]. rewrite Er, app_length. cbn [length]. destruct r as [|c r]; [congruence|]. cbn [length].
  destruct (Nat.ltb_spec (length root + 1) (length root + S (S (length r)))); [|lia]. rewrite E. cbn [bind]. exists ((c :: r) :: names). rewrite skip_root. split; auto. cbn [map]. now rewrite Er, M.
Qed.
Lemma multi_glob_paths fuel l : multi_glob readdir stat fuel root incl excl = Ret l -> forall f, In f l -> exists r, r <> [] /\ fp_path f = root ++ slash :: r.
Proof.
  intros H f I. unfold multi_glob in H. eapply collect_sound in H; eauto. destruct H as (d & e & V & Fe & _ & ->). eapply below_path; eauto. apply Fe.
Qed.
Lemma below_visited d rel : below d rel -> forall pre, d = root ++ pre -> no_end d -> visited wd root d -> ~ In NL (root ++ pre ++ slash :: rel) ->
  file_predicate g (tl (pre ++ slash :: rel)) = true -> exists d' e, visited wd root d' /\ file_entry d' e /\ fp_path (path_at d' e) = root ++ pre ++ slash :: rel.
Proof.
  induction 1 as [d e Fe|d0 d e i f De E B IH]; intros pre Ed Ne V Nl P.
  - exists d, e. do 2 (split; [auto|]). rewrite path_at_path, Ne, Ed, <- app_assoc. reflexivity.
  - destruct (dir_name readdir stat proper _ _ _ De) as (N1 & N2). subst d.
    assert (Ep : fp_path (path_at d0 e) = root ++ pre ++ slash :: d_name e) by (rewrite path_at_path, Ne, Ed, <- app_assoc; reflexivity).
    assert (Eq : pre ++ slash :: d_name e ++ slash :: f = (pre ++ slash :: d_name e) ++ slash :: f) by (now rewrite <- app_assoc).
    assert (Et : forall x, tl ((pre ++ slash :: d_name e) ++ x) = tl (pre ++ slash :: d_name e) ++ x) by (intros x; destruct pre; reflexivity).
    rewrite Eq in *. apply (IH (pre ++ slash :: d_name e)).
    + exact Ep.
    + rewrite Ep, app_assoc. now apply name_end.
    + apply V_sub with i; auto.
      assert (Ha : after_prefix root (path_at d0 e) = Some (tl (pre ++ slash :: d_name e))).
      { apply after_root. rewrite Ep. f_equal. destruct pre as [|c pre]; [reflexivity|]. cbn [app tl].
        assert (c = slash) as ->; auto. apply (visited_path readdir stat proper) in V as [V|(_ & r & V)].
        - rewrite V in Ed. rewrite <- (app_nil_r root) in Ed at 1. apply app_inv_head in Ed. discriminate.
        - rewrite root_end in V. rewrite V in Ed. apply app_inv_head in Ed. congruence. }
      rewrite Ha. rewrite Et in P. rewrite glob_builder_built in *. apply (directory_complete _ _ f); auto.
      intros I. apply Nl. apply in_or_app. right. apply in_or_app. left. destruct pre; [right; exact I|now right].
    + exact Nl.
    + exact P.
Qed.
Lemma below_nonempty d n : below d n -> n <> [].
Proof.
  intros B. inversion B as [e Fe E|x e i f De Ex B' E]; subst.
  - now destruct (entry_name readdir proper _ _ (proj1 Fe)).
  - destruct (d_name e); discriminate.
Qed.
Theorem multi_glob_spec fuel names : (do l <- multi_glob readdir stat fuel root incl excl; glob_names (length root + 1) l) = Ret names ->
  (forall n, In n names -> below root n /\ selected incl excl n) /\ NoDup names /\
  (one_path_each readdir stat all_dirs root -> forall n, below root n -> ~ In NL (root ++ slash :: n) -> selected incl excl n -> In n names).
Proof.
  intros H. destruct (multi_glob readdir stat fuel root incl excl) as [l| |] eqn:M; cbn [bind] in H; try discriminate.
  destruct (glob_names_spec l (multi_glob_paths fuel l M)) as (names' & E & Em). assert (names' = names) as -> by congruence. clear E H.
  assert (Inn : forall n, In n names <-> exists f, In f l /\ fp_path f = root ++ slash :: n).
  { intros n. transitivity (In (root ++ slash :: n) (map fp_path l)).
    - rewrite Em, in_map_iff. split; [intros I; exists n; auto|]. intros (x & E & I). apply app_inv_head in E. injection E as <-. exact I.
    - rewrite in_map_iff. split; intros (x & A & B); exists x; auto. }
  split; [|split].
  - intros n I. apply Inn in I as (f & I & Ef). unfold multi_glob in M. eapply collect_sound in M; eauto. destruct M as (d & e & V & Fe & Wf & ->).
    rewrite (after_root _ n Ef) in Wf. pose proof (entry_name readdir proper d e (proj1 Fe)) as (N1 & N2).
    rewrite path_at_path in Ef. assert (Bn : below root n).
    { apply visited_below in V as [->|(Ne & r & -> & Hb)].
      - rewrite root_end in Ef. apply app_inv_head in Ef. injection Ef as <-. now constructor.
      - rewrite Ne, <- app_assoc in Ef. apply app_inv_head in Ef. injection Ef as <-. apply Hb. now constructor. }
    split; auto. apply selected_spec; auto. now apply below_nonempty in Bn.
  - assert (X : NoDup (map (fun n => root ++ slash :: n) names)) by (rewrite <- Em; eapply (collect_once readdir stat proper); exact M). now apply NoDup_map_inv in X.
  - intros U n B Nl S.
    assert (Nn : n <> []) by (now apply below_nonempty in B).
    apply selected_spec in S; auto.
    destruct (below_visited root n B []) as (d & e & V & Fe & Ep); auto.
    { now rewrite app_nil_r. } { constructor. }
    cbn [app] in Ep. apply Inn. exists (path_at d e). split; auto. unfold multi_glob in M. apply (collect_complete readdir stat wd wf root fuel l); auto.
    + intros d1 e1 d2 e2 i V1 V2 D1 D2 R _. apply (U d1 e1 d2 e2 i); auto; [revert V1|revert V2]; apply visited_mono; reflexivity.
    + now rewrite (after_root _ n Ep).
Qed.
Theorem multi_glob_defined fuel : (do l <- multi_glob readdir stat fuel root incl excl; glob_names (length root + 1) l) <> UB.
Proof.
  destruct (multi_glob readdir stat fuel root incl excl) as [l| |] eqn:M; cbn [bind]; try discriminate.
  - destruct (glob_names_spec l (multi_glob_paths fuel l M)) as (names & E & _). congruence.
  - exfalso. unfold multi_glob, collect_files_recursive in M. revert M. generalize (mkWalk [] [root] []). induction fuel as [|fuel IH]; intros w; cbn [M_Walk.walk_loop]; destruct (ws_work w); try discriminate. destruct (readdir s); apply IH.
Qed.
End Glob.

(** The directory of a package. *)
Lemma package_dir w p : no_end (fully_qualified_file w p ($".")) /\ exists d, fully_qualified_file w p ($".") = d ++ $".".
Proof.
  assert (E : exists d, fully_qualified_file w p ($".") = d ++ $".").
  { unfold fully_qualified_file, qualified_file. cbn [starts_with]. change (is_nil (path p)) with (is_nil (path p)).
    match goal with |- exists d, ?a ++ ?b = _ => assert (Y : exists y, b = y ++ $".") end.
    { destruct (path p) as [|c r]; [exists []; reflexivity|]. exists ((c :: r) ++ $"/"). rewrite <- app_assoc. reflexivity. }
    destruct Y as (y & ->). eexists. apply app_assoc. }
  destruct E as (d & E). rewrite E. split; eauto. apply strip_back_id. intros r X. apply app_inj_tail in X as (_ & X). discriminate.
Qed.

(** * BUILD files *)
Section Build.
Variable readdir : str -> option (list dirent).
Variable stat : str -> option (N * bool).
Variable is_link : str -> bool.
Notation dir_entry := (dir_entry readdir stat).
Notation file_entry := (file_entry readdir stat).
Notation build_dir := (build_dir readdir stat is_link).
Lemma link_spec d e i : dir_entry d e i -> (is_symlink is_link (path_at d e) = true <-> link_entry is_link d e).
Proof.
  intros (_ & D). unfold is_symlink, link_entry. assert (E : fp_link (path_at d e) = match d_type e with DtLnk => Some true | DtDir => Some false | _ => None end) by (unfold path_at; destruct (d_type e); reflexivity).
  rewrite E. destruct (d_type e) eqn:T; split; auto.
  - discriminate.
  - intros [X|(X & _)]; discriminate.
  - intros [X|(_ & X)]; [discriminate|exact X].
  - destruct D as [(X & _)|([X|X] & _)]; discriminate.
  - intros [X|(X & _)]; discriminate.
Qed.
Lemma build_pred recursive d e i : dir_entry d e i ->
  (build_dir_predicate is_link recursive (path_at d e) = true <-> recursive = true /\ ~ link_entry is_link d e /\ ~ In (d_name e) [$"_tmp"; $".cache"; $".git"]).
Proof.
  intros D. unfold build_dir_predicate. rewrite path_at_filename, <- (link_spec d e i D).
  destruct recursive; cbn [negb]; [|split; [discriminate|intros ([=] & _)]].
  destruct (is_symlink is_link (path_at d e)); [split; [discriminate|intros (_ & X & _); congruence]|].
  cbn [In]. destruct (str_eqb (d_name e) ($"_tmp")) eqn:E1; [apply str_eqb_eq in E1; split; [discriminate|intros (_ & _ & X); destruct X; auto]|].
  destruct (str_eqb (d_name e) ($".cache")) eqn:E2; [apply str_eqb_eq in E2; split; [discriminate|intros (_ & _ & X); destruct X; auto]|].
  destruct (str_eqb (d_name e) ($".git")) eqn:E3; [apply str_eqb_eq in E3; split; [discriminate|intros (_ & _ & X); destruct X; auto]|].
  rewrite <- not_true_iff_false, str_eqb_eq in E1, E2, E3. split; auto. intros _. split; auto. split; [discriminate|]. intros [X|[X|[X|[]]]]; auto.
Qed.
Lemma build_visited recursive root d : visited readdir stat (build_dir_predicate is_link recursive) root d <-> build_dir recursive root d.
Proof.
  split; induction 1 as [|d e i]; try constructor.
  - apply (build_pred _ _ _ i) in H1 as (R & L & N); auto. econstructor; eauto.
  - apply V_sub with i; auto. apply (build_pred _ _ _ i); auto.
Qed.
Lemma is_build_spec d e : is_build_file (path_at d e) = true <-> d_name e = $"BUILD" \/ d_name e = $"BUILD.bazel".
Proof. unfold is_build_file. now rewrite path_at_filename, orb_true_iff, !str_eqb_eq. Qed.
Definition build_file_of (recursive : bool) (root : str) (f : fpath) : Prop :=
  exists d e, build_dir recursive root d /\ file_entry d e /\ (d_name e = $"BUILD" \/ d_name e = $"BUILD.bazel") /\ f = path_at d e.
Theorem collect_build_spec fuel w pt l : collect_build_files readdir stat is_link fuel w pt = Ret l ->
  (search_dir w pt = None /\ l = []) \/
  exists root, search_dir w pt = Some root /\ (forall f, In f l -> build_file_of (is_recursive pt) root f) /\
    ((is_recursive pt = false \/ forall d e d' e' i, build_dir true root d -> build_dir true root d' -> dir_entry d e i -> dir_entry d' e' i -> real_inode i -> ~ link_entry is_link d e -> path_at d e = path_at d' e') ->
     forall f, build_file_of (is_recursive pt) root f -> In f l).
Proof.
  unfold collect_build_files. destruct (search_dir w pt) as [root|]; [|intros [= <-]; auto]. intros H. right. exists root. split; auto. split.
  - intros f I. eapply collect_sound in H; eauto. destruct H as (d & e & V & Fe & B & ->). exists d, e. split; [now apply build_visited|]. split; auto. split; auto. now apply (is_build_spec d).
  - intros U f (d & e & Bd & Fe & N & ->). eapply collect_complete; eauto.
    + intros d1 e1 d2 e2 i V1 V2 D1 D2 R W. apply (build_pred _ _ _ i) in W as (Rc & L & _); auto. destruct U as [U|U]; [congruence|]. rewrite Rc in *. apply (U d1 e1 d2 e2 i); auto; now apply build_visited.
    + now apply build_visited.
    + now apply (is_build_spec d).
Qed.
End Build.
Lemma search_dir_spec w pt : search_dir w pt =
  match project (tpackage (pat_target pt)) with
  | [] => Some (match path (tpackage (pat_target pt)) with [] => $"." | p => p end)
  | pr => match find_path_by_project w pr with None => None | Some d => Some (d ++ $"/" ++ path (tpackage (pat_target pt))) end
  end.
Proof.
  unfold search_dir, pat_project, pat_path. destruct (project _) as [|c r]; cbn [is_nil].
  - destruct (path _); reflexivity.
  - destruct (find_path_by_project _ _) as [d|]; auto. assert (X : forall x, is_nil (d ++ $"/" ++ x) = false) by (intros; destruct d; reflexivity). now rewrite X.
Qed.
