(** What is said while the workspace and the BUILD files are read. *)
From Coq Require Import Lia Permutation.
From Verif Require Import Base OMap M_Types M_Scanner S_Scanner P_Scanner M_Ast M_Parser S_Parser P_Parser M_Query M_Elab M_Workspace M_Project P_Project M_DepGraph S_DepGraph M_Printer M_Table
  S_Run P_Run M_Commands S_Commands P_Commands S_Locations P_Locations C_Locations M_ParseErrors S_ParseErrors P_ErrLocal P_ParseErrors M_Told S_Told P_Told.

Lemma text_said f stmts text : plain_lines (pf_content f) -> parse (pf_content f) = Ret (stmts, pf_errors f) -> file_messages f = Ret text ->
  complaints_text (pf_name f) (pf_content f) (pf_errors f) text.
Proof. intros Pl P E. destruct (messages_said f stmts Pl P) as (ms & H1 & H2). exists ms. split; [exact H1|]. congruence. Qed.
Ltac chunk H := match type of H with
  | tbind _ _ = Ret _ => let a := fresh "a" in let l := fresh "l" in let l' := fresh "l" in let E := fresh "E" in let Q := fresh "Q" in
      apply hear_split in H as (a & l & l' & E & H & Q)
  | silent _ = Ret _ => let Q := fresh "Q" in apply silent_split in H as [H Q]
  | say _ _ = Ret _ => let E := fresh "E" in let Q := fresh "Q" in apply say_split in H as [E Q]
  end.

(** * The workspace *)
Section Workspace.
Variable is_directory : str -> bool.
Variable can_read : str -> bool.
Variable glob : str -> list str.
Variable read_file : str -> option str.
Hypothesis Plain : forall name content, read_file name = Some content -> plain_lines content.
Notation unextracted_in := (unextracted_in is_directory can_read glob).
Notation unextracted := (unextracted is_directory can_read glob read_file).
Notation workspace_complaints := (workspace_complaints read_file).
Lemma unfound_said f rs : plain_lines (pf_content f) -> forall s, rules_unfound is_directory can_read glob f rs = Ret s -> exists ms, unextracted_in f rs ms /\ s = concat ms.
Proof.
  intros Pl. induction rs as [|r rs IH]; intros s E; cbn [rules_unfound] in E; [injection E as <-; exists []; split; [constructor|reflexivity]|].
  destruct (project_dir is_directory can_read glob (v_text (q_name r)) (v_text (q_version r))) as [d|] eqn:D; cbn [bind] in E.
  - destruct (rules_unfound is_directory can_read glob f rs) as [s'| |]; try discriminate. cbn [bind] in E. injection E as <-. destruct (IH _ eq_refl) as (ms & U & ->).
    exists ms. split; [|reflexivity]. eapply ue_there; [apply project_dir_spec; exact D|exact U].
  - destruct (loc f (q_name r)) as [l| |] eqn:L; try discriminate. cbn [bind] in E.
    destruct (rules_unfound is_directory can_read glob f rs) as [s'| |]; try discriminate. cbn [bind] in E. destruct (IH _ eq_refl) as (ms & U & ->).
    exists ((l ++ $" Can't find extracted project '" ++ v_text (q_name r) ++ $"'" ++ [NL]) :: ms). split; [|cbn [concat]; congruence].
    apply ue_not_there; [|now apply loc_spec|exact U]. intros d X. apply project_dir_spec in X. congruence.
Qed.
Lemma load_file_said st ws st' m l : load_file_told is_directory can_read glob read_file st ws = Ret (st', m, l) ->
  workspace_complaints [ws] l /\ exists ms, unextracted [ws] ms /\ m = concat ms.
Proof.
  unfold load_file_told. destruct st as [found w]. intros E. destruct (read_file ws) as [content|] eqn:R.
  2: { chunk E. subst l. apply pair_equal_spec in E0 as [_ ->]. split; [apply wc_missing; [exact R|constructor]|]. exists []. split; [apply un_missing; [exact R|constructor]|reflexivity]. }
  destruct (parse content) as [[ast errs]| |] eqn:P; try discriminate. cbn [bind] in E. cbv zeta in E.
  destruct (file_messages _) as [text| |] eqn:M in E; try discriminate. cbn [bind] in E. destruct (find_targets _ ast) as [rs| |] eqn:F; try discriminate. cbn [bind] in E.
  destruct (rules_unfound _ _ _ _ rs) as [u| |] eqn:U in E; try discriminate. cbn [bind] in E. chunk E. apply pair_equal_spec in E0 as [_ ->]. split.
  - destruct errs as [|e errs]; cbn [is_nil] in Q; subst l.
    + eapply wc_good; [exact R|exact P|constructor].
    + eapply wc_bad; [exact R|exact P|discriminate| |constructor]. eapply (text_said (mkFile (mkPackage [] []) ws content ast (e :: errs))); [eapply Plain; exact R|exact P|exact M].
  - destruct (unfound_said _ rs (Plain _ _ R : plain_lines (pf_content (mkFile (mkPackage [] []) ws content ast errs))) _ U) as (ms & X & ->). exists ms. split; [|reflexivity].
    rewrite <- (app_nil_r ms). eapply un_file; [exact R|exact P|exact F|exact X|constructor].
Qed.
Lemma complaints_app a b l l' : workspace_complaints a l -> workspace_complaints b l' -> workspace_complaints (a ++ b) (l ++ l').
Proof.
  intros H X. induction H as [|f fs l R H IH|f fs c st l R P H IH|f fs c st er t l R P N T H IH]; cbn [app]; [exact X| | |].
  - apply wc_missing; [exact R|exact IH].
  - eapply wc_good; [exact R|exact P|exact IH].
  - eapply wc_bad; [exact R|exact P|exact N|exact T|exact IH].
Qed.
Lemma unextracted_app a b l l' : unextracted a l -> unextracted b l' -> unextracted (a ++ b) (l ++ l').
Proof. intros H X. induction H; cbn [app]; [exact X| |]; [apply un_missing; auto|]. rewrite <- app_assoc. eapply un_file; eauto. Qed.
Lemma load_files_said files : forall st st' m l, load_files_told is_directory can_read glob read_file files st = Ret (st', m, l) ->
  workspace_complaints files l /\ exists ms, unextracted files ms /\ m = concat ms.
Proof.
  induction files as [|ws files IH]; intros st st' m l E; cbn [load_files_told] in E.
  - chunk E. apply pair_equal_spec in E0 as [_ ->]. subst l. split; [constructor|]. exists []. split; [constructor|reflexivity].
  - chunk E. destruct a as [[found w] m1]. chunk E. destruct a as [st2 m2]. chunk E. apply pair_equal_spec in E2 as [_ ->]. subst l l1 l3.
    apply load_file_said in E0 as [A (ms & B & ->)]. apply IH in E1 as [A' (ms' & B' & ->)]. rewrite app_nil_r. split; [exact (complaints_app [ws] files _ _ A A')|].
    exists (ms ++ ms'). split; [exact (unextracted_app [ws] files _ _ B B')|]. now rewrite concat_app.
Qed.
Lemma line_not_nil f rs ms : unextracted_in f rs ms -> Forall (fun m => m <> []) ms.
Proof. induction 1; auto. constructor; auto. intros X. apply app_eq_nil in X as [_ X]. discriminate. Qed.
Lemma lines_not_nil fs ms : unextracted fs ms -> Forall (fun m => m <> []) ms.
Proof. induction 1; auto. apply Forall_app. split; [eapply line_not_nil; eauto|auto]. Qed.
Lemma concat_nil (ms : list str) : Forall (fun m => m <> []) ms -> is_nil (concat ms) = match ms with [] => true | _ => false end.
Proof. intros H. destruct H as [|m ms H _]; [reflexivity|]. cbn [concat]. destruct m; [contradiction|reflexivity]. Qed.
Theorem workspace_said r l : load_workspace_told is_directory can_read glob read_file = Ret (r, l) ->
  exists l1 l2, l = l1 ++ l2 /\ workspace_complaints workspace_files l1 /\ projects_said is_directory can_read glob read_file l2.
Proof.
  unfold load_workspace_told. intros E. chunk E. destruct a as [st m1]. chunk E. destruct a as [[found w] m2]. chunk E. subst l l1 l3.
  apply load_files_said in E0 as [A (ms & B & ->)]. apply load_files_said in E1 as [A' (ms' & B' & ->)].
  exists (l0 ++ l2). eexists. split; [rewrite app_assoc; reflexivity|]. split; [exact (complaints_app _ _ _ _ A A')|].
  rewrite (concat_nil ms), (concat_nil ms') by (eapply lines_not_nil; eauto).
  destruct ms as [|m ms]; cbn [negb andb]; [eapply ps_nothing; [exact B|exact B'|auto]|].
  destruct ms' as [|m' ms']; cbn [negb andb]; [eapply ps_nothing; [exact B|exact B'|auto]|].
  exact (ps_both _ _ _ _ _ _ B B' ltac:(discriminate) ltac:(discriminate)).
Qed.
End Workspace.

(** * The files of the pattern *)
Section Files.
Variable w : workspace.
Variable read_file : str -> option str.
Variable glob_in : package -> list str -> list str -> list str.
Hypothesis Plain : forall name content, read_file name = Some content -> plain_lines content.
Notation holds := (holds_files w read_file glob_in).
Lemma holds_ok names proj pr : holds names proj false pr -> project_ok pr.
Proof. intros [S H]. split; [exact S|]. intros p f I. apply H in I as (n & c & st & er & ast & _ & _ & _ & ->). reflexivity. Qed.
Lemma add_file_in_said proj before x pr pr' l : holds before proj false pr -> add_file_in_told w read_file pr x proj = Ret (pr', l) ->
  forall rest notes, files_said w read_file proj (before ++ [x]) rest notes -> files_said w read_file proj before (x :: rest) (l ++ notes).
Proof.
  intros H E rest notes F. unfold add_file_in_told in E. chunk E. chunk E0. subst l0. cbn [app] in Q. subst l1. destruct a as [p|].
  2: { chunk E. subst l. apply fs_no_package; auto. }
  chunk E. destruct a as [pr1 f1]. chunk E. subst l l1. rewrite app_nil_r. clear pr' E2. unfold add_file_told in E1. destruct (read_file x) as [content|] eqn:R.
  2: { chunk E1. subst l0. eapply fs_unreadable; eauto. }
  chunk E1. destruct a as [pr2 f2]. chunk E1. subst l0 l1. rewrite app_nil_r. clear pr1 f1 E2. unfold add_content_told in E.
  destruct H as [S H]. destruct (find_parsed pr p) as [f|] eqn:Fp.
  - apply map_find_in in Fp. apply H in Fp as (n & c & st & er & ast & Ff & _ & _ & ->). chunk E. subst l. eapply fs_again; eauto.
  - assert (N : forall y other, ~ file_for w read_file before proj p y other).
    { intros y c Ff. destruct (parse_total c) as (st' & er' & Pc). assert (I : In (p, mkFile p y c st' er') (pr_files pr)) by (apply H; exists y, c, st', er', st'; auto).
      apply (msorted_find _ _ _ S) in I. unfold find_parsed in Fp. congruence. }
    destruct (parse content) as [[ast errs]| |] eqn:P; try discriminate. cbn [bind] in E. cbv zeta in E. destruct (file_messages _) as [text| |] eqn:M in E; try discriminate. cbn [bind] in E.
    chunk E. clear E1. destruct errs as [|e errs]; cbn [is_nil] in Q; subst l; [eapply fs_good; eauto|].
    eapply fs_bad; [exact E0|exact R|exact N|exact P|discriminate| |exact F]. eapply (text_said (mkFile p x content ast (e :: errs))); [eapply Plain; exact R|exact P|exact M].
Qed.
Lemma add_files_said proj files : forall before pr pr' l, holds before proj false pr -> add_files_told w read_file pr files proj = Ret (pr', l) ->
  files_said w read_file proj before files l.
Proof.
  induction files as [|x files IH]; intros before pr pr' l H E; cbn [add_files_told] in E; [chunk E; subst l; constructor|].
  chunk E. subst l. eapply add_file_in_said; [exact H|exact E0|]. eapply IH; [|exact E].
  eapply add_file_spec; [exact H|]. rewrite <- add_file_in_plain. eapply plain_ret. exact E0.
Qed.
Lemma holds_empty proj : holds [] proj false empty_project.
Proof.
  split; [exact I|]. intros p f. split; [intros []|]. intros (n & c & st & er & ast & (a & b & X & _) & _). destruct a; discriminate.
Qed.
Theorem fill_said collect pt pr l : fill_told w read_file collect empty_project pt = Ret (pr, l) -> pattern_said w read_file (collect pt) pt l.
Proof.
  unfold fill_told. cbv zeta. intros E. chunk E. chunk E0. subst l0. chunk E. chunk E. subst l l1 l2. unfold pattern_said. eexists. split; [eapply add_files_said; [apply holds_empty|exact E0]|].
  f_equal; [|f_equal; destruct (collect pt); reflexivity]. destruct (pat_project pt) as [|c s]; [reflexivity|]. cbn [is_nil negb andb]. destruct (find_path_by_project w (c :: s)); reflexivity.
Qed.
End Files.
