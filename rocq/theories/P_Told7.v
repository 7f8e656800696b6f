(** More about all that is said in a run. *)
From Coq Require Import Lia Permutation.
From Verif Require Import Base OMap M_Types M_Scanner M_Ast M_Parser M_Query M_Elab M_Workspace M_Project P_Project M_DepGraph S_DepGraph P_DepGraph M_Headers S_Headers P_Headers M_Printer M_Table
  M_Dwyu S_Dwyu P_Dwyu M_Edits M_Highlight S_Run P_Run M_Commands S_Commands P_Commands M_Main S_Main P_Main M_Messages S_Messages P_Messages P_Messages2 P_Messages3 P_Messages4 M_ParseErrors S_ParseErrors
  M_Told S_Told P_Told P_Told2 P_Told3 P_Told4 P_Told5 P_Told6.

(** * Each file *)
Lemma each_file w read_file proj before files notes : files_said w read_file proj before files notes ->
  forall x, In x files -> fine_file w read_file proj x \/ exists n, In n notes /\ about_file x n.
Proof.
  induction 1 as [|b x l notes P _ IH|b x p l notes P R _ IH|b x p c y o l notes P R F _ IH|b x p c s l notes P R N Pc _ IH|b x p c s e t l notes P R N Pc Ne T _ IH]; intros z I; [destruct I|..].
  all: destruct I as [<-|I]; [|destruct (IH z I) as [H|(n & J & A)]; [now left|right; exists n; split; [try (right; exact J); exact J|exact A]]].
  1,2,3,5: right; eexists; split; [left; reflexivity|reflexivity].
  left. exists p, c, s. auto.
Qed.
Lemma no_file_note w read_file proj before files notes : files_said w read_file proj before files notes -> Forall (fun n => about_refusal n = false) notes.
Proof. induction 1; auto; constructor; auto. Qed.

(** * Failure *)
Lemma none_refused l : Forall (fun n => about_refusal n = false) l -> existsb about_refusal l = false.
Proof. induction 1 as [|n l H _ IH]; [reflexivity|]. cbn [existsb]. now rewrite H, IH. Qed.
Lemma filter_none (g : note -> bool) l : filter g l = [] -> existsb g l = false.
Proof. induction l as [|x l IH]; [reflexivity|]. cbn [filter existsb]. destruct (g x); [discriminate|auto]. Qed.
Lemma perform_status read_file compilation_flags fl cmd pt w pr g out st : perform read_file compilation_flags fl cmd pt w pr g = Ret (out, st) -> st = ExitSuccess \/ st = ExitFindings.
Proof.
  unfold perform. cbv zeta. destruct cmd.
  all: try (match goal with |- bind ?x _ = _ -> _ => destruct x as [o| |]; [|discriminate..]; cbn [bind]; intros H; apply ret_eq, pair_equal_spec in H as [_ <-]; left; reflexivity end).
  - destruct (_ || _); [destruct (print_project _ _ _ _ _); [|discriminate..]; cbn [bind]|]; intros H; apply ret_eq, pair_equal_spec in H as [_ <-]; left; reflexivity.
  - destruct (dependency_edits _ _ _ _ _) as [[evs n]| |]; [|discriminate..]. cbn [bind]. intros H. apply ret_eq, pair_equal_spec in H as [_ <-]. destruct (_ <? _); auto.
  - destruct (canonicalize_edits _ _) as [evs| |]; [|discriminate..]. cbn [bind]. intros H. apply ret_eq, pair_equal_spec in H as [_ <-]. destruct (_ <? _); auto.
Qed.
Lemma syntax_not_refusal l : Forall (fun n => about_syntax n = true) l -> Forall (fun n => about_refusal n = false) l.
Proof. apply Forall_impl. intros []; cbn; congruence. Qed.
Lemma titled_not kind title l : (forall s, about_refusal (kind s) = false) -> Forall (fun n => about_refusal n = false) (titled kind title l).
Proof. intros H. unfold titled. destruct l; [constructor|]. constructor; [apply H|constructor]. Qed.
Lemma complaints_not read_file fs l : workspace_complaints read_file fs l -> Forall (fun n => about_refusal n = false) l.
Proof. induction 1; auto; constructor; auto. Qed.
Lemma some_same {A} (a b : A) : Some a = Some b -> a = b.
Proof. congruence. Qed.
Lemma part_map {A B} (f : A -> B) l l' : part_of l l' -> part_of (map f l) (map f l').
Proof. induction 1; cbn [map]; constructor; auto. Qed.
Section Run.
Variable is_directory : str -> bool.
Variable can_read : str -> bool.
Variable glob : str -> list str.
Variable read_file : str -> option str.
Variable glob_in : workspace -> package -> list str -> list str -> list str.
Variable collect : workspace -> pattern -> list str.
Variable compilation_flags : workspace -> parsed_project -> pattern -> bool -> outcome str.
Variable texts : library_texts.
Notation reading_said := (reading_said is_directory can_read glob read_file glob_in collect).
Notation run_cli_told := (run_cli_told is_directory can_read glob read_file glob_in collect compilation_flags).
Notation run_command_told := (run_command_told is_directory can_read glob read_file glob_in collect compilation_flags).
Notation prepare_told := (prepare_told is_directory can_read glob read_file glob_in collect).
Lemma reading_refusal verbose fl cmd pt r l : reading_said verbose fl cmd pt r l -> existsb about_refusal l = match r with None => true | Some _ => false end.
Proof.
  destruct 1 as [N|w pr0 pr g l1 l2 l3 l4 W Wc Ps Pt H G]; [reflexivity|]. apply none_refused. repeat (apply Forall_app; split).
  - eapply complaints_not; eauto.
  - destruct Ps; repeat constructor.
  - destruct (needs_project cmd pt); [|subst l3; constructor]. destruct Pt as (l & F & ->). repeat (apply Forall_app; split).
    + destruct (pat_project _); [constructor|]. cbv zeta. destruct (find_path_by_project w (a :: s)); repeat constructor.
    + eapply no_file_note; eauto.
    + destruct (collect w _); repeat constructor.
  - destruct G as [|sy mi a b c d Wg Sy (ts & ps & _ & _ & ->)]; [constructor|]. apply Forall_app. split; [now apply syntax_not_refusal|].
    destruct verbose; [constructor|]. repeat (apply Forall_app; split); [now apply titled_not..|repeat constructor].
Qed.
Hypothesis Plain : forall name content, read_file name = Some content -> plain_lines content.
Theorem failure_said verbose fl args out st notes : run_cli_told verbose texts fl args = Some (Ret (out, st, notes)) ->
  (st = ExitFailure \/ st = ExitClarification <-> exists n, In n notes /\ about_refusal n = true).
Proof.
  intros E. rewrite <- existsb_exists. destruct (run_said _ _ _ _ _ _ _ _ _ Plain _ _ _ _ _ E) as [[R ->]|(cmd & pt & r & l1 & l2 & A & -> & Rd & H)].
  - assert (X : existsb about_refusal notes = true) by (destruct R; cbn [existsb about_refusal]; auto; rewrite existsb_app; cbn; apply orb_true_r).
    rewrite X. split; [auto|]. intros _. destruct R; auto.
  - rewrite existsb_app, (reading_refusal _ _ _ _ _ _ Rd). destruct r as [[[w pr] g]|]; [|destruct H as (-> & _ & ->); cbn; tauto].
    destruct H as (W & P & _). apply perform_status in P. destruct (work_about _ _ _ _ _ _ _ _ _ W) as [_ F]. apply filter_none in F. rewrite F. cbn [orb].
    split; [intros [->| ->]; destruct P; discriminate|discriminate].
Qed.
Theorem files_said_of verbose fl args out st notes : run_cli_told verbose texts fl args = Some (Ret (out, st, notes)) ->
  refused texts args notes st \/
  exists cmd pt, asked args cmd pt /\
    ((forall f, In f workspace_files -> read_file f = None) \/
     exists w, the_workspace is_directory can_read glob read_file w /\
      (needs_project cmd pt = true ->
       (forall x, In x (collect w (read_pattern cmd pt)) -> fine_file w read_file (pat_project (read_pattern cmd pt)) x \/ exists n, In n notes /\ about_file x n) /\
       (collect w (read_pattern cmd pt) = [] -> exists s, In (NNoBuildFiles s) notes))).
Proof.
  intros E. destruct (run_said _ _ _ _ _ _ _ _ _ Plain _ _ _ _ _ E) as [[R _]|(cmd & pt & r & l1 & l2 & A & -> & Rd & H)]; [now left|].
  right. exists cmd, pt. split; [exact A|]. destruct Rd as [N|w pr0 pr g k1 k2 k3 k4 W Wc Ps Pt Hf G]; [now left|]. right. exists w. split; [exact W|]. intros Np. rewrite Np in Pt. destruct Pt as (l & F & ->). split.
  - intros x I. destruct (each_file _ _ _ _ _ _ F x I) as [Fi|(n & J & B)]; [now left|]. right. exists n. split; [|exact B]. rewrite !in_app_iff. auto 8.
  - intros Ce. rewrite Ce. eexists. rewrite !in_app_iff. left. right. right. left. right. right. left. reflexivity.
Qed.

(** * More -v *)
Lemma same_result {A} (x : outcome A) a b : x = Ret a -> x = Ret b -> b = a.
Proof. congruence. Qed.
Ltac same A B := let E := fresh in assert (E := same_result _ _ _ A B); first [apply pair_equal_spec in E as [-> ->]|subst]; clear B.
Lemma graph_more w cr gi v v' pt depth pr r r' l l' : v <= v' -> graph_told w read_file cr gi v pt depth pr = Ret (r, l) -> graph_told w read_file cr gi v' pt depth pr = Ret (r', l') ->
  r' = r /\ part_of l l'.
Proof.
  intros V E E'. unfold graph_told in E, E'. chunk E. chunk E'. same E0 E1. chunk E. chunk E'. same E1 E2. destruct a0 as [[[g pr'] mi] todo]. chunk E. chunk E'. subst.
  split; [reflexivity|]. apply part_app; [apply part_refl|]. apply part_app; [apply part_refl|]. destruct (Nat.ltb_spec 0 v); [|apply part_empty].
  destruct (Nat.ltb_spec 0 v'); [apply part_refl|lia].
Qed.
Lemma prepare_more v v' fl cmd pt r r' l l' : v <= v' -> prepare_told v fl cmd pt = Ret (r, l) -> prepare_told v' fl cmd pt = Ret (r', l') -> r' = r /\ part_of l l'.
Proof.
  intros V E E'. unfold M_Told.prepare_told in E, E'. chunk E. chunk E'. same E0 E1. destruct a as [w|]; [|chunk E; chunk E'; subst; split; [reflexivity|apply part_refl]].
  cbv zeta in E, E'. chunk E. chunk E'. same E1 E2. chunk E. chunk E'. same E2 E3. chunk E. chunk E'. destruct a1 as [g pr1], a2 as [g' pr1']. chunk E. chunk E'.
  match type of E3 with _ = Ret (_, ?x) => match type of E4 with _ = Ret (_, ?y) => assert (G : (g', pr1') = (g, pr1) /\ part_of x y) end end.
  { destruct (wants_graph cmd && _); [|assert (X := same_result _ _ _ E3 E4); apply pair_equal_spec in X as [X ->]; split; [exact X|apply part_refl]].
    chunk E3. chunk E4. rename E6 into EA. rename E7 into EB. destruct a1 as [g1 p1], a2 as [g2 p2]. destruct (graph_more _ _ _ _ _ _ _ _ _ _ _ _ V EA EB) as [Eq P]. injection Eq as -> ->. apply say_split in E3 as [X1 X2]. apply say_split in E4 as [Y1 Y2]. apply pair_equal_spec in X1 as [-> ->]. apply pair_equal_spec in Y1 as [-> ->].
    subst. split; [reflexivity|]. apply part_app; [exact P|]. destruct (Nat.ltb_spec 0 v); [|apply part_empty]. destruct (Nat.ltb_spec 0 v'); [apply part_refl|lia]. }
  destruct G as [G P]. apply pair_equal_spec in G as [-> ->]. subst. split; [reflexivity|]. repeat (apply part_app; [apply part_refl|]). apply part_app; [exact P|apply part_refl].
Qed.
Lemma perform_more v v' fl cmd pt w pr g r r' l l' : v <= v' -> perform_told read_file compilation_flags v texts fl cmd pt w pr g = Ret (r, l) ->
  perform_told read_file compilation_flags v' texts fl cmd pt w pr g = Ret (r', l') -> r' = r /\ part_of l l'.
Proof.
  intros V. assert (Same : forall x : told (str * cli_status), x = Ret (r, l) -> x = Ret (r', l') -> r' = r /\ part_of l l').
  { intros x A B. assert (X := same_result _ _ _ A B). apply pair_equal_spec in X as [-> ->]. split; [reflexivity|apply part_refl]. }
  unfold perform_told. destruct cmd; lazymatch goal with |- context [dependency_edits_told] => idtac | _ => apply Same end.
  intros A B. step A as [[evs n] log] by S. step B as [[evs' n'] log'] by S'. destruct (told_more _ _ _ _ _ _ _ _ _ _ _ _ _ _ V S S') as (-> & -> & P).
  cbv zeta in A, B. apply say_split in A as [-> ->]. apply say_split in B as [-> ->]. split; [reflexivity|now apply part_map].
Qed.
Theorem run_more v v' fl args r r' l l' : v <= v' -> run_cli_told v texts fl args = Some (Ret (r, l)) -> run_cli_told v' texts fl args = Some (Ret (r', l')) -> r' = r /\ part_of l l'.
Proof.
  intros V. assert (Same : forall x : option (told (str * cli_status)), x = Some (Ret (r, l)) -> x = Some (Ret (r', l')) -> r' = r /\ part_of l l').
  { intros x A B. rewrite A in B. assert (Y := same_result (Ret (r, l)) _ _ eq_refl (some_same _ _ B)). apply pair_equal_spec in Y as [-> ->]. split; [reflexivity|apply part_refl]. }
  assert (C : forall cmd pt, Some (run_command_told v texts fl cmd pt) = Some (Ret (r, l)) -> Some (run_command_told v' texts fl cmd pt) = Some (Ret (r', l')) -> r' = r /\ part_of l l').
  { intros cmd pt A B. apply some_same in A. apply some_same in B. unfold M_Told.run_command_told in A, B. apply hear_split in A as (a & la & lb & A & A' & ->). apply hear_split in B as (b & la' & lb' & B & B' & ->).
    destruct (prepare_more _ _ _ _ _ _ _ _ _ V A B) as [-> P]. assert (Q : r' = r /\ part_of lb lb').
    { destruct a as [[[w pr] g]|]; [exact (perform_more _ _ _ _ _ _ _ _ _ _ _ _ V A' B')|]. apply say_split in A' as [-> ->]. apply say_split in B' as [-> ->]. split; [reflexivity|apply part_refl]. }
    destruct Q as [-> Q]. split; [reflexivity|]. now apply part_app. }
  unfold M_Told.run_cli_told. cbv zeta. destruct args as [|word args]; [apply Same|]. destruct (find_command command_names word) as [cmd| |]; [|apply Same..].
  destruct args as [|arg more]; [destruct (_ && _); [apply Same|apply C]|]. destruct (parse_pattern arg) as [pt| |]; [|apply Same..]. destruct more; [destruct (_ && _); [apply Same|apply C]|apply Same].
Qed.
End Run.
