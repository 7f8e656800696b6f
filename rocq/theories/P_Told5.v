(** What is said in a run. *)
From Coq Require Import Lia Permutation.
From Verif Require Import Base OMap M_Types M_Scanner M_Ast M_Parser M_Query M_Elab M_Workspace M_Project P_Project M_DepGraph S_DepGraph P_DepGraph M_Headers S_Headers P_Headers M_Printer M_Table
  M_Dwyu S_Dwyu P_Dwyu M_Edits M_Highlight S_Run P_Run M_Commands S_Commands P_Commands M_Messages S_Messages P_Messages M_ParseErrors S_ParseErrors M_Told S_Told P_Told P_Told2 P_Told3 P_Told4.

Lemma titled_same kind title {A} (show : A -> str) l : match l with [] => [] | _ => [kind (listing title (map show l))] end = titled kind title (map show l).
Proof. destruct l; reflexivity. Qed.
Lemma no_files fs l : (forall f : str, In f fs -> (fun _ => None : option str) f = None) -> workspace_complaints (fun _ => None) fs l -> l = [].
Proof. intros _. induction 1; [reflexivity|assumption|discriminate..]. Qed.

Section Reading.
Variable is_directory : str -> bool.
Variable can_read : str -> bool.
Variable glob : str -> list str.
Variable read_file : str -> option str.
Variable glob_in : workspace -> package -> list str -> list str -> list str.
Variable collect : workspace -> pattern -> list str.
Variable verbose : nat.
Notation prepare_told := (prepare_told is_directory can_read glob read_file glob_in collect verbose).
Lemma missing_files fs l : (forall f, In f fs -> read_file f = None) -> workspace_complaints read_file fs l -> l = [].
Proof. intros N H. induction H as [|f fs l R _ IH|f fs c s l R|f fs c s e t l R]; [reflexivity|apply IH; intros g I; apply N; now right|rewrite N in R by (now left); discriminate..]. Qed.
Lemma missing_unextracted fs l : (forall f, In f fs -> read_file f = None) -> unextracted is_directory can_read glob read_file fs l -> l = [].
Proof. intros N H. induction H as [|f fs l R _ IH|f fs c s e rs ms ms' R]; [reflexivity|apply IH; intros g I; apply N; now right|rewrite N in R by (now left); discriminate]. Qed.
Hypothesis Plain : forall name content, read_file name = Some content -> plain_lines content.
Theorem prepare_said fl cmd pt r l : prepare_told fl cmd pt = Ret (r, l) ->
  reading_said is_directory can_read glob read_file glob_in collect verbose fl cmd pt r l.
Proof.
  unfold M_Told.prepare_told. intros E. chunk E. assert (L : load_workspace is_directory can_read glob read_file = Ret a) by (rewrite <- load_workspace_plain; exact (plain_ret _ _ _ E0)).
  destruct (load_workspace_spec _ _ _ _ _ L) as (decls & D & No & X). apply (workspace_said _ _ _ _ Plain) in E0 as (la & lb & -> & Wc & Ps).
  destruct a as [w0|].
  2: { chunk E. subst l l1 r. assert (N : forall f, In f workspace_files -> read_file f = None).
    { intros f I. destruct (read_file f) eqn:R; [|reflexivity]. exfalso. destruct No as [No _]. apply No; [|reflexivity]. exists f. split; [exact I|congruence]. }
    rewrite (missing_files _ _ N Wc). assert (Pb : lb = []).
    { destruct Ps as [|old new U1 U2 O1 O2]; [reflexivity|]. exfalso. apply O1. eapply missing_unextracted; [|exact U1]. intros f I. apply N. unfold workspace_files. cbn [In] in *. tauto. }
    subst lb. apply rd_nothing. exact N. }
  specialize (X w0 eq_refl). set (w := augment_from_external_dir is_directory glob w0) in *.
  assert (W : the_workspace is_directory can_read glob read_file w) by (exists decls, w0; auto). clearbody w. clear X D No L.
  change (match cmd with CHasDependents => pattern_always | _ => pt end) with (read_pattern cmd pt) in E. cbv zeta in E.
  chunk E. rename a into pr1. rename E0 into F. chunk E. chunk E0. chunk E. destruct a0 as [g pr]. rename E1 into G. chunk E. subst l l1 l2 l3 l4 l6 r. cbn [app]. rewrite app_nil_r, <- app_assoc. 
  assert (Hf : holds_files w read_file (glob_in w) (if needs_project cmd pt then collect w (read_pattern cmd pt) else []) (pat_project (read_pattern cmd pt)) false pr1).
  { destruct (needs_project cmd pt); [|chunk F; subst pr1; apply empty_holds]. apply fill_spec. rewrite <- fill_plain. exact (plain_ret _ _ _ F). }
  assert (He : holds_files w read_file (glob_in w) (if needs_project cmd pt then collect w (read_pattern cmd pt) else []) (pat_project (read_pattern cmd pt)) (elaborate_for cmd (fl_elaborate fl)) a).
  { destruct (elaborate_for cmd (fl_elaborate fl)); [eapply elaborate_holds; eauto|]. injection E0 as <-. exact Hf. }
  eapply rd_project with (pr0 := a); [exact W|exact Wc|exact Ps| |exact He|].
  { destruct (needs_project cmd pt); [eapply fill_said; [exact (glob_in w)|exact Plain|exact F]|chunk F; assumption]. }
  destruct (wants_graph cmd && (0 <=? depth_for cmd (fl_depth fl))%Z) eqn:Wg.
  2: { chunk G. apply pair_equal_spec in E as [_ ->]. subst l5. now apply gn_none. }
  chunk G. destruct a0 as [g' pr']. chunk G. apply pair_equal_spec in E1 as [-> ->]. subst l5 l1.
  destruct (graph_misses w read_file can_read (glob_in w) a (P_Run.holds_ok _ _ _ _ _ _ _ He) _ _ _ _ _ _ E) as (sy & ts & ps & S1 & S2 & T & P & Sy & _ & ->).
  rewrite <- app_assoc.
  match goal with |- graph_notes _ _ _ _ _ _ _ _ _ _ _ (sy ++ ?m ++ ?e) => set (mm := m); set (ee := e) end.
  assert (Mm : missing_said w read_file can_read (glob_in w) a (read_pattern cmd pt) (depth_for cmd (fl_depth fl)) verbose mm).
  { exists ts, ps. split; [split; [exact S1|exact T]|]. split; [split; [exact S2|exact P]|]. unfold mm. destruct verbose; [reflexivity|]. cbn [Nat.ltb Nat.leb]. now rewrite !titled_same. }
  replace ee with (match verbose with 0 => [] | _ => [NExpanded ($"Dependency graph expanded build file# from initial " ++ print_int (Z.of_nat (length (M_Project.pr_files a))) ++ $" to " ++ print_int (Z.of_nat (length (M_Project.pr_files pr'))) ++ $"; "
     ++ print_int (Z.of_nat (length (depends_on g'))) ++ $" targets and " ++ print_int (Z.of_nat (length (has_dependents g'))) ++ $" that depend on these." ++ [NL])] end).
  2: { unfold ee. destruct verbose; reflexivity. }
  apply gn_some; try assumption; intros Le; apply print_decimal; exact Le.
Qed.
(** The syntax errors. *)
Theorem prepare_syntax fl cmd pt w pr g l : prepare_told fl cmd pt = Ret (Some (w, pr, g), l) ->
  exists notes, syntax_notes pr notes /\ Permutation (filter about_syntax l) notes.
Proof.
  unfold M_Told.prepare_told. intros E. chunk E. assert (Ws := E0). apply (workspace_said _ _ _ _ Plain) in Ws as (la & lb & -> & Wc & Ps).
  destruct a as [w0|]; [|chunk E; discriminate]. set (w1 := augment_from_external_dir is_directory glob w0) in *. clearbody w1.
  change (match cmd with CHasDependents => pattern_always | _ => pt end) with (read_pattern cmd pt) in E. cbv zeta in E.
  chunk E. rename E1 into F. chunk E. chunk E1. chunk E. destruct a1 as [g1 pr1]. rename E2 into G. chunk E.  subst l l1 l2 l3 l4 l6. injection E2 as -> -> ->.
  assert (A : adds read_file empty_project pr1 (l0 ++ l5)).
  { eapply adds_trans; [destruct (needs_project cmd pt); [eapply fill_adds; exact F|chunk F; subst; apply adds_refl]|].
    change l5 with ([] ++ l5). eapply adds_trans; [destruct (elaborate_for cmd (fl_elaborate fl)); [eapply elaborate_adds; exact E1|injection E1 as <-; apply adds_refl]|].
    destruct (wants_graph cmd && _); [|chunk G; apply pair_equal_spec in E as [_ ->]; subst; apply adds_refl].
    chunk G. destruct a1 as [g' pr']. chunk G. apply pair_equal_spec in E2 as [-> ->]. subst. unfold graph_told in E. chunk E. chunk E2. chunk E. destruct a2 as [[[g2 pr2] mi] todo]. chunk E. apply pair_equal_spec in E4 as [-> ->]. subst.
    cbn [app]. rewrite <- app_assoc. eapply adds_trans; [apply (rounds_adds _ _ _ _ _ _ _ _ _ _ _ _ _ _ E3)|].
    apply adds_other. intros n I. destruct (0 <? verbose); [|destruct I]. rewrite !in_app_iff in I. destruct I as [[I|I]|I]; [destruct (is_nil _) in I..|]; try (destruct I as [<-|[]]; reflexivity); destruct I. }
  destruct A as [P R]. exists (notes_of (pr_files pr1)). split.
  - apply notes_said. intros p f I. destruct (R ltac:(intros q h []) p f I) as [R1 R2]. split; [exact (Plain _ _ R1)|exact R2].
  - rewrite !filter_app. cbn [app filter]. rewrite app_nil_r. assert (Z1 : filter about_syntax la = []) by (clear - Wc; induction Wc; auto).
    assert (Z2 : filter about_syntax lb = []) by (destruct Ps; reflexivity). rewrite Z1, Z2. cbn [app]. rewrite <- filter_app. exact P.
Qed.
End Reading.
