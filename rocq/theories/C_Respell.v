(** Property C76: how dependencies are spelled does not matter, and following the renames of
    canonicalize once is enough. *)
From Coq Require Import NArith Bool.
From Verif Require Import Base OMap M_Types S_Labels P_Types M_Scanner M_Ast M_Parser M_Query S_Query M_Elab S_Elab M_Workspace M_Project M_DepGraph S_DepGraph
  M_Headers S_Headers M_Includes M_Dwyu S_Dwyu P_Dwyu S_Converge M_Edits C_Edits M_Walk M_Table M_Highlight M_Commands M_Main M_System S_Relaid S_Respell P_Respell P_Respell2 P_Respell3 P_RespellRun
  T_Parser T_Headers T_Dwyu C_Dwyu C_Converge T_Walk C_Order C_Relaid.
Local Open Scope string_scope.
Local Open Scope list_scope.

(** C76. Commands that do not show dependencies as they are written print the same, with the same exit status, if dependencies
    are written in another way in any number of BUILD files. *)
Theorem C76_commands : forall fuel fs content' fl args out out',
  (forall name, In name (($".bazelrc") :: workspace_files) -> content' name = fs_content fs name) ->
  disk_respelled (reads_for fuel fs fl args) (fs_content fs) content' ->
  (forall cmd, commanded args cmd -> shows_spelling fl cmd = false) ->
  run_in fuel fs fl args = Some (Ret out) -> run_in fuel (with_content fs content') fl args = Some (Ret out') -> out = out'.
Proof. exact run_respelled. Qed.
Print Assumptions C76_commands.
(** dwyu has the same to say, but for the spelling of what is to be removed. *)
Theorem C76_dwyu : forall w read_file ignore_keep pr pr' pt ev ev' n n', project_respelled pr pr' ->
  dependency_edits w read_file ignore_keep pr pt = Ret (ev, n) -> dependency_edits w read_file ignore_keep pr' pt = Ret (ev', n') ->
  Forall2 same_event ev ev' /\ n = n'.
Proof. intros w rf ik pr pr' pt ev ev' n n' R E E'. exact (dwyu_both w rf ik pr pr' pt (project_similar _ _ R) _ _ E E'). Qed.
Print Assumptions C76_dwyu.
(** Doing what canonicalize asks for is to spell dependencies in another way. *)
Theorem C76_follow : forall pr pr' pt evs, canonicalize_edits pr pt = Ret evs -> project_renamed (edits_of_canon evs) pr pr' ->
  (forall key f, In (key, f) (pr_files pr) -> wf_project (project (pf_package f))) -> plain_labels pr ->
  project_respelled pr pr'.
Proof. exact renamed_respelled. Qed.
Print Assumptions C76_follow.
(** There is nothing more to rename then; and the labels that are not understood are those that were not understood before. *)
Theorem C76_once : forall pr pr' pt evs evs', canonicalize_edits pr pt = Ret evs -> project_renamed (edits_of_canon evs) pr pr' ->
  (forall key f, In (key, f) (pr_files pr) -> wf_project (project (pf_package f))) -> plain_labels pr ->
  canonicalize_edits pr' pt = Ret evs' -> edits_of_canon evs' = [] /\ forall l, In (CanonInvalid l) evs' <-> In (CanonInvalid l) evs.
Proof. intros pr pr' pt evs evs' E R W P E'. split; [exact (renamed_twice pr pr' pt evs E R W P evs' E')|exact (renamed_invalid pr pr' pt evs E R W P evs' E')]. Qed.
Print Assumptions C76_once.

(** * Cases *)
(** What is compared, as data. *)
Definition data (r : result) :=
  (v_text (q_rule r), v_text (q_name r), v_text (q_actual r), v_text (q_include_prefix r), v_text (q_strip_include_prefix r), v_text (q_deprecation r), q_alwayslink r, q_testonly r,
   texts (list_of (q_srcs r)), texts (list_of (q_hdrs r)), texts (list_of (q_textual_hdrs r)), texts (list_of (q_public_hdrs r)), texts (list_of (q_includes r)), texts (list_of (q_outs r)),
   option_map label_texts (q_visibility r), load_texts r).
Fixpoint forall2b {A B} (g : A -> B -> bool) (l : list A) (l' : list B) : bool :=
  match l, l' with [], [] => true | a :: l, b :: l' => g a b && forall2b g l l' | _, _ => false end.
Lemma forall2b_spec {A B} (g : A -> B -> bool) (R : A -> B -> Prop) : (forall a b, g a b = true -> R a b) -> forall l l', forall2b g l l' = true -> Forall2 R l l'.
Proof. intros H. induction l as [|a l IH]; intros [|b l'] E; try discriminate E; constructor; cbn [forall2b] in E; apply andb_true_iff in E as [E1 E2]; auto. Qed.
Definition kept_mark (f : parsed_file) (d : view) : option bool := match surrounding_line f d with Ret line => Some (keep_comment line) | _ => None end.
Definition deps_check (g : str -> str -> bool) (f f' : parsed_file) (r r' : result) : bool :=
  forall2b (fun d d' => g (v_text d) (v_text d') && match kept_mark f d, kept_mark f' d' with Some a, Some b => Bool.eqb a b | _, _ => false end)
    (entries (list_of (q_deps r))) (entries (list_of (q_deps r'))).
Lemma rule_check (D : str -> str -> Prop) g f f' r r' : (forall l l', g l l' = true -> D l l') -> data r = data r' -> deps_check g f f' r r' = true -> rule_with D f f' r r'.
Proof.
  intros H E C. unfold data in E. injection E as E1 E2 E3 E4 E5 E6 E7 E8 E9 E10 E11 E12 E13 E14 E15 E16. do 14 (split; [assumption|]). split.
  - unfold same_labels. destruct (q_visibility r), (q_visibility r'); try discriminate E15; [|exact I]. cbn [option_map] in E15. now injection E15.
  - split; [assumption|]. revert C. apply forall2b_spec. intros d d' X. apply andb_true_iff in X as [X1 X2]. split; [apply H, X1|]. unfold kept_mark in X2.
    destruct (surrounding_line f d) as [a| |] eqn:A; try discriminate X2. destruct (surrounding_line f' d') as [b| |] eqn:B; try discriminate X2. apply Bool.eqb_prop in X2.
    rewrite <- (line_marked _ _ _ A), <- (line_marked _ _ _ B), X2. tauto.
Qed.
Definition all_rules (f : parsed_file) : list result := got [] (find_targets_allow_empty [] (pf_ast f)).
Definition reads (f : parsed_file) : bool := match find_targets_allow_empty [] (pf_ast f) with Ret _ => true | _ => false end.
Definition file_check (g : package -> result -> str -> str -> bool) (f f' : parsed_file) : bool :=
  package_eqb (pf_package f) (pf_package f') && str_eqb (pf_name f) (pf_name f') && forallb is_proper (flat_map rule_calls (pf_ast f)) && forallb is_proper (flat_map rule_calls (pf_ast f')) &&
  reads f && reads f' && forall2b (fun r r' => deps_check (g (pf_package f) r) f f' r r') (all_rules f) (all_rules f').
Lemma file_checked (D : package -> result -> str -> str -> Prop) g f f' : (forall p r l l', g p r l l' = true -> D p r l l') -> file_check g f f' = true -> map data (all_rules f) = map data (all_rules f') -> file_with D f f'.
Proof.
  intros H C E. unfold file_check in C. apply andb_true_iff in C as [C C7]. apply andb_true_iff in C as [C C6]. apply andb_true_iff in C as [C C5]. apply andb_true_iff in C as [C C4].
  apply andb_true_iff in C as [C C3]. apply andb_true_iff in C as [C1 C2]. apply package_eqb_eq in C1. apply str_eqb_eq in C2. apply all_proper in C3. apply all_proper in C4. do 4 (split; [assumption|]).
  exists (all_rules f), (all_rules f'). unfold all_rules, reads in *. destruct (find_targets_allow_empty [] (pf_ast f)) as [rs| |]; try discriminate. destruct (find_targets_allow_empty [] (pf_ast f')) as [rs'| |]; try discriminate.
  cbn [got] in *. do 2 (split; [reflexivity|]). set (g1 := g (pf_package f)) in *. assert (H1 : forall r l l', g1 r l l' = true -> D (pf_package f) r l l') by (intros; apply H; assumption). clearbody g1.
  clear C5 C6. revert rs' E C7. clear - H1. induction rs as [|r rs IH]; intros [|r' rs'] E X; try discriminate X; constructor; cbn [forall2b] in X; apply andb_true_iff in X as [X1 X2].
  - apply rule_check with (g := g1 r); auto. exact (f_equal (fun l => hd (data r) l) E).
  - apply IH; [exact (f_equal (@tl _) E)|exact X2].
Qed.
Definition option_target_eqb (a b : option target) : bool := match a, b with Some a, Some b => target_eqb a b | None, None => true | _, _ => false end.
Definition means_check (p : package) (_ : result) (l l' : str) : bool := option_target_eqb (parse_target l p) (parse_target l' p).
Lemma means_checked p r l l' : means_check p r l l' = true -> means_same p r l l'.
Proof. unfold means_check, means_same. destruct (parse_target l p), (parse_target l' p); cbn; try discriminate; auto. intros E. apply target_eqb_eq in E. now subst. Qed.
Definition renames (t : target) (l : str) (e : edit) : bool := match e_request e with KRename => target_eqb (e_target e) t && str_eqb (e_before e) l | _ => false end.
Definition renamed_check (edits : list edit) (p : package) (r : result) (l l' : str) : bool :=
  match qualified_target p (v_text (q_name r)) with
  | Some t => existsb (fun e => renames t l e && str_eqb (e_after e) l') edits || (negb (existsb (renames t l) edits) && str_eqb l' l)
  | None => str_eqb l' l
  end.
Lemma renamed_checked edits p r l l' : renamed_check edits p r l l' = true -> renamed_dep edits p r l l'.
Proof.
  unfold renamed_check, renamed_dep, renamed_in. destruct (qualified_target _ _) as [t|]; [|apply str_eqb_eq]. intros H. apply orb_true_iff in H as [H|H].
  - left. apply existsb_exists in H as ([k t0 b a] & I & H). apply andb_true_iff in H as [H1 H2]. unfold renames in H1. cbn [e_request e_target e_before e_after] in *. destruct k; try discriminate H1.
    apply andb_true_iff in H1 as [H0 H1]. apply target_eqb_eq in H0. apply str_eqb_eq in H1. apply str_eqb_eq in H2. now subst.
  - right. apply andb_true_iff in H as [H1 H2]. apply str_eqb_eq in H2. split; [|exact H2]. intros a I. apply negb_true_iff in H1. assert (X : existsb (renames t l) edits = true); [|congruence].
    apply existsb_exists. exists (mkEdit KRename t l a). split; [exact I|]. unfold renames. cbn [e_request e_target e_before]. apply andb_true_iff. split; [now apply target_eqb_eq|now apply str_eqb_eq].
Qed.

(** A package with labels of all kinds, and the same after doing what is asked for. *)
Definition spelled (deps : list string) : parsed_project := example_project
  (["cc_library(name = ""b"", hdrs = [""b.h""])"; "cc_library("; "  name = ""t"", srcs = [""t.cc""], deps = ["] ++ deps ++ ["])"]).
Definition as_written : parsed_project := spelled ["  ""//p:b"",  # keep"; "  ""//q:q"", "":b"","; "  ""b:c:d"", ""b"""].
Definition as_asked : parsed_project := spelled ["  "":b"",  # keep"; "  ""//q"","; "  "":b"", ""b:c:d"", "":b"""].
Definition asked_for : list edit := [mkEdit KRename (T "//p:t") ($"//p:b") ($":b"); mkEdit KRename (T "//p:t") ($"//q:q") ($"//q"); mkEdit KRename (T "//p:t") ($"b") ($":b")].
Example C76_follow_case :
  bind (canonicalize_edits as_written (got_pattern "//p:all")) (fun evs => Ret (edits_of_canon evs)) = Ret asked_for /\
  project_renamed asked_for as_written as_asked /\
  (forall key f, In (key, f) (pr_files as_written) -> wf_project (project (pf_package f))) /\ plain_labels as_written /\
  canonicalize_edits as_asked (got_pattern "//p:all") = Ret [CanonInvalid ($"b:c:d")].
Proof.
  apply conj; [vm_compute; reflexivity|].
  assert (E : pr_files as_written = [(mkPackage [] ($"p"), example_file as_written)]) by (vm_compute; reflexivity).
  assert (E' : pr_files as_asked = [(mkPackage [] ($"p"), example_file as_asked)]) by (vm_compute; reflexivity).
  apply conj; [|apply conj; [|apply conj]].
  - unfold project_renamed, project_with. rewrite E, E'. constructor; [|constructor]. cbv beta. cbn [fst snd]. apply conj; [reflexivity|].
    apply file_checked with (g := renamed_check asked_for); [apply renamed_checked|vm_compute; reflexivity|vm_compute; reflexivity].
  - rewrite E. intros key f [I|[]]. apply pair_equal_spec in I as [_ <-]. left. vm_compute. reflexivity.
  - intros key f rs r l t I F Ir Il P. rewrite E in I. destruct I as [I|[]]. apply pair_equal_spec in I as [_ <-].
    assert (X : rs = all_rules (example_file as_written)) by (unfold all_rules; rewrite F; reflexivity). subst rs. clear F E E'.
    assert (G : forallb (fun r => forallb (fun l => match parse_target l (pf_package (example_file as_written)) with
      Some t => negb (str_eqb (project (tpackage t)) ($"@")) && negb (is_nil (target_to_string_rel t (pf_package (example_file as_written)))) | None => true end) (texts (list_of (q_deps r)))) (all_rules (example_file as_written)) = true) by (vm_compute; reflexivity).
    rewrite forallb_forall in G. specialize (G r Ir). rewrite forallb_forall in G. specialize (G l Il). rewrite P in G. apply andb_true_iff in G as [G1 G2]. apply negb_true_iff in G1. apply negb_true_iff in G2. split.
    + intros X. rewrite X in G1. discriminate G1.
    + intros X. rewrite X in G2. discriminate G2.
  - vm_compute. reflexivity.
Qed.
Definition t_source (file : str) : option str := if ends_with ($"p/t.cc") file then Some ($"int x;") else None.
Example C76_dwyu_case : project_respelled as_written as_asked /\
  dependency_edits [] t_source true as_written (got_pattern "//p:all") = Ret ([EvRemove (T "//p:t") ($"//p:b"); EvRemove (T "//p:t") ($":b"); EvInvalid (T "//p:t") ($"b:c:d"); EvRemove (T "//p:t") ($"b")], 2) /\
  dependency_edits [] t_source true as_asked (got_pattern "//p:all") = Ret ([EvRemove (T "//p:t") ($":b"); EvRemove (T "//p:t") ($":b"); EvInvalid (T "//p:t") ($"b:c:d"); EvRemove (T "//p:t") ($":b")], 2).
Proof.
  destruct C76_follow_case as (C & R & W & P & _). apply conj; [|vm_compute; repeat split; reflexivity].
  destruct (canonicalize_edits as_written (got_pattern "//p:all")) as [evs| |] eqn:E; [|discriminate C..]. cbn [bind] in C.
  assert (X : edits_of_canon evs = asked_for) by congruence. rewrite <- X in R. exact (C76_follow _ _ _ _ E R W P).
Qed.

(** On disk. *)
Definition written : str := $"cc_library(name = ""x"", deps = [""//a:y"", ""z""])" ++ [NL] ++ $"cc_library(name = ""y"")" ++ [NL] ++ $"cc_library(name = ""z"")".
Definition rewritten : str := $"cc_library(name = ""x"", deps = ["":y"",   "":z""])" ++ [NL] ++ $"cc_library(name = ""y"")" ++ [NL] ++ $"cc_library(name = ""z"")".
Definition parsed (c : str) : list node := match parse c with Ret (stmts, _) => stmts | _ => [] end.
Lemma ret_inv {A} (x y : A) : Ret x = Ret y -> x = y.
Proof. congruence. Qed.
Lemma written_in_a : respelled_in (mkPackage [] ($"a")) ($"./a/BUILD") written rewritten.
Proof.
  intros stmts errs stmts' errs' P P'.
  assert (Q : parse written = Ret (parsed written, [])) by (vm_compute; reflexivity). assert (Q' : parse rewritten = Ret (parsed rewritten, [])) by (vm_compute; reflexivity).
  rewrite Q in P. rewrite Q' in P'. apply ret_inv, pair_equal_spec in P as [<- <-]. apply ret_inv, pair_equal_spec in P' as [<- <-].
  assert (N : forall files, elaborate files (parsed written) = Ret (got [] (elaborate (fun _ _ => []) (parsed written)))) by (intros; vm_compute; reflexivity).
  assert (N' : forall files, elaborate files (parsed rewritten) = Ret (got [] (elaborate (fun _ _ => []) (parsed rewritten)))) by (intros; vm_compute; reflexivity).
  split.
  - right. apply file_checked with (g := means_check); [apply means_checked|vm_compute; reflexivity|vm_compute; reflexivity].
  - intros files ast ast' A A'. rewrite N in A. rewrite N' in A'. apply ret_inv in A as <-. apply ret_inv in A' as <-.
    right. apply file_checked with (g := means_check); [apply means_checked|vm_compute; reflexivity|vm_compute; reflexivity].
Qed.
Definition depends_on_all : list str := [$"depends-on"; $"//..."].
Example C76_commands_case :
  (forall name, In name (($".bazelrc") :: workspace_files) -> lookup (in_a rewritten) name = fs_content (a_only written) name) /\
  disk_respelled (reads_for 9 (a_only written) csv depends_on_all) (fs_content (a_only written)) (lookup (in_a rewritten)) /\
  (forall cmd, commanded depends_on_all cmd -> shows_spelling csv cmd = false) /\
  run_in 9 (a_only written) csv depends_on_all = Some (Ret ($"""library"",""depends-on""" ++ [NL] ++ $"""//a:x"",""//a:y""" ++ [NL] ++ $"""//a:x"",""//a:z""" ++ [NL], ExitSuccess)).
Proof.
  apply conj; [|apply conj; [|apply conj]].
  - intros name I. cbn in I. repeat (destruct I as [<-|I]; [vm_compute; reflexivity|]). destruct I.
  - intros name. cbn [fs_content a_only some_fs]. unfold in_a, lookup. cbn [find fst snd option_map]. match goal with |- context [str_eqb ?x ?y] => destruct (str_eqb x y) eqn:N1 end; cbn [option_map snd]; [left; reflexivity|].
    match goal with |- context [str_eqb ?x ?y] => destruct (str_eqb x y) eqn:N2 end; cbn [option_map snd]; [|exact I]. right. intros p (cmd & pt & w & pr & g & f & (word & rest & A & C) & PT & E & If & Nf).
    injection A as <- <-. vm_compute in C. injection C as <-. destruct PT as [[L _]|(word & arg & A & PP)]; [discriminate L|]. injection A as <- <-.
    assert (X : pt = got_pattern "//...") by (vm_compute in PP; injection PP as <-; vm_compute; reflexivity). subst pt. clear PP.
    assert (Z : (p, name) = (mkPackage [] ($"a"), $"./a/BUILD")).
    { assert (Y : match prepare (is_dir (a_only written)) (fs_can_read (a_only written)) (fs_glob (a_only written)) (fs_content (a_only written)) (globbed_files 9 (a_only written)) (found_build_files 9 (a_only written)) csv CDependsOn (got_pattern "//...") with
        Ret (Some (_, pr, _)) => map (fun e => (fst e, pf_name (snd e))) (pr_files pr) = [(mkPackage [] ($"a"), $"./a/BUILD")] | _ => False end) by (vm_compute; reflexivity).
      rewrite E in Y. apply (in_map (fun e => (fst e, pf_name (snd e)))) in If. rewrite Y in If. cbn [fst snd] in If. rewrite Nf in If. destruct If as [If|[]]. now symmetry. }
    apply pair_equal_spec in Z as [-> ->]. exact written_in_a.
  - intros cmd (word & rest & A & C). injection A as <- <-. vm_compute in C. injection C as <-. reflexivity.
  - vm_compute. reflexivity.
Qed.
