(** Property C57: where the texts of an elaborated file are reported to be; and what that
    means for the reports of C60. *)
From Verif Require Import Base OMap M_Types M_Scanner M_Ast M_Parser S_Parser P_Parser M_Query S_Query M_Elab S_Elab P_Elab S_Locations P_Locations
  M_Workspace M_Project M_DepGraph S_Headers P_Headers M_Dwyu S_Dwyu P_Dwyu T_Parser.
Local Open Scope string_scope.
Local Open Scope list_scope.

(** C57. A text of the elaborated file is a text of the file, where it was; or put together by
    a '+' of the file and reported there; or found by a glob() of the file and reported there. *)
Theorem C57_reported : forall multi_glob content stmts errs out n v,
  parse content = Ret (stmts, errs) -> elaborate multi_glob stmts = Ret out ->
  In n out -> In v (views n) -> reported_at stmts v.
Proof.
  intros mg content stmts errs out n v P E I V.
  assert (T : Forall (tracked stmts) out).
  { apply (tracked_elaborate mg stmts); auto. intros id Hid. destruct (parse_trees _ _ _ P) as [L _].
    apply in_flat_map in Hid as (m & Hm & Hid). rewrite Forall_forall in L. destruct (L m Hm) as [Lv _].
    rewrite Forall_forall in Lv. apply idents_views in Hid. specialize (Lv id Hid). unfold view_in in Lv.
    destruct Lv as (off & Ho & _). eauto. }
  rewrite Forall_forall in T. destruct (T n I) as (A & _). rewrite Forall_forall in A. auto.
Qed.
Print Assumptions C57_reported.
(** In any case that is a place within the file. *)
Theorem C57_within : forall multi_glob content stmts errs out n v,
  parse content = Ret (stmts, errs) -> elaborate multi_glob stmts = Ret out ->
  In n out -> In v (views n) -> within content v.
Proof.
  intros mg content stmts errs out n v P E I V. apply elaborated_within with (stmts := stmts).
  - apply (parse_trees _ _ _ P).
  - eapply C57_reported; eauto.
Qed.
Print Assumptions C57_within.
(** The same goes for all that queries hand out. *)
Theorem C57_queries : forall multi_glob content stmts errs out interest allow_empty rs r v,
  parse content = Ret (stmts, errs) -> elaborate multi_glob stmts = Ret out ->
  find_targets_in interest allow_empty out = Ret rs -> In r rs -> In v (result_views r) ->
  v = no_view \/ reported_at stmts v.
Proof.
  intros mg content stmts errs out i a rs r v P E F I V.
  assert (H := find_targets_views (fun v => v = no_view \/ reported_at stmts v) (or_introl eq_refl) i a out rs).
  assert (Forall (fun n => Forall (fun v => v = no_view \/ reported_at stmts v) (views n)) out) as Fo.
  { rewrite Forall_forall. intros n Hn. rewrite Forall_forall. intros x Hx. right. eapply C57_reported; eauto. }
  specialize (H Fo F). rewrite Forall_forall in H. specialize (H r I). rewrite Forall_forall in H. auto.
Qed.
Print Assumptions C57_queries.

Definition two_files (include exclude : list str) : list str := [$"x.cc"; $"y.cc"].
Definition located_text : str := nl ["P = ""a"" + ""b"""; "cc_library(name = P, srcs = glob([""*.cc""]) + [""z.cc""], deps = ["":d""])"].
Example C57_case :
  match parse located_text with
  | Ret (stmts, []) =>
      match elaborate two_files stmts with
      | Ret out => match find_targets [] out with
          | Ret [r] => q_name r = mkView ($"ab") (Synth 8 1) /\ nth_error located_text 8 = Some "+"%char /\
              map views (list_of (q_srcs r)) = [[mkView ($"x.cc") (Synth 42 4)]; [mkView ($"y.cc") (Synth 42 4)]; [mkView ($"z.cc") (InFile 61)]] /\
              firstn 4 (skipn 42 located_text) = $"glob" /\ firstn 4 (skipn 61 located_text) = $"z.cc"
          | _ => False end
      | _ => False end
  | _ => False end.
Proof. vm_compute. auto 10. Qed.

(** C60. If every file parsed without error, and no function has the name of a variable, then
    the report is possible. *)
Definition clean_file (f : parsed_file) : Prop :=
  exists stmts, parse (pf_content f) = Ret (stmts, []) /\
    (forall x, In x (flat_map called stmts) -> ~ In x (flat_map assigned stmts)) /\
    (pf_ast f = stmts \/ exists multi_glob, elaborate multi_glob stmts = Ret (pf_ast f)).
Lemma clean_sound f : clean_file f -> Forall sound (pf_ast f).
Proof.
  intros (stmts & P & H & [->|[mg E]]).
  - eapply Forall_impl; [|exact (proj2 (parse_trees _ _ _ P) eq_refl)]. exact whole_statement_sound.
  - destruct (elaborate_defined mg stmts (proj2 (parse_trees _ _ _ P) eq_refl) H) as (out & E' & S). congruence.
Qed.
Lemma clean_within f n v : clean_file f -> In n (pf_ast f) -> In v (views n) -> within (pf_content f) v.
Proof.
  intros (stmts & P & _ & [A|[mg E]]) I V; [|eapply C57_within; eauto]. subst stmts.
  apply elaborated_within with (stmts := pf_ast f); [apply (parse_trees _ _ _ P)|]. apply at_place. apply in_flat_map. eauto.
Qed.
Theorem C60_possible : forall w read_file ignore_keep pr pt, (forall p f, In (p, f) (pr_files pr) -> clean_file f) ->
  exists r, dependency_edits w read_file ignore_keep pr pt = Ret r.
Proof.
  intros w rf ik pr pt C. apply dependency_edits_defined.
  - intros p f I. eapply clean_sound; eauto.
  - intros p f rs r dep I F Ir Id off Ho.
    assert (H := find_targets_views (within (pf_content f)) ltac:(cbn; split; [lia|reflexivity]) edited_kinds false (pf_ast f) rs).
    assert (Fo : Forall (fun n => Forall (within (pf_content f)) (views n)) (pf_ast f)).
    { rewrite Forall_forall. intros n Hn. rewrite Forall_forall. intros x Hx. eapply clean_within; eauto. }
    specialize (H Fo F). rewrite Forall_forall in H. specialize (H r Ir). rewrite Forall_forall in H.
    specialize (H dep). unfold within in H. rewrite Ho in H. apply H.
    assert (In dep (list_views (q_deps r))).
    { unfold entries in Id. apply in_flat_map in Id as (n & Hn & Hd). unfold list_of in Hn. unfold list_views.
      destruct (q_deps r) as [l|]; [|contradiction]. apply in_flat_map. exists n. split; auto.
      destruct n; cbn in Hd; try contradiction; destruct (is_nil _); try contradiction; destruct Hd as [<-|[]]; left; auto. }
    unfold result_views. rewrite !in_app_iff. auto 10.
Qed.
Print Assumptions C60_possible.
Example C60_possible_case : forall p, clean_file (mkFile p ($"BUILD") located_text
  (match parse located_text with Ret (stmts, []) => match elaborate two_files stmts with Ret out => out | _ => [] end | _ => [] end) []).
Proof.
  intros p. unfold clean_file. cbn [pf_content pf_ast]. destruct (parse located_text) as [[stmts errs]| |] eqn:P; [|vm_compute in P; discriminate..].
  vm_compute in P. injection P as <- <-. eexists. split; [reflexivity|]. split.
  - vm_compute. intuition (try discriminate; subst; discriminate).
  - right. exists two_files. vm_compute. reflexivity.
Qed.
