(** Proofs for C73: the program comes to an end and does not crash. *)
From Coq Require Import NArith.
From Verif Require Import Base OMap M_Types M_Scanner S_Scanner P_Scanner M_Ast M_Parser S_Parser P_Parser M_Query S_Query P_Query P_Shape M_Elab S_Elab P_Elab S_Locations P_Locations
  M_Workspace S_Workspace P_Workspace M_Project M_DepGraph S_DepGraph P_DepGraph P_Project M_Headers P_Headers M_Dwyu P_Dwyu M_Edits M_Table S_Table P_Table M_Printer M_Highlight S_Print P_Print
  M_Walk S_Walk P_Walk P_WalkPaths P_GlobFiles M_CompDb S_CompDb P_CompDb2 S_Run P_Run M_Commands S_Commands P_Commands M_Main M_System S_Order P_Order C_Table C_Locations C_Commands C_Print S_Total.

(** * Printing *)
(** Each call has a name. *)
Fixpoint named_calls (n : node) : bool :=
  match n with
  | NNull | NStr _ _ _ | NInt _ _ | NId _ => true
  | NUnary _ n => named_calls n
  | NBin _ l r _ => named_calls l && named_calls r
  | NList _ l => forallb named_calls l
  | NComp _ f => named_calls f
  | NTernary c p n => named_calls c && named_calls p && named_calls n
  | NAssign l r _ => named_calls l && named_calls r
  | NCall i a => match i with NId _ => true | _ => false end && named_calls a
  end.
Lemma maybe_ends find color s : usable_grep find -> exists a h, maybe_highlight find color s = Ret (a, h).
Proof.
  unfold maybe_highlight. destruct find as [find|]; [|eauto]. cbn [usable_grep]. intros U.
  assert (K : forall n s, length s <= n -> exists a h, highlight_loop color find n s = Ret (a, h)).
  { induction n as [|n IH]; intros t L; cbn [highlight_loop]; unfold find_mark; destruct (find t) as [[[i l] c]|] eqn:F; cbn [option_map fst snd m_consumed m_start m_len]; eauto.
    - apply U in F. lia.
    - apply U in F. destruct (IH (skipn c t)) as (a & h & ->); [rewrite skipn_length; lia|]. cbn [bind]. eauto. }
  apply K. lia.
Qed.
Lemma hprint_ends find color : usable_grep find -> forall n i, named_calls n = true -> exists a h, hprint find color i n = Ret (a, h).
Proof.
  intros U. induction n using node_ind'; intros i; cbn [named_calls hprint]; intros N; rewrite ?andb_true_iff in N.
  - eauto.
  - unfold hprint_string. destruct (maybe_ends find color (v_text v) U) as (a & h & ->). cbn [bind]. eauto.
  - eauto.
  - now apply maybe_ends.
  - destruct (IHn i N) as (a & h & ->). cbn [bind]. eauto.
  - destruct N as [N1 N2]. destruct (IHn1 i N1) as (a & h & ->). destruct (IHn2 i N2) as (b & h' & ->). cbn [bind]. eauto.
  - assert (K : forall j ml first, exists a h, hprint_elems (hprint find color) j ml first elems = Ret (a, h)).
    { intros j ml. induction H as [|x l Hx Hl IH]; intros first; cbn [hprint_elems]; [eauto|]. cbn [forallb] in N. apply andb_true_iff in N as [N1 N2].
      assert (E : exists a h, (match x with NNull => Ret ($"NIL", false) | _ => hprint find color j x end) = Ret (a, h)) by (destruct (Hx j N1) as (a & h & E); destruct x; eauto).
      destruct E as (a & h & ->). destruct (IH N2 false) as (b & h' & ->). cbn [bind]. eauto. }
    destruct (K (i + 4) (1 <? length elems) true) as (a & h & ->). cbn [bind]. eauto.
  - destruct (IHn i N) as (a & h & ->). cbn [bind]. eauto.
  - destruct N as [[N1 N2] N3]. destruct (IHn2 i N2) as (a & h & ->). destruct (IHn1 i N1) as (b & h' & ->). destruct (IHn3 i N3) as (c & h'' & E). rewrite E. cbn [bind].
    destruct n3; cbn [bind]; eauto.
  - destruct N as [N1 N2]. destruct (IHn1 i N1) as (a & h & ->). destruct (IHn2 i N2) as (b & h' & ->). cbn [bind]. eauto.
  - destruct N as [N1 N2]. destruct n1; try discriminate. destruct (maybe_ends find color (v_text v) U) as (a & h & ->). destruct (IHn2 i N2) as (b & h' & ->). cbn [bind]. eauto.
Qed.
Lemma named_whole n : (whole n -> named_calls n = true) /\ (for_chain n -> named_calls n = true).
Proof.
  induction n as [n IH] using size_ind.
  assert (Fl : forall l, (forall x, In x l -> nsize x < nsize n) -> Forall whole l -> forallb named_calls l = true).
  { intros l L F. apply forallb_forall. intros x I. rewrite Forall_forall in F. apply (proj1 (IH x (L x I))). auto. }
  assert (Opt : forall m, nsize m < nsize n -> m = NNull \/ whole m -> named_calls m = true) by (intros m L [->|W]; [reflexivity|]; apply (proj1 (IH m L)); exact W).
  split; intros W; inversion W; subst; cbn [named_calls nsize] in *; rewrite ?andb_true_iff; auto.
  - split; apply Opt; auto; lia.
  - repeat split; apply Opt; auto; lia.
  - apply Fl; auto. intros x I. apply nsize_in in I. lia.
  - apply (IH f); auto.
  - repeat split; apply Opt; auto; lia.
  - split; [reflexivity|]. apply Fl; auto. intros x I. apply nsize_in in I. lia.
  - split; [destruct H; [apply (proj1 (IH target ltac:(lia)))|apply (proj2 (IH target ltac:(lia)))]; auto|]. split; [|apply Opt; auto; lia].
    apply forallb_forall. intros x I. rewrite Forall_forall in H0. destruct (H0 x I) as [->|[v ->]]; reflexivity.
Qed.
Lemma named_statement n : whole_statement n -> named_calls n = true.
Proof.
  intros [m W|vars r rg V W]; [exact (proj1 (named_whole _) W)|]. cbn [named_calls]. apply andb_true_iff. split; [|exact (proj1 (named_whole _) W)].
  apply forallb_forall. intros x I. rewrite Forall_forall in V. destruct (V x I) as [->|[v ->]]; reflexivity.
Qed.
Section Elab.
Variable mg : list str -> list str -> list str.
Definition named_env (g : genv) : Prop := forall x n, glookup x g = Some n -> named_calls n = true.
Lemma plus_named l r rg n : named_calls l = true -> named_calls r = true -> elab_plus l r rg = Ret n -> named_calls n = true.
Proof.
  intros L R. unfold elab_plus. destruct l; cbn [cast_list bind]; try discriminate; destruct r; cbn [cast_list bind]; try discriminate; intros [= <-]; cbn [named_calls] in *; rewrite ?L, ?R; auto.
  match goal with |- context [ltype_eqb ?a ?b] => destruct (ltype_eqb a b) end; cbn [named_calls]; rewrite ?forallb_app, ?L, ?R; auto.
Qed.
Lemma entry_named items n : forallb named_calls items = true -> select_entry items = Ret (Some n) -> named_calls n = true.
Proof.
  induction items as [|x items IH]; cbn [forallb select_entry]; [discriminate|]. rewrite andb_true_iff. intros [N F].
  destruct x as [| | | | |op l r rg| | | | |]; cbn [cast_binop bind]; try discriminate; auto. cbn [named_calls] in N. apply andb_true_iff in N as [N1 N2].
  destruct op; auto. destruct l; cbn [cast_scalar bind]; try discriminate; auto; (destruct (str_eqb _ _); [intros [= <-]; exact N2|auto]).
Qed.
Lemma select_named args n : forallb named_calls args = true -> handle_select args = Ret (Some n) -> named_calls n = true.
Proof.
  induction args as [|x args IH]; cbn [forallb handle_select]; [discriminate|]. rewrite andb_true_iff. intros [N F].
  destruct x as [| | | | | |ty items| | | |]; cbn [cast_list bind]; try discriminate; auto. destruct ty; auto.
  destruct (select_entry items) as [[m|]| |] eqn:E; cbn [bind]; try discriminate; auto. intros [= <-]. exact (entry_named items m N E).
Qed.
Lemma elab_named n : forall level g n' g', named_calls n = true -> named_env g -> elab mg level n g = Ret (n', g') -> named_calls n' = true /\ named_env g'.
Proof.
  induction n using node_ind'; intros level g n' g' N G E; cbn [elab named_calls] in *; rewrite ?andb_true_iff in N.
  - injection E as <- <-. auto.
  - injection E as <- <-. auto.
  - injection E as <- <-. auto.
  - injection E as <- <-. split; auto. destruct (glookup (v_text v) g) eqn:L; eauto.
  - destruct (elab mg level n g) as [[a g1]| |] eqn:E1; cbn [bind] in E; try discriminate. injection E as <- <-. apply IHn in E1; auto.
  - destruct N as [N1 N2]. destruct (elab mg level n1 g) as [[a g1]| |] eqn:E1; cbn [bind] in E; try discriminate. apply IHn1 in E1 as [A G1]; auto.
    destruct (elab mg level n2 g1) as [[b g2]| |] eqn:E2; cbn [bind] in E; try discriminate. apply IHn2 in E2 as [B G2]; auto.
    assert (K : forall o, named_calls (NBin o a b range) = true) by (intros o; cbn [named_calls]; now rewrite A, B).
    destruct op; try (injection E as <- <-; auto; fail). destruct (elab_plus a b range) as [c| |] eqn:P; cbn [bind] in E; try discriminate. injection E as <- <-.
    split; auto. exact (plus_named a b range c A B P).
  - assert (K : forall g n' g', named_env g -> elab_elems (elab mg level) elems g = Ret (n', g') -> forallb named_calls n' = true /\ named_env g').
    { clear E G g n' g'. induction H as [|x l Hx Hl IH]; intros g n' g' G E; cbn [elab_elems] in E; [injection E as <- <-; auto|]. cbn [forallb] in N. apply andb_true_iff in N as [N1 N2].
      destruct (elab mg level x g) as [[a g1]| |] eqn:E1; cbn [bind] in E; try discriminate. apply Hx in E1 as [A G1]; auto.
      destruct (elab_elems (elab mg level) l g1) as [[b g2]| |] eqn:E2; cbn [bind] in E; try discriminate. apply IH in E2 as [B G2]; auto. injection E as <- <-. cbn [forallb]. now rewrite A, B. }
    destruct (elab_elems (elab mg level) elems g) as [[a g1]| |] eqn:E1; cbn [bind] in E; try discriminate. injection E as <- <-. apply K in E1; auto.
  - destruct (elab mg level n g) as [[a g1]| |] eqn:E1; cbn [bind] in E; try discriminate. apply IHn in E1 as [A G1]; auto. injection E as <- <-. split; auto. destruct a; auto.
  - destruct N as [[N1 N2] N3]. destruct (elab mg level n1 g) as [[a g1]| |] eqn:E1; cbn [bind] in E; try discriminate. apply IHn1 in E1 as [A G1]; auto.
    destruct (elab mg level n2 g1) as [[b g2]| |] eqn:E2; cbn [bind] in E; try discriminate. apply IHn2 in E2 as [B G2]; auto.
    destruct (elab mg level n3 g2) as [[c g3]| |] eqn:E3; cbn [bind] in E; try discriminate. apply IHn3 in E3 as [C G3]; auto. injection E as <- <-. cbn [named_calls]. now rewrite A, B, C.
  - destruct N as [N1 N2]. destruct (elab mg level n2 g) as [[a g1]| |] eqn:E1; cbn [bind] in E; try discriminate. apply IHn2 in E1 as [A G1]; auto. injection E as <- <-.
    cbn [named_calls]. rewrite N1, A. split; auto. destruct level; auto. destruct n1; auto. intros x m. cbn [glookup]. destruct (str_eqb x (v_text v)); [intros [= <-]; exact A|apply G1].
  - destruct N as [N1 N2]. destruct n1; try discriminate. destruct (elab mg (S level) (NId v) g) as [[a g1]| |] eqn:E1; cbn [bind] in E; try discriminate. apply IHn1 in E1 as [A G1]; auto.
    destruct (elab mg (S level) n2 g1) as [[b g2]| |] eqn:E2; cbn [bind] in E; try discriminate. apply IHn2 in E2 as [B G2]; auto.
    destruct a; try discriminate. destruct (str_eqb _ _).
    + destruct b; try discriminate. unfold handle_glob in E. destruct (glob_args _ _ _) as [[i e]| |]; cbn [bind] in E; try discriminate. destruct (extract_string_list i); cbn [bind] in E; try discriminate.
      destruct (extract_string_list e); cbn [bind] in E; try discriminate. injection E as <- <-. split; auto. cbn [named_calls]. apply forallb_forall. intros x I. apply in_map_iff in I as (y & <- & _). reflexivity.
    + destruct (str_eqb _ _); [|injection E as <- <-; split; auto]. destruct b; try discriminate. destruct (handle_select _) as [[m|]| |] eqn:Hs; cbn [bind] in E; try discriminate; injection E as <- <-; split; auto.
      exact (select_named _ _ B Hs).
Qed.
Lemma elaborate_named l out : forallb named_calls l = true -> elaborate mg l = Ret out -> forallb named_calls out = true.
Proof.
  unfold elaborate. assert (G0 : named_env []) by (intros x n E; discriminate E). revert G0. generalize ([] : genv). revert out.
  assert (K : forall l g out g', forallb named_calls l = true -> named_env g -> elab_elems (elab mg 0) l g = Ret (out, g') -> forallb named_calls out = true).
  { clear l. induction l as [|x l IH]; intros g out g' N G E; cbn [elab_elems] in E; [injection E as <- <-; auto|]. cbn [forallb] in N. apply andb_true_iff in N as [N1 N2].
    destruct (elab mg 0 x g) as [[a g1]| |] eqn:E1; cbn [bind] in E; try discriminate. apply elab_named in E1 as [A G1]; auto.
    destruct (elab_elems (elab mg 0) l g1) as [[b g2]| |] eqn:E2; cbn [bind] in E; try discriminate. injection E as <- <-. cbn [forallb]. rewrite A. eauto. }
  intros out g G N E. destruct (elab_elems (elab mg 0) l g) as [[a g1]| |] eqn:E1; cbn [bind] in E; try discriminate. injection E as <-. eauto.
Qed.
End Elab.
Lemma rule_calls_named n c : named_calls n = true -> In c (rule_calls n) -> named_calls c = true.
Proof.
  induction n using node_ind'; cbn [named_calls rule_calls]; rewrite ?andb_true_iff; intros N I; try contradiction.
  - auto.
  - destruct N. apply in_app_iff in I as [I|I]; auto.
  - apply in_flat_map in I as (x & Ix & I). rewrite Forall_forall in H. rewrite forallb_forall in N. eauto.
  - auto.
  - destruct N as [[N1 N2] N3]. rewrite !in_app_iff in I. destruct I as [I|[I|I]]; auto.
  - destruct I as [<-|[]]. cbn [named_calls]. now apply andb_true_iff.
Qed.
Lemma clean_named f : clean_file f -> forallb named_calls (pf_ast f) = true.
Proof.
  intros (stmts & P & _ & H).
  assert (N : forallb named_calls stmts = true).
  { apply forallb_forall. intros x I. apply named_statement. pose proof (proj2 (parse_trees _ _ _ P) eq_refl) as F. rewrite Forall_forall in F. auto. }
  destruct H as [->|[mg E]]; auto. eapply elaborate_named; eauto.
Qed.

(** * What the commands do with a project *)
Definition clean_project (pr : parsed_project) : Prop := forall p f, In (p, f) (pr_files pr) -> clean_file f.
Lemma clean_views f interest allow rs : clean_file f -> find_targets_in interest allow (pf_ast f) = Ret rs ->
  forall r v, In r rs -> In v (result_views r) -> within (pf_content f) v.
Proof.
  intros C F r v I V. assert (H := find_targets_views (within (pf_content f)) ltac:(cbn; split; [lia|reflexivity]) interest allow (pf_ast f) rs).
  assert (Fo : Forall (fun n => Forall (within (pf_content f)) (views n)) (pf_ast f)).
  { rewrite Forall_forall. intros n Hn. rewrite Forall_forall. intros x Hx. eapply clean_within; eauto. }
  specialize (H Fo F). rewrite Forall_forall in H. specialize (H r I). rewrite Forall_forall in H. auto.
Qed.
Lemma clean_nodes f interest allow rs : clean_file f -> find_targets_in interest allow (pf_ast f) = Ret rs ->
  forall r, In r rs -> exists v ty args, q_node r = NCall (NId v) (NList ty args) /\ named_calls (q_node r) = true /\ Forall argument args /\ within (pf_content f) v.
Proof.
  intros C F r I.
  assert (S : Forall sound_call (flat_map rule_calls (pf_ast f))).
  { assert (S := clean_sound f C). rewrite Forall_forall in S. apply Forall_forall. intros c Ic. apply in_flat_map in Ic as (n & Hn & Hc).
    destruct (sound_walk n) as [W _]; [left; auto|]. rewrite Forall_forall in W. auto. }
  assert (P : Forall proper_call (flat_map rule_calls (pf_ast f))) by (eapply Forall_impl; [|exact S]; intros c (v & ty & args & -> & _); unfold proper_call; eauto).
  assert (Q := find_targets_once interest allow (pf_ast f) rs P F).
  assert (K : In (q_node r) (flat_map rule_calls (pf_ast f))) by (apply (in_map q_node) in I; rewrite Q in I; apply filter_In in I; tauto).
  rewrite Forall_forall in S. destruct (S _ K) as (v & ty & args & E & A). exists v, ty, args. split; [exact E|]. split; [|split; [exact A|]].
  - apply in_flat_map in K as (n & Hn & Hc). assert (N := clean_named f C). rewrite forallb_forall in N. eapply rule_calls_named; eauto.
  - eapply clean_views; eauto. unfold result_views. apply in_or_app. left. rewrite E. left. reflexivity.
Qed.
Lemma visibility_ends l vs : string_list l = Ret vs -> exists s, visibility_words l = Ret s.
Proof.
  revert vs. induction l as [|n l IH]; intros vs E; cbn [string_list visibility_words] in *; [eauto|].
  destruct (cast_scalar n) as [s| |]; try discriminate. cbn [bind] in *. destruct (string_list l) as [rest| |]; try discriminate. destruct (IH rest eq_refl) as (t & ->). cbn [bind].
  destruct s as [[b v]|]; eauto.
Qed.
Theorem print_ends grep color only_errors pt pr : proper_grep grep -> clean_project pr -> exists out, print_project grep color only_errors pt pr = Ret out.
Proof.
  intros U C. assert (K : forall find, usable_grep find -> exists out, print_files find color only_errors pt (pr_files pr) = Ret out).
  { intros find Uf. unfold clean_project in C. induction (pr_files pr) as [|[p f] files IH]; cbn [print_files]; [eauto|].
    destruct IH as (out & E); [intros q g I; apply (C q g); now right|]. rewrite E. destruct (_ || _); [eauto|]. assert (Cf := C p f (or_introl eq_refl)).
    destruct (find_targets_defined [] true (pf_ast f) (clean_sound f Cf)) as (rs & F & D). unfold find_targets_allow_empty. rewrite F. cbn [bind].
    assert (R : exists s, print_rules find color pt p f rs = Ret s).
    { assert (N := clean_nodes f [] true rs Cf F). clear F E. induction rs as [|r rs IHr]; cbn [print_rules]; [eauto|].
      destruct IHr as (rest & E); [intros r' l I; apply D; now right|intros r' I; apply N; now right|]. rewrite E. destruct (_ && _); [eauto|].
      assert (Pr : forall t, exists a, print_rule find color f t r = Ret a).
      { intros t. destruct (N r (or_introl eq_refl)) as (v & ty & args & Eq & Nm & _ & W). unfold print_rule. rewrite Eq. destruct (loc_within f v W) as (s & ->). cbn [bind].
        assert (V : exists s, print_visibility (q_visibility r) = Ret s).
        { unfold print_visibility. destruct (q_visibility r) as [l|] eqn:Qv; [|eauto]. destruct (D r l (or_introl eq_refl)) as (vs & L).
          - apply in_flat_map. exists (Some l). split; [rewrite <- Qv; cbn; auto 12|now left].
          - destruct (visibility_ends l vs L) as (x & ->). cbn [bind]. eauto. }
        destruct V as (vs & ->). cbn [bind]. rewrite Eq in Nm. destruct (hprint_ends find color Uf _ 0 Nm) as (a & h & ->). cbn [bind]. eauto. }
      match goal with |- context [print_rule find color f ?t r] => destruct (Pr t) as ([a h] & ->) end. cbn [bind]. eauto. }
    destruct R as (s & ->). cbn [bind]. eauto. }
  destruct grep as [| |find]; cbn [print_project]; [apply K; exact I|eauto|apply K; exact U].
Qed.
Lemma argument_strings args : Forall argument args -> exists vs, string_list args = Ret vs.
Proof.
  induction 1 as [|n l Hn Hl [r IH]]; cbn [string_list]; eauto. rewrite IH.
  assert (E : exists s, cast_scalar n = Ret s) by (destruct Hn as [Hn|(k & rg & -> & _)]; [inversion Hn; cbn; eauto|cbn; eauto]).
  destruct E as (s & ->). cbn [bind]. destruct s as [[b v]|]; eauto.
Qed.
Lemma deps_strings r : (forall l, In l (result_lists r) -> exists strs, string_list l = Ret strs) -> exists vs, extract_string_list (q_deps r) = Ret vs.
Proof.
  intros H. unfold extract_string_list. destruct (q_deps r) as [l|] eqn:Q; [|cbn; eauto]. cbn [opt_elems]. apply H.
  apply in_flat_map. exists (Some l). split; [rewrite <- Q; cbn; auto 12|now left].
Qed.
Theorem workspace_ends fmt w pr pt : clean_project pr -> exists out, print_workspace fmt w pr pt = Ret out.
Proof.
  intros C. unfold print_workspace.
  assert (K : exists sub, (if is_matchall pt then Ret w else filtered_workspace w pr pt) = Ret sub).
  { destruct (is_matchall pt); [eauto|]. unfold filtered_workspace. generalize ([] : workspace). unfold clean_project in C.
    induction (pr_files pr) as [|[p f] files IH]; intros sub; cbn [filter_files]; [eauto|]. assert (IH' : forall sub, exists sub', filter_files w pt files sub = Ret sub') by (apply IH; intros q g I; apply (C q g); now right).
    destruct (match_package pt (pf_package f)); [|apply IH']. assert (Cf := C p f (or_introl eq_refl)).
    destruct (find_targets_defined [] true (pf_ast f) (clean_sound f Cf)) as (rs & F & D). unfold find_targets_allow_empty. rewrite F. cbn [bind].
    assert (R : forall sub, exists sub', transfer_rules w pt (pf_package f) rs sub = Ret sub').
    { assert (N := clean_nodes f [] true rs Cf F). clear F. induction rs as [|r rs IHr]; intros s; cbn [transfer_rules]; [eauto|].
      assert (X : exists refs, external_refs pt (pf_package f) r = Ret refs).
      { unfold external_refs. destruct (str_eqb _ _).
        - destruct (N r (or_introl eq_refl)) as (v & ty & args & -> & _ & A & _). unfold extract_string_list. cbn [opt_elems]. destruct (argument_strings args A) as (vs & ->). cbn [bind]. eauto.
        - destruct (qualified_target _ _); [|eauto]. destruct (match_target _ _); [|eauto]. destruct (deps_strings r (fun l => D r l (or_introl eq_refl))) as (vs & ->). cbn [bind]. eauto. }
      destruct X as (refs & ->). cbn [bind]. apply IHr; [intros r' l I; apply D; now right|intros r' I; apply N; now right]. }
    destruct (R sub) as (sub' & ->). cbn [bind]. apply IH'. }
  destruct K as (sub & ->). cbn [bind]. apply table_defined; [discriminate| |].
  - rewrite Forall_forall. intros h [<-|[<-|[<-|[]]]] c I; cbn in I; repeat (destruct I as [<-|I]; [repeat split; discriminate|]); destruct I.
  - intros op I. apply in_map_iff in I as (e & <- & _). reflexivity.
Qed.
Lemma canon_ends pr pt : clean_project pr -> exists evs, canonicalize_edits pr pt = Ret evs.
Proof.
  intros C. unfold canonicalize_edits, clean_project in *. induction (pr_files pr) as [|[p f] files IH]; cbn [canon_files]; [eauto|].
  destruct IH as (rest & E); [intros q g I; apply (C q g); now right|]. rewrite E. destruct (match_package _ _); [|eauto]. assert (Cf := C p f (or_introl eq_refl)).
  destruct (find_targets_defined [] false (pf_ast f) (clean_sound f Cf)) as (rs & F & D). unfold find_targets. rewrite F. cbn [bind].
  assert (R : exists evs, canon_rules pt (pf_package f) rs = Ret evs).
  { clear F. induction rs as [|r rs IHr]; cbn [canon_rules]; [eauto|]. destruct IHr as (evs & Er); [intros r' l I; apply D; now right|]. rewrite Er.
    destruct (qualified_target _ _); [|eauto]. destruct (match_target _ _); [|eauto]. destruct (deps_strings r (fun l => D r l (or_introl eq_refl))) as (vs & ->). cbn [bind]. eauto. }
  destruct R as (evs & ->). cbn [bind]. eauto.
Qed.
Lemma clean_readable pr : clean_project pr -> readable_project pr.
Proof. intros C p f I. apply clean_sound. eapply C; eauto. Qed.
Lemma aliases_end pr : clean_project pr -> exists m, extract_aliased_by pr = Ret m.
Proof.
  intros C. unfold extract_aliased_by, clean_project in *. generalize ([] : list (target * list target)). induction (pr_files pr) as [|[p f] files IH]; intros m; cbn [aliases_in]; [eauto|].
  destruct (find_targets_defined [$"alias"] false (pf_ast f) (clean_sound f (C p f (or_introl eq_refl)))) as (rs & F & D). unfold find_targets. rewrite F. cbn [bind].
  apply IH. intros q g I. apply (C q g). now right.
Qed.
Lemma two_columns fmt h1 h2 ops : plain_header h1 -> plain_header h2 -> (forall op, In op ops -> entry_columns (entry_of op) = 2) -> exists text, table_print fmt [h1; h2] ops = Ret text.
Proof. intros P1 P2 H. apply table_defined; [discriminate|constructor; [exact P1|constructor; [exact P2|constructor]]|exact H]. Qed.
Ltac header := intros c I; cbn in I; repeat (destruct I as [<-|I]; [repeat split; discriminate|]); destruct I.
Ltac rows := intros op I; apply in_map_iff in I as (e & <- & _); reflexivity.
Theorem perform_ends read_file flags_out fl cmd pt w pr g : proper_grep (fl_grep fl) -> clean_project pr ->
  (exists r, perform read_file flags_out fl cmd pt w pr g = Ret r) \/
  (about_flags cmd = true /\ exists as_db, forall out, flags_out w pr pt as_db <> Ret out).
Proof.
  intros U C. destruct cmd; cbn [about_flags].
  10,11: unfold perform; cbv zeta.
  10: { destruct (flags_out w pr pt true) as [o| |] eqn:E; cbn [bind]; [left; eauto| |]; right; (split; [reflexivity|]); exists true; rewrite E; discriminate. }
  10: { destruct (flags_out w pr pt false) as [o| |] eqn:E; cbn [bind]; [left; eauto| |]; right; (split; [reflexivity|]); exists false; rewrite E; discriminate. }
  all: left; unfold perform; cbv zeta.
  - destruct (_ || _); [|eauto]. destruct (print_ends (fl_grep fl) (fl_color fl) (fl_print_only_errors fl) pt pr U C) as (o & ->). cbn [bind]. eauto.
  - destruct (print_ends (fl_grep fl) (fl_color fl) (fl_print_only_errors fl) pt pr U C) as (o & ->). cbn [bind]. eauto.
  - unfold print_packages. edestruct two_columns as (o & ->); [header|header|rows|]. cbn [bind]. eauto.
  - edestruct C65_possible as (o & ->); [exact C|]. cbn [bind]. eauto.
  - destruct (workspace_ends (fl_format fl) w pr pt C) as (o & ->). cbn [bind]. eauto.
  - destruct (headers_defined pr false (clean_readable pr C)) as (m & ->). cbn [bind]. unfold print_provided_set. edestruct two_columns as (o & ->); [header|header|rows|]. cbn [bind]. eauto.
  - destruct (aliases_end pr C) as (m & ->). cbn [bind]. unfold print_one_to_n. edestruct two_columns as (o & ->); [header|header|rows|]. cbn [bind]. eauto.
  - destruct (generated_defined pr false (clean_readable pr C)) as (m & ->). cbn [bind]. unfold print_provided. edestruct two_columns as (o & ->); [header|header|rows|]. cbn [bind]. eauto.
  - destruct (C60_possible w read_file (fl_ignore_keep fl) pr pt C) as ([evs x] & ->). cbn [bind]. eauto.
  - destruct (canon_ends pr pt C) as (evs & ->). cbn [bind]. eauto.
  - unfold print_one_to_n. edestruct two_columns as (o & ->); [header|header|rows|]. cbn [bind]. eauto.
  - unfold print_one_to_n. edestruct two_columns as (o & ->); [header|header|rows|]. cbn [bind]. eauto.
Qed.

(** * What is read *)
Section Read.
Variable fs : file_system.
Hypothesis files : proper_files fs.
Notation load_file := (load_file (is_dir fs) (fs_can_read fs) (fs_glob fs) (fs_content fs)).
Notation load_workspace := (load_workspace (is_dir fs) (fs_can_read fs) (fs_glob fs) (fs_content fs)).
Lemma load_file_ends f found w : exists st, load_file (Ret (found, w)) f = Ret st.
Proof.
  unfold M_Workspace.load_file. cbn [bind]. destruct (fs_content fs f) as [content|]; [|eauto]. destruct (parse_total content) as (stmts & errs & P). rewrite P. cbn [bind].
  unfold find_targets. rewrite (parsed_queries _ _ _ _ _ P). cbn [bind]. eauto.
Qed.
Lemma load_ends : exists r, load_workspace = Ret r.
Proof.
  unfold M_Workspace.load_workspace. assert (H : forall l found w, exists st, fold_left load_file l (Ret (found, w)) = Ret st).
  { induction l as [|f l IH]; intros found w; cbn [fold_left]; [eauto|]. destruct (load_file_ends f found w) as ([found' w'] & ->). apply IH. }
  destruct (H workspace_files false []) as (st & E). destruct (fold_left _ workspace_files _) as [[found w]| |]; [|exfalso; discriminate E..]. cbn [bind]. eauto.
Qed.

Variable w : workspace.
Definition evaluated (stmts ast : list node) : Prop := exists mg, elaborate mg stmts = Ret ast.
Definition maybe_evaluated (stmts ast : list node) : Prop := ast = stmts \/ evaluated stmts ast.
Definition from_disk (tree : list node -> list node -> Prop) (f : parsed_file) : Prop :=
  build_name (pf_name f) /\ build_file_for fs w (pf_package f) (pf_name f) /\ fs_content fs (pf_name f) = Some (pf_content f) /\
  exists stmts, parse (pf_content f) = Ret (stmts, []) /\ (forall x, In x (flat_map called stmts) -> ~ In x (flat_map assigned stmts)) /\
    tree stmts (pf_ast f).
Definition all_from_disk (tree : list node -> list node -> Prop) (pr : parsed_project) : Prop := project_ok pr /\ forall p f, In (p, f) (pr_files pr) -> from_disk tree f.
Notation plain := (fun stmts ast : list node => ast = stmts).
Lemma from_disk_clean f : from_disk maybe_evaluated f -> clean_file f.
Proof. intros (_ & _ & _ & stmts & P & H & E); exists stmts; auto. Qed.
Lemma all_clean pr : all_from_disk maybe_evaluated pr -> clean_project pr.
Proof. intros [_ H] p f I. eapply from_disk_clean; eauto. Qed.
Lemma add_file_ends proj x pr : build_name x -> package_of_build_file w x proj <> UB -> all_from_disk plain pr ->
  exists pr', add_build_file_in w (fs_content fs) pr x proj = Ret pr' /\ all_from_disk plain pr'.
Proof.
  intros B N [OK A]. unfold add_build_file_in. destruct (package_of_build_file w x proj) as [[p|]| |] eqn:Ep; [| |contradiction|now apply package_of_fuel in Ep].
  2: { cbn [bind]. eexists. split; [reflexivity|]. split; auto. }
  cbn [bind]. unfold add_build_file. destruct (fs_content fs x) as [content|] eqn:R.
  2: { cbn [bind]. eexists. split; [reflexivity|]. split; auto. }
  destruct (proj1 files x content B R) as (stmts & P & Hc). unfold add_build_file_content.
  destruct (find_parsed pr p) as [f0|] eqn:F; cbn [bind]; [eexists; split; [reflexivity|]; split; auto|].
  rewrite P. cbn [bind]. eexists. split; [reflexivity|].
  assert (OK' : project_ok (mkProject (map_insert p (mkFile p x content stmts []) (pr_files pr)) (if is_nil ([] : list token) then pr_error_count pr else S (pr_error_count pr)))) by (apply ok_insert; auto).
  split; [exact OK'|]. intros q f I. destruct OK as [S K]. apply msorted_find in I; [|apply OK']. cbn [pr_files] in I. rewrite map_insert_find in I by exact S.
  destruct (map_find q (pr_files pr)) as [f1|] eqn:F1.
  - injection I as <-. apply map_find_in in F1. eapply A; eauto.
  - destruct (keqb q p); [|discriminate]. injection I as <-. split; [exact B|]. split; [left; exists proj; exact Ep|]. split; [exact R|]. exists stmts. auto.
Qed.
Lemma add_files_end proj l : (forall x, In x l -> build_name x /\ package_of_build_file w x proj <> UB) -> forall pr, all_from_disk plain pr ->
  exists pr', add_build_files w (fs_content fs) pr l proj = Ret pr' /\ all_from_disk plain pr'.
Proof.
  induction l as [|x l IH]; intros H pr A; cbn [add_build_files]; [eauto|]. destruct (H x (or_introl eq_refl)) as [B N].
  destruct (add_file_ends proj x pr B N A) as (pr1 & -> & A1). cbn [bind]. apply IH; auto. intros y I. apply H. now right.
Qed.
Lemma from_disk_impl (t t' : list node -> list node -> Prop) f : (forall s a, t s a -> t' s a) -> from_disk t f -> from_disk t' f.
Proof. intros H (B & Bf & R & stmts & P & Hc & T). split; [exact B|]. split; [exact Bf|]. split; [exact R|]. exists stmts. auto. Qed.
Lemma elaborate_file_ends gi f : from_disk plain f -> exists f', elaborate_file gi f = Ret f' /\ from_disk evaluated f' /\ pf_package f' = pf_package f.
Proof.
  intros (B & Bf & R & stmts & P & Hc & D). unfold elaborate_file. rewrite D.
  destruct (elaborate_defined (gi (pf_package f)) stmts (proj2 (parse_trees _ _ _ P) eq_refl) Hc) as (o & E & _). rewrite E. cbn [bind].
  eexists. split; [reflexivity|]. split; [|reflexivity]. split; [exact B|]. split; [exact Bf|]. split; [exact R|]. exists stmts. split; [exact P|]. split; [exact Hc|]. exists (gi (pf_package f)). exact E.
Qed.
Lemma elaborate_project_ends gi pr : all_from_disk plain pr -> exists pr', elaborate_project gi pr = Ret pr' /\ all_from_disk evaluated pr'.
Proof.
  intros [[S K] A]. assert (H : exists l, elaborate_files gi (pr_files pr) = Ret l /\ keys l = keys (pr_files pr) /\ forall p f, In (p, f) l -> pf_package f = p /\ from_disk evaluated f).
  { clear S. induction (pr_files pr) as [|[p f] l IH]; cbn [elaborate_files]; [exists []; split; [reflexivity|]; split; [reflexivity|]; intros p f []|].
    destruct (elaborate_file_ends gi f (A p f (or_introl eq_refl))) as (f' & -> & D & Pk). cbn [bind].
    destruct IH as (l' & -> & Ek & H); [intros q g I; apply K; now right|intros q g I; apply (A q); now right|]. cbn [bind].
    eexists. split; [reflexivity|]. split; [cbn; f_equal; exact Ek|]. intros q g [I|I]; [|now apply H]. injection I as <- <-. split; [|exact D]. rewrite Pk. apply K. now left. }
  destruct H as (l & E & Ek & H). unfold elaborate_project. rewrite E. cbn [bind]. eexists. split; [reflexivity|]. split; [split|]; cbn [pr_files].
  - unfold msorted in *. rewrite Ek. exact S.
  - intros p f I. now apply H.
  - intros p f I. now apply (H p).
Qed.
Lemma package_path_name can_read p f : path_for_package w can_read p = Some f -> build_name f /\ can_read f = true.
Proof.
  unfold path_for_package. destruct (if is_nil (project p) then _ else _) as [start|]; [|discriminate]. intros E. apply find_some in E as [I C]. split; [|exact C].
  destruct I as [<-|[<-|[]]]; eexists; [left|right]; reflexivity.
Qed.
Lemma graph_ends gi pt depth (t : list node -> list node -> Prop) pr : (forall s a, evaluated s a -> t s a) -> (forall s a, t s a -> maybe_evaluated s a) -> all_from_disk t pr ->
  exists g pr' todo, build_graph w (fs_content fs) (fs_can_read fs) gi pt depth pr = Ret (g, pr', todo) /\ all_from_disk t pr'.
Proof.
  intros T1 T2 [OK A].
  assert (D : forall p name, path_for_package w (fs_can_read fs) p = Some name -> exists content, fs_content fs name = Some content /\ good_content called assigned content).
  { intros p name E. destruct (package_path_name _ _ _ E) as [B C]. destruct files as (G & Rd). destruct (Rd name B C) as (content & R). exists content. split; [exact R|]. now apply (G name). }
  destruct (graph_defined w (fs_content fs) (fs_can_read fs) gi pr OK) with (pt := pt) (depth := depth) as (g & pr' & todo & E).
  - intros p f F. apply map_find_in in F. apply sound_readable, clean_sound, from_disk_clean. eapply from_disk_impl; [exact T2|]. eapply A; eauto.
  - exact D.
  - exists g, pr', todo. split; [exact E|]. destruct (graph_spec w (fs_content fs) (fs_can_read fs) gi pr OK pt _ _ _ _ E) as ((OK' & Fo & _) & _).
    split; [exact OK'|]. intros p f I. assert (F : find_parsed pr' p = Some f) by (apply msorted_find; [apply OK'|exact I]). specialize (Fo p f F). unfold file_of in Fo.
    destruct (find_parsed pr p) as [f0|] eqn:F0.
    + subst f. apply map_find_in in F0. eapply A; eauto.
    + destruct Fo as (name & content & stmts & errs & ast & Pa & Rd & Ps & El & ->). destruct (package_path_name _ _ _ Pa) as [B C]. destruct (D _ _ Pa) as (c' & Rd' & stmts' & Ps' & Hc).
      rewrite Rd in Rd'. injection Rd' as <-. rewrite Ps in Ps'. injection Ps' as <- ->. split; [exact B|]. split; [right; exact Pa|]. split; [exact Rd|]. exists stmts. split; [exact Ps|]. split; [exact Hc|].
      apply T1. exists (gi p). exact El.
Qed.
End Read.

Lemma project_path_in w name d : find_path_by_project w name = Some d -> exists vp, In (vp, d) w.
Proof.
  unfold find_path_by_project. destruct name as [|c r]; [discriminate|]. rewrite find_entry_eq. destruct (from_project _ w) as [|[vp d0] rest] eqn:L; [discriminate|].
  destruct (negb _); [discriminate|]. cbn [option_map snd]. intros [= ->]. exists vp. apply (from_project_in w (bare (c :: r))). rewrite L. now left.
Qed.
Section Walk.
Variable fs : file_system.
Hypothesis proper : proper_names (fs_list fs).
Variable w : workspace.
Hypothesis dirs : forall vp d, In (vp, d) w -> forall r, d <> r ++ $"/".
Lemma dir_stays d rest : (forall r, d <> r ++ $"/") -> length d <= length (strip_back "/" (d ++ $"/" ++ rest)).
Proof.
  intros N. destruct (strip_back_repeat "/" (d ++ $"/" ++ rest)) as (n & E). apply app_eq_app in E as (l & [(E & R)|(E & _)]).
  2: { rewrite E, app_length. lia. }
  destruct l as [|c l]; [rewrite app_nil_r in E; rewrite E at 1; lia|]. exfalso. destruct (exists_last (l := c :: l)) as (l' & x & El); [discriminate|].
  rewrite El in E, R. assert (x = "/"%char) as -> by (apply (repeat_spec n "/"%char); rewrite R; apply in_or_app; left; apply in_or_app; right; now left).
  apply (N (strip_back "/" (d ++ $"/" ++ rest) ++ l')). rewrite E at 1. now rewrite app_assoc.
Qed.
Lemma found_names fuel pt x : In x (found_build_files fuel fs w pt) -> build_name x /\ package_of_build_file w x (pat_project pt) <> UB.
Proof.
  unfold found_build_files. destruct (M_Walk.collect_build_files (fs_list fs) (fs_stat fs) (fs_link fs) fuel w pt) as [l| |] eqn:E; [|intros []..].
  intros I. apply in_map_iff in I as (f & <- & I). apply collect_build_spec in E as [(_ & ->)|(root & S & H & _)]; [destruct I|].
  apply H in I as (d & e & Bd & _ & N & ->). split.
  - rewrite path_at_path. exists (strip_back "/" d). destruct N as [-> | ->]; auto.
  - unfold package_of_build_file. rewrite search_dir_spec in S. unfold pat_project. destruct (project (tpackage (pat_target pt))) as [|c pj]; [discriminate|]. cbn [is_nil].
    destruct (find_path_by_project w (c :: pj)) as [dir|] eqn:F; [|discriminate]. injection S as <-. destruct (project_path_in _ _ _ F) as (vp & I).
    assert (L := dir_stays dir (path (tpackage (pat_target pt))) (dirs vp dir I)).
    assert (L2 : length dir <= length (strip_back "/" d)).
    { destruct (build_dir_path fs proper _ _ _ Bd) as [->|(Ne & c' & r & _ & ->)]; [exact L|]. rewrite Ne, app_length. eapply Nat.le_trans; [exact L|apply Nat.le_add_r]. }
    rewrite path_at_path, app_length. cbn [length]. destruct (Nat.ltb_spec (length (strip_back "/" d) + S (length (d_name e))) (length dir)); [lia|discriminate].
Qed.
End Walk.

(** * The whole program *)
Section Run.
Variable fuel : nat.
Variable fs : file_system.
Hypothesis proper : proper_names (fs_list fs).
Hypothesis files : proper_files fs.
Hypothesis dirs : proper_workspace fs.
Notation prepare := (prepare (is_dir fs) (fs_can_read fs) (fs_glob fs) (fs_content fs) (globbed_files fuel fs) (found_build_files fuel fs)).
Notation run_command := (run_command (is_dir fs) (fs_can_read fs) (fs_glob fs) (fs_content fs) (globbed_files fuel fs) (found_build_files fuel fs) (flags_output fs)).
Lemma prepare_ends fl cmd pt : exists r, prepare fl cmd pt = Ret r /\
  forall w pr g, r = Some (w, pr, g) -> workspace_in fs w /\ all_from_disk fs w (if elaborate_for cmd (fl_elaborate fl) then evaluated else maybe_evaluated) pr.
Proof.
  unfold M_Commands.prepare. destruct (load_ends fs) as (r & L). rewrite L. cbn [bind]. destruct r as [w0|]; [|eexists; split; [reflexivity|discriminate]].
  assert (W : workspace_in fs (augment_from_external_dir (is_dir fs) (fs_glob fs) w0)).
  { destruct (load_workspace_spec _ _ _ _ _ L) as (decls & D & _ & X). exists decls, w0. auto. }
  set (w := augment_from_external_dir (is_dir fs) (fs_glob fs) w0) in *. cbv zeta. clearbody w.
  set (dp := match cmd with CHasDependents => pattern_always | _ => pt end). clearbody dp.
  assert (E0 : all_from_disk fs w (fun stmts ast => ast = stmts) empty_project) by (split; [split; [exact I|]|]; intros p f []).
  assert (H1 : exists pr, (if needs_project cmd pt then fill_from_pattern w (fs_content fs) (found_build_files fuel fs w) empty_project dp else Ret empty_project) = Ret pr /\
    all_from_disk fs w (fun stmts ast => ast = stmts) pr).
  { destruct (needs_project cmd pt); [|eauto]. unfold fill_from_pattern. apply add_files_end; auto. intros x Ix. apply (found_names fs proper w) with (fuel := fuel); auto. intros vp d Id. exact (dirs w vp d W Id). }
  destruct H1 as (pr1 & -> & A1). cbn [bind].
  assert (H2 : exists pr, (if elaborate_for cmd (fl_elaborate fl) then elaborate_project (globbed_files fuel fs w) pr1 else Ret pr1) = Ret pr /\
    all_from_disk fs w (if elaborate_for cmd (fl_elaborate fl) then evaluated else maybe_evaluated) pr).
  { destruct (elaborate_for cmd (fl_elaborate fl)); [now apply elaborate_project_ends|]. exists pr1. split; [reflexivity|]. destruct A1 as [OK A]. split; [exact OK|].
    intros p f If. eapply from_disk_impl; [|exact (A p f If)]. intros s a ->. left. reflexivity. }
  destruct H2 as (pr2 & -> & A2). cbn [bind].
  assert (T1 : forall s a, evaluated s a -> (if elaborate_for cmd (fl_elaborate fl) then evaluated else maybe_evaluated) s a) by (intros s a; destruct (elaborate_for _ _); [auto|right; auto]).
  assert (T2 : forall s a, (if elaborate_for cmd (fl_elaborate fl) then evaluated else maybe_evaluated) s a -> maybe_evaluated s a) by (intros s a; destruct (elaborate_for _ _); [right; auto|auto]).
  destruct (wants_graph cmd && (0 <=? depth_for cmd (fl_depth fl))%Z).
  - destruct (graph_ends fs files w (globbed_files fuel fs w) dp (depth_for cmd (fl_depth fl)) _ pr2 T1 T2 A2) as (g & pr3 & todo & -> & A3). cbn [bind].
    eexists. split; [reflexivity|]. intros w' pr' g' [= <- <- <-]. auto.
  - cbn [bind]. eexists. split; [reflexivity|]. intros w' pr' g' [= <- <- <-]. auto.
Qed.
Lemma command_ends fl cmd pt : proper_grep (fl_grep fl) ->
  (exists r, run_command fl cmd pt = Ret r) \/ run_command fl cmd pt = UB /\ about_flags cmd = true /\ troublesome_rule fs.
Proof.
  intros U. unfold M_Commands.run_command. destruct (prepare_ends fl cmd pt) as (r & -> & H). cbn [bind]. destruct r as [[[w pr] g]|]; [|left; eauto].
  destruct (H w pr g eq_refl) as [W A]. clear H.
  assert (Am : all_from_disk fs w maybe_evaluated pr).
  { destruct A as [OK A]. split; [exact OK|]. intros p f If. eapply from_disk_impl; [|exact (A p f If)]. intros s a. destruct (elaborate_for _ _); [right; auto|auto]. }
  destruct (perform_ends (fs_content fs) (flags_output fs) fl cmd pt w pr g U (all_clean fs w pr Am)) as [R|(Ab & as_db & N)]; [left; exact R|].
  destruct (flags_defined (fs_cwd fs) (fs_content fs ($".bazelrc")) w pr pt as_db (clean_readable pr (all_clean fs w pr Am))) as (UBiff & NF).
  assert (Q : write_flags (fs_cwd fs) (fs_content fs ($".bazelrc")) w pr pt as_db = UB).
  { unfold flags_output in N. destruct (write_flags _ _ w pr pt as_db) as [o| |]; [exfalso; apply (N o eq_refl)|reflexivity|contradiction]. }
  apply UBiff in Q. assert (QQ : forall b, flags_output fs w pr pt b = UB).
  { intros b. unfold flags_output. destruct (flags_defined (fs_cwd fs) (fs_content fs ($".bazelrc")) w pr pt b (clean_readable pr (all_clean fs w pr Am))) as (X & _). now apply X. }
  right. split.
  - destruct cmd; try discriminate Ab; unfold perform; cbv zeta; rewrite QQ; reflexivity.
  - split; [exact Ab|]. destruct Q as (p & r & (key & f & rs & If & Ft & Ir & ->) & Cr). destruct A as [OK A].
    assert (Ev : from_disk fs w evaluated f) by (specialize (A key f If); destruct cmd; try discriminate Ab; exact A).
    destruct Ev as (B & Bf & R & stmts & P & Hc & T). exists w, (pf_name f), (pf_content f), stmts, (pf_ast f), rs, (pf_package f), r. auto 12.
Qed.
Theorem run_ends fl args : proper_grep (fl_grep fl) ->
  match run_in fuel fs fl args with
  | None => exists word arg more, args = word :: arg :: more /\ parse_pattern arg = PatUnmodelled
  | Some (Ret _) => True
  | Some OutOfFuel => False
  | Some UB => troublesome_rule fs /\ exists word more cmd, args = word :: more /\ find_command command_names word = Found cmd /\ about_flags cmd = true
  end.
Proof.
  intros U. unfold run_in, run_cli. destruct args as [|word args]; [exact I|]. destruct (find_command command_names word) as [cmd| |] eqn:Fc; [|exact I..].
  assert (K : forall pt, match Some (if needs_pattern cmd && is_matchall pt then Ret ([], ExitFailure) else run_command fl cmd pt) with
    | None => exists word' arg more, word :: args = word' :: arg :: more /\ parse_pattern arg = PatUnmodelled
    | Some (Ret _) => True | Some OutOfFuel => False
    | Some UB => troublesome_rule fs /\ exists word' more cmd, word :: args = word' :: more /\ find_command command_names word' = Found cmd /\ about_flags cmd = true end).
  { intros pt. destruct (needs_pattern cmd && is_matchall pt); [exact I|]. destruct (command_ends fl cmd pt U) as [(r & ->)|(-> & Ab & Tr)]; [exact I|]. split; [exact Tr|]. exists word, args, cmd. auto. }
  destruct args as [|arg more]; [apply K|]. destruct (parse_pattern arg) as [pt| |] eqn:Pa; [|exact I|eauto 6]. destruct (is_nil more); [apply K|exact I].
Qed.
End Run.

(** * The command line *)
Lemma leading_spec s : forall acc, exists ds rest, s = ds ++ rest /\ Forall (fun c => is_digit c = true) ds /\
  leading_number acc s = fold_left (fun a c => 10 * a + Z.of_nat (nat_of_ascii c - 48))%Z ds acc.
Proof.
  induction s as [|c s IH]; intros acc; cbn [leading_number]; [exists [], []; auto|]. destruct (is_digit c) eqn:D.
  - destruct (IH (10 * acc + Z.of_nat (nat_of_ascii c - 48))%Z) as (ds & rest & -> & F & ->). exists (c :: ds), rest. auto.
  - exists [], (c :: s). auto.
Qed.
Lemma skip_spec s : exists sp, s = sp ++ skip_spaces s /\ Forall (fun c => is_space c = true) sp.
Proof.
  induction s as [|c s (sp & E & F)]; cbn [skip_spaces]; [exists []; auto|]. destruct (is_space c) eqn:D; [|exists []; auto].
  exists (c :: sp). split; [cbn; now f_equal|auto].
Qed.
Lemma digits_positive ds : Forall (fun c => is_digit c = true) ds -> (0 <= number_of ds)%Z.
Proof.
  intros _. unfold number_of. assert (H : forall acc, (0 <= acc)%Z -> (0 <= fold_left (fun a c => 10 * a + Z.of_nat (nat_of_ascii c - 48)) ds acc)%Z); [|apply H; lia].
  induction ds as [|c ds IH]; intros acc L; cbn [fold_left]; auto. apply IH. lia.
Qed.
Lemma atoi_ub s : atoi s = UB -> too_big s.
Proof.
  unfold atoi. destruct (skip_spec s) as (sp & E & F). destruct (skip_spaces s) as [|c r] eqn:K.
  - discriminate.
  - destruct (ceqb c "-") eqn:C1; [apply ceqb_eq in C1; subst c|destruct (ceqb c "+") eqn:C2; [apply ceqb_eq in C2; subst c|]].
    + destruct (leading_spec r 0) as (ds & rest & -> & Fd & ->). fold (number_of ds). assert (P := digits_positive ds Fd).
      destruct (_ && _) eqn:B; [discriminate|]. intros _. exists sp, ($"-"), ds, rest. do 3 (split; [auto|]). right. split; [reflexivity|].
      apply andb_false_iff in B as [B|B]; apply Z.leb_gt in B; unfold INT_MAX in B; lia.
    + destruct (leading_spec r 0) as (ds & rest & -> & Fd & ->). fold (number_of ds). assert (P := digits_positive ds Fd).
      destruct (_ && _) eqn:B; [discriminate|]. intros _. exists sp, ($"+"), ds, rest. do 3 (split; [auto|]). left. split; [auto|].
      apply andb_false_iff in B as [B|B]; apply Z.leb_gt in B; unfold INT_MAX in B; lia.
    + destruct (leading_spec (c :: r) 0) as (ds & rest & Ed & Fd & ->). fold (number_of ds). assert (P := digits_positive ds Fd).
      destruct (_ && _) eqn:B; [discriminate|]. intros _. exists sp, [], ds, rest. split; [rewrite E, Ed; reflexivity|]. do 2 (split; [auto|]). left. split; [auto|].
      apply andb_false_iff in B as [B|B]; apply Z.leb_gt in B; unfold INT_MAX in B; lia.
Qed.
Lemma cluster_word letters : forall next evs used a, cluster letters next = (evs, used) -> In (Opt "r" (Some a)) evs -> exists fs, letters = fs ++ "r"%char :: a.
Proof.
  induction letters as [|c letters IH]; intros next evs used a E I; cbn [cluster] in E; [injection E as <- <-; destruct I|].
  destruct (letter c) as [[| |]|] eqn:L.
  - destruct (cluster letters next) as [evs' used'] eqn:K. injection E as <- <-. destruct I as [I|I]; [discriminate|]. destruct (IH _ _ _ _ K I) as (fs & ->). exists (c :: fs). reflexivity.
  - assert (N : c <> "r"%char) by (intros ->; discriminate L).
    destruct (is_nil letters); [destruct next as [|x next]|]; injection E as <- <-; destruct I as [I|[]]; congruence.
  - injection E as <- <-. destruct I as [I|[]]. injection I as -> I. destruct (is_nil letters); [discriminate|]. injection I as ->. exists []. reflexivity.
  - destruct (cluster letters next) as [evs' used'] eqn:K. injection E as <- <-. destruct I as [I|I]; [discriminate|]. destruct (IH _ _ _ _ K I) as (fs & ->). exists (c :: fs). reflexivity.
Qed.
Lemma getopt_word args : forall evs words a, getopt args = (evs, words) -> In (Opt "r" (Some a)) evs -> exists fs, In ("-"%char :: fs ++ "r"%char :: a) args.
Proof.
  remember (length args) as n eqn:L. assert (Le : length args <= n) by lia. clear L. revert args Le.
  induction n as [|n IH]; intros [|w args] L evs words a E I; cbn [length] in L; try lia; try (injection E as <- <-; destruct I; fail).
  cbn [getopt] in E. destruct (str_eqb w ($"--")); [injection E as <- <-; destruct I|].
  assert (K : (let '(evs, pos) := getopt args in (evs, w :: pos)) = (evs, words) -> exists fs, In ("-"%char :: fs ++ "r"%char :: a) (w :: args)).
  { destruct (getopt args) as [evs1 pos] eqn:G. intros [= <- <-]. destruct (IH args ltac:(lia) _ _ a G I) as (fs & F). exists fs. now right. }
  destruct w as [|c [|x letters]]; [now apply K..|]. destruct (ceqb c "-") eqn:C; [|now apply K]. apply ceqb_eq in C. subst c. clear K.
  destruct (cluster (x :: letters) args) as [evs1 used] eqn:Cl.
  destruct (if used then match args with [] => ([], []) | _ :: rest => getopt rest end else getopt args) as [evs2 pos] eqn:G. injection E as <- <-.
  apply in_app_or in I as [I|I].
  - destruct (cluster_word _ _ _ _ _ Cl I) as (fs & ->). exists fs. now left.
  - destruct used.
    + destruct args as [|y args]; [injection G as <- <-; destruct I|]. cbn [length] in L. destruct (IH args ltac:(lia) _ _ a G I) as (fs & F). exists fs. right. now right.
    + destruct (IH args ltac:(lia) _ _ a G I) as (fs & F). exists fs. now right.
Qed.
Lemma options_end change_dir open_output evs : forall st, (exists n, handle_options change_dir open_output st evs = Ret n) \/
  handle_options change_dir open_output st evs = UB /\ exists a, In (Opt "r" (Some a)) evs /\ atoi a = UB.
Proof.
  induction evs as [|ev evs IH]; intros st; cbn [handle_options]; [left; eauto|].
  assert (H : (exists n, handle_option change_dir open_output st ev = Ret n) \/ handle_option change_dir open_output st ev = UB /\ exists a, ev = Opt "r" (Some a) /\ atoi a = UB).
  { unfold handle_option. destruct st. destruct ev as [c arg|]; [|left; eauto].
    repeat match goal with |- context [if ceqb c ?x then _ else _] => destruct (ceqb c x) eqn:?; [try (left; eauto; fail)|] end; try (left; eauto; fail).
    1: { match goal with H : ceqb c "r" = true |- _ => apply ceqb_eq in H; subst c end. destruct arg as [a|]; cbn [bind]; [|left; eauto].
      destruct (atoi a) as [z| |] eqn:A; cbn [bind]; [left; eauto|right; eauto|]. exfalso. revert A. unfold atoi. destruct (_ && _); discriminate. }
    all: destruct (_ || _); left; eauto. }
  destruct H as [(n & ->)|(-> & a & -> & A)]; cbn [bind].
  - destruct n as [st'|code]; [|left; eauto]. destruct (IH st') as [R|(R & a & I & A)]; [left; exact R|right]. split; [exact R|]. exists a. split; [now right|exact A].
  - right. split; [reflexivity|]. exists a. split; [now left|exact A].
Qed.
Theorem program_ends fuel change_dir open_output seen is_terminal compile args :
  (forall dirs, proper_names (fs_list (seen dirs)) /\ proper_files (seen dirs) /\ proper_workspace (seen dirs)) ->
  (forall re find, compile re = Some find -> usable_search find) ->
  match program fuel change_dir open_output seen is_terminal compile args with
  | None => exists arg, parse_pattern arg = PatUnmodelled /\ In arg (snd (getopt args))
  | Some (Ret _) => True
  | Some OutOfFuel => False
  | Some UB => (exists fs n, In ("-"%char :: fs ++ "r"%char :: n) args /\ too_big n) \/
               (exists dirs, troublesome_rule (seen dirs)) /\ exists word cmd, In word (snd (getopt args)) /\ find_command command_names word = Found cmd /\ about_flags cmd = true
  end.
Proof.
  intros H U. unfold program, main, read_command_line. destruct (getopt args) as [evs pos] eqn:G. cbn [snd].
  destruct (options_end change_dir open_output evs default_settings) as [(n & ->)|(-> & a & Ia & A)]; cbn [bind].
  2: { left. destruct (getopt_word _ _ _ _ G Ia) as (fs & F). exists fs, a. split; [exact F|]. now apply atoi_ub. }
  destruct n as [st|code]; [|exact I]. cbn [sur_is_directory sur_can_read sur_glob sur_read_file sur_glob_in sur_collect sur_flags surroundings_of].
  fold (run_in fuel (seen (s_dirs st)) (flags_of is_terminal compile st) pos). destruct (H (s_dirs st)) as (P & F & W).
  assert (Pg : proper_grep (fl_grep (flags_of is_terminal compile st))).
  { unfold flags_of. cbn [fl_grep]. destruct (is_nil (regex_text st)); [exact I|]. destruct (compile (regex_text st)) as [find|] eqn:C; [|exact I]. cbn. eapply U; eauto. }
  assert (R := run_ends fuel (seen (s_dirs st)) P F W (flags_of is_terminal compile st) pos Pg).
  destruct (run_in _ _ _ pos) as [[[out status]| |]|]; cbn [bind]; auto.
  - right. destruct R as (T & word & more & cmd & -> & Fc & Ab). split; [eauto|]. exists word, cmd. split; [now left|auto].
  - destruct R as (word & arg & more & -> & Pa). exists arg. split; [exact Pa|]. right. now left.
Qed.
Section Fuel.
Variable fs : file_system.
Hypothesis proper : proper_names (fs_list fs).
Variable inodes : list N.
Hypothesis finite : inodes_are fs inodes.
Variable fuel : nat.
Hypothesis enough : length inodes < fuel.
Lemma glob_names_fuel k l : glob_names k l <> OutOfFuel.
Proof. induction l as [|f l IH]; cbn [glob_names]; [discriminate|]. destruct (_ <? _); [|discriminate]. destruct (glob_names k l); [discriminate..|contradiction]. Qed.
Theorem walks_end w pt p incl excl :
  (exists l, M_Walk.collect_build_files (fs_list fs) (fs_stat fs) (fs_link fs) fuel w pt = Ret l /\ found_build_files fuel fs w pt = map fp_path l) /\
  (exists l, glob_files (fs_list fs) (fs_stat fs) fuel w p incl excl = Ret l /\ globbed_files fuel fs w p incl excl = l).
Proof.
  split.
  - assert (H : exists l, M_Walk.collect_build_files (fs_list fs) (fs_stat fs) (fs_link fs) fuel w pt = Ret l).
    { unfold M_Walk.collect_build_files. destruct (search_dir w pt) as [root|]; [|eauto]. apply (walk_ends inodes fuel enough). exact finite. }
    destruct H as (l & E). exists l. split; [exact E|]. unfold found_build_files. now rewrite E.
  - assert (H : exists l, glob_files (fs_list fs) (fs_stat fs) fuel w p incl excl = Ret l).
    { destruct (glob_files (fs_list fs) (fs_stat fs) fuel w p incl excl) as [l| |] eqn:E; [eauto| |]; exfalso.
      - exact (multi_glob_defined (fs_list fs) (fs_stat fs) proper _ (proj1 (package_dir w p)) incl excl fuel E).
      - unfold glob_files, multi_glob in E.
        match type of E with context [collect_files_recursive _ _ ?wd ?wf fuel ?root] => destruct (walk_ends inodes fuel enough (fs_list fs) (fs_stat fs) wd wf root finite) as (l & El) end.
        rewrite El in E. cbn [bind] in E. exact (glob_names_fuel _ _ E). }
    destruct H as (l & E). exists l. split; [exact E|]. unfold globbed_files. now rewrite E.
Qed.
End Fuel.
