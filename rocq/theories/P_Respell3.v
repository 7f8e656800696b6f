(** Proofs for C76, continued: following canonicalize. *)
From Verif Require Import Base OMap M_Types S_Labels P_Types M_Scanner M_Ast M_Parser M_Query S_Query P_Query M_Elab M_Workspace M_Project M_DepGraph S_DepGraph
  M_Headers S_Headers P_Headers M_Dwyu S_Dwyu P_Dwyu S_Converge P_Converge M_Edits P_Edits C_Edits S_Respell P_Respell.

Lemma found_all ast rs all : Forall proper_call (flat_map rule_calls ast) -> find_targets [] ast = Ret rs -> find_targets_allow_empty [] ast = Ret all ->
  rs = filter (chosen [] false) all.
Proof.
  intros P E A. unfold find_targets, find_targets_allow_empty in *. rewrite find_targets_spec in E, A by exact P. injection E as <-. injection A as <-. apply reported_chosen, P.
Qed.
Lemma Forall2_right {A B} (R : A -> B -> Prop) l l' y : Forall2 R l l' -> In y l' -> exists x, In x l /\ R x y.
Proof. induction 1 as [|a b l l' H F IH]; intros []; [subst; exists a; cbn; auto|]. destruct (IH H0) as (x & I & Hx). exists x. cbn; auto. Qed.

Lemma canon_extracts pr pt evs : canonicalize_edits pr pt = Ret evs -> forall key f rs r self, In (key, f) (pr_files pr) -> find_targets [] (pf_ast f) = Ret rs -> In r rs ->
  qualified_target (pf_package f) (v_text (q_name r)) = Some self -> match_target pt self = true -> exists deps, extract_string_list (q_deps r) = Ret deps.
Proof.
  intros CE key f rs r self If E Ir Q M. apply C63_order in CE as (per_file & F & _). destruct (Forall2_in_l _ _ _ _ F If) as (e & _ & FE).
  destruct FE as [(rs0 & per_rule & E0 & FR & _)|[M0 _]].
  - cbn [snd] in E0. assert (rs0 = rs) as -> by congruence. destruct (Forall2_in_l _ _ _ _ FR Ir) as (e0 & _ & [(self0 & deps & Q0 & _ & X & _)|[No _]]); [eauto|].
    cbn [snd] in No. rewrite (No _ Q) in M. discriminate.
  - cbn [snd] in M0. apply match_package_filter in M. rewrite (qualified_package _ _ _ Q), M0 in M. discriminate.
Qed.
Section Follow.
Variables pr pr' : parsed_project.
Variable pt : pattern.
Variable evs : list canon_event.
Hypothesis CE : canonicalize_edits pr pt = Ret evs.
Hypothesis RN : project_renamed (edits_of_canon evs) pr pr'.
Hypothesis WF : forall key f, In (key, f) (pr_files pr) -> wf_project (project (pf_package f)).
Hypothesis PL : plain_labels pr.

Lemma in_all key f rs r : In (key, f) (pr_files pr) -> find_targets [] (pf_ast f) = Ret rs -> In r rs -> exists all, find_targets_allow_empty [] (pf_ast f) = Ret all /\ In r all.
Proof.
  intros If E I. destruct (Forall2_in_l _ _ _ _ RN If) as ([key' f'] & _ & _ & FW). cbn [snd] in FW. destruct FW as (_ & _ & P & _ & all & all' & A & _).
  exists all. split; [exact A|]. rewrite (found_all _ _ _ P E A) in I. apply filter_In in I. tauto.
Qed.
Lemma edit_renames key f r t l l' : In (key, f) (pr_files pr) -> qualified_target (pf_package f) (v_text (q_name r)) = Some t -> In (mkEdit KRename t l l') (edits_of_canon evs) ->
  exists x, parse_target l (pf_package f) = Some x /\ l' = target_to_string_rel x (pf_package f) /\ parse_target l' (pf_package f) = Some x.
Proof.
  intros If Q I. apply (C63_edits _ _ _ CE) in I. destruct I as (key2 & f2 & rs & r2 & self & deps & d & x & If2 & E & Ir & Q2 & M & X & Id & T & N & Ee).
  injection Ee as <- -> ->. assert (P : pf_package f2 = pf_package f) by (rewrite <- (qualified_package _ _ _ Q2); apply (qualified_package _ _ _ Q)).
  destruct (in_all _ _ _ _ If2 E Ir) as (all & A & Ia). destruct (PL _ _ _ _ (v_text d) x If2 A Ia) as [D1 D2].
  - rewrite <- (extract_texts _ _ X). now apply in_map.
  - exact T.
  - rewrite <- P. exists x. split; [exact T|]. split; [reflexivity|]. eapply canonical_same_target; eauto.
Qed.
Theorem renamed_respelled : project_respelled pr pr'.
Proof.
  unfold project_respelled, project_renamed, project_with in *.
  assert (H : forall x x', In x (pr_files pr) -> fst x = fst x' /\ file_with (renamed_dep (edits_of_canon evs)) (snd x) (snd x') -> fst x = fst x' /\ file_respelled (snd x) (snd x')).
  { intros [key f] [key' f'] If [K (P1 & P2 & P3 & P4 & all & all' & A & A' & F)]. cbn [fst snd] in *. split; [exact K|]. right. do 4 (split; [assumption|]). exists all, all'. do 2 (split; [assumption|]).
    revert F. apply Forall2_first. intros r r' (H1 & H2 & H3 & H4 & H5 & H6 & H7 & H8 & H9 & H10 & H11 & H12 & H13 & H14 & H15 & H16 & D). do 16 (split; [assumption|]).
    revert D. apply Forall2_first. intros d d' [D M]. split; [|exact M]. unfold renamed_dep in D. unfold means_same. destruct (qualified_target _ _) as [t|] eqn:Q; [|congruence].
    destruct D as [I|[_ ->]]; [|reflexivity]. destruct (edit_renames _ _ _ _ _ _ If Q I) as (x & X & _ & X'). congruence. }
  clear - RN H. unfold project_renamed, project_with in RN. revert H. induction RN as [|x x' l l' R F IH]; intros H; constructor; [apply H; [now left|exact R]|]. apply IH; [exact F|]. intros y y' I. apply H. now right.
Qed.

Variable evs' : list canon_event.
Hypothesis CE' : canonicalize_edits pr' pt = Ret evs'.
(** The rules of the new project and where they come from. *)
Lemma comes_from key' f' rs' r' self : In (key', f') (pr_files pr') -> find_targets [] (pf_ast f') = Ret rs' -> In r' rs' -> qualified_target (pf_package f') (v_text (q_name r')) = Some self ->
  exists key f rs r, In (key, f) (pr_files pr) /\ find_targets [] (pf_ast f) = Ret rs /\ In r rs /\ qualified_target (pf_package f) (v_text (q_name r)) = Some self /\ pf_package f = pf_package f' /\
    Forall2 (renamed_in (edits_of_canon evs) self) (texts (list_of (q_deps r))) (texts (list_of (q_deps r'))).
Proof.
  intros If E Ir Q. destruct (Forall2_right _ _ _ _ RN If) as ([key f] & Jf & _ & FW). cbn [snd] in FW. destruct FW as (P1 & P2 & P3 & P4 & all & all' & A & A' & F).
  assert (R : exists rs, find_targets [] (pf_ast f) = Ret rs) by (unfold find_targets; rewrite find_targets_spec by exact P3; eauto). destruct R as (rs & R).
  pose proof (found_all _ _ _ P3 R A) as ->. pose proof (found_all _ _ _ P4 E A') as ->.
  assert (F2 : Forall2 (fun r r' => rule_with (renamed_dep (edits_of_canon evs) (pf_package f) r) f f' r r') (filter (chosen [] false) all) (filter (chosen [] false) all')).
  { apply Forall2_chosen; [|exact F]. intros a a' (E1 & E2 & _). auto. }
  destruct (Forall2_right _ _ _ _ F2 Ir) as (r & Jr & RW). exists key, f, (filter (chosen [] false) all), r. destruct RW as (_ & N & _ & _ & _ & _ & _ & _ & _ & _ & _ & _ & _ & _ & _ & _ & D).
  assert (Q' : qualified_target (pf_package f) (v_text (q_name r)) = Some self) by (rewrite N, P1; exact Q).
  repeat (split; [assumption|]). rewrite <- !entries_texts. induction D as [|d d' l l' [X _] _ IH]; [constructor|]. constructor; [|exact IH]. unfold renamed_dep in X. now rewrite Q' in X.
Qed.
Lemma goes_to key f rs r self : In (key, f) (pr_files pr) -> find_targets [] (pf_ast f) = Ret rs -> In r rs -> qualified_target (pf_package f) (v_text (q_name r)) = Some self ->
  exists key' f' rs' r', In (key', f') (pr_files pr') /\ find_targets [] (pf_ast f') = Ret rs' /\ In r' rs' /\ qualified_target (pf_package f') (v_text (q_name r')) = Some self /\ pf_package f = pf_package f' /\
    Forall2 (renamed_in (edits_of_canon evs) self) (texts (list_of (q_deps r))) (texts (list_of (q_deps r'))).
Proof.
  intros If E Ir Q. destruct (Forall2_in_l _ _ _ _ RN If) as ([key' f'] & Jf & _ & FW). cbn [snd] in FW. destruct FW as (P1 & P2 & P3 & P4 & all & all' & A & A' & F).
  assert (R : exists rs, find_targets [] (pf_ast f') = Ret rs) by (unfold find_targets; rewrite find_targets_spec by exact P4; eauto). destruct R as (rs' & R).
  pose proof (found_all _ _ _ P3 E A) as ->. pose proof (found_all _ _ _ P4 R A') as ->.
  assert (F2 : Forall2 (fun r r' => rule_with (renamed_dep (edits_of_canon evs) (pf_package f) r) f f' r r') (filter (chosen [] false) all) (filter (chosen [] false) all')).
  { apply Forall2_chosen; [|exact F]. intros a a' (E1 & E2 & _). auto. }
  destruct (Forall2_in_l _ _ _ _ F2 Ir) as (r' & Jr & RW). exists key', f', (filter (chosen [] false) all'), r'. destruct RW as (_ & N & _ & _ & _ & _ & _ & _ & _ & _ & _ & _ & _ & _ & _ & _ & D).
  assert (Q' : qualified_target (pf_package f') (v_text (q_name r')) = Some self) by (rewrite <- N, <- P1; exact Q).
  repeat (split; [assumption|]). rewrite <- !entries_texts. induction D as [|d d' l l' [X _] _ IH]; [constructor|]. constructor; [|exact IH]. unfold renamed_dep in X. now rewrite Q in X.
Qed.
Lemma extracted key f rs r self : In (key, f) (pr_files pr) -> find_targets [] (pf_ast f) = Ret rs -> In r rs -> qualified_target (pf_package f) (v_text (q_name r)) = Some self ->
  match_target pt self = true -> exists deps, extract_string_list (q_deps r) = Ret deps.
Proof. exact (canon_extracts _ _ _ CE key f rs r self). Qed.
Lemma extracted' key f rs r self : In (key, f) (pr_files pr') -> find_targets [] (pf_ast f) = Ret rs -> In r rs -> qualified_target (pf_package f) (v_text (q_name r)) = Some self ->
  match_target pt self = true -> exists deps, extract_string_list (q_deps r) = Ret deps.
Proof. exact (canon_extracts _ _ _ CE' key f rs r self). Qed.
Theorem renamed_twice : edits_of_canon evs' = [].
Proof.
  destruct (edits_of_canon evs') as [|e es] eqn:Es; [reflexivity|]. exfalso. assert (I : In e (edits_of_canon evs')) by (rewrite Es; now left).
  apply (C63_edits _ _ _ CE') in I. destruct I as (key' & f' & rs' & r' & self & deps & d & x & If & E & Ir & Q & M & X & Id & T & N & ->).
  destruct (comes_from _ _ _ _ _ If E Ir Q) as (key & f & rs & r & Jf & E0 & Jr & Q0 & P & D).
  assert (Il : In (v_text d) (texts (list_of (q_deps r')))) by (rewrite <- (extract_texts _ _ X); now apply in_map).
  destruct (Forall2_right _ _ _ _ D Il) as (l & Jl & [I|[I Eq]]).
  - destruct (edit_renames _ _ _ _ _ _ Jf Q0 I) as (y & Y & L & Y'). rewrite P in L, Y'. assert (x = y) as <- by congruence. contradiction.
  - destruct (extracted _ _ _ _ _ Jf E0 Jr Q0 M) as (deps0 & X0). rewrite <- Eq in I.
    apply (I (target_to_string_rel x (pf_package f'))). apply (C63_edits _ _ _ CE). exists key, f, rs, r, self, deps0.
    rewrite <- (extract_texts _ _ X0) in Jl. apply in_map_iff in Jl as (d0 & E1 & I0). exists d0, x. rewrite P in Q0. rewrite P, E1, <- Eq. repeat (split; [assumption|]). reflexivity.
Qed.
(** Labels that cannot be read are reported as before. *)
Theorem renamed_invalid l : In (CanonInvalid l) evs' <-> In (CanonInvalid l) evs.
Proof.
  rewrite (C63_invalid _ _ _ CE' l), (C63_invalid _ _ _ CE l). split.
  - intros (key' & f' & rs' & r' & self & deps & d & If & E & Ir & Q & M & X & Id & -> & T).
    destruct (comes_from _ _ _ _ _ If E Ir Q) as (key & f & rs & r & Jf & E0 & Jr & Q0 & P & D).
    assert (Il : In (v_text d) (texts (list_of (q_deps r')))) by (rewrite <- (extract_texts _ _ X); now apply in_map).
    destruct (Forall2_right _ _ _ _ D Il) as (l0 & Jl & [I|[_ Eq]]).
    + destruct (edit_renames _ _ _ _ _ _ Jf Q0 I) as (y & _ & _ & Y'). rewrite P in Y'. congruence.
    + destruct (extracted _ _ _ _ _ Jf E0 Jr Q0 M) as (deps0 & X0). rewrite <- (extract_texts _ _ X0) in Jl. apply in_map_iff in Jl as (d0 & E1 & I0).
      rewrite P in Q0. exists key, f, rs, r, self, deps0, d0. rewrite P. repeat (split; [assumption|]). split; congruence.
  - intros (key & f & rs & r & self & deps & d & If & E & Ir & Q & M & X & Id & -> & T).
    destruct (goes_to _ _ _ _ _ If E Ir Q) as (key' & f' & rs' & r' & Jf & E0 & Jr & Q0 & P & D).
    assert (Il : In (v_text d) (texts (list_of (q_deps r)))) by (rewrite <- (extract_texts _ _ X); now apply in_map).
    destruct (Forall2_in_l _ _ _ _ D Il) as (l0 & Jl & [I|[_ Eq]]).
    + destruct (edit_renames _ _ _ _ _ _ If Q I) as (y & Y & _). congruence.
    + destruct (extracted' _ _ _ _ _ Jf E0 Jr Q0 M) as (deps0 & X0). rewrite <- (extract_texts _ _ X0) in Jl. apply in_map_iff in Jl as (d0 & E1 & I0).
      rewrite <- P in Q0. exists key', f', rs', r', self, deps0, d0. rewrite <- P. repeat (split; [assumption|]). split; congruence.
Qed.
End Follow.
