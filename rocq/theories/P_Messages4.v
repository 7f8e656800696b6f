(** Proofs about the messages of dwyu: they always can be said, and what -v does. *)
From Coq Require Import Sorted.
From Verif Require Import Base OMap M_Types M_Scanner S_Scanner P_Scanner M_Ast M_Parser S_Parser P_Parser M_Query S_Query P_Query M_Elab S_Elab P_Elab S_Locations P_Locations
  M_Workspace M_Project P_Project M_DepGraph S_DepGraph M_Headers S_Headers P_Headers M_Includes S_Includes P_Includes M_Dwyu S_Dwyu P_Dwyu M_Edits M_Printer M_Highlight
  M_Commands S_Commands P_Commands M_Messages S_Messages P_Messages P_DepGraph P_Messages2 C_Locations P_Total P_Messages3.

(** * Everything can be said *)
Lemma entry_view o v : In v (entries (list_of o)) -> In v (list_views o).
Proof.
  unfold entries, list_of, list_views. intros I. apply in_flat_map in I as (n & Hn & Hd). destruct o as [l|]; [|contradiction].
  apply in_flat_map. exists n. split; auto. destruct n; cbn in Hd; try contradiction; destruct (is_nil _); try contradiction; destruct Hd as [<-|[]]; left; auto.
Qed.
Lemma loc_in f v : within (pf_content f) v -> exists s, loc f v = Ret s.
Proof. intros W. apply loc_defined. unfold within in W. destruct (v_org v); apply W. Qed.
Lemma within_placed content v : within content v -> placed_in content v.
Proof. unfold within, placed_in. intros W off E. rewrite E in W. apply W. Qed.

Section Said.
Variable w : workspace.
Variable read_file : str -> option str.
Hypothesis Sizes : forall name content, read_file name = Some content -> (Z.of_nat (length content) < 2147483647)%Z.
Variable ignore_keep : bool.
Variable verbose : nat.
Variable color : bool.
Variable headers : provided_set.
Variable generated : provided.
Variable known : list (target * result).
Hypothesis RK : readable_known known.

Lemma provider_lines_defined t l ts : exists ms, provider_lines color known t l ts = Ret ms.
Proof. induction ts as [|a ts [ms IH]]; cbn [provider_lines]; eauto. destruct (can_see_defined known RK t a) as [b ->]. cbn [bind]. rewrite IH. cbn. eauto. Qed.
Lemma maybe_log_defined t l inc ts : exists ms, maybe_log verbose color known t l inc ts = Ret ms.
Proof. unfold maybe_log. destruct (verbose <? 3); eauto. destruct (provider_lines_defined t l ts) as [ms ->]. cbn. eauto. Qed.
Lemma include_told_defined t p srcs g l inc : exists x, include_told verbose color headers generated known t p srcs g l inc = Ret x.
Proof.
  unfold include_told. destruct (is_header_in_list _ _ _); eauto. destruct (is_header_in_list _ _ _); eauto.
  destruct (find_by_suffix headers inc 2) as [r|].
  { destruct (maybe_log_defined t l inc (fr_targets r)) as [ms ->]. cbn. eauto. }
  destruct (find_by_suffix headers (qualified_file p inc) 2) as [r|].
  { destruct (maybe_log_defined t l inc (fr_targets r)) as [ms ->]. cbn. eauto. }
  destruct (map_find inc generated); eauto. destruct (0 <? verbose); eauto.
Qed.
Lemma includes_told_defined t p srcs g name content incs : (Z.of_nat (length content) < 2147483647)%Z -> incl incs (extract_cc_includes content) ->
  exists x, includes_told verbose color headers generated known t p srcs g name content (extract_cc_includes content) incs = Ret x.
Proof.
  intros Sz. induction incs as [|[off inc] incs IH]; intros Sub; cbn [includes_told]; eauto.
  destruct (source_loc_spec name content off inc Sz) as (l & -> & _); [apply Sub; left; auto|]. cbn [bind].
  destruct (include_told_defined t p srcs g l inc) as [[m1 r1] ->]. cbn [bind].
  destruct IH as [[m2 r2] ->]; [intros x I; apply Sub; right; auto|]. cbn. eauto.
Qed.
Lemma source_told_defined t f srcs src : within (pf_content f) src -> exists ms, source_told w read_file verbose color headers generated known t f srcs src = Ret ms.
Proof.
  intros W. destruct (loc_in f src W) as [l L]. unfold source_told.
  destruct (try_open_at read_file (fully_qualified_file w (pf_package f) (v_text src))) as [[[name content] g]|] eqn:O.
  - apply try_at_opened in O as (b & l0 & a & _ & _ & R & _).
    destruct (includes_told_defined t (pf_package f) srcs g name content (extract_cc_includes content)) as [[ms refer] ->]; [eauto|apply incl_refl|]. cbn [bind].
    destruct refer; eauto. rewrite L. cbn [bind]. eauto.
  - rewrite L. cbn [bind]. eauto.
Qed.
Lemma sources_told_defined t f srcs todo : Forall (within (pf_content f)) todo -> exists ms, sources_told w read_file verbose color headers generated known t f srcs todo = Ret ms.
Proof.
  induction 1 as [|src todo W _ [ms IH]]; cbn [sources_told]; eauto. destruct (source_told_defined t f srcs src W) as [m ->]. cbn [bind]. rewrite IH. cbn. eauto.
Qed.
Lemma check_deps_told_defined t f ak ds : Forall (within (pf_content f)) ds -> forall nd ch, exists x, check_deps_told ignore_keep verbose known t f ak ds nd ch = Ret x.
Proof.
  induction 1 as [|dep ds W _ IH]; intros nd ch; cbn [check_deps_told]; eauto.
  destruct (check_dep_defined ignore_keep known t f ak dep nd ch (within_placed _ _ W)) as [[[nd' ch'] e] E]. rewrite E. cbn [bind].
  assert (T : exists ms, flat_told (dep_told verbose t f dep) e = Ret ms).
  { destruct (loc_in f dep W) as [l L]. destruct (check_dep_events _ _ _ _ _ _ _ _ _ _ _ E) as [->|(x & -> & H)]; cbn [flat_told]; eauto.
    assert (T : exists ms, dep_told verbose t f dep x = Ret ms).
    { unfold dep_told. destruct x; eauto; rewrite ?L; cbn [bind]; eauto.
      destruct (1 <? verbose); eauto. destruct H as (_ & _ & d & ->). eauto. }
    destruct T as [ms ->]. cbn. eauto. }
  destruct T as [ms ->]. cbn [bind]. destruct (IH nd' ch') as [[[n e'] m'] ->]. cbn. eauto.
Qed.
Lemma need_told_defined t f details e s : within (pf_content f) (q_name details) -> (forall r, map_find t known = Some r -> within (pf_content f) (q_name r)) ->
  add_needed known t s = Ret e -> exists ms, need_told verbose known t f details e = Ret ms.
Proof.
  intros W N A. destruct (loc_in f _ W) as [l L].
  assert (Iv : forall d, exists ms, invisible_told verbose f details d = Ret ms) by (intros d; unfold invisible_told; destruct (1 <? verbose); eauto; rewrite L; cbn; eauto).
  unfold need_told. destruct e; eauto; [rewrite L; cbn [bind]; eauto|].
  assert (F : exists r, map_find t known = Some r).
  { unfold add_needed in A. destruct s as [|a [|b s]]; try discriminate. step A as v by S. apply ret_eq in A. destruct v; [|discriminate].
    destruct (is_testonly_compatible known t a) eqn:C; [discriminate|]. unfold is_testonly_compatible in C. destruct (map_find a known); [|discriminate].
    destruct (negb _); [discriminate|]. destruct (map_find t known); eauto; discriminate. }
  destruct F as [r F]. rewrite F. destruct (loc_in f _ (N r F)) as [l' ->]. cbn [bind]. destruct (Iv dep) as [ms ->]. cbn [bind]. eauto.
Qed.
Lemma needs_told_defined t f details evs : within (pf_content f) (q_name details) -> (forall r, map_find t known = Some r -> within (pf_content f) (q_name r)) ->
  (forall e, In e evs -> exists s, add_needed known t s = Ret e) -> exists ms, flat_told (need_told verbose known t f details) evs = Ret ms.
Proof.
  intros W N. induction evs as [|e evs IH]; intros A; cbn [flat_told]; eauto. destruct (A e (or_introl eq_refl)) as [s As].
  destruct (need_told_defined t f details e s W N As) as [m ->]. cbn [bind]. destruct IH as [m' ->]; [intros x I; apply A; right; auto|]. cbn. eauto.
Qed.
Lemma create_edits_told_defined t details f : readable_results [details] -> (forall v, In v (result_views details) -> within (pf_content f) v) ->
  (forall r, map_find t known = Some r -> within (pf_content f) (q_name r)) ->
  exists x, create_edits_told w read_file ignore_keep verbose color headers generated known t details f = Ret x.
Proof.
  intros R Wi N. unfold create_edits_told.
  assert (R' : forall l, In l (result_lists details) -> exists strs, string_list l = Ret strs) by (intros l; apply R; left; reflexivity).
  destruct (extract_defined details (q_srcs details) R') as [a Ha]; [cbn; auto 10|].
  destruct (extract_defined details (q_hdrs details) R') as [b Hb]; [cbn; auto 10|]. rewrite Ha, Hb. cbn [bind]. apply extract_entries in Ha, Hb.
  match goal with |- context [needed_by_sources w read_file headers known t ?p ?x ?x] => destruct (needed_by_sources_defined w read_file headers known RK t p x x) as [[nd ak] Hn]; rewrite Hn end. cbn [bind].
  destruct (sources_told_defined t f (map v_text (a ++ b)) (a ++ b)) as [ms ->].
  { apply Forall_forall. intros v I. apply Wi. apply in_app_iff in I as [I|I]; subst; apply entry_view in I; unfold result_views; rewrite !in_app_iff; auto 10. }
  cbn [bind].
  destruct (needed_by_sources_spec _ _ _ _ _ _ _ _ _ _ Hn) as (N1 & _ & _).
  destruct (minimize_spec nd) as (sets & -> & M1 & M2 & M3); [intros s I; now apply N1|]. cbn [bind].
  destruct (extract_defined details (q_deps details) R') as [ds Hd]; [cbn; auto 10|]. rewrite Hd. cbn [bind]. apply extract_entries in Hd. subst ds.
  destruct (check_deps_told_defined t f ak (entries (list_of (q_deps details)))) with (nd := sets) (ch := @nil (target * target)) as [[[n e] ms'] Hc].
  { apply Forall_forall. intros v I. apply Wi. apply entry_view in I; unfold result_views; rewrite !in_app_iff; auto 10. }
  rewrite Hc. cbn [bind]. apply check_deps_erase in Hc.
  destruct (check_deps_spec ignore_keep known t f ak sets M3 _ [] sets [] n e (tracks_init sets) Hc) as (-> & _ & _).
  destruct (add_all_needed_defined known RK t (left_over sets (resolved (tpackage t) (map v_text ([] ++ entries (list_of (q_deps details))))))) as [e' He].
  { intros s I. apply filter_In in I as [I _]. now apply M2. }
  cbn [app] in He |- *. rewrite He. cbn [bind].
  destruct (needs_told_defined t f details e') as [m3 ->]; auto.
  - apply Wi. unfold result_views. rewrite !in_app_iff. right. left. cbn; auto.
  - intros x I. apply (add_all_spec _ _ _ _ He) in I as (s & _ & As). eauto.
  - cbn. eauto.
Qed.
Lemma rules_told_defined pt f rs : readable_results rs -> (forall r v, In r rs -> In v (result_views r) -> within (pf_content f) v) ->
  (forall t r, tpackage t = pf_package f -> map_find t known = Some r -> within (pf_content f) (q_name r)) ->
  exists x, rules_told w read_file ignore_keep verbose color headers generated known pt f rs = Ret x.
Proof.
  intros R W N. induction rs as [|r rs IH]; cbn [rules_told]; eauto.
  destruct IH as [[[e' n'] m'] IH]; [intros r0 l J; apply R; right; auto|intros r0 v J; apply W; right; auto|].
  destruct (qualified_target _ _) as [t|] eqn:Q; eauto. destruct (match_target _ _); eauto.
  destruct (create_edits_told_defined t r f) as [[e m] ->].
  - intros r0 l [<-|[]]. apply R. left; auto.
  - intros v. apply W. left; auto.
  - intros r0. apply N. eapply qualified_package; eauto.
  - cbn [bind]. rewrite IH. cbn. eauto.
Qed.
End Said.

Lemma genfiles_told_defined f sfx t outs : Forall (within (pf_content f)) outs -> forall m, exists x, genfiles_told f sfx t outs m = Ret x.
Proof.
  induction 1 as [|g outs W _ IH]; intros m; cbn [genfiles_told]; eauto. cbv zeta. destruct (loc_in f g W) as [l L]. rewrite L. cbn [bind].
  match goal with |- exists x, bind ?a _ = _ => assert (A : exists ms, a = Ret ms) end.
  { destruct (map_find _ m); eauto. destruct (_ && _)%bool; eauto. }
  destruct A as [ms ->]. cbn [bind]. match goal with |- context [genfiles_told f sfx t outs ?y] => destruct (IH y) as [[m1 s1] ->] end. cbn. eauto.
Qed.
Lemma genrules_told_defined f sfx rs : readable_results rs -> (forall r v, In r rs -> In v (result_views r) -> within (pf_content f) v) -> forall m, exists x, genrules_told f sfx rs m = Ret x.
Proof.
  induction rs as [|r rs IH]; intros R W m; cbn [genrules_told]; eauto.
  assert (R' : forall l, In l (result_lists r) -> exists strs, string_list l = Ret strs) by (intros l; apply R; left; reflexivity).
  destruct (extract_defined r (q_outs r) R') as [a Ha]; [cbn; auto 10|]. rewrite Ha. cbn [bind]. apply extract_entries in Ha.
  match goal with |- exists x, bind ?a _ = _ => assert (A : exists ms, a = Ret ms) end.
  { destruct (qualified_target _ _); eauto. apply genfiles_told_defined. apply Forall_forall. intros v I. apply (W r); [left; auto|]. subst. apply entry_view in I. unfold result_views; rewrite !in_app_iff; auto 12. }
  destruct A as [[m1 s1] ->]. cbn [bind]. destruct (IH (fun r0 l J => R r0 l (or_intror J)) (fun r0 v J => W r0 v (or_intror J)) m1) as [[m2 s2] ->]. cbn. eauto.
Qed.
Lemma genrules_of_files_told_defined sfx files : (forall p f, In (p, f) files -> clean_file f) -> forall m, exists x, genrules_of_files_told sfx files m = Ret x.
Proof.
  induction files as [|[p f] files IH]; intros C m; cbn [genrules_of_files_told]; eauto.
  assert (Cf := C p f (or_introl eq_refl)).
  destruct (find_targets_defined [$"genrule"] false (pf_ast f) (clean_sound f Cf)) as (rs & E & Rr). unfold find_targets. rewrite E. cbn [bind].
  destruct (genrules_told_defined f sfx rs Rr) with (m := m) as [[m1 s1] ->]; [intros r v; eapply clean_views; eauto|]. cbn [bind].
  destruct (IH (fun p f I => C p f (or_intror I)) m1) as [[m2 s2] ->]. cbn. eauto.
Qed.
Lemma described_from files l t r : described files l -> In (t, r) l -> exists p f rs, In (p, f) files /\ find_targets library_kinds (pf_ast f) = Ret rs /\ In r rs /\
  qualified_target (pf_package f) (v_text (q_name r)) = Some t.
Proof.
  induction 1 as [|p f files rs l F _ IH]; [contradiction|]. intros I. apply in_app_iff in I as [I|I].
  - apply in_flat_map in I as (r' & Ir & I). destruct (qualified_target _ _) as [t'|] eqn:Q; [|contradiction]. destruct I as [I|[]]. injection I as <- <-. exists p, f, rs. cbn; auto.
  - destruct (IH I) as (p' & f' & rs' & X & Y). exists p', f', rs'. cbn; auto.
Qed.
Lemma known_within pr known p f t r : project_ok pr -> (forall p f, In (p, f) (pr_files pr) -> clean_file f) -> known_libraries pr = Ret known ->
  In (p, f) (pr_files pr) -> tpackage t = pf_package f -> map_find t known = Some r -> within (pf_content f) (q_name r).
Proof.
  intros [O Pk] C K I Pt F. apply (known_spec _ _ _ _ K) in F as (a & b & D & _).
  destruct (described_from _ _ t r D) as (p' & f' & rs & I' & Fr & Ir & Q); [apply in_or_app; right; left; auto|].
  assert (E : p' = p) by (apply qualified_package in Q; rewrite (Pk _ _ I) in Pt; rewrite (Pk _ _ I') in Q; congruence). subst p'.
  assert (f' = f) by (apply (msorted_find _ _ _ O) in I; apply (msorted_find _ _ _ O) in I'; congruence). subst f'.
  eapply clean_views; [eauto|exact Fr|exact Ir|]. unfold result_views. rewrite !in_app_iff. right. left. cbn; auto.
Qed.
Theorem told_defined w read_file ignore_keep verbose color pr pt : (forall name content, read_file name = Some content -> (Z.of_nat (length content) < 2147483647)%Z) ->
  project_ok pr -> (forall p f, In (p, f) (pr_files pr) -> clean_file f) -> exists x, dependency_edits_told w read_file ignore_keep verbose color pr pt = Ret x.
Proof.
  intros Sizes Ok C. assert (R : readable_project pr) by (intros p f I; eapply clean_sound; eauto).
  unfold dependency_edits_told. destruct (headers_defined pr true R) as [headers ->]. cbn [bind].
  unfold generated_from_genrule_told. destruct (genrules_of_files_told_defined false (pr_files pr) C []) as [[generated s0] ->]. cbn [bind].
  destruct (known_in_defined (pr_files pr) R [] I) as (known & Hk & RK); [intros t r D; discriminate|]. fold (known_libraries pr) in Hk. rewrite Hk. cbn [bind].
  assert (G : exists x, files_told w read_file ignore_keep verbose color headers generated known pt (pr_files pr) = Ret x).
  { assert (Sub : incl (pr_files pr) (pr_files pr)) by apply incl_refl. revert Sub. generalize (pr_files pr) at 1 3. induction l as [|[p f] files IH]; intros Sub; cbn [files_told]; eauto.
    destruct IH as [[[e n] s] IH]; [intros x J; apply Sub; right; auto|].
    destruct (match_package _ _); eauto. assert (J := Sub (p, f) (or_introl eq_refl)).
    destruct (find_targets_defined [$"cc_library"; $"cc_binary"; $"cc_test"] false (pf_ast f) (R p f J)) as (rs & E & Rr).
    unfold find_targets. rewrite E. cbn [bind].
    destruct (rules_told_defined w read_file Sizes ignore_keep verbose color headers generated known RK pt f rs Rr) as [[[e' n'] s'] ->].
    - intros r v. eapply clean_views; eauto.
    - intros t r. eapply known_within; eauto.
    - cbn [bind]. rewrite IH. cbn. eauto. }
  destruct G as [[[e n] s] ->]. cbn. eauto.
Qed.

(** * More is told with -v *)
Section Verbose.
Variable w : workspace.
Variable read_file : str -> option str.
Variable ignore_keep : bool.
Variable v v' : nat.
Hypothesis Le : v <= v'.
Variable color : bool.
Variable headers : provided_set.
Variable generated : provided.
Variable known : list (target * result).
Lemma maybe_log_more t l inc ts m m' : maybe_log v color known t l inc ts = Ret m -> maybe_log v' color known t l inc ts = Ret m' -> part_of m m'.
Proof.
  unfold maybe_log. destruct (Nat.ltb_spec v 3), (Nat.ltb_spec v' 3); try lia.
  - intros A B. injection A as <-. injection B as <-. constructor.
  - intros A _. injection A as <-. apply part_empty.
  - intros A B. assert (m' = m) by congruence. subst. apply part_refl.
Qed.
Lemma fuzzy_more l inc r : part_of (fuzzy_message v l inc r) (fuzzy_message v' l inc r).
Proof.
  unfold fuzzy_message. destruct (negb _); cbn [andb]; [|constructor]. destruct (Nat.ltb_spec 1 v), (Nat.ltb_spec 1 v'); try lia; [apply part_refl|apply part_empty|constructor].
Qed.
Lemma include_more t p srcs g l inc m r m' r' : include_told v color headers generated known t p srcs g l inc = Ret (m, r) ->
  include_told v' color headers generated known t p srcs g l inc = Ret (m', r') -> part_of m m' /\ (r = true -> r' = true).
Proof.
  unfold include_told. assert (Same : forall x : list str * bool, Ret x = Ret (m, r) -> Ret x = Ret (m', r') -> part_of m m' /\ (r = true -> r' = true)).
  { intros x A B. assert (E : (m, r) = (m', r')) by congruence. injection E as <- <-. split; [apply part_refl|auto]. }
  destruct (is_header_in_list _ _ _); [apply Same|]. destruct (is_header_in_list _ _ _); [apply Same|].
  destruct (find_by_suffix headers inc 2) as [x|].
  { intros A B. step A as a by Sa. step B as b by Sb. apply ret_eq, pair_equal_spec in A as [<- <-]. apply ret_eq, pair_equal_spec in B as [<- <-].
    split; [|auto]. apply part_app; [apply fuzzy_more|eapply maybe_log_more; eauto]. }
  destruct (find_by_suffix headers (qualified_file p inc) 2) as [x|].
  { intros A B. step A as a by Sa. step B as b by Sb. apply ret_eq, pair_equal_spec in A as [<- <-]. apply ret_eq, pair_equal_spec in B as [<- <-].
    split; [|auto]. apply part_app; [apply part_refl|eapply maybe_log_more; eauto]. }
  destruct (map_find inc generated); [apply Same|]. destruct (Nat.ltb_spec 0 v), (Nat.ltb_spec 0 v'); try lia; [apply Same| |apply Same].
  intros A B. apply ret_eq, pair_equal_spec in A as [<- <-]. split; [apply part_empty|discriminate].
Qed.
Lemma includes_more t p srcs g name content all incs : forall m r m' r', includes_told v color headers generated known t p srcs g name content all incs = Ret (m, r) ->
  includes_told v' color headers generated known t p srcs g name content all incs = Ret (m', r') -> part_of m m' /\ (r = true -> r' = true).
Proof.
  induction incs as [|[off inc] incs IH]; intros m r m' r' A B; cbn [includes_told] in A, B.
  - injection A as <- <-. injection B as <- <-. split; [constructor|auto].
  - destruct (source_loc name content all off (length inc)) as [l| |]; try discriminate. cbn [bind] in A, B.
    step A as [a1 b1] by S1. step A as [a2 b2] by S2. step B as [c1 d1] by S3. step B as [c2 d2] by S4.
    injection A as <- <-. injection B as <- <-. destruct (include_more _ _ _ _ _ _ _ _ _ _ S1 S3) as [P1 R1]. destruct (IH _ _ _ _ eq_refl eq_refl) as [P2 R2].
    split; [now apply part_app|]. rewrite !orb_true_iff. tauto.
Qed.
Lemma source_more t f srcs src m m' : source_told w read_file v color headers generated known t f srcs src = Ret m ->
  source_told w read_file v' color headers generated known t f srcs src = Ret m' -> part_of m m'.
Proof.
  unfold source_told. destruct (try_open_at _ _) as [[[name content] g]|].
  - intros A B. step A as [a r] by S1. step B as [b r'] by S2. destruct (includes_more _ _ _ _ _ _ _ _ _ _ _ _ S1 S2) as [P R].
    destruct r.
    + rewrite R in B by auto. destruct (loc f src); try discriminate. cbn [bind] in A, B. apply ret_eq in A. apply ret_eq in B. subst. apply part_app; [auto|apply part_refl].
    + apply ret_eq in A. subst a. destruct r'.
      * destruct (loc f src); try discriminate. cbn [bind] in B. apply ret_eq in B. subst. rewrite <- (app_nil_r m). apply part_app; [auto|apply part_empty].
      * apply ret_eq in B. now subst.
  - intros A B. assert (m' = m) by congruence. subst. apply part_refl.
Qed.
Lemma sources_more t f srcs todo : forall m m', sources_told w read_file v color headers generated known t f srcs todo = Ret m ->
  sources_told w read_file v' color headers generated known t f srcs todo = Ret m' -> part_of m m'.
Proof.
  induction todo as [|src todo IH]; intros m m' A B; cbn [sources_told] in A, B.
  - injection A as <-. injection B as <-. constructor.
  - step A as a by S1. step A as a' by S2. step B as b by S3. step B as b' by S4. injection A as <-. injection B as <-. apply part_app; [eapply source_more; eauto|auto].
Qed.
Lemma dep_more t f dep e m m' : dep_told v t f dep e = Ret m -> dep_told v' t f dep e = Ret m' -> part_of m m'.
Proof.
  assert (Same : forall x, x = Ret m -> x = Ret m' -> part_of m m') by (intros x A B; assert (m' = m) by congruence; subst; apply part_refl).
  unfold dep_told. destruct e; try apply Same. destruct (Nat.ltb_spec 1 v), (Nat.ltb_spec 1 v'); try lia; try apply Same.
  intros A _. injection A as <-. apply part_empty.
Qed.
Lemma flat_more {A} (g g' : A -> outcome (list str)) l : (forall x m m', In x l -> g x = Ret m -> g' x = Ret m' -> part_of m m') ->
  forall m m', flat_told g l = Ret m -> flat_told g' l = Ret m' -> part_of m m'.
Proof.
  induction l as [|x l IH]; intros H m m' P Q; cbn [flat_told] in P, Q.
  - injection P as <-. injection Q as <-. constructor.
  - step P as a by S1. step P as a' by S2. step Q as b by S3. step Q as b' by S4. injection P as <-. injection Q as <-.
    apply part_app; [eapply H; eauto; left; auto|]. apply IH; auto. intros y n n' I. apply H. right; auto.
Qed.
Lemma check_deps_more t f ak ds : forall nd ch n e m n' e' m', check_deps_told ignore_keep v known t f ak ds nd ch = Ret (n, e, m) ->
  check_deps_told ignore_keep v' known t f ak ds nd ch = Ret (n', e', m') -> part_of m m'.
Proof.
  induction ds as [|dep ds IH]; intros nd ch n e m n' e' m' A B; cbn [check_deps_told] in A, B.
  - injection A as <- <- <-. injection B as <- <- <-. constructor.
  - destruct (check_dep ignore_keep known t f ak dep nd ch) as [[[n1 c1] e1]| |]; try discriminate. cbn [bind] in A, B.
    step A as a by S1. step A as [[n2 e2] a'] by S2. step B as b by S3. step B as [[n3 e3] b'] by S4. injection A as <- <- <-. injection B as <- <- <-.
    apply part_app; [|eapply IH; eauto]. eapply flat_more; [|exact S1|exact S3]. intros x y z _. apply dep_more.
Qed.
Lemma invisible_more f details d m m' : invisible_told v f details d = Ret m -> invisible_told v' f details d = Ret m' -> part_of m m'.
Proof.
  unfold invisible_told. destruct (Nat.ltb_spec 1 v), (Nat.ltb_spec 1 v'); try lia; intros A B.
  - assert (m' = m) by congruence; subst; apply part_refl.
  - injection A as <-. apply part_empty.
  - injection A as <-. apply part_empty.
Qed.
Lemma need_more t f details e m m' : need_told v known t f details e = Ret m -> need_told v' known t f details e = Ret m' -> part_of m m'.
Proof.
  assert (Same : forall x, x = Ret m -> x = Ret m' -> part_of m m') by (intros x A B; assert (m' = m) by congruence; subst; apply part_refl).
  unfold need_told. destruct e; try apply Same.
  - destruct (map_find t known); [|apply Same]. destruct (loc f _) as [l0| |]; try apply Same. cbn [bind]. intros A B.
    step A as a by S1. step B as b by S2. apply ret_eq in A. apply ret_eq in B. subst. constructor. eapply invisible_more; eauto.
  - apply invisible_more.
Qed.
Lemma create_more t details f e m e' m' : create_edits_told w read_file ignore_keep v color headers generated known t details f = Ret (e, m) ->
  create_edits_told w read_file ignore_keep v' color headers generated known t details f = Ret (e', m') -> part_of m m'.
Proof.
  intros A B. unfold create_edits_told in A, B.
  destruct (extract_string_list (q_srcs details)) as [srcs| |]; try discriminate. destruct (extract_string_list (q_hdrs details)) as [hdrs| |]; try discriminate. cbn [bind] in A, B.
  destruct (needed_by_sources _ _ _ _ _ _ _ _) as [[nd ak]| |]; try discriminate. cbn [bind] in A, B.
  step A as a1 by S1. step B as b1 by S2. destruct (minimize nd) as [sets| |]; try discriminate. cbn [bind] in A, B.
  destruct (extract_string_list (q_deps details)) as [deps| |]; try discriminate. cbn [bind] in A, B.
  step A as [[n e1] a2] by S3. step B as [[n' e1'] b2] by S4.
  assert (E1 := check_deps_erase _ _ _ _ _ _ _ _ _ _ _ _ S3). assert (E2 := check_deps_erase _ _ _ _ _ _ _ _ _ _ _ _ S4). assert (X : (n', e1') = (n, e1)) by congruence. injection X as -> ->.
  destruct (add_all_needed known t n) as [evs| |]; try discriminate. cbn [bind] in A, B. step A as a3 by S5. step B as b3 by S6. injection A as <- <-. injection B as <- <-.
  apply part_app; [eapply sources_more; [exact S1|exact S2]|]. apply part_app; [eapply check_deps_more; [exact S3|exact S4]|]. eapply flat_more; [|exact S5|exact S6]. intros x y z _. apply need_more.
Qed.
Lemma rules_more pt f rs : forall e n m e' n' m', rules_told w read_file ignore_keep v color headers generated known pt f rs = Ret (e, n, m) ->
  rules_told w read_file ignore_keep v' color headers generated known pt f rs = Ret (e', n', m') -> part_of m m'.
Proof.
  induction rs as [|r rs IH]; intros e n m e' n' m' A B; cbn [rules_told] in A, B.
  - injection A as <- <- <-. injection B as <- <- <-. constructor.
  - destruct (qualified_target _ _) as [t|]; [|eapply IH; eassumption]. destruct (match_target pt t); [|eapply IH; eassumption].
    step A as [e1 a1] by S1. step A as [[e2 n2] a2] by S2. step B as [e3 b1] by S3. step B as [[e4 n4] b2] by S4. injection A as <- <- <-. injection B as <- <- <-.
    apply part_app; [eapply create_more; [exact S1|exact S3]|eapply IH; reflexivity].
Qed.
Lemma files_more pt files : forall e n m e' n' m', files_told w read_file ignore_keep v color headers generated known pt files = Ret (e, n, m) ->
  files_told w read_file ignore_keep v' color headers generated known pt files = Ret (e', n', m') -> part_of m m'.
Proof.
  induction files as [|[p f] files IH]; intros e n m e' n' m' A B; cbn [files_told] in A, B.
  - injection A as <- <- <-. injection B as <- <- <-. constructor.
  - destruct (match_package _ _); [|eapply IH; eassumption]. destruct (find_targets _ _) as [rs| |]; try discriminate. cbn [bind] in A, B.
    step A as [[e1 n1] a1] by S1. step A as [[e2 n2] a2] by S2. step B as [[e3 n3] b1] by S3. step B as [[e4 n4] b2] by S4. injection A as <- <- <-. injection B as <- <- <-.
    apply part_app; [eapply rules_more; [exact S1|exact S3]|eapply IH; reflexivity].
Qed.
End Verbose.
Theorem told_more w read_file ignore_keep v v' color pr pt ev n log ev' n' log' : v <= v' ->
  dependency_edits_told w read_file ignore_keep v color pr pt = Ret (ev, n, log) ->
  dependency_edits_told w read_file ignore_keep v' color pr pt = Ret (ev', n', log') -> ev' = ev /\ n' = n /\ part_of log log'.
Proof.
  intros Le A B. assert (X := told_same _ _ _ _ _ _ _ _ _ _ A). assert (Y := told_same _ _ _ _ _ _ _ _ _ _ B).
  assert (E : (ev', n') = (ev, n)) by congruence. injection E as -> ->. split; [auto|]. split; [auto|].
  unfold dependency_edits_told in A, B. destruct (header_to_lib pr true) as [headers| |]; try discriminate. cbn [bind] in A, B.
  destruct (generated_from_genrule_told pr false) as [[generated s0]| |]; try discriminate. cbn [bind] in A, B.
  destruct (known_libraries pr) as [known| |]; try discriminate. cbn [bind] in A, B.
  step A as [[e1 n1] a1] by S1. step B as [[e2 n2] b1] by S2. apply ret_eq, pair_equal_spec in A as [A <-]. apply pair_equal_spec in A as [-> ->].
  apply ret_eq, pair_equal_spec in B as [B <-]. apply pair_equal_spec in B as [-> ->].
  apply part_app; [apply part_refl|]. apply part_app; [|apply part_refl]. eapply files_more; [exact Le|exact S1|exact S2].
Qed.

(** * The terminal *)
Section Color.
Variable w : workspace.
Variable read_file : str -> option str.
Variable ignore_keep : bool.
Variable v : nat.
Hypothesis Few : v < 3.
Variable c c' : bool.
Variable headers : provided_set.
Variable generated : provided.
Variable known : list (target * result).
Lemma maybe_log_none c0 t l inc ts : maybe_log v c0 known t l inc ts = Ret [].
Proof. unfold maybe_log. destruct (Nat.ltb_spec v 3); [auto|lia]. Qed.
Lemma include_color t p srcs g l inc : include_told v c headers generated known t p srcs g l inc = include_told v c' headers generated known t p srcs g l inc.
Proof. unfold include_told. repeat match goal with |- context [match ?x with _ => _ end] => destruct x end; auto; now rewrite !maybe_log_none. Qed.
Lemma bind_ext {A B} (x : outcome A) (f g : A -> outcome B) : (forall a, f a = g a) -> bind x f = bind x g.
Proof. intros H. destruct x; [apply H|reflexivity..]. Qed.
Lemma includes_color t p srcs g name content all incs :
  includes_told v c headers generated known t p srcs g name content all incs = includes_told v c' headers generated known t p srcs g name content all incs.
Proof.
  induction incs as [|[off inc] incs IH]; cbn [includes_told]; [reflexivity|]. apply bind_ext. intros l. rewrite include_color. apply bind_ext. intros [m r]. rewrite IH. reflexivity.
Qed.
Lemma source_color t f srcs src : source_told w read_file v c headers generated known t f srcs src = source_told w read_file v c' headers generated known t f srcs src.
Proof. unfold source_told. destruct (try_open_at _ _) as [[[name content] g]|]; [|reflexivity]. cbv zeta. rewrite includes_color. reflexivity. Qed.
Lemma sources_color t f srcs todo : sources_told w read_file v c headers generated known t f srcs todo = sources_told w read_file v c' headers generated known t f srcs todo.
Proof. induction todo as [|src todo IH]; cbn [sources_told]; [reflexivity|]. rewrite source_color. apply bind_ext. intros m. rewrite IH. reflexivity. Qed.
Lemma create_color t details f : create_edits_told w read_file ignore_keep v c headers generated known t details f = create_edits_told w read_file ignore_keep v c' headers generated known t details f.
Proof.
  unfold create_edits_told. apply bind_ext. intros srcs. apply bind_ext. intros hdrs. cbv zeta. apply bind_ext. intros [nd ak]. rewrite sources_color. reflexivity.
Qed.
Lemma rules_color pt f rs : rules_told w read_file ignore_keep v c headers generated known pt f rs = rules_told w read_file ignore_keep v c' headers generated known pt f rs.
Proof.
  induction rs as [|r rs IH]; cbn [rules_told]; [reflexivity|]. rewrite IH. destruct (qualified_target _ _) as [t|]; [|reflexivity]. rewrite create_color. reflexivity.
Qed.
Lemma files_color pt files : files_told w read_file ignore_keep v c headers generated known pt files = files_told w read_file ignore_keep v c' headers generated known pt files.
Proof.
  induction files as [|[p f] files IH]; cbn [files_told]; [reflexivity|]. rewrite IH. destruct (match_package _ _); [|reflexivity]. apply bind_ext. intros rs. rewrite rules_color. reflexivity.
Qed.
End Color.
Theorem told_color w read_file ignore_keep v c c' pr pt : v < 3 -> dependency_edits_told w read_file ignore_keep v c pr pt = dependency_edits_told w read_file ignore_keep v c' pr pt.
Proof.
  intros Few. unfold dependency_edits_told. apply bind_ext. intros headers. apply bind_ext. intros [g s]. apply bind_ext. intros known. rewrite (files_color _ _ _ _ Few c c'). reflexivity.
Qed.
