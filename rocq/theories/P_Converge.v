(** Proof that following the advice of "depend on what you use" once is enough. *)
From Verif Require Import Base OMap M_Types S_Labels P_Types M_Scanner P_Scanner M_Ast M_Parser M_Query S_Query M_Elab S_Elab P_Elab P_Query M_Workspace M_Project M_DepGraph S_DepGraph P_DepGraph
  M_Headers S_Headers P_Headers M_Includes S_Includes P_Includes M_Dwyu S_Dwyu P_Dwyu S_Converge.

(** * A line is unique *)
Lemma skipn_plus {A} (l : list A) a b : skipn (a + b) l = skipn b (skipn a l).
Proof. revert l. induction a as [|a IH]; intros l; [reflexivity|]. destruct l; [now rewrite !skipn_nil|]. apply IH. Qed.
Lemma last_line_unique (x : str) : forall b a b' a', x = b ++ a -> x = b' ++ a' -> ~ In NL a -> ~ In NL a' ->
  (b = [] \/ exists y, b = y ++ [NL]) -> (b' = [] \/ exists y, b' = y ++ [NL]) -> a = a'.
Proof.
  assert (G : forall b a b' a', b ++ a = b' ++ a' -> length b <= length b' -> ~ In NL a -> (b' = [] \/ exists y, b' = y ++ [NL]) -> a = a').
  { intros b a b' a' E L N [->|[y ->]].
    - destruct b; [exact E|cbn in L; lia].
    - destruct (app_eq_app _ _ _ _ E) as (l & [[-> ->]|[E1 ->]]).
      + rewrite !app_length in L. destruct l; [reflexivity|]. cbn in L. rewrite ?app_length in L. cbn in L. lia.
      + destruct l as [|c l _] using rev_ind; [reflexivity|]. exfalso. rewrite app_assoc in E1. apply app_inj_tail in E1 as [_ <-].
        apply N. apply in_or_app. left. apply in_or_app. right. now left. }
  intros b a b' a' -> E N N' B B'. destruct (Nat.le_ge_cases (length b) (length b')).
  - eapply G; eauto.
  - symmetry. eapply G; eauto.
Qed.
Lemma first_line_unique (x : str) : forall a b a' b', x = b ++ a -> x = b' ++ a' -> ~ In NL b -> ~ In NL b' ->
  (a = [] \/ exists y, a = NL :: y) -> (a' = [] \/ exists y, a' = NL :: y) -> b = b'.
Proof.
  intros a b a' b' -> . revert b'. induction b as [|c b IH]; intros b' E N N' A A'.
  - destruct b' as [|c' b']; auto. exfalso. cbn in E. destruct A as [->|[y ->]]; [discriminate|]. injection E as <- _. apply N'. now left.
  - destruct b' as [|c' b']; cbn in E.
    + exfalso. destruct A' as [->|[y ->]]; [discriminate|]. injection E as -> _. apply N. now left.
    + injection E as <- E. f_equal. apply IH; auto; intros I; [apply N|apply N']; now right.
Qed.
Lemma on_line_unique content v line line' : on_line content v line -> on_line content v line' -> line = line'.
Proof.
  unfold on_line. destruct (v_org v) as [off|o l]; [|congruence].
  intros (b & a & e & r & E & L & L2 & Ha & Hb & N & B & R) (b' & a' & e' & r' & E' & L' & L2' & Ha' & Hb' & N' & B' & R').
  set (len := length (v_text v)) in *.
  assert (S : forall b a e r line, content = b ++ line ++ r -> length b + length a = off -> length a + len + length e = length line ->
    firstn (length a) line = a -> skipn (length line - length e) line = e ->
    firstn off content = b ++ a /\ skipn (off + len) content = e ++ r /\ line = a ++ firstn len (skipn off content) ++ e).
  { clear. intros b a e r line -> L L2 Ha Hb.
    assert (X : line = a ++ firstn len (skipn (length a) line) ++ e).
    { rewrite <- Ha at 1. rewrite <- (firstn_skipn (length a) line) at 1. f_equal. rewrite <- Hb at 1.
      rewrite <- (firstn_skipn len (skipn (length a) line)) at 1. f_equal. rewrite <- skipn_plus. f_equal. lia. }
    set (m := firstn len (skipn (length a) line)) in *.
    assert (Lm : length m = len). { apply (f_equal (@length ascii)) in X. rewrite !app_length in X. lia. }
    clearbody m. subst line. clear Ha Hb L2.
    assert (E1 : b ++ (a ++ m ++ e) ++ r = (b ++ a) ++ m ++ e ++ r) by (rewrite <- !app_assoc; reflexivity).
    rewrite E1. assert (E2 : off = length (b ++ a)) by (rewrite app_length; lia).
    split; [|split].
    - rewrite E2, firstn_app, firstn_all, Nat.sub_diag. cbn. now rewrite app_nil_r.
    - rewrite E2, app_assoc, <- Lm, <- app_length, skipn_app, skipn_all, Nat.sub_diag. reflexivity.
    - f_equal. f_equal. rewrite E2, skipn_app, skipn_all, Nat.sub_diag. cbn [app skipn]. rewrite <- Lm, firstn_app, firstn_all, Nat.sub_diag. cbn. now rewrite app_nil_r. }
  destruct (S b a e r line E L L2 Ha Hb) as (S1 & S2 & ->). destruct (S b' a' e' r' line' E' L' L2' Ha' Hb') as (S1' & S2' & ->).
  assert (a = a'). { eapply last_line_unique; [exact S1|exact S1'|..]; auto; intros I; [apply N|apply N']; apply in_or_app; auto. }
  assert (e = e'). { eapply first_line_unique; [exact S2|exact S2'|..]; auto; intros I; [apply N|apply N']; apply in_or_app; auto. }
  subst. reflexivity.
Qed.

(** * One rule *)
(** The line of a dependency that is not needed was looked at. *)
Section Declared.
Variable ignore_keep : bool.
Variable known : list (target * result).
Variable t : target.
Variable f : parsed_file.
Variable sets : list (list target).
Hypothesis Apart : ForallOrdPairs apart sets.
Lemma check_deps_line deps : forall ds needed checked needed' ev, tracks sets ds needed checked ->
  check_deps ignore_keep known t f true deps needed checked = Ret (needed', ev) ->
  forall dep d, In dep deps -> parse_target (v_text dep) (tpackage t) = Some d -> (forall s, In s sets -> ~ In d s) ->
  is_alwayslink known d = false -> exists line, surrounding_line f dep = Ret line.
Proof.
  induction deps as [|x deps IH]; intros ds needed checked needed' ev T E dep d I P N A; [destruct I|]. cbn [check_deps] in E.
  destruct (check_dep ignore_keep known t f true x needed checked) as [[[n1 c1] e1]| |] eqn:E1; try discriminate. cbn [bind] in E.
  destruct (check_deps ignore_keep known t f true deps n1 c1) as [[n2 e2]| |] eqn:E2; try discriminate.
  destruct (check_dep_spec _ _ _ _ _ _ Apart _ _ _ _ _ _ _ T E1) as [T1 _].
  destruct I as [->|I]; [|eapply IH; eauto].
  destruct T as (-> & _ & Hc). unfold check_dep in E1. rewrite P in E1.
  pose proof (check_off_spec d (left_over sets ds) (apart_filter _ _ Apart)) as CO.
  destruct (check_off d (left_over sets ds)) as [[s n']|].
  { exfalso. destruct CO as (Is & Id & _). apply filter_In in Is as [Is _]. apply (N s Is Id). }
  destruct (map_find d checked) as [prev|] eqn:Ec.
  { exfalso. destruct (proj1 (Hc d) (ex_intro _ prev Ec)) as (s & I1 & I2 & _). apply (N s I1 I2). }
  rewrite A in E1. cbn [negb andb] in E1. destruct (surrounding_line f dep) as [line| |]; try discriminate. eauto.
Qed.
End Declared.

Section Known.
Variable w : workspace.
Variable read_file : str -> option str.
Variable headers : provided_set.
Variables known known' : list (target * result).
Hypothesis Sees : forall t d b b', can_see known t d = Ret b -> can_see known' t d = Ret b' -> b = b'.
Lemma visible_only_same t l : forall v v', visible_only known t l = Ret v -> visible_only known' t l = Ret v' -> v = v'.
Proof.
  induction l as [|a l IH]; intros v v' E E'; cbn [visible_only] in *; [congruence|].
  destruct (can_see known t a) as [b| |] eqn:Eb; try discriminate. destruct (can_see known' t a) as [b'| |] eqn:Eb'; try discriminate. cbn [bind] in *.
  destruct (visible_only known t l) as [r| |]; try discriminate. destruct (visible_only known' t l) as [r'| |]; try discriminate. cbn [bind] in *.
  rewrite (Sees _ _ _ _ Eb Eb') in E. rewrite (IH _ _ eq_refl eq_refl) in E. congruence.
Qed.
Lemma needed_by_includes_same t p srcs incs : forall r r', needed_by_includes headers known t p srcs incs = Ret r ->
  needed_by_includes headers known' t p srcs incs = Ret r' -> r = r'.
Proof.
  induction incs as [|i incs IH]; intros r r' E E'; cbn [needed_by_includes] in *; [congruence|].
  destruct (attribute headers t p srcs i) as [|l|].
  - eauto.
  - destruct (visible_only known t l) as [v| |] eqn:V; try discriminate. destruct (visible_only known' t l) as [v'| |] eqn:V'; try discriminate. cbn [bind] in *.
    destruct (needed_by_includes headers known t p srcs incs) as [[x ok]| |]; try discriminate. destruct (needed_by_includes headers known' t p srcs incs) as [[x' ok']| |]; try discriminate. cbn [bind] in *.
    rewrite (visible_only_same _ _ _ _ V V') in E. specialize (IH _ _ eq_refl eq_refl). injection IH as <- <-. congruence.
  - destruct (needed_by_includes headers known t p srcs incs) as [[x ok]| |]; try discriminate. destruct (needed_by_includes headers known' t p srcs incs) as [[x' ok']| |]; try discriminate. cbn [bind] in *.
    specialize (IH _ _ eq_refl eq_refl). injection IH as <- <-. congruence.
Qed.
Lemma needed_by_sources_same t p srcs todo : forall r r', needed_by_sources w read_file headers known t p srcs todo = Ret r ->
  needed_by_sources w read_file headers known' t p srcs todo = Ret r' -> r = r'.
Proof.
  induction todo as [|s todo IH]; intros r r' E E'; cbn [needed_by_sources] in *; [congruence|].
  destruct (try_open read_file (fully_qualified_file w p s)) as [c|].
  - destruct (needed_by_includes headers known t p srcs _) as [[x ok]| |] eqn:V; try discriminate. destruct (needed_by_includes headers known' t p srcs _) as [[x' ok']| |] eqn:V'; try discriminate. cbn [bind] in *.
    destruct (needed_by_sources w read_file headers known t p srcs todo) as [[y oky]| |]; try discriminate. destruct (needed_by_sources w read_file headers known' t p srcs todo) as [[y' oky']| |]; try discriminate. cbn [bind] in *.
    pose proof (needed_by_includes_same _ _ _ _ _ _ V V'). specialize (IH _ _ eq_refl eq_refl). injection IH as <- <-. congruence.
  - destruct (needed_by_sources w read_file headers known t p srcs todo) as [[y oky]| |]; try discriminate. destruct (needed_by_sources w read_file headers known' t p srcs todo) as [[y' oky']| |]; try discriminate. cbn [bind] in *.
    specialize (IH _ _ eq_refl eq_refl). injection IH as <- <-. congruence.
Qed.
End Known.

Section Rule.
Variables pr pr' : parsed_project.
Variable w : workspace.
Variable read_file : str -> option str.
Variable ignore_keep : bool.
Variable headers : provided_set.
Variables known known' : list (target * result).
Hypothesis Known : known_libraries pr = Ret known.
Hypothesis Known' : known_libraries pr' = Ret known'.
Hypothesis Sees : forall t d b b', can_see known t d = Ret b -> can_see known' t d = Ret b' -> b = b'.
Hypothesis Links : forall d, is_alwayslink known d = is_alwayslink known' d.
Hypothesis Tests : forall t d, is_testonly_compatible known t d = is_testonly_compatible known' t d.
Variable t : target.
Variables details details' : result.
Variables f f' : parsed_file.
Variables ev ev' : list event.
Hypothesis E : create_edits_for_target w read_file ignore_keep headers known t details f = Ret ev.
Hypothesis E' : create_edits_for_target w read_file ignore_keep headers known' t details' f' = Ret ev'.
Hypothesis Package : pf_package f = pf_package f'.
Hypothesis Sources : sources details = sources details'.
Hypothesis Deps : deps_edited ev t (pf_content f) (pf_content f') (list_of (q_deps details)) (list_of (q_deps details')).
Hypothesis Back : forall d v, needs pr w read_file headers t details (pf_package f) v -> In d v -> reads_back t d.

Lemma rerun : only_messages ev'.
Proof.
  destruct (edits_parts pr w read_file ignore_keep headers known Known t details f ev E) as (needed & ak & sets & e1 & e2 & N & Em & E5 & E6 & Ee & M1 & M2 & M3 & N1 & N2 & N3).
  destruct (edits_parts pr' w read_file ignore_keep headers known' Known' t details' f' ev' E') as (needed' & ak' & sets' & e1' & e2' & N' & Em' & E5' & E6' & Ee' & _).
  rewrite <- Package, <- Sources in N'. pose proof (needed_by_sources_same _ _ _ _ _ Sees _ _ _ _ _ _ N N') as X. injection X as <- <-.
  rewrite Em in Em'. injection Em' as <-. clear N' N.
  destruct (check_deps_spec _ _ _ _ _ _ M3 _ _ _ _ _ _ (tracks_init sets) E5) as (_ & C1 & C2).
  destruct (check_deps_spec _ _ _ _ _ _ M3 _ _ _ _ _ _ (tracks_init sets) E5') as (_ & C1' & C2').
  destruct Deps as (D1 & D2).
  set (targets := resolved (tpackage t) (texts (list_of (q_deps details)))) in *.
  set (targets' := resolved (tpackage t) (texts (list_of (q_deps details')))) in *.
  (* what is added *)
  assert (Added : forall l, In (EvAdd t l) ev -> exists a, l = target_to_string_rel a (tpackage t) /\ In [a] sets /\ parse_target l (tpackage t) = Some a).
  { intros l I. rewrite Ee in I. apply in_app_or in I as [I|I].
    { exfalso. destruct (C1 _ I) as [[]|(dep & _ & _ & X)]. discriminate. }
    apply (add_all_spec _ _ _ _ E6) in I as (s & Is & He). apply filter_In in Is as [Is _].
    unfold add_needed in He. destruct s as [|a [|b s]]; try discriminate.
    destruct (can_see known t a) as [b| |] eqn:Ec; try discriminate. cbn [bind] in He. injection He as He.
    destruct b; [|discriminate]. destruct (is_testonly_compatible known t a); [|discriminate]. injection He as <-.
    exists a. split; [auto|]. split; [auto|]. destruct (M2 _ Is) as (_ & v & Iv & Hv). apply (Back a v); auto. apply Hv. now left. }
  (* what is removed *)
  assert (Removed : forall l, In (EvRemove t l) ev <-> exists dep, In dep (entries (list_of (q_deps details))) /\ goes ignore_keep known t f ak sets dep /\ l = v_text dep).
  { intros l. rewrite Ee. split.
    - intros I. apply in_app_or in I as [I|I].
      + destruct (C1 _ I) as [[]|(dep & Id & G & X)]. injection X as ->. eauto.
      + exfalso. apply (add_all_spec _ _ _ _ E6) in I as (s & Is & He). unfold add_needed in He. destruct s as [|a [|b s]]; try discriminate.
        destruct (can_see known t a) as [b| |] eqn:Ec; try discriminate. cbn [bind] in He. injection He as He.
        destruct b; [|discriminate]. destruct (is_testonly_compatible known t a); discriminate.
    - intros (dep & Id & G & ->). apply in_or_app. left. auto. }
  (* what is struck before stays so *)
  assert (Stay : forall s, In s sets -> struck targets s = true -> struck targets' s = true).
  { intros s Is St. apply struck_spec in St as (d & Id & Jd). apply struck_spec. exists d. split; auto.
    unfold targets, resolved in Id. apply in_flat_map in Id as (l & Il & H). unfold targets', resolved. apply in_flat_map. exists l. split; [|exact H].
    apply D1. left. split; auto. intros R. apply Removed in R as (dep & _ & (d' & line & P & Nn & _) & ->).
    rewrite P in H. destruct H as [->|[]]. apply (Nn s Is Jd). }
  intros e I. rewrite Ee' in I. apply in_app_or in I as [I|I].
  - destruct (C1' _ I) as [M|(dep' & Id' & (d & line' & P & Nn & AK & AL & SL & K) & ->)]; [destruct e; auto; destruct M|].
    destruct (D2 dep' Id') as [A|(dep & Id & Ex & Mk)].
    + destruct (Added _ A) as (a & _ & Ia & Pa). assert (a = d) by congruence. subst a. apply (Nn _ Ia). now left.
    + assert (In (v_text dep') (texts (list_of (q_deps details')))) as Il by (rewrite <- entries_texts; now apply in_map).
      apply D1 in Il as [[_ NR]|A].
      2:{ destruct (Added _ A) as (a & _ & Ia & Pa). assert (a = d) by congruence. subst a. apply (Nn _ Ia). now left. }
      apply NR. apply Removed. exists dep. split; [auto|]. split; [|auto]. rewrite <- Links in AL. rewrite <- Ex in P.
      rewrite AK in E5. destruct (check_deps_line _ _ _ _ _ M3 _ _ _ _ _ _ (tracks_init sets) E5 dep d Id P Nn AL) as [line SL0].
      exists d, line. repeat (split; [assumption|]). destruct ignore_keep; auto. cbn [orb] in *. apply negb_true_iff in K. apply negb_true_iff.
      destruct (keep_comment line) eqn:Kl; auto. apply keep_spec in Kl.
      destruct Mk as (line2 & O2 & K2); [exists line; split; auto; now apply line_spec|].
      apply line_spec in SL. rewrite (on_line_unique _ _ _ _ O2 SL) in K2. apply keep_spec in K2. congruence.
  - apply (add_all_spec _ _ _ _ E6') in I as (s & Is & He). apply filter_In in Is as [Is St'].
    unfold add_needed in He. destruct s as [|a [|b s]]; [discriminate| |injection He as <-; exact I].
    destruct (can_see known' t a) as [b| |] eqn:Ec'; try discriminate. cbn [bind] in He. injection He as <-.
    destruct b; [|exact I]. destruct (is_testonly_compatible known' t a) eqn:Et; [|exact I]. exfalso.
    destruct (struck targets [a]) eqn:St; [rewrite (Stay _ Is St) in St'; discriminate|].
    assert (IL : In [a] (left_over sets targets)) by (apply filter_In; rewrite St; auto).
    destruct (add_all_defined _ _ _ _ _ E6 IL) as [e He]. assert (Ie : In e ev). { rewrite Ee. apply in_or_app. right. apply (add_all_spec _ _ _ _ E6). eauto. }
    unfold add_needed in He. destruct (can_see known t a) as [b| |] eqn:Ec; try discriminate. cbn [bind] in He. rewrite (Sees _ _ _ _ Ec Ec'), Tests, Et in He. injection He as <-.
    destruct (Added _ Ie) as (a' & Ea & _ & Pa). 
    assert (In a targets'); [|assert (X : struck targets' [a] = true) by (apply struck_spec; exists a; split; [auto|now left]); rewrite X in St'; discriminate].
    unfold targets', resolved. apply in_flat_map. exists (target_to_string_rel a (tpackage t)). split; [apply D1; auto|].
    assert (Rb : reads_back t a). { destruct (M2 _ Is) as (_ & v & Iv & Hv). apply (Back a v); auto. apply Hv. now left. }
    rewrite Rb. now left.
Qed.
End Rule.

(** * The rules of a file *)
Lemma nil_cons' {A} (x : A) l : x :: l <> [].
Proof. discriminate. Qed.
Lemma reported_filter kinds calls : kinds <> [] -> Forall proper_call calls -> forall vis,
  reported kinds false vis calls = filter (fun r => existsb (str_eqb (v_text (q_rule r))) kinds) (reported [] false vis calls).
Proof.
  intros K F. induction F as [|n calls (g & ty & args & ->) F IH]; intros vis; [reflexivity|]. cbn [reported].
  destruct (str_eqb (v_text g) ($"package")); [apply IH|]. rewrite filter_app, IH. f_equal. cbn [is_nil].
  destruct kinds as [|k ks]; [contradiction|]. set (kinds := k :: ks) in *. cbn [is_nil orb].
  destruct (negb (is_nil (v_text (q_name (S_Query.described (NCall (NId g) (NList ty args)) g (flat_map kwargs args)))))) eqn:E.
  2:{ cbn [orb filter]. destruct (existsb (str_eqb (v_text g)) kinds); reflexivity. }
  cbn [orb filter]. unfold completed, S_Query.described. cbn [q_rule]. destruct (existsb (str_eqb (v_text g)) kinds); reflexivity.
Qed.
Section Files.
Variable ev : list event.
Definition of_kind (kinds : list str) (r : result) : Prop := In (v_text (q_rule r)) kinds.
Lemma file_rules f f' : file_edited ev f f' -> forall kinds rs rs', kinds <> [] ->
  find_targets kinds (pf_ast f) = Ret rs -> find_targets kinds (pf_ast f') = Ret rs' ->
  Forall2 (fun r r' => rule_edited ev f f' r r' /\ of_kind kinds r /\ of_kind kinds r') rs rs'.
Proof.
  intros (_ & P & P' & all & all' & A & A' & F) kinds rs rs' K E E'. unfold find_targets in *.
  rewrite find_targets_spec in A, A', E, E' by auto. injection A as <-. injection A' as <-. injection E as <-. injection E' as <-.
  rewrite (reported_filter kinds _ K P), (reported_filter kinds _ K P'). induction F as [|r r' l l' H F IH]; [constructor|]. cbn [filter].
  rewrite <- (proj1 H). destruct (existsb (str_eqb (v_text (q_rule r))) kinds) eqn:Ek; [|exact IH]. constructor; [|exact IH].
  apply existsb_exists in Ek as (k & Ik & Ek). apply str_eqb_eq in Ek. unfold of_kind. rewrite <- (proj1 H), Ek. auto.
Qed.
Lemma file_rules_exist f f' : file_edited ev f f' -> forall kinds, (exists rs, find_targets kinds (pf_ast f) = Ret rs) /\ exists rs', find_targets kinds (pf_ast f') = Ret rs'.
Proof. intros (_ & P & P' & _) kinds. unfold find_targets. rewrite !find_targets_spec by auto. eauto. Qed.
Lemma file_rules_in f f' : file_edited ev f f' -> forall kinds rs r, kinds <> [] -> find_targets kinds (pf_ast f) = Ret rs -> In r rs ->
  exists all, find_targets [] (pf_ast f) = Ret all /\ In r all.
Proof.
  intros (_ & P & _ & all & _ & A & _) kinds rs r K E I. exists all. split; auto. unfold find_targets in *. rewrite find_targets_spec in A, E by auto.
  injection A as <-. injection E as <-. rewrite (reported_filter kinds _ K P) in I. apply filter_In in I. tauto.
Qed.

(** * The index of headers *)
Lemma texts_same o o' vs vs' : same_list o o' -> extract_string_list o = Ret vs -> extract_string_list o' = Ret vs' -> map v_text vs = map v_text vs'.
Proof. intros S E E'. apply extract_texts in E. apply extract_texts in E'. rewrite E, E'. exact S. Qed.
Lemma header_names_same f f' r r' p h l l' : rule_edited ev f f' r r' -> header_names p r h = Ret l -> header_names p r' h = Ret l' -> l = l'.
Proof.
  intros (_ & _ & _ & Hp & Hs & _ & _ & _ & _ & _ & _ & _ & Hi & _) E E'. unfold header_names in *. rewrite <- Hp, <- Hs in E'.
  destruct (negb (is_nil (v_text (q_include_prefix r)))); [congruence|].
  destruct (extract_string_list (q_includes r)) as [x| |] eqn:X; try discriminate. destruct (extract_string_list (q_includes r')) as [x'| |] eqn:X'; try discriminate. cbn [bind] in *.
  rewrite (texts_same _ _ _ _ Hi X X') in E. congruence.
Qed.
Lemma headers_names_same f f' r r' p skip hs : rule_edited ev f f' r r' -> forall l l', headers_names p r skip hs = Ret l -> headers_names p r' skip hs = Ret l' -> l = l'.
Proof.
  intros R. induction hs as [|h hs IH]; intros l l' E E'; cbn [headers_names] in *; [congruence|]. destruct (skip && str_eqb h ($"string_view.h")); [eauto|].
  destruct (header_names p r h) as [a| |] eqn:A; try discriminate. destruct (header_names p r' h) as [a'| |] eqn:A'; try discriminate. cbn [bind] in *.
  destruct (headers_names p r skip hs) as [b| |]; try discriminate. destruct (headers_names p r' skip hs) as [b'| |]; try discriminate. cbn [bind] in *.
  rewrite (header_names_same _ _ _ _ _ _ _ _ R A A') in E. rewrite (IH _ _ eq_refl eq_refl) in E. congruence.
Qed.
Lemma library_headers_same f f' r r' p l l' : rule_edited ev f f' r r' -> library_headers p r = Ret l -> library_headers p r' = Ret l' -> l = l'.
Proof.
  intros R E E'. unfold library_headers in *. pose proof R as (_ & Hn & _ & _ & _ & _ & _ & _ & _ & Hh & Ht & Hu & _).
  rewrite <- Hn in E'. destruct (qualified_target p (v_text (q_name r))) as [lib|]; [|congruence].
  destruct (extract_string_list (q_hdrs r)) as [x| |] eqn:X; try discriminate. destruct (extract_string_list (q_hdrs r')) as [x'| |] eqn:X'; try discriminate. cbn [bind] in *.
  destruct (extract_string_list (q_textual_hdrs r)) as [y| |] eqn:Y; try discriminate. destruct (extract_string_list (q_textual_hdrs r')) as [y'| |] eqn:Y'; try discriminate. cbn [bind] in *.
  destruct (extract_string_list (q_public_hdrs r)) as [z| |] eqn:Z; try discriminate. destruct (extract_string_list (q_public_hdrs r')) as [z'| |] eqn:Z'; try discriminate. cbn [bind] in *.
  rewrite (texts_same _ _ _ _ Hh X X'), (texts_same _ _ _ _ Ht Y Y'), (texts_same _ _ _ _ Hu Z Z') in E.
  destruct (headers_names p r _ _) as [b| |] eqn:B; try discriminate. destruct (headers_names p r' _ _) as [b'| |] eqn:B'; try discriminate. cbn [bind] in *.
  rewrite (headers_names_same _ _ _ _ _ _ _ R _ _ B B') in E. congruence.
Qed.
Lemma add_libraries_same f f' ai si p rs rs' : Forall2 (rule_edited ev f f') rs rs' -> forall m l l',
  add_libraries ai si p rs m = Ret l -> add_libraries ai si p rs' m = Ret l' -> l = l'.
Proof.
  induction 1 as [|r r' rs rs' R F IH]; intros m l l' E E'; cbn [add_libraries] in *; [congruence|].
  destruct (library_headers p r) as [a| |] eqn:A; try discriminate. destruct (library_headers p r') as [a'| |] eqn:A'; try discriminate. cbn [bind] in *.
  rewrite (library_headers_same _ _ _ _ _ _ _ R A A') in E. eauto.
Qed.
Lemma Forall2_first {A B} (R S : A -> B -> Prop) l l' : (forall x y, R x y -> S x y) -> Forall2 R l l' -> Forall2 S l l'.
Proof. induction 2; constructor; auto. Qed.
Lemma proto_libs_same f f' p rs rs' : Forall2 (fun r r' => rule_edited ev f f' r r' /\ of_kind [$"cc_proto_library"; $"cc_grpc_library"] r /\ of_kind [$"cc_proto_library"; $"cc_grpc_library"] r') rs rs' ->
  forall m l l', proto_libs p rs m = Ret l -> proto_libs p rs' m = Ret l' -> l = l'.
Proof.
  induction 1 as [|r r' rs rs' (R & K & _) F IH]; intros m l l' E E'; cbn [proto_libs] in *; [congruence|].
  pose proof R as (Hk & Hn & _ & _ & _ & _ & _ & _ & Hs & _ & _ & _ & _ & _ & _ & Hd).
  rewrite <- Hn in E'. destruct (qualified_target p (v_text (q_name r))) as [t|]; [|eauto].
  unfold is_grpc in *. rewrite <- Hk in E'. 
  assert (S : same_list (if str_eqb (v_text (q_rule r)) ($"cc_grpc_library") then q_srcs r else q_deps r) (if str_eqb (v_text (q_rule r)) ($"cc_grpc_library") then q_srcs r' else q_deps r')).
  { destruct (str_eqb (v_text (q_rule r)) ($"cc_grpc_library")); [exact Hs|]. apply Hd. intros I. unfold is_edited_kind in I.
    destruct K as [K|[K|[]]]; rewrite <- K in I; destruct I as [I|[I|[I|[]]]]; discriminate. }
  destruct (extract_string_list (if str_eqb (v_text (q_rule r)) ($"cc_grpc_library") then q_srcs r else q_deps r)) as [x| |] eqn:X; try discriminate.
  destruct (extract_string_list (if str_eqb (v_text (q_rule r)) ($"cc_grpc_library") then q_srcs r' else q_deps r')) as [x'| |] eqn:X'; try discriminate. cbn [bind] in *.
  rewrite (texts_same _ _ _ _ S X X') in E. eauto.
Qed.
Lemma add_proto_library_same f f' r r' p rev t lookup mid m l l' : rule_edited ev f f' r r' ->
  add_proto_library p rev t r lookup mid m = Ret l -> add_proto_library p rev t r' lookup mid m = Ret l' -> l = l'.
Proof.
  intros (_ & _ & _ & _ & _ & _ & _ & _ & Hs & _) E E'. unfold add_proto_library in *. destruct (map_find t lookup); [|congruence].
  destruct (extract_string_list (q_srcs r)) as [x| |] eqn:X; try discriminate. destruct (extract_string_list (q_srcs r')) as [x'| |] eqn:X'; try discriminate. cbn [bind] in *.
  rewrite (texts_same _ _ _ _ Hs X X') in E. congruence.
Qed.
Lemma add_proto_libraries_same f f' p rev libs rs rs' : Forall2 (rule_edited ev f f') rs rs' -> forall m l l',
  add_proto_libraries p rev libs rs m = Ret l -> add_proto_libraries p rev libs rs' m = Ret l' -> l = l'.
Proof.
  induction 1 as [|r r' rs rs' R F IH]; intros m l l' E E'; cbn [add_proto_libraries] in *; [congruence|].
  rewrite <- (proj1 (proj2 R)) in E'. destruct (qualified_target p (v_text (q_name r))) as [t|]; [|eauto].
  destruct (add_proto_library p rev t r (fst libs) [] m) as [a| |] eqn:A; try discriminate. destruct (add_proto_library p rev t r' (fst libs) [] m) as [a'| |] eqn:A'; try discriminate. cbn [bind] in *.
  rewrite (add_proto_library_same _ _ _ _ _ _ _ _ _ _ _ _ R A A') in E.
  destruct (add_proto_library p rev t r (snd libs) ($".grpc") a') as [b| |] eqn:B; try discriminate. destruct (add_proto_library p rev t r' (snd libs) ($".grpc") a') as [b'| |] eqn:B'; try discriminate. cbn [bind] in *.
  rewrite (add_proto_library_same _ _ _ _ _ _ _ _ _ _ _ _ R B B') in E. eauto.
Qed.
Local Notation files_edited := (Forall2 (fun x x' : package * parsed_file => fst x = fst x' /\ file_edited ev (snd x) (snd x'))).
Lemma headers_of_files_same ai si files files' : files_edited files files' -> forall m l l',
  headers_of_files ai si files m = Ret l -> headers_of_files ai si files' m = Ret l' -> l = l'.
Proof.
  induction 1 as [|[p f] [p' f'] files files' [_ R] F IH]; intros m l l' E E'; cbn [headers_of_files snd] in *; [congruence|].
  pose proof R as (Hp & _). unfold append_cc_library_headers, append_proto_library_headers in *.
  destruct (find_targets [$"cc_library"; $"grpc_cc_library"] (pf_ast f)) as [r1| |] eqn:R1; try discriminate. destruct (find_targets [$"cc_library"; $"grpc_cc_library"] (pf_ast f')) as [r1'| |] eqn:R1'; try discriminate. cbn [bind] in *.
  assert (F1 := file_rules _ _ R _ _ _ (@nil_cons' _ _ _) R1 R1').
  destruct (add_libraries ai si (pf_package f) r1 m) as [a| |] eqn:A; try discriminate. destruct (add_libraries ai si (pf_package f') r1' m) as [a'| |] eqn:A'; try discriminate. cbn [bind] in *.
  rewrite <- Hp in *.
  rewrite (add_libraries_same f f' _ _ _ _ _ (Forall2_first _ _ _ _ (fun x y H => proj1 H) F1) _ _ _ A A') in E.
  destruct (find_targets [$"cc_proto_library"; $"cc_grpc_library"] (pf_ast f)) as [r2| |] eqn:R2; try discriminate. destruct (find_targets [$"cc_proto_library"; $"cc_grpc_library"] (pf_ast f')) as [r2'| |] eqn:R2'; try discriminate. cbn [bind] in *.
  assert (F2 := file_rules _ _ R _ _ _ (@nil_cons' _ _ _) R2 R2').
  destruct (proto_libs (pf_package f) r2 ([], [])) as [b| |] eqn:B; try discriminate. destruct (proto_libs (pf_package f) r2' ([], [])) as [b'| |] eqn:B'; try discriminate. cbn [bind] in *.
  rewrite (proto_libs_same f f' _ _ _ F2 _ _ _ B B') in E.
  destruct (find_targets [$"proto_library"] (pf_ast f)) as [r3| |] eqn:R3; try discriminate. destruct (find_targets [$"proto_library"] (pf_ast f')) as [r3'| |] eqn:R3'; try discriminate. cbn [bind] in *.
  assert (F3 := file_rules _ _ R _ _ _ (@nil_cons' _ _ _) R3 R3').
  destruct (add_proto_libraries (pf_package f) si b' r3 a') as [c| |] eqn:C; try discriminate. destruct (add_proto_libraries (pf_package f) si b' r3' a') as [c'| |] eqn:C'; try discriminate. cbn [bind] in *.
  rewrite (add_proto_libraries_same f f' _ _ _ _ _ (Forall2_first _ _ _ _ (fun x y H => proj1 H) F3) _ _ _ C C') in E. eauto.
Qed.
Lemma aliases_same files files' : files_edited files files' -> forall m l l', aliases_in files m = Ret l -> aliases_in files' m = Ret l' -> l = l'.
Proof.
  induction 1 as [|[p f] [p' f'] files files' [_ R] F IH]; intros m l l' E E'; cbn [aliases_in snd] in *; [congruence|].
  destruct (find_targets [$"alias"] (pf_ast f)) as [r1| |] eqn:R1; try discriminate. destruct (find_targets [$"alias"] (pf_ast f')) as [r1'| |] eqn:R1'; try discriminate. cbn [bind] in *.
  assert (F1 := file_rules _ _ R _ _ _ (@nil_cons' _ _ _) R1 R1'). rewrite <- (proj1 R) in E'.
  assert (X : fold_left (alias_rule (pf_package f)) r1 m = fold_left (alias_rule (pf_package f)) r1' m); [|rewrite X in E; eauto].
  clear - F1. revert m. induction F1 as [|r r' rs rs' (R & _) F IH]; intros m; [reflexivity|]. cbn [fold_left]. rewrite IH. f_equal.
  unfold alias_rule. destruct R as (_ & E1 & E2 & _). rewrite E1, E2. reflexivity.
Qed.

(** * What is known of libraries *)
Definition alike (r r' : result) : Prop :=
  v_text (q_rule r) = v_text (q_rule r') /\ v_text (q_deprecation r) = v_text (q_deprecation r') /\
  q_alwayslink r = q_alwayslink r' /\ q_testonly r = q_testonly r' /\ same_labels (q_visibility r) (q_visibility r').
Local Notation known_alike := (Forall2 (fun x x' : target * result => fst x = fst x' /\ alike (snd x) (snd x'))).
Lemma insert_alike t r r' m m' : alike r r' -> known_alike m m' -> known_alike (map_insert t r m) (map_insert t r' m').
Proof.
  intros A. induction 1 as [|[k v] [k' v'] m m' [K V] F IH]; cbn [map_insert fst snd] in *.
  - constructor; [cbn; auto|constructor].
  - subst k'. destruct (kcmp t k); [constructor; cbn; auto|constructor; [cbn; auto|constructor; cbn; auto]|constructor; cbn; auto].
Qed.
Lemma find_alike t m m' : known_alike m m' ->
  match map_find t m, map_find t m' with Some r, Some r' => alike r r' | None, None => True | _, _ => False end.
Proof.
  induction 1 as [|[k v] [k' v'] m m' [K V] F IH]; cbn [map_find fst snd] in *; [exact I|]. subst k'. destruct (keqb t k); [exact V|exact IH].
Qed.
Lemma known_same files files' : files_edited files files' -> forall m m' l l', known_alike m m' -> known_in files m = Ret l -> known_in files' m' = Ret l' -> known_alike l l'.
Proof.
  induction 1 as [|[p f] [p' f'] files files' [_ R] F IH]; intros m m' l l' A E E'; cbn [known_in snd] in *; [injection E as <-; injection E' as <-; exact A|].
  destruct (find_targets known_rules (pf_ast f)) as [r1| |] eqn:R1; try discriminate. destruct (find_targets known_rules (pf_ast f')) as [r1'| |] eqn:R1'; try discriminate. cbn [bind] in *.
  assert (F1 := file_rules _ _ R _ _ _ (@nil_cons' _ _ _) R1 R1'). rewrite <- (proj1 R) in E'. eapply IH; [|exact E|exact E'].
  clear - F1 A. revert m m' A. induction F1 as [|r r' rs rs' (R & _) F IH]; intros m m' A; [exact A|]. cbn [fold_left]. apply IH.
  unfold add_known. rewrite <- (proj1 (proj2 R)). destruct (qualified_target (pf_package f) (v_text (q_name r))) as [t|]; auto. apply insert_alike; auto.
  destruct R as (H1 & _ & _ & _ & _ & H2 & H3 & H4 & _ & _ & _ & _ & _ & H5 & _). split; auto.
Qed.
Lemma sees_same m m' : known_alike m m' -> forall t d b b', can_see m t d = Ret b -> can_see m' t d = Ret b' -> b = b'.
Proof.
  intros A t d b b' E E'. unfold can_see in *. pose proof (find_alike d _ _ A) as X.
  destruct (map_find d m) as [r|]; destruct (map_find d m') as [r'|]; try contradiction; [|congruence].
  destruct X as (_ & H2 & _ & _ & H5). rewrite <- H2 in E'. destruct (negb (is_nil (v_text (q_deprecation r)))); [congruence|].
  destruct (package_eqb (tpackage t) (tpackage d)); [congruence|]. destruct (str_eqb (tname d) ($"protobuf_headers")); [congruence|].
  unfold same_labels in H5. destruct (q_visibility r) as [l|]; destruct (q_visibility r') as [l'|]; try contradiction; [|congruence].
  apply visible_by_spec in E. apply visible_by_spec in E'. rewrite H5 in E. rewrite <- E' in E. destruct b, b'; intuition congruence.
Qed.
Lemma links_same m m' : known_alike m m' -> forall d, is_alwayslink m d = is_alwayslink m' d.
Proof.
  intros A d. unfold is_alwayslink. pose proof (find_alike d _ _ A) as X. destruct (map_find d m); destruct (map_find d m'); try contradiction; auto. apply X.
Qed.
Lemma tests_same m m' : known_alike m m' -> forall t d, is_testonly_compatible m t d = is_testonly_compatible m' t d.
Proof.
  intros A t d. unfold is_testonly_compatible. pose proof (find_alike d _ _ A) as X. pose proof (find_alike t _ _ A) as Y.
  destruct (map_find d m) as [r|]; destruct (map_find d m') as [r'|]; try contradiction; auto. destruct X as (_ & _ & _ & Ex & _). rewrite <- Ex.
  destruct (map_find t m) as [s|]; destruct (map_find t m') as [s'|]; try contradiction; auto. destruct Y as (E1 & _ & _ & E2 & _). rewrite E1, E2. reflexivity.
Qed.
End Files.

(** * Who provides headers is a target of the project *)
Lemma found_declared pr idx key min r d : (forall p f, In (p, f) (pr_files pr) -> Forall proper_call (flat_map rule_calls (pf_ast f))) ->
  header_to_lib pr true = Ret idx -> find_by_suffix idx key min = Some r -> In d (fr_targets r) -> declared pr d.
Proof.
  intros P E F I. destruct (header_to_lib_spec _ _ _ E) as (H & Ok).
  assert (X : exists k, In d (providers idx k)).
  { pose proof (find_by_suffix_spec idx (Ok eq_refl) key min) as (S1 & S2). destruct (map_find (index_key true key) idx) as [ts|] eqn:M.
    - rewrite (S1 _ eq_refl) in F. injection F as <-. exists (index_key true key). unfold providers. now rewrite M.
    - specialize (S2 eq_refl). rewrite F in S2. exists (index_key true (fr_match r)). unfold providers. now rewrite (proj1 S2). }
  destruct X as (k & X). apply H in X as (p & f & h & If & Pv & _).
  assert (G : forall p f kinds rs r t, In (p, f) (pr_files pr) -> kinds <> [] -> find_targets kinds (pf_ast f) = Ret rs -> In r rs -> named (pf_package f) r t -> declared pr t).
  { clear - P. intros p f kinds rs r t If K Fr Ir N. unfold find_targets in Fr. rewrite find_targets_spec in Fr by eauto. injection Fr as <-.
    rewrite (reported_filter kinds _ K (P _ _ If)) in Ir. apply filter_In in Ir as [Ir _].
    exists p, f, (reported [] false None (flat_map rule_calls (pf_ast f))), r. split; [auto|]. split; [apply find_targets_spec; eauto|auto]. }
  destruct Pv as [rs r0 lib t x name h Fr Ir N [->|(p1 & f1 & rs1 & r1 & I1 & Fr1 & Ir1 & N1 & _)] _ _ _|rs1 rs2 r1 r2 a b lib plib src h Fr -> N _ _ _ _ _ _ _].
  - eapply G; eauto. discriminate.
  - eapply (G p1 f1); eauto. discriminate.
  - eapply G; [eauto| |eauto| |eauto]; [discriminate|]. apply in_or_app. right. now left.
Qed.

(** * All of it *)
Lemma Forall2_in_l {A B} (R : A -> B -> Prop) l l' x : Forall2 R l l' -> In x l -> exists y, In y l' /\ R x y.
Proof. induction 1 as [|a b l l' H F IH]; intros []; [subst; exists b; cbn; auto|]. destruct (IH H0) as (y & I & Hy). exists y. cbn; auto. Qed.
Theorem converges w read_file ignore_keep pr pr' pt ev ev' n n' :
  dependency_edits w read_file ignore_keep pr pt = Ret (ev, n) ->
  project_edited ev pr pr' -> distinct pr pt ->
  (forall t d, declared pr t -> declared pr d -> reads_back t d) ->
  dependency_edits w read_file ignore_keep pr' pt = Ret (ev', n') ->
  only_messages ev'.
Proof.
  intros E F D B E'. unfold dependency_edits in *. unfold project_edited in F.
  destruct (header_to_lib pr true) as [headers| |] eqn:H; try discriminate. destruct (header_to_lib pr' true) as [headers'| |] eqn:H'; try discriminate. cbn [bind] in *.
  destruct (known_libraries pr) as [known| |] eqn:K; try discriminate. destruct (known_libraries pr') as [known'| |] eqn:K'; try discriminate. cbn [bind] in *.
  assert (P : forall p f, In (p, f) (pr_files pr) -> Forall proper_call (flat_map rule_calls (pf_ast f))).
  { intros p f I. clear - F I. induction F as [|x x' l l' [_ R] F IH]; [destruct I|]. destruct I as [->|I]; auto. apply R. }
  assert (headers = headers').
  { unfold header_to_lib, extract_aliased_by in H, H'. destruct (aliases_in (pr_files pr) []) as [a| |] eqn:A; try discriminate. destruct (aliases_in (pr_files pr') []) as [a'| |] eqn:A'; try discriminate. cbn [bind] in *.
    rewrite (aliases_same _ _ _ F _ _ _ A A') in H. eapply headers_of_files_same; eauto. }
  subst headers'. assert (KA := known_same _ _ _ F [] [] _ _ (Forall2_nil _) K K').
  destruct (edits_for_files_spec w read_file ignore_keep headers known pt _ _ _ E) as (l & evs & F1 & -> & _ & H1).
  destruct (edits_for_files_spec w read_file ignore_keep headers known' pt _ _ _ E') as (l' & evs' & F2 & -> & _ & H2).
  intros e I. apply in_concat in I as (e1 & I1 & I). destruct (Forall2_in_r _ _ _ _ F2 I1) as (((t & details') & f') & Ir & Te). cbn in Te.
  apply H2 in Ir as (p' & rs' & If' & Mp & Fr' & Ir & Q & Mt).
  destruct (Forall2_in_r _ _ _ _ F If') as ([p f] & If & _ & R). cbn [fst snd] in *.
  destruct (file_rules_exist _ _ _ R edited_kinds) as ((rs & Fr) & _).
  assert (FR := file_rules _ _ _ R _ _ _ (@nil_cons' _ _ _) Fr Fr'). destruct (Forall2_in_r _ _ _ _ FR Ir) as (details & Id & Re & Ok & _).
  pose proof R as (Hp & _). rewrite <- Hp in Mp, Q. pose proof Re as (_ & Hn & _ & _ & _ & _ & _ & _ & Hs & Hh & _ & _ & _ & _ & De & _). rewrite <- Hn in Q.
  assert (In (t, details, f) l) as Il by (apply H1; exists p, rs; auto 10).
  assert (Ed : edited pr pt t details f) by (exists p, rs; auto 10).
  assert (X : exists e0, In e0 evs /\ create_edits_for_target w read_file ignore_keep headers known t details f = Ret e0 /\ forall l0, (In (EvRemove t l0) (concat evs) -> In (EvRemove t l0) e0) /\ (In (EvAdd t l0) (concat evs) -> In (EvAdd t l0) e0)).
  { destruct (in_split _ _ Il) as (la & lb & El). destruct (Forall2_in_l _ _ _ _ F1 Il) as (e0 & I0 & Te0). cbn in Te0. exists e0. split; auto. split; auto.
    assert (Y : forall x, event_of t x -> In x (concat evs) -> In x e0).
    { intros x Ex Ix. apply in_concat in Ix as (e2 & I2 & Ix). destruct (Forall2_in_r _ _ _ _ F1 I2) as (((t2 & d2) & f2) & Ir2 & Te2). cbn in Te2.
      assert (T2 := event_target _ _ _ _ _ _ _ _ _ _ Te2 Ix). assert (t2 = t) by (destruct x; cbn in *; congruence). subst t2.
      assert (Ed2 : edited pr pt t d2 f2) by (apply H1 in Ir2; exact Ir2). destruct (D _ _ _ _ _ Ed Ed2) as [<- <-]. congruence. }
    intros l0. split; apply Y; reflexivity. }
  destruct X as (e0 & I0 & Te0 & Xe).
  assert (De0 : deps_edited e0 t (pf_content f) (pf_content f') (list_of (q_deps details)) (list_of (q_deps details'))).
  { destruct (De Ok t Q) as (D1 & D2).
    assert (Rm : forall l0, In (EvRemove t l0) e0 <-> In (EvRemove t l0) (concat evs)) by (intros l0; split; [intros J; apply in_concat; eauto|apply Xe]).
    assert (Ad : forall l0, In (EvAdd t l0) e0 <-> In (EvAdd t l0) (concat evs)) by (intros l0; split; [intros J; apply in_concat; eauto|apply Xe]).
    split.
    - intros l0. rewrite D1, Rm, Ad. tauto.
    - intros dep' J. rewrite Ad. auto. }
  assert (So : sources details = sources details') by (unfold sources; rewrite Hs, Hh; reflexivity).
  refine (rerun pr pr' w read_file ignore_keep headers known known' K K' (sees_same _ _ KA) (links_same _ _ KA) (tests_same _ _ KA) t details details' f f' e0 e1 Te0 Te Hp So De0 _ e I).
  intros d v (_ & inc & ts & _ & _ & Pv & V) Iv. apply V in Iv as [Iv _]. apply B.
  - destruct (file_rules_in _ _ _ R _ _ _ (@nil_cons' _ _ _) Fr Id) as (all & Fa & Ia). exists p, f, all, details. auto.
  - destruct Pv as [(r & Fn & ->)|(_ & r & Fn & ->)]; eapply found_declared; eauto.
Qed.
