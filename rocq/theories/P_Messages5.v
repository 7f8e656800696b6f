(** Proofs about the messages of dwyu: the whole run, and that what is missing is told. *)
From Coq Require Import Sorted.
From Verif Require Import Base OMap M_Types M_Scanner S_Scanner P_Scanner M_Ast M_Parser S_Parser P_Parser M_Query S_Query P_Query M_Elab S_Elab P_Elab S_Locations P_Locations
  M_Workspace M_Project P_Project M_DepGraph S_DepGraph M_Headers S_Headers P_Headers M_Includes S_Includes P_Includes M_Dwyu S_Dwyu P_Dwyu M_Edits M_Printer M_Highlight
  M_Commands S_Commands P_Commands M_Messages S_Messages P_Messages P_DepGraph P_Messages2 P_Messages3 C_Dwyu.

Lemma edits_count ev : length (edits_of_events ev) = length (filter asks_edit ev).
Proof. unfold edits_of_events. induction ev as [|e ev IH]; cbn [flat_map filter]; auto. rewrite app_length, IH. destruct e; reflexivity. Qed.
Lemma summary_spec n k : (Z.of_nat n <= 2147483647)%Z -> (Z.of_nat k <= 2147483647)%Z -> summary_said n k (summary n k).
Proof.
  intros Hn Hk. exists (print_int (Z.of_nat n)). split; [now apply print_decimal|]. unfold summary. destruct (Nat.ltb_spec 0 k).
  - right. split; [auto|]. exists (print_int (Z.of_nat k)). split; [now apply print_decimal|]. rewrite <- !app_assoc. reflexivity.
  - left. split; [lia|reflexivity].
Qed.
Lemma generated_erase pr g told : generated_from_genrule_told pr false = Ret (g, told) -> generated_from_genrule pr false = Ret g.
Proof. apply genrules_of_files_erase. Qed.

Section Run.
Variable w : workspace.
Variable read_file : str -> option str.
Hypothesis Sizes : forall name content, read_file name = Some content -> (Z.of_nat (length content) < 2147483647)%Z.
Variable ignore_keep : bool.
Variable verbose : nat.
Variable color : bool.
Variable pr : parsed_project.
Hypothesis Plain : forall q f, In (q, f) (pr_files pr) -> plain_lines (pf_content f).
Variable pt : pattern.
Variable ev : list event.
Variable n : nat.
Variable log : list str.
Hypothesis E : dependency_edits_told w read_file ignore_keep verbose color pr pt = Ret (ev, n, log).

Theorem run_said : exists headers generated again rules evs mss last,
  header_to_lib pr true = Ret headers /\ generated_from_genrule pr false = Ret generated /\
  (forall s, In s again -> exists f t out other, made_again pr generated f t out other /\ again_said f t out other s) /\
  (forall f t out other, made_again pr generated f t out other -> exists s, In s again /\ again_said f t out other s) /\
  (forall t details f, In (t, details, f) rules <-> edited pr pt t details f) /\
  length evs = length rules /\ length mss = length rules /\
  Forall2 (fun x y => target_edits w read_file ignore_keep pr headers (fst (fst x)) (snd (fst x)) (snd x) (fst y) /\
                      target_said pr w read_file verbose color headers generated (fst (fst x)) (snd (fst x)) (snd x) (fst y) (snd y))
    rules (combine evs mss) /\
  ev = concat evs /\ n = length rules /\ log = again ++ concat mss ++ [last] /\
  ((Z.of_nat n <= 2147483647)%Z -> (Z.of_nat (length ev) <= 2147483647)%Z -> summary_said n (length (filter asks_edit ev)) last).
Proof.
  assert (E' := E). unfold dependency_edits_told in E'. step E' as headers by S1. step E' as [generated again] by S2. step E' as known by S3. step E' as [[e k] s] by S4.
  apply ret_eq, pair_equal_spec in E' as [E' L]. apply pair_equal_spec in E' as [-> ->].
  destruct (files_told_spec _ _ _ _ _ _ _ _ _ _ _ _ _ S4) as (rules & evs & mss & F & L1 & L2 & C1 & C2 & C3 & R).
  destruct (again_spec pr generated again Plain S2) as [A1 A2].
  exists headers, generated, again, rules, evs, mss, (summary n (length (edits_of_events ev))).
  split; [auto|]. split; [now apply generated_erase in S2|]. split; [exact A1|]. split; [exact A2|]. split; [exact R|]. split; [auto|]. split; [auto|]. split.
  - assert (G : forall x, In x rules -> plain_lines (pf_content (snd x))).
    { intros [[t r] f] I. apply R in I as (p & rs & I & _). eapply Plain; eauto. }
    clear - F G S1 S3 Sizes. revert F G. generalize (combine evs mss). intros l F. induction F as [|x [e m] rs l H _ IH]; intros G; constructor.
    + cbn [fst snd]. split.
      * split; [auto|]. exists known. split; [auto|]. eapply create_edits_erase; eauto.
      * eapply create_edits_told_spec; eauto. apply G. left; auto.
    + apply IH. intros y I. apply G. right; auto.
  - split; [auto|]. split; [auto|]. split; [subst s; now rewrite <- L|]. intros Hn Hk. rewrite edits_count. apply summary_spec; auto.
    assert (length (filter asks_edit ev) <= length ev); [|lia]. clear. induction ev as [|e l IH]; cbn; auto. destruct (asks_edit e); cbn; lia.
Qed.

(** A target that was looked at, and what was told about it. *)
Lemma target_in t details f : edited pr pt t details f -> exists headers generated known e ms, header_to_lib pr true = Ret headers /\ generated_from_genrule pr false = Ret generated /\
  known_libraries pr = Ret known /\ create_edits_told w read_file ignore_keep verbose color headers generated known t details f = Ret (e, ms) /\
  target_said pr w read_file verbose color headers generated t details f e ms /\ incl e ev /\ incl ms log.
Proof.
  intros Ed. assert (E' := E). unfold dependency_edits_told in E'. step E' as headers by S1. step E' as [generated again] by S2. step E' as known by S3. step E' as [[e k] s] by S4.
  apply ret_eq, pair_equal_spec in E' as [E' L]. apply pair_equal_spec in E' as [-> ->].
  destruct (files_told_spec _ _ _ _ _ _ _ _ _ _ _ _ _ S4) as (rules & evs & mss & F & L1 & L2 & C1 & C2 & C3 & R).
  assert (Pl : plain_lines (pf_content f)) by (destruct Ed as (p & rs & I & _); eauto).
  assert (I := proj2 (R t details f) Ed).
  assert (X : exists e ms, In (e, ms) (combine evs mss) /\ create_edits_told w read_file ignore_keep verbose color headers generated known t details f = Ret (e, ms)).
  { clear - F I. induction F as [|x [e m] rs l H _ IH]; [destruct I|]. destruct I as [->|I].
    - exists e, m. split; [left; auto|exact H].
    - destruct (IH I) as (e' & m' & J & Y). exists e', m'. split; [right; auto|auto]. }
  destruct X as (e & ms & J & C). exists headers, generated, known, e, ms. split; [auto|]. split; [now apply generated_erase in S2|]. split; [auto|]. split; [auto|].
  split; [eapply create_edits_told_spec; eauto|]. split.
  - subst ev. intros y Iy. apply in_concat. exists e. split; [eapply in_combine_l; eauto|auto].
  - rewrite <- L. intros y Iy. apply in_app_iff. right. apply in_app_iff. left. subst s. apply in_concat. exists ms. split; [eapply in_combine_r; eauto|auto].
Qed.
Lemma opened_at_fun file a b g a' b' g' : opened_at read_file file a b g -> opened_at read_file file a' b' g' -> a = a' /\ b = b' /\ g = g'.
Proof.
  intros (x & l & y & L & -> & R & N & G) (x' & l' & y' & L' & -> & R' & N' & G').
  assert (X : x = x' /\ l = l').
  { rewrite L in L'. clear L G G'. revert x' L' N'. induction x as [|c x IH]; intros [|c' x'] L' N'; cbn [app] in L'.
    - injection L' as <- _. auto.
    - injection L' as -> _. rewrite (N' c') in R; [discriminate|left; auto].
    - injection L' as -> _. rewrite (N l') in R'; [discriminate|left; auto].
    - injection L' as -> L'. destruct (IH (fun z I => N z (or_intror I)) x' L' (fun z I => N' z (or_intror I))) as [-> ->]. auto. }
  destruct X as [-> ->]. split; [auto|]. split; [congruence|]. destruct g, g'; auto; assert (X : true = false) by tauto; discriminate.
Qed.
Lemma in_said {A B} (P : A -> list B -> Prop) l ms x : Forall2 P l ms -> In x l -> exists m, P x m /\ incl m (concat ms).
Proof.
  induction 1 as [|y m l ms H _ IH]; [contradiction|]. intros [<-|I].
  - exists m. split; [auto|]. cbn. apply incl_appl, incl_refl.
  - destruct (IH I) as (m' & X & Y). exists m'. split; [auto|]. cbn. now apply incl_appr.
Qed.
Theorem unreadable_told t details f src : edited pr pt t details f -> In src (source_entries details) ->
  (forall content, ~ opened read_file (fully_qualified_file w (pf_package f) (v_text src)) content) -> exists m, In m log /\ source_missing w f t src m.
Proof.
  intros Ed I N. destruct (target_in t details f Ed) as (headers & generated & known & e & ms & _ & _ & _ & _ & (sm & ds & de & dm & ne & nm & F & _ & _ & _ & _ & _ & ->) & _ & Lg).
  destruct (in_said _ _ _ _ F I) as (m & Sd & Im). destruct Sd as [l hint file Nn Sh H|name content ft incs ms refer l O _ _ _].
  - eexists. split; [apply Lg, in_app_iff; left; apply Im; left; reflexivity|]. exists l, hint. auto.
  - exfalso. destruct O as (x & l0 & y & L & -> & R & Nb & _). apply (N content). exists x, l0, y. auto.
Qed.
Lemma includes_in t details f ft name content headers generated incs ms refer : includes_said pr verbose color headers generated t details f ft name content incs ms refer ->
  forall off inc, In (off, inc) incs -> exists l m r, seen_at name content off inc l /\ include_said pr verbose color headers generated t details f ft l inc m r /\ incl m ms /\ (r = true -> refer = true).
Proof.
  induction 1 as [|off inc incs l m r m' r' At Sd _ IH]; [contradiction|]. intros off' inc' [J|J].
  - injection J as <- <-. exists l, m, r. split; [auto|]. split; [auto|]. split; [apply incl_appl, incl_refl|]. intros ->. reflexivity.
  - destruct (IH _ _ J) as (l2 & m2 & r2 & A & B & C & D). exists l2, m2, r2. split; [auto|]. split; [auto|]. split; [now apply incl_appr|]. intros X. rewrite D by auto. apply orb_true_r.
Qed.
Theorem unprovided_told headers generated t details f src name content g off inc :
  header_to_lib pr true = Ret headers -> generated_from_genrule pr false = Ret generated ->
  edited pr pt t details f -> In src (source_entries details) -> opened_at read_file (fully_qualified_file w (pf_package f) (v_text src)) name content g ->
  included content off inc -> ~ own t details inc -> (forall ts, ~ provided_by headers (pf_package f) inc ts) -> 0 < verbose \/ map_find inc generated <> None ->
  exists m m', In m log /\ In m' log /\ include_missing name content off inc m /\ source_named f t src m'.
Proof.
  intros Eh Eg Ed I O Inc No Np V.
  destruct (target_in t details f Ed) as (headers' & generated' & known & e & ms & Eh' & Eg' & _ & _ & (sm & ds & de & dm & ne & nm & F & _ & _ & _ & _ & _ & ->) & _ & Lg).
  assert (headers' = headers) by congruence. assert (generated' = generated) by congruence. subst headers' generated'.
  destruct (in_said _ _ _ _ F I) as (m & Sd & Im). destruct Sd as [l hint file Nn Sh H|name' content' ft incs ms refer l O' Al Is Sh].
  - exfalso. destruct O as (x & l0 & y & L & -> & R & Nb & _). apply (Nn content). exists x, l0, y. auto.
  - destruct (opened_at_fun _ _ _ _ _ _ _ O O') as (<- & <- & _). destruct Al as [Al _]. apply Al in Inc.
    destruct (includes_in _ _ _ _ _ _ _ _ _ _ _ Is _ _ Inc) as (l1 & m1 & r1 & At & Sd & I1 & Rf).
    assert (Rr : r1 = true /\ exists x, In x m1 /\ include_missing name content off inc x).
    { destruct Sd as [Ow|ms' r' _ Ow _|x ms' ms'' _ Fx _ _|x ms' ms'' r' _ Fx Fy _ _|g' _ _ Mg|V0 _ _ Mg|V0 _ _ Mg].
      - exfalso. apply No. destruct Ow as (s & Is' & [H|H]); exists s; auto.
      - contradiction.
      - exfalso. apply (Np (fr_targets x)). left. eauto.
      - exfalso. apply (Np (fr_targets x)). right. eauto.
      - split; [auto|]. eexists. split; [left; reflexivity|]. exists l1. split; [auto|]. right. exists g'. reflexivity.
      - split; [auto|]. eexists. split; [left; reflexivity|]. exists l1. split; [auto|]. left. reflexivity.
      - exfalso. destruct V as [V|V]; [lia|contradiction]. }
    destruct Rr as (-> & x & Ix & Mx). specialize (Rf eq_refl). subst refer.
    exists x. eexists. split; [apply Lg, in_app_iff; left; apply Im, in_app_iff; left; auto|].
    split; [apply Lg, in_app_iff; left; apply Im, in_app_iff; right; left; reflexivity|]. split; [exact Mx|]. exists l. auto.
Qed.

(** If there is no certainty about a dependency, there is a reason for it. *)
Lemma unaccounted_include headers known t p srcs incs r : needed_by_includes headers known t p srcs incs = Ret (r, false) -> exists inc, In inc incs /\ attribute headers t p srcs inc = Unaccounted.
Proof.
  revert r. induction incs as [|i incs IH]; intros r H; cbn [needed_by_includes] in H; [discriminate|]. destruct (attribute headers t p srcs i) eqn:A.
  - destruct (IH _ H) as (x & X & Y). exists x. cbn; auto.
  - step H as v by S1. step H as [r' ok] by S2. assert (Ok : ok = false) by (destruct (is_nil v); congruence). subst ok. destruct (IH _ eq_refl) as (x & X & Y). exists x. cbn; auto.
  - exists i. cbn; auto.
Qed.
Lemma unaccounted_source headers known t p srcs todo r : needed_by_sources w read_file headers known t p srcs todo = Ret (r, false) -> exists src, In src todo /\
  match try_open read_file (fully_qualified_file w p src) with
  | None => True
  | Some content => exists off inc, In (off, inc) (extract_cc_includes content) /\ attribute headers t p srcs inc = Unaccounted
  end.
Proof.
  revert r. induction todo as [|s todo IH]; intros r H; cbn [needed_by_sources] in H; [discriminate|].
  destruct (try_open read_file (fully_qualified_file w p s)) as [c|] eqn:O; [|exists s; split; [left; auto|rewrite O; auto]].
  step H as [r1 ok1] by S1. step H as [r2 ok2] by S2. apply ret_eq, pair_equal_spec in H as [_ H]. destruct ok1.
  - cbn in H. subst ok2. destruct (IH _ eq_refl) as (x & X & Y). exists x. split; [right; auto|exact Y].
  - apply unaccounted_include in S1 as (inc & I & A). apply in_map_iff in I as ((off & i) & <- & I). exists s. split; [left; auto|]. rewrite O. exists off, i. auto.
Qed.
Lemma unsure_because known t f ak ds : forall nd ch nd' e l, check_deps ignore_keep known t f ak ds nd ch = Ret (nd', e) -> In (EvUnsure t l) e -> ak = false.
Proof.
  induction ds as [|dep ds IH]; intros nd ch nd' e l H I; cbn [check_deps] in H; [injection H as <- <-; destruct I|].
  step H as [[n1 c1] e1] by S1. step H as [n2 e2] by S2. injection H as <- <-. apply in_app_iff in I as [I|I]; [|eapply IH; eauto].
  unfold check_dep in S1. destruct (parse_target _ _) as [d|]; [|injection S1 as <- <- <-; destruct I as [I|[]]; discriminate].
  destruct (check_off d nd) as [[s x]|]; [injection S1 as <- <- <-; destruct I|].
  destruct (map_find d ch); [injection S1 as <- <- <-; destruct I as [I|[]]; discriminate|].
  destruct (ak && negb (is_alwayslink known d))%bool.
  - step S1 as line by S3. injection S1 as <- <- <-. match type of I with In _ (if ?b then _ else _) => destruct b end; [destruct I as [I|[]]; discriminate|destruct I].
  - injection S1 as <- <- <-. destruct ak; [destruct I|auto].
Qed.
Lemma texts_entries l : map v_text (entries l) = texts l.
Proof. unfold entries, texts. induction l as [|x l IH]; cbn [flat_map]; auto. rewrite map_app, IH. f_equal. destruct (as_text x) as [v|]; auto. destruct (is_nil (v_text v)) eqn:N; auto. Qed.
Theorem unsure_told t details f l : edited pr pt t details f -> 0 < verbose ->
  (exists headers e, target_edits w read_file ignore_keep pr headers t details f e /\ In (EvUnsure t l) e) ->
  exists src, In src (source_entries details) /\
    ((exists m, In m log /\ source_missing w f t src m) \/
     exists name content off inc m m', In m log /\ In m' log /\ include_missing name content off inc m /\ source_named f t src m').
Proof.
  intros Ed V (headers & e & (Eh & known & K & C) & Iu).
  destruct (target_in t details f Ed) as (headers' & generated & known' & _ & _ & Eh' & Eg & _).
  unfold create_edits_for_target in C. step C as a by S1. step C as b by S2. step C as [nd ak] by S3. step C as sets by S4. step C as ds by S5. step C as [nd' e1] by S6. step C as e2 by S7.
  apply ret_eq in C. subst e. apply in_app_iff in Iu as [Iu|Iu].
  2:{ exfalso. apply (add_all_spec _ _ _ _ S7) in Iu as (s & _ & A). apply add_needed_event in A. exact A. }
  assert (ak = false) by (eapply unsure_because; eauto). subst ak.
  assert (Ss : map v_text a ++ map v_text b = sources details).
  { apply extract_texts in S1. apply extract_texts in S2. unfold sources. congruence. }
  rewrite Ss in S3. apply unaccounted_source in S3 as (src & Is & H).
  apply extract_entries in S1. apply extract_entries in S2. subst a b.
  rewrite <- Ss, <- map_app in Is. apply in_map_iff in Is as (sv & <- & Is).
  exists sv. split; [exact Is|].
  destruct (try_open_at read_file (fully_qualified_file w (pf_package f) (v_text sv))) as [[[name content] g]|] eqn:O.
  - right. assert (O1 := try_erase read_file source_locations (fully_qualified_file w (pf_package f) (v_text sv)) false).
    fold (try_open_at read_file (fully_qualified_file w (pf_package f) (v_text sv))) in O1. rewrite O in O1. cbn [option_map fst snd] in O1.
    unfold try_open in H. rewrite <- O1 in H. destruct H as (off & inc & I & A). apply extract_spec in I.
    assert (At := attribute_spec read_file headers t (pf_package f) (sources details) inc). rewrite A in At. destruct At as [No Np].
    apply try_at_opened in O. exists name, content, off, inc. exact (unprovided_told headers generated t details f sv name content g off inc Eh Eg Ed Is O I No Np (or_introl V)).
  - left. apply unreadable_told with (details := details); auto. now apply try_at_none.
Qed.
End Run.
