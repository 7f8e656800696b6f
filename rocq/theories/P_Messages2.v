(** Proofs about the messages of dwyu: what is told, and that it always can be. *)
From Coq Require Import Sorted.
From Verif Require Import Base OMap M_Types M_Scanner S_Scanner P_Scanner M_Ast M_Parser S_Parser P_Parser M_Query S_Query P_Query M_Elab S_Elab P_Elab S_Locations P_Locations
  M_Workspace M_Project P_Project M_DepGraph S_DepGraph M_Headers S_Headers P_Headers M_Includes S_Includes P_Includes M_Dwyu S_Dwyu P_Dwyu M_Edits M_Printer M_Highlight
  M_Commands S_Commands P_Commands M_Messages S_Messages P_Messages P_DepGraph.

(** * What is told *)
Lemma ret_eq {A} (a b : A) : Ret a = Ret b -> a = b.
Proof. congruence. Qed.
Lemma try_at_spec rf file ls : forall g name c g', try_locations_at rf ls file g = Some (name, c, g') ->
  exists before l after, ls = before ++ l :: after /\ name = l ++ file /\ rf name = Some c /\ (forall b, In b before -> rf (b ++ file) = None) /\
    g' = (g || negb (is_nil before))%bool.
Proof.
  induction ls as [|l ls IH]; intros g name c g' E; cbn [try_locations_at] in E; [discriminate|].
  destruct (rf (l ++ file)) as [c'|] eqn:R.
  - injection E as <- <- <-. exists [], l, ls. cbn [is_nil negb]. rewrite orb_false_r. repeat split; auto. intros b [].
  - destruct (IH _ _ _ _ E) as (b & l' & a & -> & -> & H & N & ->). exists (l :: b), l', a. repeat split; auto.
    + intros x [<-|I]; auto.
    + cbn. now rewrite orb_true_r.
Qed.
Lemma try_at_opened rf file name c g : try_open_at rf file = Some (name, c, g) -> opened_at rf file name c g.
Proof.
  intros E. apply try_at_spec in E as (b & l & a & Ls & -> & R & N & ->). exists b, l, a. repeat split; auto; cbn [orb].
  - destruct b; [auto|discriminate].
  - now intros ->.
Qed.
Lemma try_at_none rf file : try_open_at rf file = None -> forall c, ~ opened rf file c.
Proof.
  intros E c O. apply try_open_spec in O. unfold try_open in O. rewrite <- (try_erase rf source_locations file false) in O. unfold try_open_at in E. rewrite E in O. discriminate.
Qed.

Section Told.
Variable pr : parsed_project.
Variable w : workspace.
Variable read_file : str -> option str.
Hypothesis Sizes : forall name content, read_file name = Some content -> (Z.of_nat (length content) < 2147483647)%Z.
Variable ignore_keep : bool.
Variable verbose : nat.
Variable color : bool.
Variable headers : provided_set.
Variable generated : provided.
Variable known : list (target * result).
Hypothesis Known : known_libraries pr = Ret known.
Variable t : target.
Variable details : result.
Variable f : parsed_file.
Hypothesis Plain : plain_lines (pf_content f).
Local Notation srcs := (sources details).

Lemma provider_lines_spec l ts : forall ms, provider_lines color known t l ts = Ret ms -> Forall2 (provider_line pr color t l) ts ms.
Proof.
  induction ts as [|a ts IH]; intros ms E; cbn [provider_lines] in E; [injection E as <-; constructor|].
  step E as b by S. step E as rest by S0. injection E as <-. constructor; [|auto]. apply (can_see_spec pr known Known) in S. unfold provider_line.
  destruct b.
  - left. split; [now apply S|]. reflexivity.
  - assert (N : ~ may_use pr t a) by (intros C; apply S in C; discriminate). right. destruct color.
    + right. split; [auto|]. split; [auto|]. reflexivity.
    + left. split; [auto|]. split; [auto|]. reflexivity.
Qed.
Lemma maybe_log_spec l inc ts ms : maybe_log verbose color known t l inc ts = Ret ms -> providers_said pr verbose color t l inc ts ms.
Proof.
  unfold maybe_log, providers_said. destruct (Nat.ltb_spec verbose 3); intros E; [injection E as <-; auto|].
  step E as r by S. injection E as <-. right. split; [lia|]. exists r. split; [reflexivity|]. now apply provider_lines_spec.
Qed.
Lemma fuzzy_spec l inc r : other_name_said verbose l inc (fr_match r) (fuzzy_message verbose l inc r).
Proof.
  unfold other_name_said, fuzzy_message. destruct (Nat.eqb_spec (length (fr_match r)) (length inc)); cbn [negb andb]; [auto|].
  destruct (Nat.ltb_spec 1 verbose); [|left; split; [lia|auto]]. do 2 right.
  destruct (Nat.ltb_spec (length (fr_match r)) (length inc)); [left|right]; (split; [lia|split; [lia|]]); reflexivity.
Qed.
Lemma own_named_spec inc : is_header_in_list inc srcs (path (tpackage t)) = true <-> own_named t details inc.
Proof. apply header_in_list_spec. Qed.
Lemma complain_spec (g : bool) l inc : relative_said (negb g) l inc (fst (if g then ([], false) else ([relative_message l inc], true))) (snd (if g then ([], false) else ([relative_message l inc], true))).
Proof. unfold relative_said. destruct g; cbn [fst snd negb]; auto. Qed.
Lemma include_told_spec g l inc ms refer : include_told verbose color headers generated known t (pf_package f) srcs g l inc = Ret (ms, refer) ->
  include_said pr verbose color headers generated t details f (negb g) l inc ms refer.
Proof.
  unfold include_told. intros E. assert (A := attribute_spec read_file headers t (pf_package f) srcs inc). unfold attribute in A.
  destruct (is_header_in_list inc srcs (path (tpackage t))) eqn:E1.
  { injection E as <- <-. apply said_own. now apply own_named_spec. }
  assert (NN : ~ own_named t details inc) by (rewrite <- own_named_spec, E1; discriminate).
  destruct (is_header_in_list inc srcs []) eqn:E2.
  { apply said_own_relative; [auto|exact A|]. assert (C := complain_spec g l inc). destruct g; injection E as <- <-; exact C. }
  destruct (find_by_suffix headers inc 2) as [r|] eqn:F1.
  { step E as lg by S. injection E as <- <-. apply said_provided with (r := r); [apply A|auto|apply fuzzy_spec|now apply maybe_log_spec]. }
  destruct (find_by_suffix headers (qualified_file (pf_package f) inc) 2) as [r|] eqn:F2.
  { step E as lg by S. injection E as <- <-. apply said_provided_relative with (r := r); [apply A|auto|auto| |now apply maybe_log_spec].
    assert (C := complain_spec g l inc). destruct g; exact C. }
  destruct A as [A1 A2]. destruct (map_find inc generated) as [d|] eqn:Eg.
  { injection E as <- <-. apply said_generated; auto. }
  destruct (Nat.ltb_spec 0 verbose); injection E as <- <-; [apply said_unknown|apply said_nothing]; auto; lia.
Qed.
Lemma includes_told_spec g name content incs : (Z.of_nat (length content) < 2147483647)%Z -> incl incs (extract_cc_includes content) ->
  forall ms refer, includes_told verbose color headers generated known t (pf_package f) srcs g name content (extract_cc_includes content) incs = Ret (ms, refer) ->
  includes_said pr verbose color headers generated t details f (negb g) name content incs ms refer.
Proof.
  intros Sz. induction incs as [|[off inc] incs IH]; intros Sub ms refer E; cbn [includes_told] in E; [injection E as <- <-; constructor|].
  step E as l by S. step E as [m1 r1] by S0. step E as [m2 r2] by S1. injection E as <- <-.
  destruct (source_loc_spec name content off inc Sz) as (l' & L & At); [apply Sub; left; auto|].
  assert (l' = l) by congruence. subst l'. apply includes_more with (l := l); auto.
  - now apply include_told_spec in S0.
  - apply IH; auto. intros x I. apply Sub. right. auto.
Qed.
Lemma source_told_spec src ms : source_told w read_file verbose color headers generated known t f srcs src = Ret ms ->
  source_said pr w read_file verbose color headers generated t details f src ms.
Proof.
  unfold source_told. intros E. destruct (try_open_at read_file (fully_qualified_file w (pf_package f) (v_text src))) as [[[name content] g]|] eqn:O.
  - step E as [told refer] by S. apply try_at_opened in O. assert (O' := O). destruct O' as (b & l0 & a & _ & _ & R & _).
    apply includes_told_spec in S; [|eauto|apply incl_refl].
    assert (X : all_includes content (extract_cc_includes content)) by apply extract_spec.
    destruct refer.
    + step E as l by L. injection E as <-. apply (source_read pr w read_file verbose color headers generated t details f src name content (negb g) (extract_cc_includes content) told true l); auto.
      * rewrite negb_involutive. exact O.
      * intros _. now apply loc_spec.
    + injection E as <-. rewrite <- (app_nil_r told).
      apply (source_read pr w read_file verbose color headers generated t details f src name content (negb g) (extract_cc_includes content) told false []); auto.
      * rewrite negb_involutive. exact O.
      * discriminate.
  - step E as l by L. apply ret_eq in E. subst ms. apply loc_spec in L; [|auto].
    destruct (map_find (fully_qualified_file w (pf_package f) (v_text src)) generated) as [d|] eqn:Eg.
    + assert (X : $"; Run genrule `bazel build " ++ target_to_string d ++ $"` first." ++ [NL]
        = ($"; Run genrule `bazel build " ++ target_to_string d ++ $"` first.") ++ [NL]) by (rewrite <- !app_assoc; reflexivity).
      rewrite X. apply source_unreadable; eauto. now apply try_at_none.
    + apply source_unreadable; auto. now apply try_at_none.
Qed.
Lemma sources_told_spec todo : forall ms, sources_told w read_file verbose color headers generated known t f srcs todo = Ret ms ->
  exists mss, Forall2 (source_said pr w read_file verbose color headers generated t details f) todo mss /\ ms = concat mss.
Proof.
  induction todo as [|src todo IH]; intros ms E; cbn [sources_told] in E; [injection E as <-; exists []; split; [constructor|auto]|].
  step E as a by S. step E as b by S0. injection E as <-. destruct (IH _ eq_refl) as (mss & F & ->). exists (a :: mss). split; [|auto].
  constructor; auto. now apply source_told_spec.
Qed.

Lemma check_dep_events ak dep nd ch nd' ch' ev : check_dep ignore_keep known t f ak dep nd ch = Ret (nd', ch', ev) ->
  ev = [] \/ exists e, ev = [e] /\
    match e with
    | EvRemove u l => u = t /\ l = v_text dep
    | EvInvalid u l => u = t /\ l = v_text dep /\ parse_target (v_text dep) (tpackage t) = None
    | EvAgain u l _ | EvUnsure u l => u = t /\ l = v_text dep /\ exists d, parse_target (v_text dep) (tpackage t) = Some d
    | _ => False
    end.
Proof.
  unfold check_dep. destruct (parse_target (v_text dep) (tpackage t)) as [d|] eqn:P; [|intros E; injection E as <- <- <-; right; eexists; split; [reflexivity|cbn; auto]].
  destruct (check_off d nd) as [[s n]|]; [intros E; injection E as <- <- <-; auto|].
  destruct (map_find d ch); [intros E; injection E as <- <- <-; right; eexists; split; [reflexivity|cbn; eauto]|].
  destruct (ak && negb (is_alwayslink known d))%bool.
  - intros E. step E as ln by S. injection E as <- <- <-. match goal with |- context [if ?b then _ else _] => destruct b end; [right; eexists; split; [reflexivity|cbn; auto]|auto].
  - intros E. injection E as <- <- <-. destruct (negb ak); [right; eexists; split; [reflexivity|cbn; eauto]|auto].
Qed.
Lemma check_deps_told_spec ak deps : forall nd ch nd' ev told, check_deps_told ignore_keep verbose known t f ak deps nd ch = Ret (nd', ev, told) ->
  exists ds mss, part_of ds deps /\ length ev = length ds /\ Forall2 (fun x m => dep_said verbose t f (fst x) (snd x) m) (combine ds ev) mss /\ told = concat mss.
Proof.
  induction deps as [|dep deps IH]; intros nd ch nd' ev told E; cbn [check_deps_told] in E.
  { injection E as <- <- <-. exists [], []. repeat split; constructor. }
  step E as [[n1 c1] e1] by S. step E as ms by S0. step E as [[n2 e2] m2] by S1. injection E as <- <- <-.
  destruct (IH _ _ _ _ _ S1) as (ds & mss & P & Le & F & ->).
  destruct (check_dep_events _ _ _ _ _ _ _ S) as [->|(e & -> & He)].
  - cbn [flat_told] in S0. injection S0 as <-. exists ds, mss. split; [now constructor|]. auto.
  - cbn [flat_told] in S0. step S0 as me by S2. injection S0 as <-. exists (dep :: ds), (me :: mss). split; [now constructor|]. split; [cbn; now rewrite Le|].
    split; [|cbn [concat]; now rewrite app_nil_r]. cbn [app combine]. constructor; [|auto]. cbn [fst snd]. unfold dep_told in S2. destruct e; try destruct He.
    + injection S2 as <-. subst. constructor.
    + destruct H0 as [-> Pn]. subst. step S2 as l by L. injection S2 as <-. apply loc_spec in L; auto. now constructor.
    + destruct H0 as [-> (d & Pd)]. subst. step S2 as l by L. apply ret_eq in S2. subst me. apply loc_spec in L; auto. cbv zeta. rewrite Pd.
      destruct (target_eqb previously d) eqn:Q.
      * apply target_eqb_eq in Q. subst previously. now constructor.
      * assert (X : ($" provides headers already provided by " ++ target_to_string previously
            ++ $" before. Multiple libraries providing the same headers ?") ++ [NL] = $" provides headers already provided by " ++ target_to_string previously
            ++ $" before. Multiple libraries providing the same headers ?" ++ [NL]) by (rewrite <- !app_assoc; reflexivity).
        rewrite X. eapply dep_also; eauto. intros ->. assert (C : target_eqb d d = true) by now apply target_eqb_eq. congruence.
    + destruct H0 as [-> (d & Pd)]. subst. rewrite Pd in S2. destruct (Nat.ltb_spec 1 verbose).
      * step S2 as l by L. injection S2 as <-. apply loc_spec in L; auto. eapply dep_unsure; eauto.
      * injection S2 as <-. eapply dep_unsure_not; eauto. lia.
Qed.
Lemma invisible_told_spec d ms : invisible_told verbose f details d = Ret ms -> would_add verbose details f d ms.
Proof.
  unfold invisible_told, would_add. destruct (Nat.ltb_spec 1 verbose); intros E; [|injection E as <-; left; split; [lia|auto]].
  step E as l by L. injection E as <-. right. split; [lia|]. exists l. split; [now apply loc_spec|auto].
Qed.
Lemma add_needed_event s e : add_needed known t s = Ret e ->
  match e with
  | EvAdd u _ | EvInvisible u _ | EvTestonly u _ | EvAmbiguous u _ => u = t
  | _ => False
  end.
Proof.
  unfold add_needed. destruct s as [|a [|b s]]; [discriminate| |intros E; injection E as <-; auto].
  intros E. step E as v by S. injection E as <-. destruct v; [destruct (is_testonly_compatible _ _ _)|]; auto.
Qed.
Lemma needs_told_spec evs : (forall e, In e evs -> exists s, add_needed known t s = Ret e) -> forall ms, flat_told (need_told verbose known t f details) evs = Ret ms ->
  exists mss, Forall2 (need_said pr verbose t details f) evs mss /\ ms = concat mss.
Proof.
  induction evs as [|e evs IH]; intros A ms E; cbn [flat_told] in E; [injection E as <-; exists []; split; [constructor|auto]|].
  step E as me by S. step E as rest by S0. injection E as <-. destruct (IH (fun e I => A e (or_intror I)) _ eq_refl) as (mss & F & ->).
  exists (me :: mss). split; [|auto]. constructor; [|auto]. destruct (A e (or_introl eq_refl)) as (s & As). apply add_needed_event in As.
  unfold need_told in S. destruct e; try destruct As.
  - injection S as <-. subst. constructor.
  - step S as l by L. injection S as <-. apply loc_spec in L; auto. rewrite flat_map_concat_map. now constructor.
  - destruct (map_find t0 known) as [r|] eqn:K; [|discriminate]. step S as l by L. step S as more by M. injection S as <-.
    apply loc_spec in L; auto. apply invisible_told_spec in M. apply (known_spec _ _ _ _ Known) in K. eapply need_testonly; eauto.
  - apply invisible_told_spec in S. now constructor.
Qed.
Lemma create_edits_told_spec ev ms : create_edits_told w read_file ignore_keep verbose color headers generated known t details f = Ret (ev, ms) ->
  target_said pr w read_file verbose color headers generated t details f ev ms.
Proof.
  unfold create_edits_told. intros E. step E as a by S. step E as b by S0. step E as [nd ak] by S1. step E as ts by S2.
  step E as mn by S3. step E as ds by S4. step E as [[n1 e1] t1] by S5. step E as e2 by S6. step E as t2 by S7. injection E as <- <-.
  assert (Ss : map v_text (a ++ b) = srcs).
  { rewrite map_app. apply extract_texts in S. apply extract_texts in S0. unfold sources. congruence. }
  rewrite Ss in S2. apply sources_told_spec in S2 as (m1 & F1 & ->).
  apply extract_entries in S. apply extract_entries in S0. apply extract_entries in S4. subst a b ds.
  apply check_deps_told_spec in S5 as (ds & m2 & P & Le & F2 & ->).
  apply needs_told_spec in S7 as (m3 & F3 & ->).
  2:{ intros e I. apply (add_all_spec _ _ _ _ S6) in I as (s & _ & As). eauto. }
  exists m1, ds, e1, m2, e2, m3. auto 10.
Qed.
End Told.
