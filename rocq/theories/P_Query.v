(** Proofs about queries. *)
From Verif Require Import Base M_Scanner M_Ast M_Query S_Query M_Parser P_Parser S_Parser S_Elab P_Elab.

Definition with_cur (c : result) (st : finder) : finder :=
  mkFinder (f_rel st) c (f_default_visibility st) (f_out st).
Definition with_vis (v : option (list node)) (st : finder) : finder :=
  mkFinder (f_rel st) (f_cur st) v (f_out st).
Definition apply_kw (r : result) (kv : str * node) : result :=
  extract_query_info (NId (mkView (fst kv) (InFile 0))) (snd kv) r.
Definition apply_pkg (v : option (list node)) (kv : str * node) : option (list node) :=
  extract_package_info (NId (mkView (fst kv) (InFile 0))) (snd kv) v.

Section Query.
Variable interest : list str.
Variable allow : bool.
Notation visit := (visit interest allow).

Lemma visit_user n : forall st, f_rel st = UserQuery ->
  visit n st = Ret (with_cur (fold_left apply_kw (kwargs n) (f_cur st)) st).
Proof.
  assert (Same : forall st, Ret st = Ret (with_cur (f_cur st) st)) by (intros []; reflexivity).
  induction n using node_ind'; intros st R; cbn [M_Query.visit kwargs fold_left];
    try (destruct st; reflexivity).
  - apply IHn; auto.
  - rewrite IHn1; auto. cbn [bind]. rewrite IHn2; auto. cbn [f_cur with_cur].
    rewrite fold_left_app. reflexivity.
  - revert st R. induction H as [|x l Hx Hl IH]; intros st R; cbn [visit_elems flat_map]; [apply Same|].
    rewrite Hx; auto. cbn [bind]. rewrite IH; auto. rewrite fold_left_app. reflexivity.
  - apply IHn; auto.
  - rewrite IHn1; auto. cbn [bind]. rewrite IHn2; auto. cbn [bind]. rewrite IHn3; auto.
    rewrite !fold_left_app. reflexivity.
  - rewrite R. destruct n1; cbn [extract_query_info fold_left]; destruct st; simpl in *; subst; reflexivity.
  - rewrite R. apply IHn2; auto.
Qed.
Lemma visit_package n : forall st, f_rel st = PackageInfo ->
  visit n st = Ret (with_vis (fold_left apply_pkg (kwargs n) (f_default_visibility st)) st).
Proof.
  induction n using node_ind'; intros st R; cbn [M_Query.visit kwargs fold_left];
    try (destruct st; reflexivity).
  - apply IHn; auto.
  - rewrite IHn1; auto. cbn [bind]. rewrite IHn2; auto. cbn [f_default_visibility with_vis].
    rewrite fold_left_app. reflexivity.
  - revert st R. induction H as [|x l Hx Hl IH]; intros st R; cbn [visit_elems flat_map]; [destruct st; auto|].
    rewrite Hx; auto. cbn [bind]. rewrite IH; auto. rewrite fold_left_app. reflexivity.
  - apply IHn; auto.
  - rewrite IHn1; auto. cbn [bind]. rewrite IHn2; auto. cbn [bind]. rewrite IHn3; auto.
    rewrite !fold_left_app. reflexivity.
  - rewrite R. destruct n1; cbn [extract_package_info fold_left]; destruct st; simpl in *; subst; reflexivity.
  - rewrite R. apply IHn2; auto.
Qed.
Lemma elems_user l : forall st, f_rel st = UserQuery ->
  visit_elems visit l st = Ret (with_cur (fold_left apply_kw (flat_map kwargs l) (f_cur st)) st).
Proof. intros st R. apply (visit_user (NList LList l) st R). Qed.
Lemma elems_package l : forall st, f_rel st = PackageInfo ->
  visit_elems visit l st = Ret (with_vis (fold_left apply_pkg (flat_map kwargs l) (f_default_visibility st)) st).
Proof. intros st R. apply (visit_package (NList LList l) st R). Qed.

(** Keyword arguments *)
Lemma last_value_snoc {A} (f : node -> option A) key kws k v :
  last_value f key (kws ++ [(k, v)]) =
  match (if str_eqb k key then f v else None) with Some a => Some a | None => last_value f key kws end.
Proof.
  unfold last_value. rewrite rev_app_distr. cbn [rev app flat_map fst snd].
  destruct (str_eqb k key); [destruct (f v)|]; reflexivity.
Qed.

Ltac key k s := destruct (str_eqb k ($s)) eqn:?;
  [match goal with H : str_eqb k ($s) = true |- _ => apply str_eqb_eq in H; subst k; vm_compute; reflexivity end|].
Ltac all_keys k :=
  key k "name"%string; key k "actual"%string; key k "include_prefix"%string;
  key k "strip_include_prefix"%string; key k "version"%string; key k "repo_name"%string;
  key k "deprecation"%string; key k "alwayslink"%string; key k "testonly"%string;
  key k "srcs"%string; key k "hdrs"%string; key k "textual_hdrs"%string; key k "public_hdrs"%string;
  key k "deps"%string; key k "includes"%string; key k "outs"%string; key k "visibility"%string.
Lemma apply_kw_described n rule kws kv :
  apply_kw (described n rule kws) kv = described n rule (kws ++ [kv]).
Proof.
  destruct kv as [k v]. unfold apply_kw, described. cbn [fst snd].
  rewrite !last_value_snoc. cbn [extract_query_info v_text].
  repeat match goal with |- context [last_value ?f ?k kws] => generalize (last_value f k kws); intro end.
  assert (NoText : forall b : bool, (if b then @None view else None) = None) by (intros []; auto).
  assert (NoList : forall b : bool, (if b then @None (list node) else None) = None) by (intros []; auto).
  assert (NoFlag : forall b : bool, (if b then @None bool else None) = None) by (intros []; auto).
  destruct v; cbn [as_text as_list as_flag]; rewrite ?NoText, ?NoList, ?NoFlag; try reflexivity;
    unfold set_scalar, set_list, set_identifier;
    all_keys k; reflexivity.
Qed.
Lemma fold_described n rule kws : fold_left apply_kw kws (empty_result n rule) = described n rule kws.
Proof.
  induction kws as [|kv kws IH] using rev_ind; [reflexivity|].
  rewrite fold_left_app, IH. apply apply_kw_described.
Qed.
Lemma fold_package kws vis :
  fold_left apply_pkg kws vis =
  match last_value as_list ($"default_visibility") kws with Some v => Some v | None => vis end.
Proof.
  induction kws as [|[k v] kws IH] using rev_ind; [reflexivity|].
  rewrite fold_left_app, IH, last_value_snoc. unfold apply_pkg; cbn [fold_left fst snd extract_package_info v_text].
  destruct v; cbn [as_list]; destruct (str_eqb k ($"default_visibility")); reflexivity.
Qed.

(** Outside of calls *)
Definition vis_after (vis : option (list node)) (n : node) : option (list node) :=
  match n with
  | NCall (NId f) (NList _ args) =>
      if str_eqb (v_text f) ($"package") then
        match last_value as_list ($"default_visibility") (flat_map kwargs args) with Some v => Some v | None => vis end
      else vis
  | _ => vis
  end.
Lemma reported_app vis a b : Forall proper_call a ->
  reported interest allow vis (a ++ b) =
  reported interest allow vis a ++ reported interest allow (fold_left vis_after a vis) b.
Proof.
  intros F. revert vis. induction F as [|n a (f & ty & args & ->) F IH]; intros vis; [reflexivity|].
  cbn [app reported fold_left vis_after]. destruct (str_eqb (v_text f) ($"package")); rewrite IH; auto.
  rewrite app_assoc. reflexivity.
Qed.

Definition result_of (calls : list node) (st st' : finder) : Prop :=
  f_rel st' = NotRelevant /\
  f_default_visibility st' = fold_left vis_after calls (f_default_visibility st) /\
  f_out st' = f_out st ++ reported interest allow (f_default_visibility st) calls.
Lemma result_of_nil st : f_rel st = NotRelevant -> result_of [] st st.
Proof. intros R. repeat split; auto. cbn. rewrite app_nil_r; auto. Qed.
Lemma result_of_app a b st st1 st2 : Forall proper_call a ->
  result_of a st st1 -> result_of b st1 st2 -> result_of (a ++ b) st st2.
Proof.
  intros F (R1 & V1 & O1) (R2 & V2 & O2). repeat split; auto.
  - rewrite V2, V1, fold_left_app; auto.
  - rewrite O2, O1, V1, reported_app, app_assoc; auto.
Qed.

Lemma inform_caller_spec st :
  inform_caller allow st =
  if allow || negb (is_nil (v_text (q_name (f_cur st)))) then
    mkFinder (f_rel st) (completed (f_default_visibility st) (f_cur st)) (f_default_visibility st)
      (f_out st ++ [completed (f_default_visibility st) (f_cur st)])
  else st.
Proof.
  destruct st as [rel r vis out]. unfold inform_caller. cbn [f_cur f_rel f_default_visibility f_out].
  replace (negb allow && is_nil (v_text (q_name r))) with (negb (allow || negb (is_nil (v_text (q_name r)))))
    by (destruct allow, (is_nil (v_text (q_name r))); reflexivity).
  destruct (allow || _); cbn [negb]; [|reflexivity].
  assert (C : forall r, (let '(mkResult nd ru na ac ip sp ve rn de al te sr hd th ph dp ic ou vi) := r in
    let al := if str_eqb (v_text ru) ($"cc_library") && is_nil (opt_elems hd) then true else al in
    let vi := match vi with None => vis | Some _ => vi end in
    mkResult nd ru na ac ip sp ve rn de al te sr hd th ph dp ic ou vi) = completed vis r).
  { intros [nd ru na ac ip sp ve rn de al te sr hd th ph dp ic ou vi]. unfold completed.
    cbn [q_node q_rule q_name q_actual q_include_prefix q_strip_include_prefix q_version q_repo_name
         q_deprecation q_alwayslink q_testonly q_srcs q_hdrs q_textual_hdrs q_public_hdrs q_deps q_includes
         q_outs q_visibility].
    f_equal.
    - destruct (str_eqb (v_text ru) ($"cc_library")); cbn [andb]; [|rewrite orb_false_r; auto].
      destruct hd as [[|x l]|]; cbn [opt_elems is_nil]; rewrite ?orb_true_r, ?orb_false_r; reflexivity.
    - destruct vi; reflexivity. }
  rewrite <- C. destruct r. reflexivity.
Qed.
Lemma visit_call f ty args st : f_rel st = NotRelevant ->
  exists st', visit (NCall (NId f) (NList ty args)) st = Ret st' /\
              result_of [NCall (NId f) (NList ty args)] st st'.
Proof.
  intros R. cbn [M_Query.visit]. rewrite R. unfold is_relevant.
  destruct (str_eqb (v_text f) ($"package")) eqn:P.
  - rewrite elems_package by reflexivity. cbn [bind]. eexists; split; [reflexivity|].
    repeat split; cbn [f_default_visibility f_out with_vis fold_left vis_after reported].
    + rewrite P. apply fold_package.
    + rewrite P, app_nil_r. reflexivity.
  - set (n := NCall (NId f) (NList ty args)).
    assert (Rep : reported interest allow (f_default_visibility st) [n] =
      (if is_nil interest || existsb (str_eqb (v_text f)) interest then
         if allow || negb (is_nil (v_text (q_name (described n f (flat_map kwargs args)))))
         then [completed (f_default_visibility st) (described n f (flat_map kwargs args))] else []
       else [])).
    { unfold n. cbn [reported]. rewrite P, app_nil_r. reflexivity. }
    assert (Q : forall st', f_rel st' = NotRelevant -> f_default_visibility st' = f_default_visibility st ->
      f_out st' = f_out st ++ reported interest allow (f_default_visibility st) [n] -> result_of [n] st st').
    { intros st' A B C. repeat split; auto. rewrite B. unfold n. cbn [fold_left vis_after]. rewrite P. reflexivity. }
    destruct (is_nil interest || existsb (str_eqb (v_text f)) interest) eqn:I.
    + assert (E : (if is_nil interest then UserQuery else
                   if existsb (str_eqb (v_text f)) interest then UserQuery else NotRelevant) = UserQuery).
      { destruct (is_nil interest); auto. cbn in I. rewrite I; auto. }
      rewrite E. rewrite elems_user by reflexivity. cbn [bind f_cur]. rewrite fold_described.
      eexists; split; [reflexivity|]. apply Q; cbn [f_rel f_default_visibility f_out]; auto.
      * rewrite inform_caller_spec. destruct (allow || _); reflexivity.
      * rewrite Rep, inform_caller_spec. cbn [f_cur with_cur f_default_visibility].
        destruct (allow || _); [reflexivity|]. cbn [f_out with_cur]. rewrite app_nil_r. reflexivity.
    + apply orb_false_iff in I. destruct I as [-> ->].
      eexists; split; [reflexivity|]. apply Q; auto. rewrite Rep, app_nil_r; auto.
Qed.

Lemma visit_spec n : forall st, f_rel st = NotRelevant -> Forall proper_call (rule_calls n) ->
  exists st', visit n st = Ret st' /\ result_of (rule_calls n) st st'.
Proof.
  induction n using node_ind'; intros st R F; cbn [rule_calls] in *;
    try (eexists; split; [reflexivity|apply result_of_nil; auto]).
  - apply IHn; auto.
  - apply Forall_app in F. destruct F as [F1 F2].
    destruct (IHn1 st R F1) as (s1 & E1 & R1). destruct (IHn2 s1 (proj1 R1) F2) as (s2 & E2 & R2).
    exists s2. cbn [M_Query.visit]. rewrite E1; cbn [bind]. split; auto. eapply result_of_app; eauto.
  - cbn [M_Query.visit]. revert st R F.
    induction H as [|x l Hx Hl IH]; intros st R F; cbn [visit_elems flat_map] in *.
    + eexists; split; [reflexivity|apply result_of_nil; auto].
    + apply Forall_app in F. destruct F as [F1 F2].
      destruct (Hx st R F1) as (s1 & E1 & R1). destruct (IH s1 (proj1 R1) F2) as (s2 & E2 & R2).
      exists s2. rewrite E1; cbn [bind]. split; auto. eapply result_of_app; eauto.
  - apply IHn; auto.
  - apply Forall_app in F. destruct F as [F1 F]. apply Forall_app in F. destruct F as [F2 F3].
    destruct (IHn1 st R F1) as (s1 & E1 & R1). destruct (IHn2 s1 (proj1 R1) F2) as (s2 & E2 & R2).
    destruct (IHn3 s2 (proj1 R2) F3) as (s3 & E3 & R3).
    exists s3. cbn [M_Query.visit]. rewrite E1; cbn [bind]. rewrite E2; cbn [bind]. split; auto.
    eapply result_of_app; eauto. eapply result_of_app; eauto.
  - eexists; split; [reflexivity|]. rewrite R. apply result_of_nil; auto.
  - inv F. destruct H1 as (f & ty & args & E). inv E. apply visit_call; auto.
Qed.
End Query.

Theorem find_targets_spec interest allow stmts :
  Forall proper_call (flat_map rule_calls stmts) ->
  find_targets_in interest allow stmts = Ret (reported interest allow None (flat_map rule_calls stmts)).
Proof.
  intros F. destruct (visit_spec interest allow (NList LList stmts) initial_finder eq_refl F)
    as (st & E & (_ & _ & O)).
  unfold find_targets_in. rewrite E. cbn [bind]. rewrite O. reflexivity.
Qed.

Lemma last_value_app {A} (f : node -> option A) key a b :
  last_value f key (a ++ b) =
  match last_value f key b with Some x => Some x | None => last_value f key a end.
Proof.
  unfold last_value. rewrite rev_app_distr, flat_map_app.
  destruct (flat_map _ (rev b)); reflexivity.
Qed.
Lemma fold_vis_after calls vis : Forall proper_call calls ->
  fold_left vis_after calls vis =
  match last_value as_list ($"default_visibility") (package_keywords calls) with Some v => Some v | None => vis end.
Proof.
  intros F. revert vis. induction F as [|n calls (f & ty & args & ->) F IH]; intros vis; [reflexivity|].
  cbn [fold_left]. rewrite IH. unfold package_keywords. cbn [flat_map].
  rewrite last_value_app. fold (package_keywords calls). unfold vis_after. cbn [call_name call_keywords].
  destruct (last_value as_list _ (package_keywords calls)); [reflexivity|].
  destruct (str_eqb (v_text f) ($"package")); reflexivity.
Qed.

Lemma reported_nodes interest allow calls : Forall proper_call calls -> forall vis,
  map q_node (reported interest allow vis calls) = filter (matching interest allow) calls.
Proof.
  induction 1 as [|n calls (f & ty & args & ->) F IH]; intros vis; [reflexivity|].
  cbn [reported filter]. unfold matching at 1, rule_name. cbn [call_name call_keywords].
  destruct (str_eqb (v_text f) ($"package")); cbn [negb andb]; auto.
  rewrite map_app, IH. destruct (is_nil interest || _); cbn [andb]; auto.
  cbn [described q_name]. unfold text_or_empty.
  replace (v_text match last_value as_text ($"name") (flat_map kwargs args) with Some v => v | None => no_view end)
    with (match last_value as_text ($"name") (flat_map kwargs args) with Some v => v_text v | None => [] end)
    by (destruct (last_value as_text ($"name") (flat_map kwargs args)); reflexivity).
  destruct (allow || _); reflexivity.
Qed.

Lemma reported_in interest allow r calls : Forall proper_call calls -> forall vis,
  In r (reported interest allow vis calls) ->
  exists a f ty args b, calls = a ++ NCall (NId f) (NList ty args) :: b /\
    matching interest allow (NCall (NId f) (NList ty args)) = true /\
    r = completed (match last_value as_list ($"default_visibility") (package_keywords a) with Some v => Some v | None => vis end)
          (described (NCall (NId f) (NList ty args)) f (flat_map kwargs args)).
Proof.
  induction 1 as [|n calls (f & ty & args & ->) F IH]; intros vis Hr; [destruct Hr|].
  cbn [reported] in Hr.
  assert (Later : forall vis', In r (reported interest allow vis' calls) ->
    vis' = vis_after vis (NCall (NId f) (NList ty args)) ->
    exists a f0 ty0 args0 b, NCall (NId f) (NList ty args) :: calls = a ++ NCall (NId f0) (NList ty0 args0) :: b /\
      matching interest allow (NCall (NId f0) (NList ty0 args0)) = true /\
      r = completed (match last_value as_list ($"default_visibility") (package_keywords a) with Some v => Some v | None => vis end)
          (described (NCall (NId f0) (NList ty0 args0)) f0 (flat_map kwargs args0))).
  { intros vis' Hr' Ev. destruct (IH vis' Hr') as (a & f0 & ty0 & args0 & b & -> & M & ->).
    exists (NCall (NId f) (NList ty args) :: a), f0, ty0, args0, b. split; [reflexivity|]. split; auto.
    f_equal. apply Forall_app in F. destruct F as [F _].
    rewrite <- (fold_vis_after a vis' F), <- (fold_vis_after (_ :: a)).
    - cbn [fold_left]. rewrite Ev. reflexivity.
    - constructor; auto. unfold proper_call. eauto. }
  unfold vis_after in Later.
  destruct (str_eqb (v_text f) ($"package")) eqn:P; [eapply Later; eauto|].
  apply in_app_or in Hr. destruct Hr as [Hr|Hr]; [|eapply Later; eauto].
  exists [], f, ty, args, calls. split; [reflexivity|].
  assert (E : is_nil (v_text (q_name (described (NCall (NId f) (NList ty args)) f (flat_map kwargs args)))) =
              is_nil (rule_name (NCall (NId f) (NList ty args)))).
  { cbn [described q_name]. unfold rule_name, text_or_empty. cbn [call_keywords].
    destruct (last_value as_text ($"name") (flat_map kwargs args)); reflexivity. }
  rewrite E in Hr. unfold matching. cbn [call_name]. rewrite P. cbn [negb andb].
  destruct (is_nil interest || _); [|destruct Hr].
  destruct (allow || _); [|destruct Hr]. destruct Hr as [<-|[]]. auto.
Qed.

(** Complete trees *)
Lemma last_value_in {A} (f : node -> option A) key kws a :
  last_value f key kws = Some a -> exists k v, In (k, v) kws /\ f v = Some a.
Proof.
  unfold last_value. intros H.
  assert (I : In a (flat_map (fun kv => if str_eqb (fst kv) key then match f (snd kv) with Some a => [a] | None => [] end else [])
              (rev kws))).
  { destruct (flat_map _ (rev kws)); [discriminate|]. injection H as ->. left; auto. }
  apply in_flat_map in I. destruct I as ([k v] & I & J). cbn [fst snd] in J.
  destruct (str_eqb k key); [|destruct J]. destruct (f v) eqn:E; [|destruct J].
  destruct J as [->|[]]. exists k, v. split; auto. apply in_rev; auto.
Qed.

Definition sound_call (n : node) : Prop :=
  exists f ty args, n = NCall (NId f) (NList ty args) /\ Forall argument args.
Definition sound_kws (kws : list (str * node)) : Prop := Forall (fun kv => snd kv = NNull \/ sound (snd kv)) kws.

Lemma sound_walk n : sound n \/ chain n \/ n = NNull ->
  Forall sound_call (rule_calls n) /\ sound_kws (kwargs n).
Proof.
  assert (Nil : Forall sound_call [] /\ sound_kws []) by (split; constructor).
  assert (App : forall A B C D, Forall sound_call A /\ sound_kws C -> Forall sound_call B /\ sound_kws D ->
    Forall sound_call (A ++ B) /\ sound_kws (C ++ D)).
  { intros A B C D [] []. split; apply Forall_app; auto. }
  induction n as [n IH] using size_ind. intros H.
  assert (Fl : forall l, (forall x, In x l -> nsize x < nsize n) -> Forall (fun x => sound x \/ x = NNull) l ->
     Forall sound_call (flat_map rule_calls l) /\ sound_kws (flat_map kwargs l)).
  { induction l as [|x l IHl]; intros Hs F; [exact Nil|]. inv F. cbn [flat_map]. apply App.
    - apply IH; [apply Hs; left; auto|]. tauto.
    - apply IHl; auto. intros y Hy. apply Hs; right; auto. }
  assert (Fs : forall l, Forall sound l -> Forall (fun x => sound x \/ x = NNull) l)
    by (intros l; apply Forall_impl; auto).
  assert (Fn : forall l, Forall (fun x => x = NNull \/ sound x) l -> Forall (fun x => sound x \/ x = NNull) l)
    by (intros l; apply Forall_impl; tauto).
  assert (Fa : forall l, (forall x, In x l -> nsize x < nsize n) -> Forall argument l ->
     Forall sound_call (flat_map rule_calls l) /\ sound_kws (flat_map kwargs l)).
  { induction l as [|x l IHl]; intros Hs F; [exact Nil|]. inv F. cbn [flat_map]. apply App.
    - destruct H2 as [H2|(k & rg & -> & _)]; [apply IH; [apply Hs; left; auto|tauto]|].
      split; [constructor|]. constructor; [left; reflexivity|constructor].
    - apply IHl; auto. intros y Hy. apply Hs; right; auto. }
  destruct H as [H|[H| ->]]; [| |exact Nil].
  - inv H; cbn [rule_calls kwargs]; auto.
    + apply IH; [cbn; lia|tauto].
    + apply App; apply IH; auto; cbn; lia.
    + apply App; apply IH; try tauto; cbn; lia.
    + apply App; [apply IH; auto; cbn; lia|]. cbn [rule_calls kwargs].
      apply App; apply IH; try tauto; cbn; lia.
    + apply Fl; auto. intros x Hx. apply nsize_in in Hx; cbn [nsize]; lia.
    + apply IH; [cbn; lia|tauto].
    + apply App; [apply IH; try tauto; cbn; lia|]. apply App; apply IH; try tauto; cbn; lia.
    + split; [constructor|]. destruct l; first [apply Forall_nil|apply Forall_cons; [auto|apply Forall_nil]].
    + split.
      * constructor; [|constructor]. unfold sound_call. eauto 6.
      * apply Fa; auto. intros x Hx. apply nsize_in in Hx; cbn [nsize]; lia.
  - inv H. cbn [rule_calls kwargs]. apply App; [|apply App].
    + apply IH; [cbn; lia|tauto].
    + apply Fl; auto. intros x Hx. apply nsize_in in Hx; cbn [nsize]; lia.
    + apply IH; [cbn; lia|tauto].
Qed.

Lemma sound_flat l : Forall sound l ->
  Forall sound_call (flat_map rule_calls l) /\ sound_kws (flat_map kwargs l).
Proof.
  intros H. apply (sound_walk (NList LList l)). left. constructor. auto.
Qed.
Lemma argument_kws l : Forall argument l -> sound_kws (flat_map kwargs l).
Proof.
  induction 1 as [|x l H F IH]; [constructor|]. cbn [flat_map]. apply Forall_app. split; [|exact IH].
  destruct H as [H|(k & rg & -> & _)]; [apply sound_walk; auto|]. constructor; [left; reflexivity|constructor].
Qed.
Lemma tolerable_walk n : tolerable n -> Forall sound_call (rule_calls n) /\ sound_kws (kwargs n).
Proof.
  intros [->|[H|(l & rg & ->)]]; [apply sound_walk; auto|apply sound_walk; auto|].
  split; [constructor|]. cbn [kwargs]. destruct l; first [apply Forall_nil|apply Forall_cons; [left; reflexivity|apply Forall_nil]].
Qed.
Lemma tolerable_calls l : Forall tolerable l -> Forall sound_call (flat_map rule_calls l).
Proof. induction 1 as [|n l H F IH]; [constructor|]. cbn [flat_map]. apply Forall_app. split; [apply tolerable_walk; auto|exact IH]. Qed.
Lemma sound_proper l : Forall sound_call l -> Forall proper_call l.
Proof. apply Forall_impl. intros n (f & ty & args & -> & _). unfold proper_call. eauto. Qed.
Lemma last_list_sound key kws l : sound_kws kws -> last_value as_list key kws = Some l -> Forall sound l.
Proof.
  intros S E. apply last_value_in in E. destruct E as (k & v & I & E).
  unfold sound_kws in S. rewrite Forall_forall in S. specialize (S _ I). cbn [snd] in S.
  destruct v; try discriminate. cbn in E. inv E. destruct S as [S|S]; [discriminate|]. inv S. auto.
Qed.
Theorem find_targets_tolerable interest allow stmts : Forall tolerable stmts ->
  exists rs, find_targets_in interest allow stmts = Ret rs /\
    forall r l, In r rs -> In l (result_lists r) -> exists strs, string_list l = Ret strs.
Proof.
  intros H. apply tolerable_calls in H.
  eexists. split; [apply find_targets_spec, sound_proper, H|].
  intros r l Hr Hl. apply string_list_sound.
  apply reported_in in Hr; [|apply sound_proper; auto].
  destruct Hr as (a & f & ty & args & b & E & _ & ->).
  assert (K : sound_kws (flat_map kwargs args)).
  { rewrite E in H. apply Forall_app in H. destruct H as [_ H]. inv H.
    destruct H2 as (f' & ty' & args' & E' & S). inv E'. apply argument_kws in S. apply S. }
  assert (Kp : sound_kws (package_keywords a)).
  { rewrite E in H. apply Forall_app in H. destruct H as [H _]. clear - H.
    induction H as [|n a (f & ty & args & -> & S) H IH]; [constructor|].
    unfold package_keywords. cbn [flat_map call_name call_keywords]. apply Forall_app. split; auto.
    destruct (str_eqb _ _); [|constructor]. apply argument_kws in S. apply S. }
  unfold result_lists in Hl. cbn [flat_map completed described q_srcs q_hdrs q_textual_hdrs q_public_hdrs q_deps
    q_includes q_outs q_visibility] in Hl.
  assert (Opt : forall key, In l (match last_value as_list key (flat_map kwargs args) with Some l => [l] | None => [] end) ->
    Forall sound l).
  { intros key I. destruct (last_value as_list key _) eqn:L; [|destruct I].
    destruct I as [<-|[]]. eapply last_list_sound; [|eassumption]; auto. }
  repeat (apply in_app_or in Hl; destruct Hl as [Hl|Hl]; [solve [eapply Opt; eauto]|]).
  rewrite app_nil_r in Hl.
  destruct (last_value as_list ($"visibility") (flat_map kwargs args)) eqn:L.
  - destruct Hl as [<-|[]]. eapply last_list_sound; [|eassumption]; auto.
  - destruct (last_value as_list ($"default_visibility") (package_keywords a)) eqn:L2; [|destruct Hl].
    destruct Hl as [<-|[]]. eapply last_list_sound; [|eassumption]; auto.
Qed.
Theorem find_targets_defined interest allow stmts : Forall sound stmts ->
  exists rs, find_targets_in interest allow stmts = Ret rs /\
    forall r l, In r rs -> In l (result_lists r) -> exists strs, string_list l = Ret strs.
Proof. intros H. apply find_targets_tolerable. eapply Forall_impl; [|exact H]. intros n S. right. left. exact S. Qed.

Theorem find_targets_once interest allow stmts rs :
  Forall proper_call (flat_map rule_calls stmts) ->
  find_targets_in interest allow stmts = Ret rs ->
  map q_node rs = filter (matching interest allow) (flat_map rule_calls stmts).
Proof.
  intros F E. rewrite find_targets_spec in E by auto. inv E. apply reported_nodes; auto.
Qed.
Theorem find_targets_attributes interest allow stmts rs r :
  Forall proper_call (flat_map rule_calls stmts) ->
  find_targets_in interest allow stmts = Ret rs -> In r rs ->
  exists a f ty args b, flat_map rule_calls stmts = a ++ NCall (NId f) (NList ty args) :: b /\
    matching interest allow (NCall (NId f) (NList ty args)) = true /\
    r = completed (last_value as_list ($"default_visibility") (package_keywords a))
          (described (NCall (NId f) (NList ty args)) f (flat_map kwargs args)).
Proof.
  intros F E I. rewrite find_targets_spec in E by auto. inv E.
  apply reported_in in I; auto. destruct I as (a & f & ty & args & b & E & M & R).
  exists a, f, ty, args, b. split; auto. split; auto. rewrite R. f_equal.
  destruct (last_value as_list _ (package_keywords a)); auto.
Qed.
