(** Proofs about labels and patterns. *)
From Verif Require Import Base OMap M_Regex P_Regex M_Types S_Labels.

Lemma package_eqb_eq a b : package_eqb a b = true <-> a = b.
Proof.
  unfold package_eqb. rewrite andb_true_iff, !str_eqb_eq.
  destruct a, b; simpl. split; [intros [-> ->]; auto | intros E; inversion E; auto].
Qed.
Lemma package_eqb_neq a b : package_eqb a b = false <-> a <> b.
Proof. rewrite <- package_eqb_eq. destruct (package_eqb a b); split; congruence. Qed.
Lemma package_eqb_refl a : package_eqb a a = true.
Proof. apply package_eqb_eq; auto. Qed.
Lemma target_eqb_eq a b : target_eqb a b = true <-> a = b.
Proof.
  unfold target_eqb. rewrite andb_true_iff, package_eqb_eq, str_eqb_eq.
  destruct a, b; simpl. split; [intros [-> ->]; auto | intros E; inversion E; auto].
Qed.

Lemma some_inj {A} (a b : A) : Some a = Some b -> a = b.
Proof. congruence. Qed.

(** ** Package parsing *)
Lemma prefix_upto_notin c s : ~ In c s -> prefix_upto s (find_last c s) = s.
Proof. intros H. apply find_last_none in H. rewrite H. reflexivity. Qed.
Lemma prefix_upto_first_notin c s : ~ In c s -> prefix_upto s (find_first c s) = s.
Proof. intros H. apply find_first_none in H. rewrite H. reflexivity. Qed.
Lemma prefix_upto_first_app c a b :
  ~ In c a -> prefix_upto (a ++ c :: b) (find_first c (a ++ c :: b)) = a.
Proof. intros H. rewrite find_first_app; auto. simpl. apply firstn_app_exact. Qed.

Lemma contains_dslash_false p :
  (forall a b, p <> a ++ ["/"%char; "/"%char] ++ b) -> contains ($"//") p = false.
Proof.
  intros H. destruct (contains ($"//") p) eqn:E; auto.
  apply contains_iff in E as [a [b E]]. exfalso. apply (H a b). exact E.
Qed.
Lemma contains_dslash_true p :
  contains ($"//") p = false -> forall a b, p <> a ++ ["/"%char; "/"%char] ++ b.
Proof.
  intros H a b E. assert (C : contains ($"//") p = true) by (apply contains_iff; eauto).
  congruence.
Qed.

Lemma strip_wf_path p : wf_path p -> strip_back "/" (strip_front "/" p) = p.
Proof.
  intros [_ [H1 [H2 _]]]. rewrite strip_front_id; auto. apply strip_back_id; auto.
Qed.

Definition at_char : ascii := "@"%char.

Lemma at_head r : starts_with ($"@") ("@"%char :: r) = true.
Proof. reflexivity. Qed.
Lemma not_at c r : c <> "@"%char -> starts_with ($"@") (c :: r) = false.
Proof. intros N. simpl. replace (ceqb "@" c) with false; auto. symmetry. apply ceqb_neq. congruence. Qed.

Definition parse_package_body (s : str) : option package :=
  if length s <? 2 then None
  else
    let '(proj, pth) :=
      if starts_with ($"@") s then
        let proj := prefix_upto s (find_first "/" s) in
        let pth := skipn (length proj) s in
        (if str_eqb proj ($"@") then [] else proj, pth)
      else ([], s) in
    let pth := strip_back "/" (strip_front "/" pth) in
    if contains ($"//") pth then None
    else Some (mkPackage (prefix_upto proj (find_first "~" proj)) pth).

Lemma parse_package_nocolon s :
  ~ In ":"%char s -> parse_package s = parse_package_body s.
Proof.
  intros H. unfold parse_package. rewrite prefix_upto_notin; auto.
Qed.

Lemma not_at_head s : (exists c r, s = c :: r /\ c <> "@"%char) \/ s = [] \/ exists r, s = "@"%char :: r.
Proof.
  destruct s as [|c r]; auto. destruct (ascii_dec c "@") as [->|N]; eauto 6.
Qed.

(** Parsing a printed package. *)
Lemma parse_printed_package p :
  wf_package p -> parse_package (package_to_string p) = Some p.
Proof.
  destruct p as [pr pt]. intros [Hpr Hpt]. simpl in *. unfold package_to_string; simpl.
  destruct Hpr as [->|[r [-> [Hr1 [Hr2 [Hr3 Hr4]]]]]].
  - rewrite parse_package_nocolon.
    2:{ simpl. intros [H|[H|H]]; try discriminate. apply Hpt; auto. }
    unfold parse_package_body. simpl. rewrite strip_wf_path; auto.
    rewrite contains_dslash_false; auto. apply Hpt.
  - rewrite parse_package_nocolon.
    2:{ simpl. intros [H|H]; [discriminate|]. apply in_app_or in H as [H|H]; auto.
        simpl in H. destruct H as [H|[H|H]]; try discriminate. apply Hpt; auto. }
    unfold parse_package_body.
    change (("@"%char :: r) ++ "/"%char :: "/"%char :: pt)
      with ("@"%char :: (r ++ "/"%char :: "/"%char :: pt)).
    cbn [length]. destruct (length (r ++ "/"%char :: "/"%char :: pt)) as [|n] eqn:L.
    { rewrite app_length in L. simpl in L. lia. }
    change (S (S n) <? 2) with false. cbn iota.
    change ("@"%char :: (r ++ "/"%char :: "/"%char :: pt))
      with (("@"%char :: r) ++ "/"%char :: ("/"%char :: pt)).
    rewrite prefix_upto_first_app.
    2:{ simpl. intros [H|H]; [discriminate|auto]. }
    rewrite skipn_app_exact.
    assert (Hne : str_eqb ("@"%char :: r) ($"@") = false).
    { apply str_eqb_neq. intros E. inversion E. auto. }
    rewrite Hne.
    change (starts_with ($"@") (("@"%char :: r) ++ "/"%char :: "/"%char :: pt)) with true.
    cbn [strip_front]. change (ceqb "/" "/") with true. cbn iota.
    rewrite strip_wf_path; auto. rewrite contains_dslash_false by apply Hpt.
    rewrite prefix_upto_first_notin.
    2:{ simpl. intros [H|H]; [discriminate|auto]. }
    reflexivity.
Qed.

(** What every successful parse guarantees. *)
Lemma parse_package_sound s p :
  ~ In ":"%char s -> parse_package s = Some p ->
  wf_path (path p) /\ (wf_project (project p) \/ project p = ["@"%char]).
Proof.
  intros Hc. rewrite parse_package_nocolon; auto. unfold parse_package_body.
  destruct (length s <? 2); [discriminate|].
  assert (W : forall x, (forall y, In y x -> In y s) ->
              contains ($"//") (strip_back "/" (strip_front "/" x)) = false ->
              wf_path (strip_back "/" (strip_front "/" x))).
  { intros x Hx Hn. repeat split.
    - intros I. apply in_strip_back, in_strip_front in I. auto.
    - intros r E. destruct (strip_back_repeat "/" (strip_front "/" x)) as [n En].
      rewrite E in En. apply (strip_front_nohead "/" x (r ++ repeat "/"%char n)).
      exact En.
    - intros r E. apply (strip_back_notail "/" _ r E).
    - apply contains_dslash_true; auto. }
  destruct (not_at_head s) as [[c [r [-> N]]]|[->|[r ->]]].
  - rewrite not_at by auto.
    destruct (contains _ _) eqn:C; [discriminate|]. intros E. inversion E; subst. cbn [path project].
    split; [apply (W (c :: r)); auto | left; left; auto].
  - simpl. intros E. inversion E; subst. simpl. split; [|left; left; auto].
    apply (W []); auto.
  - rewrite at_head. set (proj := prefix_upto _ _). set (pth := skipn _ _).
    destruct (contains _ _) eqn:C; [discriminate|]. intros E. apply some_inj in E.
    rewrite <- E. clear E. cbn [path project]. split.
    { apply W; auto. intros y I. unfold pth in I.
      rewrite <- (firstn_skipn (length proj) ("@"%char :: r)). apply in_or_app; auto. }
    assert (Hp : exists q, proj = "@"%char :: q /\ ~ In "/"%char q /\ ~ In ":"%char q).
    { unfold proj. destruct (find_first "/" ("@"%char :: r)) as [i|] eqn:F; simpl prefix_upto.
      - pose proof F as F'. apply find_first_some in F' as [F1 F2].
        destruct i as [|i]; [simpl in F; destruct (find_first "/" r); discriminate|].
        exists (firstn i r). split; auto. simpl in F2. split; [tauto|].
        intros I. apply Hc. right. rewrite <- (firstn_skipn i r). apply in_or_app; auto.
      - apply find_first_none in F. exists r. split; auto. split.
        + intros I. apply F. simpl; auto.
        + intros I. apply Hc. simpl; auto. }
    destruct Hp as [q [Hq [Hq1 Hq2]]]. rewrite Hq.
    destruct (str_eqb_spec ("@"%char :: q) ($"@")) as [Eq|Nq].
    + simpl. left; left; auto.
    + destruct (find_first "~" ("@"%char :: q)) as [i|] eqn:F; simpl prefix_upto.
      * pose proof F as F'. apply find_first_some in F' as [F1 F2].
        destruct i as [|i]; [simpl in F; destruct (find_first "~" q); discriminate|].
        simpl in *. destruct (firstn i q) as [|y q'] eqn:Fq; auto. left. right.
        exists (y :: q'). split; auto. split; [discriminate|].
        rewrite <- Fq. repeat split.
        -- intros I. apply Hq1. rewrite <- (firstn_skipn i q). apply in_or_app; auto.
        -- intros I. apply Hq2. rewrite <- (firstn_skipn i q). apply in_or_app; auto.
        -- rewrite Fq. tauto.
      * apply find_first_none in F. left. right. exists q.
        split; auto. split; [intros ->; auto|]. split; [auto|split; auto].
        intros I. apply F. simpl; auto.
Qed.

(** ** Target parsing *)
Lemma wf_path_nocolon p : wf_path p -> ~ In ":"%char p.
Proof. intros [H _]; auto. Qed.
Lemma wf_project_nocolon p : wf_project p -> ~ In ":"%char p.
Proof.
  intros [->|[r [-> [_ [_ [H _]]]]]]; auto. simpl. intros [E|E]; [discriminate|auto].
Qed.
Lemma package_string_nocolon p : wf_package p -> ~ In ":"%char (package_to_string p).
Proof.
  intros [H1 H2]. unfold package_to_string. rewrite !in_app_iff. simpl.
  intros [H|[[H|[H|[]]]|H]].
  - apply (wf_project_nocolon _ H1 H).
  - discriminate.
  - discriminate.
  - apply (wf_path_nocolon _ H2 H).
Qed.
Lemma package_string_nonempty p : package_to_string p <> [].
Proof. unfold package_to_string. destruct (project p); discriminate. Qed.

Definition with_project (pr : str) (p : package) : package :=
  if is_nil (project p) then mkPackage pr (path p) else p.

(** Parsing "<package>:<name>". *)
Lemma parse_full_label p n ctx :
  wf_package p -> ~ In ":"%char n ->
  parse_target (package_to_string p ++ $":" ++ n) ctx
  = Some (mkTarget (with_project (project ctx) p) n).
Proof.
  intros Hp Hn. unfold parse_target. simpl app.
  rewrite split_app by (apply package_string_nocolon; auto).
  rewrite split_notin by auto.
  destruct (is_nil (package_to_string p)) eqn:E.
  { apply is_nil_true in E. apply package_string_nonempty in E. tauto. }
  rewrite parse_printed_package; auto.
Qed.

(** Parsing ":name". *)
Lemma parse_local_label n ctx :
  ~ In ":"%char n -> parse_target ($":" ++ n) ctx = Some (mkTarget ctx n).
Proof.
  intros Hn. unfold parse_target. simpl. rewrite split_notin; auto.
Qed.

Lemma find_last_slash_package p :
  wf_package p -> exists i, find_last "/" (package_to_string p) = Some i /\
  skipn (i + 1) (package_to_string p) =
    match find_last "/" (path p) with
    | Some pos => skipn (pos + 1) (path p)
    | None => path p
    end.
Proof.
  intros [H1 H2]. unfold package_to_string. destruct p as [pr pt]; simpl in *.
  destruct (find_last "/" pt) as [i|] eqn:F.
  - apply find_last_some in F as [F1 F2].
    exists (length (pr ++ $"//" ++ firstn i pt)). split.
    + rewrite F1 at 1.
      replace (pr ++ "/"%char :: "/"%char :: firstn i pt ++ "/"%char :: skipn (S i) pt)
        with ((pr ++ $"//" ++ firstn i pt) ++ "/"%char :: skipn (S i) pt)
        by (simpl; rewrite <- app_assoc; reflexivity).
      apply find_last_app; auto.
    + rewrite Nat.add_1_r. rewrite F1 at 2.
      replace (pr ++ "/"%char :: "/"%char :: firstn i pt ++ "/"%char :: skipn (S i) pt)
        with ((pr ++ $"//" ++ firstn i pt) ++ "/"%char :: skipn (S i) pt)
        by (simpl; rewrite <- app_assoc; reflexivity).
      rewrite skipn_S_app. rewrite Nat.add_1_r. reflexivity.
  - apply find_last_none in F. exists (length (pr ++ ["/"%char])). split.
    + replace (pr ++ "/"%char :: "/"%char :: pt) with ((pr ++ ["/"%char]) ++ "/"%char :: pt)
        by (rewrite <- app_assoc; reflexivity).
      apply find_last_app; auto.
    + rewrite Nat.add_1_r.
      replace (pr ++ "/"%char :: "/"%char :: pt) with ((pr ++ ["/"%char]) ++ "/"%char :: pt)
        by (rewrite <- app_assoc; reflexivity).
      apply skipn_S_app.
Qed.

(** Printing and parsing a target whose package is well formed. *)
Lemma parse_printed_target t ctx :
  wf_package (tpackage t) -> ~ In ":"%char (tname t) -> target_to_string t <> [] ->
  parse_target (target_to_string t) ctx
  = Some (mkTarget (with_project (project ctx) (tpackage t)) (tname t)).
Proof.
  destruct t as [p n]. simpl. intros Hp Hn. unfold target_to_string; simpl.
  destruct (str_eqb_spec (package_last_element p) n) as [E|E].
  - destruct (is_nil (path p)) eqn:Np.
    + (* "@foo" *)
      apply is_nil_true in Np. intros Hne.
      destruct Hp as [[Hpr|[r [Hpr [Hr1 [Hr2 [Hr3 Hr4]]]]]] Hpt]; [congruence|].
      unfold package_last_element in E. rewrite Np, Hpr in E. simpl in E. subst n.
      destruct p as [pr pt]; simpl in *. subst pr pt.
      unfold parse_target.
      rewrite split_notin by (simpl; intros [H|H]; [discriminate|auto]).
      assert (F : find_last "/" ("@"%char :: r) = None).
      { apply find_last_none. simpl. intros [H|H]; [discriminate|auto]. }
      rewrite F, at_head. cbn iota. cbn [is_nil skipn]. cbn iota.
      rewrite parse_package_nocolon by (simpl; intros [H|H]; [discriminate|auto]).
      unfold parse_package_body.
      destruct r as [|c r]; [congruence|]. cbn [length].
      change (S (S (length r)) <? 2) with false. cbn iota.
      rewrite prefix_upto_first_notin by (simpl in *; intros [H|[H|H]]; try discriminate; auto).
      rewrite skipn_all.
      assert (Hq : str_eqb ("@"%char :: c :: r) ($"@") = false)
        by (apply str_eqb_neq; discriminate).
      rewrite Hq. rewrite at_head. cbn [strip_front]. change (strip_back "/" []) with (@nil ascii). cbn [contains].
      change (starts_with ($"//") []) with false. cbn [orb].
      rewrite prefix_upto_first_notin by (simpl in *; intros [H|[H|H]]; try discriminate; auto).
      reflexivity.
    + (* "//foo/bar" *)
      intros _. apply is_nil_false in Np. unfold parse_target.
      rewrite split_notin by (apply package_string_nocolon; auto).
      destruct (find_last_slash_package p Hp) as [i [F1 F2]]. rewrite F1, F2.
      destruct (is_nil (package_to_string p)) eqn:En.
      { apply is_nil_true in En. apply package_string_nonempty in En. tauto. }
      rewrite parse_printed_package; auto.
      assert (En2 : n = match find_last "/" (path p) with
                        | Some pos => skipn (pos + 1) (path p) | None => path p end).
      { rewrite <- E. unfold package_last_element. destruct (find_last "/" (path p)); auto.
        destruct (path p); [congruence|reflexivity]. }
      rewrite En2. reflexivity.
  - intros _. apply parse_full_label; auto.
Qed.

Lemma with_project_same pr p :
  (pr = [] \/ project p <> []) -> with_project pr p = p.
Proof.
  intros H. unfold with_project. destruct p as [q pt]; simpl.
  destruct q; auto. destruct H as [->|H]; [auto|simpl in H; congruence].
Qed.

Lemma wf_target_string_nonempty t : wf_target t -> target_to_string t <> [].
Proof.
  intros [[_ _] [Hn _]]. unfold target_to_string.
  destruct (str_eqb_spec (package_last_element (tpackage t)) (tname t)) as [E|E].
  - destruct (is_nil (path (tpackage t))) eqn:Np; [|apply package_string_nonempty].
    apply is_nil_true in Np. unfold package_last_element in E. rewrite Np in E. simpl in E.
    destruct (project (tpackage t)); [|discriminate]. simpl in E. congruence.
  - intros C. apply app_eq_nil in C as [C _]. apply package_string_nonempty in C. auto.
Qed.

Theorem label_roundtrip t ctx :
  wf_target t -> (project ctx = [] \/ project (tpackage t) <> []) ->
  parse_target (target_to_string t) ctx = Some t.
Proof.
  intros W H. rewrite parse_printed_target.
  - rewrite with_project_same; auto. destruct t; reflexivity.
  - apply W.
  - apply W.
  - apply wf_target_string_nonempty; auto.
Qed.

(** Everything [parse_target] returns. *)
Lemma parse_target_sound s ctx t :
  parse_target s ctx = Some t ->
  ~ In ":"%char (tname t) /\
  (tpackage t = ctx \/
   exists p, wf_path (path p) /\ (wf_project (project p) \/ project p = ["@"%char]) /\
             tpackage t = with_project (project ctx) p).
Proof.
  unfold parse_target. intros H.
  assert (G : forall pkg tgt, ~ In ":"%char pkg -> ~ In ":"%char tgt ->
            (if is_nil pkg then Some (mkTarget ctx tgt)
             else match parse_package pkg with
                  | None => None
                  | Some p =>
                     let p := if is_nil (project p) then mkPackage (project ctx) (path p) else p in
                     Some (mkTarget p tgt)
                  end) = Some t ->
            ~ In ":"%char (tname t) /\
            (tpackage t = ctx \/
             exists p, wf_path (path p) /\ (wf_project (project p) \/ project p = ["@"%char]) /\
                       tpackage t = with_project (project ctx) p)).
  { intros pkg tgt Hp Ht. destruct (is_nil pkg).
    - intros E. inversion E; subst. simpl. auto.
    - destruct (parse_package pkg) as [p|] eqn:Ep; [|discriminate].
      intros E. inversion E; subst. simpl. split; auto. right. exists p.
      apply parse_package_sound in Ep; auto. split; [tauto|]. split; [tauto|]. reflexivity. }
  destruct (split ":" s) as [|a [|b [|c l]]] eqn:Sp; try discriminate.
  - assert (Ha : ~ In ":"%char a) by (apply (split_pieces ":" s); rewrite Sp; simpl; auto).
    assert (Es : s = a) by (apply split_one with (c := ":"%char); auto). subst s.
    destruct (find_last "/" a) as [i|] eqn:F.
    + apply (G a (skipn (i + 1) a)); auto. intros I. apply Ha.
      rewrite <- (firstn_skipn (i + 1) a). apply in_or_app; auto.
    + destruct (not_at_head a) as [[x [r [E N]]]|[E|[r E]]].
      * subst a. rewrite not_at in H by auto. apply (G [] (x :: r)); auto.
      * subst a. apply (G [] []); auto.
      * subst a. apply (G ("@"%char :: r) r); auto. intros I. apply Ha. simpl; auto.
  - apply (G a b); auto; apply (split_pieces ":" s); rewrite Sp; simpl; auto.
Qed.

Theorem canonical_same_target s ctx t :
  wf_project (project ctx) ->
  parse_target s ctx = Some t ->
  project (tpackage t) <> ["@"%char] ->
  target_to_string_rel t ctx <> [] ->
  parse_target (target_to_string_rel t ctx) ctx = Some t.
Proof.
  intros Wc Hp Hat Hne. apply parse_target_sound in Hp as [Hn Hp].
  unfold target_to_string_rel in *.
  destruct (package_eqb ctx (tpackage t)) eqn:E.
  - apply package_eqb_eq in E. simpl negb. cbn iota.
    rewrite parse_local_label; auto. destruct t; simpl in *. congruence.
  - simpl negb in *. cbn iota in *. apply package_eqb_neq in E.
    destruct Hp as [Hp|[p [H1 [H2 H3]]]]; [congruence|].
    assert (Wt : wf_package (tpackage t)).
    { rewrite H3 in *. unfold with_project in *. destruct (is_nil (project p)) eqn:Np.
      - split; auto.
      - simpl in *. split; auto. destruct H2 as [H2|H2]; auto. contradiction. }
    rewrite parse_printed_target; auto.
    rewrite with_project_same.
    + destruct t; reflexivity.
    + rewrite H3. unfold with_project. destruct (is_nil (project p)) eqn:Np.
      * simpl. destruct (project ctx); auto. right; discriminate.
      * apply is_nil_false in Np. auto.
Qed.

(** ** Recursive patterns *)
Lemma components_nil p : components p = [] <-> p = [].
Proof.
  destruct p; simpl; [tauto|]. split; [|discriminate].
  intros H. exfalso. apply (split_not_nil "/" (a :: p)). exact H.
Qed.

Lemma split_slash_app a b : split "/" (a ++ "/"%char :: b) = split "/" a ++ split "/" b.
Proof.
  induction a as [|x a IH]; simpl; auto.
  destruct (ceqb_spec x "/") as [->|N]; simpl.
  - rewrite IH. reflexivity.
  - rewrite IH. pose proof (split_not_nil "/" a). destruct (split "/" a); [congruence|].
    reflexivity.
Qed.

Lemma join_app c l1 l2 : l1 <> [] -> l2 <> [] -> join c (l1 ++ l2) = join c l1 ++ c :: join c l2.
Proof.
  induction l1 as [|x l1 IH]; [congruence|]. intros _ H2.
  destruct l1 as [|y l1].
  - simpl. destruct l2; [congruence|reflexivity].
  - change ((x :: y :: l1) ++ l2) with (x :: y :: (l1 ++ l2)).
    rewrite !join_cons2. change (y :: l1 ++ l2) with ((y :: l1) ++ l2).
    rewrite IH by (auto; discriminate). rewrite <- app_assoc. reflexivity.
Qed.

Lemma inside_iff a b :
  a <> [] -> (inside a b <-> b = a \/ exists r, b = a ++ "/"%char :: r).
Proof.
  intros Ha. unfold inside. split.
  - intros [rest H]. destruct b as [|y b].
    { exfalso. simpl in H. symmetry in H. apply app_eq_nil in H as [H _].
      apply components_nil in H. auto. }
    assert (Ca : components a = split "/" a) by (destruct a; [congruence|reflexivity]).
    assert (Cb : components (y :: b) = split "/" (y :: b)) by reflexivity.
    rewrite Ca, Cb in H. apply (f_equal (join "/")) in H. rewrite join_split in H.
    destruct rest as [|q rest].
    + left. rewrite app_nil_r, join_split in H. auto.
    + right. exists (join "/" (q :: rest)).
      rewrite join_app in H; [|apply split_not_nil|discriminate].
      rewrite join_split in H. auto.
  - intros [->|[r ->]].
    + exists []. rewrite app_nil_r. reflexivity.
    + exists (split "/" r).
      assert (Ca : components a = split "/" a) by (destruct a; [congruence|reflexivity]).
      rewrite Ca. rewrite <- split_slash_app. destruct a; [congruence|reflexivity].
Qed.

Lemma inside_nil b : inside [] b.
Proof. exists (components b). reflexivity. Qed.

Lemma match_recursive pr pt q :
  match_package (mkPattern (mkTarget (mkPackage pr pt) []) KRecursive) q = true <->
  project q = pr /\ inside pt (path q).
Proof.
  unfold match_package. simpl. destruct (str_eqb_spec (project q) pr) as [E|E]; simpl.
  2:{ split; [discriminate|tauto]. }
  destruct (is_nil pt) eqn:N.
  - apply is_nil_true in N. subst. split; auto. intros _. split; auto. apply inside_nil.
  - apply is_nil_false in N. rewrite inside_iff; auto.
    rewrite andb_true_iff, orb_true_iff, starts_with_iff, Nat.eqb_eq. split.
    + intros [[r Hr] H]. split; auto. rewrite Hr in *. destruct r as [|c r].
      * left. apply app_nil_r.
      * right. destruct H as [H|H].
        { rewrite app_length in H. simpl in H. lia. }
        rewrite nth_error_app2, Nat.sub_diag in H by lia. simpl in H.
        apply ceqb_eq in H. subst. eauto.
    + intros [_ [->|[r ->]]].
      * split; [exists []; rewrite app_nil_r; auto | left; auto].
      * split; [eauto|]. right. rewrite nth_error_app2, Nat.sub_diag by lia. reflexivity.
Qed.

Lemma match_package_filter pt t :
  match_target pt t = true -> match_package pt (tpackage t) = true.
Proof.
  unfold match_target, match_package. destruct (pat_kind pt); auto.
  - rewrite target_eqb_eq. intros ->. apply package_eqb_refl.
  - destruct (package_eqb (tpackage t) (tpackage (pat_target pt))); simpl; auto.
Qed.

(** Parsing the text of a recursive pattern. *)
Lemma wf_path_dots p : wf_path p -> p <> [] -> wf_path (p ++ $"/...").
Proof.
  intros [H1 [H2 [H3 H4]]] N. repeat split.
  - rewrite in_app_iff. simpl. intuition discriminate.
  - intros r E. destruct p; [congruence|]. inversion E; subst. apply (H2 p); auto.
  - intros r E. change ($"/...") with (["/"%char; "."%char; "."%char] ++ ["."%char]) in E.
    rewrite app_assoc in E. apply app_inj_tail in E as [_ E]. discriminate.
  - intros a b E.
    assert (G : forall (p : str), (forall r, p <> r ++ ["/"%char]) ->
                (forall a b, p <> a ++ ["/"%char; "/"%char] ++ b) ->
                forall a b, p ++ $"/..." <> a ++ ["/"%char; "/"%char] ++ b).
    { clear. induction p as [|x p IH]; intros H3 H4 a b E.
      - destruct a as [|? [|? [|? [|? [|? a]]]]]; simpl in E; inversion E.
      - destruct a as [|y a]; simpl in E.
        + inversion E; subst. destruct p as [|z p].
          * apply (H3 []). reflexivity.
          * inversion H1; subst. apply (H4 [] p). reflexivity.
        + inversion E; subst. apply (IH) with (a := a) (b := b); auto.
          * intros r Er. apply (H3 (y :: r)). subst. reflexivity.
          * intros a0 b0 Er. apply (H4 (y :: a0) b0). subst. reflexivity. }
    apply (G p) in E; auto.
Qed.

Lemma find_last_dots a : find_last "/" (a ++ $"/...") = Some (length a).
Proof. apply find_last_app. simpl. intuition discriminate. Qed.

Lemma parse_recursive pr pt ctx :
  wf_project pr -> wf_path pt -> pt <> [] ->
  parse_pattern_in (pr ++ $"//" ++ pt ++ $"/...") ctx
  = PatOk (mkPattern (mkTarget (mkPackage (if is_nil pr then project ctx else pr) pt) []) KRecursive).
Proof.
  intros Hpr Hpt N.
  assert (W : wf_package (mkPackage pr (pt ++ $"/..."))).
  { split; simpl; auto. apply wf_path_dots; auto. }
  assert (PT : parse_target (pr ++ $"//" ++ pt ++ $"/...") ctx
               = Some (mkTarget (with_project (project ctx) (mkPackage pr (pt ++ $"/..."))) ($"..."))).
  { change (pr ++ $"//" ++ pt ++ $"/...") with (package_to_string (mkPackage pr (pt ++ $"/..."))).
    pose proof (parse_printed_target (mkTarget (mkPackage pr (pt ++ $"/...")) ($"...")) ctx) as G.
    assert (TS : target_to_string (mkTarget (mkPackage pr (pt ++ $"/...")) ($"..."))
                 = package_to_string (mkPackage pr (pt ++ $"/..."))).
    { unfold target_to_string, package_last_element.
      cbn [tpackage tname path project].
      rewrite find_last_dots. rewrite Nat.add_1_r.
      change (pt ++ $"/...") with (pt ++ "/"%char :: $"...") at 1.
      rewrite skipn_S_app, str_eqb_refl.
      destruct (is_nil (pt ++ $"/...")) eqn:E; auto.
      apply is_nil_true in E. destruct pt; discriminate. }
    rewrite TS in G. apply G; auto.
    - simpl. intuition discriminate.
    - apply package_string_nonempty. }
  unfold parse_pattern_in. rewrite PT. cbn [tname tpackage].
  change (str_eqb ($"...") ($"__pkg__") || str_eqb ($"...") ($"all") || str_eqb ($"...") ($"*"))
    with false.
  change (str_eqb ($"...") ($"__subpackages__")) with false. cbn iota.
  set (pp := path (with_project (project ctx) (mkPackage pr (pt ++ $"/...")))).
  assert (Epp : pp = pt ++ $"/...").
  { unfold pp, with_project. simpl. destruct (is_nil pr); reflexivity. }
  rewrite Epp.
  assert (Ee : ends_with ($"/...") (pt ++ $"/...") = true) by (apply ends_with_iff; eauto).
  rewrite Ee, orb_true_r. cbn iota.
  rewrite app_length. simpl (length ($"/...")).
  assert (L1 : (3 <=? length pt + 4) = true) by (apply Nat.leb_le; lia).
  assert (L2 : (3 <? length pt + 4) = true) by (apply Nat.ltb_lt; lia).
  rewrite L1, L2. replace (length pt + 4 - 4) with (length pt) by lia.
  rewrite firstn_app_exact. unfold with_project. simpl. destruct (is_nil pr); reflexivity.
Qed.

Lemma parse_recursive_top pr ctx :
  wf_project pr ->
  parse_pattern_in (pr ++ $"//...") ctx
  = PatOk (mkPattern (mkTarget (mkPackage (if is_nil pr then project ctx else pr) []) []) KRecursive).
Proof.
  intros Hpr.
  assert (W : wf_package (mkPackage pr ($"..."))).
  { split; simpl; auto. repeat split; simpl.
    - intuition discriminate.
    - intros r E. discriminate.
    - intros r E. change ["."%char; "."%char; "."%char] with (["."%char; "."%char] ++ ["."%char]) in E.
      apply app_inj_tail in E as [_ E]. discriminate.
    - intros a b E. destruct a as [|? [|? [|? [|? a]]]]; inversion E. }
  assert (PT : parse_target (pr ++ $"//...") ctx
               = Some (mkTarget (with_project (project ctx) (mkPackage pr ($"..."))) ($"..."))).
  { change (pr ++ $"//...") with (package_to_string (mkPackage pr ($"..."))).
    pose proof (parse_printed_target (mkTarget (mkPackage pr ($"...")) ($"...")) ctx) as G.
    assert (TS : target_to_string (mkTarget (mkPackage pr ($"...")) ($"..."))
                 = package_to_string (mkPackage pr ($"..."))) by reflexivity.
    rewrite TS in G. apply G; auto.
    - simpl. intuition discriminate.
    - apply package_string_nonempty. }
  unfold parse_pattern_in. rewrite PT. cbn [tname tpackage].
  unfold with_project. simpl. destruct (is_nil pr); reflexivity.
Qed.

(** ** Target-name globs *)
Lemma glob_lits l g s :
  ~ In "*"%char l -> (glob_matches (l ++ g) s <-> exists v, s = l ++ v /\ glob_matches g v).
Proof.
  revert s. induction l as [|c l IH]; intros s N; simpl.
  - split; [intros H; exists s; auto | intros [v [-> H]]; auto].
  - assert (Nc : c <> "*"%char) by (intros ->; apply N; simpl; auto).
    assert (Nl : ~ In "*"%char l) by (intros I; apply N; simpl; auto).
    split.
    + intros H. inversion H; subst; [|congruence].
      apply IH in H4 as [v [-> Hv]]; auto. exists v. auto.
    + intros [v [-> H]]. simpl. constructor; auto. apply IH; eauto.
Qed.
Lemma glob_star g s :
  glob_matches ("*"%char :: g) s <-> exists u v, s = u ++ v /\ glob_matches g v.
Proof.
  split.
  - intros H. inversion H; subst; [congruence|eauto].
  - intros [u [v [-> H]]]. constructor; auto.
Qed.
Lemma glob_star_star g s :
  glob_matches ("*"%char :: "*"%char :: g) s <-> glob_matches ("*"%char :: g) s.
Proof.
  rewrite glob_star. split.
  - intros [u [v [-> H]]]. apply glob_star in H as [u' [v' [-> H]]].
    apply glob_star. exists (u ++ u'), v'. rewrite app_assoc. auto.
  - intros H. exists [], s. auto.
Qed.
Lemma glob_nil s : glob_matches [] s <-> s = [].
Proof. split; [intros H; inversion H; auto | intros ->; constructor]. Qed.

(** The atoms the text of a glob compiles to. *)
Fixpoint glob_regs (g piece : str) (first : bool) : list regex :=
  match g with
  | [] => map RLit (rev piece)
  | c :: g =>
      if ceqb c "*" then
        map RLit (rev piece) ++ (if first || negb (is_nil piece) then [RStar RAny] else [])
          ++ glob_regs g [] false
      else glob_regs g (c :: piece) first
  end.

Lemma no_newline_app u v : ~ In NL (u ++ v) -> ~ In NL u /\ ~ In NL v.
Proof. rewrite in_app_iff. tauto. Qed.

Lemma glob_regs_star_lang g : forall piece s,
  ~ In "*"%char piece -> ~ In NL s ->
  (lang_list (RStar RAny :: glob_regs g piece false) s <->
   glob_matches ("*"%char :: rev piece ++ g) s).
Proof.
  induction g as [|c g IH]; intros piece s Hp Hs; cbn [glob_regs].
  - rewrite app_nil_r, glob_star. cbn [lang_list]. split.
    + intros [u [v [-> [_ H2]]]]. exists u, v. split; auto.
      apply lang_list_lits in H2. subst v. rewrite <- (app_nil_r (rev piece)) at 1.
      apply glob_lits; [rewrite <- in_rev; auto|]. exists []. rewrite app_nil_r.
      split; auto. constructor.
    + intros [u [v [-> H]]]. exists u, v. split; auto. apply no_newline_app in Hs as [Hu Hv].
      split; [apply lang_any_star; auto|].
      rewrite <- (app_nil_r (rev piece)) in H. apply glob_lits in H; [|rewrite <- in_rev; auto].
      destruct H as [w [-> H]]. apply glob_nil in H. subst. rewrite app_nil_r.
      apply lang_list_lits; auto.
  - destruct (ceqb_spec c "*") as [E|E].
    + subst c. cbn [orb]. destruct (is_nil piece) eqn:Np.
      * apply is_nil_true in Np. subst. cbn [rev map app negb].
        rewrite glob_star_star. apply IH; auto.
      * cbn [negb]. apply is_nil_false in Np. rewrite glob_star.
        cbn [lang_list]. split.
        -- intros [u [v [-> [H1 H2]]]]. exists u, v. split; auto.
           apply lang_list_app in H2 as [a [b [-> [H3 H4]]]].
           apply lang_list_lits in H3. subst a.
           apply glob_lits; [rewrite <- in_rev; auto|]. exists b. split; auto.
           apply (IH [] b); auto. apply no_newline_app in Hs as [_ Hs].
           apply no_newline_app in Hs. tauto.
        -- intros [u [v [-> H]]]. exists u, v. split; auto.
           apply no_newline_app in Hs as [Hu Hv]. split; [apply lang_any_star; auto|].
           apply glob_lits in H; [|rewrite <- in_rev; auto]. destruct H as [w [-> H]].
           apply lang_list_app. exists (rev piece), w. split; auto.
           split; [apply lang_list_lits; auto|]. apply (IH [] w) in H; auto.
           apply no_newline_app in Hv. tauto.
    + rewrite IH; auto.
      * simpl. rewrite <- app_assoc. reflexivity.
      * simpl. intros [H|H]; [congruence|auto].
Qed.

Lemma glob_regs_lang g : forall piece s,
  ~ In "*"%char piece -> ~ In NL s ->
  (lang_list (glob_regs g piece true) s <-> glob_matches (rev piece ++ g) s).
Proof.
  induction g as [|c g IH]; intros piece s Hp Hs; cbn [glob_regs].
  - rewrite app_nil_r, lang_list_lits. rewrite <- (app_nil_r (rev piece)) at 2.
    rewrite glob_lits by (rewrite <- in_rev; auto). split.
    + intros ->. exists []. rewrite app_nil_r. split; auto. constructor.
    + intros [v [-> H]]. apply glob_nil in H. subst. apply app_nil_r.
  - destruct (ceqb_spec c "*") as [E|E].
    + subst c. cbn [orb]. rewrite glob_lits by (rewrite <- in_rev; auto).
      rewrite lang_list_app. split.
      * intros [u [v [-> [H1 H2]]]]. apply lang_list_lits in H1. subst u.
        exists v. split; auto. apply (glob_regs_star_lang g [] v); auto.
        apply no_newline_app in Hs. tauto.
      * intros [v [-> H]]. exists (rev piece), v. split; auto.
        split; [apply lang_list_lits; auto|].
        apply (glob_regs_star_lang g [] v) in H; auto.
        apply no_newline_app in Hs. tauto.
    + rewrite IH; auto.
      * simpl. rewrite <- app_assoc. reflexivity.
      * simpl. intros [H|H]; [congruence|auto].
Qed.

Lemma re_parse_lits l s rep q :
  forallb plain_char l = true ->
  exists rep', re_parse (l ++ s) rep {| fr_alts := []; fr_seq := q |} [] =
               re_parse s rep' {| fr_alts := []; fr_seq := rev (map RLit l) ++ q |} [].
Proof.
  intros H. destruct l as [|c l].
  - exists rep. reflexivity.
  - exists false. rewrite re_parse_plain_list; auto. discriminate.
Qed.
Lemma re_parse_quoted l s rep q :
  exists rep', re_parse (quote_meta l ++ s) rep {| fr_alts := []; fr_seq := q |} [] =
               re_parse s rep' {| fr_alts := []; fr_seq := rev (map RLit l) ++ q |} [].
Proof.
  destruct l as [|c l].
  - exists rep. reflexivity.
  - exists false. rewrite re_parse_quote_meta; auto. discriminate.
Qed.

Lemma glob_text_parse g : forall piece first rep q,
  (~ In "*"%char g -> forallb plain_char (rev piece ++ g) = true) ->
  (forall a b, g = a ++ "*"%char :: b -> ~ In "*"%char b -> forallb plain_char b = true) ->
  re_parse (globbing_text g piece first) rep {| fr_alts := []; fr_seq := q |} []
  = ReOk (seq_of (rev (glob_regs g piece first) ++ q)).
Proof.
  induction g as [|c g IH]; intros piece first rep q H1 H2; cbn [globbing_text glob_regs].
  - assert (Hp : forallb plain_char (rev piece) = true).
    { rewrite <- (app_nil_r (rev piece)). apply H1. auto. }
    destruct (re_parse_lits (rev piece) [] rep q Hp) as [rep' E]. rewrite app_nil_r in E.
    rewrite E. reflexivity.
  - destruct (ceqb_spec c "*") as [E|E].
    + subst c.
      destruct (re_parse_quoted (rev piece)
                  ((if first || negb (is_nil piece) then $".*" else []) ++ globbing_text g [] false)
                  rep q) as [rep' Ep]. rewrite Ep. clear Ep.
      assert (Hn : ~ In "*"%char g -> forallb plain_char (rev [] ++ g) = true).
      { intros N. apply (H2 [] g); auto. }
      assert (Hr : forall a b, g = a ++ "*"%char :: b -> ~ In "*"%char b ->
                               forallb plain_char b = true).
      { intros a b E N. apply (H2 ("*"%char :: a) b); auto. simpl. congruence. }
      destruct (first || negb (is_nil piece)).
      * change (re_parse ($".*" ++ globbing_text g [] false) rep'
                 {| fr_alts := []; fr_seq := rev (map RLit (rev piece)) ++ q |} [])
          with (re_parse (globbing_text g [] false) true
                 {| fr_alts := []; fr_seq := RStar RAny :: rev (map RLit (rev piece)) ++ q |} []).
        rewrite IH; auto. f_equal. f_equal. rewrite !rev_app_distr. simpl.
        rewrite <- !app_assoc. reflexivity.
      * cbn [app]. rewrite IH; auto. f_equal. f_equal.
        rewrite !rev_app_distr, <- !app_assoc. reflexivity.
    + apply IH.
      * intros N. simpl. rewrite <- app_assoc. simpl. apply H1. simpl.
        intros [C|C]; [congruence|auto].
      * intros a b Eg N. apply (H2 (c :: a) b); auto. simpl. congruence.
Qed.

Lemma plain_of_operators c : ~ In c re_operators -> plain_char c = true.
Proof.
  intros H. unfold plain_char. apply negb_true_iff. apply not_true_is_false. intros E.
  apply existsb_exists in E as [x [I E]]. apply ceqb_eq in E. subst. auto.
Qed.

Lemma existsb_char c s : contains_char c s = true <-> In c s.
Proof.
  unfold contains_char. split.
  - intros H. apply existsb_exists in H as [x [I E]]. apply ceqb_eq in E. subst. auto.
  - intros I. apply existsb_exists. exists c. split; auto. apply ceqb_refl.
Qed.

Lemma glob_compile g :
  In "*"%char g -> plain_tail g ->
  exists r, globbing_to_re2 g = ReOk r /\
            forall s, ~ In NL s -> (full_match r s = true <-> glob_matches g s).
Proof.
  intros I H. unfold globbing_to_re2, re2_compile.
  exists (seq_of (rev (glob_regs g [] true))). split.
  - unfold empty_frame. rewrite glob_text_parse.
    + rewrite app_nil_r. reflexivity.
    + tauto.
    + intros a b E N. apply forallb_forall. intros x Hx.
      apply plain_of_operators. apply (H a b E N x Hx).
  - intros s Hs. rewrite full_match_lang, seq_of_lang, rev_involutive.
    rewrite glob_regs_lang; auto. reflexivity.
Qed.

Lemma star_glob s : glob_matches ($"*") s.
Proof. rewrite <- (app_nil_r s). constructor. constructor. Qed.

Theorem glob_pattern p g ctx :
  wf_package p -> ~ In ":"%char g -> In "*"%char g -> plain_tail g ->
  path p <> $"..." -> (forall a, path p <> a ++ $"/...") ->
  exists pt,
    parse_pattern_in (package_to_string p ++ $":" ++ g) ctx = PatOk pt /\
    forall t, ~ In NL (tname t) ->
      (match_target pt t = true <->
       tpackage t = with_project (project ctx) p /\ glob_matches g (tname t)).
Proof.
  intros Wp Hc Hs Ht Hd1 Hd2. unfold parse_pattern_in.
  rewrite parse_full_label by auto. cbn [tname tpackage].
  assert (Pp : path (with_project (project ctx) p) = path p)
    by (unfold with_project; destruct (is_nil (project p)); reflexivity).
  rewrite Pp.
  assert (Hne : forall x, ~ In "*"%char x -> str_eqb g x = false).
  { intros x Hx. apply str_eqb_neq. intros ->. auto. }
  rewrite (Hne ($"__pkg__")), (Hne ($"all")), (Hne ($"__subpackages__")), (Hne ($"..."))
    by (simpl; intuition discriminate).
  cbn [orb].
  destruct (str_eqb_spec g ($"*")) as [E|E].
  - subst g. eexists. split; [reflexivity|]. intros t Hn. unfold match_target. simpl pat_kind. cbn iota.
    simpl pat_target. cbn [tpackage]. rewrite package_eqb_eq. split; [|tauto].
    intros ->. split; auto. apply star_glob.
  - destruct (str_eqb_spec (path p) ($"...")) as [D|D]; [contradiction|].
    destruct (ends_with ($"/...") (path p)) eqn:D2.
    { apply ends_with_iff in D2 as [a D2]. exfalso. apply (Hd2 a); auto. }
    cbn [orb].
    assert (Cs : contains_char "*" g = true) by (apply existsb_char; auto).
    rewrite Cs. destruct (glob_compile g Hs Ht) as [r [-> Hr]].
    eexists. split; [reflexivity|]. intros t Hn. unfold match_target. cbn [pat_kind pat_target tpackage].
    destruct (package_eqb (tpackage t) (with_project (project ctx) p)) eqn:Ep; cbn [negb].
    + apply package_eqb_eq in Ep. rewrite Hr by auto. tauto.
    + apply package_eqb_neq in Ep. split; [discriminate|tauto].
Qed.

(** The text after the last star is an expression of its own. *)
Lemma globbing_text_tail a : forall b piece first, ~ In "*"%char b ->
  globbing_text (a ++ "*"%char :: b) piece first = globbing_text (a ++ ["*"%char]) piece first ++ b.
Proof.
  assert (T : forall b piece first, ~ In "*"%char b -> globbing_text b piece first = rev piece ++ b).
  { induction b as [|c b IH]; intros piece first H; cbn [globbing_text]; [rewrite app_nil_r; reflexivity|].
    destruct (ceqb_spec c "*") as [E|E]; [exfalso; apply H; left; auto|]. rewrite IH by (intros I; apply H; right; auto).
    cbn [rev]. rewrite <- app_assoc. reflexivity. }
  induction a as [|c a IH]; intros b piece first H; cbn [app globbing_text].
  - rewrite ceqb_refl. rewrite T by auto. cbn [rev app globbing_text]. rewrite app_nil_r, <- app_assoc. reflexivity.
  - destruct (ceqb c "*"); [|apply IH; auto]. rewrite IH by auto. rewrite <- !app_assoc. reflexivity.
Qed.
Lemma glob_head_parse a s : forall piece first rep q,
  exists rep', re_parse (globbing_text (a ++ ["*"%char]) piece first ++ s) rep {| fr_alts := []; fr_seq := q |} []
  = re_parse s rep' {| fr_alts := []; fr_seq := rev (glob_regs (a ++ ["*"%char]) piece first) ++ q |} [].
Proof.
  assert (Star : forall s rep q, re_parse ($".*" ++ s) rep {| fr_alts := []; fr_seq := q |} [] =
    re_parse s true {| fr_alts := []; fr_seq := RStar RAny :: q |} []) by reflexivity.
  induction a as [|c a IH]; intros piece first rep q; cbn [app globbing_text glob_regs].
  - rewrite ceqb_refl. rewrite <- !app_assoc. cbn [rev app globbing_text].
    destruct (re_parse_quoted (rev piece) ((if first || negb (is_nil piece) then $".*" else []) ++ s) rep q) as [rep' ->].
    destruct (first || negb (is_nil piece)).
    + rewrite Star. exists true. f_equal. f_equal. rewrite !rev_app_distr. reflexivity.
    + exists rep'. cbn [app glob_regs]. f_equal. f_equal. rewrite !rev_app_distr. reflexivity.
  - destruct (ceqb c "*").
    + rewrite <- !app_assoc.
      destruct (re_parse_quoted (rev piece)
        ((if first || negb (is_nil piece) then $".*" else []) ++ globbing_text (a ++ ["*"%char]) [] false ++ s) rep q) as [rep' ->].
      destruct (first || negb (is_nil piece)).
      * rewrite Star. destruct (IH [] false true (RStar RAny :: rev (map RLit (rev piece)) ++ q)) as [rep2 ->]. exists rep2.
        f_equal. f_equal. rewrite !rev_app_distr. cbn [rev app]. rewrite <- !app_assoc. reflexivity.
      * cbn [app]. destruct (IH [] false rep' (rev (map RLit (rev piece)) ++ q)) as [rep2 ->]. exists rep2.
        f_equal. f_equal. rewrite !rev_app_distr, <- !app_assoc. reflexivity.
    + apply IH.
Qed.

Definition add_seq (q : list regex) (f : re_frame) : re_frame := {| fr_alts := fr_alts f; fr_seq := fr_seq f ++ q |}.
Fixpoint shift (q : list regex) (stack : list re_frame) : list re_frame :=
  match stack with
  | [] => []
  | [f] => [add_seq q f]
  | f :: stack => f :: shift q stack
  end.
Definition shift_top (q : list regex) (top : re_frame) (stack : list re_frame) : re_frame :=
  match stack with [] => add_seq q top | _ => top end.
(** No alternatives in the outermost frame. *)
Fixpoint single (top : re_frame) (stack : list re_frame) : Prop :=
  match stack with
  | [] => fr_alts top = []
  | f :: stack => single f stack
  end.
Lemma shift_cons q f stack : shift q (f :: stack) = shift_top q f stack :: shift q stack.
Proof. destruct stack; reflexivity. Qed.
Lemma shift_push q top stack r : shift_top q (push_atom r top) stack = push_atom r (shift_top q top stack).
Proof. destruct stack; reflexivity. Qed.
Lemma single_push r top stack : single top stack -> single (push_atom r top) stack.
Proof. destruct stack; auto. Qed.
Lemma shift_seq q alts x xs stack : shift_top q {| fr_alts := alts; fr_seq := x :: xs |} stack =
  {| fr_alts := alts; fr_seq := x :: fr_seq (shift_top q {| fr_alts := alts; fr_seq := xs |} stack) |}.
Proof. destruct stack; reflexivity. Qed.
Lemma shift_alts q top stack : fr_alts (shift_top q top stack) = fr_alts top.
Proof. destruct stack; reflexivity. Qed.
Lemma single_seq alts xs ys stack : single {| fr_alts := alts; fr_seq := xs |} stack -> single {| fr_alts := alts; fr_seq := ys |} stack.
Proof. destruct stack; auto. Qed.
Lemma re_parse_shift q k : forall s rep rep' top stack r, length s < k ->
  ~ In "|"%char s -> single top stack -> (rep' = rep \/ fr_seq top = []) ->
  re_parse s rep top stack = ReOk r ->
  exists l, r = seq_of l /\ re_parse s rep' (shift_top q top stack) (shift q stack) = ReOk (seq_of (l ++ q)).
Proof.
  induction k as [|k IH]; intros s rep rep' top stack r Hk Hs Si Hr; [lia|].
  destruct s as [|c s1]; cbn [re_parse length] in *.
  { destruct stack as [|f stack]; [|discriminate]. intros E. inversion E; subst. exists (fr_seq top).
    cbn [single] in Si. unfold close_frame. rewrite Si. cbn. rewrite Si. auto. }
  assert (Hs1 : ~ In "|"%char s1) by (intros I; apply Hs; right; auto).
  assert (L1 : length s1 < k) by lia.
  assert (Atom : forall t x, length t <= length s1 -> ~ In "|"%char t -> re_parse t false (push_atom x top) stack = ReOk r ->
    exists l, r = seq_of l /\ re_parse t false (push_atom x (shift_top q top stack)) (shift q stack) = ReOk (seq_of (l ++ q))).
  { intros t x Ht Hi E. rewrite <- shift_push. eapply IH; try exact E; auto; [lia|apply single_push; auto]. }
  destruct (ceqb c BSL).
  { destruct s1 as [|d s2]; [discriminate|]. assert (Hs2 : ~ In "|"%char s2) by (intros I; apply Hs1; right; auto).
    destruct (ceqb d "x").
    - destruct s2 as [|h [|l s3]]; try discriminate. destruct (ceqb h "0" && ceqb l "0"); [|discriminate].
      apply Atom; [cbn; lia|]. intros I; apply Hs2; right; right; auto.
    - destruct (is_alnum d || high_bit d); [discriminate|]. apply Atom; [cbn; lia|auto]. }
  destruct (ceqb c "."); [apply Atom; auto|].
  destruct (ceqb c "[").
  { destruct s1 as [|a [|b [|d s2]]]; try discriminate. destruct (ceqb a "^" && ceqb b "/" && ceqb d "]"); [|discriminate].
    apply Atom; [cbn; lia|]. intros I; apply Hs1; right; right; right; auto. }
  assert (Rep : forall x y ys, fr_seq top = y :: ys ->
    re_parse s1 true {| fr_alts := fr_alts top; fr_seq := x y :: ys |} stack = ReOk r ->
    exists l, r = seq_of l /\
      match fr_seq (shift_top q top stack) with
      | y :: ys => re_parse s1 true {| fr_alts := fr_alts (shift_top q top stack); fr_seq := x y :: ys |} (shift q stack)
      | [] => ReError
      end = ReOk (seq_of (l ++ q))).
  { intros x y ys Ey E. destruct top as [alts sq]. cbn [fr_seq fr_alts] in *. subst sq.
    destruct (IH s1 true true _ _ _ L1 Hs1 (single_seq _ _ (x y :: ys) _ Si) (or_introl eq_refl) E) as (l & El & E2).
    exists l. split; [exact El|]. rewrite shift_seq in E2. rewrite shift_alts, shift_seq. exact E2. }
  assert (Same : forall y ys, fr_seq top = y :: ys -> rep' = rep) by (intros y ys Ey; destruct Hr as [Hr|Hr]; [exact Hr|congruence]).
  assert (Top : forall y ys, fr_seq top = y :: ys -> exists zs, fr_seq (shift_top q top stack) = y :: zs).
  { intros y ys Ey. destruct stack; cbn; rewrite Ey; eexists; reflexivity. }
  destruct (ceqb c "*").
  { destruct (fr_seq top) as [|y ys] eqn:Ey; [discriminate|]. rewrite (Same y ys eq_refl). destruct rep; [discriminate|].
    intros E. destruct (Rep RStar y ys eq_refl E) as (l & El & E2). exists l. split; [exact El|].
    destruct (Top y ys eq_refl) as (zs & Ez). rewrite Ez in E2 |- *. exact E2. }
  destruct (ceqb c "+").
  { destruct (fr_seq top) as [|y ys] eqn:Ey; [discriminate|]. rewrite (Same y ys eq_refl). destruct rep; [discriminate|].
    intros E. destruct (Rep RPlus y ys eq_refl E) as (l & El & E2). exists l. split; [exact El|].
    destruct (Top y ys eq_refl) as (zs & Ez). rewrite Ez in E2 |- *. exact E2. }
  destruct (ceqb c "?").
  { destruct (fr_seq top) as [|y ys] eqn:Ey; [discriminate|]. rewrite (Same y ys eq_refl).
    destruct (Top y ys eq_refl) as (zs & Ez). rewrite Ez. destruct rep.
    - destruct s1 as [|n s2]; [|destruct (ceqb n "?" || ceqb n "*" || ceqb n "+"); [discriminate|]]; intros E; (eapply IH; [|exact Hs1|exact Si|left; reflexivity|exact E]; exact L1).
    - intros E. destruct (Rep ROpt y ys eq_refl E) as (l & El & E2). exists l. split; [exact El|]. rewrite Ez in E2. exact E2. }
  destruct (ceqb c "(").
  { destruct s1 as [|n s2]; [discriminate|]. destruct (ceqb n "?"); [discriminate|]. intros E.
    destruct (IH _ false false empty_frame (top :: stack) r L1 Hs1 Si (or_introl eq_refl) E) as (l & El & E2).
    exists l. split; [exact El|]. rewrite shift_cons in E2. exact E2. }
  destruct (ceqb c ")").
  { destruct stack as [|f st]; [discriminate|]. intros E.
    destruct (IH _ false false _ _ r L1 Hs1 (single_push (close_frame top) f st Si) (or_introl eq_refl) E) as (l & El & E2).
    exists l. split; [exact El|]. rewrite shift_cons. cbn [shift_top]. rewrite <- shift_push. exact E2. }
  destruct (ceqb_spec c "|") as [Ec|Ec]; [exfalso; apply Hs; left; auto|].
  destruct (re_special c); [discriminate|]. apply Atom; auto.
Qed.
Lemma glob_compile_tail a b r : ~ In "*"%char b -> ~ In "|"%char b -> re2_compile b = ReOk r ->
  exists r', globbing_to_re2 (a ++ "*"%char :: b) = ReOk r' /\
    forall s, ~ In NL s -> (full_match r' s = true <-> exists u v, s = u ++ v /\ glob_matches (a ++ ["*"%char]) u /\ lang r v).
Proof.
  intros Hb Hp C. unfold globbing_to_re2, re2_compile in *. rewrite globbing_text_tail by auto.
  destruct (glob_head_parse a b [] true false []) as [rep' E]. unfold empty_frame at 1. rewrite E, app_nil_r. clear E.
  destruct (re_parse_shift (rev (glob_regs (a ++ ["*"%char]) [] true)) (S (length b)) b false rep' empty_frame [] r
    (ltac:(lia)) Hp eq_refl (or_intror eq_refl) C) as (l & -> & E).
  cbn [shift_top shift] in E. unfold add_seq in E. cbn [fr_alts fr_seq empty_frame app] in E. rewrite E.
  eexists. split; [reflexivity|]. intros s Hs. rewrite full_match_lang, seq_of_lang, rev_app_distr, rev_involutive, lang_list_app.
  split; intros (u & v & -> & H1 & H2); exists u, v; (split; [reflexivity|]); apply no_newline_app in Hs as [Hu Hv].
  - rewrite glob_regs_lang in H1 by auto. split; [exact H1|]. apply seq_of_lang. exact H2.
  - rewrite glob_regs_lang by auto. split; [exact H1|]. apply seq_of_lang. exact H2.
Qed.
Theorem glob_pattern_tail p a b r ctx :
  wf_package p -> ~ In ":"%char (a ++ b) -> ~ In "*"%char b -> ~ In "|"%char b -> re2_compile b = ReOk r ->
  path p <> $"..." -> (forall x, path p <> x ++ $"/...") ->
  exists pt,
    parse_pattern_in (package_to_string p ++ $":" ++ a ++ $"*" ++ b) ctx = PatOk pt /\
    forall t, ~ In NL (tname t) ->
      (match_target pt t = true <->
       tpackage t = with_project (project ctx) p /\ exists u v, tname t = u ++ v /\ glob_matches (a ++ $"*") u /\ lang r v).
Proof.
  intros Wp Hc Hs Hp C Hd1 Hd2. unfold parse_pattern_in. change (a ++ $"*" ++ b) with (a ++ "*"%char :: b). change (a ++ $"*") with (a ++ ["*"%char]).
  assert (Hc' : ~ In ":"%char (a ++ "*"%char :: b)).
  { rewrite in_app_iff in *. cbn. intros [I|[I|I]]; [apply Hc; auto|discriminate|apply Hc; auto]. }
  assert (Is : In "*"%char (a ++ "*"%char :: b)) by (apply in_app_iff; right; left; auto).
  rewrite parse_full_label by auto. cbn [tname tpackage].
  assert (Pp : path (with_project (project ctx) p) = path p)
    by (unfold with_project; destruct (is_nil (project p)); reflexivity).
  rewrite Pp. set (g := a ++ "*"%char :: b) in *.
  assert (Hne : forall x, ~ In "*"%char x -> str_eqb g x = false).
  { intros x Hx. apply str_eqb_neq. intros ->. auto. }
  rewrite (Hne ($"__pkg__")), (Hne ($"all")), (Hne ($"__subpackages__")), (Hne ($"..."))
    by (simpl; intuition discriminate).
  cbn [orb]. destruct (glob_compile_tail a b r Hs Hp C) as [r' [Er Hr]]. fold g in Er.
  destruct (str_eqb_spec g ($"*")) as [E|E].
  - eexists. split; [reflexivity|]. intros t Hn. unfold match_target. simpl pat_kind. cbn iota.
    simpl pat_target. cbn [tpackage]. rewrite package_eqb_eq. split; [|tauto].
    intros ->. split; auto. apply Hr; auto. rewrite E in Er. vm_compute in Er. inversion Er; subst r'.
    change (RSeq (RStar RAny) REps) with (seq_of [RStar RAny]). rewrite full_match_lang, seq_of_lang. cbn. exists (tname t), [].
    rewrite app_nil_r. split; [auto|]. split; [apply lang_any_star; auto|auto].
  - destruct (str_eqb_spec (path p) ($"...")) as [D|D]; [contradiction|].
    destruct (ends_with ($"/...") (path p)) eqn:D2.
    { apply ends_with_iff in D2 as [x D2]. exfalso. apply (Hd2 x); auto. }
    cbn [orb].
    assert (Cs : contains_char "*" g = true) by (apply existsb_char; auto).
    rewrite Cs, Er.
    eexists. split; [reflexivity|]. intros t Hn. unfold match_target. cbn [pat_kind pat_target tpackage].
    destruct (package_eqb (tpackage t) (with_project (project ctx) p)) eqn:Ep; cbn [negb].
    + apply package_eqb_eq in Ep. rewrite Hr by auto. tauto.
    + apply package_eqb_neq in Ep. split; [discriminate|tauto].
Qed.

Definition dot_or_literal (c : ascii) : regex := if ceqb c "." then RAny else RLit c.
Lemma dotted_parse b : (forall c, In c b -> c = "."%char \/ ~ In c re_operators) -> forall rep q,
  re_parse b rep {| fr_alts := []; fr_seq := q |} [] = ReOk (seq_of (rev (map dot_or_literal b) ++ q)).
Proof.
  induction b as [|c b IH]; intros H rep q; [reflexivity|].
  assert (Hb : forall c, In c b -> c = "."%char \/ ~ In c re_operators) by (intros x I; apply H; right; exact I).
  cbn [map rev]. rewrite <- app_assoc. unfold dot_or_literal at 2. destruct (H c (or_introl eq_refl)) as [->|N].
  - change (re_parse ("."%char :: b) rep {| fr_alts := []; fr_seq := q |} []) with
      (re_parse b false {| fr_alts := []; fr_seq := RAny :: q |} []). exact (IH Hb false (RAny :: q)).
  - destruct (ceqb_spec c ".") as [->|Nd]; [exfalso; apply N; cbn; auto|].
    rewrite re_parse_plain by (apply plain_of_operators; auto). exact (IH Hb false (RLit c :: q)).
Qed.
Lemma dotted_lang b : forall v, lang_list (map dot_or_literal b) v <-> Forall2 fits b v.
Proof.
  induction b as [|c b IH]; intros v; cbn [map lang_list].
  - split; [intros ->; constructor|intros H; inversion H; reflexivity].
  - assert (One : forall u, lang (dot_or_literal c) u <-> exists x, u = [x] /\ fits c x).
    { intros u. unfold dot_or_literal, fits. destruct (ceqb_spec c ".") as [->|N].
      - split.
        + intros L. inversion L; subst. eauto 6.
        + intros (x & -> & [->|[_ Hx]]); constructor; [discriminate|exact Hx].
      - rewrite lang_lit. split; [intros ->; eauto|]. intros (x & -> & [->|[Hx _]]); [reflexivity|contradiction]. }
    split.
    + intros (u & w & -> & L & M). apply One in L as (x & -> & F). cbn. constructor; [exact F|]. apply IH. exact M.
    + intros F. inversion F as [|? x ? w Fx Fw]; subst. exists [x], w. split; [reflexivity|]. split; [apply One; eauto|]. apply IH. exact Fw.
Qed.
Theorem glob_pattern_dots p a b ctx :
  wf_package p -> ~ In ":"%char (a ++ b) -> (forall c, In c b -> c = "."%char \/ ~ In c re_operators) ->
  path p <> $"..." -> (forall x, path p <> x ++ $"/...") ->
  exists pt,
    parse_pattern_in (package_to_string p ++ $":" ++ a ++ $"*" ++ b) ctx = PatOk pt /\
    forall t, ~ In NL (tname t) ->
      (match_target pt t = true <->
       tpackage t = with_project (project ctx) p /\ exists u v, tname t = u ++ v /\ glob_matches (a ++ $"*") u /\ Forall2 fits b v).
Proof.
  intros Wp Hc Hb Hd1 Hd2.
  assert (No : forall c, In c re_operators -> c <> "."%char -> ~ In c b).
  { intros c I N J. destruct (Hb c J); auto. }
  assert (C := dotted_parse b Hb false []). rewrite app_nil_r in C.
  destruct (glob_pattern_tail p a b (seq_of (rev (map dot_or_literal b))) ctx Wp Hc) as (pt & E & M); auto.
  - apply No; [cbn; tauto|discriminate].
  - apply No; [cbn; tauto|discriminate].
  - exists pt. split; [exact E|]. intros t Ht. rewrite (M t Ht). split; intros (P & u & v & T & G & L); (split; [exact P|]); exists u, v;
      (split; [exact T|]); (split; [exact G|]).
    + apply dotted_lang. rewrite seq_of_lang, rev_involutive in L. exact L.
    + rewrite seq_of_lang, rev_involutive. apply dotted_lang. exact L.
Qed.

(** ** Visibility *)
Lemma ends_with_app a b : ends_with b (a ++ b) = true.
Proof. apply ends_with_iff. eauto. Qed.

Lemma visibility_pkg p ctx :
  wf_package p -> forall q,
  exists pt, parse_visibility (package_to_string p ++ $":__pkg__") ctx = PatOk pt /\
  (match_package pt q = true <-> q = with_project (project ctx) p).
Proof.
  intros Wp q. unfold parse_visibility.
  assert (N : forall n, ~ In ":"%char n -> n <> ($"__pkg__") ->
              str_eqb (package_to_string p ++ $":__pkg__") ($"//visibility:" ++ n) = false).
  { intros n Hn Hne. apply str_eqb_neq. intros E.
    apply (f_equal (split ":")) in E. 
    change ($":__pkg__") with (":"%char :: $"__pkg__") in E.
    change ($"//visibility:" ++ n) with ($"//visibility" ++ ":"%char :: n) in E.
    rewrite !split_app, !split_notin in E; auto; try (simpl; intuition discriminate).
    - apply Hne. symmetry. exact (f_equal (fun l => nth 1 l []) E).
    - apply package_string_nocolon; auto. }
  change ($"//visibility:public") with ($"//visibility:" ++ $"public").
  change ($"//visibility:private") with ($"//visibility:" ++ $"private").
  rewrite !N by (try discriminate; simpl; intuition discriminate).
  assert (E : ends_with ($"__") (package_to_string p ++ $":__pkg__") = true).
  { replace (package_to_string p ++ $":__pkg__")
      with ((package_to_string p ++ $":__pkg") ++ $"__")
      by (rewrite <- app_assoc; reflexivity). apply ends_with_app. }
  rewrite E, andb_false_r. unfold parse_pattern_in.
  change ($":__pkg__") with ($":" ++ $"__pkg__").
  rewrite parse_full_label by (auto; simpl; intuition discriminate). cbn [tname].
  eexists. split; [reflexivity|]. apply package_eqb_eq.
Qed.

Lemma visibility_subpackages p ctx :
  wf_package p -> forall q,
  exists pt, parse_visibility (package_to_string p ++ $":__subpackages__") ctx = PatOk pt /\
  (match_package pt q = true <->
   project q = project (with_project (project ctx) p) /\ inside (path p) (path q)).
Proof.
  intros Wp q. unfold parse_visibility.
  assert (N : forall n, ~ In ":"%char n -> n <> ($"__subpackages__") ->
              str_eqb (package_to_string p ++ $":__subpackages__") ($"//visibility:" ++ n) = false).
  { intros n Hn Hne. apply str_eqb_neq. intros E.
    apply (f_equal (split ":")) in E. 
    change ($":__subpackages__") with (":"%char :: $"__subpackages__") in E.
    change ($"//visibility:" ++ n) with ($"//visibility" ++ ":"%char :: n) in E.
    rewrite !split_app, !split_notin in E; auto; try (simpl; intuition discriminate).
    - apply Hne. symmetry. exact (f_equal (fun l => nth 1 l []) E).
    - apply package_string_nocolon; auto. }
  change ($"//visibility:public") with ($"//visibility:" ++ $"public").
  change ($"//visibility:private") with ($"//visibility:" ++ $"private").
  rewrite !N by (try discriminate; simpl; intuition discriminate).
  assert (E : ends_with ($"__") (package_to_string p ++ $":__subpackages__") = true).
  { replace (package_to_string p ++ $":__subpackages__")
      with ((package_to_string p ++ $":__subpackages") ++ $"__")
      by (rewrite <- app_assoc; reflexivity). apply ends_with_app. }
  rewrite E, andb_false_r. unfold parse_pattern_in.
  change ($":__subpackages__") with ($":" ++ $"__subpackages__").
  rewrite parse_full_label by (auto; simpl; intuition discriminate). cbn [tname].
  eexists. split; [reflexivity|].
  change (match_package (mkPattern (mkTarget (mkPackage (project (with_project (project ctx) p))
            (path (with_project (project ctx) p))) []) KRecursive) q = true <-> 
          project q = project (with_project (project ctx) p) /\ inside (path p) (path q)).
  rewrite match_recursive.
  assert (Pp : path (with_project (project ctx) p) = path p)
    by (unfold with_project; destruct (is_nil (project p)); reflexivity).
  rewrite Pp. reflexivity.
Qed.

Lemma visibility_private ctx q :
  exists pt, parse_visibility ($"//visibility:private") ctx = PatOk pt /\
  (match_package pt q = true <-> q = ctx).
Proof. eexists. split; [reflexivity|]. apply package_eqb_eq. Qed.

Lemma visibility_public ctx q :
  exists pt, parse_visibility ($"//visibility:public") ctx = PatOk pt /\ match_package pt q = true.
Proof. eexists. split; reflexivity. Qed.

Lemma visibility_group s ctx q :
  s <> $"//visibility:private" -> (forall a, s <> a ++ $"...") -> (forall a, s <> a ++ $"__") ->
  exists pt, parse_visibility s ctx = PatOk pt /\ match_package pt q = true.
Proof.
  intros H H1 H2. unfold parse_visibility.
  destruct (str_eqb_spec s ($"//visibility:public")); [eexists; split; reflexivity|].
  destruct (str_eqb_spec s ($"//visibility:private")); [contradiction|].
  destruct (ends_with ($"...") s) eqn:E1.
  { apply ends_with_iff in E1 as [a E1]. exfalso. apply (H1 a); auto. }
  destruct (ends_with ($"__") s) eqn:E2.
  { apply ends_with_iff in E2 as [a E2]. exfalso. apply (H2 a); auto. }
  eexists; split; reflexivity.
Qed.

Lemma visibility_dots p ctx q :
  wf_package p -> path p <> [] ->
  exists pt, parse_visibility (package_to_string p ++ $"/...") ctx = PatOk pt /\
  (match_package pt q = true <->
   project q = project (with_project (project ctx) p) /\ inside (path p) (path q)).
Proof.
  intros [W1 W2] N. unfold parse_visibility.
  assert (V : forall n, str_eqb (package_to_string p ++ $"/...") ($"//visibility:" ++ n ++ ["c"%char]) = false).
  { intros n. apply str_eqb_neq. intros E.
    change ($"/...") with ($"/.." ++ ["."%char]) in E. rewrite !app_assoc in E.
    apply app_inj_tail in E as [_ E]. discriminate. }
  assert (V' : forall n, str_eqb (package_to_string p ++ $"/...") ($"//visibility:" ++ n ++ ["e"%char]) = false).
  { intros n. apply str_eqb_neq. intros E.
    change ($"/...") with ($"/.." ++ ["."%char]) in E. rewrite !app_assoc in E.
    apply app_inj_tail in E as [_ E]. discriminate. }
  change ($"//visibility:public") with ($"//visibility:" ++ $"publi" ++ ["c"%char]).
  change ($"//visibility:private") with ($"//visibility:" ++ $"privat" ++ ["e"%char]).
  rewrite V, V'.
  assert (E : ends_with ($"...") (package_to_string p ++ $"/...") = true).
  { replace (package_to_string p ++ $"/...") with ((package_to_string p ++ ["/"%char]) ++ $"...")
      by (rewrite <- app_assoc; reflexivity). apply ends_with_app. }
  rewrite E. cbn [negb andb]. unfold package_to_string. rewrite <- !app_assoc.
  rewrite parse_recursive; auto. eexists. split; [reflexivity|].
  rewrite match_recursive. unfold with_project.
  destruct (is_nil (project p)); reflexivity.
Qed.

(** ** Rules and files of a package (C58) *)
Lemma ceqb_refl_ c : ceqb c c = true.
Proof. apply ceqb_eq. auto. Qed.
Lemma rule_label p name ctx :
  wf_package p -> wf_name name ->
  exists t, qualified_target p name = Some t /\ qualified_target p ($":" ++ name) = Some t /\
    parse_target ($":" ++ name) p = Some t /\
    (project ctx = [] \/ project p <> [] ->
     parse_target (package_to_string p ++ $":" ++ name) ctx = Some t) /\
    tpackage t = p /\ tname t = name.
Proof.
  intros W [N1 N2]. exists (mkTarget p name). split.
  { unfold qualified_target. destruct name as [|c r]; [congruence|].
    destruct (ceqb c ":") eqn:E; [|reflexivity]. apply ceqb_eq in E. subst. exfalso. apply N2. left. auto. }
  split.
  { unfold qualified_target. cbn. destruct name; [congruence|reflexivity]. }
  split; [apply parse_local_label; auto|]. split; [|auto].
  intros H. destruct p as [pr pa]. rewrite parse_full_label by auto. simpl in *. 
  destruct pr; simpl; auto. destruct H as [->|H]; [reflexivity|congruence].
Qed.
Lemma no_rule_label p name : qualified_target p name = None <-> name = [] \/ name = $":".
Proof.
  unfold qualified_target. destruct name as [|c r]; [tauto|].
  destruct (ceqb c ":") eqn:E.
  - apply ceqb_eq in E. subst. destruct r; [tauto|]. split; [discriminate|].
    intros [X|X]; discriminate.
  - split; [discriminate|]. intros [X|X]; [discriminate|]. injection X as -> _.
    discriminate.
Qed.
Lemma file_path p f : f <> [] -> (forall r, f <> ":"%char :: r) ->
  components (qualified_file p f) = components (path p) ++ components f /\
  qualified_file p ($":" ++ f) = qualified_file p f.
Proof.
  intros N1 N2. unfold qualified_file. destruct f as [|c r]; [congruence|].
  destruct (ceqb c ":") eqn:E.
  { apply ceqb_eq in E. subst. exfalso. eapply N2; eauto. }
  change ($":" ++ c :: r) with (":"%char :: c :: r). cbv iota beta zeta. rewrite ceqb_refl_.
  split; [|reflexivity].
  destruct (path p) as [|x pa] eqn:Ep; [reflexivity|]. cbn [is_nil].
  change (components ((x :: pa) ++ "/"%char :: c :: r) = components (x :: pa) ++ components (c :: r)).
  unfold components at 1 2 3. cbn [app]. rewrite <- split_slash_app. reflexivity.
Qed.
