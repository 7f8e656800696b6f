(** Proofs about header providers. *)
From Verif Require Import Base OMap M_Types P_Types M_Scanner M_Ast M_Parser S_Parser P_Parser M_Query S_Query P_Query M_Elab S_Elab P_Elab
  M_Workspace M_Project M_DepGraph S_DepGraph P_DepGraph S_Workspace P_Workspace M_Headers S_Headers.

(** * The best match by suffix *)
Definition enc (l : list str) : str := concat (map (fun c => c ++ [slash]) l).
Lemma enc_app a b : enc (a ++ b) = enc a ++ enc b.
Proof. unfold enc. rewrite map_app, concat_app. reflexivity. Qed.
Lemma rev_join l : l <> [] -> rev (join slash l) ++ [slash] = enc (map (@rev _) (rev l)).
Proof.
  induction l as [|p l IH]; [congruence|]. intros _. destruct l as [|q l].
  - cbn. rewrite app_nil_r. reflexivity.
  - rewrite join_cons2, rev_app_distr. cbn [rev] in *. rewrite !map_app, !enc_app in *.
    rewrite IH by discriminate. rewrite <- !app_assoc. do 2 f_equal. unfold enc. cbn. rewrite app_nil_r. reflexivity.
Qed.
Lemma key_enc h : index_key true h = enc (map (@rev _) (rev (split slash h))).
Proof.
  unfold index_key. rewrite <- rev_join by apply split_not_nil. rewrite join_split. reflexivity.
Qed.
Lemma common_app x a b : common_prefix (x ++ a) (x ++ b) = x ++ common_prefix a b.
Proof. induction x as [|c x IH]; cbn; auto. rewrite ceqb_refl, IH. reflexivity. Qed.
Lemma common_differ x : forall y a b, ~ In slash x -> ~ In slash y -> x <> y ->
  ~ In slash (common_prefix (x ++ slash :: a) (y ++ slash :: b)).
Proof.
  induction x as [|c x IH]; intros [|d y] a b Nx Ny N; cbn [app common_prefix].
  - exfalso. apply N. reflexivity.
  - destruct (ceqb_spec slash d) as [e|]; cbn; [|intros []]. subst. exfalso. apply Ny. left. reflexivity.
  - destruct (ceqb_spec c slash) as [e|]; cbn; [|intros []]. subst. exfalso. apply Nx. left. reflexivity.
  - destruct (ceqb_spec c d) as [e|]; cbn; [|intros []]. subst d. intros [E|I].
    + apply Nx. left. exact E.
    + revert I. apply IH; [intros I; apply Nx; right; exact I|intros I; apply Ny; right; exact I|congruence].
Qed.
Lemma slashes_enc a : forall b, Forall (fun c => ~ In slash c) a -> Forall (fun c => ~ In slash c) b ->
  common_slashes (enc a) (enc b) = common_front a b.
Proof.
  induction a as [|x a IH]; intros [|y b] Fa Fb; try reflexivity.
  - unfold common_slashes. destruct (enc (x :: a)); reflexivity.
  - inversion Fa; subst. inversion Fb; subst. unfold common_slashes.
    change (enc (x :: a)) with ((x ++ [slash]) ++ enc a). change (enc (y :: b)) with ((y ++ [slash]) ++ enc b).
    cbn [common_front]. destruct (str_eqb_spec x y) as [e|N].
    + subst y. rewrite common_app, count_char_app, count_char_app.
      rewrite (proj2 (count_char_0 "/" x)) by assumption.
      change (count_char "/" [slash]) with 1. cbn. f_equal. apply IH; assumption.
    + apply count_char_0. rewrite <- !app_assoc. apply common_differ; assumption.
Qed.
Lemma common_front_rev a : forall b, common_front (map (@rev ascii) a) (map (@rev ascii) b) = common_front a b.
Proof.
  induction a as [|x a IH]; intros [|y b]; auto. cbn [common_front map]. rewrite IH.
  replace (str_eqb (rev x) (rev y)) with (str_eqb x y); auto.
  destruct (str_eqb_spec x y) as [e|N]; symmetry.
  - subst. apply str_eqb_refl.
  - apply str_eqb_neq. intros E. apply N. rewrite <- (rev_involutive x), E. apply rev_involutive.
Qed.
Theorem slashes_shared a b : common_slashes (index_key true a) (index_key true b) = shared_elements a b.
Proof.
  rewrite !key_enc, slashes_enc, common_front_rev; [reflexivity| |];
    (apply Forall_forall; intros c I; apply in_map_iff in I; destruct I as (d & <- & I); apply in_rev in I;
     intros J; apply in_rev in J; revert J; apply (split_pieces slash _ _ I)).
Qed.
Lemma klt_cons (c d : ascii) a b : klt (c :: a) (d :: b) <-> klt c d \/ c = d /\ klt a b.
Proof.
  unfold klt. cbn [kcmp list_key lex]. change (kcmp c d) with (@kcmp ascii _ c d). destruct (kcmp c d) eqn:E.
  - apply kcmp_eq in E. subst. split; [right; auto|intros [L|[_ L]]; [congruence|exact L]].
  - split; auto.
  - split; [discriminate|]. intros [L|[-> _]]; [congruence|]. rewrite kcmp_refl in E. discriminate.
Qed.
(** What lies between two texts shares what they share. *)
Lemma between_right k : forall y z, klt k y -> klt y z -> exists r, common_prefix k y = common_prefix k z ++ r.
Proof.
  induction k as [|c k IH]; intros [|d y] [|e z] L1 L2; cbn; eauto; try (exfalso; discriminate).
  apply klt_cons in L1, L2. destruct (ceqb_spec c e) as [->|N]; cbn; eauto.
  destruct L1 as [L1|[<- L1]]; destruct L2 as [L2|[E L2]].
  - exfalso. exact (klt_asym _ _ L1 L2).
  - subst. exfalso. exact (klt_irrefl _ L1).
  - exfalso. exact (klt_irrefl _ L2).
  - rewrite ceqb_refl. destruct (IH _ _ L1 L2) as [r E']. exists r. rewrite E'. reflexivity.
Qed.
Lemma between_left k : forall y z, klt z y -> klt y k -> exists r, common_prefix k y = common_prefix k z ++ r.
Proof.
  induction k as [|c k IH]; intros [|d y] [|e z] L1 L2; cbn; eauto; try (exfalso; discriminate).
  apply klt_cons in L1, L2. destruct (ceqb_spec c e) as [->|N]; cbn; eauto.
  destruct L1 as [L1|[E L1]]; destruct L2 as [L2|[E2 L2]].
  - exfalso. exact (klt_asym _ _ L1 L2).
  - subst. exfalso. exact (klt_irrefl _ L1).
  - subst. exfalso. exact (klt_irrefl _ L2).
  - subst d. rewrite ceqb_refl. destruct (IH _ _ L1 L2) as [r E']. exists r. rewrite E'. reflexivity.
Qed.
Lemma slashes_right k y z : klt k y -> y = z \/ klt y z -> common_slashes k z <= common_slashes k y.
Proof.
  intros L [->|L2]; auto. unfold common_slashes. destruct (between_right _ _ _ L L2) as [r ->].
  rewrite count_char_app. lia.
Qed.
Lemma slashes_left k y z : klt y k -> z = y \/ klt z y -> common_slashes k z <= common_slashes k y.
Proof.
  intros L [->|L2]; auto. unfold common_slashes. destruct (between_left _ _ _ L2 L) as [r ->].
  rewrite count_char_app. lia.
Qed.

Lemma ssorted_app_inv {K} `{OrdKey K} (a b : list K) : ssorted (a ++ b) ->
  ssorted a /\ ssorted b /\ forall x y, In x a -> In y b -> klt x y.
Proof.
  induction a as [|x a IH]; cbn.
  - intros S. split; [exact I|]. split; [exact S|]. intros ? ? [].
  - intros [F S]. apply Forall_app in F. destruct F as [Fa Fb]. destruct (IH S) as (Sa & Sb & L).
    split; [split; assumption|]. split; [exact Sb|]. intros u v [<-|I] J; [|eauto].
    rewrite Forall_forall in Fb. auto.
Qed.
Lemma fr_match_key h n ts : fr_match (found_entry (index_key true h, ts) n) = h.
Proof. unfold found_entry, index_key. cbn [fst fr_match]. rewrite removelast_last. apply rev_involutive. Qed.

Section Suffix.
Variable idx : provided_set.
Hypothesis Ok : suffix_indexed idx.
Variable key : str.
Variable min : nat.
Notation sk := (index_key true key).

Lemma check_spec x (best : str * list target) : In best idx ->
  (forall k ts, In (k, ts) idx -> common_slashes sk k <= x) -> x = common_slashes sk (fst best) ->
  match (if x <? min then None else Some (found_entry best x)) with
  | Some r => map_find (index_key true (fr_match r)) idx = Some (fr_targets r) /\
      fr_score r = shared_elements key (fr_match r) /\ min <= fr_score r /\
      forall h, In (index_key true h) (keys idx) -> shared_elements key h <= fr_score r
  | None => forall h, In (index_key true h) (keys idx) -> shared_elements key h < min
  end.
Proof.
  intros Ib Mx E. destruct Ok as [S Kf].
  assert (Sc : forall h, In (index_key true h) (keys idx) -> shared_elements key h <= x).
  { intros h Ih. apply in_map_iff in Ih. destruct Ih as ([k ts] & Ek & Ik). cbn in Ek. subst k.
    rewrite <- slashes_shared. eapply Mx; eauto. }
  destruct (Nat.ltb_spec x min) as [L|L].
  - intros h Ih. specialize (Sc h Ih). lia.
  - destruct best as [k ts]. destruct (Kf _ _ Ib) as [h ->]. rewrite fr_match_key.
    cbn [fst] in E. rewrite slashes_shared in E. cbn [found_entry fr_score fr_targets snd].
    split; [apply msorted_find; assumption|]. split; [exact E|]. split; [exact L|exact Sc].
Qed.
Theorem find_by_suffix_spec :
  (forall ts, map_find sk idx = Some ts -> find_by_suffix idx key min = Some (mkFound key ts 0)) /\
  (map_find sk idx = None ->
   match find_by_suffix idx key min with
   | Some r => map_find (index_key true (fr_match r)) idx = Some (fr_targets r) /\
       fr_score r = shared_elements key (fr_match r) /\ min <= fr_score r /\
       forall h, In (index_key true h) (keys idx) -> shared_elements key h <= fr_score r
   | None => forall h, In (index_key true h) (keys idx) -> shared_elements key h < min
   end).
Proof.
  unfold find_by_suffix. change (key_transform key true) with sk.
  destruct (is_nil idx) eqn:N.
  { apply is_nil_true in N. subst. split; [discriminate|]. intros _ h []. }
  pose proof (proj1 Ok) as S.
  pose proof (lower_bound_app sk idx) as Ap.
  pose proof (lower_bound_before sk idx) as Bf.
  pose proof (lower_bound_after sk idx) as Af.
  destruct (lower_bound sk idx) as [before from]. cbn [fst snd] in *.
  unfold msorted, keys in S. rewrite <- Ap, map_app in S. apply ssorted_app_inv in S. destruct S as (Sb & Sf & L).
  assert (Hf : forall x from', from = x :: from' -> forall k ts, In (k, ts) from -> fst x = k \/ klt (fst x) k).
  { intros x from' -> k ts [->|I]; [left; reflexivity|]. right. cbn in Sf. destruct Sf as [F _].
    rewrite Forall_forall in F. apply F. apply in_map_iff. exists (k, ts). auto. }
  assert (Hb : forall x r, rev before = x :: r -> forall k ts, In (k, ts) before -> k = fst x \/ klt k (fst x)).
  { intros x r E k ts I. assert (Eb : before = rev r ++ [x]) by (rewrite <- (rev_involutive before), E; reflexivity).
    rewrite Eb in I, Sb. rewrite map_app in Sb. apply ssorted_app_inv in Sb. destruct Sb as (_ & _ & Lb).
    apply in_app_or in I. destruct I as [I|[->|[]]]; [|left; reflexivity].
    right. apply Lb; [|left; reflexivity]. apply in_map_iff. exists (k, ts). auto. }
  assert (Xb : forall x r, rev before = x :: r -> In x before).
  { intros x r E. apply in_rev. rewrite E. left. reflexivity. }
  destruct from as [|fo from].
  - split.
    + intros ts F. apply map_find_in in F. rewrite <- Ap, app_nil_r in F. apply Bf in F.
      exfalso. exact (klt_irrefl _ F).
    + intros _. destruct (rev before) as [|b r] eqn:E.
      * exfalso. apply (f_equal (@rev _)) in E. rewrite rev_involutive in E. cbn in E. subst. discriminate.
      * apply check_spec; auto.
        -- rewrite <- Ap. apply in_or_app. left. eapply Xb; eauto.
        -- intros k ts I. rewrite <- Ap, app_nil_r in I. apply slashes_left; [|eapply Hb; eauto].
           destruct b as [bk bt]. eapply Bf. eapply Xb; eauto.
  - destruct (str_eqb_spec (fst fo) sk) as [Eq|Ne].
    + assert (Fi : map_find sk idx = Some (snd fo)).
      { apply msorted_find; [exact (proj1 Ok)|]. rewrite <- Ap, <- Eq. apply in_or_app. right. left. destruct fo; reflexivity. }
      split; [|congruence]. intros ts F. rewrite Fi in F. inversion F. reflexivity.
    + assert (Gt : klt sk (fst fo)).
      { destruct fo as [fk ft]. destruct (klt_total sk fk) as [?|[E|Lt]]; auto; [exfalso; apply Ne; exact (eq_sym E)|].
        exfalso. eapply Af; [exact (proj1 Ok)|left; reflexivity|exact Lt]. }
      split.
      { intros ts F. apply map_find_in in F. rewrite <- Ap in F. apply in_app_or in F. destruct F as [F|F].
        - apply Bf in F. exfalso. exact (klt_irrefl _ F).
        - destruct (Hf _ _ eq_refl _ _ F) as [E|Lt]; [congruence|]. exfalso. exact (klt_asym _ _ Gt Lt). }
      intros _.
      assert (Fo : In fo idx) by (rewrite <- Ap; apply in_or_app; right; left; reflexivity).
      assert (Mf : forall k ts, In (k, ts) (fo :: from) -> common_slashes sk k <= common_slashes sk (fst fo)).
      { intros k ts I. apply slashes_right; [exact Gt|]. eapply Hf; eauto. }
      destruct (rev before) as [|b r] eqn:E.
      * apply check_spec; auto. intros k ts I. rewrite <- Ap in I. apply in_app_or in I. destruct I as [I|I]; [|eauto].
        apply in_rev in I. rewrite E in I. destruct I.
      * assert (Mb : forall k ts, In (k, ts) before -> common_slashes sk k <= common_slashes sk (fst b)).
        { intros k ts I. apply slashes_left; [|eapply Hb; eauto]. destruct b as [bk bt]. eapply Bf. eapply Xb; eauto. }
        assert (Ib : In b idx) by (rewrite <- Ap; apply in_or_app; left; eapply Xb; eauto).
        destruct (Nat.ltb_spec (common_slashes sk (fst fo)) (common_slashes sk (fst b))) as [Lb|Lb];
          apply check_spec; auto; intros k ts I; rewrite <- Ap in I; apply in_app_or in I; destruct I as [I|I];
          [specialize (Mb _ _ I)|specialize (Mf _ _ I)|specialize (Mb _ _ I)|specialize (Mf _ _ I)]; lia.
Qed.
End Suffix.

(** * Paths *)
Lemma strip_front_unique c n t : (forall r, t <> c :: r) -> strip_front c (repeat c n ++ t) = t.
Proof.
  intros N. induction n as [|n IH]; cbn [repeat app].
  - apply strip_front_id, N.
  - cbn [strip_front]. rewrite ceqb_refl. exact IH.
Qed.
Lemma strip_dots_spec n : forall fuel t, n <= fuel -> (forall r, t <> $"./" ++ r) ->
  strip_dot_slash fuel (concat (repeat ($"./") n) ++ t) = t.
Proof.
  induction n as [|n IH]; intros fuel t L N.
  - cbn [repeat concat app]. destruct fuel as [|fuel]; [reflexivity|]. cbn [strip_dot_slash].
    destruct (starts_with ($"./") t) eqn:E; [|reflexivity]. apply starts_with_iff in E. destruct E as [r E].
    exfalso. exact (N r E).
  - destruct fuel as [|fuel]; [lia|]. cbn [repeat concat]. rewrite <- app_assoc. cbn [strip_dot_slash].
    rewrite starts_with_app. apply IH; [lia|exact N].
Qed.
Lemma strip_dots_exists fuel : forall s, length s <= fuel ->
  exists n, s = concat (repeat ($"./") n) ++ strip_dot_slash fuel s /\ forall r, strip_dot_slash fuel s <> $"./" ++ r.
Proof.
  induction fuel as [|fuel IH]; intros s L.
  - exists 0. destruct s; [|cbn in L; lia]. split; [reflexivity|]. intros r. discriminate.
  - cbn [strip_dot_slash]. destruct (starts_with ($"./") s) eqn:E.
    + pose proof (starts_with_skipn _ _ E) as Es. change (length ($"./")) with 2 in Es.
      destruct (IH (skipn 2 s)) as (n & En & N).
      { rewrite skipn_length. destruct s; [discriminate|]. cbn [length] in *. lia. }
      exists (S n). split; [|exact N]. cbn [repeat concat]. rewrite <- app_assoc. rewrite <- En. exact Es.
    + exists 0. split; [reflexivity|]. intros r ->. rewrite starts_with_app in E. discriminate.
Qed.
Lemma dots_length n t : n <= length (concat (repeat ($"./") n) ++ t).
Proof.
  induction n as [|n IH]; [lia|]. cbn [repeat concat]. rewrite <- app_assoc, app_length.
  change (length ($"./")) with 2. lia.
Qed.
Theorem light_canonicalize_spec s t : light_canonicalize s = t <-> plain_path s t.
Proof.
  unfold light_canonicalize, plain_path. split.
  - intros <-. destruct (strip_dots_exists (length s) s (le_n _)) as (n & E & N).
    destruct (strip_front_repeat "/" (strip_dot_slash (length s) s)) as [m Em]. exists n, m.
    split; [unfold slash; rewrite <- Em; exact E|]. split; [intros r; apply strip_front_nohead|].
    unfold slash. rewrite <- Em. exact N.
  - intros (n & m & -> & N & N2). rewrite strip_dots_spec; [apply strip_front_unique, N|apply dots_length|exact N2].
Qed.
Lemma trimmed_spec d e : trimmed d e <-> strip_back "/" (strip_front "/" d) = e.
Proof.
  unfold trimmed. split.
  - intros (n & m & -> & H1 & H2). destruct e as [|c e].
    + cbn [app]. rewrite <- repeat_app.
      pose proof (strip_front_unique "/" (n + m) [] ltac:(discriminate)) as E. rewrite app_nil_r in E. unfold slash.
      rewrite E. reflexivity.
    + rewrite strip_front_unique.
      * unfold strip_back. rewrite rev_app_distr, rev_repeat, strip_front_unique; [apply rev_involutive|].
        intros r E. apply (f_equal (@rev _)) in E. rewrite rev_involutive in E. cbn [rev] in E. exact (H2 _ E).
      * intros r E. cbn in E. inversion E. subst. exact (H1 _ eq_refl).
  - intros <-. destruct (strip_front_repeat "/" d) as [n En]. destruct (strip_back_repeat "/" (strip_front "/" d)) as [m Em].
    exists n, m. split; [unfold slash; rewrite <- Em; exact En|]. split.
    + intros r E. rewrite E in Em. cbn in Em. exact (strip_front_nohead _ _ _ Em).
    + intros r. apply strip_back_notail.
Qed.
Lemma stripped_spec sp fqn name : stripped sp fqn = name <->
  (exists d, trimmed sp d /\ d <> [] /\ fqn = d ++ $"/" ++ name) \/
  ((forall d n, trimmed sp d -> d <> [] -> fqn <> d ++ $"/" ++ n) /\ name = fqn).
Proof.
  unfold stripped. set (d := strip_back "/" (strip_front "/" sp)).
  assert (Td : trimmed sp d) by (apply trimmed_spec; reflexivity).
  assert (Tu : forall e, trimmed sp e -> e = d) by (intros e H; apply trimmed_spec in H; symmetry; exact H).
  match goal with |- context [if ?b then _ else _] => destruct b eqn:B end.
  - rewrite !andb_true_iff in B. destruct B as [[[B1 B2] B3] B4]. apply Nat.ltb_lt in B1.
    apply starts_with_iff in B3. destruct B3 as [r ->].
    rewrite nth_error_app2, Nat.sub_diag in B4 by lia. destruct r as [|c r]; [discriminate|]. cbn in B4.
    apply ceqb_eq in B4. subst c. rewrite Nat.add_1_r, skipn_S_app. split.
    + intros <-. left. exists d. split; [exact Td|]. split; [destruct d; [cbn in B1; lia|discriminate]|reflexivity].
    + intros [(e & Te & Ne & E)|[H _]].
      * apply Tu in Te. subst e. apply app_inv_head in E. cbn in E. inversion E. reflexivity.
      * exfalso. apply (H d r Td); [destruct d; [cbn in B1; lia|discriminate]|reflexivity].
  - assert (No : forall e n, trimmed sp e -> e <> [] -> fqn <> e ++ $"/" ++ n).
    { intros e n Te Ne ->. apply Tu in Te. subst e. apply not_true_iff_false in B. apply B.
      rewrite !andb_true_iff. split; [split; [split|]|].
      - apply Nat.ltb_lt. destruct d; [congruence|cbn; lia].
      - apply Nat.ltb_lt. rewrite app_length. cbn. lia.
      - apply starts_with_app.
      - rewrite nth_error_app2, Nat.sub_diag by lia. reflexivity. }
    split.
    + intros <-. right. auto.
    + intros [(e & Te & Ne & E)|[_ ->]]; [exfalso; exact (No _ _ Te Ne E)|reflexivity].
Qed.
Lemma below_dir_spec fqn dir name : In name (below_dir fqn dir) <-> exists e, with_slash dir e /\ fqn = e ++ name.
Proof.
  unfold below_dir, with_slash. destruct (ends_with ($"/") dir) eqn:E.
  - apply ends_with_iff in E. destruct E as [r E].
    assert (H : starts_with dir fqn = true -> fqn = dir ++ skipn (length dir) fqn) by apply starts_with_skipn.
    destruct (starts_with dir fqn) eqn:S.
    + split.
      * intros [<-|[]]. exists dir. split; [left; split; [exists r; exact E|reflexivity]|auto].
      * intros (e & [[_ ->]|[N _]] & ->); [left; apply skipn_app_exact|exfalso; exact (N r E)].
    + split; [intros []|]. intros (e & [[_ ->]|[N _]] & ->); [|exfalso; exact (N r E)].
      rewrite starts_with_app in S. discriminate.
  - assert (N : forall r, dir <> r ++ [slash]).
    { intros r ->. apply not_true_iff_false in E. apply E. apply ends_with_iff. exists r. reflexivity. }
    change ($"/") with [slash].
    destruct (starts_with (dir ++ [slash]) fqn) eqn:S.
    + split.
      * intros [<-|[]]. exists (dir ++ [slash]). split; [right; split; [exact N|reflexivity]|apply starts_with_skipn, S].
      * intros (e & [[[r Er] _]|[_ ->]] & ->); [exfalso; exact (N r Er)|left; apply skipn_app_exact].
    + split; [intros []|]. intros (e & [[[r Er] _]|[_ ->]] & ->); [exfalso; exact (N r Er)|].
      rewrite starts_with_app in S. discriminate.
Qed.

(** * The names of the headers of a library *)
Lemma extract_texts o vs : extract_string_list o = Ret vs -> map v_text vs = texts (list_of o).
Proof. unfold extract_string_list. intros E. rewrite (string_list_texts _ _ E). destruct o; reflexivity. Qed.
Lemma header_names_spec p r h l : header_names p r h = Ret l -> forall n, In n l <-> header_name p r h n.
Proof.
  unfold header_names. destruct (is_nil (v_text (q_include_prefix r))) eqn:E; cbn [negb].
  - apply is_nil_true in E.
    destruct (extract_string_list (q_includes r)) as [vs| |] eqn:Ei; cbn [bind]; intros H; inversion H; subst; clear H.
    apply extract_texts in Ei. intros n. cbn [In]. rewrite in_flat_map, Ei, stripped_spec. split.
    + intros [[(d & Td & Nd & Eq)|[No ->]]|(dir & Id & Ib)].
      * eapply name_stripped; eauto.
      * apply name_full; auto.
      * apply below_dir_spec in Ib. destruct Ib as (e & W & Eq). eapply name_include; eauto.
    + intros H. inversion H; subst.
      * contradiction.
      * left. left. eauto.
      * left. right. auto.
      * right. exists dir. split; [assumption|]. apply below_dir_spec. eauto.
  - apply is_nil_false in E. intros H; inversion H; subst. intros n. split.
    + intros [<-|[]]. apply name_prefix. exact E.
    + intros H1. inversion H1; subst; try contradiction. left. reflexivity.
Qed.
Lemma headers_names_spec p r skip hs : forall l, headers_names p r skip hs = Ret l ->
  forall n, In n l <-> exists h, In h hs /\ ~ (skip = true /\ h = $"string_view.h") /\ header_name p r h n.
Proof.
  induction hs as [|h hs IH]; intros l E n; cbn [headers_names] in E.
  - inversion E. split; [intros []|intros (h & [] & _)].
  - destruct (skip && str_eqb h ($"string_view.h")) eqn:B.
    + rewrite (IH _ E n). apply andb_true_iff in B. destruct B as [-> B]. apply str_eqb_eq in B.
      split; intros (x & I & N & H); exists x; (split; [|split; assumption]); [right; exact I|].
      destruct I as [<-|I]; [|exact I]. exfalso. apply N. auto.
    + destruct (header_names p r h) as [a| |] eqn:Ea; cbn [bind] in E; try discriminate.
      destruct (headers_names p r skip hs) as [b| |] eqn:Eb; cbn [bind] in E; try discriminate.
      inversion E; subst. rewrite in_app_iff, (header_names_spec _ _ _ _ Ea n), (IH _ eq_refl n). split.
      * intros [H|(x & I & N & H)]; [exists h|exists x; split; [right; exact I|auto]].
        split; [left; reflexivity|]. split; [|exact H]. intros [-> ->]. rewrite str_eqb_refl in B. discriminate.
      * intros (x & [<-|I] & N & H); [left; exact H|right; eauto].
Qed.
Lemma existsb_eqb s l : existsb (str_eqb s) l = true <-> In s l.
Proof.
  rewrite existsb_exists. split.
  - intros (x & I & E). apply str_eqb_eq in E. subst. exact I.
  - intros I. exists s. split; [exact I|apply str_eqb_refl].
Qed.
Lemma library_headers_spec p r l : library_headers p r = Ret l ->
  forall lib n, In (lib, n) l <-> named p r lib /\ exists h, lists_header p r h /\ header_name p r h n.
Proof.
  unfold library_headers, named. destruct (qualified_target p (v_text (q_name r))) as [t|].
  2:{ intros H; inversion H. intros lib n. split; [intros []|intros [C _]; discriminate]. }
  destruct (extract_string_list (q_hdrs r)) as [a| |] eqn:Ea; cbn [bind]; try discriminate.
  destruct (extract_string_list (q_textual_hdrs r)) as [b| |] eqn:Eb; cbn [bind]; try discriminate.
  destruct (extract_string_list (q_public_hdrs r)) as [c| |] eqn:Ec; cbn [bind]; try discriminate.
  apply extract_texts in Ea, Eb, Ec. rewrite Ea, Eb, Ec.
  match goal with |- context [headers_names p r ?s _] => set (skip := s) end.
  destruct (headers_names p r skip _) as [ns| |] eqn:En; cbn [bind]; try discriminate.
  intros H; inversion H; subst. intros lib n. rewrite in_map_iff.
  pose proof (headers_names_spec _ _ _ _ _ En) as Sp.
  assert (Sk : skip = true <-> (exists x, path p = x ++ $"absl/strings") /\
     In ($"string_view.h") (texts (list_of (q_hdrs r))) /\ In ($"string_view.h") (texts (list_of (q_textual_hdrs r)))).
  { unfold skip. rewrite !andb_true_iff, !existsb_eqb, ends_with_iff. tauto. }
  split.
  - intros (x & E & I). inversion E; subst. split; [reflexivity|]. apply Sp in I. destruct I as (h & Ih & N & Hn).
    exists h. split; [|exact Hn]. split; [exact Ih|]. intros (-> & I1 & I2 & I3). apply N. split; [|reflexivity].
    apply Sk. auto.
  - intros (E & h & [Ih N] & Hn). inversion E; subst. exists n. split; [reflexivity|]. apply Sp. exists h.
    split; [exact Ih|]. split; [|exact Hn]. intros [Sk1 ->]. apply Sk in Sk1. destruct Sk1 as (S1 & S2 & S3).
    apply N. auto.
Qed.

(** * Adding to the index *)
Lemma alias_of_entry pr m : extract_aliased_by pr = Ret m -> forall lib t, In t (entry m lib) <-> alias_of pr lib t.
Proof.
  intros E lib t. destruct (aliased_by_spec _ _ E) as (rss & F2 & En & _). rewrite En. clear En E. unfold alias_of.
  induction F2 as [|[p f] rs files rss Ef F2 IH]; cbn [combine flat_map].
  - split; [intros []|intros (p & f & rs & r & [] & _)].
  - rewrite in_app_iff, IH. cbn [fst snd] in *. split.
    + intros [I|(p1 & f1 & rs1 & r & I & H)].
      * apply in_flat_map in I. destruct I as (r & Ir & I). exists p, f, rs, r. split; [left; reflexivity|].
        split; [exact Ef|]. split; [exact Ir|]. unfold declared_alias in I. unfold named.
        destruct (qualified_target (pf_package f) (v_text (q_name r))) as [a|]; [|destruct I].
        destruct (parse_target (v_text (q_actual r)) (pf_package f)) as [k|]; [|destruct I].
        destruct (target_eqb k lib) eqn:Ek; [|destruct I]. apply target_eqb_eq in Ek. destruct I as [<-|[]]. subst. auto.
      * exists p1, f1, rs1, r. split; [right; exact I|exact H].
    + intros (p1 & f1 & rs1 & r & [Eq|I] & E1 & Ir & Nm & Pa).
      * left. inversion Eq; subst. rewrite E1 in Ef. inversion Ef; subst. apply in_flat_map. exists r. split; [exact Ir|].
        unfold declared_alias. unfold named in Nm. rewrite Nm, Pa, (proj2 (target_eqb_eq _ _) eq_refl). left. reflexivity.
      * right. exists p1, f1, rs1, r. auto.
Qed.

Section Index.
Variable sfx : bool.
Definition adds (E : str -> target -> Prop) (m m' : provided_set) : Prop :=
  msorted m -> msorted m' /\ (forall k t, In t (providers m' k) <-> In t (providers m k) \/ E k t) /\
    (forall k, In k (keys m') -> In k (keys m) \/ exists h, k = index_key sfx h).
Lemma adds_nil (E : str -> target -> Prop) m : (forall k t, ~ E k t) -> adds E m m.
Proof. intros N S. split; [exact S|]. split; [|auto]. intros k t. specialize (N k t). tauto. Qed.
Lemma adds_trans (E E1 E2 : str -> target -> Prop) m m1 m2 : adds E1 m m1 -> adds E2 m1 m2 ->
  (forall k t, E k t <-> E1 k t \/ E2 k t) -> adds E m m2.
Proof.
  intros A1 A2 H S. destruct (A1 S) as (S1 & P1 & K1). destruct (A2 S1) as (S2 & P2 & K2).
  split; [exact S2|]. split.
  - intros k t. rewrite P2, P1, H. tauto.
  - intros k I. apply K2 in I. destruct I as [I|I]; auto.
Qed.
Lemma adds_ext (E E' : str -> target -> Prop) m m' : adds E m m' -> (forall k t, E k t <-> E' k t) -> adds E' m m'.
Proof.
  intros A H S. destruct (A S) as (S1 & P1 & K1). split; [exact S1|]. split; [|exact K1].
  intros k t. rewrite P1, H. tauto.
Qed.
Lemma insert_all_in ts : forall s x, In x (insert_all ts s) <-> In x ts \/ In x s.
Proof.
  unfold insert_all. induction ts as [|t ts IH]; intros s x; cbn [fold_left In]; [tauto|].
  rewrite IH, set_insert_in. intuition.
Qed.
Lemma adds_update k ts (g : list target -> list target) m : (forall s x, In x (g s) <-> In x ts \/ In x s) ->
  (exists h, k = index_key sfx h) -> adds (fun k' t => k' = k /\ In t ts) m (map_update k [] g m).
Proof.
  intros G (h & Ek) S. split; [apply map_update_sorted, S|]. split.
  - intros k' t. unfold providers. rewrite map_update_find by exact S. destruct (keqb_spec k' k) as [e|N].
    + subst k'. rewrite G. destruct (map_find k m); cbn [In]; tauto.
    + destruct (map_find k' m); split; try tauto.
  - intros k' I. apply map_update_keys in I. destruct I as [->|I]; eauto.
Qed.
Variable al : list (target * list target).
Lemma add_header_spec m lib n : adds (fun k t => k = index_key sfx (light_canonicalize n) /\ (t = lib \/ In t (entry al lib)))
  m (add_header al sfx m (lib, n)).
Proof.
  unfold add_header. set (key := key_transform _ _).
  assert (Ek : key = index_key sfx (light_canonicalize n)) by reflexivity.
  assert (A1 : forall m, adds (fun k t => k = key /\ In t [lib]) m (map_update key [] (set_insert lib) m)).
  { intros m'. apply adds_update; [|eauto]. intros s x. rewrite set_insert_in. cbn. intuition. }
  unfold entry. destruct (map_find lib al) as [ts|].
  - eapply adds_trans; [apply A1|apply adds_update; [apply insert_all_in|eauto]|].
    intros k t. rewrite Ek. cbn. intuition.
  - eapply adds_ext; [apply A1|]. intros k t. rewrite Ek. cbn. intuition.
Qed.
Lemma adds_fold {A} (step : provided_set -> A -> provided_set) (E : A -> str -> target -> Prop) l :
  (forall m x, adds (E x) m (step m x)) -> forall m, adds (fun k t => exists x, In x l /\ E x k t) m (fold_left step l m).
Proof.
  intros H. induction l as [|x l IH]; intros m; cbn [fold_left].
  - apply adds_nil. intros k t (x & [] & _).
  - eapply adds_trans; [apply H|apply IH|]. intros k t. split.
    + intros (y & [<-|I] & Ey); eauto.
    + intros [Ex|(y & I & Ey)]; [exists x|exists y]; cbn; auto.
Qed.
Definition library_provides (p : package) (rs : list result) (k : str) (t : target) : Prop :=
  exists r lib x name h, In r rs /\ named p r lib /\ (t = lib \/ In t (entry al lib)) /\ lists_header p r x /\
    header_name p r x name /\ plain_path name h /\ k = index_key sfx h.
Lemma add_libraries_spec p rs : forall m m', add_libraries al sfx p rs m = Ret m' -> adds (library_provides p rs) m m'.
Proof.
  induction rs as [|r rs IH]; intros m m' E; cbn [add_libraries] in E.
  - inversion E; subst. apply adds_nil. intros k t (r & lib & x & name & h & [] & _).
  - destruct (library_headers p r) as [l| |] eqn:El; cbn [bind] in E; try discriminate.
    pose proof (library_headers_spec _ _ _ El) as Sp.
    eapply adds_trans; [|apply (IH _ _ E)|].
    + apply adds_fold with (E := fun y k t => k = index_key sfx (light_canonicalize (snd y)) /\ (t = fst y \/ In t (entry al (fst y)))).
      intros m0 [lib n]. apply add_header_spec.
    + intros k t. split.
      * intros (r0 & lib & x & name & h & [<-|I] & Nm & T & Li & Hn & Pl & Ek).
        -- left. exists (lib, name). split; [apply Sp; eauto|]. cbn [fst snd]. apply light_canonicalize_spec in Pl.
           subst h. auto.
        -- right. exists r0, lib, x, name, h. auto 10.
      * intros [([lib n] & I & Ek & T)|(r0 & lib & x & name & h & I & H)].
        -- apply Sp in I. destruct I as (Nm & x & Li & Hn). exists r, lib, x, n, (light_canonicalize n).
           split; [left; reflexivity|]. split; [exact Nm|]. split; [exact T|]. split; [exact Li|]. split; [exact Hn|].
           split; [apply light_canonicalize_spec; reflexivity|exact Ek].
        -- exists r0, lib, x, name, h. split; [right; exact I|exact H].
Qed.

(** * Protocol buffers *)
Lemma proto_headers_spec p grpc src h : In h (proto_headers p (if grpc : bool then $".grpc" else []) src) <-> proto_header p grpc src h.
Proof.
  unfold proto_headers, proto_header. destruct (ends_with ($".proto") src) eqn:E; cbn [negb].
  - apply ends_with_iff in E. destruct E as [r Er].
    assert (H : exists stem, (src = stem ++ $".proto" /\ (forall r, src <> ":"%char :: r) \/ src = $":" ++ stem ++ $".proto") /\
       (match src with c :: r => if ceqb c ":" then r else src | [] => src end) = stem ++ $".proto").
    { destruct src as [|c s]; [destruct r; discriminate|]. destruct (ceqb_spec c ":"%char) as [->|N].
      - destruct r as [|d r]; [discriminate|]. cbn [app] in Er. injection Er as <- Es. exists r. split; [|exact Es].
        right. rewrite Es. reflexivity.
      - exists r. split; [|exact Er]. left. split; [exact Er|]. intros q Eq. inversion Eq. contradiction. }
    destruct H as (stem & Hs & ->).
    assert (P : prefix_upto (stem ++ $".proto") (find_last "." (stem ++ $".proto")) = stem).
    { change ($".proto") with ("."%char :: $"proto"). rewrite find_last_app; [apply firstn_app_exact|].
      cbn. intuition discriminate. }
    rewrite P, in_map_iff.
    assert (U : forall s', (src = s' ++ $".proto" /\ (forall r, src <> ":"%char :: r) \/ src = $":" ++ s' ++ $".proto") -> s' = stem).
    { intros s' Hs'. destruct Hs as [[H1 N1]|H1], Hs' as [[H2 N2]|H2].
      - rewrite H1 in H2. symmetry. apply app_inv_tail in H2. exact H2.
      - exfalso. exact (N1 _ H2).
      - exfalso. exact (N2 _ H1).
      - rewrite H1 in H2. apply app_inv_head, app_inv_tail in H2. auto. }
    split.
    + intros (sf & <- & I). exists stem, sf. auto.
    + intros (s' & sf & Hs' & I & ->). apply U in Hs'. subst s'. eauto.
  - split; [intros []|]. intros (stem & sf & [[-> _]| ->] & _); apply not_true_iff_false in E; exfalso; apply E;
      apply ends_with_iff; [exists stem; reflexivity|exists ($":" ++ stem)]. rewrite <- app_assoc. reflexivity.
Qed.
(** The first rule of a kind made from a proto_library. *)
Definition first_maker (p : package) (grpc : bool) (rs : list result) (plib lib : target) : Prop :=
  exists a r b, rs = a ++ r :: b /\ kind_of r = grpc /\ named p r lib /\ In plib (made_from p r) /\
    forall r', In r' a -> kind_of r' = grpc -> (exists t, named p r' t) -> ~ In plib (made_from p r').
Lemma add_proto_deps_spec p t labels : forall m, msorted m ->
  let m' := add_proto_deps p t labels m in
  msorted m' /\ forall d x, map_find d m' = Some x <->
    map_find d m = Some x \/ map_find d m = None /\ In d (resolved p labels) /\ x = t.
Proof.
  unfold add_proto_deps. induction labels as [|l labels IH]; intros m S; cbn zeta; cbn [fold_left].
  - split; [exact S|]. intros d x. cbn. tauto.
  - unfold resolved. cbn [flat_map]. fold (resolved p labels). destruct (parse_target l p) as [d0|].
    + destruct (IH (map_insert d0 t m)) as [S' H]; [apply map_insert_sorted, S|]. split; [exact S'|].
      intros d x. rewrite H, map_insert_find by exact S. cbn [app In].
      destruct (map_find d m) as [y|] eqn:F.
      * split; [intros [E|[C _]]; [auto|discriminate]|]. intros [E|[C _]]; [auto|discriminate].
      * destruct (keqb_spec d d0) as [e|N].
        -- subst. split.
           ++ intros [E|[C _]]; [inversion E; subst; auto|discriminate].
           ++ intros [C|(_ & _ & ->)]; [discriminate|auto].
        -- split.
           ++ intros [C|(_ & I & ->)]; [discriminate|]. right. auto.
           ++ intros [C|(_ & [E|I] & ->)]; [discriminate|congruence|]. right. auto.
    + destruct (IH m S) as [S' H]. split; [exact S'|]. intros d x. rewrite H. cbn [app]. tauto.
Qed.
Definition side (grpc : bool) (m : list (target * target) * list (target * target)) := if grpc then snd m else fst m.
Lemma first_maker_cons p grpc r rs d x : first_maker p grpc (r :: rs) d x <->
  (kind_of r = grpc /\ named p r x /\ In d (made_from p r)) \/
  (~ (kind_of r = grpc /\ (exists t, named p r t) /\ In d (made_from p r)) /\ first_maker p grpc rs d x).
Proof.
  unfold first_maker. split.
  - intros ([|r0 a] & r1 & b & E & K & Nm & I & F); cbn [app] in E; inversion E; subst.
    + left. auto.
    + right. split; [|exists a, r1, b; split; [reflexivity|]; split; [reflexivity|]; split; [exact Nm|]; split; [exact I|]].
      * intros (K1 & N1 & I1). exact (F r0 (or_introl eq_refl) K1 N1 I1).
      * intros r' Ir. apply F. right. exact Ir.
  - intros [(K & Nm & I)|(N & a & r1 & b & -> & K & Nm & I & F)].
    + exists [], r, rs. split; [reflexivity|]. split; [exact K|]. split; [exact Nm|]. split; [exact I|]. intros r' [].
    + exists (r :: a), r1, b. split; [reflexivity|]. split; [exact K|]. split; [exact Nm|]. split; [exact I|].
      intros r' [<-|Ir] K' N' I'; [apply N; auto|exact (F _ Ir K' N' I')].
Qed.
Lemma proto_libs_spec p rs : forall m m', proto_libs p rs m = Ret m' -> (forall g, msorted (side g m)) ->
  (forall g, msorted (side g m')) /\
  forall g d x, map_find d (side g m') = Some x <->
    map_find d (side g m) = Some x \/ map_find d (side g m) = None /\ first_maker p g rs d x.
Proof.
  induction rs as [|r rs IH]; intros m m' E S; cbn [proto_libs] in E.
  - inversion E; subst. split; [exact S|]. intros g d x. split; [auto|]. intros [H|(_ & a & r & b & C & _)]; [exact H|].
    destruct a; discriminate.
  - destruct (qualified_target p (v_text (q_name r))) as [t|] eqn:Q.
    + change (is_grpc r) with (kind_of r) in E.
      destruct (extract_string_list (if kind_of r then q_srcs r else q_deps r)) as [vs| |] eqn:Ev; cbn [bind] in E; try discriminate.
      apply extract_texts in Ev. rewrite Ev in E.
      set (labels := texts _) in E. assert (Em : made_from p r = resolved p labels) by reflexivity.
      destruct (add_proto_deps_spec p t labels (side (kind_of r) m) (S _)) as [S1 H1].
      apply IH in E.
      * destruct E as [S2 H2]. split; [exact S2|]. intros g d x. rewrite H2, first_maker_cons, Em. unfold named. rewrite Q.
        destruct (Bool.bool_dec (kind_of r) g) as [K|K].
        -- subst g.
           assert (Es : side (kind_of r) (if kind_of r then (fst m, add_proto_deps p t labels (snd m))
              else (add_proto_deps p t labels (fst m), snd m)) = add_proto_deps p t labels (side (kind_of r) m))
             by (destruct (kind_of r); reflexivity).
           rewrite Es. rewrite H1.
           assert (Hn : map_find d (add_proto_deps p t labels (side (kind_of r) m)) = None <->
                        map_find d (side (kind_of r) m) = None /\ ~ In d (resolved p labels)).
           { destruct (map_find d (add_proto_deps p t labels (side (kind_of r) m))) as [y|] eqn:F.
             - split; [discriminate|]. intros [A B]. apply H1 in F. destruct F as [F|(_ & F & _)]; congruence || contradiction.
             - split; [|auto]. intros _. split.
               + destruct (map_find d (side (kind_of r) m)) as [z|] eqn:G; [|reflexivity].
                 assert (C : map_find d (add_proto_deps p t labels (side (kind_of r) m)) = Some z) by (apply H1; left; exact G).
                 congruence.
               + intros I. destruct (map_find d (side (kind_of r) m)) as [z|] eqn:G.
                 * assert (C : map_find d (add_proto_deps p t labels (side (kind_of r) m)) = Some z) by (apply H1; left; exact G).
                   congruence.
                 * assert (C : map_find d (add_proto_deps p t labels (side (kind_of r) m)) = Some t) by (apply H1; right; auto).
                   congruence. }
           rewrite Hn. split.
           ++ intros [[A|(A & I & ->)]|((A & B) & F)]; [auto| |].
              ** right. split; [exact A|]. left. auto.
              ** right. split; [exact A|]. right. split; [|exact F]. intros (_ & _ & I). contradiction.
           ++ intros [A|(A & [(_ & B & I)|(N & F)])]; [auto| |].
              ** left. right. inversion B; subst. auto.
              ** right. split; [|exact F]. split; [exact A|]. intros I. apply N. eauto.
        -- assert (Es : side g (if kind_of r then (fst m, add_proto_deps p t labels (snd m))
              else (add_proto_deps p t labels (fst m), snd m)) = side g m).
           { destruct (kind_of r), g; try congruence; reflexivity. }
           rewrite Es. split.
           ++ intros [A|(A & F)]; [auto|]. right. split; [exact A|]. right. split; [|exact F]. intros (C & _). contradiction.
           ++ intros [A|(A & [(C & _)|(N & F)])]; [auto|contradiction|auto].
      * intros g. destruct (Bool.bool_dec (kind_of r) g) as [K|K].
        -- subst g. destruct (kind_of r); exact S1.
        -- specialize (S g). destruct (kind_of r), g; try congruence; exact S.
    + apply IH in E; [|exact S]. destruct E as [S2 H2]. split; [exact S2|]. intros g d x. rewrite H2, first_maker_cons.
      unfold named. rewrite Q. split.
      * intros [A|(A & F)]; [auto|]. right. split; [exact A|]. right. split; [|exact F]. intros (_ & (t & C) & _). discriminate.
      * intros [A|(A & [(_ & C & _)|(N & F)])]; [auto|discriminate|auto].
Qed.
Definition proto_provides (p : package) (libs : list (target * target) * list (target * target)) (rs : list result)
  (k : str) (t : target) : Prop :=
  exists g r plib src h, In r rs /\ named p r plib /\ map_find plib (side g libs) = Some t /\
    In src (texts (list_of (q_srcs r))) /\ proto_header p g src h /\ k = index_key sfx h.
Lemma add_proto_library_spec p g t r lookup m m' :
  add_proto_library p sfx t r lookup (if g : bool then $".grpc" else []) m = Ret m' ->
  adds (fun k x => map_find t lookup = Some x /\ exists src h, In src (texts (list_of (q_srcs r))) /\
    proto_header p g src h /\ k = index_key sfx h) m m'.
Proof.
  unfold add_proto_library. destruct (map_find t lookup) as [lib|].
  - destruct (extract_string_list (q_srcs r)) as [vs| |] eqn:Ev; cbn [bind]; try discriminate.
    intros E; inversion E; subst; clear E. apply extract_texts in Ev. rewrite Ev.
    eapply adds_ext.
    + apply adds_fold with (E := fun h k x => k = index_key sfx h /\ In x [lib]). intros m0 h.
      apply adds_update; [intros s x; rewrite set_insert_in; cbn; intuition|exists h; reflexivity].
    + intros k x. split.
      * intros (h & I & -> & [<-|[]]). split; [reflexivity|]. apply in_flat_map in I. destruct I as (src & Is & Ih).
        apply proto_headers_spec in Ih. eauto.
      * intros (Ex & src & h & Is & Ph & ->). inversion Ex; subst. exists h. split; [|cbn; auto].
        apply in_flat_map. exists src. split; [exact Is|]. apply proto_headers_spec. exact Ph.
  - intros E; inversion E; subst. apply adds_nil. intros k x (C & _). discriminate.
Qed.
Lemma add_proto_libraries_spec p libs rs : forall m m', add_proto_libraries p sfx libs rs m = Ret m' ->
  adds (proto_provides p libs rs) m m'.
Proof.
  induction rs as [|r rs IH]; intros m m' E; cbn [add_proto_libraries] in E.
  - inversion E; subst. apply adds_nil. intros k t (g & r & plib & src & h & [] & _).
  - destruct (qualified_target p (v_text (q_name r))) as [t|] eqn:Q.
    + destruct (add_proto_library p sfx t r (fst libs) [] m) as [m1| |] eqn:E1; cbn [bind] in E; try discriminate.
      destruct (add_proto_library p sfx t r (snd libs) ($".grpc") m1) as [m2| |] eqn:E2; cbn [bind] in E; try discriminate.
      pose proof (add_proto_library_spec p false t r (fst libs) m m1 E1) as A1.
      pose proof (add_proto_library_spec p true t r (snd libs) m1 m2 E2) as A2.
      eapply adds_trans; [exact A1|eapply adds_trans; [exact A2|apply (IH _ _ E)|]|].
      * intros k x. split; intros H; exact H.
      * intros k x. split.
        -- intros ([|] & r0 & plib & src & h & [<-|I] & Nm & F & Is & Ph & Ek); unfold named in Nm.
           ++ rewrite Q in Nm. inversion Nm; subst. right. left. split; [exact F|eauto].
           ++ right. right. exists true, r0, plib, src, h. unfold named. auto 10.
           ++ rewrite Q in Nm. inversion Nm; subst. left. split; [exact F|eauto].
           ++ right. right. exists false, r0, plib, src, h. unfold named. auto 10.
        -- intros [(F & src & h & Is & Ph & Ek)|[(F & src & h & Is & Ph & Ek)|(g & r0 & plib & src & h & I & H)]].
           ++ exists false, r, t, src, h. unfold named. rewrite Q. cbn [In]. auto 10.
           ++ exists true, r, t, src, h. unfold named. rewrite Q. cbn [In]. auto 10.
           ++ exists g, r0, plib, src, h. cbn [In]. auto 10.
    + eapply adds_ext; [apply (IH _ _ E)|]. intros k x. split.
      * intros (g & r0 & plib & src & h & I & H). exists g, r0, plib, src, h. cbn [In]. auto 10.
      * intros (g & r0 & plib & src & h & [<-|I] & Nm & H); [unfold named in Nm; congruence|].
        exists g, r0, plib, src, h. auto.
Qed.
End Index.

(** * All headers of a project *)
Section Project.
Variable sfx : bool.
Variable pr : parsed_project.
Variable al : list (target * list target).
Hypothesis Al : extract_aliased_by pr = Ret al.

Lemma file_spec f m m1 m2 : append_cc_library_headers al sfx f m = Ret m1 -> append_proto_library_headers sfx f m1 = Ret m2 ->
  adds sfx (fun k t => exists h, provides pr f t h /\ k = index_key sfx h) m m2.
Proof.
  unfold append_cc_library_headers, append_proto_library_headers. intros E1 E2.
  destruct (find_targets [$"cc_library"; $"grpc_cc_library"] (pf_ast f)) as [rs0| |] eqn:F0; cbn [bind] in E1; try discriminate.
  destruct (find_targets [$"cc_proto_library"; $"cc_grpc_library"] (pf_ast f)) as [rs1| |] eqn:F1; cbn [bind] in E2; try discriminate.
  destruct (proto_libs (pf_package f) rs1 ([], [])) as [libs| |] eqn:Fl; cbn [bind] in E2; try discriminate.
  destruct (find_targets [$"proto_library"] (pf_ast f)) as [rs2| |] eqn:F2; cbn [bind] in E2; try discriminate.
  apply proto_libs_spec in Fl; [|intros []; exact I]. destruct Fl as [_ Fl].
  eapply adds_trans; [apply (add_libraries_spec sfx al _ _ _ _ E1)|apply (add_proto_libraries_spec sfx _ _ _ _ _ E2)|].
  intros k t. split.
  - intros (h & P & ->). inversion P; subst.
    + left. rewrite F0 in H. inversion H; subst. exists r, lib, x, name, h. split; [assumption|]. split; [assumption|].
      split; [|auto]. rewrite (alias_of_entry _ _ Al). assumption.
    + right. rewrite F1 in H. inversion H; subst. rewrite F2 in H4. inversion H4; subst.
      exists (kind_of r1), r2, plib, src, h. split; [assumption|]. split; [assumption|]. split; [|auto].
      apply Fl. right. split; [destruct (kind_of r1); reflexivity|]. exists a, r1, b. auto.
  - intros [(r & lib & x & name & h & Ir & Nm & T & Li & Hn & Pl & ->)|(g & r & plib & src & h & Ir & Nm & F & Is & Ph & ->)].
    + exists h. split; [|reflexivity]. rewrite (alias_of_entry _ _ Al) in T. eapply provides_library; eauto.
    + exists h. split; [|reflexivity]. apply Fl in F. destruct F as [F|(_ & a & r1 & b & -> & <- & N1 & I1 & Fst)].
      * destruct g; discriminate.
      * eapply provides_proto; eauto.
Qed.
Lemma files_spec files : forall m m', headers_of_files al sfx files m = Ret m' ->
  adds sfx (fun k t => exists p f h, In (p, f) files /\ provides pr f t h /\ k = index_key sfx h) m m'.
Proof.
  induction files as [|[p f] files IH]; intros m m' E; cbn [headers_of_files] in E.
  - inversion E; subst. apply adds_nil. intros k t (p & f & h & [] & _).
  - destruct (append_cc_library_headers al sfx f m) as [m1| |] eqn:E1; cbn [bind] in E; try discriminate.
    destruct (append_proto_library_headers sfx f m1) as [m2| |] eqn:E2; cbn [bind] in E; try discriminate.
    eapply adds_trans; [apply (file_spec _ _ _ _ E1 E2)|apply (IH _ _ E)|]. intros k t. split.
    + intros (p0 & f0 & h & [Eq|I] & H); [inversion Eq; subst; left; eauto|]. right. exists p0, f0, h. auto.
    + intros [(h & H)|(p0 & f0 & h & I & H)]; [exists p, f, h|exists p0, f0, h]; cbn [In]; auto.
Qed.
End Project.
Theorem header_to_lib_spec pr sfx m : header_to_lib pr sfx = Ret m ->
  (forall k t, In t (providers m k) <-> exists p f h, In (p, f) (pr_files pr) /\ provides pr f t h /\ k = index_key sfx h) /\
  (sfx = true -> suffix_indexed m).
Proof.
  unfold header_to_lib. destruct (extract_aliased_by pr) as [al| |] eqn:Al; cbn [bind]; try discriminate.
  intros E. destruct (files_spec sfx pr al Al _ _ _ E I) as (S & P & K). split.
  - intros k t. rewrite P. split; [intros [[]|H]; exact H|auto].
  - intros ->. split; [exact S|]. intros k ts In0. destruct (K k) as [[]|H]; [|exact H].
    apply in_map_iff. exists (k, ts). auto.
Qed.

(** * Generated files *)
Lemma first_with_app {A} (a b : list (str * A)) k x : first_with (a ++ b) k x <->
  first_with a k x \/ (forall y, ~ In (k, y) a) /\ first_with b k x.
Proof.
  unfold first_with. induction a as [|[k0 y0] a IH]; cbn [app].
  - split; [intros H; right; split; [intros y []|exact H]|]. intros [([|] & b0 & C & _)|[_ H]]; [discriminate|discriminate|exact H].
  - assert (C : forall l : list (str * A), (exists a0 b0, (k0, y0) :: l = a0 ++ (k, x) :: b0 /\ (forall y, ~ In (k, y) a0)) <->
       (k0, y0) = (k, x) \/ k0 <> k /\ exists a0 b0, l = a0 ++ (k, x) :: b0 /\ (forall y, ~ In (k, y) a0)).
    { intros l. split.
      - intros ([|z a0] & b0 & E & N); cbn [app] in E.
        + left. inversion E; reflexivity.
        + pose proof (f_equal (@tl _) E) as E2. apply (f_equal (@hd_error _)) in E. cbn in E, E2. injection E as E.
          right. subst z. split; [intros ->; exact (N y0 (or_introl eq_refl))|]. exists a0, b0. split; [exact E2|].
          intros y I. exact (N y (or_intror I)).
      - intros [E|(N & a0 & b0 & -> & N')].
        + exists [], l. rewrite E. split; [reflexivity|]. intros y [].
        + exists ((k0, y0) :: a0), b0. split; [reflexivity|]. intros y [E|I]; [inversion E; contradiction|exact (N' y I)]. }
    rewrite !C. rewrite IH. split.
    + intros [E|(N & [H|(H1 & H2)])]; [auto|auto|]. right. split; [|exact H2]. intros y [E|I]; [inversion E; contradiction|exact (H1 y I)].
    + intros [[E|(N & H)]|(H1 & H2)]; [auto|auto|]. right. split; [intros ->; exact (H1 y0 (or_introl eq_refl))|].
      right. split; [|exact H2]. intros y I. exact (H1 y (or_intror I)).
Qed.
Section Generated.
Variable sfx : bool.
Definition inserts (l : list (str * target)) (m m' : provided) : Prop :=
  msorted m -> msorted m' /\ forall k t, map_find k m' = Some t <-> map_find k m = Some t \/ map_find k m = None /\ first_with l k t.
Lemma inserts_nil m : inserts [] m m.
Proof. intros S. split; [exact S|]. intros k t. split; [auto|]. intros [H|(_ & [|] & b & C & _)]; [exact H|discriminate|discriminate]. Qed.
Lemma first_with_in {A} (l : list (str * A)) k x : In (k, x) l -> exists y, first_with l k y.
Proof.
  induction l as [|[k0 y0] l IH]; [intros []|]. intros I. destruct (str_dec k0 k) as [->|N].
  - exists y0, [], l. split; [reflexivity|]. intros y [].
  - destruct I as [E|I]; [inversion E; contradiction|]. destruct (IH I) as (y & a & b & -> & H).
    exists y, ((k0, y0) :: a), b. split; [reflexivity|]. intros z [E|J]; [inversion E; contradiction|exact (H z J)].
Qed.
Lemma inserts_app l l' m m1 m2 : inserts l m m1 -> inserts l' m1 m2 -> inserts (l ++ l') m m2.
Proof.
  intros I1 I2 S. destruct (I1 S) as [S1 H1]. destruct (I2 S1) as [S2 H2]. split; [exact S2|].
  intros k t. rewrite H2, H1, first_with_app.
  assert (Hn : map_find k m1 = None <-> map_find k m = None /\ forall y, ~ In (k, y) l).
  { split.
    - intros N. assert (Nm : map_find k m = None).
      { destruct (map_find k m) as [z|] eqn:F; [|reflexivity]. assert (C : map_find k m1 = Some z) by (apply H1; auto). congruence. }
      split; [exact Nm|]. intros y I. apply first_with_in in I. destruct I as [z Fz].
      assert (C : map_find k m1 = Some z) by (apply H1; auto). congruence.
    - intros [N A]. destruct (map_find k m1) as [z|] eqn:F; [|reflexivity]. apply H1 in F. destruct F as [F|(_ & a & b & -> & _)].
      + congruence.
      + exfalso. apply (A z). apply in_or_app. right. left. reflexivity. }
  rewrite Hn. tauto.
Qed.
Lemma inserts_fold p t files : forall m,
  inserts (map (fun x => (index_key sfx (qualified_file p x), t)) files) m
    (fold_left (fun m f => map_insert (key_transform (qualified_file p f) sfx) t m) files m).
Proof.
  induction files as [|x files IH]; intros m; cbn [fold_left map].
  - apply inserts_nil.
  - set (k0 := index_key sfx (qualified_file p x)). apply (inserts_app [(k0, t)] _ m (map_insert k0 t m)); [|apply IH].
    intros S. split; [apply map_insert_sorted, S|]. intros k y. rewrite map_insert_find by exact S.
    assert (F1 : first_with [(k0, t)] k y <-> k0 = k /\ t = y).
    { split.
      - intros ([|z [|]] & b & E & _); inversion E; auto.
      - intros [-> ->]. exists [], []. split; [reflexivity|]. intros ? []. }
    rewrite F1. destruct (map_find k m) as [z|].
    + split; [auto|]. intros [H|[C _]]; [exact H|discriminate].
    + destruct (keqb_spec k k0) as [e|N].
      * subst k. split; [intros E; inversion E; auto|]. intros [C|(_ & _ & ->)]; [discriminate|reflexivity].
      * split; [discriminate|]. intros [C|(_ & E & _)]; [discriminate|congruence].
Qed.
Lemma genrules_spec f rs : forall m m', genrules (pf_package f) sfx rs m = Ret m' ->
  inserts (flat_map (outputs sfx f) rs) m m'.
Proof.
  induction rs as [|r rs IH]; intros m m' E; cbn [genrules] in E.
  - inversion E; subst. apply inserts_nil.
  - destruct (extract_string_list (q_outs r)) as [vs| |] eqn:Ev; cbn [bind] in E; try discriminate.
    apply extract_texts in Ev. cbn [flat_map]. eapply inserts_app; [|apply (IH _ _ E)].
    unfold outputs. destruct (qualified_target (pf_package f) (v_text (q_name r))) as [t|]; [|apply inserts_nil].
    rewrite Ev. apply inserts_fold.
Qed.
End Generated.
Theorem generated_spec pr sfx m : generated_from_genrule pr sfx = Ret m ->
  exists rss, Forall2 (fun pf rs => find_targets [$"genrule"] (pf_ast (snd pf)) = Ret rs) (pr_files pr) rss /\
    forall k t, map_find k m = Some t <->
      first_with (flat_map (fun x => flat_map (outputs sfx (snd (fst x))) (snd x)) (combine (pr_files pr) rss)) k t.
Proof.
  unfold generated_from_genrule.
  assert (H : forall files m0 m1, genrules_of_files sfx files m0 = Ret m1 ->
    exists rss, Forall2 (fun pf rs => find_targets [$"genrule"] (pf_ast (snd pf)) = Ret rs) files rss /\
      inserts (flat_map (fun x => flat_map (outputs sfx (snd (fst x))) (snd x)) (combine files rss)) m0 m1).
  { induction files as [|[p f] files IH]; intros m0 m1 E; cbn [genrules_of_files] in E.
    - inversion E; subst. exists []. split; [constructor|]. apply inserts_nil.
    - destruct (find_targets [$"genrule"] (pf_ast f)) as [rs| |] eqn:Fr; cbn [bind] in E; try discriminate.
      destruct (genrules (pf_package f) sfx rs m0) as [m2| |] eqn:Eg; cbn [bind] in E; try discriminate.
      destruct (IH _ _ E) as (rss & F2 & Ins). exists (rs :: rss). split; [constructor; [exact Fr|exact F2]|].
      cbn [combine flat_map fst snd]. eapply inserts_app; [apply (genrules_spec sfx f _ _ _ Eg)|exact Ins]. }
  intros E. destruct (H _ _ _ E) as (rss & F2 & Ins). exists rss. split; [exact F2|]. destruct (Ins I) as [_ Hk].
  intros k t. rewrite Hk. split; [intros [C|[_ F]]; [discriminate|exact F]|auto].
Qed.

(** * Always defined *)
Lemma extract_defined r o : (forall l, In l (result_lists r) -> exists strs, string_list l = Ret strs) ->
  In o [q_srcs r; q_hdrs r; q_textual_hdrs r; q_public_hdrs r; q_deps r; q_includes r; q_outs r; q_visibility r] ->
  exists vs, extract_string_list o = Ret vs.
Proof.
  intros H I. unfold extract_string_list. destruct o as [l|]; [|exists []; reflexivity]. apply H. unfold result_lists.
  apply in_flat_map. exists (Some l). split; [exact I|left; reflexivity].
Qed.
Definition readable_results (rs : list result) : Prop :=
  forall r l, In r rs -> In l (result_lists r) -> exists strs, string_list l = Ret strs.
Lemma header_names_defined p r h : readable_results [r] -> exists l, header_names p r h = Ret l.
Proof.
  intros R. unfold header_names. destruct (negb _); eauto.
  destruct (extract_defined r (q_includes r)) as [vs ->]; [intros l; apply R; left; reflexivity|cbn; auto 10|]. cbn. eauto.
Qed.
Lemma headers_names_defined p r skip hs : readable_results [r] -> exists l, headers_names p r skip hs = Ret l.
Proof.
  intros R. induction hs as [|h hs (l & IH)]; cbn [headers_names]; eauto. destruct (_ && _); eauto.
  destruct (header_names_defined p r h R) as [a ->]. cbn. rewrite IH. cbn. eauto.
Qed.
Lemma library_headers_defined p r : readable_results [r] -> exists l, library_headers p r = Ret l.
Proof.
  intros R. unfold library_headers. destruct (qualified_target _ _); eauto.
  assert (R' : forall l, In l (result_lists r) -> exists strs, string_list l = Ret strs) by (intros l; apply R; left; reflexivity).
  destruct (extract_defined r (q_hdrs r) R') as [a ->]; [cbn; auto 10|].
  destruct (extract_defined r (q_textual_hdrs r) R') as [b ->]; [cbn; auto 10|].
  destruct (extract_defined r (q_public_hdrs r) R') as [c ->]; [cbn; auto 10|]. cbn [bind].
  match goal with |- context [headers_names p r ?s ?l] => destruct (headers_names_defined p r s l R) as [x ->] end.
  cbn. eauto.
Qed.
Lemma readable_cons r rs : readable_results (r :: rs) -> readable_results [r] /\ readable_results rs.
Proof. unfold readable_results. cbn [In]. split; intros r0 l I; apply H; tauto. Qed.
Lemma add_libraries_defined al sfx p rs : readable_results rs -> forall m, exists m', add_libraries al sfx p rs m = Ret m'.
Proof.
  induction rs as [|r rs IH]; intros R m; cbn [add_libraries]; eauto. apply readable_cons in R. destruct R as [R1 R2].
  destruct (library_headers_defined p r R1) as [l ->]. cbn [bind]. auto.
Qed.
Lemma proto_libs_defined p rs : readable_results rs -> forall m, exists m', proto_libs p rs m = Ret m'.
Proof.
  induction rs as [|r rs IH]; intros R m; cbn [proto_libs]; eauto. apply readable_cons in R. destruct R as [R1 R2].
  destruct (qualified_target _ _); auto.
  destruct (extract_defined r (if is_grpc r then q_srcs r else q_deps r)) as [vs ->].
  - intros l; apply R1; left; reflexivity.
  - destruct (is_grpc r); cbn; auto 10.
  - cbn [bind]. auto.
Qed.
Lemma add_proto_libraries_defined p sfx libs rs : readable_results rs -> forall m, exists m', add_proto_libraries p sfx libs rs m = Ret m'.
Proof.
  induction rs as [|r rs IH]; intros R m; cbn [add_proto_libraries]; eauto. apply readable_cons in R. destruct R as [R1 R2].
  destruct (qualified_target _ _) as [t|]; auto.
  assert (D : forall lookup mid m, exists m', add_proto_library p sfx t r lookup mid m = Ret m').
  { intros lookup mid m0. unfold add_proto_library. destruct (map_find t lookup); eauto.
    destruct (extract_defined r (q_srcs r)) as [vs ->]; [intros l; apply R1; left; reflexivity|cbn; auto|]. cbn. eauto. }
  destruct (D (fst libs) [] m) as [m1 ->]. cbn [bind]. destruct (D (snd libs) ($".grpc") m1) as [m2 ->]. cbn [bind]. auto.
Qed.
Definition readable_project (pr : parsed_project) : Prop :=
  forall p f, In (p, f) (pr_files pr) -> Forall sound (pf_ast f).
Theorem headers_defined pr sfx : readable_project pr -> exists m, header_to_lib pr sfx = Ret m.
Proof.
  unfold readable_project, header_to_lib, extract_aliased_by. intros H.
  assert (A : forall files m, (forall p f, In (p, f) files -> Forall sound (pf_ast f)) -> exists m', aliases_in files m = Ret m').
  { induction files as [|[p f] files IH]; intros m Hf; cbn [aliases_in]; eauto.
    destruct (find_targets_defined [$"alias"] false (pf_ast f) (Hf p f (or_introl eq_refl))) as (rs & E & _).
    unfold find_targets. rewrite E. cbn [bind]. apply IH. intros p0 f0 I. apply (Hf p0 f0). right. exact I. }
  destruct (A (pr_files pr) [] H) as [al ->]. cbn [bind]. clear A.
  generalize ([] : provided_set). generalize (pr_files pr) H. clear H.
  induction l as [|[p f] files IH]; intros Hf m; cbn [headers_of_files]; eauto.
  unfold append_cc_library_headers, append_proto_library_headers, find_targets.
  pose proof (Hf p f (or_introl eq_refl)) as So.
  destruct (find_targets_defined [$"cc_library"; $"grpc_cc_library"] false (pf_ast f) So) as (rs0 & -> & R0).
  destruct (find_targets_defined [$"cc_proto_library"; $"cc_grpc_library"] false (pf_ast f) So) as (rs1 & -> & R1).
  destruct (find_targets_defined [$"proto_library"] false (pf_ast f) So) as (rs2 & -> & R2).
  cbn [bind]. destruct (add_libraries_defined al sfx (pf_package f) rs0 R0 m) as [m1 ->]. cbn [bind].
  destruct (proto_libs_defined (pf_package f) rs1 R1 ([], [])) as [libs ->]. cbn [bind].
  destruct (add_proto_libraries_defined (pf_package f) sfx libs rs2 R2 m1) as [m2 ->]. cbn [bind].
  apply IH. intros p0 f0 I. apply (Hf p0 f0). right. exact I.
Qed.
Theorem generated_defined pr sfx : readable_project pr -> exists m, generated_from_genrule pr sfx = Ret m.
Proof.
  unfold readable_project, generated_from_genrule. generalize ([] : provided). generalize (pr_files pr).
  induction l as [|[p f] files IH]; intros m Hf; cbn [genrules_of_files]; eauto. unfold find_targets.
  destruct (find_targets_defined [$"genrule"] false (pf_ast f) (Hf p f (or_introl eq_refl))) as (rs & -> & R). cbn [bind].
  assert (G : forall rs, readable_results rs -> forall m, exists m', genrules (pf_package f) sfx rs m = Ret m').
  { induction rs0 as [|r rs0 IHr]; intros Rr m0; cbn [genrules]; eauto. apply readable_cons in Rr. destruct Rr as [Ra Rb].
    destruct (extract_defined r (q_outs r)) as [vs ->]; [intros l; apply Ra; left; reflexivity|cbn; auto 10|]. cbn [bind]. auto. }
  destruct (G rs R m) as [m1 ->]. cbn [bind]. apply IH. intros p0 f0 I. apply (Hf p0 f0). right. exact I.
Qed.
