(** Proofs about the compilation database. *)
From Verif Require Import Base OMap M_Types M_Scanner M_Ast M_Parser M_Query S_Query P_Query M_Elab S_Elab P_Elab M_Workspace M_Project M_DepGraph S_DepGraph
  M_Headers S_Headers P_Headers M_Table S_Table P_Table M_CompDb S_CompDb.

(** * Options *)
Lemma take_skip f s : take_while f s ++ skip_while f s = s.
Proof. induction s as [|c s IH]; [reflexivity|]. cbn. destruct (f c); [|reflexivity]. cbn. now rewrite IH. Qed.
Lemma take_all f s : Forall (fun c => f c = true) (take_while f s).
Proof. induction s as [|c s IH]; cbn; [constructor|]. destruct (f c) eqn:F; constructor; auto. Qed.
Lemma skip_head f s c r : skip_while f s = c :: r -> f c = false.
Proof. induction s as [|d s IH]; cbn; [discriminate|]. destruct (f d) eqn:F; [auto|]. intros E. now inversion E; subst. Qed.
Definition stops (f : ascii -> bool) (s : str) : Prop := forall c r, s = c :: r -> f c = false.
Lemma skip_past f a b : Forall (fun c => f c = true) a -> stops f b -> skip_while f (a ++ b) = b.
Proof.
  induction 1 as [|c a H _ IH]; intros S; cbn; [|rewrite H; auto].
  destruct b as [|c b]; cbn; [reflexivity|]. now rewrite (S c b eq_refl).
Qed.
Lemma take_past f a b : Forall (fun c => f c = true) a -> stops f b -> take_while f (a ++ b) = a.
Proof.
  induction 1 as [|c a H _ IH]; intros S; cbn; [|rewrite H; f_equal; auto].
  destruct b as [|c b]; cbn; [reflexivity|]. now rewrite (S c b eq_refl).
Qed.
Lemma without_iff p s r : without p s = Some r <-> s = p ++ r.
Proof.
  unfold without. destruct (starts_with p s) eqn:St.
  - apply starts_with_iff in St as [r' ->]. rewrite skipn_app_exact. split; intros E; [now inversion E|]. f_equal. now apply app_inv_head in E.
  - split; [discriminate|]. intros ->. rewrite starts_with_app in St. discriminate.
Qed.
Lemma blank_iff c : re_blank c = true <-> blank c.
Proof.
  unfold re_blank, blank. rewrite !orb_true_iff, !ceqb_eq. cbn [In].
  split; [intros [[[[->| ->]| ->]| ->]| ->]|intros [<-|[<-|[<-|[<-|[<-|[]]]]]]]; tauto.
Qed.
Lemma quote_iff c : M_CompDb.re_quote c = true <-> a_quote c.
Proof. unfold M_CompDb.re_quote, a_quote. rewrite orb_true_iff, !ceqb_eq. reflexivity. Qed.
Lemma value_iff c : negb (re_blank c || M_CompDb.re_quote c) = true <-> ~ blank c /\ ~ a_quote c.
Proof. rewrite negb_true_iff, orb_false_iff, <- blank_iff, <- quote_iff. destruct (re_blank c), (M_CompDb.re_quote c); intuition congruence. Qed.
Lemma blanks_iff s : Forall blank s <-> Forall (fun c => re_blank c = true) s.
Proof. rewrite !Forall_forall. split; intros H c I; apply blank_iff; auto. Qed.
Lemma values_iff s : Forall (fun c => ~ blank c /\ ~ a_quote c) s <-> Forall (fun c => negb (re_blank c || M_CompDb.re_quote c) = true) s.
Proof. rewrite !Forall_forall. split; intros H c I; apply value_iff; auto. Qed.
Lemma skip_one_spec f s : exists a, s = a ++ skip_one f s /\ (a = [] \/ exists c, a = [c] /\ f c = true).
Proof. destruct s as [|c s]; [exists []; auto|]. cbn. destruct (f c) eqn:F; [exists [c]|exists []]; split; eauto. Qed.
Lemma cxxopt_spec s o rest : cxxopt_at s = Some (o, rest) <-> exists t, s = t ++ rest /\ option_before t o rest.
Proof.
  set (value := fun c : ascii => negb (re_blank c || M_CompDb.re_quote c)). split.
  - unfold cxxopt_at. destruct (without ($"--") s) as [s1|] eqn:E1; [|discriminate]. apply without_iff in E1.
    set (s2 := match without ($"host_") s1 with Some r => r | None => s1 end).
    assert (E2 : exists host, s1 = host ++ s2 /\ In host [[]; $"host_"]).
    { unfold s2. destruct (without ($"host_") s1) as [r|] eqn:E; [apply without_iff in E; exists ($"host_")|exists []]; cbn [In]; auto. }
    clearbody s2. destruct E2 as (host & E2 & Hh). destruct (without ($"cxxopt") s2) as [s3|] eqn:E3; [|discriminate]. apply without_iff in E3.
    assert (E4 := take_skip re_blank s3). set (s4 := skip_while re_blank s3) in *. assert (T4 := take_all re_blank s3).
    destruct (skip_one_spec (fun c => ceqb c "=") s4) as (eq & E5 & He). set (s5 := skip_one (fun c => ceqb c "=") s4) in *.
    assert (E6 := take_skip re_blank s5). set (s6 := skip_while re_blank s5) in *. assert (T6 := take_all re_blank s5).
    destruct (skip_one_spec M_CompDb.re_quote s6) as (quote & E7 & Hq). destruct (skip_one M_CompDb.re_quote s6) as [|c s7]; [discriminate|].
    fold value. destruct (ceqb c "-") eqn:Ec; [|discriminate]. apply ceqb_eq in Ec. subst c. cbn [andb].
    destruct (is_nil (take_while value s7)) eqn:N; [discriminate|]. intros E. injection E as <- <-.
    assert (E8 := take_skip value s7). assert (T8 := take_all value s7).
    exists ($"--" ++ host ++ $"cxxopt" ++ take_while re_blank s3 ++ eq ++ take_while re_blank s5 ++ quote ++ "-"%char :: take_while value s7). split.
    + rewrite E1, E2, E3, <- E4, E5, <- E6, E7, <- E8 at 1. rewrite !app_assoc_reverse. reflexivity.
    + split.
      * exists host, (take_while re_blank s3), eq, (take_while re_blank s5), quote, (take_while value s7). split; [reflexivity|]. split; [exact Hh|].
        split; [now apply blanks_iff|]. split; [destruct He as [->|(c & -> & Hc)]; [left; auto|]; apply ceqb_eq in Hc; subst; right; left; reflexivity|].
        split; [now apply blanks_iff|]. split; [destruct Hq as [->|(c & -> & Hc)]; [left; auto|]; apply quote_iff in Hc as [->| ->]; cbn [In]; auto|].
        split; [reflexivity|]. split; [destruct (take_while value s7); [discriminate|congruence]|now apply values_iff].
      * intros c r Er. apply skip_head in Er. unfold value in Er. rewrite negb_false_iff, orb_true_iff, blank_iff, quote_iff in Er. exact Er.
  - intros (t & -> & (host & b1 & eq & b2 & quote & v & -> & Hh & B1 & He & B2 & Hq & -> & N & V) & R).
    apply blanks_iff in B1. apply blanks_iff in B2. apply values_iff in V.
    assert (Sr : stops value rest). { intros c r Er. unfold value. rewrite negb_false_iff, orb_true_iff, blank_iff, quote_iff. eauto. }
    unfold cxxopt_at. rewrite !app_assoc_reverse. rewrite (proj2 (without_iff ($"--") _ _) eq_refl).
    set (s3 := b1 ++ eq ++ b2 ++ quote ++ ("-"%char :: v) ++ rest).
    assert (E2 : match without ($"host_") (host ++ $"cxxopt" ++ s3) with Some r => r | None => host ++ $"cxxopt" ++ s3 end = $"cxxopt" ++ s3).
    { destruct Hh as [<-|[<-|[]]]; [reflexivity|]. rewrite (proj2 (without_iff ($"host_") _ _) eq_refl). reflexivity. }
    rewrite E2, (proj2 (without_iff ($"cxxopt") _ _) eq_refl). fold value.
    assert (Q : stops re_blank (quote ++ ("-"%char :: v) ++ rest) /\ skip_one M_CompDb.re_quote (quote ++ ("-"%char :: v) ++ rest) = "-"%char :: v ++ rest /\
      skip_one (fun c => ceqb c "=") (quote ++ ("-"%char :: v) ++ rest) = quote ++ ("-"%char :: v) ++ rest).
    { destruct Hq as [<-|[<-|[<-|[]]]]; split; try (split; reflexivity); intros c r Er; injection Er as <- _; reflexivity. }
    destruct Q as (Q1 & Q2 & Q3).
    assert (E5 : skip_while re_blank (skip_one (fun c => ceqb c "=") (skip_while re_blank s3)) = quote ++ ("-"%char :: v) ++ rest).
    { unfold s3. destruct He as [<-|[<-|[]]].
      - rewrite app_nil_l, (app_assoc b1), skip_past; [|apply Forall_app; auto|exact Q1]. rewrite Q3. rewrite <- (app_nil_l (quote ++ _)) at 1. apply skip_past; [constructor|exact Q1].
      - rewrite skip_past; [|exact B1|intros c r Er; injection Er as <- _; reflexivity].
        match goal with |- skip_while _ (skip_one _ (_ ++ ?x)) = _ => change (skip_while re_blank x = quote ++ ("-"%char :: v) ++ rest) end. apply skip_past; auto. }
    rewrite E5, Q2. change (ceqb "-" "-") with true. rewrite take_past, skip_past by auto. destruct v; [congruence|]. reflexivity.
Qed.
Lemma cxx_skip n : forall s, cxx_options n s = cxx_options 0 (skipn n s).
Proof. induction n as [|n IH]; intros s; [reflexivity|]. destruct s as [|c s]; [reflexivity|]. cbn [cxx_options skipn]. apply IH. Qed.
Lemma option_nonempty t o b : option_before t o b -> exists r, t = "-"%char :: r.
Proof. intros ((h & b1 & e & b2 & q & v & -> & _) & _). eexists. reflexivity. Qed.
Lemma options_cons c s l : (forall t b o, c :: s = t ++ b -> ~ option_before t o b) -> options s l -> options (c :: s) l.
Proof.
  intros N H. inversion H as [s' H1|a t b o l' H1 H2 H3]; subst.
  - constructor. intros [|c' a] t b o E O; [now apply (N t b o E)|]. injection E as _ E. eapply H1; eauto.
  - change (c :: a ++ t ++ b) with ((c :: a) ++ t ++ b). constructor; auto.
    intros [|c' a'] t' b' o' E O; [exfalso; now apply (N t' b' o' E)|]. injection E as _ E. cbn. specialize (H2 _ _ _ _ E O). lia.
Qed.
Theorem cxx_options_spec s : options s (cxx_options 0 s).
Proof.
  remember (length s) as n eqn:L. assert (Hn : length s <= n) by lia. clear L. revert s Hn. induction n as [|n IH]; intros s Hn.
  - destruct s; [|cbn in Hn; lia]. constructor. intros a t b o E O. destruct (option_nonempty _ _ _ O) as [r ->]. destruct a; discriminate.
  - destruct s as [|c s]; [constructor; intros a t b o E O; destruct (option_nonempty _ _ _ O) as [r ->]; destruct a; discriminate|].
    cbn [cxx_options]. destruct (cxxopt_at (c :: s)) as [[o rest]|] eqn:E.
    + apply cxxopt_spec in E as (t & E & O). rewrite cxx_skip. destruct (option_nonempty _ _ _ O) as [r Et]. subst t.
      injection E as -> ->. rewrite app_length, Nat.add_sub, skipn_app_exact.
      apply (next_option [] ("-"%char :: r) rest o); [exact O|cbn; lia|]. apply IH. cbn in Hn. rewrite app_length in Hn. lia.
    + apply options_cons; [|apply IH; cbn in Hn; lia]. intros t b o Et O. assert (X : cxxopt_at (c :: s) = Some (o, b)) by (apply cxxopt_spec; eauto). congruence.
Qed.
Lemma split_same (a1 a2 b1 b2 : str) : length a1 = length a2 -> a1 ++ b1 = a2 ++ b2 -> a1 = a2 /\ b1 = b2.
Proof. revert a2. induction a1 as [|c a1 IH]; intros [|c2 a2] L E; try discriminate; [auto|]. injection E as -> E. apply IH in E as [-> ->]; auto. Qed.
(** There is one way to read the options. *)
Theorem options_unique s l : options s l -> l = cxx_options 0 s.
Proof.
  intros H. assert (H' := cxx_options_spec s). revert H'. generalize (cxx_options 0 s). induction H as [s N|a t b o l O F R IH]; intros l' H'.
  - inversion H'; subst; [reflexivity|]. exfalso. eapply N; eauto.
  - inversion H' as [s' N|a' t' b' o' l'' O' F' R' E]; subst; [exfalso; eapply N; eauto|].
    assert (L : length a = length a'). { apply Nat.le_antisymm; [eapply F; eauto|eapply F'; eauto]. }
    symmetry in E. destruct (split_same _ _ _ _ L E) as [-> Et].
    assert (X : Some (o, b) = Some (o', b')). { rewrite <- (proj2 (cxxopt_spec (t ++ b) o b)) by eauto. apply cxxopt_spec. eauto. }
    injection X as -> ->. f_equal. auto.
Qed.

(** * Things seen before *)
Lemma seen_iff x l : existsb (str_eqb x) l = true <-> In x l.
Proof. rewrite existsb_exists. split; [intros (y & I & E); apply str_eqb_eq in E; subst; auto|]. intros I. exists x. split; auto. apply str_eqb_eq. reflexivity. Qed.
Lemma seen_ext x l l' : (forall k, In k l <-> In k l') -> existsb (str_eqb x) l = existsb (str_eqb x) l'.
Proof. intros H. apply eq_true_iff_eq. rewrite !seen_iff. apply H. Qed.
Lemma unseen_ext l : forall s s', (forall k, In k s <-> In k s') -> unseen s l = unseen s' l.
Proof.
  induction l as [|x l IH]; intros s s' H; cbn [unseen]; [reflexivity|]. rewrite (seen_ext x s s' H). destruct (existsb _ s'); [auto|]. f_equal. apply IH.
  intros k. cbn [In]. rewrite H. reflexivity.
Qed.
Lemma unseen_in seen l x : In x (unseen seen l) <-> In x l /\ ~ In x seen.
Proof.
  revert seen. induction l as [|y l IH]; intros seen; cbn [unseen]; [cbn; tauto|]. destruct (existsb (str_eqb y) seen) eqn:E.
  - apply seen_iff in E. rewrite IH. cbn [In]. split; [tauto|]. intros ([->|I] & N); [contradiction|auto].
  - assert (N : ~ In y seen) by (rewrite <- seen_iff; congruence). cbn [In]. rewrite IH. cbn [In]. split.
    + intros [->|(I & M)]; tauto.
    + intros ([->|I] & M); [auto|]. destruct (str_eqb y x) eqn:X; [apply str_eqb_eq in X; auto|]. right. split; [exact I|]. intros [->|J]; [|auto].
      rewrite (proj2 (str_eqb_eq x x) eq_refl) in X. discriminate.
Qed.
Lemma unseen_app a b : forall seen, unseen seen (a ++ b) = unseen seen a ++ unseen (rev (unseen seen a) ++ seen) b.
Proof.
  induction a as [|x a IH]; intros seen; cbn [unseen app]; [reflexivity|]. destruct (existsb _ seen); [auto|]. cbn [app]. f_equal. rewrite IH. f_equal.
  apply unseen_ext. intros k. cbn [rev]. rewrite <- app_assoc. cbn [app]. reflexivity.
Qed.
Lemma unseen_nodup l : forall seen, NoDup (unseen seen l).
Proof.
  induction l as [|x l IH]; intros seen; cbn [unseen]; [constructor|]. destruct (existsb _ seen); [auto|]. constructor; [|auto].
  rewrite unseen_in. cbn [In]. tauto.
Qed.
Lemma keys_itself l : map fst (map itself l) = l.
Proof. rewrite map_map. apply map_id. Qed.
Lemma unseen_collected l : forall pre r seen, (forall k, In k seen <-> In k (map fst pre)) -> collected pre r ->
  collected (pre ++ map itself l) (r ++ unseen seen l).
Proof.
  induction l as [|x l IH]; intros pre r seen S C; cbn [map unseen]; [rewrite !app_nil_r; exact C|].
  replace (pre ++ itself x :: map itself l) with ((pre ++ [itself x]) ++ map itself l) by (rewrite <- app_assoc; reflexivity).
  destruct (existsb (str_eqb x) seen) eqn:E.
  - apply seen_iff in E. apply IH; [|apply collected_again; [now apply S|exact C]].
    intros k. rewrite map_app, in_app_iff, <- S. cbn [map fst itself In]. intuition (subst; auto).
  - assert (N : ~ In x seen) by (rewrite <- seen_iff; congruence).
    replace (r ++ x :: unseen (x :: seen) l) with ((r ++ [x]) ++ unseen (x :: seen) l) by (rewrite <- app_assoc; reflexivity).
    apply IH; [|apply collected_new; [now rewrite <- S|exact C]].
    intros k. rewrite map_app, in_app_iff, <- S. cbn [map fst itself In]. tauto.
Qed.
Lemma unseen_all l : collected (map itself l) (unseen [] l).
Proof. apply (unseen_collected l [] [] []); [reflexivity|constructor]. Qed.
Lemma collected_fun l r : collected l r -> forall r', collected l r' -> r = r'.
Proof.
  induction 1 as [|l r k ds I C IH|l r k ds I C IH]; intros r' H; inversion H as [E|l' r0 k' ds' I' C' E|l' r0 k' ds' I' C' E]; subst;
    try reflexivity; try (destruct l; discriminate); try (destruct l'; discriminate); apply app_inj_tail in E as [-> E]; injection E as -> ->;
    try contradiction; [auto|f_equal; auto].
Qed.
(** Where the collected things come from. *)
Lemma collected_from l r : collected l r -> forall d, In d r -> exists k ds, In (k, ds) l /\ In d ds.
Proof.
  induction 1 as [|l r k ds I C IH|l r k ds I C IH]; intros d H; [destruct H| |].
  - destruct (IH d H) as (k' & ds' & A & B). exists k', ds'. rewrite in_app_iff. auto.
  - apply in_app_iff in H as [H|H].
    + destruct (IH d H) as (k' & ds' & A & B). exists k', ds'. rewrite in_app_iff. auto.
    + exists k, ds. rewrite in_app_iff. cbn [In]. auto.
Qed.
Lemma collected_all l r : collected l r -> forall k ds d, In (k, ds) l -> (forall ds', In (k, ds') l -> ds' = ds) -> In d ds -> In d r.
Proof.
  induction 1 as [|l r k ds I C IH|l r k ds I C IH]; intros k' ds' d H U D; [destruct H| |].
  - assert (U' : forall x, In (k', x) l -> x = ds') by (intros x X; apply U; rewrite in_app_iff; auto).
    apply in_app_iff in H as [H|[H|[]]]; [eauto|]. injection H as -> ->.
    apply in_map_iff in I as ((k & x) & E & I). cbn [fst] in E. subst k. rewrite (U' _ I) in I. eauto.
  - assert (U' : forall x, In (k', x) l -> x = ds') by (intros x X; apply U; rewrite in_app_iff; auto).
    apply in_app_iff. apply in_app_iff in H as [H|[H|[]]]; [left; eauto|]. injection H as -> ->. auto.
Qed.
(** * absl=1 *)
Lemma absl_line_spec s : absl_on_line s = true <-> exists b c, s = b ++ $"absl=1" ++ c /\ ~ In NL b.
Proof.
  induction s as [|x s IH]; cbn [absl_on_line]; rewrite orb_true_iff, starts_with_iff.
  - split; [intros [(r & E)|E]; discriminate|]. intros (b & c & E & _). left. destruct b; [exists c; exact E|discriminate].
  - rewrite andb_true_iff, negb_true_iff, IH. split.
    + intros [(r & E)|(N & b & c & -> & H)].
      * exists [], r. split; [exact E|intros []].
      * exists (x :: b), c. split; [reflexivity|]. intros [->|I]; [|auto]. rewrite (proj2 (ceqb_eq NL NL) eq_refl) in N. discriminate.
    + intros ([|y b] & c & E & H); [left; exists c; exact E|]. injection E as <- E. right. split.
      * destruct (ceqb x NL) eqn:X; [|reflexivity]. apply ceqb_eq in X. exfalso. apply H. left. auto.
      * exists b, c. split; [exact E|]. intros I. apply H. right. auto.
Qed.
Lemma defines_absl_spec s : defines_absl s = true <-> uses_absl s.
Proof.
  unfold uses_absl. induction s as [|x s IH].
  - split; [discriminate|]. intros (a & b & c & E & _). destruct a; discriminate.
  - cbn [defines_absl]. rewrite orb_true_iff, andb_true_iff, starts_with_iff, IH, absl_line_spec. split.
    + intros [((r & E) & b & c & Eb & N)|(a & b & c & -> & N)].
      * exists [], b, c. split; [|exact N]. cbn [app]. rewrite E in *. change (skipn 6 ($"define" ++ r)) with r in Eb. rewrite Eb. reflexivity.
      * exists (x :: a), b, c. auto.
    + intros ([|y a] & b & c & E & N).
      * left. cbn [app] in E. rewrite E. split; [eexists; reflexivity|]. exists b, c. auto.
      * injection E as <- E. right. exists a, b, c. auto.
Qed.
(** * Directories *)
Lemma qualified_package p n t : qualified_target p n = Some t -> tpackage t = p.
Proof. unfold qualified_target. destruct n as [|c r]; [discriminate|]. destruct (ceqb c ":"); [destruct r; [discriminate|]|]; intros E; now inversion E. Qed.
Definition first_dirs : list str := [$"."; $"bazel-bin"].
Definition st_ok (A : list (str * list str)) (st : incdirs) : Prop :=
  (forall k, In k (id_seen st) <-> In k (map fst A)) /\ exists more, id_dirs st = first_dirs ++ more /\ collected A more.
Lemma want_ok A st k ds : st_ok A st -> st_ok (A ++ [(k, ds)]) (want k ds st).
Proof.
  intros (S & more & E & C). unfold want. destruct (existsb (str_eqb k) (id_seen st)) eqn:X.
  - apply seen_iff in X. split; [|exists more; split; [exact E|apply collected_again; [now apply S|exact C]]].
    intros k'. rewrite map_app, in_app_iff, <- S. cbn [map fst In]. intuition (subst; auto).
  - assert (N : ~ In k (id_seen st)) by (rewrite <- seen_iff; congruence). split; cbn [id_seen id_dirs].
    + intros k'. rewrite map_app, in_app_iff, <- S. cbn [map fst In]. tauto.
    + exists (more ++ ds). split; [rewrite E, app_assoc; reflexivity|]. apply collected_new; [now rewrite <- S|exact C].
Qed.
Lemma want_all {X} (f : X -> list (str * list str)) (g : incdirs -> X -> incdirs) l :
  (forall x A st, st_ok A st -> st_ok (A ++ f x) (g st x)) -> forall A st, st_ok A st -> st_ok (A ++ flat_map f l) (fold_left g l st).
Proof. intros H. induction l as [|x l IH]; intros A st O; cbn [flat_map fold_left]; [rewrite app_nil_r; exact O|]. rewrite app_assoc. apply IH, H, O. Qed.
Lemma map_flat {X Y} (f : X -> Y) l : map f l = flat_map (fun x => [f x]) l.
Proof. induction l as [|x l IH]; [reflexivity|]. cbn. now rewrite IH. Qed.
Lemma protobuf_dirs_eq proj : protobuf_dirs proj = map (fun rest => virtual_dir proj ($"src/google/protobuf/" ++ rest))
  [$"_virtual_includes/protobuf_headers"; $"stubs/_virtual_includes/lite"; $"io/_virtual_includes/io"].
Proof. destruct proj; reflexivity. Qed.
Lemma protobuf_ok t A st r : st_ok A st -> st_ok (A ++ protobuf_asks (existsb (str_eqb mark) (map fst A)) (tpackage t) r t)
  (protobuf_hack t (str_eqb (v_text (q_rule r)) ($"proto_library")) st).
Proof.
  intros O. unfold protobuf_asks, protobuf_hack. destruct (contains ($"protobuf") (project (tpackage t))); cbn [negb]; [|rewrite app_nil_r; exact O].
  change ($"protobuf-extra-include-hack") with mark. rewrite <- (seen_ext mark (id_seen st) (map fst A)) by apply O.
  assert (G : forall b d A st, st_ok A st -> st_ok (A ++ (if b : bool then [itself d] else [])) (if b then want_dir d st else st)).
  { intros [|] d A' st' O'; [|rewrite app_nil_r; exact O']. apply want_ok. exact O'. }
  destruct (existsb (str_eqb mark) (id_seen st)) eqn:E; rewrite app_assoc.
  - rewrite app_nil_r. apply (G (str_eqb _ _)). exact O.
  - apply (G (str_eqb _ _)).
    assert (O1 : st_ok (A ++ [(mark, [])]) (mkDirs (mark :: id_seen st) (id_dirs st))).
    { assert (W := want_ok A st mark [] O). unfold want in W. rewrite E, app_nil_r in W. exact W. }
    match goal with |- st_ok (A ++ (mark, []) :: ?x) _ => replace (A ++ (mark, []) :: x) with ((A ++ [(mark, [])]) ++ x) by (rewrite <- app_assoc; reflexivity) end.
    rewrite protobuf_dirs_eq, <- (map_map (fun rest => virtual_dir (project (tpackage t)) ($"src/google/protobuf/" ++ rest)) itself), (map_flat itself).
    apply want_all; [|exact O1]. intros x A' st' O'. apply want_ok. exact O'.
Qed.
Lemma project_ok w p l A st : st_ok A st -> st_ok (A ++ project_asks w p l) (want_project w p l st).
Proof.
  intros O. unfold project_asks, want_project. destruct (parse_target l p) as [t|]; [|rewrite app_nil_r; exact O].
  destruct (project (tpackage t)) as [|c name]; cbn [is_nil]; [rewrite app_nil_r; exact O|]. apply want_ok. exact O.
Qed.
Lemma fold_texts {S} (g : S -> str -> S) vs st : fold_left (fun st v => g st (v_text v)) vs st = fold_left g (map v_text vs) st.
Proof. revert st. induction vs as [|v vs IH]; intros st; [reflexivity|]. cbn. apply IH. Qed.
Lemma rule_ok w p r A st st' : rule_dirs w p r st = Ret st' -> st_ok A st -> exists t, named p r t /\ st_ok (A ++ rule_asks w A p r t) st'.
Proof.
  unfold rule_dirs. intros E O. destruct (extract_string_list (q_includes r)) as [incs| |] eqn:I; try discriminate. cbn [bind] in E.
  apply extract_texts in I. destruct (qualified_target p (v_text (q_name r))) as [t|] eqn:Q; [|discriminate]. exists t. split; [exact Q|].
  assert (P := qualified_package _ _ _ Q).
  rewrite (fold_texts (fun st i => want_dir (fully_qualified_file w p i) st)), I in E.
  set (texts_i := texts (list_of (q_includes r))) in *. set (st1 := fold_left _ texts_i st) in E.
  assert (O1 : st_ok (A ++ map (fun i => itself (fully_qualified_file w p i)) texts_i) st1).
  { rewrite map_flat. apply want_all; [|exact O]. intros x A' s' O'. apply want_ok. exact O'. }
  clearbody st1.
  destruct (if is_nil (v_text (q_include_prefix r)) then Ret st1 else _) as [st2| |] eqn:V in E; try discriminate. cbn [bind] in E.
  assert (O2 : st_ok ((A ++ map (fun i => itself (fully_qualified_file w p i)) texts_i) ++ virtual_asks p r t) st2).
  { unfold virtual_asks. destruct (v_text (q_include_prefix r)) as [|c pre]; cbn [is_nil] in V.
    - injection V as <-. rewrite app_nil_r. exact O1.
    - rewrite P in V. destruct (project p) as [|c' name]; [discriminate|]. injection V as <-. apply want_ok. exact O1. }
  destruct (extract_string_list (q_deps r)) as [deps| |] eqn:D; try discriminate. cbn [bind] in E. injection E as <-. apply extract_texts in D.
  assert (O3 := protobuf_ok t _ _ r O2). rewrite P in O3.
  rewrite (fold_texts (fun st d => want_project w p d st)), D.
  unfold rule_asks. fold texts_i. rewrite !app_assoc.
  apply (want_all (project_asks w p)); [|exact O3]. intros x A' s' O'. apply project_ok. exact O'.
Qed.
Lemma rules_ok w p rs : forall A st st', rules_dirs w p rs st = Ret st' -> st_ok A st -> exists A', rules_ask w p rs A A' /\ st_ok A' st'.
Proof.
  induction rs as [|r rs IH]; intros A st st' E O; cbn [rules_dirs] in E; [injection E as <-; exists A; split; [constructor|exact O]|].
  destruct (rule_dirs w p r st) as [st1| |] eqn:R; try discriminate. cbn [bind] in E. destruct (rule_ok _ _ _ _ _ _ R O) as (t & N & O1).
  destruct (IH _ _ _ E O1) as (A' & H & O'). exists A'. split; [econstructor; eauto|exact O'].
Qed.
Lemma files_ok w files : forall A st st', files_dirs w files st = Ret st' -> st_ok A st -> exists A', files_ask w files A A' /\ st_ok A' st'.
Proof.
  induction files as [|[key f] files IH]; intros A st st' E O; cbn [files_dirs] in E; [injection E as <-; exists A; split; [constructor|exact O]|].
  destruct (find_targets _ (pf_ast f)) as [rs| |] eqn:F; try discriminate. cbn [bind] in E.
  destruct (rules_dirs w (pf_package f) rs st) as [st1| |] eqn:R; try discriminate. cbn [bind] in E.
  destruct (rules_ok _ _ _ _ _ _ R O) as (A1 & H1 & O1). destruct (IH _ _ _ E O1) as (A' & H & O'). exists A'. split; [econstructor; eauto|exact O'].
Qed.
Theorem dirs_exact w pr dirs : collect_inc_dirs w pr = Ret dirs -> include_dirs w pr dirs.
Proof.
  unfold collect_inc_dirs. destruct (files_dirs w (pr_files pr) _) as [st| |] eqn:F; try discriminate. cbn [bind]. intros E. injection E as <-.
  destruct (files_ok w (pr_files pr) [] _ _ F) as (A & H & _ & more & E & C).
  { split; [intros k; cbn; tauto|]. exists []. split; [reflexivity|constructor]. }
  exists A, more. auto.
Qed.
Theorem bazelrc_exact rc : bazelrc_says rc (bazelrc_options rc).
Proof.
  destruct rc as [text|]; [|reflexivity]. exists (unseen [] (cxx_options 0 text)). split; [exists (cxx_options 0 text); split; [apply cxx_options_spec|apply unseen_all]|].
  cbn [bazelrc_options extract_options_from_bazelrc]. destruct (defines_absl text) eqn:D.
  - left. split; [now apply defines_absl_spec|reflexivity].
  - right. split; [|apply app_nil_r]. intros H. apply defines_absl_spec in H. congruence.
Qed.
Theorem bazelrc_unique rc o : bazelrc_says rc o -> o = bazelrc_options rc.
Proof.
  destruct rc as [text|]; [|auto]. intros (user & (l & O & C) & H). apply options_unique in O as ->. rewrite (collected_fun _ _ C _ (unseen_all _)) in H.
  cbn [bazelrc_options extract_options_from_bazelrc]. destruct (defines_absl text) eqn:D.
  - apply defines_absl_spec in D. destruct H as [(_ & H)|(H & _)]; [exact H|contradiction].
  - rewrite app_nil_r. destruct H as [(H & _)|(_ & H)]; [apply defines_absl_spec in H; congruence|exact H].
Qed.
(** What is asked for, and by whom. *)
Lemma rules_ask_in w p rs A A' : rules_ask w p rs A A' -> (exists rest, A' = A ++ rest) /\
  (forall x, In x A' -> In x A \/ exists r t earlier, In r rs /\ named p r t /\ (exists later, A' = earlier ++ rule_asks w earlier p r t ++ later) /\ In x (rule_asks w earlier p r t)) /\
  (forall r, In r rs -> exists t earlier, named p r t /\ exists later, A' = earlier ++ rule_asks w earlier p r t ++ later).
Proof.
  induction 1 as [l|r rs t l l' N H ((rest & ->) & IH1 & IH2)]; [split; [exists []; now rewrite app_nil_r|split; [auto|intros r []]]|].
  split; [exists (rule_asks w l p r t ++ rest); rewrite app_assoc; reflexivity|]. split.
  - intros x I. destruct (IH1 x I) as [J|(r' & t' & e & A1 & A2 & A3 & A4)].
    + apply in_app_iff in J as [J|J]; [auto|]. right. exists r, t, l. split; [left; auto|]. split; [exact N|]. split; [|exact J].
      exists rest. rewrite app_assoc. reflexivity.
    + right. exists r', t', e. split; [right; auto|auto].
  - intros r' [<-|I]; [|apply IH2; exact I]. exists t, l. split; [exact N|]. exists rest. rewrite app_assoc. reflexivity.
Qed.
Lemma files_ask_in w files A A' : files_ask w files A A' -> (exists rest, A' = A ++ rest) /\
  (forall x, In x A' -> In x A \/ exists key f rs r t earlier, In (key, f) files /\ find_targets include_kinds (pf_ast f) = Ret rs /\ In r rs /\
     named (pf_package f) r t /\ (exists later, A' = earlier ++ rule_asks w earlier (pf_package f) r t ++ later) /\ In x (rule_asks w earlier (pf_package f) r t)) /\
  (forall key f rs r, In (key, f) files -> find_targets include_kinds (pf_ast f) = Ret rs -> In r rs ->
     exists t earlier, named (pf_package f) r t /\ exists later, A' = earlier ++ rule_asks w earlier (pf_package f) r t ++ later).
Proof.
  induction 1 as [l|key f files rs l l' l'' F H1 H2 ((rest & ->) & IH1 & IH2)]; [split; [exists []; now rewrite app_nil_r|split; [auto|intros ? ? ? ? []]]|].
  apply rules_ask_in in H1 as ((rest1 & ->) & K1 & K2).
  split; [exists (rest1 ++ rest); rewrite app_assoc; reflexivity|]. split.
  - intros x I. destruct (IH1 x I) as [J|(key' & f' & rs' & r & t & e & A1 & A2 & A3 & A4 & A5 & A6)].
    + apply K1 in J as [J|(r & t & e & A1 & A2 & (later & A3) & A4)]; [auto|]. right. exists key, f, rs, r, t, e. split; [left; auto|].
      split; [exact F|]. split; [exact A1|]. split; [exact A2|]. split; [|exact A4]. exists (later ++ rest). rewrite A3, <- !app_assoc. reflexivity.
    + right. exists key', f', rs', r, t, e. split; [right; auto|auto 6].
  - intros key' f' rs' r [E|I] F' R; [injection E as <- <-|eapply IH2; eauto]. rewrite F in F'. injection F' as <-.
    destruct (K2 r R) as (t & e & N & later & E). exists t, e. split; [exact N|]. exists (later ++ rest). rewrite E, <- !app_assoc. reflexivity.
Qed.
