(** Proofs for C94: rules in another order. *)
From Coq Require Import Permutation ZArith Lia.
From Verif Require Import Base OMap M_Types M_Scanner M_Ast M_Parser M_Query S_Query M_Elab S_Elab P_Elab M_Workspace M_Project P_Project M_DepGraph S_DepGraph P_DepGraph S_Layout P_LayoutMean S_Attributes P_Attributes P_LayoutRules S_Moved.

(** * Finding rules *)
Definition take (c : result) (a : node) : result := match a with NAssign l r _ => extract_query_info l r c | _ => c end.
Lemma fold_take args : forall c vis out, attributes args ->
  fold_left visit_attribute args (mkFinder UserQuery c vis out) = mkFinder UserQuery (fold_left take args c) vis out.
Proof.
  induction args as [|a args IH]; intros c vis out AT; [reflexivity|]. apply attributes_cons in AT as (k & K & AT & _). apply attribute_inv in K as (v & r & g & -> & K).
  cbn [fold_left visit_attribute f_rel f_cur f_default_visibility f_out]. rewrite IH by exact AT. reflexivity.
Qed.
Lemma take_name a c k : attribute_name a = Some k -> k <> $"name" -> q_name (take c a) = q_name c.
Proof.
  intros A N. apply attribute_inv in A as (v & r & g & -> & <-). cbn [take]. unfold extract_query_info. destruct c. destruct r; try reflexivity;
    unfold set_scalar, set_list, set_identifier; repeat match goal with |- context [str_eqb ?a ?b] => destruct (str_eqb a b) eqn:? end; try reflexivity; apart.
Qed.
Lemma fold_name args : forall c, (forall b, In b args -> attribute_name b <> Some ($"name")) -> attributes args -> q_name (fold_left take args c) = q_name c.
Proof.
  induction args as [|a args IH]; intros c N AT; [reflexivity|]. apply attributes_cons in AT as (k & K & AT & _). cbn [fold_left]. rewrite IH; auto; [|intros b B; apply N; right; exact B].
  apply (take_name _ _ k K). intros ->. exact (N a (or_introl eq_refl) K).
Qed.
Lemma literal_name args : forall c k v raw fmt range, attributes args -> In (NAssign (NId k) (NStr v raw fmt) range) args -> v_text k = $"name" -> q_name (fold_left take args c) = v.
Proof.
  induction args as [|a args IH]; intros c k v raw fmt range AT I K; [destruct I|]. apply attributes_cons in AT as (k0 & K0 & AT & D). cbn [fold_left]. destruct I as [->|I].
  - cbn in K0. injection K0 as <-. rewrite fold_name; auto; [|intros b B; rewrite <- K; apply D, B]. cbn [take extract_query_info]. rewrite K. destruct c. reflexivity.
  - eapply IH; eassumption.
Qed.
(** What a rule is reported as. *)
Definition reported (vis : option (list node)) (n : node) : result :=
  match n with
  | NCall (NId v) (NList ty args) =>
      let '(mkResult nd ru na ac ip sp ve rn de al te sr hd th ph dp ic ou vi) := fold_left take args (empty_result n v) in
      mkResult nd ru na ac ip sp ve rn de (if str_eqb (v_text ru) ($"cc_library") && is_nil (opt_elems hd) then true else al) te sr hd th ph dp ic ou (match vi with None => vis | Some _ => vi end)
  | _ => empty_result n no_view
  end.
Lemma visit_rule_once taken n name st : plain_rule taken n name -> proper_name name -> f_rel st = NotRelevant ->
  exists c, visit [] false n st = Ret (mkFinder NotRelevant c (f_default_visibility st) (f_out st ++ [reported (f_default_visibility st) n])).
Proof.
  intros (f & ty & args & k & v & raw & fmt & range & -> & AT & I & K & V & T) P R. cbn [visit]. rewrite R. unfold is_relevant.
  destruct (str_eqb (v_text f) ($"package")) eqn:X; [apply str_eqb_eq in X; exfalso; apply T; left; congruence|]. cbn [is_nil].
  rewrite (visit_attributes [] false args AT), (fold_take args _ _ _ AT). cbn [bind]. unfold inform_caller, reported. cbn [f_cur f_rel f_default_visibility f_out].
  pose proof (literal_name args (empty_result (NCall (NId f) (NList ty args)) f) k v raw fmt range AT I K) as N. destruct (fold_left take args _) as [nd ru na ac ip sp ve rn de al te sr hd th ph dp ic ou vi] eqn:F. cbn [q_name] in N |- *. subst.
  destruct (v_text v) as [|ch r] eqn:Z; [destruct P|]. cbn [is_nil negb andb f_cur f_default_visibility f_out]. eexists. reflexivity.
Qed.
Lemma reported_name taken vis n name : plain_rule taken n name -> v_text (q_name (reported vis n)) = name.
Proof.
  intros (f & ty & args & k & v & raw & fmt & range & -> & AT & I & K & V & _). unfold reported.
  pose proof (literal_name args (empty_result (NCall (NId f) (NList ty args)) f) k v raw fmt range AT I K) as N. destruct (fold_left take args _) as [nd ru na ac ip sp ve rn de al te sr hd th ph dp ic ou vi] eqn:F. cbn [q_name] in N |- *. congruence.
Qed.
Lemma visit_rules_once taken l names : Forall2 (plain_rule taken) l names -> Forall proper_name names -> forall st, f_rel st = NotRelevant ->
  exists c, visit_elems (visit [] false) l st = Ret (mkFinder NotRelevant c (f_default_visibility st) (f_out st ++ map (reported (f_default_visibility st)) l)).
Proof.
  induction 1 as [|n name l names N _ IH]; intros P st R.
  - exists (f_cur st). cbn [visit_elems map]. rewrite app_nil_r. destruct st. cbn in *. subst. reflexivity.
  - apply Forall_cons_iff in P as [P1 P2]. destruct (visit_rule_once taken n name st N P1 R) as (c & E). cbn [visit_elems]. rewrite E. cbn [bind].
    destruct (IH P2 (mkFinder NotRelevant c (f_default_visibility st) (f_out st ++ [reported (f_default_visibility st) n])) eq_refl) as (c2 & E2). exists c2. rewrite E2. cbn [f_default_visibility f_out map].
    rewrite <- app_assoc. reflexivity.
Qed.
Lemma visit_elems_app {v : node -> finder -> outcome finder} a : forall b st, visit_elems v (a ++ b) st = bind (visit_elems v a st) (visit_elems v b).
Proof. induction a as [|n a IH]; intros b st; [reflexivity|]. cbn [app visit_elems]. destruct (v n st); cbn [bind]; auto. Qed.
(** Between statements nothing is being looked at. *)
Lemma visit_rel i a n : forall st st', visit i a n st = Ret st' -> f_rel st' = f_rel st.
Proof.
  induction n as [|v t r|v z|v|op n IH|op l r rg IHl IHr|ty l IH|ty f IH|c p n IHc IHp IHn|l r rg IHl IHr|id ar IHi IHa] using node_ind'; intros st st' E; cbn [visit] in E; try (injection E as <-; reflexivity); eauto.
  - destruct (visit i a l st) as [s| |] eqn:L; try discriminate E. cbn [bind] in E. apply IHl in L. apply IHr in E. congruence.
  - revert st st' E. induction IH as [|n l N _ IH]; intros st st' E; cbn [visit_elems] in E; [injection E as <-; reflexivity|].
    destruct (visit i a n st) as [s| |] eqn:L; try discriminate E. cbn [bind] in E. apply N in L. apply IH in E. congruence.
  - destruct (visit i a c st) as [s| |] eqn:L; try discriminate E. cbn [bind] in E. destruct (visit i a p s) as [s2| |] eqn:M; try discriminate E. cbn [bind] in E.
    apply IHc in L. apply IHp in M. apply IHn in E. congruence.
  - injection E as <-. destruct (f_rel st) eqn:R; cbn [f_rel]; congruence.
  - destruct (f_rel st) eqn:R; try (rewrite <- R; eauto; fail). destruct id; try discriminate E. destruct (is_relevant _ _); try (injection E as <-; assumption).
    all: destruct ar; try discriminate E; destruct (visit_elems _ _ _); try discriminate E; cbn [bind] in E; injection E as <-; reflexivity.
Qed.
Lemma visit_elems_rel i a l : forall st st', visit_elems (visit i a) l st = Ret st' -> f_rel st' = f_rel st.
Proof. intros st st' E. apply (visit_rel i a (NList LList l)). exact E. Qed.
(** The rules found at the end of a file. *)
Lemma found_rules taken m l names : Forall2 (plain_rule taken) l names -> Forall proper_name names ->
  match visit_elems (visit [] false) m initial_finder with
  | Ret st => find_targets [] (m ++ l) = Ret (f_out st ++ map (reported (f_default_visibility st)) l)
  | UB => find_targets [] (m ++ l) = UB
  | OutOfFuel => find_targets [] (m ++ l) = OutOfFuel
  end.
Proof.
  intros F P. unfold find_targets, find_targets_in. cbn [visit]. rewrite visit_elems_app. destruct (visit_elems _ m _) as [st| |] eqn:E; cbn [bind]; try reflexivity.
  destruct (visit_rules_once taken l names F P st (visit_elems_rel _ _ _ _ _ E)) as (c & X). rewrite X. reflexivity.
Qed.

(** * The rule of a name *)
Definition called_so (p : package) (t : target) (r : result) : bool := match qualified_target p (v_text (q_name r)) with Some t' => target_eqb t t' | None => false end.
(** What the first rule of that name depends on. *)
Definition offers (p : package) (rs : list result) (t : target) (ds : list target) : Prop :=
  exists r, find (called_so p t) rs = Some r /\ ds = resolved p (mentioned r).
Lemma called_iff t r : called_so (tpackage t) t r = true <-> names t r.
Proof.
  unfold called_so, names. destruct (qualified_target _ _) as [t'|]; [|split; discriminate]. rewrite target_eqb_eq. split; [intros ->; reflexivity|intros E; congruence].
Qed.
Lemma first_find {A} (f : A -> bool) r l : (exists a b, l = a ++ r :: b /\ f r = true /\ forall x, In x a -> f x = false) <-> find f l = Some r.
Proof.
  split.
  - intros (a & b & -> & T & F). induction a as [|x a IH]; cbn [app find]; [rewrite T; reflexivity|]. rewrite (F x (or_introl eq_refl)). apply IH. intros y Y. apply F. right. exact Y.
  - induction l as [|x l IH]; cbn [find]; [discriminate|]. destruct (f x) eqn:X.
    + intros E. injection E as <-. exists [], l. repeat split; auto. intros y [].
    + intros E. destruct (IH E) as (a & b & -> & T & F). exists (x :: a), b. repeat split; auto. intros y [<-|Y]; auto.
Qed.
Lemma find_app {A} (f : A -> bool) a b : find f (a ++ b) = match find f a with Some r => Some r | None => find f b end.
Proof. induction a as [|x a IH]; cbn [app find]; [reflexivity|]. destruct (f x); auto. Qed.
Lemma find_perm {A} (f : A -> bool) l l' : Permutation l l' -> (forall x y, In x l -> In y l -> f x = true -> f y = true -> x = y) -> find f l = find f l'.
Proof.
  intros P U. destruct (find f l) as [r|] eqn:E, (find f l') as [r'|] eqn:E'; auto.
  - apply find_some in E as [I T]. apply find_some in E' as [I' T']. f_equal. apply U; auto. apply Permutation_in with l'; [apply Permutation_sym, P|exact I'].
  - apply find_some in E as [I T]. rewrite (find_none _ _ E' r) in T; [discriminate T|]. apply Permutation_in with l; assumption.
  - apply find_some in E' as [I T]. rewrite (find_none _ _ E r') in T; [discriminate T|]. apply Permutation_in with l'; [apply Permutation_sym, P|exact I].
Qed.
Lemma find_alike p t rs rs' : rules_alike rs rs' -> match find (called_so p t) rs, find (called_so p t) rs' with Some r, Some r' => rule_alike r r' | None, None => True | _, _ => False end.
Proof.
  induction 1 as [|r r' rs rs' A _ IH]; cbn [find]; [exact I|]. assert (called_so p t r = called_so p t r') as -> by (unfold called_so; now rewrite (al_name _ _ A)). destruct (called_so p t r'); assumption.
Qed.
Lemma texts_bare l : forall l', map bare l = map bare l' -> texts l = texts l'.
Proof.
  induction l as [|n l IH]; intros [|n' l'] E; try discriminate E; [reflexivity|]. apply map_cons_inv in E as [E1 E2]. unfold texts. cbn [flat_map]. fold (texts l). fold (texts l'). rewrite (IH _ E2). f_equal.
  destruct n, n'; cbn [bare] in E1; try discriminate E1; try reflexivity; cbn [as_text]; assert (X : bare_view v = bare_view v0) by congruence; now rewrite (bare_view_text _ _ X).
Qed.
Lemma mentioned_alike r r' : rule_alike r r' -> mentioned r = mentioned r'.
Proof.
  intros A. unfold mentioned. rewrite (al_actual _ _ A). f_equal. pose proof (al_deps _ _ A) as D. destruct (q_deps r), (q_deps r'); cbn in D; try discriminate D; [|reflexivity]. apply texts_bare. congruence.
Qed.
Lemma proper_target p s s' t : proper_name s -> proper_name s' -> qualified_target p s = Some t -> qualified_target p s' = Some t -> s = s'.
Proof.
  unfold proper_name, qualified_target. destruct s as [|c s], s' as [|c' s']; try tauto. intros P P'. unfold ceqb. rewrite (proj2 (Ascii.eqb_neq _ _) P), (proj2 (Ascii.eqb_neq _ _) P'). congruence.
Qed.

(** * Trees in which the same is found *)
Definition rules_equal (rs rs' : list result) : Prop := (forall p t ds, offers p rs t ds <-> offers p rs' t ds) /\
  forall p t, option_map to_follow (find (called_so p t) rs) = option_map to_follow (find (called_so p t) rs').
Definition trees_equal (l l' : list node) : Prop := orel rules_equal (find_targets [] l) (find_targets [] l').
(** Rules moved, and then other places. *)
Definition moved_rules (taken : list node -> list str) (x x' : list node) : Prop := exists m a a2 names,
  x = m ++ a /\ Permutation a a2 /\ statements_alike (m ++ a2) x' /\ Forall2 (plain_rule (taken m)) a names /\ NoDup names /\ Forall proper_name names.
Lemma permuted_rules taken a a2 names : Permutation a a2 -> Forall2 (plain_rule taken) a names -> exists names2, Permutation names names2 /\ Forall2 (plain_rule taken) a2 names2.
Proof.
  intros P. revert names. induction P as [|x l l' P IH|x y l|l l1 l2 P1 IH1 P2 IH2]; intros names F.
  - inversion F; subst. exists []. split; constructor.
  - inversion F; subst. destruct (IH _ H3) as (ns & A & B). eexists (_ :: ns). split; [apply perm_skip, A|constructor; assumption].
  - inversion F; subst. inversion H3; subst. eexists (_ :: _ :: _). split; [apply perm_swap|constructor; [eassumption|constructor; assumption]].
  - destruct (IH1 _ F) as (ns & A & B). destruct (IH2 _ B) as (ns2 & C & D). exists ns2. split; [eapply Permutation_trans; eassumption|exact D].
Qed.
Lemma offers_alike rs rs' : rules_alike rs rs' -> forall p t ds, offers p rs t ds <-> offers p rs' t ds.
Proof.
  intros A p t ds. unfold offers. pose proof (find_alike p t _ _ A) as X. destruct (find _ rs) as [r|], (find _ rs') as [r'|]; try contradiction X; [|split; intros (z & Z & _); discriminate Z].
  split; intros (z & Z & ->); injection Z as <-; eexists; (split; [reflexivity|]); [rewrite (mentioned_alike _ _ X)|rewrite (mentioned_alike _ _ X)]; reflexivity.
Qed.
Lemma follow_alike rs rs' : rules_alike rs rs' -> forall p t, option_map to_follow (find (called_so p t) rs) = option_map to_follow (find (called_so p t) rs').
Proof.
  intros A p t. pose proof (find_alike p t _ _ A) as X. destruct (find _ rs) as [r|], (find _ rs') as [r'|]; try contradiction X; [|reflexivity]. cbn [option_map]. now rewrite (to_follow_alike _ _ X).
Qed.
Lemma combine_unique {A B} (l : list A) : forall (m : list B) x y s, NoDup m -> In (x, s) (combine l m) -> In (y, s) (combine l m) -> x = y.
Proof.
  induction l as [|k l IH]; intros [|s0 m] x y s ND I I'; try (destruct I; fail). apply NoDup_cons_iff in ND as [N ND]. destruct I as [I|I], I' as [I'|I'].
  - congruence.
  - injection I as -> ->. apply in_combine_r in I'. contradiction.
  - injection I' as -> ->. apply in_combine_r in I. contradiction.
  - eapply IH; eassumption.
Qed.
Lemma reported_unique taken vis a names p t : Forall2 (plain_rule taken) a names -> NoDup names -> Forall proper_name names ->
  forall x y, In x (map (reported vis) a) -> In y (map (reported vis) a) -> called_so p t x = true -> called_so p t y = true -> x = y.
Proof.
  intros F ND P x y X Y TX TY. apply in_map_iff in X as (n & <- & X). apply in_map_iff in Y as (n' & <- & Y). f_equal.
  assert (NM : forall n, In n a -> exists s, In (n, s) (combine a names) /\ plain_rule taken n s /\ proper_name s).
  { clear - F P. induction F as [|n s a names N _ IH]; intros k K; [destruct K|]. apply Forall_cons_iff in P as [P1 P2]. destruct K as [<-|K]; [exists s; cbn; auto|].
    destruct (IH P2 k K) as (s2 & A & B & C). exists s2. cbn. auto. }
  destruct (NM n X) as (s & I & N & Q). destruct (NM n' Y) as (s' & I' & N' & Q'). unfold called_so in TX, TY. rewrite (reported_name _ vis _ _ N) in TX. rewrite (reported_name _ vis _ _ N') in TY.
  destruct (qualified_target p s) as [u|] eqn:U; [|discriminate TX]. destruct (qualified_target p s') as [u'|] eqn:U'; [|discriminate TY]. apply target_eqb_eq in TX. apply target_eqb_eq in TY. subst u u'.
  pose proof (proper_target _ _ _ _ Q Q' U U') as S. subst s'. clear - I I' ND. exact (combine_unique _ _ _ _ _ ND I I').
Qed.
Lemma moved_found taken x x' : moved_rules taken x x' -> trees_equal x x'.
Proof.
  intros (m & a & a2 & names & -> & P & A & F & ND & PN). destruct (permuted_rules _ _ _ _ P F) as (names2 & PN2 & F2). unfold trees_equal.
  pose proof (found_rules _ m a names F PN) as E. pose proof (found_rules _ m a2 names2 F2 (Permutation_Forall PN2 PN)) as E2. pose proof (find_statements_alike [] false _ _ A) as E3.
  fold (find_targets [] (m ++ a2)) in E3. fold (find_targets [] x') in E3. destruct (visit_elems _ m _) as [st| |]; rewrite E; rewrite E2 in E3; [|exact E3..].
  destruct (find_targets [] x') as [rs'| |]; try contradiction E3. cbn [orel] in *.
  assert (S : forall p t, find (called_so p t) (f_out st ++ map (reported (f_default_visibility st)) a) = find (called_so p t) (f_out st ++ map (reported (f_default_visibility st)) a2)).
  { intros p t. rewrite !find_app.
    rewrite (find_perm (called_so p t) _ _ (Permutation_map (reported (f_default_visibility st)) P)); [reflexivity|]. apply (reported_unique _ _ _ _ _ _ F ND PN). }
  split; intros p t; [intros ds; rewrite <- (offers_alike _ _ E3); unfold offers|rewrite <- (follow_alike _ _ E3)]; rewrite S; reflexivity.
Qed.

(** * Elaboration *)
Section Elab.
Variable mg : list str -> list str -> list str.
Lemma elems_app a : forall b g, elab_elems (elab mg 0) (a ++ b) g = bind (elab_elems (elab mg 0) a g) (fun x => bind (elab_elems (elab mg 0) b (snd x)) (fun y => Ret (fst x ++ fst y, snd y))).
Proof.
  induction a as [|n a IH]; intros b g; cbn [app elab_elems bind fst snd]; [destruct (elab_elems _ b g) as [[? ?]| |]; reflexivity|].
  destruct (elab mg 0 n g) as [[n1 g1]| |]; cbn [bind]; try reflexivity. rewrite IH. destruct (elab_elems _ a g1) as [[l2 g2]| |]; cbn [bind fst snd]; try reflexivity.
  destruct (elab_elems _ b g2) as [[l3 g3]| |]; reflexivity.
Qed.
Lemma elems_lookup l : forall g m h x, elab_elems (elab mg 0) l g = Ret (m, h) -> ~ In x (flat_map assigned l) -> glookup x h = glookup x g.
Proof.
  induction l as [|n l IH]; intros g m h x E N; cbn [elab_elems] in E; [injection E as _ <-; reflexivity|]. cbn [flat_map] in N. rewrite in_app_iff in N.
  destruct (elab mg 0 n g) as [[n1 g1]| |] eqn:E1; cbn [bind] in E; try discriminate E. destruct (elab_elems _ l g1) as [[l2 g2]| |] eqn:E2; cbn [bind] in E; try discriminate E. injection E as _ <-.
  rewrite (IH _ _ _ x E2) by tauto. eapply elab_frame; [exact E1|tauto].
Qed.
Lemma rule_elaborated taken n name g n' h : plain_rule taken n name -> (forall x, ~ In x taken -> glookup x g = None) -> elab mg 0 n g = Ret (n', h) -> h = g /\ plain_rule [] n' name.
Proof.
  intros (f & ty & args & k & v & raw & fmt & range & -> & AT & I & K & V & T) G E. cbn [elab bind] in E. rewrite in_app_iff in T. rewrite (G (v_text f)) in E by tauto.
  destruct (elab_elems (elab mg 1) args g) as [[m g2]| |] eqn:E2; cbn [bind] in E; try discriminate E.
  assert (H : g2 = g). { apply (elab_level mg 0 (NList ty args) g (NList ty m)). cbn [elab]. rewrite E2. reflexivity. } subst g2.
  destruct (str_eqb (v_text f) ($"glob")) eqn:X; [apply str_eqb_eq in X; exfalso; apply T; left; right; left; congruence|].
  destruct (str_eqb (v_text f) ($"select")) eqn:Y; [apply str_eqb_eq in Y; exfalso; apply T; left; right; right; left; congruence|].
  injection E as <- <-. split; [reflexivity|]. exists f, ty, m, k, v, raw, fmt, range. split; [reflexivity|]. split; [eapply names_attributes; [eapply elems_names; eassumption|exact AT]|].
  split; [|split; [exact K|split; [exact V|rewrite app_nil_r; tauto]]].
  clear - I E2. revert g m g E2. enough (Q : forall g h m, elab_elems (elab mg 1) args g = Ret (m, h) -> In (NAssign (NId k) (NStr v raw fmt) range) m) by eauto.
  induction args as [|a args IH]; intros g h m E; [destruct I|]. cbn [elab_elems] in E. destruct (elab mg 1 a g) as [[a1 g1]| |] eqn:E1; cbn [bind] in E; try discriminate E.
  destruct (elab_elems _ args g1) as [[l2 g2]| |] eqn:E2; cbn [bind] in E; try discriminate E. injection E as <- _. destruct I as [->|I]; [left; cbn in E1; congruence|right; eauto].
Qed.
Lemma rules_elaborated taken a names g : Forall2 (plain_rule taken) a names -> (forall x, ~ In x taken -> glookup x g = None) ->
  forall m h, elab_elems (elab mg 0) a g = Ret (m, h) -> h = g /\ Forall2 (plain_rule []) m names.
Proof.
  intros F G. induction F as [|n name a names N _ IH]; intros m h E; cbn [elab_elems] in E; [injection E as <- <-; split; [reflexivity|constructor]|].
  destruct (elab mg 0 n g) as [[n1 g1]| |] eqn:E1; cbn [bind] in E; try discriminate E. destruct (rule_elaborated _ _ _ _ _ _ N G E1) as [-> N1].
  destruct (elab_elems _ a g) as [[l2 g2]| |] eqn:E2; cbn [bind] in E; try discriminate E. injection E as <- <-. destruct (IH _ _ eq_refl) as [-> F2]. split; [reflexivity|constructor; assumption].
Qed.
Lemma Forall2_cons_inv_l {A B} (R : A -> B -> Prop) x l m : Forall2 R (x :: l) m -> exists y k, R x y /\ Forall2 R l k /\ m = y :: k.
Proof. intros F. inversion F; subst. eauto. Qed.
Lemma rules_perm taken a a2 : Permutation a a2 -> forall names g, Forall2 (plain_rule taken) a names -> (forall x, ~ In x taken -> glookup x g = None) ->
  orel (fun x x' => Permutation (fst x) (fst x') /\ snd x = snd x') (elab_elems (elab mg 0) a g) (elab_elems (elab mg 0) a2 g).
Proof.
  induction 1 as [|a l l' P IH|a b l|l l1 l2 P1 IH1 P2 IH2]; intros names g F G; cbn [elab_elems].
  - split; auto.
  - apply Forall2_cons_inv_l in F as (s1 & ns1 & R1 & F & ->). destruct (elab mg 0 a g) as [[x h]| |] eqn:A; cbn [bind]; try exact I. destruct (rule_elaborated _ _ _ _ _ _ R1 G A) as [-> _].
    eapply orel_bind; [eapply IH; eassumption|]. intros [m k] [m' k'] [M K]. cbn [fst snd orel] in *. auto.
  - apply Forall2_cons_inv_l in F as (s1 & ns1 & R1 & F & ->). apply Forall2_cons_inv_l in F as (s2 & ns2 & R2 & F & ->). destruct (elab mg 0 a g) as [[x h]| |] eqn:A; destruct (elab mg 0 b g) as [[y k]| |] eqn:B;
      try (exfalso; exact (elab_fuel _ _ _ _ A)); try (exfalso; exact (elab_fuel _ _ _ _ B)); cbn [bind];
      try (destruct (rule_elaborated _ _ _ _ _ _ R2 G A) as [-> _]); try (destruct (rule_elaborated _ _ _ _ _ _ R1 G B) as [-> _]); rewrite ?A, ?B; cbn [bind]; try exact I.
    destruct (elab_elems (elab mg 0) l g) as [[m q]| |]; cbn [bind orel fst snd]; auto. split; [apply perm_swap|reflexivity].
  - destruct (permuted_rules _ _ _ _ P1 F) as (ns & _ & F1). specialize (IH1 _ g F G). specialize (IH2 _ g F1 G).
    destruct (elab_elems _ l g) as [[m q]| |], (elab_elems _ l1 g) as [[m1 q1]| |], (elab_elems _ l2 g) as [[m2 q2]| |]; cbn [orel fst snd] in *; try contradiction; auto.
    destruct IH1 as [X1 X2], IH2 as [Y1 Y2]. split; [eapply Permutation_trans; eassumption|congruence].
Qed.
Lemma moved_elaborated x x' : moved_rules (flat_map assigned) x x' -> orel trees_equal (elaborate mg x) (elaborate mg x').
Proof.
  intros (m & a & a2 & names & -> & P & A & F & ND & PN). pose proof (elaborate_statements_alike mg _ _ A) as E. unfold elaborate in E at 1. unfold elaborate at 1. rewrite elems_app in *.
  destruct (elab_elems (elab mg 0) m []) as [[m1 g1]| |] eqn:E1; cbn [bind fst snd] in *; [|exact E..].
  assert (G : forall y, ~ In y (flat_map assigned m) -> glookup y g1 = None) by (intros y Y; rewrite (elems_lookup _ _ _ _ y E1 Y); reflexivity).
  pose proof (rules_perm _ _ _ P names g1 F G) as R. destruct (elab_elems _ a g1) as [[b h]| |] eqn:EA, (elab_elems _ a2 g1) as [[b2 h2]| |]; cbn [orel bind fst snd] in *; try contradiction R; auto.
  destruct R as [R _]. destruct (elaborate mg x') as [y'| |]; try contradiction E. destruct (rules_elaborated _ _ _ _ F G _ _ EA) as [_ F1].
  apply (moved_found (fun _ => [])). exists m1, b, b2, names. auto 8.
Qed.
End Elab.

(** * Texts *)
Definition texts_equal (c c' : str) : Prop := orel (fun x x' => trees_equal (fst x) (fst x') /\ forall mg, orel trees_equal (elaborate mg (fst x)) (elaborate mg (fst x'))) (parse c) (parse c').
Lemma orel_refl {A} (R : A -> A -> Prop) x : (forall a, R a a) -> orel R x x.
Proof. intros H. destruct x; cbn; auto. Qed.
Lemma orel_sym {A} (R : A -> A -> Prop) x y : (forall a b, R a b -> R b a) -> orel R x y -> orel R y x.
Proof. intros H. destruct x, y; cbn; auto. Qed.
Lemma trees_refl l : trees_equal l l.
Proof. apply orel_refl. intros rs. split; reflexivity. Qed.
Lemma trees_sym l l' : trees_equal l l' -> trees_equal l' l.
Proof. apply orel_sym. intros rs rs' [E F]. split; intros p t; [intros ds|]; symmetry; [apply E|apply F]. Qed.
Lemma texts_refl c : texts_equal c c.
Proof. apply orel_refl. intros x. split; [apply trees_refl|]. intros mg. apply orel_refl, trees_refl. Qed.
Lemma texts_sym c c' : texts_equal c c' -> texts_equal c' c.
Proof. apply orel_sym. intros x x' [A B]. split; [apply trees_sym, A|]. intros mg. apply orel_sym; [apply trees_sym|apply B]. Qed.
Lemma moved_texts c c' : moved c c' -> texts_equal c c'.
Proof.
  intros (m & a & m' & a' & names & E & E' & B & P & F & ND & PN). unfold texts_equal. rewrite E, E'. cbn [orel fst].
  apply Permutation_sym in P. destruct (Permutation_map_inv _ _ P) as (a2 & X & Y).
  assert (M : moved_rules (flat_map assigned) (m ++ a) (m' ++ a')).
  { exists m, a, a2, names. repeat split; auto. apply bare_statements. rewrite !map_app. congruence. }
  split; [eapply moved_found, M|]. intros mg. apply moved_elaborated, M.
Qed.
