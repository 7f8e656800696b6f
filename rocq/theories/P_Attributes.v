(** Elaboration and queries of statements that differ in places and the order of attributes. *)
From Coq Require Import Lia Permutation.
From Verif Require Import Base OMap M_Types M_Scanner M_Ast M_Parser M_Query M_Elab M_Workspace M_Project S_Layout S_Attributes P_Elab P_Project P_LayoutMean.

(** Outcomes related by [R]. *)
Definition orel {A} (R : A -> A -> Prop) (x x' : outcome A) : Prop :=
  match x, x' with Ret a, Ret a' => R a a' | UB, UB | OutOfFuel, OutOfFuel => True | _, _ => False end.
Lemma orel_bind {A C} (R : A -> A -> Prop) (Q : C -> C -> Prop) r r' k k' : orel R r r' -> (forall a a', R a a' -> orel Q (k a) (k' a')) -> orel Q (bind r k) (bind r' k').
Proof. destruct r, r'; cbn [orel bind]; intros E H; try contradiction E; auto. Qed.
Lemma bind_rel {A C} (R : A -> A -> Prop) r r' (k k' : A -> outcome C) : orel R r r' -> (forall a a', R a a' -> k a = k' a') -> bind r k = bind r' k'.
Proof. destruct r, r'; cbn [orel bind]; intros E H; try contradiction E; auto. Qed.
Lemma orel_seen {A B} (f : A -> B) x x' : seen f x = seen f x' <-> orel (fun a a' => f a = f a') x x'.
Proof. destruct x, x'; cbn [seen orel]; split; intros E; try discriminate E; try contradiction E; auto; [now injection E|congruence]. Qed.
Lemma orel_eq {A} (x x' : outcome A) : orel eq x x' <-> x = x'.
Proof. destruct x, x'; cbn [orel]; split; intros E; try discriminate E; try contradiction E; auto; [congruence|now injection E]. Qed.

(** The parts of a rule. *)
Record rule_alike (r r' : result) : Prop := mkAlike {
  al_node : node_alike (q_node r) (q_node r');
  al_rule : v_text (q_rule r) = v_text (q_rule r');
  al_name : v_text (q_name r) = v_text (q_name r');
  al_actual : v_text (q_actual r) = v_text (q_actual r');
  al_prefix : v_text (q_include_prefix r) = v_text (q_include_prefix r');
  al_strip : v_text (q_strip_include_prefix r) = v_text (q_strip_include_prefix r');
  al_version : v_text (q_version r) = v_text (q_version r');
  al_repo : v_text (q_repo_name r) = v_text (q_repo_name r');
  al_deprecation : v_text (q_deprecation r) = v_text (q_deprecation r');
  al_alwayslink : q_alwayslink r = q_alwayslink r';
  al_testonly : q_testonly r = q_testonly r';
  al_srcs : bare_list (q_srcs r) = bare_list (q_srcs r');
  al_hdrs : bare_list (q_hdrs r) = bare_list (q_hdrs r');
  al_textual : bare_list (q_textual_hdrs r) = bare_list (q_textual_hdrs r');
  al_public : bare_list (q_public_hdrs r) = bare_list (q_public_hdrs r');
  al_deps : bare_list (q_deps r) = bare_list (q_deps r');
  al_includes : bare_list (q_includes r) = bare_list (q_includes r');
  al_outs : bare_list (q_outs r) = bare_list (q_outs r');
  al_visibility : bare_list (q_visibility r) = bare_list (q_visibility r') }.
Lemma bare_rule r r' : bare_result r = bare_result r' -> rule_alike r r'.
Proof.
  intros E. constructor.
  - left. exact (f_equal q_node E).
  - exact (f_equal (fun r => v_text (q_rule r)) E).
  - exact (f_equal (fun r => v_text (q_name r)) E).
  - exact (f_equal (fun r => v_text (q_actual r)) E).
  - exact (f_equal (fun r => v_text (q_include_prefix r)) E).
  - exact (f_equal (fun r => v_text (q_strip_include_prefix r)) E).
  - exact (f_equal (fun r => v_text (q_version r)) E).
  - exact (f_equal (fun r => v_text (q_repo_name r)) E).
  - exact (f_equal (fun r => v_text (q_deprecation r)) E).
  - exact (f_equal q_alwayslink E).
  - exact (f_equal q_testonly E).
  - exact (f_equal q_srcs E).
  - exact (f_equal q_hdrs E).
  - exact (f_equal q_textual_hdrs E).
  - exact (f_equal q_public_hdrs E).
  - exact (f_equal q_deps E).
  - exact (f_equal q_includes E).
  - exact (f_equal q_outs E).
  - exact (f_equal q_visibility E).
Qed.
Definition rules_alike (rs rs' : list result) : Prop := Forall2 rule_alike rs rs'.
Lemma bare_rules rs : forall rs', map bare_result rs = map bare_result rs' -> rules_alike rs rs'.
Proof. induction rs as [|r rs IH]; intros [|r' rs'] E; try discriminate E; [constructor|]. apply map_cons_inv in E as [E1 E2]. constructor; [apply bare_rule, E1|apply IH, E2]. Qed.
Lemma node_self n : node_alike n n.
Proof. left. reflexivity. Qed.
Lemma rule_self r : rule_alike r r.
Proof. constructor; try reflexivity. apply node_self. Qed.

(** * Queries *)
Lemma set_scalar_alike k b v v' z r r' : v_text v = v_text v' -> rule_alike r r' -> rule_alike (set_scalar k b v z r) (set_scalar k b v' z r').
Proof.
  intros V A. destruct r, r'. destruct A as [A1 A2 A3 A4 A5 A6 A7 A8 A9 A10 A11 A12 A13 A14 A15 A16 A17 A18 A19]. cbn in A1, A2, A3, A4, A5, A6, A7, A8, A9, A10, A11, A12, A13, A14, A15, A16, A17, A18, A19.
  unfold set_scalar. repeat (destruct (str_eqb k _); [constructor; cbn; auto|]). constructor; cbn; auto.
Qed.
Lemma set_list_alike k l l' r r' : map bare l = map bare l' -> rule_alike r r' -> rule_alike (set_list k l r) (set_list k l' r').
Proof.
  intros V A. assert (V' : bare_list (Some l) = bare_list (Some l')) by (cbn; congruence). destruct r, r'. destruct A as [A1 A2 A3 A4 A5 A6 A7 A8 A9 A10 A11 A12 A13 A14 A15 A16 A17 A18 A19].
  cbn in A1, A2, A3, A4, A5, A6, A7, A8, A9, A10, A11, A12, A13, A14, A15, A16, A17, A18, A19.
  unfold set_list. repeat (destruct (str_eqb k _); [constructor; cbn; auto|]). constructor; cbn; auto.
Qed.
Lemma set_identifier_alike k i r r' : rule_alike r r' -> rule_alike (set_identifier k i r) (set_identifier k i r').
Proof.
  intros A. destruct r, r'. destruct A as [A1 A2 A3 A4 A5 A6 A7 A8 A9 A10 A11 A12 A13 A14 A15 A16 A17 A18 A19]. cbn in A1, A2, A3, A4, A5, A6, A7, A8, A9, A10, A11, A12, A13, A14, A15, A16, A17, A18, A19.
  unfold set_identifier. repeat (destruct (str_eqb k _); [constructor; cbn; auto|]). constructor; cbn; auto.
Qed.
Lemma extract_query_alike l l' v v' r r' : bare l = bare l' -> bare v = bare v' -> rule_alike r r' -> rule_alike (extract_query_info l v r) (extract_query_info l' v' r').
Proof.
  intros L V R. unfold extract_query_info. destruct l, l'; cbn [bare] in L; try discriminate L; try exact R. injection L as L _. rewrite L.
  destruct v, v'; cbn [bare] in V; try discriminate V; try exact R.
  - apply set_scalar_alike; [apply bare_view_text; congruence|exact R].
  - assert (z = z0) as -> by congruence. apply set_scalar_alike; [apply bare_view_text; congruence|exact R].
  - injection V as V _. rewrite V. apply set_identifier_alike, R.
  - apply set_list_alike; [congruence|exact R].
Qed.
Record finder_alike (st st' : finder) : Prop := mkFinderAlike {
  fa_rel : f_rel st = f_rel st';
  fa_cur : rule_alike (f_cur st) (f_cur st');
  fa_visibility : bare_list (f_default_visibility st) = bare_list (f_default_visibility st');
  fa_out : rules_alike (f_out st) (f_out st') }.
Section Finder.
Variable of_interest : list str.
Variable allow_empty : bool.
Lemma inform_alike st st' : finder_alike st st' -> finder_alike (inform_caller allow_empty st) (inform_caller allow_empty st').
Proof.
  intros S. pose proof S as [RL CU VI OUT]. unfold inform_caller. rewrite (al_name _ _ CU). destruct (negb allow_empty && _); [exact S|].
  destruct (f_cur st), (f_cur st'). destruct CU as [A1 A2 A3 A4 A5 A6 A7 A8 A9 A10 A11 A12 A13 A14 A15 A16 A17 A18 A19]. cbn in A1, A2, A3, A4, A5, A6, A7, A8, A9, A10, A11, A12, A13, A14, A15, A16, A17, A18, A19.
  rewrite A2. assert (NIL : forall o o', bare_list o = bare_list o' -> is_nil (opt_elems o) = is_nil (opt_elems o')) by (intros [[|]|] [[|]|] X; try discriminate X; reflexivity).
  rewrite (NIL _ _ A13). match goal with |- finder_alike (mkFinder _ ?x _ _) (mkFinder _ ?y _ _) => assert (R : rule_alike x y) end.
  { constructor; cbn; auto; [now rewrite A10|]. match goal with H : bare_list ?a = bare_list ?b |- bare_list (match ?a with _ => _ end) = _ => destruct a, b; try discriminate H; assumption end. }
  constructor; cbn [f_rel f_cur f_default_visibility f_out]; auto. apply Forall2_app; [exact OUT|]. constructor; [exact R|constructor].
Qed.
Lemma visit_elems_alike (f f' : node -> finder -> outcome finder) l : forall l' st st',
  Forall (fun n => forall n' st st', bare n = bare n' -> finder_alike st st' -> orel finder_alike (f n st) (f' n' st')) l ->
  map bare l = map bare l' -> finder_alike st st' -> orel finder_alike (visit_elems f l st) (visit_elems f' l' st').
Proof.
  induction l as [|n l IH]; intros [|n' l'] st st' F E S; try discriminate E; [exact S|].
  apply map_cons_inv in E as [E1 E2]. apply Forall_cons_iff in F as [F1 F2]. cbn [visit_elems].
  eapply orel_bind; [apply F1; assumption|]. intros a a' A. apply IH; assumption.
Qed.
Lemma call_alike v v' ty al ty' al' st st' : bare_view v = bare_view v' -> node_alike (NCall (NId v) (NList ty al)) (NCall (NId v') (NList ty' al')) ->
  (forall s s', finder_alike s s' -> orel finder_alike (visit_elems (visit of_interest allow_empty) al s) (visit_elems (visit of_interest allow_empty) al' s')) ->
  finder_alike st st' -> orel finder_alike (visit of_interest allow_empty (NCall (NId v) (NList ty al)) st) (visit of_interest allow_empty (NCall (NId v') (NList ty' al')) st').
Proof.
  intros V N H S. pose proof S as [RL CU VI OUT]. cbn [visit]. rewrite RL. destruct (f_rel st'); [|apply H, S|apply H, S]. rewrite (bare_view_text _ _ V).
  assert (K : forall rel, finder_alike (mkFinder rel (empty_result (NCall (NId v) (NList ty al)) v) (f_default_visibility st) (f_out st))
      (mkFinder rel (empty_result (NCall (NId v') (NList ty' al')) v') (f_default_visibility st') (f_out st'))).
  { intros rel. constructor; cbn [f_rel f_cur f_default_visibility f_out]; auto. unfold empty_result. constructor; cbn [q_node q_rule]; try reflexivity; [exact N|apply bare_view_text, V]. }
  destruct (is_relevant of_interest (v_text v')); [exact S|..].
  - eapply orel_bind; [apply H, K|]. intros a a' A. apply inform_alike in A as [B1 B2 B3 B4]. constructor; auto.
  - eapply orel_bind; [apply H, K|]. intros a a' [B1 B2 B3 B4]. constructor; auto.
Qed.
Lemma visit_alike n : forall n' st st', bare n = bare n' -> finder_alike st st' -> orel finder_alike (visit of_interest allow_empty n st) (visit of_interest allow_empty n' st').
Proof.
  induction n as [|v t r|v z|v|op n IH|op l r rg IHl IHr|ty l IH|ty f IH|c p n IHc IHp IHn|l r rg IHl IHr|i ar IHi IHa] using node_ind';
    intros n' st st' E S; destruct n' as [|v' t' r'|v' z'|v'|op' n'|op' l' r' rg'|ty' l'|ty' f'|c' p' n'|l' r' rg'|i' ar']; cbn [bare] in E; try discriminate E; cbn [visit];
    try exact S.
  - injection E as _ E. apply IH; assumption.
  - injection E as _ E1 E2. eapply orel_bind; [apply IHl; eassumption|]. intros a a' A. apply IHr; assumption.
  - injection E as _ E. apply visit_elems_alike; assumption.
  - injection E as _ E. apply IH; assumption.
  - injection E as E1 E2 E3. eapply orel_bind; [apply IHc; eassumption|]. intros a a' A. eapply orel_bind; [apply IHp; eassumption|]. intros b b' B. apply IHn; assumption.
  - injection E as E1 E2. pose proof S as [A B C D]. rewrite A. cbn [orel]. destruct (f_rel st').
    + exact S.
    + constructor; cbn [f_rel f_cur f_default_visibility f_out]; auto. apply extract_query_alike; assumption.
    + constructor; cbn [f_rel f_cur f_default_visibility f_out]; auto. apply extract_package_bare; assumption.
  - pose proof E as E0. injection E as E1 E2. pose proof S as [A B C D]. rewrite A. destruct (f_rel st') eqn:RL; [|apply IHa; assumption|apply IHa; assumption].
    destruct i, i'; cbn [bare] in E1; try discriminate E1; try exact I. assert (V : bare_view v = bare_view v0) by congruence.
    destruct ar as [| | | | | |ta la| | | |], ar' as [| | | | | |tb lb| | | |]; cbn [bare] in E2; try discriminate E2; try (rewrite (bare_view_text _ _ V); destruct (is_relevant of_interest (v_text v0)); first [exact S|exact I]).
    pose proof (call_alike v v0 ta la tb lb st st' V (or_introl E0)) as CA. cbn [visit] in CA. rewrite A, RL in CA. apply CA; [|exact S]. intros s s' SS.
    pose proof (IHa (NList tb lb) s s' E2 SS) as X. exact X.
Qed.

(** ** Attributes in any order *)
Definition visit_attribute (st : finder) (a : node) : finder :=
  match a with
  | NAssign l r _ =>
      match f_rel st with
      | PackageInfo => mkFinder (f_rel st) (f_cur st) (extract_package_info l r (f_default_visibility st)) (f_out st)
      | UserQuery => mkFinder (f_rel st) (extract_query_info l r (f_cur st)) (f_default_visibility st) (f_out st)
      | NotRelevant => st
      end
  | _ => st
  end.
Lemma attribute_inv n k : attribute_name n = Some k -> exists v r g, n = NAssign (NId v) r g /\ v_text v = k.
Proof. destruct n as [| | | | | | | | |l r g|]; try discriminate. destruct l as [| | |v| | | | | | |]; try discriminate. cbn. intros E. injection E as <-. eauto. Qed.
Lemma attributes_cons a l : attributes (a :: l) -> exists k, attribute_name a = Some k /\ attributes l /\ (forall b, In b l -> attribute_name b <> Some k).
Proof.
  intros (names & E & ND). destruct names as [|k names]; [discriminate E|]. cbn [map] in E. injection E as E1 E2. apply NoDup_cons_iff in ND as [N1 N2]. exists k. split; [exact E1|]. split; [exists names; auto|].
  intros b B X. apply N1. apply (in_map attribute_name) in B. rewrite E2, X in B. apply in_map_iff in B as (z & Z & B). injection Z as ->. exact B.
Qed.
Lemma attributes_perm l l' : Permutation l l' -> attributes l -> attributes l'.
Proof.
  intros P (names & E & ND). apply (Permutation_map attribute_name) in P. rewrite E in P. apply Permutation_sym in P.
  destruct (Permutation_map_inv _ _ P) as (names' & E' & P'). exists names'. split; [exact E'|]. apply (Permutation_NoDup P'), ND.
Qed.
Lemma visit_attributes args : attributes args -> forall st, visit_elems (visit of_interest allow_empty) args st = Ret (fold_left visit_attribute args st).
Proof.
  induction args as [|a args IH]; intros AT st; [reflexivity|]. apply attributes_cons in AT as (k & K & AT & _). apply attribute_inv in K as (v & r & g & -> & K). cbn [visit_elems visit bind fold_left visit_attribute].
  rewrite (IH AT). reflexivity.
Qed.
End Finder.
Ltac apart := repeat match goal with H : str_eqb _ _ = true |- _ => apply str_eqb_eq in H end; subst; try congruence.
Ltac keys k1 k2 :=
  repeat match goal with |- context [str_eqb k1 ?s] => destruct (str_eqb k1 s) eqn:? end;
  repeat match goal with |- context [str_eqb k2 ?s] => destruct (str_eqb k2 s) eqn:? end; try reflexivity; apart.
Lemma scalars_swap k1 k2 b1 b2 v1 v2 z1 z2 r : k1 <> k2 -> set_scalar k1 b1 v1 z1 (set_scalar k2 b2 v2 z2 r) = set_scalar k2 b2 v2 z2 (set_scalar k1 b1 v1 z1 r).
Proof. intros D. destruct r. unfold set_scalar. keys k1 k2. Qed.
Lemma lists_swap k1 k2 l1 l2 r : k1 <> k2 -> set_list k1 l1 (set_list k2 l2 r) = set_list k2 l2 (set_list k1 l1 r).
Proof. intros D. destruct r. unfold set_list. keys k1 k2. Qed.
Lemma identifiers_swap k1 k2 i1 i2 r : k1 <> k2 -> set_identifier k1 i1 (set_identifier k2 i2 r) = set_identifier k2 i2 (set_identifier k1 i1 r).
Proof. intros D. destruct r. unfold set_identifier. keys k1 k2. Qed.
Lemma scalar_list_swap k1 k2 b v z l r : set_scalar k1 b v z (set_list k2 l r) = set_list k2 l (set_scalar k1 b v z r).
Proof. destruct r. unfold set_scalar, set_list. keys k1 k2. Qed.
Lemma scalar_identifier_swap k1 k2 b v z i r : k1 <> k2 -> set_scalar k1 b v z (set_identifier k2 i r) = set_identifier k2 i (set_scalar k1 b v z r).
Proof. intros D. destruct r. unfold set_scalar, set_identifier. keys k1 k2. Qed.
Lemma list_identifier_swap k1 k2 l i r : set_list k1 l (set_identifier k2 i r) = set_identifier k2 i (set_list k1 l r).
Proof. destruct r. unfold set_list, set_identifier. keys k1 k2. Qed.
Lemma query_swap v1 v2 x y r : v_text v1 <> v_text v2 -> extract_query_info (NId v1) x (extract_query_info (NId v2) y r) = extract_query_info (NId v2) y (extract_query_info (NId v1) x r).
Proof.
  intros D. assert (D' : v_text v2 <> v_text v1) by congruence. unfold extract_query_info. destruct x, y; try reflexivity;
    first [now apply scalars_swap|now apply lists_swap|now apply identifiers_swap|apply scalar_list_swap|symmetry; apply scalar_list_swap|now apply scalar_identifier_swap|symmetry; now apply scalar_identifier_swap
          |apply list_identifier_swap|symmetry; apply list_identifier_swap].
Qed.
Lemma package_swap v1 v2 x y d : v_text v1 <> v_text v2 -> extract_package_info (NId v1) x (extract_package_info (NId v2) y d) = extract_package_info (NId v2) y (extract_package_info (NId v1) x d).
Proof.
  intros D. unfold extract_package_info. destruct x, y; try reflexivity. destruct (str_eqb (v_text v1) _) eqn:A, (str_eqb (v_text v2) _) eqn:B; try reflexivity. apply str_eqb_eq in A. apply str_eqb_eq in B. congruence.
Qed.
Lemma attribute_swap a b k st : attribute_name a = Some k -> attribute_name b <> Some k -> attribute_name b <> None ->
  visit_attribute (visit_attribute st a) b = visit_attribute (visit_attribute st b) a.
Proof.
  intros A B N. apply attribute_inv in A as (v & x & g & -> & <-). destruct (attribute_name b) as [k'|] eqn:B'; [|congruence]. apply attribute_inv in B' as (v' & x' & g' & -> & <-).
  assert (D : v_text v' <> v_text v) by congruence. cbn [visit_attribute]. destruct (f_rel st) eqn:R; cbn [f_rel f_cur f_default_visibility f_out]; rewrite ?R; try reflexivity; cbn [f_rel f_cur f_default_visibility f_out].
  - now rewrite query_swap.
  - now rewrite package_swap.
Qed.
Lemma attributes_some l : attributes l -> forall b, In b l -> attribute_name b <> None.
Proof. intros (names & E & _) b B. apply (in_map attribute_name) in B. rewrite E in B. apply in_map_iff in B as (x & X & _). congruence. Qed.
Lemma attributes_fold l l' : Permutation l l' -> attributes l -> forall st, fold_left visit_attribute l st = fold_left visit_attribute l' st.
Proof.
  induction 1 as [|a l l' P IH|a b l|l l1 l2 P1 IH1 P2 IH2]; intros AT st; cbn [fold_left]; [reflexivity|..].
  - apply attributes_cons in AT as (k & _ & AT & _). apply IH, AT.
  - pose proof (attributes_some _ AT a (or_intror (or_introl eq_refl))) as N. apply attributes_cons in AT as (k & K & _ & D). rewrite (attribute_swap b a k st K (D a (or_introl eq_refl)) N). reflexivity.
  - rewrite (IH1 AT). apply IH2. apply (attributes_perm _ _ P1), AT.
Qed.
(** What [reordered] says about statements with places. *)
Lemma reordered_inv n n' : reordered (bare n) (bare n') -> exists v v' ty al al2 al', n = NCall (NId v) (NList ty al) /\ n' = NCall (NId v') (NList ty al') /\ bare_view v = bare_view v' /\
  attributes al /\ Permutation al al2 /\ map bare al2 = map bare al'.
Proof.
  intros (f & ty & args & args' & E & E' & AT & P). destruct n as [| | | | | | | | | |i ar]; cbn [bare] in E; try discriminate E. destruct n' as [| | | | | | | | | |i' ar']; cbn [bare] in E'; try discriminate E'.
  injection E as E1 E2. injection E' as E3 E4. destruct i as [| | |v| | | | | | |]; cbn [bare] in E1; try discriminate E1. destruct i' as [| | |v'| | | | | | |]; cbn [bare] in E3; try discriminate E3.
  destruct ar as [| | | | | |ta la| | | |]; cbn [bare] in E2; try discriminate E2. destruct ar' as [| | | | | |tb lb| | | |]; cbn [bare] in E4; try discriminate E4.
  assert (ta = ty) as -> by congruence. assert (tb = ty) as -> by congruence. assert (L : map bare la = args) by congruence. assert (L' : map bare lb = args') by congruence. subst args args'.
  apply Permutation_sym in P. destruct (Permutation_map_inv _ _ P) as (al2 & X & Y). exists v, v', ty, la, al2, lb. repeat split; auto; [congruence|].
  destruct AT as (names & N & ND). exists names. split; [|exact ND]. rewrite <- N, map_map. apply map_ext. intros a. destruct a as [| | | | | | | | |l r g|]; try reflexivity. destruct l; reflexivity.
Qed.
Lemma visit_statement_alike i a n n' st st' : node_alike n n' -> finder_alike st st' -> orel finder_alike (visit i a n st) (visit i a n' st').
Proof.
  intros [E|R] S; [apply visit_alike; assumption|]. pose proof R as R0. apply reordered_inv in R as (v & v' & ty & al & al2 & al' & -> & -> & V & AT & P & E).
  apply call_alike; [exact V|right; exact R0| |exact S]. intros s s' SS. rewrite (visit_attributes i a al AT), (attributes_fold _ _ P AT), <- (visit_attributes i a al2); [|apply (attributes_perm _ _ P), AT].
  apply visit_elems_alike; [|exact E|exact SS]. apply Forall_forall. intros n _ n' t t'. apply visit_alike.
Qed.
Theorem find_statements_alike i a l l' : statements_alike l l' -> orel rules_alike (find_targets_in i a l) (find_targets_in i a l').
Proof.
  intros F. unfold find_targets_in. eapply (orel_bind finder_alike); [|intros st st' S; exact (fa_out _ _ S)]. cbn [visit].
  assert (S : finder_alike initial_finder initial_finder) by (constructor; try reflexivity; [apply rule_self|constructor]).
  revert S. generalize initial_finder at 1 3. generalize initial_finder. induction F as [|n n' l l' N _ IH]; intros st' st S; cbn [visit_elems]; [exact S|].
  eapply orel_bind; [apply visit_statement_alike; eassumption|]. intros t t' T. apply IH, T.
Qed.

(** * Elaboration *)
Section Elab.
Variable mg : list str -> list str -> list str.
(** The elements one by one, where they do not change the variables. *)
Lemma elems_perm level l l' : Permutation l l' -> forall g,
  orel (fun x x' => Permutation (fst x) (fst x') /\ snd x = snd x') (elab_elems (elab mg (S level)) l g) (elab_elems (elab mg (S level)) l' g).
Proof.
  induction 1 as [|a l l' P IH|a b l|l l1 l2 P1 IH1 P2 IH2]; intros g; cbn [elab_elems].
  - split; auto.
  - destruct (elab mg (S level) a g) as [[x h]| |] eqn:A; cbn [bind]; try exact I. eapply orel_bind; [apply IH|]. intros [m k] [m' k'] [M K]. cbn [fst snd orel] in *. auto.
  - destruct (elab mg (S level) a g) as [[x h]| |] eqn:A; destruct (elab mg (S level) b g) as [[y k]| |] eqn:B;
      try (exfalso; exact (elab_fuel _ _ _ _ A)); try (exfalso; exact (elab_fuel _ _ _ _ B)); cbn [bind];
      try (apply elab_level in A as A2; subst h); try (apply elab_level in B as B2; subst k); rewrite ?A, ?B; cbn [bind]; try exact I.
    destruct (elab_elems (elab mg (S level)) l g) as [[m q]| |]; cbn [bind orel fst snd]; auto. split; [apply perm_swap|reflexivity].
  - specialize (IH1 g). specialize (IH2 g). destruct (elab_elems _ l g) as [[m q]| |], (elab_elems _ l1 g) as [[m1 q1]| |], (elab_elems _ l2 g) as [[m2 q2]| |]; cbn [orel fst snd] in *; try contradiction; auto.
    destruct IH1 as [X1 X2], IH2 as [Y1 Y2]. split; [eapply Permutation_trans; eassumption|congruence].
Qed.
Lemma elems_names level l : forall g m g', attributes l -> elab_elems (elab mg level) l g = Ret (m, g') -> map attribute_name m = map attribute_name l.
Proof.
  induction l as [|a l IH]; intros g m g' AT E; cbn [elab_elems] in E; [now injection E as <- _|]. apply attributes_cons in AT as (k & K & AT & _). apply attribute_inv in K as (v & r & rg & -> & K).
  cbn [elab] in E. destruct (elab mg level r g) as [[r1 g1]| |]; cbn [bind] in E; try discriminate E. destruct (elab_elems _ l _) as [[m1 g2]| |] eqn:E2; cbn [bind] in E; try discriminate E. injection E as <- _.
  cbn [map attribute_name]. f_equal. eapply IH; eassumption.
Qed.
Lemma glob_perm l l' : Permutation l l' -> attributes l -> forall i e, glob_args l i e = glob_args l' i e.
Proof.
  induction 1 as [|a l l' P IH|a b l|l l1 l2 P1 IH1 P2 IH2]; intros AT i e; [reflexivity|..].
  - apply attributes_cons in AT as (k & K & AT & _). apply attribute_inv in K as (v & r & rg & -> & K). cbn [glob_args cast_list bind].
    destruct (str_eqb _ _); [destruct (cast_list r); cbn [bind]; auto|]. destruct (str_eqb _ _); [destruct (cast_list r); cbn [bind]; auto|]. apply IH, AT.
  - pose proof (attributes_cons _ _ AT) as (k & K & AT2 & D). pose proof (attributes_cons _ _ AT2) as (k2 & K2 & _ & _). assert (N : k2 <> k) by (intros ->; exact (D a (or_introl eq_refl) K2)).
    apply attribute_inv in K as (v & r & rg & -> & <-). apply attribute_inv in K2 as (v2 & r2 & rg2 & -> & <-). cbn [glob_args cast_list bind].
    destruct (str_eqb (v_text v) ($"include")) eqn:A1; destruct (str_eqb (v_text v2) ($"include")) eqn:B1; try (apply str_eqb_eq in A1; apply str_eqb_eq in B1; congruence);
      destruct (str_eqb (v_text v) ($"exclude")) eqn:A2; destruct (str_eqb (v_text v2) ($"exclude")) eqn:B2; try (apply str_eqb_eq in A2; apply str_eqb_eq in B2; congruence); try reflexivity;
      destruct r, r2; reflexivity.
  - rewrite (IH1 AT). apply IH2. apply (attributes_perm _ _ P1), AT.
Qed.
Lemma select_attributes l : attributes l -> handle_select l = Ret None.
Proof.
  induction l as [|a l IH]; intros AT; [reflexivity|]. apply attributes_cons in AT as (k & K & AT & _). apply attribute_inv in K as (v & r & rg & -> & K). cbn [handle_select cast_list bind]. apply IH, AT.
Qed.
Lemma names_attributes l m : map attribute_name m = map attribute_name l -> attributes l -> attributes m.
Proof. intros E (names & N & ND). exists names. split; [congruence|exact ND]. Qed.
Lemma names_bare l : map attribute_name (map bare l) = map attribute_name l.
Proof. rewrite map_map. apply map_ext. intros a. destruct a as [| | | | | | | | |x r g|]; try reflexivity. destruct x; reflexivity. Qed.
Definition states_rel (x x' : node * genv) : Prop := node_alike (fst x) (fst x') /\ bare_env (snd x) = bare_env (snd x').
Lemma elab_statement_alike n n' g g' : node_alike n n' -> bare_env g = bare_env g' -> orel states_rel (elab mg 0 n g) (elab mg 0 n' g').
Proof.
  intros [E|R] G.
  - pose proof (elab_bare mg n 0 n' g g' E G) as X. apply orel_seen in X. destruct (elab mg 0 n g) as [[m h]| |], (elab mg 0 n' g') as [[m' h']| |]; cbn [orel] in *; try contradiction X; auto.
    apply pair_equal_spec in X as [X1 X2]. split; [left|]; assumption.
  - apply reordered_inv in R as (v & v' & ty & al & al2 & al' & -> & -> & V & AT & P & E). cbn [elab bind].
    assert (ID : bare (match glookup (v_text v) g with Some m => m | None => NId v end) = bare (match glookup (v_text v') g' with Some m => m | None => NId v' end)).
    { rewrite (bare_view_text _ _ V). pose proof (glookup_bare (v_text v') _ _ G) as L. destruct (glookup (v_text v') g), (glookup (v_text v') g'); try discriminate L; [cbn in L; congruence|cbn [bare]; congruence]. }
    revert ID. generalize (match glookup (v_text v) g with Some m => m | None => NId v end) as id. generalize (match glookup (v_text v') g' with Some m => m | None => NId v' end) as id'. intros id' id ID.
    assert (H : orel (fun x x' => exists m2, Permutation (fst x) m2 /\ map bare m2 = map bare (fst x') /\ attributes (fst x) /\ bare_env (snd x) = bare_env (snd x')) (elab_elems (elab mg 1) al g) (elab_elems (elab mg 1) al' g')).
    { pose proof (elems_perm 0 _ _ P g) as X. pose proof (elems_bare (elab mg 1) (elab mg 1) al2 al' g g') as Y. specialize (Y ltac:(apply Forall_forall; intros x _ x' h h'; apply elab_bare) E G). apply orel_seen in Y.
      destruct (elab_elems (elab mg 1) al g) as [[m h]| |] eqn:EA, (elab_elems (elab mg 1) al2 g) as [[m2 h2]| |], (elab_elems (elab mg 1) al' g') as [[m' h']| |]; cbn [orel fst snd] in *; try contradiction; auto.
      apply pair_equal_spec in Y as [Y1 Y2]. cbn [fst snd] in Y1, Y2. destruct X as [X1 X2]. exists m2. repeat split; auto; [|congruence]. eapply names_attributes; [eapply elems_names; eassumption|exact AT]. }
    eapply (orel_bind (fun x x' => exists m m2 m', fst x = NList ty m /\ fst x' = NList ty m' /\ Permutation m m2 /\ map bare m2 = map bare m' /\ attributes m /\ bare_env (snd x) = bare_env (snd x'))).
    { eapply orel_bind; [exact H|]. intros [m h] [m' h'] (m2 & A & B & C & D). cbn [orel fst snd] in *. exists m, m2, m'. auto 8. }
    intros [x h] [x' h'] (m & m2 & m' & X & X' & PM & B & AM & D). cbn [fst snd] in X, X', D. subst x x'.
    destruct id, id'; cbn [bare] in ID; try discriminate ID; try exact I. assert (V0 : bare_view v0 = bare_view v1) by congruence. rewrite (bare_view_text _ _ V0).
    assert (AM2 : attributes m2) by (apply (attributes_perm _ _ PM), AM).
    assert (AM' : attributes m') by (apply (names_attributes m2); [rewrite <- (names_bare m'), <- B; apply names_bare|exact AM2]).
    assert (RE : node_alike (NCall (NId v0) (NList ty m)) (NCall (NId v1) (NList ty m'))).
    { right. exists (bare_view v1), ty, (map bare m), (map bare m'). cbn [bare]. rewrite V0. repeat split; auto; [apply (names_attributes m); [apply names_bare|exact AM]|]. rewrite <- B. apply Permutation_map, PM. }
    destruct (str_eqb _ _); [|destruct (str_eqb _ _)].
    + pose proof (handle_glob_bare mg v0 v1 m2 m' B) as Y. assert (handle_glob mg v0 m = handle_glob mg v0 m2) as -> by (unfold handle_glob; now rewrite (glob_perm _ _ PM AM)).
      apply orel_seen in Y. eapply orel_bind; [exact Y|]. intros y y' Z. split; [left; exact Z|exact D].
    + rewrite (select_attributes _ AM), (select_attributes _ AM'). cbn [bind orel]. split; assumption.
    + split; assumption.
Qed.
Theorem elaborate_statements_alike l l' : statements_alike l l' -> orel statements_alike (elaborate mg l) (elaborate mg l').
Proof.
  intros F. unfold elaborate. eapply (orel_bind (fun x x' => statements_alike (fst x) (fst x') /\ bare_env (snd x) = bare_env (snd x'))); [|intros [m h] [m' h'] [M _]; exact M].
  assert (G : bare_env [] = bare_env []) by reflexivity. revert G. generalize (@nil (str * node)) at 1 3. generalize (@nil (str * node)). induction F as [|n n' l l' N _ IH]; intros g' g G; cbn [elab_elems]; [split; [constructor|exact G]|].
  eapply orel_bind; [apply elab_statement_alike; eassumption|]. intros [m h] [m' h'] [M H]. cbn [fst snd] in *. eapply orel_bind; [apply IH, H|]. intros [k q] [k' q'] [K Q]. cbn [fst snd orel] in *. split; [constructor; assumption|exact Q].
Qed.
End Elab.
Lemma statements_self l : statements_alike l l.
Proof. induction l; constructor; auto. apply node_self. Qed.
Lemma bare_statements l : forall l', map bare l = map bare l' -> statements_alike l l'.
Proof. induction l as [|n l IH]; intros [|n' l'] E; try discriminate E; [constructor|]. apply map_cons_inv in E as [E1 E2]. constructor; [left; exact E1|apply IH, E2]. Qed.
