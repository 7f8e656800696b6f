(** Proofs for C57: elaboration keeps track of locations. *)
From Verif Require Import Base M_Scanner M_Ast M_Query M_Elab S_Parser S_Locations P_Elab.

Section Origin.
Variable mg : list str -> list str -> list str.
Variable stmts : list node.
(** All identifiers of the file are in the file. *)
Hypothesis ids_in_file : forall id, In id (flat_map idents stmts) -> exists off, v_org id = InFile off.

Definition tracked (n : node) : Prop :=
  Forall (reported_at stmts) (views n) /\ incl (idents n) (flat_map idents stmts) /\ incl (pluses n) (flat_map pluses stmts).
Definition tracked_env (g : genv) : Prop := forall x n, glookup x g = Some n -> tracked n.

Lemma tracked_list ty l : tracked (NList ty l) <-> Forall tracked l.
Proof.
  unfold tracked. cbn [views idents pluses]. split.
  - intros (A & B & C). rewrite Forall_forall. intros n Hn. rewrite Forall_flat_map, Forall_forall in A.
    split; [auto|]. split; intros x Hx; [apply B|apply C]; apply in_flat_map; eauto.
  - intros H. rewrite Forall_forall in H. split; [|split].
    + rewrite Forall_flat_map, Forall_forall. intros n Hn. apply (H n Hn).
    + intros x Hx. apply in_flat_map in Hx as (n & Hn & Hx). now apply (H n Hn).
    + intros x Hx. apply in_flat_map in Hx as (n & Hn & Hx). now apply (H n Hn).
Qed.
Lemma tracked_two (a b c : node) : views c = views a ++ views b -> idents c = idents a ++ idents b -> pluses c = pluses a ++ pluses b ->
  (tracked c <-> tracked a /\ tracked b).
Proof.
  intros E1 E2 E3. unfold tracked. rewrite E1, E2, E3, Forall_app. split.
  - intros ((A & A') & B & C). apply incl_app_inv in B as [B B']. apply incl_app_inv in C as [C C']. auto.
  - intros ((A & B & C) & A' & B' & C'). auto using incl_app.
Qed.
Lemma tracked_bin op l r rg : tracked (NBin op l r rg) <-> tracked l /\ tracked r /\ (op = TPlus -> In rg (flat_map pluses stmts)).
Proof.
  unfold tracked. cbn [views idents pluses]. rewrite Forall_app. split.
  - intros ((A & A') & B & C). apply incl_app_inv in B as [B B']. apply incl_app_inv in C as [C1 C2].
    apply incl_app_inv in C2 as [C C']. repeat split; auto. intros ->. apply C1. now left.
  - intros ((A & B & C) & (A' & B' & C') & D). repeat split; auto using incl_app. apply incl_app; [|auto using incl_app].
    destruct op; try (intros x []; fail). intros x [<-|[]]. auto.
Qed.
Lemma tracked_tern c p n : tracked (NTernary c p n) <-> tracked c /\ tracked p /\ tracked n.
Proof.
  unfold tracked. cbn [views idents pluses]. rewrite !Forall_app. split.
  - intros ((A1 & A2 & A3) & B & C). apply incl_app_inv in B as [B1 B2]. apply incl_app_inv in B2 as [B2 B3].
    apply incl_app_inv in C as [C1 C2]. apply incl_app_inv in C2 as [C2 C3]. auto 8.
  - intros ((A1 & B1 & C1) & (A2 & B2 & C2) & (A3 & B3 & C3)). auto 10 using incl_app.
Qed.
Lemma tracked_null : tracked NNull.
Proof. repeat split; try constructor; intros x []. Qed.

Lemma select_entry_in items : forall n, select_entry items = Ret (Some n) ->
  exists l r op rg, In (NBin op l r rg) items /\ n = r \/ In (NAssign l r rg) items /\ n = r.
Proof.
  induction items as [|i items IH]; intros n H; cbn [select_entry] in H; [discriminate|].
  assert (K : select_entry items = Ret (Some n) -> exists l r op rg, In (NBin op l r rg) (i :: items) /\ n = r \/ In (NAssign l r rg) (i :: items) /\ n = r).
  { intros K. destruct (IH n K) as (l & r & op & rg & [(A & B)|(A & B)]); exists l, r, op, rg; [left|right]; split; auto; now right. }
  destruct i; cbn [cast_binop bind] in H; try discriminate H; try (apply K; exact H).
  destruct op; try (apply K; exact H). invb H. destruct a as [[b v]|]; [|apply K; exact H].
  destruct (str_eqb _ _); [|apply K; exact H]. injection H as <-. exists i1, i2, TColon, range. left. split; auto. now left.
Qed.
Lemma handle_select_in args : forall n, handle_select args = Ret (Some n) -> Forall tracked args -> tracked n.
Proof.
  induction args as [|a args IH]; intros n H F; cbn [handle_select] in H; [discriminate|]. inversion F as [|x y Fa Fr]; subst.
  destruct a; cbn [cast_list bind] in H; try discriminate H; try (apply (IH n H Fr)).
  destruct ty; try (apply (IH n H Fr)). invb H. destruct a as [m|]; [|apply (IH n H Fr)]. injection H as <-.
  apply tracked_list in Fa. rewrite Forall_forall in Fa.
  destruct (select_entry_in _ _ E) as (l & r & op & rg & [(A & ->)|(A & ->)]); specialize (Fa _ A).
  - now apply tracked_bin in Fa.
  - apply (tracked_two l r) in Fa; auto. apply Fa.
Qed.

Lemma tracked_plus l r rg n : tracked l -> tracked r -> In rg (flat_map pluses stmts) -> elab_plus l r rg = Ret n -> tracked n.
Proof.
  intros Hl Hr Hg H. unfold elab_plus in H. invb H. invb H. rename a into cl, a0 into cr.
  destruct cl as [[t1 e1]|], cr as [[t2 e2]|].
  - destruct l; try discriminate E. destruct r; try discriminate E0. injection E as -> ->. injection E0 as -> ->.
    destruct (ltype_eqb t1 t2); injection H as <-.
    + apply tracked_list. apply tracked_list in Hl, Hr. apply Forall_app. auto.
    + apply tracked_bin. auto.
  - injection H as <-. exact Hl.
  - injection H as <-. exact Hr.
  - assert (D : tracked (NBin TPlus l r rg)) by (apply tracked_bin; auto).
    destruct l; try (injection H as <-; exact D). destruct r; try (injection H as <-; exact D). injection H as <-.
    destruct Hl as [Hl _], Hr as [Hr _]. inversion Hl; inversion Hr; subst. split; [|split; intros x []].
    constructor; [|constructor]. now constructor.
Qed.
Lemma tracked_glob v args n : In v (flat_map idents stmts) -> v_text v = $"glob" -> handle_glob mg v args = Ret n -> tracked n.
Proof.
  intros Hv Ht H. unfold handle_glob in H. invb H. invb H. invb H. injection H as <-.
  apply tracked_list. rewrite Forall_forall. intros x Hx. apply in_map_iff in Hx as (s & <- & _).
  split; [|split; intros y []]. constructor; [|constructor]. destruct (ids_in_file v Hv) as [off Ho].
  unfold located_at. rewrite Ho, Ht. now apply (at_glob _ v off).
Qed.

Lemma tracked_elems f l : forall g, (forall x g n' g', In x l -> tracked_env g -> f x g = Ret (n', g') -> tracked n' /\ tracked_env g') ->
  tracked_env g -> forall l' g', elab_elems f l g = Ret (l', g') -> Forall tracked l' /\ tracked_env g'.
Proof.
  induction l as [|x l IH]; intros g Hf Hg l' g' H; cbn [elab_elems] in H; [injection H as <- <-; auto|].
  invb H. invb H. injection H as <- <-. destruct (Hf x g n g0) as [A B]; auto; [now left|].
  destruct (IH g0) with (l' := n0) (g' := g1) as [C D]; auto. intros; eapply Hf; eauto. now right.
Qed.
Lemma tracked_elab n : forall level g, tracked n -> tracked_env g -> forall n' g', elab mg level n g = Ret (n', g') -> tracked n' /\ tracked_env g'.
Proof.
  induction n as [n IH] using size_ind. intros level g Hn Hg n' g' H.
  destruct n; cbn [nsize] in IH; cbn [M_Elab.elab] in H.
  - injection H as <- <-. auto.
  - injection H as <- <-. auto.
  - injection H as <- <-. auto.
  - injection H as <- <-. split; auto. destruct (glookup (v_text v) g) eqn:L; auto. eapply Hg; eauto.
  - invb H. injection H as <- <-. assert (K : tracked n) by exact Hn. apply (IH n) in E as [A B]; auto.
  - apply tracked_bin in Hn as (Hl & Hr & Hp). invb H. invb H.
    apply (IH n1) in E as [A B]; auto; [|lia]. apply (IH n2) in E0 as [C D]; auto; [|lia].
    assert (K : tracked (NBin op n n0 range)) by (apply tracked_bin; auto).
    destruct op; try (injection H as <- <-; auto; fail). invb H. injection H as <- <-. split; auto. apply (tracked_plus n n0 range); auto.
  - invb H. injection H as <- <-. apply tracked_list in Hn. rewrite Forall_forall in Hn.
    apply tracked_elems in E as [A B]; auto; [split; auto; now apply tracked_list|].
    intros x g1 n' g2 Hx Hg1 Hf. apply (IH x) in Hf; auto. apply nsize_in in Hx. lia.
  - invb H. injection H as <- <-. assert (K : tracked n) by exact Hn.
    apply (IH n) in E as [A B]; auto. split; auto. destruct n0; auto.
  - apply tracked_tern in Hn as (H1 & H2 & H3). invb H. invb H. invb H. injection H as <- <-.
    apply (IH n1) in E as [A B]; auto; [|lia]. apply (IH n2) in E0 as [C D]; auto; [|lia]. apply (IH n3) in E1 as [F G]; auto; [|lia].
    split; auto. apply tracked_tern; auto.
  - apply (tracked_two n1 n2) in Hn as [Hl Hr]; auto. invb H. injection H as <- <-.
    apply (IH n2) in E as [A B]; auto; [|lia]. split; [apply (tracked_two n1 n); auto|].
    destruct level; auto. destruct n1; auto. intros x m L. cbn [glookup] in L. destruct (str_eqb x (v_text v)); [injection L as <-; auto|eauto].
  - apply (tracked_two n1 n2) in Hn as [Hl Hr]; auto. invb H. invb H.
    apply (IH n1) in E as [A B]; auto; [|lia]. apply (IH n2) in E0 as [C D]; auto; [|lia].
    destruct n; try discriminate H. assert (Hid : In v (flat_map idents stmts)) by (apply A; now left).
    assert (K : tracked (NCall (NId v) n0)) by (apply (tracked_two (NId v) n0); auto).
    destruct (str_eqb (v_text v) ($"glob")) eqn:Eg.
    + apply str_eqb_eq in Eg. destruct n0; try discriminate H. invb H. injection H as <- <-. split; auto. eapply tracked_glob; eauto.
    + destruct (str_eqb (v_text v) ($"select")); [|injection H as <- <-; auto]. destruct n0; try discriminate H. invb H. injection H as <- <-.
      split; auto. destruct a as [m|]; auto. eapply handle_select_in; eauto. now apply tracked_list in C.
Qed.
Theorem tracked_elaborate stmts' : elaborate mg stmts = Ret stmts' -> Forall tracked stmts'.
Proof.
  unfold elaborate. intros H. invb H. injection H as <-.
  assert (T : Forall tracked stmts).
  { rewrite Forall_forall. intros n' Hn. split; [|split; intros x Hx; apply in_flat_map; eauto].
    rewrite Forall_forall. intros v Hv. apply at_place. apply in_flat_map. eauto. }
  apply tracked_elems in E as [A B]; auto; [|intros x m L; discriminate L].
  intros x g0 n' g' Hx Hg Hf. rewrite Forall_forall in T. eapply tracked_elab; eauto.
Qed.
End Origin.

Lemma idents_views n : incl (idents n) (views n).
Proof.
  induction n using node_ind'; cbn [idents views]; try (intros x Hx; exact Hx || destruct Hx; fail); auto;
    try (repeat apply incl_app; auto using incl_appl, incl_appr; fail).
  - intros x Hx. apply in_flat_map in Hx as (m & Hm & Hx). apply in_flat_map. exists m. split; auto. rewrite Forall_forall in H. now apply H.
Qed.
Lemma pluses_ranges n : incl (pluses n) (ranges n).
Proof.
  induction n using node_ind'; cbn [pluses ranges]; try (intros x Hx; exact Hx || destruct Hx; fail); auto;
    try (repeat apply incl_app; auto using incl_appl, incl_appr; fail).
  - intros x Hx. rewrite !in_app_iff in Hx. destruct Hx as [Hx|Hx]; [destruct op; try contradiction; destruct Hx as [<-|[]]; now left|]. right.
    rewrite in_app_iff. destruct Hx; [left|right]; auto.
  - intros x Hx. apply in_flat_map in Hx as (m & Hm & Hx). apply in_flat_map. exists m. split; auto. rewrite Forall_forall in H. now apply H.
  - intros x Hx. right. rewrite in_app_iff in *. destruct Hx; [left|right]; auto.
Qed.

Lemma pluses_operators n rg : In rg (pluses n) -> In (TPlus, rg) (operators n).
Proof.
  revert rg. induction n using node_ind'; cbn [pluses operators]; intros rg' Hx; rewrite ?in_app_iff in *; auto.
  - destruct Hx as [Hx|Hx]; [destruct op; try contradiction; destruct Hx as [<-|[]]; now left|]. right.
    rewrite in_app_iff. destruct Hx; [left|right]; auto.
  - apply in_flat_map in Hx as (m & Hm & Hx). apply in_flat_map. exists m. split; auto. rewrite Forall_forall in H. now apply H.
  - destruct Hx as [?|[?|?]]; auto.
  - destruct Hx; auto.
  - destruct Hx; auto.
Qed.
Theorem elaborated_within content stmts v :
  Forall (fun n => Forall (view_in content) (views n) /\ Forall (range_in content) (ranges n) /\ Forall (op_at content) (operators n)) stmts ->
  reported_at stmts v -> within content v.
Proof.
  intros H. rewrite Forall_forall in H.
  assert (V : forall v, In v (flat_map views stmts) -> view_in content v).
  { intros x Hx. apply in_flat_map in Hx as (n & Hn & Hx). destruct (H n Hn) as [A _]. rewrite Forall_forall in A. auto. }
  intros R. induction R as [v Hv|a b r _ _ _ _ Hr|id off s Hi Ht Ho]; unfold within.
  - destruct (V v Hv) as (off & -> & A & B). auto.
  - cbn [v_org]. apply in_flat_map in Hr as (n & Hn & Hr). destruct (H n Hn) as [_ [A B]]. rewrite Forall_forall in A, B.
    split; [apply (A r); now apply pluses_ranges|]. left. destruct (B _ (pluses_operators _ _ Hr) _ eq_refl) as [L T]. cbn in L, T. rewrite L. exact T.
  - cbn [v_org]. apply in_flat_map in Hi as (n & Hn & Hi). destruct (V id) as (off' & Ho' & A & B).
    + apply in_flat_map. exists n. split; auto. now apply idents_views.
    + rewrite Ho in Ho'. injection Ho' as <-. rewrite Ht in A, B. split; [exact A|right; exact B].
Qed.

(** * Results of queries hold texts of the tree *)
Section QueryViews.
Variable P : view -> Prop.
Hypothesis P_none : P no_view.
Definition list_views (l : option (list node)) : list view := match l with Some l => flat_map views l | None => [] end.
Definition result_views (r : result) : list view :=
  views (q_node r) ++ [q_rule r; q_name r; q_actual r; q_include_prefix r; q_strip_include_prefix r; q_version r; q_repo_name r; q_deprecation r]
  ++ list_views (q_srcs r) ++ list_views (q_hdrs r) ++ list_views (q_textual_hdrs r) ++ list_views (q_public_hdrs r)
  ++ list_views (q_deps r) ++ list_views (q_includes r) ++ list_views (q_outs r) ++ list_views (q_visibility r).
Definition finder_ok (st : finder) : Prop :=
  Forall P (result_views (f_cur st)) /\ Forall P (list_views (f_default_visibility st)) /\ Forall (fun r => Forall P (result_views r)) (f_out st).

Ltac split_views := unfold result_views, list_views in *; cbn [q_node q_rule q_name q_actual q_include_prefix q_strip_include_prefix q_version q_repo_name
  q_deprecation q_srcs q_hdrs q_textual_hdrs q_public_hdrs q_deps q_includes q_outs q_visibility] in *;
  rewrite ?Forall_app, ?Forall_cons_iff in *.
Lemma set_scalar_views k s v z r : P v -> Forall P (result_views r) -> Forall P (result_views (set_scalar k s v z r)).
Proof.
  intros Hv H. destruct r. unfold set_scalar.
  repeat (match goal with |- context [if ?b then _ else _] => destruct b end); split_views; intuition.
Qed.
Lemma set_list_views k l r : Forall P (flat_map views l) -> Forall P (result_views r) -> Forall P (result_views (set_list k l r)).
Proof.
  intros Hv H. destruct r. unfold set_list.
  repeat (match goal with |- context [if ?b then _ else _] => destruct b end); split_views; intuition.
Qed.
Lemma set_identifier_views k i r : Forall P (result_views r) -> Forall P (result_views (set_identifier k i r)).
Proof.
  intros H. destruct r. unfold set_identifier.
  repeat (match goal with |- context [if ?b then _ else _] => destruct b end); split_views; intuition.
Qed.
Lemma extract_views l v r : Forall P (views v) -> Forall P (result_views r) -> Forall P (result_views (extract_query_info l v r)).
Proof.
  intros Hv H. unfold extract_query_info. destruct l; auto. destruct v; auto; cbn [views] in Hv.
  - inversion Hv. now apply set_scalar_views.
  - inversion Hv. now apply set_scalar_views.
  - now apply set_identifier_views.
  - now apply set_list_views.
Qed.
Lemma inform_views allow st : finder_ok st -> finder_ok (inform_caller allow st).
Proof.
  intros (A & B & C). unfold inform_caller. destruct (_ && _); [split; [|split]; auto|].
  destruct st as [rel cur dv out]. cbn [f_cur f_default_visibility f_out f_rel] in *. destruct cur.
  match goal with |- finder_ok (mkFinder _ ?r _ _) => assert (K : Forall P (result_views r)) end.
  { match goal with |- context [match ?v with Some _ => _ | None => dv end] => destruct v end; split_views; intuition. }
  split; [exact K|]. split; [exact B|]. cbn [f_out]. apply Forall_app. auto.
Qed.
Lemma empty_views n v : Forall P (views n) -> P v -> Forall P (result_views (empty_result n v)).
Proof.
  intros A B. unfold empty_result, result_views, list_views. cbn -[views].
  apply Forall_app. split; [exact A|]. repeat constructor; auto.
Qed.
Lemma package_views l r vis : Forall P (views r) -> Forall P (list_views vis) -> Forall P (list_views (extract_package_info l r vis)).
Proof. intros A B. unfold extract_package_info. destruct l; auto. destruct r; auto. destruct (str_eqb _ _); auto. Qed.
Lemma visit_views interest allow : forall n st st', Forall P (views n) -> finder_ok st -> visit interest allow n st = Ret st' -> finder_ok st'.
Proof.
  apply (size_ind (fun n => forall st st', Forall P (views n) -> finder_ok st -> visit interest allow n st = Ret st' -> finder_ok st')).
  intros n IH st st' V F E.
  assert (EL : forall l st st', (forall x, In x l -> nsize x < nsize n) -> Forall P (flat_map views l) -> finder_ok st ->
    visit_elems (visit interest allow) l st = Ret st' -> finder_ok st').
  { clear st st' V F E. induction l as [|x l IHl]; intros st st' L V F E; cbn [visit_elems] in E; [now inversion E; subst|].
    cbn [flat_map] in V. apply Forall_app in V as [V1 V2]. destruct (visit interest allow x st) as [st1| |] eqn:E1; try discriminate.
    apply (IHl st1 st'); auto; [intros y Hy; apply L; right; auto|].
    apply (IH x) with (st := st); auto. apply L. left; auto. }
  assert (V0 := V).
  destruct n; cbn [visit] in E; try (inversion E; subst; exact F); cbn [views] in V.
  - apply (IH n) with (st := st); try (cbn [nsize]; lia); auto.
  - apply Forall_app in V as [V1 V2]. destruct (visit interest allow n1 st) as [st1| |] eqn:E1; try discriminate. cbn [bind] in E.
    apply (IH n2) with (st := st1); try (cbn [nsize]; lia); auto. apply (IH n1) with (st := st); try (cbn [nsize]; lia); auto.
  - apply (EL elems st); auto. intros x Hx. apply nsize_in in Hx. cbn [nsize]. lia.
  - apply (IH n) with (st := st); try (cbn [nsize]; lia); auto.
  - apply Forall_app in V as [V1 V2]. apply Forall_app in V2 as [V2 V3].
    destruct (visit interest allow n1 st) as [st1| |] eqn:E1; try discriminate. cbn [bind] in E.
    destruct (visit interest allow n2 st1) as [st2| |] eqn:E2; try discriminate. cbn [bind] in E.
    apply (IH n3) with (st := st2); try (cbn [nsize]; lia); auto. apply (IH n2) with (st := st1); auto; [cbn [nsize]; lia|].
    apply (IH n1) with (st := st); try (cbn [nsize]; lia); auto.
  - apply Forall_app in V as [V1 V2]. injection E as <-. destruct F as (A & B & C).
    destruct (f_rel st); split; try split; cbn [f_cur f_default_visibility f_out]; auto using extract_views, package_views.
  - apply Forall_app in V as [V1 V2]. destruct (f_rel st) eqn:R.
    2,3: apply (IH n2) with (st := st); try (cbn [nsize]; lia); auto.
    destruct n1; try discriminate. destruct (is_relevant interest (v_text v)) eqn:Rv; [inversion E; subst; exact F| |].
    all: destruct n2; try discriminate.
    all: match type of E with context [visit_elems ?v ?l ?s] => destruct (visit_elems v l s) as [st1| |] eqn:E1; try discriminate end.
    all: cbn [bind] in E; injection E as <-.
    all: assert (Z : finder_ok st1) by
        (apply EL with (4 := E1); [intros x Hx; apply nsize_in in Hx; cbn [nsize]; lia|exact V2|];
         destruct F as (FA & FB & FC); split; [|split]; auto; apply empty_views; [exact V0|now inversion V1]).
    1: apply (inform_views allow) in Z.
    all: destruct Z as (A & B & C); split; [|split]; auto.
Qed.
Lemma find_targets_views interest allow stmts rs : Forall (fun n => Forall P (views n)) stmts ->
  find_targets_in interest allow stmts = Ret rs -> Forall (fun r => Forall P (result_views r)) rs.
Proof.
  intros F E. unfold find_targets_in in E. destruct (visit interest allow (NList LList stmts) initial_finder) as [st| |] eqn:Ev; try discriminate.
  injection E as <-. apply visit_views in Ev; [apply Ev| |].
  - cbn [views]. clear - F. induction F; cbn [flat_map]; auto. apply Forall_app. auto.
  - split; [|split]; cbn [initial_finder f_cur f_default_visibility f_out]; [|constructor|constructor]. apply empty_views; [constructor|auto].
Qed.
End QueryViews.
