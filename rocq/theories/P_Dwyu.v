(** Proofs about "depend on what you use". *)
From Verif Require Import Base OMap M_Types P_Types M_Scanner P_Scanner M_Ast M_Parser M_Query S_Query M_Elab S_Elab P_Elab P_Query M_Workspace M_Project M_DepGraph S_DepGraph P_DepGraph
  M_Headers S_Headers P_Headers M_Includes S_Includes P_Includes M_Dwyu S_Dwyu.

(** * Minimizing *)
Section Minimize.
Local Notation tset := (list target).
Definition inside (a b : tset) : Prop := forall x, In x a -> In x b.
Definition apart (a b : tset) : Prop := forall x, In x a -> ~ In x b.

Lemma inter_inside a b : inside (set_inter a b) a /\ inside (set_inter a b) b.
Proof. split; intros x I; apply set_inter_in in I; tauto. Qed.
Lemma inter_empty a b : is_nil (set_inter a b) = true -> apart a b.
Proof.
  intros E x Ia Ib. apply is_nil_true in E. assert (I : In x (set_inter a b)) by (apply set_inter_in; auto). rewrite E in I. destruct I.
Qed.
Lemma absorb_spec l : forall cur j cov, ssorted cov ->
  let '(cur', cov') := absorb cur j l cov in
  inside cur' cur /\ (cur <> [] -> cur' <> []) /\ ssorted cov' /\
  (forall k, In k cov -> In k cov') /\
  (forall k, In k cov' -> In k cov \/ exists i s, k = j + i /\ nth_error l i = Some s /\ inside cur' s) /\
  (forall i s, nth_error l i = Some s -> In (j + i) cov' \/ apart cur' s).
Proof.
  induction l as [|s l IH]; intros cur j cov Hc; cbn [absorb].
  - repeat split; auto; [intros x; auto|]. intros [|i] s; discriminate.
  - destruct (is_nil (set_inter cur s)) eqn:E.
    + specialize (IH cur (S j) cov Hc). destruct (absorb cur (S j) l cov) as [cur' cov'].
      destruct IH as (H1 & H2 & H3 & H4 & H5 & H6). repeat split; auto.
      * intros k I. destruct (H5 k I) as [K|(i & s' & -> & Hn & Hi)]; auto. right. exists (S i), s'. repeat split; auto. lia.
      * intros [|i] s' Hn; cbn in Hn.
        -- injection Hn as <-. right. intros x I. apply (inter_empty _ _ E). auto.
        -- destruct (H6 i s' Hn) as [K|K]; auto. left. now replace (j + S i) with (S j + i) by lia.
    + specialize (IH (set_inter cur s) (S j) (set_insert j cov) (set_insert_sorted _ _ Hc)).
      destruct (absorb (set_inter cur s) (S j) l (set_insert j cov)) as [cur' cov'].
      destruct IH as (H1 & H2 & H3 & H4 & H5 & H6). destruct (inter_inside cur s) as [I1 I2]. apply is_nil_false in E. repeat split; auto.
      * intros x I. auto.
      * intros k I. apply H4, set_insert_in. auto.
      * intros k I. destruct (H5 k I) as [K|(i & s' & -> & Hn & Hi)].
        -- apply set_insert_in in K as [->|K]; auto. right. exists 0, s. repeat split; [lia|]. intros x Ix. auto.
        -- right. exists (S i), s'. repeat split; auto. lia.
      * intros [|i] s' Hn; cbn in Hn.
        -- left. apply H4, set_insert_in. left. lia.
        -- destruct (H6 i s' Hn) as [K|K]; auto. left. now replace (j + S i) with (S j + i) by lia.
Qed.

Lemma minimize_from_spec l : forall i cov, (forall s, In s l -> s <> []) -> ssorted cov ->
  exists r cov', minimize_from i l cov = Ret (r, cov') /\ ssorted cov' /\
  (forall k, In k cov -> In k cov') /\ (forall k, In k cov' -> In k cov \/ i <= k < i + length l) /\
  (forall k, k < length l -> In (i + k) cov') /\
  (forall k s, nth_error l k = Some s -> ~ In (i + k) cov -> exists m, In m r /\ inside m s) /\
  (forall m, In m r -> m <> [] /\ exists k s, nth_error l k = Some s /\ ~ In (i + k) cov /\ inside m s) /\
  ForallOrdPairs apart r.
Proof.
  induction l as [|s l IH]; intros i cov Hl Hc; cbn [minimize_from].
  - exists [], cov. repeat split; auto; try lia; try contradiction.
    + cbn. lia.
    + intros [|k] s; discriminate.
    + constructor.
  - assert (Hl' : forall s', In s' l -> s' <> []) by (intros s' I; apply Hl; cbn; auto).
    destruct (set_mem i cov) eqn:E.
    + apply set_mem_in in E. destruct (IH (S i) cov Hl' Hc) as (r & cov' & -> & H1 & H2 & H3 & H4 & H5 & H6 & H7).
      exists r, cov'. repeat split; auto.
      * intros k I. cbn [length]. destruct (H3 k I); [auto|lia].
      * intros [|k] Hk; cbn [length] in Hk; [rewrite Nat.add_0_r; auto|]. replace (i + S k) with (S i + k) by lia. apply H4. lia.
      * intros [|k] s' Hn N; cbn in Hn; [rewrite Nat.add_0_r in N; contradiction|]. apply (H5 k); auto. now replace (S i + k) with (i + S k) by lia.
      * apply H6; auto.
      * intros. destruct (H6 m H) as (_ & k & s' & Hn & N & Hi). exists (S k), s'. repeat split; auto. now replace (i + S k) with (S i + k) by lia.
    + apply set_mem_false in E. pose proof (absorb_spec l s (S i) (set_insert i cov) (set_insert_sorted _ _ Hc)) as A.
      destruct (absorb s (S i) l (set_insert i cov)) as [cur cov1]. destruct A as (A1 & A2 & A3 & A4 & A5 & A6).
      assert (Ncur : cur <> []) by (apply A2, Hl; cbn; auto). destruct (is_nil cur) eqn:En; [apply is_nil_true in En; contradiction|].
      destruct (IH (S i) cov1 Hl' A3) as (r & cov' & -> & H1 & H2 & H3 & H4 & H5 & H6 & H7). cbn [bind].
      exists (cur :: r), cov'. repeat split; auto.
      * intros k I. apply H2, A4, set_insert_in. auto.
      * intros k I. cbn [length]. destruct (H3 k I) as [J|J]; [|lia]. destruct (A5 k J) as [K|(j & s' & -> & Hn & _)].
        -- apply set_insert_in in K as [->|K]; [lia|auto].
        -- assert (j < length l) by (apply nth_error_Some; congruence). lia.
      * intros [|k] Hk; cbn [length] in Hk; [rewrite Nat.add_0_r; apply H2, A4, set_insert_in; auto|].
        replace (i + S k) with (S i + k) by lia. apply H4. lia.
      * intros [|k] s' Hn N; cbn in Hn.
        -- injection Hn as <-. exists cur. split; [left|]; auto.
        -- replace (i + S k) with (S i + k) in N by lia. destruct (in_dec Nat.eq_dec (S i + k) cov1) as [J|J].
           ++ destruct (A5 _ J) as [K|(j & s2 & Ej & Hn2 & Hi)].
              ** apply set_insert_in in K as [K|K]; [lia|contradiction].
              ** assert (j = k) by lia. subst j. rewrite Hn in Hn2. injection Hn2 as <-. exists cur. split; [left|]; auto.
           ++ destruct (H5 k s' Hn J) as (m & Im & Hi). exists m. split; [right|]; auto.
      * destruct H as [<-|I]; auto. now apply H6.
      * intros. destruct H as [<-|I].
        -- exists 0, s. rewrite Nat.add_0_r. repeat split; auto.
        -- destruct (H6 m I) as (_ & k & s' & Hn & N & Hi). exists (S k), s'. repeat split; auto.
           intros J. apply N, A4, set_insert_in. right. now replace (S i + k) with (i + S k) by lia.
      * constructor; auto. apply Forall_forall. intros m I. destruct (H6 m I) as (_ & k & s' & Hn & N & Hi).
        destruct (A6 k s' Hn) as [J|J]; [contradiction|]. intros x Ix Jx. apply (J x); auto.
Qed.

Lemma minimize_spec l : (forall s, In s l -> s <> []) -> exists r, minimize l = Ret r /\
  (forall s, In s l -> exists m, In m r /\ inside m s) /\
  (forall m, In m r -> m <> [] /\ exists s, In s l /\ inside m s) /\ ForallOrdPairs apart r.
Proof.
  intros Hl. unfold minimize. destruct (minimize_from_spec l 0 [] Hl) as (r & cov & -> & H1 & H2 & H3 & H4 & H5 & H6 & H7); [constructor|].
  cbn [bind]. exists r.
  assert (L : length cov = length l).
  { apply Nat.le_antisymm.
    - rewrite <- (seq_length (length l) 0). apply NoDup_incl_length; [now apply ssorted_nodup|].
      intros k I. apply in_seq. destruct (H3 k I) as [[]|K]. lia.
    - rewrite <- (seq_length (length l) 0) at 1. apply NoDup_incl_length; [apply seq_NoDup|].
      intros k I. apply in_seq in I. apply (H4 k). lia. }
  rewrite L, Nat.eqb_refl. repeat split; auto.
  - intros s I. apply In_nth_error in I as [k Hk]. apply (H5 k s Hk). intros [].
  - apply H6; auto.
  - destruct (H6 m H) as (_ & k & s & Hn & _ & Hi). exists s. split; auto. eapply nth_error_In; eauto.
Qed.

(** Sets that are the same or have nothing in common are not changed. *)
Definition alike (a b : tset) : Prop := (forall x, In x a <-> In x b) \/ apart a b.
Lemma absorb_alike l : forall cur j cov, (forall s, In s l -> alike cur s) ->
  fst (absorb cur j l cov) = cur.
Proof.
  induction l as [|s l IH]; intros cur j cov H; cbn [absorb]; auto.
  destruct (is_nil (set_inter cur s)) eqn:E; [apply IH; intros; apply H; cbn; auto|].
  assert (F : set_inter cur s = cur).
  { unfold set_inter. apply is_nil_false in E. destruct (H s) as [A|A]; [cbn; auto| |].
    - clear E. assert (B : forall x, In x cur -> set_mem x s = true) by (intros x I; apply set_mem_in, A; auto).
      revert B. clear. induction cur as [|x cur IHc]; intros B; cbn; auto. rewrite B by (cbn; auto). f_equal. apply IHc. intros y I. apply B. cbn; auto.
    - exfalso. apply E. destruct (set_inter cur s) as [|x i] eqn:Ei; auto. assert (I : In x (set_inter cur s)) by (rewrite Ei; cbn; auto).
      apply set_inter_in in I as [I1 I2]. now apply (A x) in I1. }
  rewrite F. apply IH. intros; apply H; cbn; auto.
Qed.
Lemma minimize_from_alike l : forall i cov r cov', (forall a b, In a l -> In b l -> alike a b) ->
  minimize_from i l cov = Ret (r, cov') -> forall m, In m r -> In m l.
Proof.
  induction l as [|s l IH]; intros i cov r cov' H E m I; cbn [minimize_from] in E.
  - injection E as <- _. destruct I.
  - assert (H' : forall a b, In a l -> In b l -> alike a b) by (intros; apply H; cbn; auto).
    destruct (set_mem i cov); [right; eapply IH; eauto|].
    pose proof (absorb_alike l s (S i) (set_insert i cov)) as A. destruct (absorb s (S i) l (set_insert i cov)) as [cur cov1]. cbn in A.
    rewrite A in E by (intros; apply H; cbn; auto). destruct (is_nil s); [discriminate|].
    destruct (minimize_from (S i) l cov1) as [[r1 c1]| |] eqn:E1; try discriminate. cbn in E. injection E as <- _.
    destruct I as [<-|I]; [left; auto|]. right. eapply IH; eauto.
Qed.
Lemma minimize_alike l r : (forall a b, In a l -> In b l -> alike a b) -> minimize l = Ret r -> forall m, In m r -> In m l.
Proof.
  unfold minimize. intros H E. destruct (minimize_from 0 l []) as [[r1 c1]| |] eqn:E1; try discriminate. cbn in E.
  destruct (length c1 =? length l); [|discriminate]. injection E as <-. eapply minimize_from_alike; eauto.
Qed.
End Minimize.

(** * Opening files, own headers *)
Lemma try_locations_spec rf file ls c : try_locations rf ls file = Some c <->
  exists before l after, ls = before ++ l :: after /\ rf (l ++ file) = Some c /\ forall b, In b before -> rf (b ++ file) = None.
Proof.
  induction ls as [|l ls IH]; cbn [try_locations].
  - split; [discriminate|]. intros ([|] & l0 & a0 & H & _); discriminate.
  - destruct (rf (l ++ file)) as [c0|] eqn:E.
    + split.
      * intros H. injection H as ->. exists [], l, ls. repeat split; auto. intros b [].
      * intros ([|b before] & l' & a & H & Hr & Hb); cbn in H; injection H as -> ->; [congruence|]. rewrite Hb in E by (cbn; auto). discriminate.
    + rewrite IH. split.
      * intros (before & l' & a & -> & Hr & Hb). exists (l :: before), l', a. repeat split; auto. intros b [<-|I]; auto.
      * intros ([|b before] & l' & a & H & Hr & Hb); cbn in H; injection H as -> ->; [congruence|]. exists before, l', a. repeat split; auto.
        intros b' I. apply Hb. cbn; auto.
Qed.
Lemma try_open_spec rf file c : try_open rf file = Some c <-> opened rf file c.
Proof. apply try_locations_spec. Qed.
Lemma header_in_list_spec h l prefix : is_header_in_list h l prefix = true <->
  exists s, In s l /\ (h = s \/ h = prefix ++ $"/" ++ s).
Proof.
  unfold is_header_in_list. rewrite existsb_exists. split.
  - intros (s & I & H). exists s. split; auto. apply andb_true_iff in H as [_ H]. apply orb_true_iff in H as [H|H]; apply str_eqb_eq in H; auto.
  - intros (s & I & H). exists s. split; auto. apply andb_true_iff. split.
    + apply ends_with_iff. destruct H as [->| ->]; [exists []; auto|]. exists (prefix ++ $"/"). now rewrite <- app_assoc.
    + apply orb_true_iff. destruct H as [->| ->]; [left|right]; apply str_eqb_refl.
Qed.

(** * Known libraries *)
Definition pairs_of (p : package) (rs : list result) : list (target * result) :=
  flat_map (fun r => match qualified_target p (v_text (q_name r)) with Some t => [(t, r)] | None => [] end) rs.
Fixpoint first_for (t : target) (l : list (target * result)) : option result :=
  match l with [] => None | (u, r) :: l => if keqb t u then Some r else first_for t l end.
Lemma first_for_app t a b : first_for t (a ++ b) = match first_for t a with Some r => Some r | None => first_for t b end.
Proof. induction a as [|[u r] a IH]; cbn; auto. destruct (keqb t u); auto. Qed.
Lemma first_for_spec t l r : first_for t l = Some r <-> exists a b, l = a ++ (t, r) :: b /\ ~ In t (map fst a).
Proof.
  induction l as [|[u r0] l IH]; cbn [first_for].
  - split; [discriminate|]. intros ([|] & b & H & _); discriminate.
  - destruct (keqb_spec t u) as [e|N].
    + subst u. split.
      * intros H. injection H as ->. exists [], l. split; auto.
      * intros ([|x a] & b & H & Hn); cbn [app] in H; [injection H as ->; auto|]. injection H as <- _. exfalso. apply Hn. cbn. auto.
    + rewrite IH. split.
      * intros (a & b & -> & Hn). exists ((u, r0) :: a), b. split; auto. intros [H|H]; [cbn in H; congruence|auto].
      * intros ([|x a] & b & H & Hn); cbn [app] in H; [injection H as <- _ _; congruence|]. injection H as _ ->. exists a, b. split; auto.
        intros I. apply Hn. cbn; auto.
Qed.
Lemma add_known_find p rs : forall m, msorted m -> msorted (fold_left (add_known p) rs m) /\
  forall t, map_find t (fold_left (add_known p) rs m) = match map_find t m with Some r => Some r | None => first_for t (pairs_of p rs) end.
Proof.
  induction rs as [|r rs IH]; intros m Hm; cbn [fold_left].
  - split; auto. intros t. destruct (map_find t m); auto.
  - unfold pairs_of. cbn [flat_map]. unfold add_known at 2 4. destruct (qualified_target p (v_text (q_name r))) as [u|].
    + destruct (IH (map_insert u r m) (map_insert_sorted _ _ _ Hm)) as [S1 F1]. split; auto.
      intros t. rewrite F1, (map_insert_find _ _ _ _ Hm). cbn [app first_for]. destruct (keqb_spec t u) as [e|N].
      * subst u. destruct (map_find t m); auto.
      * destruct (map_find t m); auto.
    + apply IH; auto.
Qed.
Lemma known_in_spec files : forall m known, msorted m -> known_in files m = Ret known ->
  exists l, described files l /\ forall t, map_find t known = match map_find t m with Some r => Some r | None => first_for t l end.
Proof.
  induction files as [|[p f] files IH]; intros m known Hm E; cbn [known_in] in E.
  - injection E as <-. exists []. split; [constructor|]. intros t. destruct (map_find t m); auto.
  - destruct (find_targets known_rules (pf_ast f)) as [rs| |] eqn:Er; try discriminate. cbn [bind] in E.
    destruct (add_known_find (pf_package f) rs m Hm) as [S1 F1]. apply IH in E as (l & D & F); auto.
    eexists. split; [econstructor; eauto|]. intros t. rewrite F, F1. fold (pairs_of (pf_package f) rs). rewrite first_for_app.
    destruct (map_find t m); auto.
Qed.
Lemma described_fun files : forall l l', described files l -> described files l' -> l = l'.
Proof.
  induction files as [|[p f] files IH]; intros l l' D D'; [inversion D; inversion D'; auto|].
  inversion D as [|? ? ? rs1 l1 E1 D1]; subst. inversion D' as [|? ? ? rs2 l2 E2 D2]; subst.
  assert (rs1 = rs2) by congruence. subst rs2. f_equal. auto.
Qed.
Lemma known_spec pr known t r : known_libraries pr = Ret known -> (map_find t known = Some r <-> rule_for pr t r).
Proof.
  intros E. apply known_in_spec in E as (l & D & F); [|constructor]. rewrite F. cbn. rewrite first_for_spec. unfold rule_for. split.
  - intros (a & b & -> & N). eauto.
  - intros (a & b & D' & N). exists a, b. split; auto. eapply described_fun; eauto.
Qed.
Lemma known_none pr known t : known_libraries pr = Ret known -> map_find t known = None -> forall r, ~ rule_for pr t r.
Proof. intros E H r R. apply (known_spec _ _ _ _ E) in R. congruence. Qed.

(** * Predicates *)
Section Predicates.
Variable pr : parsed_project.
Variable known : list (target * result).
Hypothesis Known : known_libraries pr = Ret known.

Lemma alwayslink_spec d : is_alwayslink known d = false <-> plain_library pr d.
Proof.
  unfold is_alwayslink, plain_library. destruct (map_find d known) as [r|] eqn:E.
  - apply (known_spec _ _ _ _ Known) in E as R. split; [eauto|]. intros (r' & R' & H). apply (known_spec _ _ _ _ Known) in R'. congruence.
  - split; [discriminate|]. intros (r' & R' & _). exfalso. eapply known_none; eauto.
Qed.
Lemma testonly_spec t d : is_testonly_compatible known t d = true <-> test_compatible pr t d.
Proof.
  unfold is_testonly_compatible, test_compatible. destruct (map_find d known) as [rd|] eqn:Ed.
  2:{ split; auto. intros _ r r' R. exfalso. eapply known_none; eauto. }
  assert (Rd := Ed). apply (known_spec _ _ _ _ Known) in Rd.
  destruct (q_testonly rd) eqn:T; cbn [negb].
  2:{ split; auto. intros _ r r' R. apply (known_spec _ _ _ _ Known) in R. intros. congruence. }
  destruct (map_find t known) as [rt|] eqn:Et.
  2:{ split; auto. intros _ r r' _ R. exfalso. eapply known_none; [exact Known|exact Et|exact R]. }
  assert (Rt := Et). apply (known_spec _ _ _ _ Known) in Rt. rewrite orb_true_iff, str_eqb_eq. split.
  - intros H r r' _ R' _. apply (known_spec _ _ _ _ Known) in R'. assert (r' = rt) by congruence. now subst.
  - intros H. apply (H rd rt); auto.
Qed.
Lemma visible_by_spec l t d any b : visible_by l t d any = Ret b ->
  (b = true <-> (exists s, In s (label_texts l) /\ grants (tpackage d) t s) \/
                (any = false /\ forall s, In s (label_texts l) -> ~ understood (tpackage d) s)).
Proof.
  revert any. induction l as [|n l IH]; intros any E; cbn [visible_by] in E.
  - injection E as <-. cbn. split.
    + intros H. right. split; [now destruct any|intros s []].
    + intros [(s & [] & _)|[-> _]]; auto.
  - destruct (cast_scalar n) as [o| |] eqn:Ec; try discriminate. cbn [bind] in E. unfold label_texts. cbn [flat_map]. fold (label_texts l).
    destruct o as [[k v]|].
    + assert (Ea : as_text n = Some v) by (destruct n; cbn in Ec |- *; congruence). rewrite Ea. cbn [app].
      destruct (parse_visibility (v_text v) (tpackage d)) as [pt| |] eqn:Ev.
      * destruct (match_target pt t) eqn:Em.
        -- injection E as <-. split; auto. intros _. left. exists (v_text v). split; [left; auto|]. exists pt; auto.
        -- rewrite (IH _ E). split.
           ++ intros [(s & I & G)|[C _]]; [|discriminate]. left. exists s. split; [right|]; auto.
           ++ intros [(s & [<-|I] & G)|[_ C]].
              ** destruct G as (pt' & Hp & Hm). rewrite Ev in Hp. congruence.
              ** left. eauto.
              ** exfalso. apply (C (v_text v)); [left; auto|]. exists pt; auto.
      * rewrite (IH _ E). split.
        -- intros [(s & I & G)|[C D]]; [left; exists s; split; [right|]; auto|]. right. split; auto. intros s [<-|I]; auto. intros (pt & Hp). congruence.
        -- intros [(s & [<-|I] & G)|[C D]]; [destruct G as (pt & Hp & _); congruence|left; eauto|]. right. split; auto. intros s I. apply D. right; auto.
      * rewrite (IH _ E). split.
        -- intros [(s & I & G)|[C D]]; [left; exists s; split; [right|]; auto|]. right. split; auto. intros s [<-|I]; auto. intros (pt & Hp). congruence.
        -- intros [(s & [<-|I] & G)|[C D]]; [destruct G as (pt & Hp & _); congruence|left; eauto|]. right. split; auto. intros s I. apply D. right; auto.
    + assert (Ea : as_text n = None) by (destruct n; cbn in Ec |- *; congruence). rewrite Ea. cbn [app]. apply IH; auto.
Qed.
Lemma can_see_spec t d b : can_see known t d = Ret b -> (b = true <-> may_use pr t d).
Proof.
  unfold can_see, may_use. destruct (map_find d known) as [r|] eqn:Ed.
  2:{ intros H. injection H as <-. split; auto. intros _ r R. exfalso. eapply known_none; eauto. }
  assert (Rd := Ed). apply (known_spec _ _ _ _ Known) in Rd. intros E.
  assert (G : (b = true <-> v_text (q_deprecation r) = [] /\
    (tpackage t = tpackage d \/ tname d <> $"protobuf_headers" /\
     match q_visibility r with
     | None => True
     | Some l => (exists s, In s (label_texts l) /\ grants (tpackage d) t s) \/ (forall s, In s (label_texts l) -> ~ understood (tpackage d) s)
     end))).
  { destruct (is_nil (v_text (q_deprecation r))) eqn:En; cbn [negb] in E.
    2:{ injection E as <-. apply is_nil_false in En. split; [discriminate|tauto]. }
    apply is_nil_true in En. destruct (package_eqb (tpackage t) (tpackage d)) eqn:Ep.
    { injection E as <-. apply package_eqb_eq in Ep. tauto. }
    assert (Np : tpackage t <> tpackage d) by (intros C; apply package_eqb_eq in C; congruence). destruct (str_eqb_spec (tname d) ($"protobuf_headers")) as [Eh|Nh].
    { injection E as <-. split; [discriminate|tauto]. }
    destruct (q_visibility r) as [l|].
    - apply visible_by_spec in E. rewrite E. tauto.
    - injection E as <-. tauto. }
  rewrite G. split.
  - intros H r' R'. apply (known_spec _ _ _ _ Known) in R'. assert (r' = r) by congruence. subst. auto.
  - intros H. apply H; auto.
Qed.
Lemma visible_only_spec t ts v : visible_only known t ts = Ret v -> forall x, In x v <-> In x ts /\ may_use pr t x.
Proof.
  revert v; induction ts as [|a ts IH]; intros v E x; cbn [visible_only] in E.
  - injection E as <-. cbn. tauto.
  - destruct (can_see known t a) as [b| |] eqn:Ec; try discriminate. cbn [bind] in E.
    destruct (visible_only known t ts) as [rest| |] eqn:Er; try discriminate. cbn [bind] in E. injection E as <-.
    apply can_see_spec in Ec. specialize (IH _ eq_refl x). cbn [In]. destruct b; cbn [In].
    + rewrite IH. split; [intros [<-|H]; tauto|]. tauto.
    + rewrite IH. split; [tauto|]. intros [[<-|H] M]; [apply Ec in M; discriminate|tauto].
Qed.
End Predicates.

(** * What sources need *)
Section Needed.
Variable pr : parsed_project.
Variable w : workspace.
Variable read_file : str -> option str.
Variable headers : provided_set.
Variable known : list (target * result).
Hypothesis Known : known_libraries pr = Ret known.
Variable t : target.
Variable p : package.

Section Sources.
Variable srcs : list str.
Local Notation attr := (attribute headers t p srcs).
Definition is_own (inc : str) : Prop := exists s, In s srcs /\ (inc = s \/ inc = path (tpackage t) ++ $"/" ++ s \/ inc = $"/" ++ s).

Lemma attribute_spec inc :
  match attr inc with
  | OwnHeader => is_own inc
  | Provided ts => ~ is_own inc /\ provided_by headers p inc ts
  | Unaccounted => ~ is_own inc /\ forall ts, ~ provided_by headers p inc ts
  end.
Proof.
  unfold attribute, provided_by. destruct (is_header_in_list inc srcs (path (tpackage t))) eqn:E1.
  { apply header_in_list_spec in E1 as (s & I & H). exists s. tauto. }
  destruct (is_header_in_list inc srcs []) eqn:E2.
  { apply header_in_list_spec in E2 as (s & I & H). exists s. cbn [app] in H. tauto. }
  assert (N : ~ is_own inc).
  { intros (s & I & [H|[H|H]]).
    - assert (C : is_header_in_list inc srcs [] = true) by (apply header_in_list_spec; eauto). congruence.
    - assert (C : is_header_in_list inc srcs (path (tpackage t)) = true) by (apply header_in_list_spec; eauto). congruence.
    - assert (C : is_header_in_list inc srcs [] = true) by (apply header_in_list_spec; eauto). congruence. }
  destruct (find_by_suffix headers inc 2) as [r|] eqn:F1; [split; auto; left; eauto|].
  destruct (find_by_suffix headers (qualified_file p inc) 2) as [r|] eqn:F2; [split; auto; right; eauto|].
  split; auto. intros ts [(r & C & _)|(_ & r & C & _)]; congruence.
Qed.
Lemma provided_by_fun inc ts ts' : provided_by headers p inc ts -> provided_by headers p inc ts' -> ts = ts'.
Proof. intros [(r & H & ->)|(H & r & H1 & ->)] [(r' & H' & ->)|(H' & r' & H1' & ->)]; congruence. Qed.
Lemma attribute_provided inc ts : attr inc = Provided ts <-> ~ is_own inc /\ provided_by headers p inc ts.
Proof.
  pose proof (attribute_spec inc) as H. split.
  - intros E. now rewrite E in H.
  - intros [N P]. destruct (attr inc) as [|ts'|]; [contradiction| |].
    + f_equal. eapply provided_by_fun; [apply H|exact P].
    + exfalso. apply (proj2 H ts P).
Qed.
Lemma attribute_accounted inc : attr inc <> Unaccounted <-> is_own inc \/ exists ts, provided_by headers p inc ts.
Proof.
  pose proof (attribute_spec inc) as H. destruct (attr inc) as [|ts|].
  - split; [auto|discriminate].
  - split; [right; exists ts; tauto|discriminate].
  - split; [congruence|]. intros [O|(ts & P)]; exfalso; [tauto|]. apply (proj2 H ts P).
Qed.

Lemma needed_by_includes_spec incs : forall r ok, needed_by_includes headers known t p srcs incs = Ret (r, ok) ->
  (forall v, In v r -> v <> [] /\ exists inc ts, In inc incs /\ attr inc = Provided ts /\ visible_only known t ts = Ret v) /\
  (forall inc ts, In inc incs -> attr inc = Provided ts -> exists v, visible_only known t ts = Ret v /\ (v <> [] -> In v r)) /\
  (ok = true <-> forall inc, In inc incs -> attr inc <> Unaccounted).
Proof.
  induction incs as [|i incs IH]; intros r ok E; cbn [needed_by_includes] in E.
  - injection E as <- <-. split; [intros v []|]. split; [intros inc ts []|]. split; [intros _ inc []|auto].
  - destruct (attr i) as [|ts|] eqn:Ea.
    + destruct (IH _ _ E) as (H1 & H2 & H3). split; [|split].
      * intros v I. destruct (H1 v I) as (Nv & inc & ts & Ii & A & V). split; auto. exists inc, ts. cbn; auto.
      * intros inc ts [<-|I] A; [congruence|]. eapply H2; eauto.
      * rewrite H3. split; [intros H inc [<-|I]; [congruence|auto]|intros H inc I; apply H; cbn; auto].
    + destruct (visible_only known t ts) as [v0| |] eqn:Ev; try discriminate. cbn [bind] in E.
      destruct (needed_by_includes headers known t p srcs incs) as [[r0 ok0]| |] eqn:Er; try discriminate. cbn [bind] in E.
      destruct (IH _ _ eq_refl) as (H1 & H2 & H3).
      assert (Ek : ok = ok0 /\ (forall v, In v r <-> In v r0 \/ (v = v0 /\ v <> []))).
      { destruct (is_nil v0) eqn:En; injection E as <- <-; split; auto; intros v.
        - apply is_nil_true in En. subst v0. split; [auto|]. intros [H|[-> H]]; [auto|congruence].
        - apply is_nil_false in En. cbn [In]. split; [intros [<-|H]; auto|]. intros [H|[-> H]]; auto. }
      destruct Ek as [-> Er']. split; [|split].
      * intros v I. apply Er' in I as [I|[-> Nv]].
        -- destruct (H1 v I) as (Nv & inc & ts' & Ii & A & V). split; auto. exists inc, ts'. cbn; auto.
        -- split; auto. exists i, ts. cbn; auto.
      * intros inc ts' [<-|I] A.
        -- rewrite Ea in A. injection A as <-. exists v0. split; auto. intros Nv. apply Er'. auto.
        -- destruct (H2 inc ts' I A) as (v & V & Iv). exists v. split; auto. intros Nv. apply Er'. auto.
      * rewrite H3. split; [intros H inc [<-|I]; [congruence|auto]|intros H inc I; apply H; cbn; auto].
    + destruct (needed_by_includes headers known t p srcs incs) as [[r0 ok0]| |] eqn:Er; try discriminate. cbn [bind] in E. injection E as <- <-.
      destruct (IH _ _ eq_refl) as (H1 & H2 & H3). split; [|split].
      * intros v I. destruct (H1 v I) as (Nv & inc & ts & Ii & A & V). split; auto. exists inc, ts. cbn; auto.
      * intros inc ts [<-|I] A; [congruence|]. eapply H2; eauto.
      * split; [discriminate|]. intros H. exfalso. apply (H i); cbn; auto.
Qed.

Local Notation opens src := (try_open read_file (fully_qualified_file w p src)).
Definition has_include (todo : list str) (inc : str) : Prop :=
  exists src content, In src todo /\ opens src = Some content /\ In inc (map snd (extract_cc_includes content)).
Lemma needed_by_sources_spec todo : forall r ok, needed_by_sources w read_file headers known t p srcs todo = Ret (r, ok) ->
  (forall v, In v r -> v <> [] /\ exists inc ts, has_include todo inc /\ attr inc = Provided ts /\ visible_only known t ts = Ret v) /\
  (forall inc ts, has_include todo inc -> attr inc = Provided ts -> exists v, visible_only known t ts = Ret v /\ (v <> [] -> In v r)) /\
  (ok = true <-> (forall src, In src todo -> exists c, opens src = Some c) /\ forall inc, has_include todo inc -> attr inc <> Unaccounted).
Proof.
  induction todo as [|s todo IH]; intros r ok E; cbn [needed_by_sources] in E.
  - injection E as <- <-. split; [intros v []|]. split; [intros inc ts (x & c & [] & _)|]. split; auto. intros _. split; [intros src []|intros inc (x & c & [] & _)].
  - assert (W : forall inc, has_include todo inc -> has_include (s :: todo) inc).
    { intros inc (x & c & I & O & J). exists x, c. cbn; auto. }
    destruct (opens s) as [content|] eqn:Eo.
    + destruct (needed_by_includes headers known t p srcs (map snd (extract_cc_includes content))) as [[r0 ok0]| |] eqn:E0; try discriminate. cbn [bind] in E.
      destruct (needed_by_sources w read_file headers known t p srcs todo) as [[r1 ok1]| |] eqn:E1; try discriminate. cbn [bind] in E. injection E as <- <-.
      destruct (IH _ _ eq_refl) as (H1 & H2 & H3). destruct (needed_by_includes_spec _ _ _ E0) as (G1 & G2 & G3).
      assert (W0 : forall inc, In inc (map snd (extract_cc_includes content)) -> has_include (s :: todo) inc).
      { intros inc I. exists s, content. cbn; auto. }
      assert (W1 : forall inc, has_include (s :: todo) inc -> In inc (map snd (extract_cc_includes content)) \/ has_include todo inc).
      { intros inc (x & c & [<-|I] & O & J); [left; congruence|]. right. exists x, c. auto. }
      split; [|split].
      * intros v I. apply in_app_or in I as [I|I].
        -- destruct (G1 v I) as (Nv & inc & ts & Ii & A & V). split; auto. exists inc, ts. auto.
        -- destruct (H1 v I) as (Nv & inc & ts & Ii & A & V). split; auto. exists inc, ts. auto.
      * intros inc ts I A. apply W1 in I as [I|I].
        -- destruct (G2 _ _ I A) as (v & V & J). exists v. split; auto. intros Nv. apply in_or_app; auto.
        -- destruct (H2 _ _ I A) as (v & V & J). exists v. split; auto. intros Nv. apply in_or_app; auto.
      * rewrite andb_true_iff, G3, H3. split.
        -- intros (K1 & K2 & K3). split; [intros src [<-|I]; eauto|]. intros inc I. apply W1 in I as [I|I]; auto.
        -- intros (K2 & K3). split; [intros inc I; auto|]. split; [intros src I; apply K2; cbn; auto|]. intros inc I. auto.
    + destruct (needed_by_sources w read_file headers known t p srcs todo) as [[r1 ok1]| |] eqn:E1; try discriminate. cbn [bind] in E. injection E as <- <-.
      destruct (IH _ _ eq_refl) as (H1 & H2 & H3).
      assert (W1 : forall inc, has_include (s :: todo) inc -> has_include todo inc).
      { intros inc (x & c & [<-|I] & O & J); [congruence|]. exists x, c. auto. }
      split; [|split].
      * intros v I. destruct (H1 v I) as (Nv & inc & ts & Ii & A & V). split; auto. exists inc, ts. auto.
      * intros inc ts I A. apply W1 in I. eauto.
      * split; [discriminate|]. intros (K & _). destruct (K s) as (c & C); [cbn; auto|]. congruence.
Qed.
End Sources.
End Needed.

(** * Declared dependencies *)
Lemma apart_unique l : ForallOrdPairs apart l -> forall a b x, In a l -> In b l -> In x a -> In x b -> a = b.
Proof.
  induction 1 as [|s l F O IH]; intros a b x Ia Ib Xa Xb; [destruct Ia|]. rewrite Forall_forall in F.
  destruct Ia as [<-|Ia]; destruct Ib as [<-|Ib]; auto.
  - exfalso. apply (F b Ib x); auto.
  - exfalso. apply (F a Ia x); auto.
  - eapply IH; eauto.
Qed.
Lemma apart_filter f l : ForallOrdPairs apart l -> ForallOrdPairs apart (filter f l).
Proof.
  induction 1 as [|s l F O IH]; cbn; [constructor|]. destruct (f s); auto. constructor; auto.
  apply Forall_forall. intros x I. apply filter_In in I as [I _]. rewrite Forall_forall in F. auto.
Qed.
Lemma filter_none {A} (f : A -> bool) l : (forall x, In x l -> f x = true) -> filter f l = l.
Proof. induction l as [|x l IH]; intros H; cbn; auto. rewrite H by (cbn; auto). f_equal. apply IH. intros y I. apply H. cbn; auto. Qed.
Lemma check_off_spec d l : ForallOrdPairs apart l ->
  match check_off d l with
  | None => forall s, In s l -> ~ In d s
  | Some (s, l') => In s l /\ In d s /\ l' = filter (fun s => negb (set_mem d s)) l
  end.
Proof.
  induction 1 as [|s l F O IH]; cbn [check_off]; [intros s []|].
  destruct (set_mem d s) eqn:E.
  - apply set_mem_in in E as I. split; [cbn; auto|]. split; auto. cbn [filter]. rewrite E. cbn [negb]. symmetry. apply filter_none.
    intros x Ix. apply negb_true_iff, set_mem_false. rewrite Forall_forall in F. apply (F x Ix d I).
  - destruct (check_off d l) as [[c r]|].
    + destruct IH as (I1 & I2 & ->). split; [cbn; auto|]. split; auto. cbn [filter]. now rewrite E.
    + apply set_mem_false in E. intros x [<-|I]; auto.
Qed.
Lemma checked_find (d : target) (s : list target) : forall (m : list (target * target)) (c : target), msorted m -> msorted (fold_left (fun m c => map_insert c d m) s m) /\
  map_find c (fold_left (fun m c => map_insert c d m) s m) =
    match map_find c m with Some v => Some v | None => if set_mem c s then Some d else None end.
Proof.
  induction s as [|x s IH]; intros m c Hm; cbn [fold_left].
  - split; auto. cbn. destruct (map_find c m); auto.
  - destruct (IH (map_insert x d m) c (map_insert_sorted _ _ _ Hm)) as [S1 ->]. split; auto.
    rewrite (map_insert_find _ _ _ _ Hm). unfold set_mem. cbn [existsb]. destruct (keqb_spec c x) as [e|N].
    + subst. destruct (map_find x m); auto.
    + destruct (map_find c m); auto.
Qed.

Definition struck (ds : list target) (s : list target) : bool := existsb (fun d => set_mem d s) ds.
Lemma struck_app ds d s : struck (ds ++ [d]) s = struck ds s || set_mem d s.
Proof. unfold struck. rewrite existsb_app. cbn. now rewrite orb_false_r. Qed.
Definition left_over (sets : list (list target)) (ds : list target) : list (list target) :=
  filter (fun s => negb (struck ds s)) sets.

Section Declared.
Variable ignore_keep : bool.
Variable known : list (target * result).
Variable t : target.
Variable f : parsed_file.
Variable all_known : bool.
Variable sets : list (list target).
Hypothesis Apart : ForallOrdPairs apart sets.

Definition tracks (ds : list target) (needed : list (list target)) (checked : list (target * target)) : Prop :=
  needed = left_over sets ds /\ msorted checked /\
  forall c, (exists v, map_find c checked = Some v) <-> exists s, In s sets /\ In c s /\ struck ds s = true.
(** The dependency is not needed and may go. *)
Definition goes (dep : view) : Prop :=
  exists d line, parse_target (v_text dep) (tpackage t) = Some d /\ (forall s, In s sets -> ~ In d s) /\ all_known = true /\
    is_alwayslink known d = false /\ surrounding_line f dep = Ret line /\ (ignore_keep || negb (keep_comment line)) = true.
Definition minor (e : event) : Prop :=
  match e with EvInvalid _ _ | EvAgain _ _ _ | EvUnsure _ _ => True | _ => False end.

Lemma check_dep_spec dep ds needed checked needed' checked' ev : tracks ds needed checked ->
  check_dep ignore_keep known t f all_known dep needed checked = Ret (needed', checked', ev) ->
  tracks (ds ++ resolved (tpackage t) [v_text dep]) needed' checked' /\
  ((goes dep /\ ev = [EvRemove t (v_text dep)]) \/ (~ goes dep /\ Forall minor ev)).
Proof.
  intros (-> & Sc & Hc) E. unfold check_dep in E. unfold resolved. cbn [flat_map].
  destruct (parse_target (v_text dep) (tpackage t)) as [d|] eqn:Ep.
  2:{ injection E as <- <- <-. rewrite app_nil_r. split; [split; [|split]; auto|]. right. split; [intros (d & line & C & _); congruence|]. repeat constructor. }
  cbn [app]. pose proof (check_off_spec d (left_over sets ds) (apart_filter _ _ Apart)) as CO.
  destruct (check_off d (left_over sets ds)) as [[s needed1]|].
  - injection E as <- <- <-. destruct CO as (Is & Id & ->). unfold left_over in Is. apply filter_In in Is as [Is Ns]. split.
    + split; [|split].
      * unfold left_over. clear. induction sets as [|x l IH]; cbn [filter]; auto. rewrite struck_app.
        destruct (struck ds x); cbn [negb orb]; auto. cbn [filter]. destruct (set_mem d x); cbn [negb]; auto. f_equal. auto.
      * now apply checked_find.
      * intros c. destruct (checked_find d s checked c Sc) as [_ ->]. split.
        -- intros [v Hv]. destruct (map_find c checked) as [v'|] eqn:Ec.
           ++ destruct (proj1 (Hc c) (ex_intro _ v' Ec)) as (s' & I1 & I2 & I3). exists s'. rewrite struck_app, I3. auto.
           ++ destruct (set_mem c s) eqn:Em; [|discriminate]. apply set_mem_in in Em. exists s. repeat split; auto. rewrite struck_app.
              apply orb_true_iff. right. now apply set_mem_in.
        -- intros (s' & I1 & I2 & I3). rewrite struck_app in I3. apply orb_true_iff in I3 as [I3|I3].
           ++ destruct (proj2 (Hc c) (ex_intro _ s' (conj I1 (conj I2 I3)))) as [v Hv]. rewrite Hv. eauto.
           ++ apply set_mem_in in I3. assert (s' = s) by (eapply apart_unique; eauto). subst s'. apply set_mem_in in I2. rewrite I2.
              destruct (map_find c checked); eauto.
    + right. split; [|constructor]. intros (d' & line & H & N & _). assert (d' = d) by congruence. subst d'. apply (N s Is Id).
  - assert (ST : forall s, In s sets -> In d s -> struck ds s = true).
    { intros s I J. destruct (struck ds s) eqn:Es; auto. exfalso. apply (CO s); auto. apply filter_In. split; auto. now rewrite Es. }
    assert (TR : tracks (ds ++ [d]) (left_over sets ds) checked).
    { split; [|split]; auto.
      - unfold left_over. apply filter_ext_in. intros s I. rewrite struck_app. f_equal. destruct (set_mem d s) eqn:Em; [|now rewrite orb_false_r].
        apply set_mem_in in Em. rewrite (ST s I Em). auto.
      - intros c. rewrite Hc. split; intros (s & I1 & I2 & I3); exists s; repeat split; auto.
        + rewrite struck_app, I3. auto.
        + rewrite struck_app in I3. apply orb_true_iff in I3 as [I3|I3]; auto. apply set_mem_in in I3. auto. }
    destruct (map_find d checked) as [prev|] eqn:Ec.
    + injection E as <- <- <-. split; auto. right. split; [|repeat constructor]. intros (d' & line & H & N & _). assert (d' = d) by congruence. subst.
      destruct (proj1 (Hc d) (ex_intro _ prev Ec)) as (s & I1 & I2 & _). apply (N s I1 I2).
    + assert (NN : forall s, In s sets -> ~ In d s).
      { intros s I J. destruct (proj2 (Hc d) (ex_intro _ s (conj I (conj J (ST s I J))))) as [v Hv]. congruence. }
      destruct (all_known && negb (is_alwayslink known d)) eqn:Ea.
      * destruct (surrounding_line f dep) as [line| |] eqn:El; try discriminate. cbn [bind] in E. injection E as <- <- <-. split; auto.
        apply andb_true_iff in Ea as [A1 A2]. apply negb_true_iff in A2. destruct (ignore_keep || negb (keep_comment line)) eqn:Ek.
        -- left. split; auto. exists d, line. auto 10.
        -- right. split; [|constructor]. intros (d' & line' & _ & _ & _ & _ & L & K). rewrite El in L. injection L as <-. congruence.
      * injection E as <- <- <-. split; auto. right. split.
        -- intros (d' & line' & H & _ & A1 & A2 & _). assert (d' = d) by congruence. subst d'. rewrite A1, A2 in Ea. discriminate.
        -- destruct all_known; repeat constructor.
Qed.
Lemma check_deps_spec deps : forall ds needed checked needed' ev, tracks ds needed checked ->
  check_deps ignore_keep known t f all_known deps needed checked = Ret (needed', ev) ->
  needed' = left_over sets (ds ++ resolved (tpackage t) (map v_text deps)) /\
  (forall e, In e ev -> minor e \/ exists dep, In dep deps /\ goes dep /\ e = EvRemove t (v_text dep)) /\
  (forall dep, In dep deps -> goes dep -> In (EvRemove t (v_text dep)) ev).
Proof.
  induction deps as [|dep deps IH]; intros ds needed checked needed' ev T E; cbn [check_deps] in E.
  - injection E as <- <-. cbn. rewrite app_nil_r. split; [apply T|]. split; [intros e []|intros dep []].
  - destruct (check_dep ignore_keep known t f all_known dep needed checked) as [[[n1 c1] e1]| |] eqn:E1; try discriminate. cbn [bind] in E.
    destruct (check_deps ignore_keep known t f all_known deps n1 c1) as [[n2 e2]| |] eqn:E2; try discriminate. cbn [bind] in E. injection E as <- <-.
    destruct (check_dep_spec _ _ _ _ _ _ _ T E1) as [T1 H1]. destruct (IH _ _ _ _ _ T1 E2) as (-> & H2 & H3).
    split; [|split].
    + rewrite <- app_assoc. unfold resolved. cbn [map flat_map]. now rewrite app_nil_r.
    + intros e I. apply in_app_or in I as [I|I].
      * destruct H1 as [[G ->]|[_ F]].
        -- destruct I as [<-|[]]. right. exists dep. cbn; auto.
        -- rewrite Forall_forall in F. auto.
      * destruct (H2 e I) as [M|(x & Ix & G & ->)]; auto. right. exists x. cbn; auto.
    + intros x [<-|I] G; apply in_or_app.
      * left. destruct H1 as [[_ ->]|[N _]]; [cbn; auto|contradiction].
      * right. auto.
Qed.
Lemma tracks_init : tracks [] sets [].
Proof.
  split; [|split]; [|constructor|].
  - unfold left_over. cbn. symmetry. now apply filter_none.
  - intros c. cbn. split; [intros [v H]; discriminate|]. intros (s & _ & _ & H). discriminate.
Qed.
End Declared.

Lemma add_all_spec known t sets ev : add_all_needed known t sets = Ret ev ->
  forall e, In e ev <-> exists s, In s sets /\ add_needed known t s = Ret e.
Proof.
  revert ev; induction sets as [|s sets IH]; intros ev E e; cbn [add_all_needed] in E.
  - injection E as <-. split; [intros []|intros (s & [] & _)].
  - destruct (add_needed known t s) as [e0| |] eqn:E0; try discriminate. cbn [bind] in E.
    destruct (add_all_needed known t sets) as [r| |] eqn:E1; try discriminate. cbn [bind] in E. injection E as <-.
    cbn [In]. rewrite (IH _ eq_refl). split.
    + intros [<-|(x & I & H)]; [exists s|exists x]; auto.
    + intros (x & [<-|I] & H); [left; congruence|right; eauto].
Qed.
Lemma add_all_defined known t sets ev s : add_all_needed known t sets = Ret ev -> In s sets -> exists e, add_needed known t s = Ret e.
Proof.
  revert ev; induction sets as [|x sets IH]; intros ev E I; [destruct I|]. cbn [add_all_needed] in E.
  destruct (add_needed known t x) as [e0| |] eqn:E0; try discriminate. cbn [bind] in E.
  destruct (add_all_needed known t sets) as [r| |] eqn:E1; try discriminate. destruct I as [<-|I]; eauto.
Qed.

(** * Lines *)
Lemma keep_spec line : keep_comment line = true <-> keeps line.
Proof.
  unfold keeps. induction line as [|c line IH]; cbn [keep_comment].
  - split; [discriminate|]. intros (a & b & c & H & _). destruct a; discriminate.
  - rewrite orb_true_iff, andb_true_iff, IH, ceqb_eq. split.
    + intros [[-> H]|(a & b & c' & -> & N)].
      * destruct (take_until_nl_spec line) as (rest & Hl & Nn & _ & _). apply contains_iff in H as (x & y & H).
        exists [], x, (y ++ rest). split.
        -- cbn [app]. change (list_ascii_of_string "#") with ["#"%char]. cbn [app]. f_equal. rewrite Hl, H. now rewrite <- !app_assoc.
        -- intros I. apply Nn. rewrite H. apply in_or_app; auto.
      * exists (c :: a), b, c'. auto.
    + intros (a & b & c' & H & N). destruct a as [|x a].
      * left. change (list_ascii_of_string "#") with ["#"%char] in H. cbn [app] in H. injection H as -> ->. split; auto.
        apply contains_iff. destruct (take_until_nl_spec (b ++ $"keep" ++ c')) as (rest & Hl & Nn & Ln & Hr).
        set (k := take_until_nl (b ++ $"keep" ++ c')) in *.
        assert (Lk : length (b ++ $"keep") <= k).
        { destruct (Nat.le_gt_cases (length (b ++ $"keep")) k) as [|L]; auto. exfalso. destruct Hr as [->|[r ->]].
          - rewrite app_nil_r in Hl. apply (f_equal (@length _)) in Hl. rewrite firstn_length_le in Hl by auto. rewrite app_assoc, app_length in Hl. lia.
          - assert (X : nth_error (b ++ $"keep" ++ c') k = Some NL).
            { rewrite Hl, nth_error_app2; rewrite firstn_length_le by auto; [|lia]. now rewrite Nat.sub_diag. }
            rewrite app_assoc, nth_error_app1 in X by auto. apply nth_error_In in X. apply in_app_or in X as [X|X]; auto.
            cbn in X. repeat (destruct X as [X|X]; [discriminate|]). destruct X. }
        change (exists x y, firstn k (b ++ $"keep" ++ c') = x ++ $"keep" ++ y).
        exists b, (firstn (k - length (b ++ $"keep")) c'). rewrite (app_assoc b ($"keep") c'), firstn_app. rewrite (firstn_all2 (n := k)) by exact Lk. now rewrite <- app_assoc.
      * right. cbn [app] in H. injection H as -> ->. exists a, b, c'. auto.
Qed.
Lemma line_spec f v line : surrounding_line f v = Ret line -> on_line (pf_content f) v line.
Proof.
  unfold surrounding_line, on_line. destruct (v_org v) as [off|o l]; [|intros H; injection H as <-; auto].
  destruct (get_surrounding_line (pf_content f) off (length (v_text v))) as [[s n]|] eqn:E; [|discriminate]. intros H. injection H as <-.
  set (content := pf_content f) in *. set (len := length (v_text v)) in *.
  assert (L : off + len <= length content).
  { unfold get_surrounding_line in E. destruct (Nat.leb_spec (off + len) (length content)); [auto|discriminate]. }
  destruct (surrounding_line_spec content off len L) as (s' & n' & E' & H1 & H2 & H3 & H4 & H5 & H6 & H7). rewrite E in E'. injection E' as <- <-.
  exists (firstn s content), (firstn (off - s) (skipn s content)), (firstn (s + n - (off + len)) (skipn (off + len) content)), (skipn (s + n) content).
  assert (LL : length (firstn n (skipn s content)) = n) by (rewrite firstn_length, skipn_length; lia).
  assert (La : length (firstn (off - s) (skipn s content)) = off - s) by (rewrite firstn_length, skipn_length; lia).
  assert (Lb : length (firstn (s + n - (off + len)) (skipn (off + len) content)) = s + n - (off + len)) by (rewrite firstn_length, skipn_length; lia).
  rewrite LL, La, Lb. repeat split.
  - rewrite <- (firstn_skipn s content) at 1. f_equal. rewrite <- (firstn_skipn n (skipn s content)) at 1. f_equal.
    clear. revert s. induction content as [|c content IH]; intros s; [now rewrite !skipn_nil|]. destruct s; [reflexivity|]. cbn [skipn Nat.add]. apply IH.
  - rewrite firstn_length. lia.
  - lia.
  - rewrite firstn_firstn. f_equal. lia.
  - rewrite skipn_firstn_comm. replace (n - (n - (s + n - (off + len)))) with (s + n - (off + len)) by lia. f_equal.
    replace (n - (s + n - (off + len))) with (off + len - s) by lia. replace (off + len) with (s + (off + len - s)) at 2 by lia.
    generalize (off + len - s). clear. revert s. induction content as [|c content IH]; intros s k; [now rewrite !skipn_nil|]. destruct s; [reflexivity|]. cbn [skipn Nat.add]. apply IH.
  - intros I. apply in_app_or in I as [I|I]; auto.
  - destruct s as [|s]; [left; reflexivity|]. right. destruct H4 as [H4|H4]; [discriminate|]. apply nth_error_split in H4 as (a & b & Hc & La').
    exists a. rewrite Hc. rewrite firstn_app, firstn_all2 by lia. replace (S s - length a) with 1 by lia. reflexivity.
  - destruct H5 as [->|H5]; [left; apply skipn_all|]. right. apply nth_error_split in H5 as (a & b & Hc & La').
    exists b. rewrite Hc, skipn_app, skipn_all2 by lia. replace (s + n - length a) with 0 by lia. reflexivity.
Qed.

(** * Edits of a target *)
Lemma string_list_entries l vs : string_list l = Ret vs -> vs = entries l.
Proof.
  revert vs; induction l as [|n l IH]; intros vs E; cbn in E; [injection E as <-; auto|].
  unfold entries. cbn [flat_map]. fold (entries l).
  destruct (cast_scalar n) as [s| |] eqn:Ec; try discriminate. destruct (string_list l) as [rest| |] eqn:El; try discriminate. cbn in E.
  rewrite <- (IH _ eq_refl). destruct s as [[k v]|].
  - assert (Ea : as_text n = Some v) by (destruct n; cbn in Ec |- *; congruence). rewrite Ea. injection E as <-. destruct (is_nil (v_text v)); auto.
  - assert (Ea : as_text n = None) by (destruct n; cbn in Ec |- *; congruence). rewrite Ea. injection E as <-. auto.
Qed.
Lemma extract_entries o vs : extract_string_list o = Ret vs -> vs = entries (list_of o).
Proof. unfold extract_string_list. intros E. apply string_list_entries in E. destruct o; exact E. Qed.
Lemma entries_texts l : map v_text (entries l) = texts l.
Proof.
  unfold entries, texts. induction l as [|n l IH]; cbn [flat_map]; auto. rewrite map_app, IH. f_equal.
  destruct (as_text n) as [v|]; auto. destruct (is_nil (v_text v)); auto.
Qed.

(** What is needed is what the includes need. *)
Lemma needed_spec pr w read_file headers known t details p needed ak : known_libraries pr = Ret known ->
  needed_by_sources w read_file headers known t p (sources details) (sources details) = Ret (needed, ak) ->
  (forall v, In v needed -> needs pr w read_file headers t details p v) /\
  (forall v, needs pr w read_file headers t details p v -> exists v', In v' needed /\ forall x, In x v <-> In x v') /\
  (ak = true <-> all_accounted w read_file headers t details p).
Proof.
  intros Known E3. destruct (needed_by_sources_spec w read_file headers known t p (sources details) (sources details) needed ak E3) as (N1 & N2 & N3).
  assert (U : forall inc, has_include w read_file p (sources details) inc <-> uses w read_file details p inc).
  { intros inc. unfold has_include, uses. split.
    - intros (src & c & I & O & J). apply in_map_iff in J as ((off & i) & <- & J). apply extract_spec in J. exists src, c, off. apply try_open_spec in O. auto.
    - intros (src & c & off & I & O & J). apply extract_spec in J. exists src, c. apply try_open_spec in O. split; [|split]; auto.
      apply in_map_iff. exists (off, inc). auto. }
  split; [|split; [|split]].
  - intros v H. destruct (N1 v H) as (_ & inc & ts & I & A & V). apply U in I. apply (attribute_provided read_file) in A as [A1 A2]. split; [apply (N1 v H)|]. exists inc, ts. split; [|split; [|split]]; auto.
    apply (visible_only_spec pr known Known t ts v V).
  - intros v (Nv & inc & ts & I & A1 & A2 & H). apply U in I. destruct (N2 inc ts I) as (v' & V & J); [apply (attribute_provided read_file); auto|].
    pose proof (visible_only_spec pr known Known t ts v' V) as VS. assert (S : forall x, In x v <-> In x v') by (intros x; rewrite H, VS; tauto).
    exists v'. split; auto. apply J. destruct v as [|x v]; [contradiction|]. intros ->. apply (S x). cbn; auto.
  - intros H. split.
    + intros src I. destruct (proj1 (proj1 N3 H) src I) as [c O]. exists c. now apply try_open_spec.
    + intros inc I. apply U in I. apply (attribute_accounted read_file headers t p (sources details)). now apply (proj2 (proj1 N3 H)).
  - intros [A1 A2]. apply N3. split.
    + intros src I. destruct (A1 src I) as [c O]. exists c. now apply try_open_spec.
    + intros inc I. apply U in I. apply (attribute_accounted read_file headers t p (sources details)). apply A2; auto.
Qed.

Section Edits.
Variable pr : parsed_project.
Variable w : workspace.
Variable read_file : str -> option str.
Variable ignore_keep : bool.
Variable headers : provided_set.
Variable known : list (target * result).
Hypothesis Known : known_libraries pr = Ret known.
Variable t : target.
Variable details : result.
Variable f : parsed_file.
Variable ev : list event.
Hypothesis E : create_edits_for_target w read_file ignore_keep headers known t details f = Ret ev.
Local Notation p := (pf_package f).
Local Notation srcs := (sources details).
Local Notation needs := (needs pr w read_file headers t details p).
Local Notation deps := (entries (list_of (q_deps details))).
Local Notation targets := (resolved (tpackage t) (texts (list_of (q_deps details)))).

Lemma edits_parts : exists needed all_known sets ev1 ev2,
  needed_by_sources w read_file headers known t p srcs srcs = Ret (needed, all_known) /\
  minimize needed = Ret sets /\
  check_deps ignore_keep known t f all_known deps sets [] = Ret (left_over sets targets, ev1) /\
  add_all_needed known t (left_over sets targets) = Ret ev2 /\ ev = ev1 ++ ev2 /\
  (forall s, In s needed -> exists m, In m sets /\ inside m s) /\
  (forall m, In m sets -> m <> [] /\ exists s, In s needed /\ inside m s) /\ ForallOrdPairs apart sets /\
  (forall v, In v needed -> needs v) /\ (forall v, needs v -> exists v', In v' needed /\ forall x, In x v <-> In x v') /\
  (all_known = true <-> all_accounted w read_file headers t details p).
Proof.
  assert (E0 := E). unfold create_edits_for_target in E0. destruct (extract_string_list (q_srcs details)) as [s1| |] eqn:E1; try discriminate. cbn [bind] in E0.
  destruct (extract_string_list (q_hdrs details)) as [s2| |] eqn:E2; try discriminate. cbn [bind] in E0.
  apply extract_texts in E1. apply extract_texts in E2. rewrite E1, E2 in E0. fold (sources details) in E0.
  destruct (needed_by_sources w read_file headers known t p srcs srcs) as [[needed ak]| |] eqn:E3; try discriminate. cbn [bind] in E0.
  destruct (needed_by_sources_spec w read_file headers known t p srcs srcs needed ak E3) as (N1 & N2 & N3).
  destruct (minimize_spec needed) as (sets & Em & M1 & M2 & M3); [intros s I; now apply N1|]. rewrite Em in E0. cbn [bind] in E0.
  destruct (extract_string_list (q_deps details)) as [ds| |] eqn:E4; try discriminate. cbn [bind] in E0. apply extract_entries in E4. subst ds.
  destruct (check_deps ignore_keep known t f ak deps sets []) as [[nd e1]| |] eqn:E5; try discriminate. cbn [bind] in E0.
  destruct (add_all_needed known t nd) as [e2| |] eqn:E6; try discriminate. cbn [bind] in E0. injection E0 as <-.
  destruct (check_deps_spec ignore_keep known t f ak sets M3 deps [] sets [] nd e1 (tracks_init sets) E5) as (Hn & _ & _).
  cbn [app] in Hn. rewrite entries_texts in Hn. subst nd.
  destruct (needed_spec pr w read_file headers known t details p needed ak Known E3) as (K1 & K2 & K3).
  exists needed, ak, sets, e1, e2. auto 20.
Qed.

(** Which events there are. *)
Lemma edits_events : exists needed all_known sets,
  (forall v, In v needed -> needs v) /\ (forall v, needs v -> exists v', In v' needed /\ forall x, In x v <-> In x v') /\
  minimize needed = Ret sets /\
  (forall s, In s needed -> exists m, In m sets /\ inside m s) /\ (forall m, In m sets -> m <> [] /\ exists s, In s needed /\ inside m s) /\
  (all_known = true <-> all_accounted w read_file headers t details p) /\
  (forall u l, In (EvRemove u l) ev <-> u = t /\ exists dep, In dep deps /\ l = v_text dep /\ goes ignore_keep known t f all_known sets dep) /\
  (forall s, In s (left_over sets targets) -> exists e, add_needed known t s = Ret e /\ In e ev) /\
  (forall e, In e ev -> minor e \/ (exists l, e = EvRemove t l) \/ exists s, In s (left_over sets targets) /\ add_needed known t s = Ret e).
Proof.
  destruct edits_parts as (needed & ak & sets & e1 & e2 & _ & Em & E5 & E6 & -> & M1 & M2 & M3 & N1 & N2 & N3).
  destruct (check_deps_spec ignore_keep known t f ak sets M3 deps [] sets [] _ e1 (tracks_init sets) E5) as (_ & C1 & C2).
  pose proof (add_all_spec _ _ _ _ E6) as A.
  assert (AN : forall s e, add_needed known t s = Ret e -> forall u l, e <> EvRemove u l).
  { intros s e. unfold add_needed. destruct s as [|a [|b s]]; [discriminate| |intros H; injection H as <-; discriminate].
    destruct (can_see known t a) as [b| |]; try discriminate. cbn [bind]. intros H. injection H as <-. intros u l.
    destruct b; [destruct (is_testonly_compatible known t a)|]; discriminate. }
  exists needed, ak, sets. do 6 (split; [auto|]). split; [|split].
  - intros u l. split; intros H.
    { apply in_app_or in H as [I|I].
      + destruct (C1 _ I) as [M|(dep & Id & G & Ee)]; [destruct M|]. injection Ee as -> ->. eauto 6.
      + apply A in I as (s & _ & Hs). exfalso. eapply AN; eauto. }
    destruct H as (-> & dep & Id & -> & G). apply in_or_app. left. auto.
  - intros s I. destruct (add_all_defined _ _ _ _ _ E6 I) as [e He]. exists e. split; auto. apply in_or_app. right. apply A. eauto.
  - intros e I. apply in_app_or in I as [I|I].
    + destruct (C1 _ I) as [M|(dep & Id & G & ->)]; [auto|]. right. left. eauto.
    + right. right. now apply A.
Qed.

Lemma struck_spec ds s : struck ds s = true <-> exists d, In d ds /\ In d s.
Proof. unfold struck. rewrite existsb_exists. split; intros (d & I & H); exists d; split; auto; now apply set_mem_in. Qed.
Lemma targets_spec d : In d targets <-> exists l, declares t details l d.
Proof.
  unfold resolved, declares. rewrite in_flat_map. split.
  - intros (l & I & H). destruct (parse_target l (tpackage t)) as [d'|] eqn:Ep; [|destruct H]. destruct H as [<-|[]]. eauto.
  - intros (l & I & H). exists l. split; auto. rewrite H. cbn; auto.
Qed.
Lemma goes_spec ak sets dep : goes ignore_keep known t f ak sets dep <->
  exists d line, parse_target (v_text dep) (tpackage t) = Some d /\ (forall s, In s sets -> ~ In d s) /\ ak = true /\
    plain_library pr d /\ surrounding_line f dep = Ret line /\ (ignore_keep = true \/ ~ keeps line).
Proof.
  unfold goes. split; intros (d & line & H1 & H2 & H3 & H4 & H5 & H6); exists d, line; repeat split; auto.
  - now apply (alwayslink_spec pr known Known).
  - apply orb_true_iff in H6 as [H6|H6]; auto. right. intros K. apply keep_spec in K. rewrite K in H6. discriminate.
  - now apply (alwayslink_spec pr known Known).
  - apply orb_true_iff. destruct H6 as [H6|H6]; auto. right. apply negb_true_iff. destruct (keep_comment line) eqn:K; auto. apply keep_spec in K. contradiction.
Qed.

Lemma removed_spec u l : In (EvRemove u l) ev ->
  u = t /\ exists d, declares t details l d /\ all_accounted w read_file headers t details p /\ plain_library pr d /\
  (ignore_keep = true \/ exists dep line, In dep deps /\ v_text dep = l /\ on_line (pf_content f) dep line /\ ~ keeps line).
Proof.
  intros I. destruct edits_events as (needed & ak & sets & _ & _ & _ & _ & _ & AK & R & _ & _). apply R in I as (-> & dep & Id & -> & G).
  apply goes_spec in G as (d & line & H1 & _ & H3 & H4 & H5 & H6). split; auto. exists d. repeat split; auto.
  - rewrite <- entries_texts. now apply in_map.
  - now apply AK.
  - now apply AK.
  - destruct H6 as [H6|H6]; auto. right. exists dep, line. repeat split; auto. now apply line_spec.
Qed.
Lemma removed_complete dep d : In dep deps -> parse_target (v_text dep) (tpackage t) = Some d ->
  all_accounted w read_file headers t details p -> plain_library pr d -> (forall v, needs v -> ~ In d v) ->
  (forall off, v_org dep = InFile off -> off + length (v_text dep) <= length (pf_content f)) ->
  (ignore_keep = true \/ forall line, on_line (pf_content f) dep line -> ~ keeps line) ->
  In (EvRemove t (v_text dep)) ev.
Proof.
  intros Id Hp HA HL HN HO HK. destruct edits_events as (needed & ak & sets & N1 & _ & _ & _ & M2 & AK & R & _ & _). apply R. split; auto.
  exists dep. repeat split; auto. apply goes_spec.
  assert (L : exists line, surrounding_line f dep = Ret line).
  { unfold surrounding_line. destruct (v_org dep) as [off|]; [|eauto]. destruct (surrounding_line_spec (pf_content f) off (length (v_text dep)) (HO off eq_refl)) as (s & n & -> & _). eauto. }
  destruct L as [line Hl]. exists d, line. repeat split; auto.
  - intros s I J. destruct (M2 s I) as (_ & v & Iv & Hv). apply (HN v); auto.
  - now apply AK.
  - destruct HK as [HK|HK]; auto. right. apply HK. now apply line_spec.
Qed.

Lemma satisfied v : needs v -> exists r, r <> [] /\ inside r v /\
  ((exists l d, In d r /\ declares t details l d /\ forall l', parse_target l' (tpackage t) = Some d -> ~ In (EvRemove t l') ev) \/
   (exists d, r = [d] /\ In (EvAdd t (target_to_string_rel d (tpackage t))) ev) \/
   (exists d, r = [d] /\ In (EvTestonly t d) ev /\ ~ test_compatible pr t d) \/
   (1 < length r /\ In (EvAmbiguous t r) ev)).
Proof.
  intros Nv. destruct edits_events as (needed & ak & sets & N1 & N2 & _ & M1 & M2 & AK & R & AD & _).
  destruct (N2 v Nv) as (v' & Iv & S). destruct (M1 v' Iv) as (m & Im & Hm). destruct (M2 m Im) as (Nm & _).
  exists m. split; auto. split; [intros x I; apply S; auto|].
  destruct (struck targets m) eqn:St.
  - left. apply struck_spec in St as (d & Id & Jd). apply targets_spec in Id as [l Hl]. exists l, d. repeat split; auto; try apply Hl.
    intros l' Hl' I. apply R in I as (_ & dep & _ & -> & G). destruct G as (d' & line & H1 & H2 & _). assert (d' = d) by congruence. subst d'. apply (H2 m Im Jd).
  - right. destruct (AD m) as (e & He & Ie); [apply filter_In; split; auto; now rewrite St|].
    unfold add_needed in He. destruct m as [|a [|b m]]; [contradiction| |].
    + destruct (can_see known t a) as [b| |] eqn:Ec; try discriminate. cbn [bind] in He. injection He as <-.
      apply (can_see_spec pr known Known) in Ec. assert (b = true).
      { apply Ec. destruct (N1 v' Iv) as (_ & inc & ts & _ & _ & _ & V). apply V. apply Hm. cbn; auto. }
      subst b. destruct (is_testonly_compatible known t a) eqn:Et.
      * left. eauto.
      * right. left. exists a. repeat split; auto. intros C. apply (testonly_spec pr known Known) in C. congruence.
    + right. right. injection He as <-. split; auto. cbn. lia.
Qed.

Lemma added_spec u l : In (EvAdd u l) ev -> u = t /\ exists d v, l = target_to_string_rel d (tpackage t) /\ needs v /\ In d v /\
  may_use pr t d /\ test_compatible pr t d /\ (forall l', ~ declares t details l' d).
Proof.
  intros I. destruct edits_events as (needed & ak & sets & N1 & _ & _ & _ & M2 & _ & _ & _ & EV).
  destruct (EV _ I) as [[]|[[l' C]|(s & Is & He)]]; [discriminate|].
  apply filter_In in Is as [Is St]. unfold add_needed in He. destruct s as [|a [|b s]]; try discriminate.
  destruct (can_see known t a) as [b| |] eqn:Ec; try discriminate. cbn [bind] in He. injection He as He.
  destruct b; [|discriminate]. destruct (is_testonly_compatible known t a) eqn:Et; [|discriminate]. injection He as <- <-. split; auto.
  destruct (M2 _ Is) as (_ & v & Iv & Hv). exists a, v. split; [auto|]. split; [auto|]. split; [|split; [|split]].
  - apply Hv. cbn; auto.
  - apply (can_see_spec pr known Known) in Ec. apply Ec; auto.
  - now apply (testonly_spec pr known Known).
  - intros l' D. assert (struck targets [a] = true); [|now rewrite H in St]. apply struck_spec. exists a. split; [|cbn; auto]. apply targets_spec. eauto.
Qed.
Lemma ambiguous_spec u r : In (EvAmbiguous u r) ev -> u = t /\ 1 < length r /\ (exists v, needs v /\ inside r v) /\
  forall l d, declares t details l d -> ~ In d r.
Proof.
  intros I. destruct edits_events as (needed & ak & sets & N1 & _ & _ & _ & M2 & _ & _ & _ & EV).
  destruct (EV _ I) as [[]|[[l' C]|(s & Is & He)]]; [discriminate|].
  apply filter_In in Is as [Is St]. unfold add_needed in He. destruct s as [|a [|b s]]; try discriminate.
  { destruct (can_see known t a) as [b| |]; try discriminate. cbn [bind] in He. injection He as He. destruct b; [destruct (is_testonly_compatible known t a)|]; discriminate. }
  injection He as <- <-. split; auto. split; [cbn; lia|]. destruct (M2 _ Is) as (_ & v & Iv & Hv). split; [exists v; auto|].
  intros l d D J. assert (struck targets (a :: b :: s) = true); [|now rewrite H in St]. apply struck_spec. exists d. split; auto. apply targets_spec. eauto.
Qed.

Lemma kept_spec v l d : (forall a b, needs a -> needs b -> (forall x, In x a <-> In x b) \/ (forall x, In x a -> ~ In x b)) ->
  needs v -> In d v -> parse_target l (tpackage t) = Some d -> ~ In (EvRemove t l) ev.
Proof.
  intros HA Nv Id Hp I. destruct edits_events as (needed & ak & sets & N1 & N2 & Em & M1 & M2 & _ & R & _ & _).
  apply R in I as (_ & dep & _ & -> & d' & line & H1 & H2 & _). assert (d' = d) by congruence. subst d'.
  destruct (N2 v Nv) as (v' & Iv & S). destruct (M1 v' Iv) as (m & Im & Hm). destruct (M2 m Im) as (Nm & _).
  assert (Jm : In m needed). { eapply minimize_alike; eauto. intros a b Ia Ib. apply HA; auto. }
  destruct (HA v' m) as [A|A]; auto.
  - apply (H2 m Im). apply A, S, Id.
  - destruct m as [|x m]; [contradiction|]. apply (A x); [apply Hm|]; cbn; auto.
Qed.
End Edits.

(** * All targets *)
Section Run.
Variable w : workspace.
Variable read_file : str -> option str.
Variable ignore_keep : bool.
Variable headers : provided_set.
Variable known : list (target * result).
Variable pt : pattern.
Local Notation edits_of x := (create_edits_for_target w read_file ignore_keep headers known (fst (fst x)) (snd (fst x)) (snd x)).
Lemma edits_for_rules_spec f rs : forall ev n, edits_for_rules w read_file ignore_keep headers known pt f rs = Ret (ev, n) ->
  exists l evs, Forall2 (fun x e => edits_of x = Ret e) l evs /\ ev = concat evs /\ n = length l /\
   forall t r g, In (t, r, g) l <-> g = f /\ In r rs /\ qualified_target (pf_package f) (v_text (q_name r)) = Some t /\ match_target pt t = true.
Proof.
  induction rs as [|r rs IH]; intros ev n E; cbn [edits_for_rules] in E.
  - injection E as <- <-. exists [], []. repeat split; try constructor; intros; try contradiction; tauto.
  - destruct (qualified_target (pf_package f) (v_text (q_name r))) as [t|] eqn:Et; [destruct (match_target pt t) eqn:Em|].
    + destruct (create_edits_for_target w read_file ignore_keep headers known t r f) as [e| |] eqn:Ee; try discriminate. cbn [bind] in E.
      destruct (edits_for_rules w read_file ignore_keep headers known pt f rs) as [[e' n']| |] eqn:Er; try discriminate. cbn [bind] in E. injection E as <- <-.
      destruct (IH _ _ eq_refl) as (l & evs & F & -> & -> & H). exists ((t, r, f) :: l), (e :: evs). split; [constructor; auto|]. split; [auto|]. split; [auto|].
      intros t' r' g. cbn [In]. rewrite H. split.
      * intros [X|X]; [injection X as <- <- <-; auto 10|tauto].
      * intros (-> & [<-|I] & H1 & H2); [left; congruence|right; auto].
    + destruct (IH _ _ E) as (l & evs & F & -> & -> & H). exists l, evs. repeat split; auto; rewrite H in *; cbn [In]; try tauto.
      intros (-> & [<-|I] & H1 & H2); [congruence|auto].
    + destruct (IH _ _ E) as (l & evs & F & -> & -> & H). exists l, evs. repeat split; auto; rewrite H in *; cbn [In]; try tauto.
      intros (-> & [<-|I] & H1 & H2); [congruence|auto].
Qed.
Lemma edits_for_files_spec files : forall ev n, edits_for_files w read_file ignore_keep headers known pt files = Ret (ev, n) ->
  exists l evs, Forall2 (fun x e => edits_of x = Ret e) l evs /\ ev = concat evs /\ n = length l /\
   forall t r f, In (t, r, f) l <-> exists p rs, In (p, f) files /\ match_package pt (pf_package f) = true /\
     find_targets edited_kinds (pf_ast f) = Ret rs /\ In r rs /\
     qualified_target (pf_package f) (v_text (q_name r)) = Some t /\ match_target pt t = true.
Proof.
  induction files as [|[p f] files IH]; intros ev n E; cbn [edits_for_files] in E.
  - injection E as <- <-. exists [], []. repeat split; try constructor; intros; try contradiction. destruct H as (p & rs & [] & _).
  - destruct (match_package pt (pf_package f)) eqn:Em.
    + destruct (find_targets [$"cc_library"; $"cc_binary"; $"cc_test"] (pf_ast f)) as [rs| |] eqn:Er; try discriminate. cbn [bind] in E.
      destruct (edits_for_rules w read_file ignore_keep headers known pt f rs) as [[e1 n1]| |] eqn:E1; try discriminate. cbn [bind] in E.
      destruct (edits_for_files w read_file ignore_keep headers known pt files) as [[e2 n2]| |] eqn:E2; try discriminate. cbn [bind] in E. injection E as <- <-.
      destruct (edits_for_rules_spec _ _ _ _ E1) as (l1 & v1 & F1 & -> & -> & H1). destruct (IH _ _ eq_refl) as (l2 & v2 & F2 & -> & -> & H2).
      exists (l1 ++ l2), (v1 ++ v2). split; [now apply Forall2_app|]. split; [now rewrite concat_app|]. split; [now rewrite app_length|].
      intros t r g. rewrite in_app_iff, H1, H2. split.
      * intros [(-> & I & Q & M)|(p' & rs' & I & M & X)].
        -- exists p, rs. cbn; auto 10.
        -- exists p', rs'. cbn; tauto.
      * intros (p' & rs' & [I|I] & M & Fr & Ir & Q & Mt).
        -- injection I as <- <-. left. assert (rs' = rs) by (unfold edited_kinds in Fr; congruence). subst. auto.
        -- right. exists p', rs'. auto 10.
    + destruct (IH _ _ E) as (l & evs & F & -> & -> & H). exists l, evs. repeat split; auto; rewrite H in *.
      * intros (p' & rs & I & X). exists p', rs. cbn; tauto.
      * intros (p' & rs & [I|I] & M & X); [injection I as <- <-; congruence|]. exists p', rs. tauto.
Qed.
End Run.

(** * Always defined *)
Definition readable_known (known : list (target * result)) : Prop :=
  forall t r, map_find t known = Some r -> readable_results [r].
Lemma known_in_defined files : (forall p f, In (p, f) files -> Forall sound (pf_ast f)) ->
  forall m, msorted m -> readable_known m -> exists m', known_in files m = Ret m' /\ readable_known m'.
Proof.
  induction files as [|[p f] files IH]; intros Hf m Om Rm; cbn [known_in]; eauto.
  destruct (find_targets_defined known_rules false (pf_ast f) (Hf p f (or_introl eq_refl))) as (rs & E & R).
  unfold find_targets. rewrite E. cbn [bind]. clear E.
  assert (G : forall rs m, readable_results rs -> msorted m -> readable_known m ->
    msorted (fold_left (add_known (pf_package f)) rs m) /\ readable_known (fold_left (add_known (pf_package f)) rs m)).
  { clear. induction rs as [|r rs IH]; intros m R Om Rm; cbn [fold_left]; auto. apply readable_cons in R as [R1 R2].
    apply IH; auto; unfold add_known; destruct (qualified_target _ _) as [t|]; auto.
    - now apply map_insert_sorted.
    - intros t' r' F. rewrite map_insert_find in F by auto. destruct (map_find t' m) as [r0|] eqn:Ft.
      + injection F as <-. now apply Rm in Ft.
      + destruct (keqb t' t); [injection F as <-; auto|discriminate]. }
  destruct (G rs m R Om Rm) as [O' R']. apply IH; auto. intros p0 f0 I. apply (Hf p0 f0). right. exact I.
Qed.
Lemma visible_by_defined l t d : (exists strs, string_list l = Ret strs) -> forall b, exists x, visible_by l t d b = Ret x.
Proof.
  induction l as [|n l IH]; intros (strs & E) b; cbn [visible_by]; eauto. cbn in E.
  destruct (cast_scalar n) as [s| |]; try discriminate. cbn [bind] in E |- *. destruct (string_list l) as [r| |] eqn:El; try discriminate.
  assert (Hl : exists strs, Ret r = Ret strs) by eauto. specialize (IH Hl). destruct s as [[k v]|]; auto.
  destruct (parse_visibility _ _); auto. destruct (match_target _ _); eauto.
Qed.
Section Defined.
Variable w : workspace.
Variable read_file : str -> option str.
Variable ignore_keep : bool.
Variable headers : provided_set.
Variable known : list (target * result).
Hypothesis RK : readable_known known.
Lemma can_see_defined t d : exists b, can_see known t d = Ret b.
Proof.
  unfold can_see. destruct (map_find d known) as [r|] eqn:F; eauto. apply RK in F. repeat match goal with |- context [if ?b then _ else _] => destruct b; eauto end.
  destruct (q_visibility r) as [l|] eqn:V; eauto. apply visible_by_defined. apply (F r l); [left; auto|].
  unfold result_lists. apply in_flat_map. exists (Some l). split; [|left; auto]. rewrite <- V. cbn; auto 10.
Qed.
Lemma visible_only_defined t ts : exists v, visible_only known t ts = Ret v.
Proof. induction ts as [|a ts [v IH]]; cbn [visible_only]; eauto. destruct (can_see_defined t a) as [b ->]. cbn [bind]. rewrite IH. cbn. eauto. Qed.
Lemma needed_by_includes_defined t p srcs incs : exists r, needed_by_includes headers known t p srcs incs = Ret r.
Proof.
  induction incs as [|i incs [[r ok] IH]]; cbn [needed_by_includes]; eauto. destruct (attribute headers t p srcs i); auto.
  - eauto.
  - destruct (visible_only_defined t alternatives) as [v ->]. cbn [bind]. rewrite IH. cbn. eauto.
  - rewrite IH. cbn. eauto.
Qed.
Lemma needed_by_sources_defined t p srcs todo : exists r, needed_by_sources w read_file headers known t p srcs todo = Ret r.
Proof.
  induction todo as [|s todo [[r ok] IH]]; cbn [needed_by_sources]; eauto. destruct (try_open _ _) as [c|]; [|rewrite IH; cbn; eauto].
  destruct (needed_by_includes_defined t p srcs (map snd (extract_cc_includes c))) as [[r' ok'] ->]. cbn [bind]. rewrite IH. cbn. eauto.
Qed.
Definition placed_in (content : str) (v : view) : Prop := forall off, v_org v = InFile off -> off + length (v_text v) <= length content.
Lemma check_dep_defined t f ak dep nd ch : placed_in (pf_content f) dep -> exists r, check_dep ignore_keep known t f ak dep nd ch = Ret r.
Proof.
  intros P. unfold check_dep. destruct (parse_target _ _) as [d|]; eauto. destruct (check_off d nd) as [[s n]|]; eauto.
  destruct (map_find d ch); eauto. destruct (_ && _); eauto.
  assert (L : exists line, surrounding_line f dep = Ret line).
  { unfold surrounding_line. destruct (v_org dep) as [off|] eqn:Vo; [|eauto].
    destruct (surrounding_line_spec (pf_content f) off (length (v_text dep)) (P off Vo)) as (s & n & -> & _). eauto. }
  destruct L as [line ->]. cbn. eauto.
Qed.
Lemma check_deps_defined t f ak ds : (forall dep, In dep ds -> placed_in (pf_content f) dep) -> forall nd ch, exists r, check_deps ignore_keep known t f ak ds nd ch = Ret r.
Proof.
  induction ds as [|dep ds IH]; intros H nd ch; cbn [check_deps]; eauto.
  destruct (check_dep_defined t f ak dep nd ch) as [[[nd' ch'] e] ->]; [apply H; left; auto|]. cbn [bind].
  destruct (IH (fun d I => H d (or_intror I)) nd' ch') as [[n e'] ->]. cbn. eauto.
Qed.
Lemma add_all_needed_defined t nd : (forall s, In s nd -> s <> []) -> exists e, add_all_needed known t nd = Ret e.
Proof.
  induction nd as [|s nd IH]; intros H; cbn [add_all_needed]; eauto.
  assert (A : exists e, add_needed known t s = Ret e).
  { unfold add_needed. destruct s as [|a [|b s]]; eauto. - destruct (H [] (or_introl eq_refl)). auto. - destruct (can_see_defined t a) as [b ->]. cbn. eauto. }
  destruct A as [e ->]. destruct IH as [e' ->]; [intros; apply H; right; auto|]. cbn. eauto.
Qed.
Lemma create_edits_defined t details f : readable_results [details] ->
  (forall dep, In dep (entries (list_of (q_deps details))) -> placed_in (pf_content f) dep) ->
  exists ev, create_edits_for_target w read_file ignore_keep headers known t details f = Ret ev.
Proof.
  intros R P. unfold create_edits_for_target.
  assert (R' : forall l, In l (result_lists details) -> exists strs, string_list l = Ret strs) by (intros l; apply R; left; reflexivity).
  destruct (extract_defined details (q_srcs details) R') as [a ->]; [cbn; auto 10|].
  destruct (extract_defined details (q_hdrs details) R') as [b ->]; [cbn; auto 10|]. cbn [bind].
  match goal with |- context [needed_by_sources w read_file headers known t ?p ?x ?x] => destruct (needed_by_sources_defined t p x x) as [[nd ak] Hn]; rewrite Hn end. cbn [bind].
  destruct (needed_by_sources_spec _ _ _ _ _ _ _ _ _ _ Hn) as (N1 & _ & _).
  destruct (minimize_spec nd) as (sets & -> & M1 & M2 & M3); [intros s I; now apply N1|]. cbn [bind].
  destruct (extract_defined details (q_deps details) R') as [ds Hd]; [cbn; auto 10|]. rewrite Hd. cbn [bind]. apply extract_entries in Hd. subst ds.
  destruct (check_deps_defined t f ak _ P sets []) as [[n e] Hc]. rewrite Hc. cbn [bind].
  destruct (check_deps_spec ignore_keep known t f ak sets M3 _ [] sets [] n e (tracks_init sets) Hc) as (-> & _ & _).
  destruct (add_all_needed_defined t (left_over sets (resolved (tpackage t) (map v_text ([] ++ entries (list_of (q_deps details))))))) as [e' He].
  - intros s I. apply filter_In in I as [I _]. now apply M2.
  - cbn [app] in He |- *. first [rewrite He|idtac]. cbn. eauto.
Qed.
End Defined.
Lemma dependency_edits_defined w read_file ignore_keep pr pt : readable_project pr ->
  (forall p f rs r dep, In (p, f) (pr_files pr) -> find_targets edited_kinds (pf_ast f) = Ret rs -> In r rs ->
     In dep (entries (list_of (q_deps r))) -> placed_in (pf_content f) dep) ->
  exists r, dependency_edits w read_file ignore_keep pr pt = Ret r.
Proof.
  intros R P. unfold dependency_edits. destruct (headers_defined pr true R) as [headers ->]. cbn [bind].
  destruct (known_in_defined (pr_files pr) R [] I) as (known & Hk & RK); [intros t r C; discriminate|].
  unfold known_libraries. rewrite Hk. cbn [bind]. clear Hk. unfold readable_project in R. revert R P. generalize (pr_files pr).
  induction l as [|[p f] files IH]; intros R P; cbn [edits_for_files]; eauto.
  assert (IH' : exists r, edits_for_files w read_file ignore_keep headers known pt files = Ret r).
  { apply IH; [intros p0 f0 J; apply (R p0 f0); right; exact J|]. intros p0 f0 rs r dep J. apply (P p0). right; auto. }
  destruct (match_package _ _); auto.
  destruct (find_targets_defined [$"cc_library"; $"cc_binary"; $"cc_test"] false (pf_ast f) (R p f (or_introl eq_refl))) as (rs & E & Rr).
  unfold find_targets. rewrite E. cbn [bind].
  assert (G : exists r, edits_for_rules w read_file ignore_keep headers known pt f rs = Ret r).
  { assert (P' : forall r dep, In r rs -> In dep (entries (list_of (q_deps r))) -> placed_in (pf_content f) dep).
    { intros r dep Ir Id. apply (P p f rs r dep); auto. left; auto. }
    clear - Rr P' RK. revert Rr P'. induction rs as [|r rs IH]; intros Rr P'; cbn [edits_for_rules]; eauto.
    destruct IH as [[e' n'] IH]; [intros r0 l J; apply Rr; right; auto|intros r0 dep J; apply P'; right; auto|].
    destruct (qualified_target _ _) as [t|]; eauto. destruct (match_target _ _); eauto.
    destruct (create_edits_defined w read_file ignore_keep headers known RK t r f) as [e ->].
    - intros r0 l [<-|[]]. apply Rr. left; auto.
    - intros dep. apply P'. left; auto.
    - cbn [bind]. rewrite IH. cbn. eauto. }
  destruct G as [[e n] ->]. cbn [bind]. destruct IH' as [[e' n'] ->]. cbn. eauto.
Qed.

(** * Events are about their target *)
Definition event_of (t : target) (e : event) : Prop :=
  match e with
  | EvRemove u _ | EvAdd u _ | EvInvalid u _ | EvAgain u _ _ | EvUnsure u _ | EvAmbiguous u _ | EvTestonly u _ | EvInvisible u _ => u = t
  end.
Lemma check_deps_events ignore_keep known t f ak ds : forall nd ch nd' ev, check_deps ignore_keep known t f ak ds nd ch = Ret (nd', ev) -> Forall (event_of t) ev.
Proof.
  induction ds as [|dep ds IH]; intros nd ch nd' ev E; cbn [check_deps] in E; [injection E as <- <-; constructor|].
  destruct (check_dep ignore_keep known t f ak dep nd ch) as [[[n1 c1] e1]| |] eqn:E1; try discriminate. cbn [bind] in E.
  destruct (check_deps ignore_keep known t f ak ds n1 c1) as [[n2 e2]| |] eqn:E2; try discriminate. cbn [bind] in E. injection E as <- <-.
  apply Forall_app. split; [|eauto]. unfold check_dep in E1. destruct (parse_target _ _) as [d|]; [|injection E1 as <- <- <-; repeat constructor].
  destruct (check_off d nd) as [[s n]|]; [injection E1 as <- <- <-; constructor|]. destruct (map_find d ch); [injection E1 as <- <- <-; repeat constructor|].
  destruct (_ && _).
  - destruct (surrounding_line f dep); try discriminate. cbn [bind] in E1. injection E1 as <- <- <-. destruct (_ || _); repeat constructor.
  - injection E1 as <- <- <-. destruct (negb ak); repeat constructor.
Qed.
Lemma event_target w read_file ignore_keep headers known t details f ev e :
  create_edits_for_target w read_file ignore_keep headers known t details f = Ret ev -> In e ev -> event_of t e.
Proof.
  unfold create_edits_for_target. intros E0 I.
  destruct (extract_string_list (q_srcs details)) as [s1| |]; try discriminate. cbn [bind] in E0.
  destruct (extract_string_list (q_hdrs details)) as [s2| |]; try discriminate. cbn [bind] in E0.
  destruct (needed_by_sources w read_file headers known t _ _ _) as [[nd ak]| |]; try discriminate. cbn [bind] in E0. destruct (minimize nd) as [sets| |]; try discriminate. cbn [bind] in E0.
  destruct (extract_string_list (q_deps details)) as [ds| |]; try discriminate. cbn [bind] in E0.
  destruct (check_deps ignore_keep known t f ak ds sets []) as [[n e1]| |] eqn:Ec; try discriminate. cbn [bind] in E0.
  destruct (add_all_needed known t n) as [e2| |] eqn:Ea; try discriminate. cbn [bind] in E0. injection E0 as <-.
  apply check_deps_events in Ec. apply in_app_or in I as [I|I]; [rewrite Forall_forall in Ec; auto|].
  apply (add_all_spec _ _ _ _ Ea) in I as (s & _ & Hs). unfold add_needed in Hs. destruct s as [|a [|b s]]; [discriminate| |injection Hs as <-; reflexivity].
  destruct (can_see known t a) as [b| |]; try discriminate. cbn [bind] in Hs. injection Hs as <-. destruct b; [destruct (is_testonly_compatible known t a)|]; reflexivity.
Qed.
Lemma Forall2_in_r {A B} (R : A -> B -> Prop) l l' y : Forall2 R l l' -> In y l' -> exists x, In x l /\ R x y.
Proof. induction 1 as [|a b l l' H F IH]; intros []; [subst; exists a; cbn; auto|]. destruct (IH H0) as (x & I & Hx). exists x. cbn; auto. Qed.
Lemma Forall2_imp {A B} (R S : A -> B -> Prop) l l' : (forall x y, R x y -> S x y) -> Forall2 R l l' -> Forall2 S l l'.
Proof. intros H. induction 1; constructor; auto. Qed.
