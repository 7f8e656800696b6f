(** Proofs about elaboration. *)
From Verif Require Import Base M_Scanner M_Ast M_Parser M_Query M_Elab S_Parser P_Parser S_Elab.

Ltac invb H := match type of H with bind ?x _ = Ret _ =>
  let E := fresh "E" in let a := fresh "a" in
  destruct x as [a| |] eqn:E; [cbn [bind] in H|discriminate H|discriminate H];
  try match type of a with (_ * _)%type =>
    let n := fresh "n" in let g := fresh "g" in destruct a as [n g] end
  end.
Ltac inv H := inversion H; subst; clear H.

Lemma Forall2_len {A B} (R : A -> B -> Prop) l m : Forall2 R l m -> length l = length m.
Proof. induction 1; simpl; auto. Qed.

Lemma toktype_eq_dec (a b : toktype) : {a = b} + {a <> b}.
Proof. decide equality. Defined.

Section Elab.
Variable mg : list str -> list str -> list str.
Notation elab := (elab mg).

Lemma elab_level level n : forall g n' g', elab (S level) n g = Ret (n', g') -> g' = g.
Proof.
  revert level. induction n using node_ind'; intros level g n' g' E; cbn [M_Elab.elab] in E.
  - inv E; auto.
  - inv E; auto.
  - inv E; auto.
  - inv E; auto.
  - invb E. apply IHn in E0. inv E; auto.
  - invb E. apply IHn1 in E0. invb E. apply IHn2 in E1. subst.
    destruct op; try (inv E; congruence). invb E. inv E; auto.
  - invb E. inv E. clear - H E0. revert n g g' E0. induction H as [|x l Hx Hl IH]; intros m g g' E; cbn [elab_elems] in E.
    + inv E; auto.
    + invb E. apply Hx in E0. subst. invb E. apply IH in E0. inv E; auto.
  - invb E. apply IHn in E0. inv E; auto.
  - invb E. apply IHn1 in E0. invb E. apply IHn2 in E1. invb E. apply IHn3 in E2. inv E; auto.
  - invb E. apply IHn2 in E0. inv E; auto.
  - invb E. apply IHn1 in E0. invb E. apply IHn2 in E1. subst.
    destruct n; try discriminate. destruct (str_eqb _ _).
    + destruct n0; try discriminate. invb E. inv E; auto.
    + destruct (str_eqb _ _); [|inv E; auto]. destruct n0; try discriminate. invb E. inv E; auto.
Qed.
Lemma elab_elems_level level l : forall g l' g',
  elab_elems (elab (S level)) l g = Ret (l', g') -> g' = g.
Proof.
  induction l as [|n l IH]; intros g l' g' E; cbn [elab_elems] in E.
  - inv E; auto.
  - invb E. apply elab_level in E0. subst. invb E. apply IH in E0. inv E; auto.
Qed.

(** Only assigned variables change. *)
Lemma elab_frame n : forall level g n' g', elab level n g = Ret (n', g') ->
  forall x, ~ In x (assigned n) -> glookup x g' = glookup x g.
Proof.
  induction n using node_ind'; intros level g n' g' E x Hx; cbn [M_Elab.elab assigned] in *.
  - inv E; auto.
  - inv E; auto.
  - inv E; auto.
  - inv E; auto.
  - invb E. apply (IHn _ _ _ _ E0) in Hx. inv E; auto.
  - rewrite in_app_iff in Hx. invb E. invb E.
    apply IHn1 with (x := x) in E0; [|tauto]. apply IHn2 with (x := x) in E1; [|tauto].
    rewrite <- E0, <- E1. destruct op; try (inv E; congruence). invb E. inv E; auto.
  - invb E. inv E. clear - H E0 Hx. revert n g g' E0 Hx.
    induction H as [|y l Hy Hl IH]; intros m g g' E Hx; cbn [elab_elems flat_map] in *.
    + inv E; auto.
    + rewrite in_app_iff in Hx. invb E. apply Hy with (x := x) in E0; [|tauto].
      invb E. apply IH in E1; [|tauto]. inv E. congruence.
  - invb E. apply (IHn _ _ _ _ E0) in Hx. inv E; auto.
  - rewrite !in_app_iff in Hx. invb E. invb E. invb E.
    apply IHn1 with (x := x) in E0; [|tauto]. apply IHn2 with (x := x) in E1; [|tauto].
    apply IHn3 with (x := x) in E2; [|tauto]. inv E. congruence.
  - rewrite in_app_iff in Hx. invb E. apply IHn2 with (x := x) in E0; [|tauto]. inv E.
    destruct level; auto. destruct n1; auto. cbn [glookup].
    destruct (str_eqb_spec x (v_text v)); auto. subst. simpl in Hx. tauto.
  - invb E. apply elab_level in E0. subst. invb E. apply elab_level in E0. subst.
    destruct n; try discriminate. destruct (str_eqb _ _).
    + destruct n0; try discriminate. invb E. inv E; auto.
    + destruct (str_eqb _ _); [|inv E; auto]. destruct n0; try discriminate. invb E. inv E; auto.
Qed.
Lemma elab_noassign n level g n' g' : elab level n g = Ret (n', g') -> assigned n = [] -> g' = g.
Proof.
  revert level g n' g'. induction n using node_ind'; intros level g n' g' E Hx; cbn [M_Elab.elab assigned] in *.
  - inv E; auto.
  - inv E; auto.
  - inv E; auto.
  - inv E; auto.
  - invb E. apply IHn in E0; auto. inv E; auto.
  - apply app_eq_nil in Hx as [H1 H2]. invb E. invb E. apply IHn1 in E0; auto. apply IHn2 in E1; auto.
    subst. destruct op; try (inv E; congruence). invb E. inv E; auto.
  - invb E. inv E. clear - H E0 Hx. revert n g g' E0 Hx.
    induction H as [|y l Hy Hl IH]; intros m g g' E Hx; cbn [elab_elems flat_map] in *.
    + inv E; auto.
    + apply app_eq_nil in Hx as [H1 H2]. invb E. apply Hy in E0; auto. subst.
      invb E. apply IH in E0; auto. inv E. auto.
  - invb E. apply IHn in E0; auto. inv E; auto.
  - apply app_eq_nil in Hx as [H1 H2]. apply app_eq_nil in H2 as [H2 H3]. invb E. invb E. invb E.
    apply IHn1 in E0; auto. apply IHn2 in E1; auto. apply IHn3 in E2; auto. inv E. auto.
  - apply app_eq_nil in Hx as [H1 H2]. invb E. apply IHn2 in E0; auto. inv E.
    destruct level; auto. destruct n1; auto. discriminate.
  - invb E. apply elab_level in E0. subst. invb E. apply elab_level in E0. subst.
    destruct n; try discriminate. destruct (str_eqb _ _).
    + destruct n0; try discriminate. invb E. inv E; auto.
    + destruct (str_eqb _ _); [|inv E; auto]. destruct n0; try discriminate. invb E. inv E; auto.
Qed.

Lemma elab_elems_length f l : forall g l' g',
  elab_elems f l g = Ret (l', g') -> length l' = length l.
Proof.
  induction l as [|a l IH]; intros g m g' E; cbn [elab_elems] in E.
  - inv E; auto.
  - invb E. invb E. inv E. simpl. f_equal. eauto.
Qed.

(** ** Values *)
Definition agrees (rho : venv) (g : genv) : Prop :=
  forall x v, rho x = Some v ->
    match glookup x g with Some n => literal n v | None => v = VName x end.

Lemma elab_plus_value l r rg n a b :
  elab_plus l r rg = Ret n -> literal l a -> literal r b -> literal n (plus_value a b).
Proof.
  unfold elab_plus. intros E La Lb.
  destruct La as [v1 t1 r1|ty1 l1 vs1 F1|v1|n1 K1]; destruct Lb as [v2 t2 r2|ty2 l2 vs2 F2|v2|n2 K2];
    cbn [cast_list bind plus_value] in *;
    try (destruct n1; try contradiction); try (destruct n2; try contradiction);
    cbn [cast_list bind] in *; try (inv E; constructor; auto; fail);
    try (inv E; constructor; simpl; auto; fail).
  destruct (ltype_eqb ty1 ty2); inv E; constructor; simpl; auto. apply Forall2_app; auto.
Qed.

Lemma all_some_some {A B} (f : A -> option B) l vs :
  all_some (map f l) = Some vs -> Forall2 (fun x v => f x = Some v) l vs.
Proof.
  revert vs. induction l as [|x l IH]; intros vs; simpl.
  - intros E. inv E. constructor.
  - destruct (f x) eqn:F; [|discriminate]. destruct (all_some (map f l)); [|discriminate].
    intros E. inv E. constructor; auto.
Qed.

Lemma elab_value n : forall level rho g n' g' v,
  agrees rho g -> value_of rho n = Some v -> elab level n g = Ret (n', g') ->
  g' = g /\ literal n' v.
Proof.
  induction n using node_ind'; intros level rho g n' g' val A V E; cbn [M_Elab.elab value_of] in *.
  - discriminate.
  - inv E. inv V. split; auto. constructor.
  - inv E. inv V. split; auto. constructor. exact I.
  - inv E. split; auto. apply A in V. destruct (glookup (v_text v) g'); auto. subst. constructor.
  - destruct (assigned n) eqn:As; [|discriminate]. invb E. apply elab_noassign in E0; auto.
    inv E. inv V. split; auto. constructor. exact I.
  - destruct (toktype_eq_dec op TPlus) as [->|N].
    + destruct (value_of rho n1) as [a|] eqn:V1; [|discriminate].
      destruct (value_of rho n2) as [b|] eqn:V2; [|discriminate]. inv V.
      invb E. eapply IHn1 in E0 as [-> L1]; eauto. invb E. eapply IHn2 in E0 as [-> L2]; eauto.
      invb E. inv E. split; auto. eapply elab_plus_value; eauto.
    + assert (V' : val = VOther /\ assigned n1 ++ assigned n2 = []).
      { destruct op; try congruence; (destruct (assigned n1 ++ assigned n2); [inv V; auto|discriminate]). }
      destruct V' as [-> As]. apply app_eq_nil in As as [As1 As2].
      invb E. apply elab_noassign in E0; auto. subst. invb E. apply elab_noassign in E0; auto. subst.
      destruct op; try congruence; inv E; split; auto; constructor; exact I.
  - destruct (all_some (map (value_of rho) elems)) as [vs|] eqn:AS; [|discriminate]. inv V.
    apply all_some_some in AS. invb E. inv E.
    assert (g' = g /\ Forall2 literal n vs) as [-> F].
    { clear - A H AS E0. revert n g g' vs A AS E0.
      induction H as [|y l Hy Hl IH]; intros m g g' vs A AS E; inv AS; cbn [elab_elems] in E.
      - inv E. auto.
      - invb E. eapply Hy in E0 as [-> L]; eauto. invb E. eapply IH in E0 as [-> F]; eauto.
        inv E. auto. }
    split; auto. constructor. auto.
  - destruct (assigned n) eqn:As; [|discriminate]. invb E. apply elab_noassign in E0; auto.
    inv E. inv V. split; auto. constructor. exact I.
  - destruct (assigned n1 ++ assigned n2 ++ assigned n3) eqn:As; [|discriminate].
    apply app_eq_nil in As as [As1 As2]. apply app_eq_nil in As2 as [As2 As3].
    invb E. apply elab_noassign in E0; auto. subst. invb E. apply elab_noassign in E0; auto. subst.
    invb E. apply elab_noassign in E0; auto. inv E. inv V. split; auto. constructor. exact I.
  - discriminate.
  - destruct n1; try discriminate. clear IHn1. cbn [M_Elab.elab bind] in E.
    destruct (rho (v_text v)) as [u|] eqn:Ru; [|discriminate].
    destruct u; try discriminate. destruct (str_eqb x ($"glob") || str_eqb x ($"select")) eqn:Sp; [discriminate|].
    inv V. apply orb_false_iff in Sp as [Sg Ss]. apply A in Ru.
    invb E. apply elab_level in E0. subst.
    assert (K : exists w, (match glookup (v_text v) g with Some m => m | None => NId v end) = NId w /\ v_text w = x).
    { destruct (glookup (v_text v) g); [inv Ru; eauto|]. injection Ru as ->. eauto. }
    destruct K as [w [K Kx]]. rewrite K, Kx, Sg, Ss in E. inv E. split; auto. constructor. exact I.
Qed.

Lemma existsb_In x xs : existsb (str_eqb x) xs = true <-> In x xs.
Proof.
  rewrite existsb_exists. split.
  - intros [y [H1 H2]]. apply str_eqb_eq in H2. subst. auto.
  - intros H. exists x. split; auto. apply str_eqb_refl.
Qed.

Lemma agrees_forget n level g n' g' rho :
  agrees rho g -> elab level n g = Ret (n', g') -> agrees (forget (assigned n) rho) g'.
Proof.
  intros A E x v. unfold forget. destruct (existsb (str_eqb x) (assigned n)) eqn:X; [discriminate|].
  intros R. rewrite (elab_frame _ _ _ _ _ E).
  - apply A. auto.
  - rewrite <- existsb_In. congruence.
Qed.

Lemma agrees_learn n g n' g' rho :
  agrees rho g -> elab 0 n g = Ret (n', g') -> agrees (learn rho n) g'.
Proof.
  intros A E. assert (F := agrees_forget _ _ _ _ _ _ A E).
  destruct n; try exact F. destruct n1; try exact F.
  unfold learn. cbn [M_Elab.elab] in E. invb E.
  assert (F2 := agrees_forget _ _ _ _ _ _ A E0). inv E.
  intros x val. cbn [glookup]. destruct (str_eqb_spec x (v_text v)).
  - intros V. eapply elab_value in V as [_ L]; eauto.
  - apply F2.
Qed.

(** The statements are elaborated one after the other. *)
Lemma elab_nth level l : forall i n g l' g',
  elab_elems (elab level) l g = Ret (l', g') -> nth_error l i = Some n ->
  exists gi n' gi', elab_elems (elab level) (firstn i l) g = Ret (firstn i l', gi) /\
    elab level n gi = Ret (n', gi') /\ nth_error l' i = Some n'.
Proof.
  induction l as [|m l IH]; intros [|i] n g l' g' E N; try discriminate; cbn [elab_elems] in E.
  - injection N as ->. invb E. invb E. inv E. simpl. eauto 6.
  - invb E. invb E. inv E. cbn [nth_error] in N.
    destruct (IH i n _ _ _ E1 N) as [gi [n' [gi' [H1 [H2 H3]]]]].
    exists gi, n', gi'. cbn [firstn elab_elems]. rewrite E0. cbn [bind]. rewrite H1. auto.
Qed.

Lemma agrees_history l : forall rho g l' g',
  agrees rho g -> elab_elems (elab 0) l g = Ret (l', g') -> agrees (fold_left learn l rho) g'.
Proof.
  induction l as [|n l IH]; intros rho g l' g' A E; cbn [elab_elems fold_left] in *.
  - inv E; auto.
  - invb E. invb E. inv E. eapply IH; [|eauto]. eapply agrees_learn; eauto.
Qed.

Lemma agrees_unassigned : agrees unassigned [].
Proof. intros x v. unfold unassigned. cbn. congruence. Qed.

Lemma elaborate_nth stmts out i n :
  elaborate mg stmts = Ret out -> nth_error stmts i = Some n ->
  exists g n' g', agrees (fold_left learn (firstn i stmts) unassigned) g /\
    elab 0 n g = Ret (n', g') /\ nth_error out i = Some n'.
Proof.
  unfold elaborate. intros E N. invb E. inv E.
  destruct (elab_nth _ _ _ _ _ _ _ E0 N) as [gi [n' [gi' [H1 [H2 H3]]]]].
  exists gi, n', gi'. split; auto. eapply agrees_history; eauto using agrees_unassigned.
Qed.

Theorem assigned_value stmts out i lhs e rg v :
  elaborate mg stmts = Ret out ->
  nth_error stmts i = Some (NAssign lhs e rg) ->
  value_of (fold_left learn (firstn i stmts) unassigned) e = Some v ->
  exists e', nth_error out i = Some (NAssign lhs e' rg) /\ literal e' v.
Proof.
  intros E N V. destruct (elaborate_nth _ _ _ _ E N) as [g [n' [g' [A [E' N']]]]].
  cbn [M_Elab.elab] in E'. invb E'. inv E'. eapply elab_value in E0 as [_ L]; eauto.
Qed.

Theorem argument_value stmts out i f ty args j k e rg v :
  elaborate mg stmts = Ret out ->
  nth_error stmts i = Some (NCall (NId f) (NList ty args)) ->
  nth_error args j = Some (NAssign k e rg) ->
  (match fold_left learn (firstn i stmts) unassigned (v_text f) with
   | Some (VName h) => h <> $"glob" /\ h <> $"select"
   | _ => False
   end) ->
  value_of (fold_left learn (firstn i stmts) unassigned) e = Some v ->
  exists f' args' e', nth_error out i = Some (NCall f' (NList ty args')) /\
    length args' = length args /\ nth_error args' j = Some (NAssign k e' rg) /\ literal e' v.
Proof.
  intros E N Nj Hf V. destruct (elaborate_nth _ _ _ _ E N) as [g [n' [g' [A [E' N']]]]].
  cbn [M_Elab.elab bind] in E'. invb E'. invb E0. inv E0.
  destruct (elab_nth _ _ _ _ _ _ _ E1 Nj) as [gj [e1 [gj' [H1 [H2 H3]]]]].
  apply elab_elems_level in H1. subst. cbn [M_Elab.elab] in H2. invb H2. inv H2.
  eapply elab_value in E0 as [_ L]; eauto.
  destruct (fold_left learn (firstn i stmts) unassigned (v_text f)) as [u|] eqn:Ru; [|contradiction].
  destruct u; try contradiction. destruct Hf as [Hg Hs]. apply A in Ru.
  assert (K : exists w, (match glookup (v_text f) g with Some m => m | None => NId f end) = NId w /\ v_text w = x).
  { destruct (glookup (v_text f) g); [inv Ru; eauto|]. injection Ru as ->. eauto. }
  destruct K as [w [K Kx]]. rewrite K, Kx in E'.
  apply str_eqb_neq in Hg, Hs. rewrite Hg, Hs in E'. inv E'.
  do 3 eexists. split; [eauto|]. split; [|split; eauto].
  eapply elab_elems_length; eauto.
Qed.

(** ** select() *)
Lemma select_entry_spec items r : select_entry items = Ret r ->
  r = option_map snd (find (fun e => is_default_key (fst e))
        (flat_map (fun item => match item with NBin TColon k v _ => [(k, v)] | _ => [] end) items)).
Proof.
  revert r. induction items as [|n items IH]; intros r E; cbn [select_entry] in E.
  - inv E. auto.
  - invb E. cbn [flat_map]. destruct n; cbn [cast_binop] in E0; inv E0; try (apply IH; exact E).
    destruct op; try (apply IH; exact E). invb E. cbn [app find fst].
    destruct n1; cbn [cast_scalar] in E0; inv E0; cbn [is_default_key]; try (apply IH; exact E);
      fold default_condition; (destruct (str_eqb _ _); [inv E; reflexivity|apply IH; exact E]).
Qed.
Lemma find_app {A} (f : A -> bool) l m :
  find f (l ++ m) = match find f l with Some x => Some x | None => find f m end.
Proof. induction l as [|x l IH]; simpl; auto. destruct (f x); auto. Qed.
Lemma handle_select_spec args r : handle_select args = Ret r -> r = default_branch args.
Proof.
  unfold default_branch, map_entries.
  revert r. induction args as [|n args IH]; intros r E; cbn [handle_select] in E.
  - inv E. auto.
  - invb E. cbn [flat_map].
    destruct n; cbn [cast_list] in E0; inv E0; try (apply IH; exact E).
    destruct ty; try (apply IH; exact E). invb E. apply select_entry_spec in E0. subst.
    rewrite find_app. destruct (find _ (flat_map _ elems)); simpl in *; [inv E; auto|apply IH; exact E].
Qed.

Theorem select_spec level f args g n g' :
  v_text f = $"select" -> glookup ($"select") g = None ->
  elab level (NCall (NId f) args) g = Ret (n, g') ->
  exists ty args', elab (S level) args g = Ret (NList ty args', g) /\ g' = g /\
    n = match default_branch args' with
        | Some r => r
        | None => NCall (NId f) (NList ty args')
        end.
Proof.
  intros F L E. cbn [M_Elab.elab bind] in E. rewrite F, L in E. invb E.
  assert (X := elab_level _ _ _ _ _ E0). subst. rewrite F in E.
  change (str_eqb ($"select") ($"glob")) with false in E. cbn [v_text] in E.
  change (str_eqb ($"select") ($"select")) with true in E. cbv iota in E.
  destruct n0; try discriminate. invb E. apply handle_select_spec in E1. subst. inv E.
  do 2 eexists. split; [eauto|]. split; auto.
Qed.

(** A select with a literal map: the elaborated value of the first default entry. *)
Lemma elab_map_entries level g items l g' :
  elab_elems (elab (S level)) (map (fun e : view * bool * bool * srange * node =>
     let '(k, t, r, rg, v) := e in NBin TColon (NStr k t r) v rg) items) g = Ret (l, g') ->
  exists vs, Forall2 (fun e v' => elab (S level) (snd e) g = Ret (v', g)) items vs /\
    l = map (fun p => let '(k, t, r, rg, _, v) := p in NBin TColon (NStr k t r) v rg) (combine items vs).
Proof.
  revert l g'. induction items as [|[[[[k t] r] rg] v] items IH]; intros l g' E; cbn [map elab_elems] in E.
  - inv E. exists []. auto.
  - invb E. cbn [M_Elab.elab bind] in E0. invb E0. inv E0.
    assert (X := elab_level _ _ _ _ _ E1). subst. invb E. inv E.
    destruct (IH _ _ eq_refl) as [vs [F ->]]. exists (n0 :: vs). split; auto.
Qed.

Theorem select_literal level f ty items g n g' :
  v_text f = $"select" -> glookup ($"select") g = None ->
  elab level (NCall (NId f) (NList ty [NList LMap (map (fun e : view * bool * bool * srange * node =>
     let '(k, t, r, rg, v) := e in NBin TColon (NStr k t r) v rg) items)])) g = Ret (n, g') ->
  match find (fun e => let '(k, _, _, _, _) := e in str_eqb (v_text k) ($"//conditions:default")) items with
  | Some e => elab (S level) (snd e) g = Ret (n, g)
  | None => exists args', n = NCall (NId f) args'
  end.
Proof.
  intros F L E. apply select_spec in E as [ty' [args' [E [_ ->]]]]; auto.
  cbn [M_Elab.elab] in E. invb E. inv E. cbn [elab_elems] in E0. invb E0. inv E0.
  cbn [M_Elab.elab] in E. invb E. inv E.
  apply elab_map_entries in E0 as [vs [F2 ->]].
  unfold default_branch, map_entries. cbn [flat_map]. rewrite app_nil_r.
  set (N := NCall (NId f) _). assert (K : exists a, N = NCall (NId f) a) by (unfold N; eauto).
  clearbody N. induction F2 as [|[[[[k t] r] rg] v] v' items vs Hv F2 IH]; cbn [combine map flat_map find app].
  - exact K.
  - cbn [fst is_default_key]. destruct (str_eqb _ _); auto.
Qed.

(** ** glob() *)
Lemma glob_args_spec args : forall i e i' e', glob_args args i e = Ret (i', e') ->
  (exists x, i' = x /\ texts x = texts (match last_given ($"include") args with Some l => Some l | None => i end)) /\
  (exists x, e' = x /\ texts x = texts (match last_given ($"exclude") args with Some l => Some l | None => e end)).
Proof.
  induction args as [|a args IH]; intros i e i' e' H; cbn [glob_args] in H.
  - injection H as <- <-. cbn. split; eexists; split; reflexivity.
  - assert (K : forall i1 e1, glob_args args i1 e1 = Ret (i', e') ->
      texts i1 = texts (match given ($"include") a with Some l => Some l | None => i end) ->
      texts e1 = texts (match given ($"exclude") a with Some l => Some l | None => e end) ->
      (exists x, i' = x /\ texts x = texts (match last_given ($"include") (a :: args) with Some l => Some l | None => i end)) /\
      (exists x, e' = x /\ texts x = texts (match last_given ($"exclude") (a :: args) with Some l => Some l | None => e end))).
    { intros i1 e1 G E1 E2. destruct (IH _ _ _ _ G) as ((x & -> & X) & (y & -> & Y)). cbn [last_given]. split; eexists; (split; [reflexivity|]).
      - rewrite X. destruct (last_given ($"include") args); [reflexivity|exact E1].
      - rewrite Y. destruct (last_given ($"exclude") args); [reflexivity|exact E2]. }
    assert (C : forall v o, cast_list v = Ret o -> texts (option_map snd o) = texts (Some (match v with NList _ l => l | _ => [] end))).
    { intros v o E. destruct v; cbn in E; try discriminate E; injection E as <-; reflexivity. }
    invb H. destruct a as [|v t r|v z|v|op m|op l r rg|ty l|ty m|c q m|l r rg|id ar]; cbn [cast_list] in E; try discriminate E; injection E as <-; cbn [given] in K;
      try (apply (K i e); [exact H|reflexivity|reflexivity]); try (apply (K (Some l) e); [exact H|reflexivity|reflexivity]).
    destruct l as [|v t r0|v z|k|op m|op l0 r0 rg0|ty l0|ty m|c q m|l0 r0 rg0|id ar]; try (apply (K i e); [exact H|reflexivity|reflexivity]).
    assert (Sy : forall a b, str_eqb a b = str_eqb b a) by (intros a b; destruct (str_eqb a b) eqn:E; symmetry; [apply str_eqb_eq in E; subst; now apply str_eqb_eq|]; apply not_true_iff_false; intros X; apply str_eqb_eq in X; subst; rewrite (proj2 (str_eqb_eq a a)) in E; congruence).
    destruct (str_eqb (v_text k) ($"include")) eqn:E1.
    + invb H. apply (K _ _ H).
      * rewrite Sy, E1. eapply C; eauto.
      * apply str_eqb_eq in E1. rewrite E1. reflexivity.
    + destruct (str_eqb (v_text k) ($"exclude")) eqn:E2.
      * invb H. apply (K _ _ H).
        -- rewrite Sy, E1. reflexivity.
        -- rewrite Sy, E2. eapply C; eauto.
      * apply (K _ _ H); [rewrite Sy, E1|rewrite Sy, E2]; reflexivity.
Qed.
Lemma extract_texts l v : extract_string_list l = Ret v -> map v_text v = texts l.
Proof.
  unfold extract_string_list, texts. change (opt_elems l) with (match l with Some l => l | None => [] end). generalize (match l with Some l => l | None => [] end). clear l. intros l. revert v.
  induction l as [|n l IH]; intros v H; cbn [string_list] in H; [injection H as <-; reflexivity|]. invb H. invb H. cbn [flat_map]. rewrite <- (IH _ eq_refl).
  destruct n; cbn in E; try discriminate E; injection E as <-; try (injection H as <-; reflexivity); destruct (v_text v0) eqn:X; cbn [is_nil] in H; injection H as <-; cbn [map app]; now rewrite ?X.
Qed.
Theorem glob_spec level f args g n g' :
  v_text f = $"glob" -> glookup ($"glob") g = None ->
  elab level (NCall (NId f) args) g = Ret (n, g') ->
  exists ty args', elab (S level) args g = Ret (NList ty args', g) /\ g' = g /\
    n = NList LList (map (fun s => NStr (mkView s (match v_org f with InFile off => Synth off 4 | o => o end)) false false)
          (mg (texts (last_given ($"include") args')) (texts (last_given ($"exclude") args')))).
Proof.
  intros F L E. cbn [M_Elab.elab bind] in E. rewrite F, L in E. invb E.
  assert (X := elab_level _ _ _ _ _ E0). subst. rewrite F in E.
  change (str_eqb ($"glob") ($"glob")) with true in E. cbv iota in E.
  destruct n0; try discriminate. unfold handle_glob in E. invb E. inv E. invb E1. invb E1. invb E1. inv E1.
  apply glob_args_spec in E as ((? & -> & X) & (? & -> & Y)). apply extract_texts in E2, E3. exists ty, elems. split; auto. split; auto.
  rewrite E2, E3, X, Y. unfold located_at. rewrite F. destruct (last_given ($"include") elems), (last_given ($"exclude") elems); reflexivity.
Qed.

(** ** What is kept *)
Theorem statements_kept stmts out :
  elaborate mg stmts = Ret out -> length out = length stmts.
Proof. unfold elaborate. intros E. invb E. inv E. eapply elab_elems_length; eauto. Qed.

Lemma elab_elems_frame level l : forall g l' g', elab_elems (elab level) l g = Ret (l', g') ->
  forall x, ~ In x (flat_map assigned l) -> glookup x g' = glookup x g.
Proof.
  induction l as [|n l IH]; intros g l' g' E x Hx; cbn [elab_elems flat_map] in *.
  - inv E; auto.
  - rewrite in_app_iff in Hx. invb E. apply elab_frame with (x := x) in E0; [|tauto].
    invb E. apply IH with (x := x) in E1; [|tauto]. inv E. congruence.
Qed.

Lemma elab_same_args level l : forall g l' g', elab_elems (elab level) l g = Ret (l', g') ->
  Forall2 same_arg l l'.
Proof.
  induction l as [|n l IH]; intros g l' g' E; cbn [elab_elems] in *.
  - inv E; auto.
  - invb E. invb E. inv E. constructor; eauto. destruct n; simpl; auto.
    cbn [M_Elab.elab] in E0. invb E0. inv E0. eauto.
Qed.

Theorem statement_kept stmts out i n :
  elaborate mg stmts = Ret out -> nth_error stmts i = Some n ->
  (forall f a, n = NCall f a -> exists v, f = NId v /\
     ~ In (v_text v) (flat_map assigned (firstn i stmts)) /\ v_text v <> $"glob" /\ v_text v <> $"select") ->
  exists n', nth_error out i = Some n' /\ same_statement n n'.
Proof.
  intros E N Hf. unfold elaborate in E. invb E. inv E.
  destruct (elab_nth _ _ _ _ _ _ _ E0 N) as [gi [n' [gi' [H1 [H2 H3]]]]].
  exists n'. split; auto. clear - Hf H1 H2. destruct n; simpl; auto.
  - cbn [M_Elab.elab] in H2. invb H2. inv H2. eauto.
  - destruct n2; auto. destruct (Hf _ _ eq_refl) as [v [-> [Ha [Hg Hs]]]].
    apply elab_elems_frame with (x := v_text v) in H1; auto. cbn [glookup] in H1.
    cbn [M_Elab.elab bind] in H2. rewrite H1 in H2. invb H2. invb E. inv E.
    apply str_eqb_neq in Hg, Hs. rewrite Hg, Hs in H2. inv H2.
    eexists. split; eauto. eapply elab_same_args; eauto.
Qed.

Lemma elab_untouched var n : forall level g,
  (forall x, glookup x g <> None -> var x = true) ->
  (level = 0 -> forall x, In x (assigned n) -> var x = true) ->
  mentions var n = false ->
  exists g', elab level n g = Ret (n, g') /\ (forall x, glookup x g' <> None -> var x = true).
Proof.
  induction n using node_ind'; intros level g Hg Ha M; cbn [M_Elab.elab assigned mentions] in *.
  - eauto.
  - eauto.
  - eauto.
  - exists g. split; auto. destruct (glookup (v_text v) g) eqn:L; auto.
    rewrite Hg in M; congruence.
  - destruct (IHn level g) as [g' [-> H]]; auto. exists g'. auto.
  - assert (M' : mentions var n1 = false /\ mentions var n2 = false /\ op <> TPlus).
    { destruct op; try discriminate; apply orb_false_iff in M; intuition congruence. }
    destruct M' as [M1 [M2 N]].
    destruct (IHn1 level g) as [g1 [-> H1]]; auto. { intros. apply Ha, in_app_iff; auto. }
    destruct (IHn2 level g1) as [g2 [E2 H2]]; auto. { intros. apply Ha, in_app_iff; auto. }
    cbn [bind]. rewrite E2. cbn [bind]. exists g2. split; auto. destruct op; congruence.
  - assert (L : exists g', elab_elems (elab level) elems g = Ret (elems, g') /\
               (forall x, glookup x g' <> None -> var x = true)).
    { revert g Hg. induction H as [|y l Hy Hl IH]; intros g Hg; cbn [elab_elems existsb flat_map] in *; eauto.
      apply orb_false_iff in M as [M1 M2].
      destruct (Hy level g) as [g1 [-> H1]]; auto. { intros. apply Ha, in_app_iff; auto. }
      destruct (IH ltac:(intros; apply Ha, in_app_iff; auto) M2 g1) as [g2 [E2 H2]]; auto.
      cbn [bind]. rewrite E2. cbn [bind]. eauto. }
    destruct L as [g' [-> H']]. cbn [bind]. eauto.
  - destruct (IHn level g) as [g' [-> H]]; auto. cbn [bind]. exists g'. split; auto.
    destruct n; auto.
  - apply orb_false_iff in M as [M M3]. apply orb_false_iff in M as [M1 M2].
    destruct (IHn1 level g) as [g1 [-> H1]]; auto. { intros. apply Ha, in_app_iff; auto. }
    destruct (IHn2 level g1) as [g2 [E2 H2]]; auto. { intros. apply Ha, in_app_iff; auto; right; apply in_app_iff; auto. }
    destruct (IHn3 level g2) as [g3 [E3 H3]]; auto. { intros. apply Ha, in_app_iff; auto; right; apply in_app_iff; auto. }
    cbn [bind]. rewrite E2. cbn [bind]. rewrite E3. cbn [bind]. eauto.
  - destruct (IHn2 level g) as [g' [-> H]]; auto. { intros. apply Ha, in_app_iff; auto. }
    cbn [bind]. eexists. split; [reflexivity|]. destruct level; auto. destruct n1; auto.
    intros x. cbn [glookup]. destruct (str_eqb_spec x (v_text v)); auto. subst. intros _.
    apply Ha; simpl; auto.
  - destruct n1; try discriminate. apply orb_false_iff in M as [M M4].
    apply orb_false_iff in M as [M M3]. apply orb_false_iff in M as [M1 M2].
    cbn [M_Elab.elab bind].
    assert (L : glookup (v_text v) g = None).
    { destruct (glookup (v_text v) g) eqn:L; auto. rewrite Hg in M1; congruence. }
    rewrite L. destruct (IHn2 (S level) g) as [g' [-> H']]; auto; [discriminate|].
    cbn [bind]. rewrite M2, M3. eauto.
Qed.

Lemma untouched_history var l : forall g l' g',
  (forall x, glookup x g <> None -> var x = true) ->
  (forall x, In x (flat_map assigned l) -> var x = true) ->
  elab_elems (elab 0) l g = Ret (l', g') -> (forall x, glookup x g' <> None -> var x = true).
Proof.
  intros g l' g' Hg Ha E x Hx.
  destruct (existsb (str_eqb x) (flat_map assigned l)) eqn:X.
  - apply existsb_In in X. auto.
  - apply Hg. rewrite <- (elab_elems_frame _ _ _ _ _ E); auto.
    rewrite <- existsb_In. congruence.
Qed.

Theorem statement_untouched stmts out i n :
  elaborate mg stmts = Ret out -> nth_error stmts i = Some n ->
  mentions (fun x => existsb (str_eqb x) (flat_map assigned (firstn (S i) stmts))) n = false ->
  nth_error out i = Some n.
Proof.
  intros E N M. unfold elaborate in E. invb E. inv E.
  destruct (elab_nth _ _ _ _ _ _ _ E0 N) as [gi [n' [gi' [H1 [H2 H3]]]]].
  assert (S : firstn (S i) stmts = firstn i stmts ++ [n]).
  { clear - N. revert i N. induction stmts as [|m l IH]; intros [|i] N; try discriminate.
    - injection N as ->. reflexivity.
    - cbn [nth_error] in N. change (m :: firstn (S i) l = m :: firstn i l ++ [n]). f_equal. auto. }
  set (var := fun x => _) in M.
  destruct (elab_untouched var n 0 gi) as [g'' [E' _]]; auto.
  - eapply untouched_history; [|
      |exact H1].
    + intros x. simpl. congruence.
    + intros x Hx. unfold var. apply existsb_In. rewrite S, flat_map_app, in_app_iff. auto.
  - intros _ x Hx. unfold var. apply existsb_In. rewrite S, flat_map_app, in_app_iff.
    right. simpl. rewrite app_nil_r. auto.
  - rewrite E' in H2. inv H2. auto.
Qed.

(** ** No missing node is used *)
Definition nonnull (n : node) : Prop := n <> NNull.
Fixpoint nsize (n : node) : nat :=
  match n with
  | NNull | NStr _ _ _ | NInt _ _ | NId _ => 1
  | NUnary _ n => S (nsize n)
  | NBin _ l r _ => S (nsize l + nsize r)
  | NList _ l => S (list_sum (map nsize l))
  | NComp _ f => S (nsize f)
  | NTernary c p n => S (nsize c + nsize p + nsize n)
  | NAssign l r _ => S (nsize l + nsize r)
  | NCall i a => S (nsize i + nsize a)
  end.
Lemma nsize_in x l : In x l -> nsize x <= list_sum (map nsize l).
Proof. induction l as [|y l IH]; simpl; [tauto|]. intros [->|H]; [lia|]. apply IH in H. lia. Qed.
Lemma size_ind (P : node -> Prop) : (forall n, (forall m, nsize m < nsize n -> P m) -> P n) -> forall n, P n.
Proof.
  intros H n. assert (K : forall k m, nsize m < k -> P m).
  { induction k as [|k IH]; intros m Hm; [lia|]. apply H. intros m' Hm'. apply IH. lia. }
  apply (K (S (nsize n))). lia.
Qed.

Lemma whole_sound n : (whole n -> sound n) /\ (for_chain n -> chain n).
Proof.
  induction n as [n IH] using size_ind.
  assert (Fl : forall l, (forall x, In x l -> nsize x < nsize n) -> Forall whole l -> Forall sound l).
  { intros l Hl. rewrite !Forall_forall. intros F x Hx. apply IH; auto. }
  assert (On : forall m, nsize m < nsize n -> m = NNull \/ whole m -> m = NNull \/ sound m).
  { intros m Hm [->|H]; auto. right. apply IH; auto. }
  split; intros W; inversion W; subst; cbn [nsize] in *.
  - constructor.
  - constructor.
  - constructor.
  - constructor. apply On; [lia|auto].
  - constructor; apply IH; auto; lia.
  - apply S_slice; [apply IH; auto; lia| |]; apply On; auto; lia.
  - constructor. apply Fl; auto. intros x Hx. apply nsize_in in Hx. lia.
  - constructor. right. apply IH; auto; lia.
  - constructor; [right; apply IH; auto; lia|right; apply IH; auto; lia|apply On; auto; lia].
  - constructor. apply IH; auto; lia.
  - constructor. eapply Forall_impl; [intros x Hx; left; exact Hx|]. apply Fl; auto. intros x Hx. apply nsize_in in Hx. lia.
  - constructor.
    + destruct H as [H|H]; [left|right]; apply IH; auto; lia.
    + rewrite !Forall_forall in *. intros x Hx. destruct (H0 x Hx) as [->|[v ->]]; auto. right. constructor.
    + right. apply IH; auto; lia.
Qed.

Lemma sound_nonnull n : sound n -> n <> NNull.
Proof. intros H E. subst. inversion H. Qed.

Definition sound_env (g : genv) : Prop := forall x n, glookup x g = Some n -> sound n.
(** Called functions are not variables. *)
Definition callable (g : genv) (n : node) : Prop := forall x, In x (called n) -> glookup x g = None.

Lemma cast_list_nonnull n : n <> NNull -> exists r, cast_list n = Ret r.
Proof. destruct n; simpl; eauto. congruence. Qed.
Lemma elab_plus_sound l r rg : sound l -> sound r -> exists n, elab_plus l r rg = Ret n /\ sound n.
Proof.
  intros Hl Hr. assert (Nl := sound_nonnull _ Hl). assert (Nr := sound_nonnull _ Hr). unfold elab_plus.
  destruct l; try congruence; destruct r; try congruence; cbn [cast_list bind];
    try (eexists; split; [reflexivity|]; solve [auto|constructor; auto]).
  destruct (ltype_eqb ty ty0); eexists; (split; [reflexivity|]); [|constructor; auto].
  constructor. inv Hl. inv Hr. apply Forall_app. auto.
Qed.
Lemma select_entry_sound items : Forall sound items ->
  exists r, select_entry items = Ret r /\ match r with Some n => sound n | None => True end.
Proof.
  induction 1 as [|n l Hn Hl [r [IH Hr]]]; cbn [select_entry]; [exists None; auto|].
  destruct n; try (inversion Hn; fail); cbn [cast_binop bind]; try rewrite IH; eauto.
  destruct op; eauto. assert (S12 : sound n1 /\ sound n2) by (inversion Hn; subst; [auto|discriminate]).
  destruct S12 as [S1 S2].
  destruct n1; try (inversion S1; fail); cbn [cast_scalar bind]; eauto;
    (destruct (str_eqb _ _); [exists (Some n2)|]; eauto).
Qed.
Definition argument (a : node) : Prop := sound a \/ missing_value a.
Lemma handle_select_sound args : Forall argument args ->
  exists r, handle_select args = Ret r /\ match r with Some n => sound n | None => True end.
Proof.
  induction 1 as [|n l Hn Hl [r [IH Hr]]]; cbn [handle_select]; [exists None; auto|].
  destruct Hn as [Hn|(k & rg & -> & _)]; [|cbn [cast_list bind]; rewrite IH; eauto].
  destruct n; try (inversion Hn; fail); cbn [cast_list bind]; try rewrite IH; eauto.
  destruct ty; eauto. inv Hn. destruct (select_entry_sound elems) as [r' [E' Hr']]; auto.
  rewrite E'. cbn [bind]. destruct r' as [n|]; [exists (Some n)|]; eauto.
Qed.
Definition opt_sound (l : option (list node)) : Prop := Forall sound (opt_elems l).
Lemma glob_args_sound args : Forall argument args -> forall i e, opt_sound i -> opt_sound e ->
  exists i' e', glob_args args i e = Ret (i', e') /\ opt_sound i' /\ opt_sound e'.
Proof.
  induction 1 as [|n l Hn Hl IH]; intros i e Hi He; cbn [glob_args]; eauto.
  destruct Hn as [Hn|(k & rg & -> & N1 & N2)].
  2:{ cbn [cast_list bind]. destruct (str_eqb_spec (v_text k) ($"include")); [congruence|].
      destruct (str_eqb_spec (v_text k) ($"exclude")); [congruence|]. apply IH; auto. }
  destruct n; try (inversion Hn; fail); cbn [cast_list bind]; eauto.
  - apply IH; auto. inv Hn. auto.
  - destruct n1; eauto. inv Hn.
    assert (C : exists r, cast_list n2 = Ret r /\ opt_sound (option_map snd r)).
    { destruct n2; try (inversion H0; fail); cbn [cast_list]; eexists; (split; [reflexivity|]);
        unfold opt_sound; simpl; auto. inv H0. auto. }
    destruct C as [r [C Hr]].
    destruct (str_eqb _ _); [rewrite C; cbn [bind]; auto|].
    destruct (str_eqb _ _); [rewrite C; cbn [bind]; auto|]. auto.
Qed.
Lemma string_list_sound l : Forall sound l -> exists r, string_list l = Ret r.
Proof.
  induction 1 as [|n l Hn Hl [r IH]]; cbn [string_list]; eauto.
  destruct n; try (inversion Hn; fail); cbn [cast_scalar bind]; rewrite IH; cbn [bind]; eauto.
Qed.
Lemma handle_glob_sound v args : Forall argument args -> exists n, handle_glob mg v args = Ret n /\ sound n.
Proof.
  intros H. unfold handle_glob.
  destruct (glob_args_sound args H None None) as [i [e [-> [Hi He]]]]; try constructor.
  cbn [bind]. unfold extract_string_list.
  destruct (string_list_sound _ Hi) as [ri ->]. cbn [bind].
  destruct (string_list_sound _ He) as [re ->]. cbn [bind].
  eexists. split; [reflexivity|]. constructor. apply Forall_forall. intros x Hx.
  apply in_map_iff in Hx as [s [<- _]]. constructor.
Qed.

(** The names that may get a value. *)
Definition only (names : list str) (g : genv) : Prop := forall x, glookup x g <> None -> In x names.

Lemma elems_all (f : node -> genv -> outcome (node * genv)) (inv : genv -> Prop) (Q : node -> Prop) l :
  (forall x g, In x l -> inv g -> exists x' g', f x g = Ret (x', g') /\ Q x' /\ inv g') ->
  forall g, inv g -> exists l' g', elab_elems f l g = Ret (l', g') /\ Forall Q l' /\ inv g'.
Proof.
  induction l as [|x l IH]; intros H g Hg; cbn [elab_elems]; [exists [], g; auto|].
  destruct (H x g) as [x' [g1 [-> [B C]]]]; [left; auto|auto|]. cbn [bind].
  destruct (IH (fun y g' Hy => H y g' (or_intror Hy)) g1 C) as [l' [g2 [-> [B2 C2]]]].
  cbn [bind]. do 2 eexists; split; eauto.
Qed.

Lemma elab_sound names n : forall level g,
  sound_env g -> only names g ->
  (level = 0 -> incl (assigned n) names) ->
  (forall x, In x (called n) -> ~ In x names) ->
  (sound n -> exists n' g', elab level n g = Ret (n', g') /\ sound n' /\ sound_env g' /\ only names g') /\
  (chain n -> exists n' g', elab level n g = Ret (n', g') /\ chain n' /\ sound_env g' /\ only names g').
Proof.
  induction n as [n IH] using size_ind. intros level g Hg Ho Ha Hc.
  assert (One : forall m g, nsize m < nsize n -> incl (assigned m) (assigned n) -> incl (called m) (called n) ->
     sound m -> sound_env g -> only names g ->
     exists n' g', elab level m g = Ret (n', g') /\ sound n' /\ sound_env g' /\ only names g').
  { intros m g0 Hm Im Ic Hs Hg0 Ho0. destruct (IH m Hm level g0 Hg0 Ho0) as [K _]; auto.
    intros L. apply (incl_tran Im). auto. }
  assert (Opt : forall m g, nsize m < nsize n -> incl (assigned m) (assigned n) -> incl (called m) (called n) ->
     m = NNull \/ sound m -> sound_env g -> only names g ->
     exists n' g', elab level m g = Ret (n', g') /\ (n' = NNull \/ sound n') /\ sound_env g' /\ only names g').
  { intros m g0 Hm Im Ic [->|Hs] Hg0 Ho0; [exists NNull, g0; auto|].
    destruct (One m g0) as [n' [g' [A [B [C D]]]]]; auto. exists n', g'. auto. }
  split; intros W; inversion W; subst; cbn [nsize assigned called] in *; cbn [M_Elab.elab].
  - do 2 eexists; split; eauto.
  - do 2 eexists; split; eauto.
  - do 2 eexists; split; eauto. split; auto. destruct (glookup (v_text v) g) eqn:L; eauto.
  - destruct (Opt n0 g) as [n' [g' [-> [B [C D]]]]]; auto using incl_refl; try lia.
    cbn [bind]. do 2 eexists; split; eauto. split; auto. constructor; auto.
  - destruct (One l g) as [l' [g1 [-> [Bl [Cl Dl]]]]]; auto using incl_appl, incl_refl; try lia.
    destruct (One r g1) as [r' [g2 [Er [Br [Cr Dr]]]]]; auto using incl_appr, incl_refl; try lia.
    cbn [bind]. rewrite Er. cbn [bind].
    destruct (elab_plus_sound l' r' rg Bl Br) as [p [Ep Hp]].
    destruct op; try rewrite Ep; cbn [bind]; do 2 eexists; (split; [reflexivity|]); split; auto; constructor; auto.
  - (* other operators *)
    destruct (Opt l g) as [l' [g1 [-> [Bl [Cl Dl]]]]]; auto using incl_appl, incl_refl; try lia.
    destruct (Opt r g1) as [r' [g2 [Er [Br [Cr Dr]]]]]; auto using incl_appr, incl_refl; try lia.
    cbn [bind]. rewrite Er. cbn [bind].
    destruct op; try discriminate; do 2 eexists; (split; [reflexivity|]); split; auto; apply S_operator; auto.
  - (* slice *)
    cbn [nsize assigned called] in *.
    destruct (One x g) as [x' [g1 [-> [Bl [Cl Dl]]]]]; auto using incl_appl, incl_refl; try lia.
    destruct (Opt a g1) as [a' [g2 [Ea [Ba [Ca Da]]]]]; try lia; auto using incl_appr, incl_appl, incl_refl.
    destruct (Opt b g2) as [b' [g3 [Eb [Bb [Cb Db]]]]]; try lia; auto using incl_appr, incl_refl.
    cbn [bind]. rewrite Ea. cbn [bind]. rewrite Eb. cbn [bind].
    do 2 eexists; (split; [reflexivity|]); split; auto. apply S_slice; auto.
  - (* list *)
    assert (L : exists l' g', elab_elems (elab level) l g = Ret (l', g') /\ Forall sound l' /\
                sound_env g' /\ only names g').
    { assert (Hl : forall x, In x l -> nsize x < S (list_sum (map nsize l)) /\
                incl (assigned x) (flat_map assigned l) /\ incl (called x) (flat_map called l)).
      { intros x Hx. split; [apply nsize_in in Hx; lia|]. split; intros y Hy; apply in_flat_map; eauto. }
      rewrite Forall_forall in H. apply (elems_all _ (fun g => sound_env g /\ only names g)); auto.
      intros x g0 Hx [Hg0 Ho0]. destruct (Hl x Hx) as [P1 [P2 P3]]. apply One; auto. }
    destruct L as [l' [g' [-> [B [C D]]]]]. cbn [bind]. do 2 eexists; split; eauto. split; auto. constructor; auto.
  - (* comprehension *)
    destruct H as [->|H]; [cbn; do 2 eexists; split; eauto; split; auto; constructor; auto|].
    destruct (IH f) with (level := level) (g := g) as [_ [f' [g' [-> [B [C D]]]]]]; auto; try lia.
    cbn [bind]. do 2 eexists; split; eauto. split; auto. inversion B; subst. constructor; auto.
  - destruct (Opt c g) as [c' [g1 [-> [Bl [Cl Dl]]]]]; auto using incl_appl, incl_refl; try lia.
    destruct (Opt p g1) as [p' [g2 [Ea [Ba [Ca Da]]]]]; try lia; auto using incl_appr, incl_appl, incl_refl.
    destruct (Opt n0 g2) as [n' [g3 [Eb [Bb [Cb Db]]]]]; try lia; auto using incl_appr, incl_refl.
    cbn [bind]. rewrite Ea. cbn [bind]. rewrite Eb. cbn [bind].
    do 2 eexists; (split; [reflexivity|]); split; auto. constructor; auto.
  - destruct (One r g) as [r' [g1 [-> [B [C D]]]]]; auto using incl_appr, incl_refl; try lia.
    cbn [bind]. do 2 eexists; (split; [reflexivity|]). split; [constructor; auto|].
    destruct level; auto. destruct l; auto. specialize (Ha eq_refl). split.
    + intros x n. cbn [glookup]. destruct (str_eqb x (v_text v)); [|apply C]. intros E. inv E. auto.
    + intros x. cbn [glookup]. destruct (str_eqb_spec x (v_text v)); [|apply D]. subst. intros _.
      apply Ha. simpl. auto.
  - (* call *)
    assert (L : glookup (v_text v) g = None).
    { destruct (glookup (v_text v) g) eqn:L; auto. exfalso. apply (Hc (v_text v)); [simpl; auto|].
      apply Ho. congruence. }
    rewrite L. cbn [bind].
    assert (A : exists l' g', elab_elems (elab (S level)) l g = Ret (l', g') /\ Forall argument l' /\
                sound_env g' /\ only names g').
    { rewrite Forall_forall in H. apply (elems_all _ (fun g => sound_env g /\ only names g)); auto.
      intros x g0 Hx [Hg0 Ho0]. destruct (H x Hx) as [Hs|Hm].
      - destruct (IH x) with (level := S level) (g := g0) as [K _]; auto.
        + apply nsize_in in Hx. lia.
        + discriminate.
        + intros y Hy. apply Hc. apply in_app_iff. right. apply in_flat_map. eauto.
        + destruct (K Hs) as (n' & g' & E & B & C & D). exists n', g'. unfold argument. auto.
      - destruct Hm as (k & rg & -> & N). exists (NAssign (NId k) NNull rg), g0. split; [reflexivity|].
        split; auto. right. exists k, rg. auto. }
    destruct A as (l' & g' & -> & B & C & D). cbn [bind].
    destruct (str_eqb _ _).
    + destruct (handle_glob_sound v l') as [n [-> Hn]]; auto. cbn [bind]. eauto 6.
    + destruct (str_eqb _ _).
      * destruct (handle_select_sound l') as [r [-> Hr]]; auto. cbn [bind].
        do 2 eexists; split; [reflexivity|]. split; auto. destruct r; auto. constructor; auto.
      * do 2 eexists; split; [reflexivity|]. split; auto. constructor; auto.
  - (* chain *)
    cbn [nsize assigned called] in *.
    assert (T : exists t' g', elab level target g = Ret (t', g') /\ (sound t' \/ chain t') /\
                 sound_env g' /\ only names g').
    { destruct (IH target) with (level := level) (g := g) as [K1 K2]; auto; try lia.
      - intros L. apply (incl_tran (m := assigned target ++ flat_map assigned vars ++ assigned values)); auto using incl_appl, incl_refl.
      - intros x Hx. apply Hc. apply in_app_iff. auto.
      - destruct H as [H|H]; [destruct (K1 H) as [t' [g' [A [B [C D]]]]]|destruct (K2 H) as [t' [g' [A [B [C D]]]]]];
          exists t', g'; auto. }
    destruct T as [t' [g1 [-> [Bt [Ct Dt]]]]]. cbn [bind].
    assert (L : exists l' g', elab_elems (elab level) vars g1 = Ret (l', g') /\
                Forall (fun v => v = NNull \/ sound v) l' /\ sound_env g' /\ only names g').
    { assert (Hl : forall x, In x vars -> nsize x < S (nsize target + S (S (list_sum (map nsize vars)) + nsize values)) /\
                incl (assigned x) (assigned target ++ flat_map assigned vars ++ assigned values) /\
                incl (called x) (called target ++ flat_map called vars ++ called values)).
      { intros x Hx. split; [apply nsize_in in Hx; lia|].
        split; intros y Hy; apply in_app_iff; right; apply in_app_iff; left; apply in_flat_map; eauto. }
      rewrite Forall_forall in H0. apply (elems_all _ (fun g => sound_env g /\ only names g)); auto.
      intros x g0 Hx [Hg0 Ho0]. destruct (Hl x Hx) as [P1 [P2 P3]]. apply Opt; auto. }
    destruct L as [l' [g2 [-> [B [C D]]]]]. cbn [bind].
    destruct (Opt values g2) as [v' [g3 [-> [Bv [Cv Dv]]]]]; auto; try lia.
    { apply incl_appr, incl_appr, incl_refl. }
    { apply incl_appr, incl_appr, incl_refl. }
    cbn [bind]. do 2 eexists; split; [reflexivity|]. split; auto. constructor; auto.
Qed.

Lemma elab_elems_sound names l : forall g,
  sound_env g -> only names g -> incl (flat_map assigned l) names ->
  (forall x, In x (flat_map called l) -> ~ In x names) -> Forall sound l ->
  exists l' g', elab_elems (elab 0) l g = Ret (l', g') /\ Forall sound l' /\ sound_env g' /\ only names g'.
Proof.
  induction l as [|n l IH]; intros g Hg Ho Ha Hc F; cbn [elab_elems flat_map] in *; [exists [], g; auto|].
  inversion F; subst. apply incl_app_inv in Ha as [Ha1 Ha2].
  destruct (elab_sound names n 0 g) as [K _]; auto.
  { intros x Hx. apply Hc, in_app_iff. auto. }
  destruct K as [n' [g1 [-> [B [C D]]]]]; auto. cbn [bind].
  destruct (IH g1) as [l' [g2 [-> [B2 B3]]]]; auto.
  { intros x Hx. apply Hc, in_app_iff. auto. }
  cbn [bind]. do 2 eexists. split; [reflexivity|]. auto.
Qed.

Lemma whole_statement_sound n : whole_statement n -> sound n.
Proof.
  intros [m W|vars r rg V W]; [apply whole_sound; auto|]. constructor. apply whole_sound. auto.
Qed.

Theorem elaborate_defined stmts :
  Forall whole_statement stmts ->
  (forall x, In x (flat_map called stmts) -> ~ In x (flat_map assigned stmts)) ->
  exists out, elaborate mg stmts = Ret out /\ Forall sound out.
Proof.
  intros W Hc. unfold elaborate.
  destruct (elab_elems_sound (flat_map assigned stmts) stmts []) as [l [g [-> [B _]]]]; auto using incl_refl.
  - intros x n. discriminate.
  - intros x. simpl. congruence.
  - eapply Forall_impl; [|exact W]. apply whole_statement_sound.
  - cbn [bind]. eauto.
Qed.

(** A file whose last statement is not complete. *)
Lemma elab_elems_app (f : node -> genv -> outcome (node * genv)) l1 l2 : forall g,
  elab_elems f (l1 ++ l2) g =
  (do (a, g1) <- elab_elems f l1 g; do (b, g2) <- elab_elems f l2 g1; Ret (a ++ b, g2)).
Proof.
  induction l1 as [|x l1 IH]; intros g; cbn [app elab_elems bind].
  - destruct (elab_elems f l2 g) as [[? ?]| |]; reflexivity.
  - destruct (f x g) as [[x' g1]| |]; cbn [bind]; try reflexivity. rewrite IH.
    destruct (elab_elems f l1 g1) as [[a g2]| |]; cbn [bind]; try reflexivity.
    destruct (elab_elems f l2 g2) as [[b g3]| |]; reflexivity.
Qed.
Lemma elaborate_last stmts last out r : elaborate mg stmts = Ret out -> elaborate mg (stmts ++ [last]) = Ret r ->
  exists last', r = out ++ [last'].
Proof.
  unfold elaborate. intros E1 E2. rewrite elab_elems_app in E2.
  destruct (elab_elems (elab 0) stmts []) as [[a g]| |]; cbn [bind] in *; try discriminate. inv E1.
  cbn [elab_elems] in E2. destruct (elab 0 last g) as [[last' g']| |]; cbn [bind] in E2; try discriminate. inv E2. eauto.
Qed.
Theorem elaborate_tolerable stmts last :
  Forall sound stmts -> tolerable last ->
  (forall x, In x (flat_map called (stmts ++ [last])) -> ~ In x (flat_map assigned (stmts ++ [last]))) ->
  exists out last', elaborate mg (stmts ++ [last]) = Ret (out ++ [last']) /\ Forall sound out /\ tolerable last'.
Proof.
  intros W T Hc. unfold elaborate. set (names := flat_map assigned (stmts ++ [last])) in *.
  rewrite !flat_map_app in Hc. cbn [flat_map] in Hc. rewrite app_nil_r in Hc.
  assert (Nm : incl (flat_map assigned stmts) names /\ incl (assigned last) names).
  { unfold names. rewrite flat_map_app. cbn [flat_map]. rewrite app_nil_r. split; [apply incl_appl|apply incl_appr]; apply incl_refl. }
  destruct Nm as [Nm1 Nm2].
  destruct (elab_elems_sound names stmts []) as [l [g [E [B [C D]]]]]; auto.
  { intros x n. discriminate. }
  { intros x. simpl. congruence. }
  { intros x Hx. apply Hc. apply in_app_iff. auto. }
  rewrite elab_elems_app, E. cbn [bind elab_elems]. exists l.
  destruct T as [->|[T|(lhs & rg & ->)]].
  - exists NNull. split; [reflexivity|]. split; auto. left. reflexivity.
  - destruct (elab_sound names last 0 g) as [K _]; auto.
    { intros x Hx. apply Hc. apply in_app_iff. auto. }
    destruct (K T) as (n' & g' & -> & S & _). exists n'. cbn [bind]. split; [reflexivity|]. split; auto. right. left. exact S.
  - exists (NAssign lhs NNull rg). split; [reflexivity|]. split; auto. right. right. eauto.
Qed.
End Elab.
