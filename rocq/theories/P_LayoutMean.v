(** Elaboration and queries do not see where things are. *)
From Coq Require Import Lia.
From Verif Require Import Base OMap M_Types M_Scanner M_Ast M_Parser M_Query M_Elab M_Workspace M_Project S_Layout.

Lemma seen_bind {A B C D} (f : A -> B) (g : C -> D) r r' (k k' : A -> outcome C) : seen f r = seen f r' ->
  (forall a a', f a = f a' -> seen g (k a) = seen g (k' a')) -> seen g (bind r k) = seen g (bind r' k').
Proof. destruct r, r'; cbn [seen bind]; intros E H; try discriminate E; auto. apply H. now injection E. Qed.
Lemma seen_ret {A B} (f : A -> B) a a' : f a = f a' -> seen f (Ret a) = seen f (Ret a').
Proof. cbn [seen]. congruence. Qed.
Lemma seen_id {A} (r r' : outcome A) : seen (fun x => x) r = seen (fun x => x) r' <-> r = r'.
Proof. destruct r, r'; cbn [seen]; split; intros E; try discriminate E; try reflexivity; injection E as ->; reflexivity. Qed.

Definition bare_env (g : genv) : genv := map (fun e => (fst e, bare (snd e))) g.
Definition bare_opt (o : option node) : option node := option_map bare o.
Lemma glookup_bare x g g' : bare_env g = bare_env g' -> bare_opt (glookup x g) = bare_opt (glookup x g').
Proof.
  revert g'. induction g as [|[y n] g IH]; intros [|[y' n'] g'] E; try discriminate E; [reflexivity|].
  cbn [bare_env map fst snd] in E. pose proof (f_equal (@tl _) E) as E2. injection E as -> E1 _. cbn [glookup]. destruct (str_eqb x y'); [cbn; congruence|apply IH, E2].
Qed.
Lemma map_cons_inv {A B} (f : A -> B) x l y l' : map f (x :: l) = map f (y :: l') -> f x = f y /\ map f l = map f l'.
Proof. cbn [map]. intros E. split; [exact (f_equal (hd (f x)) E)|exact (f_equal (@tl _) E)]. Qed.

Definition bare_cast_list (o : option (ltype * list node)) := option_map (fun x => (fst x, map bare (snd x))) o.
Lemma cast_list_bare n n' : bare n = bare n' -> seen bare_cast_list (cast_list n) = seen bare_cast_list (cast_list n').
Proof. destruct n, n'; cbn [bare]; intros E; try discriminate E; cbn [cast_list]; try reflexivity. injection E as -> E. apply seen_ret. cbn. congruence. Qed.
Definition bare_cast_scalar (o : option (bool * view)) := option_map (fun x => (fst x, bare_view (snd x))) o.
Lemma cast_scalar_bare n n' : bare n = bare n' -> seen bare_cast_scalar (cast_scalar n) = seen bare_cast_scalar (cast_scalar n').
Proof.
  destruct n, n'; cbn [bare]; intros E; try discriminate E; cbn [cast_scalar]; try reflexivity; apply seen_ret; cbn [bare_cast_scalar option_map fst snd]; congruence.
Qed.
Definition bare_cast_binop (o : option (toktype * node * node)) := option_map (fun x => (fst (fst x), bare (snd (fst x)), bare (snd x))) o.
Lemma cast_binop_bare n n' : bare n = bare n' -> seen bare_cast_binop (cast_binop n) = seen bare_cast_binop (cast_binop n').
Proof. destruct n, n'; cbn [bare]; intros E; try discriminate E; cbn [cast_binop]; try reflexivity; apply seen_ret; cbn; congruence. Qed.
Lemma bare_view_text v v' : bare_view v = bare_view v' -> v_text v = v_text v'.
Proof. intros E. now injection E. Qed.
Lemma string_list_bare l : forall l', map bare l = map bare l' -> seen (map bare_view) (string_list l) = seen (map bare_view) (string_list l').
Proof.
  induction l as [|n l IH]; intros [|n' l'] E; try discriminate E; [reflexivity|]. apply map_cons_inv in E as [E1 E2]. cbn [string_list].
  eapply seen_bind; [apply cast_scalar_bare, E1|]. intros s s' S. eapply seen_bind; [apply IH, E2|]. intros r r' R.
  destruct s as [[b v]|], s' as [[b' v']|]; try discriminate S; [|apply seen_ret, R]. injection S as _ S1 S2. rewrite S1. destruct (is_nil (v_text v')); apply seen_ret; [exact R|].
  cbn [map]. unfold bare_view at 1 3. rewrite S1, R. destruct (v_org v), (v_org v'); try discriminate S2; reflexivity.
Qed.
Lemma extract_bare o o' : bare_list o = bare_list o' -> seen (map bare_view) (extract_string_list o) = seen (map bare_view) (extract_string_list o').
Proof. intros E. apply string_list_bare. destruct o, o'; try discriminate E; [|reflexivity]. cbn in *. congruence. Qed.
Lemma bare_views_texts l l' : map bare_view l = map bare_view l' -> map v_text l = map v_text l'.
Proof.
  revert l'. induction l as [|v l IH]; intros [|v' l'] E; try discriminate E; [reflexivity|]. apply map_cons_inv in E as [E1 E2]. cbn [map].
  rewrite (bare_view_text _ _ E1), (IH _ E2). reflexivity.
Qed.

(** * Elaboration *)
Lemma select_entry_bare l : forall l', map bare l = map bare l' -> seen bare_opt (select_entry l) = seen bare_opt (select_entry l').
Proof.
  induction l as [|n l IH]; intros [|n' l'] E; try discriminate E; [reflexivity|]. apply map_cons_inv in E as [E1 E2]. cbn [select_entry].
  eapply seen_bind; [apply cast_binop_bare, E1|]. intros b b' B. destruct b as [[[op x] y]|], b' as [[[op' x'] y']|]; try discriminate B; [|apply IH, E2].
  injection B as -> X Y. destruct op'; try (apply IH, E2). eapply seen_bind; [apply cast_scalar_bare, X|]. intros k k' K.
  destruct k as [[? v]|], k' as [[? v']|]; try discriminate K; [|apply IH, E2]. injection K as _ K _. rewrite K. destruct (str_eqb _ _); [|apply IH, E2].
  apply seen_ret. cbn. congruence.
Qed.
Lemma handle_select_bare l : forall l', map bare l = map bare l' -> seen bare_opt (handle_select l) = seen bare_opt (handle_select l').
Proof.
  induction l as [|n l IH]; intros [|n' l'] E; try discriminate E; [reflexivity|]. apply map_cons_inv in E as [E1 E2]. cbn [handle_select].
  eapply seen_bind; [apply cast_list_bare, E1|]. intros m m' M. destruct m as [[t x]|], m' as [[t' x']|]; try discriminate M; [|apply IH, E2].
  injection M as -> M. destruct t'; try (apply IH, E2). eapply seen_bind; [apply select_entry_bare, M|]. intros o o' O.
  destruct o, o'; try discriminate O; [apply seen_ret, O|apply IH, E2].
Qed.
Lemma cast_list_snd n n' o o' : bare n = bare n' -> cast_list n = o -> cast_list n' = o' ->
  seen (fun x => bare_list (option_map snd x)) o = seen (fun x => bare_list (option_map snd x)) o'.
Proof.
  intros E <- <-. destruct n, n'; cbn [bare] in E; try discriminate E; cbn [cast_list]; try reflexivity. injection E as _ E. apply seen_ret. cbn. congruence.
Qed.
Definition bare_globs (x : option (list node) * option (list node)) := (bare_list (fst x), bare_list (snd x)).
Lemma glob_args_bare l : forall l' i i' e e', map bare l = map bare l' -> bare_list i = bare_list i' -> bare_list e = bare_list e' ->
  seen bare_globs (glob_args l i e) = seen bare_globs (glob_args l' i' e').
Proof.
  induction l as [|n l IH]; intros [|n' l'] i i' e e' E I J; try discriminate E; [apply seen_ret; unfold bare_globs; cbn; congruence|].
  apply map_cons_inv in E as [E1 E2]. cbn [glob_args].
  eapply seen_bind; [apply cast_list_bare, E1|]. intros m m' M. destruct m as [[t x]|], m' as [[t' x']|]; try discriminate M.
  - injection M as _ M. apply IH; auto. cbn. congruence.
  - destruct n, n'; cbn [bare] in E1; try discriminate E1; try (apply IH; assumption). injection E1 as E1 E3.
    destruct n1, n'1; cbn [bare] in E1; try discriminate E1; try (apply IH; assumption). injection E1 as E1 _. rewrite E1.
    destruct (str_eqb _ _); [|destruct (str_eqb _ _); [|apply IH; assumption]].
    + eapply (seen_bind (fun x => bare_list (option_map snd x))); [eapply cast_list_snd; [exact E3|reflexivity..]|]. intros a a' A. apply IH; assumption.
    + eapply (seen_bind (fun x => bare_list (option_map snd x))); [eapply cast_list_snd; [exact E3|reflexivity..]|]. intros a a' A. apply IH; assumption.
Qed.
Section Elab.
Variable mg : list str -> list str -> list str.
Lemma handle_glob_bare v v' l l' : map bare l = map bare l' -> seen bare (handle_glob mg v l) = seen bare (handle_glob mg v' l').
Proof.
  intros E. unfold handle_glob. eapply seen_bind; [apply (glob_args_bare l l' None None None None E); reflexivity|]. intros [i e] [i' e'] G.
  unfold bare_globs in G. cbn [fst snd] in G. apply pair_equal_spec in G as [G1 G2].
  eapply seen_bind; [apply extract_bare, G1|]. intros a a' A. eapply seen_bind; [apply extract_bare, G2|]. intros b b' B. apply seen_ret.
  rewrite (bare_views_texts _ _ A), (bare_views_texts _ _ B). cbn [bare]. f_equal. rewrite !map_map. apply map_ext. intros s. cbn [bare bare_view v_text v_org]. f_equal. unfold bare_view. cbn [v_text v_org]. f_equal.
  unfold located_at. destruct (v_org v), (v_org v'); reflexivity.
Qed.
Lemma elab_plus_bare l l' r r' rg rg' : bare l = bare l' -> bare r = bare r' -> seen bare (elab_plus l r rg) = seen bare (elab_plus l' r' rg').
Proof.
  intros L R. unfold elab_plus. eapply seen_bind; [apply cast_list_bare, L|]. intros a a' A. eapply seen_bind; [apply cast_list_bare, R|]. intros b b' B.
  destruct a as [[t1 e1]|], a' as [[t1' e1']|]; try discriminate A; destruct b as [[t2 e2]|], b' as [[t2' e2']|]; try discriminate B; try (apply seen_ret; assumption).
  - injection A as -> A. injection B as -> B. apply seen_ret. destruct (ltype_eqb t1' t2'); cbn [bare]; [rewrite !map_app; congruence|congruence].
  - assert (D : bare (NBin TPlus l r rg) = bare (NBin TPlus l' r' rg')) by (cbn [bare]; congruence).
    destruct l, l'; cbn [bare] in L; try discriminate L; try (apply seen_ret, D).
    destruct r, r'; cbn [bare] in R; try discriminate R; try (apply seen_ret, D). apply seen_ret. cbn [bare]. f_equal. unfold bare_view. cbn [v_text v_org].
    injection L as L _. injection R as R _. rewrite L, R. reflexivity.
Qed.
Definition bare2 (x : node * genv) := (bare (fst x), bare_env (snd x)).
Definition bares2 (x : list node * genv) := (map bare (fst x), bare_env (snd x)).
Lemma elems_bare (f f' : node -> genv -> outcome (node * genv)) l : forall l' g g',
  Forall (fun n => forall n' g g', bare n = bare n' -> bare_env g = bare_env g' -> seen bare2 (f n g) = seen bare2 (f' n' g')) l ->
  map bare l = map bare l' -> bare_env g = bare_env g' -> seen bares2 (elab_elems f l g) = seen bares2 (elab_elems f' l' g').
Proof.
  induction l as [|n l IH]; intros [|n' l'] g g' F E G; try discriminate E; [apply seen_ret; unfold bares2; cbn [fst snd map]; congruence|].
  apply map_cons_inv in E as [E1 E2]. apply Forall_cons_iff in F as [F1 F2]. cbn [elab_elems].
  eapply seen_bind; [apply F1; assumption|]. intros [m h] [m' h'] M. apply pair_equal_spec in M as [M H]. cbn [fst snd] in *.
  eapply seen_bind; [apply IH; assumption|]. intros [k i] [k' i'] K. apply pair_equal_spec in K as [K J]. cbn [fst snd] in *.
  apply seen_ret. unfold bares2. cbn [fst snd map]. congruence.
Qed.
Lemma elab_bare n : forall level n' g g', bare n = bare n' -> bare_env g = bare_env g' -> seen bare2 (elab mg level n g) = seen bare2 (elab mg level n' g').
Proof.
  assert (pairs : forall n n' g g', bare n = bare n' -> bare_env g = bare_env g' -> bare2 (n, g) = bare2 (n', g')) by (intros; unfold bare2; cbn [fst snd]; congruence).
  induction n as [|v t r|v z|v|op n IH|op l r rg IHl IHr|ty l IH|ty f IH|c p n IHc IHp IHn|l r rg IHl IHr|i ar IHi IHa] using node_ind';
    intros level n' g g' E G; destruct n' as [|v' t' r'|v' z'|v'|op' n'|op' l' r' rg'|ty' l'|ty' f'|c' p' n'|l' r' rg'|i' ar']; cbn [bare] in E; try discriminate E; cbn [elab].
  - apply seen_ret, pairs; auto.
  - apply seen_ret, pairs; auto.
  - apply seen_ret, pairs; auto.
  - assert (V : v_text v = v_text v') by (injection E; auto). apply seen_ret, pairs; [|exact G]. rewrite V. pose proof (glookup_bare (v_text v') _ _ G) as L.
    destruct (glookup (v_text v') g), (glookup (v_text v') g'); try discriminate L; [cbn in L; congruence|exact E].
  - injection E as -> E. eapply seen_bind; [apply IH; assumption|]. intros [a h] [a' h'] A. apply pair_equal_spec in A as [A H]. cbn [fst snd] in *.
    apply seen_ret, pairs; [cbn [bare]; congruence|exact H].
  - injection E as -> E1 E2. eapply seen_bind; [apply IHl; assumption|]. intros [a h] [a' h'] A. apply pair_equal_spec in A as [A H]. cbn [fst snd] in *.
    eapply seen_bind; [apply IHr; assumption|]. intros [b k] [b' k'] B. apply pair_equal_spec in B as [B K]. cbn [fst snd] in *.
    destruct op'; try (apply seen_ret, pairs; [cbn [bare]; congruence|exact K]).
    eapply seen_bind; [apply elab_plus_bare; eassumption|]. intros x x' X. apply seen_ret, pairs; assumption.
  - injection E as -> E. eapply seen_bind; [apply (elems_bare (elab mg level) (elab mg level) l l' g g'); [|exact E|exact G]|].
    + eapply Forall_impl; [|exact IH]. cbn. intros x X. apply X.
    + intros [a h] [a' h'] A. apply pair_equal_spec in A as [A H]. cbn [fst snd] in *. apply seen_ret, pairs; [cbn [bare]; congruence|exact H].
  - injection E as -> E. eapply seen_bind; [apply IH; assumption|]. intros [a h] [a' h'] A. apply pair_equal_spec in A as [A H]. cbn [fst snd] in *.
    apply seen_ret, pairs; [|exact H]. cbn [bare]. f_equal. destruct a, a'; cbn [bare] in A; try discriminate A; cbn [bare]; congruence.
  - injection E as E1 E2 E3. eapply seen_bind; [apply IHc; assumption|]. intros [a h] [a' h'] A. apply pair_equal_spec in A as [A H]. cbn [fst snd] in *.
    eapply seen_bind; [apply IHp; assumption|]. intros [b k] [b' k'] B. apply pair_equal_spec in B as [B K]. cbn [fst snd] in *.
    eapply seen_bind; [apply IHn; assumption|]. intros [d m] [d' m'] D. apply pair_equal_spec in D as [D M]. cbn [fst snd] in *.
    apply seen_ret, pairs; [cbn [bare]; congruence|exact M].
  - injection E as E1 E2. eapply seen_bind; [apply IHr; assumption|]. intros [b k] [b' k'] B. apply pair_equal_spec in B as [B K]. cbn [fst snd] in *.
    apply seen_ret, pairs; [cbn [bare]; congruence|]. destruct level; [|exact K].
    destruct l, l'; cbn [bare] in E1; try discriminate E1; try exact K. injection E1 as E1 _. cbn [bare_env map fst snd]. unfold bare_env in K. congruence.
  - injection E as E1 E2. eapply seen_bind; [apply IHi; assumption|]. intros [a h] [a' h'] A. apply pair_equal_spec in A as [A H]. cbn [fst snd] in *.
    eapply seen_bind; [apply IHa; assumption|]. intros [b k] [b' k'] B. apply pair_equal_spec in B as [B K]. cbn [fst snd] in *.
    destruct a, a'; cbn [bare] in A; try discriminate A; try reflexivity. pose proof A as A0. injection A as A _. rewrite A.
    destruct (str_eqb _ _); [|destruct (str_eqb _ _)].
    + destruct b, b'; cbn [bare] in B; try discriminate B; try reflexivity. injection B as _ B. eapply seen_bind; [apply handle_glob_bare, B|].
      intros x x' X. apply seen_ret, pairs; assumption.
    + destruct b, b'; cbn [bare] in B; try discriminate B; try reflexivity. pose proof B as B0. injection B as _ B. eapply seen_bind; [apply handle_select_bare, B|].
      intros x x' X. apply seen_ret, pairs; [|exact K]. destruct x, x'; try discriminate X; [cbn in X; congruence|]. cbn [bare] in *. congruence.
    + apply seen_ret, pairs; [|exact K]. cbn [bare]. congruence.
Qed.
Theorem elaborate_bare l l' : map bare l = map bare l' -> seen (map bare) (elaborate mg l) = seen (map bare) (elaborate mg l').
Proof.
  intros E. unfold elaborate. eapply seen_bind; [apply (elems_bare (elab mg 0) (elab mg 0) l l' [] [])|].
  - apply Forall_forall. intros n _ n' g g'. apply elab_bare.
  - exact E.
  - reflexivity.
  - intros [a h] [a' h'] A. apply pair_equal_spec in A as [A _]. apply seen_ret, A.
Qed.
End Elab.

(** * Queries *)
Definition bare_finder (st : finder) : finder :=
  mkFinder (f_rel st) (bare_result (f_cur st)) (bare_list (f_default_visibility st)) (map bare_result (f_out st)).
Lemma bare_finder_inv st st' : bare_finder st = bare_finder st' -> f_rel st = f_rel st' /\ bare_result (f_cur st) = bare_result (f_cur st') /\
  bare_list (f_default_visibility st) = bare_list (f_default_visibility st') /\ map bare_result (f_out st) = map bare_result (f_out st').
Proof.
  intros E. pose proof (f_equal f_rel E) as E1. pose proof (f_equal f_cur E) as E2. pose proof (f_equal f_default_visibility E) as E3. pose proof (f_equal f_out E) as E4.
  cbn [bare_finder f_rel f_cur f_default_visibility f_out] in *. auto.
Qed.
Lemma mk_bare nd ru na ac ip sp ve rn de al te sr hd th ph dp ic ou vi nd' ru' na' ac' ip' sp' ve' rn' de' al' te' sr' hd' th' ph' dp' ic' ou' vi' :
  bare nd = bare nd' -> bare_view ru = bare_view ru' -> bare_view na = bare_view na' -> bare_view ac = bare_view ac' -> bare_view ip = bare_view ip' -> bare_view sp = bare_view sp' -> bare_view ve = bare_view ve' -> bare_view rn = bare_view rn' -> bare_view de = bare_view de' -> al = al' -> te = te' -> bare_list sr = bare_list sr' -> bare_list hd = bare_list hd' -> bare_list th = bare_list th' -> bare_list ph = bare_list ph' -> bare_list dp = bare_list dp' -> bare_list ic = bare_list ic' -> bare_list ou = bare_list ou' -> bare_list vi = bare_list vi' ->
  bare_result (mkResult nd ru na ac ip sp ve rn de al te sr hd th ph dp ic ou vi) = bare_result (mkResult nd' ru' na' ac' ip' sp' ve' rn' de' al' te' sr' hd' th' ph' dp' ic' ou' vi').
Proof.
  intros H0 H1 H2 H3 H4 H5 H6 H7 H8 H9 H10 H11 H12 H13 H14 H15 H16 H17 H18. cbv beta iota delta [bare_result q_node q_rule q_name q_actual q_include_prefix q_strip_include_prefix q_version q_repo_name q_deprecation q_alwayslink q_testonly
    q_srcs q_hdrs q_textual_hdrs q_public_hdrs q_deps q_includes q_outs q_visibility].
  rewrite H0, H1, H2, H3, H4, H5, H6, H7, H8, H9, H10, H11, H12, H13, H14, H15, H16, H17, H18. reflexivity.
Qed.
Lemma mk_bare_inv nd ru na ac ip sp ve rn de al te sr hd th ph dp ic ou vi nd' ru' na' ac' ip' sp' ve' rn' de' al' te' sr' hd' th' ph' dp' ic' ou' vi' : bare_result (mkResult nd ru na ac ip sp ve rn de al te sr hd th ph dp ic ou vi) = bare_result (mkResult nd' ru' na' ac' ip' sp' ve' rn' de' al' te' sr' hd' th' ph' dp' ic' ou' vi') ->
  bare nd = bare nd' /\ bare_view ru = bare_view ru' /\ bare_view na = bare_view na' /\ bare_view ac = bare_view ac' /\ bare_view ip = bare_view ip' /\ bare_view sp = bare_view sp' /\ bare_view ve = bare_view ve' /\ bare_view rn = bare_view rn' /\ bare_view de = bare_view de' /\ al = al' /\ te = te' /\ bare_list sr = bare_list sr' /\ bare_list hd = bare_list hd' /\ bare_list th = bare_list th' /\ bare_list ph = bare_list ph' /\ bare_list dp = bare_list dp' /\ bare_list ic = bare_list ic' /\ bare_list ou = bare_list ou' /\ bare_list vi = bare_list vi'.
Proof.
  intros E. repeat apply conj.
  - exact (f_equal q_node E).
  - exact (f_equal q_rule E).
  - exact (f_equal q_name E).
  - exact (f_equal q_actual E).
  - exact (f_equal q_include_prefix E).
  - exact (f_equal q_strip_include_prefix E).
  - exact (f_equal q_version E).
  - exact (f_equal q_repo_name E).
  - exact (f_equal q_deprecation E).
  - exact (f_equal q_alwayslink E).
  - exact (f_equal q_testonly E).
  - exact (f_equal q_srcs E).
  - exact (f_equal q_hdrs E).
  - exact (f_equal q_textual_hdrs E).
  - exact (f_equal q_public_hdrs E).
  - exact (f_equal q_deps E).
  - exact (f_equal q_includes E).
  - exact (f_equal q_outs E).
  - exact (f_equal q_visibility E).
Qed.
Ltac two_results r r' E := destruct r as [nd ru na ac ip sp ve rn de al te sr hd th ph dp ic ou vi]; destruct r' as [nd' ru' na' ac' ip' sp' ve' rn' de' al' te' sr' hd' th' ph' dp' ic' ou' vi'];
  apply mk_bare_inv in E as (E0 & E1 & E2 & E3 & E4 & E5 & E6 & E7 & E8 & E9 & E10 & E11 & E12 & E13 & E14 & E15 & E16 & E17 & E18).
Lemma set_scalar_bare k b v v' z r r' : bare_view v = bare_view v' -> bare_result r = bare_result r' -> bare_result (set_scalar k b v z r) = bare_result (set_scalar k b v' z r').
Proof.
  intros V E. two_results r r' E. unfold set_scalar. repeat (destruct (str_eqb k _); [apply mk_bare; try assumption; (reflexivity || (cbn; congruence))|]). apply mk_bare; assumption.
Qed.
Lemma set_list_bare k l l' r r' : map bare l = map bare l' -> bare_result r = bare_result r' -> bare_result (set_list k l r) = bare_result (set_list k l' r').
Proof.
  intros V E. two_results r r' E. unfold set_list. repeat (destruct (str_eqb k _); [apply mk_bare; try assumption; (reflexivity || (cbn; congruence))|]). apply mk_bare; assumption.
Qed.
Lemma set_identifier_bare k i r r' : bare_result r = bare_result r' -> bare_result (set_identifier k i r) = bare_result (set_identifier k i r').
Proof.
  intros E. two_results r r' E. unfold set_identifier. repeat (destruct (str_eqb k _); [apply mk_bare; try assumption; (reflexivity || (cbn; congruence))|]). apply mk_bare; assumption.
Qed.
Lemma extract_query_bare l l' v v' r r' : bare l = bare l' -> bare v = bare v' -> bare_result r = bare_result r' ->
  bare_result (extract_query_info l v r) = bare_result (extract_query_info l' v' r').
Proof.
  intros L V R. unfold extract_query_info. destruct l, l'; cbn [bare] in L; try discriminate L; try exact R. injection L as L _. rewrite L.
  destruct v, v'; cbn [bare] in V; try discriminate V; try exact R.
  - apply set_scalar_bare; [congruence|exact R].
  - assert (z = z0) as -> by congruence. apply set_scalar_bare; [congruence|exact R].
  - injection V as V _. rewrite V. apply set_identifier_bare, R.
  - apply set_list_bare; [congruence|exact R].
Qed.
Lemma extract_package_bare l l' v v' d d' : bare l = bare l' -> bare v = bare v' -> bare_list d = bare_list d' ->
  bare_list (extract_package_info l v d) = bare_list (extract_package_info l' v' d').
Proof.
  intros L V D. unfold extract_package_info. destruct l, l'; cbn [bare] in L; try discriminate L; try exact D. injection L as L _. rewrite L.
  destruct v, v'; cbn [bare] in V; try discriminate V; try exact D. destruct (str_eqb _ _); [|exact D]. cbn. congruence.
Qed.
Section Finder.
Variable of_interest : list str.
Variable allow_empty : bool.
Lemma inform_bare st st' : bare_finder st = bare_finder st' -> bare_finder (inform_caller allow_empty st) = bare_finder (inform_caller allow_empty st').
Proof.
  intros EE. destruct (bare_finder_inv _ _ EE) as (A & B & C & D). destruct st as [rl r dv out], st' as [rl' r' dv' out']. cbn [f_rel f_cur f_default_visibility f_out] in *.
  two_results r r' B. unfold inform_caller. cbn [f_cur f_rel f_default_visibility f_out]. cbv beta iota delta [q_name].
  rewrite (bare_view_text na na' E2). destruct (negb allow_empty && _); [exact EE|]. rewrite (bare_view_text ru ru' E1).
  assert (NL : is_nil (opt_elems hd) = is_nil (opt_elems hd')) by (destruct hd as [[|]|], hd' as [[|]|]; try discriminate E12; reflexivity). rewrite NL.
  unfold bare_finder. cbn [f_rel f_cur f_default_visibility f_out]. rewrite !map_app. cbn [map].
  match goal with |- mkFinder _ ?x _ (_ ++ [?x]) = mkFinder _ ?y _ (_ ++ [?y]) => assert (R : x = y) end.
  { apply mk_bare; try assumption.
    - rewrite E9. reflexivity.
    - destruct vi, vi'; try discriminate E18; assumption. }
  rewrite R, A, C, D. reflexivity.
Qed.
Lemma visit_elems_bare (f f' : node -> finder -> outcome finder) l : forall l' st st',
  Forall (fun n => forall n' st st', bare n = bare n' -> bare_finder st = bare_finder st' -> seen bare_finder (f n st) = seen bare_finder (f' n' st')) l ->
  map bare l = map bare l' -> bare_finder st = bare_finder st' -> seen bare_finder (visit_elems f l st) = seen bare_finder (visit_elems f' l' st').
Proof.
  induction l as [|n l IH]; intros [|n' l'] st st' F E S; try discriminate E; [apply seen_ret, S|].
  apply map_cons_inv in E as [E1 E2]. apply Forall_cons_iff in F as [F1 F2]. cbn [visit_elems].
  eapply seen_bind; [apply F1; assumption|]. intros a a' A. apply IH; assumption.
Qed.
Lemma visit_bare n : forall n' st st', bare n = bare n' -> bare_finder st = bare_finder st' ->
  seen bare_finder (visit of_interest allow_empty n st) = seen bare_finder (visit of_interest allow_empty n' st').
Proof.
  induction n as [|v t r|v z|v|op n IH|op l r rg IHl IHr|ty l IH|ty f IH|c p n IHc IHp IHn|l r rg IHl IHr|i ar IHi IHa] using node_ind';
    intros n' st st' E S; destruct n' as [|v' t' r'|v' z'|v'|op' n'|op' l' r' rg'|ty' l'|ty' f'|c' p' n'|l' r' rg'|i' ar']; cbn [bare] in E; try discriminate E; cbn [visit];
    try (apply seen_ret, S).
  - injection E as _ E. apply IH; assumption.
  - injection E as _ E1 E2. eapply seen_bind; [apply IHl; eassumption|]. intros a a' A. apply IHr; assumption.
  - injection E as _ E. apply visit_elems_bare; assumption.
  - injection E as _ E. apply IH; assumption.
  - injection E as E1 E2 E3. eapply seen_bind; [apply IHc; eassumption|]. intros a a' A. eapply seen_bind; [apply IHp; eassumption|]. intros b b' B. apply IHn; assumption.
  - injection E as E1 E2. destruct (bare_finder_inv _ _ S) as (A & B & C & D). rewrite A. apply seen_ret. destruct (f_rel st').
    + exact S.
    + unfold bare_finder. cbn [f_rel f_cur f_default_visibility f_out]. rewrite (extract_query_bare l l' r r' (f_cur st) (f_cur st') E1 E2 B). congruence.
    + unfold bare_finder. cbn [f_rel f_cur f_default_visibility f_out]. rewrite (extract_package_bare l l' r r' _ _ E1 E2 C). congruence.
  - destruct (bare_finder_inv _ _ S) as (A & B & C & D). rewrite A. injection E as E1 E2. destruct (f_rel st'); [|apply IHa; assumption|apply IHa; assumption].
    assert (W : bare (NCall i ar) = bare (NCall i' ar')) by (cbn [bare]; congruence).
    destruct i, i'; cbn [bare] in E1; try discriminate E1; try reflexivity. assert (V : bare_view v = bare_view v0) by congruence. rewrite (bare_view_text _ _ V).
    assert (K : forall rel, bare_finder (mkFinder rel (empty_result (NCall (NId v) ar) v) (f_default_visibility st) (f_out st)) =
      bare_finder (mkFinder rel (empty_result (NCall (NId v0) ar') v0) (f_default_visibility st') (f_out st'))).
    { intros rel. unfold bare_finder. cbn [f_rel f_cur f_default_visibility f_out]. f_equal; [|exact C|exact D]. unfold empty_result. apply mk_bare; try reflexivity; [cbn [bare]; congruence|exact V]. }
    destruct (is_relevant of_interest (v_text v0)) eqn:RL; [apply seen_ret, S|..];
    (destruct ar as [| | | | | |ta la| | | |], ar' as [| | | | | |tb lb| | | |]; cbn [bare] in E2; try discriminate E2; try reflexivity;
     eapply seen_bind; [exact (IHa (NList tb lb) _ _ E2 (K _))|]; intros a a' AA; apply seen_ret).
    + apply inform_bare in AA. destruct (bare_finder_inv _ _ AA) as (A1 & B1 & C1 & D1). unfold bare_finder. cbn [f_rel f_cur f_default_visibility f_out]. congruence.
    + destruct (bare_finder_inv _ _ AA) as (A1 & B1 & C1 & D1). unfold bare_finder. cbn [f_rel f_cur f_default_visibility f_out]. congruence.
Qed.
Theorem find_targets_in_bare l l' : map bare l = map bare l' ->
  seen (map bare_result) (find_targets_in of_interest allow_empty l) = seen (map bare_result) (find_targets_in of_interest allow_empty l').
Proof.
  intros E. unfold find_targets_in. eapply seen_bind; [apply (visit_bare (NList LList l) (NList LList l')); [cbn [bare]; congruence|reflexivity]|].
  intros a a' A. destruct (bare_finder_inv _ _ A) as (_ & _ & _ & D). apply seen_ret, D.
Qed.
End Finder.
