(** Printing a parsed file and reading it back. *)
From Coq Require Import Lia.
From Verif Require Import Base M_Scanner S_Scanner M_Ast M_Parser M_Printer P_Scanner P_Parser S_Grammar P_Grammar S_Roundtrip P_Lex P_Roundtrip S_Reprint.
Local Open Scope list_scope.

(** * The texts of tokens *)
Lemma span_firstn f s : span_len f (firstn (span_len f s) s) = span_len f s.
Proof. induction s as [|c s IH]; [reflexivity|]. cbn [span_len]. destruct (f c) eqn:F; [|reflexivity]. cbn [firstn span_len]. rewrite F. now rewrite IH. Qed.
Lemma alone c r ty : is_space c = false -> c <> BSL -> c <> "#"%char -> scan_token (c :: r) 0 = (ty, length (c :: r), []) -> token_at (c :: r) 0 = mkToken ty 0 (c :: r) false.
Proof.
  intros A B C E. unfold token_at. cbn [after_next]. unfold next. cbn [scanner_init sc_upcoming sc_rest sc_off sc_lines sc_newlines sc_last_newlines].
  assert (skip_space (c :: r) 0 false = (0, [])) as ->. { cbn [skip_space]. rewrite A, (proj2 (ceqb_neq _ _) B), (proj2 (ceqb_neq _ _) C). reflexivity. }
  cbn [skipn]. rewrite Nat.add_0_r, E. cbn [fst]. f_equal. apply firstn_all.
Qed.
Lemma name_alone c r pos k p : is_space c = false -> c <> BSL -> c <> "#"%char -> scan_token (c :: r) pos = (TIdentifier, k, p) -> name (firstn k (c :: r)).
Proof.
  intros A B C E. pose proof (scan_identifier _ _ _ _ _ E) as K. rewrite K in E. revert E. unfold handle_identifier.
  match goal with |- context[if ?x then handle_string (c :: r) _ else _] => destruct x eqn:Q end; [intros E; apply string_type in E as [E|E]; discriminate|].
  destruct (is_identifier_char c) eqn:I; cbn [negb]; [|discriminate]. intros E.
  assert (L : span_len is_identifier_char (c :: r) = k).
  { revert E. destruct (str_eqb _ ($"not")); [destruct (consume_optional_in _); discriminate|].
    repeat match goal with |- context[if ?x then (_, span_len _ _, _) else _] => destruct x; [discriminate|] end. intros E. injection E as E _. exact E. }
  rewrite L in E. unfold name. assert (LE : k <= length (c :: r)) by (subst k; apply span_len_le).
  assert (exists t, firstn k (c :: r) = c :: t /\ span_len is_identifier_char (c :: t) = length (c :: t)) as (t & T & S).
  { exists (firstn (k - 1) r). assert (firstn k (c :: r) = c :: firstn (k - 1) r) as X. { subst k. cbn [span_len]. rewrite I. cbn [firstn]. now rewrite Nat.sub_succ, Nat.sub_0_r. }
    split; [exact X|]. rewrite <- X. rewrite firstn_length_le by exact LE. subst k. apply span_firstn. }
  rewrite T in *. apply alone; auto. rewrite K. unfold handle_identifier. rewrite I, S. cbn [negb].
  assert ((2 <? length (c :: t)) && (ceqb c "r" || ceqb c "R") && match t with d :: _ => ceqb d DQ || ceqb d SQ | [] => false end = false) as ->.
  { destruct t as [|d t]; [apply andb_false_r|]. assert (is_identifier_char d = true). { cbn [span_len length] in S. rewrite I in S. destruct (is_identifier_char d); [reflexivity|discriminate]. }
    assert (ceqb d DQ || ceqb d SQ = false) as ->; [|apply andb_false_r]. rewrite orb_false_iff, !ceqb_neq. split; intros ->; discriminate. }
  rewrite firstn_all. revert E. destruct (str_eqb _ ($"not")); [destruct (consume_optional_in _); discriminate|].
  repeat match goal with |- context[if ?x then _ else _] => destruct x; [discriminate|] end. reflexivity.
Qed.
Lemma scan_number_firstn f s : forall dot n, scan_number f s dot = (true, n) -> n <= length s /\ scan_number f (firstn n s) dot = (true, n).
Proof.
  induction s as [|c s IH]; intros dot n; cbn [scan_number]; [intros E; injection E as <-; split; [cbn; lia|reflexivity]|].
  destruct (f c || ceqb c ".") eqn:F; [|intros E; injection E as <-; split; [cbn; lia|reflexivity]].
  destruct (ceqb c "." && dot) eqn:D; [discriminate|]. destruct (scan_number f s _) as [ok m] eqn:R. intros E. injection E as -> <-. apply IH in R as [LE R].
  split; [cbn; lia|]. cbn [firstn scan_number]. rewrite F, D, R. reflexivity.
Qed.
Lemma number_alone c r pos k p : is_space c = false -> c <> BSL -> c <> "#"%char -> scan_token (c :: r) pos = (TNumberLiteral, k, p) -> token_at (firstn k (c :: r)) 0 = mkToken TNumberLiteral 0 (firstn k (c :: r)) false.
Proof.
  intros A B C E. apply scan_number_token in E as [E K]. revert E. unfold handle_number.
  match goal with |- (let '(_, _) := ?x in _) = _ -> _ => destruct x as [f sk] eqn:FS end.
  destruct (scan_number f (skipn sk (c :: r)) false) as [[|] n] eqn:S; [|discriminate]. intros E. injection E as <- _. apply scan_number_firstn in S as [LE S].
  assert (sk = 1 \/ sk = 2 /\ exists d r', r = d :: r') as SK. { revert FS. destruct r as [|d r]; [intros X; injection X; auto|]. destruct (ceqb c "0"); [|intros X; injection X; auto]. destruct (ceqb d "x"); [intros X; injection X; eauto|]. destruct (ceqb d "o"); intros X; injection X; eauto. }
  assert (exists t, firstn (sk + n) (c :: r) = c :: t /\ length (c :: t) = sk + n /\ skipn sk (c :: t) = firstn n (skipn sk (c :: r)) /\
    match t with d :: _ => if ceqb c "0" then if ceqb d "x" then (is_xdigit, 2) else if ceqb d "o" then (is_digit, 2) else (is_digit, 1) else (is_digit, 1) | [] => (is_digit, 1) end = (f, sk)) as (t & T & L & SKT & FT).
  { rewrite skipn_length in LE. destruct SK as [->|[-> (d & r' & ->)]].
    - exists (firstn n r). cbn [Nat.add firstn skipn length] in *. rewrite firstn_length_le by lia. do 3 (split; [reflexivity|]). destruct n as [|n].
      + cbn [firstn]. destruct r as [|d r]; [exact FS|]. destruct (ceqb c "0"); [|exact FS]. destruct (ceqb d "x"); [discriminate|]. destruct (ceqb d "o"); [discriminate|exact FS].
      + destruct r as [|d r]; exact FS.
    - exists (d :: firstn n r'). cbn [Nat.add firstn skipn length] in *. rewrite firstn_length_le by lia. do 3 (split; [reflexivity|]). exact FS. }
  rewrite T. apply alone; auto. rewrite K. unfold handle_number. rewrite FT, SKT, S, L. reflexivity.
Qed.
Lemma literal_escape raw q triple body kk v t b :
  (raw = None \/ raw = Some "r"%char \/ raw = Some "R"%char) -> (q = DQ \/ q = SQ) -> (triple = false -> ~ (exists r, body ++ [q] = q :: q :: r)) -> escape_state body false = false ->
  string_from_literal (string_literal raw q triple body) = Some (kk, v, t, b) -> escape_state v false = false.
Proof.
  intros R Q N E. destruct (Bool.bool_dec triple true) as [->|T]; [destruct Q as [-> | ->]|].
  - rewrite from_literal_shape; auto; [|intros [_ X]; discriminate]. intros X. injection X as _ <- _ _. exact E.
  - unfold string_from_literal, string_literal.
    assert (K : forall pre (rw : bool), (let l := [SQ; SQ; SQ] ++ body ++ [SQ; SQ; SQ] in
        if (6 <=? length l) && starts_with [DQ; DQ; DQ] l then Some (pre + 3, firstn (length l - 6) (skipn 3 l), true, rw)
        else if 2 <=? length l then Some (pre + 1, firstn (length l - 2) (skipn 1 l), false, rw) else None) = Some (kk, v, t, b) -> escape_state v false = false).
    { intros pre rw. cbv zeta. assert (starts_with [DQ; DQ; DQ] ([SQ; SQ; SQ] ++ body ++ [SQ; SQ; SQ]) = false) as -> by reflexivity. rewrite andb_false_r.
      destruct (2 <=? _); [|discriminate]. intros X. injection X as _ <- _ _.
      replace (SQ :: body ++ [SQ; SQ; SQ]) with ((SQ :: body ++ [SQ; SQ]) ++ [SQ]) by (cbn; rewrite <- app_assoc; reflexivity).
      replace (length (body ++ [SQ; SQ; SQ])) with (length (SQ :: body ++ [SQ; SQ])) by (cbn [length]; rewrite !app_length; cbn; lia).
      rewrite firstn_app_exact. change (SQ :: SQ :: body ++ [SQ; SQ]) with ([SQ; SQ] ++ body ++ [SQ; SQ]). rewrite !escape_state_app. reflexivity. }
    destruct R as [->|[->| ->]]; cbn [app].
    + apply (K 0 false).
    + apply (K 1 true).
    + apply (K 1 true).
  - apply Bool.not_true_is_false in T. subst triple. rewrite from_literal_shape; auto; [|intros [X _]; discriminate]. intros X. injection X as _ <- _ _. exact E.
Qed.
Definition lexeme (t : token) : Prop :=
  (tok_type t = TIdentifier -> name (tok_text t)) /\
  (tok_type t = TNumberLiteral -> token_at (tok_text t) 0 = mkToken TNumberLiteral 0 (tok_text t) false) /\
  (tok_type t = TStringLiteral -> forall k v triple raw, string_from_literal (tok_text t) = Some (k, v, triple, raw) -> escape_state v false = false).
Lemma next_lexeme sc : sc_upcoming sc = None -> lexeme (fst (next sc)).
Proof.
  intros U. unfold next. rewrite U. destruct (skip_space _ _ false) as [n p] eqn:S. apply skip_space_spec in S as (_ & _ & V & _).
  destruct V as [V|(c & r & V & A & B & C)]; rewrite V; cbn [fst]; [repeat split; discriminate|].
  destruct (scan_token (c :: r) _) as [[ty k] p2] eqn:E. cbn [fst]. unfold lexeme. cbn [tok_type tok_text]. split; [|split]; intros ->.
  - eapply name_alone; eauto.
  - eapply number_alone; eauto.
  - apply scan_token_string in E as [E Sh]. apply handle_string_shape in E as (raw & q & triple & body & -> & R & Q & N & X); [|exact Sh].
    intros kk v t b. apply literal_escape; auto. intros T. apply N, T.
Qed.
Lemma tokens_lexemes fuel : forall sc, sc_upcoming sc = None -> Forall lexeme (tokens_from fuel sc).
Proof.
  induction fuel as [|fuel IH]; intros sc U; [constructor|]. rewrite tokens_from_S. pose proof (next_lexeme sc U) as L. pose proof (after_next_upcoming 1 sc U) as U'. cbn [after_next] in U'.
  destruct (next sc) as [t sc']. cbn [fst snd] in *. destruct (toktype_beq _ _); constructor; auto.
Qed.
Lemma all_lexemes content : Forall lexeme (all_tokens content).
Proof. apply tokens_lexemes. reflexivity. Qed.

(** * Parsed trees *)
Lemma simple_list ty l : simple (NList ty l) <-> Forall (fun n => n <> NNull /\ simple n) l.
Proof.
  induction l as [|n l IH]; [split; constructor|]. rewrite Forall_cons_iff, <- IH. reflexivity.
Qed.
Lemma operand_dangling n : is_operand n = true -> dangling n = false.
Proof. destruct n; cbn; try reflexivity; try discriminate. destruct op; cbn; congruence. Qed.
Lemma plain_is_operand d n : plain d n -> is_operand n = true -> plain_operand n.
Proof.
  intros [m P|e m P|e m P F|e op l r rg P O N Q|e m c P Q|e m c el P Q R] H; try discriminate; [exact P|]. exfalso. destruct op; try discriminate H. unfold is_op, binary in O. cbn in O. intuition discriminate.
Qed.
Lemma binary_not op : is_op op -> loose op = false /\ op <> TOpenSquare.
Proof. unfold is_op, binary. cbn. intros H. repeat destruct H as [<-|H]; try (split; [reflexivity|discriminate]). destruct H. Qed.
Lemma binary_is t : binary t -> is_op (tok_type t).
Proof. intros H. exact H. Qed.
Definition kind_items (k : items_kind) (l : list node) : Prop := match k with Variables => Forall variable_name l | _ => plain_items k l end.
Definition kind_item (k : items_kind) (n : node) : Prop := match k with Variables => variable_name n | _ => n <> NNull /\ plain_item k n end.
Lemma dangling_else c p e : e <> NNull -> dangling (NTernary c p e) = dangling e.
Proof. destruct e; cbn; congruence. Qed.
Ltac lexemes := repeat match goal with
  | H : Forall lexeme (_ ++ _) |- _ => apply Forall_app in H as [? ?]
  | H : Forall lexeme (_ :: _) |- _ => apply Forall_cons_iff in H as [? ?] end.
Ltac spend := repeat match goal with H : Forall lexeme ?ts -> _, L : Forall lexeme ?ts |- _ => specialize (H L) end.
Ltac simple_cons := match goal with X : simple (NList _ (_ :: _)) |- _ => apply simple_list in X; apply Forall_cons_iff in X as [[N S] T] end.
Theorem parsed_plain :
  (forall opt d ts n, expr opt d ts n -> Forall lexeme ts -> n <> NNull /\ (simple n -> plain (dangling n) n)) /\
  (forall m ts n, head m ts n -> Forall lexeme ts -> simple n -> is_operand n = true -> plain_operand n) /\
  (forall ts n, operand ts n -> Forall lexeme ts -> n <> NNull /\ (simple n -> plain (dangling n) n)) /\
  (forall ts n, call ts n -> Forall lexeme ts -> exists v args, n = NCall (NId v) (NList LTuple args) /\ (simple n -> name (v_text v) /\ plain_items Arguments args)) /\
  (forall ts l, tuple_rest ts l -> Forall lexeme ts -> simple (NList LTuple l) -> plain_items Expressions l) /\
  (forall ts a, access ts a -> Forall lexeme ts -> simple a -> forall x rg, plain_operand x -> plain_operand (NBin TOpenSquare x a rg)) /\
  (forall ts a, bound ts a -> Forall lexeme ts -> simple a -> plain_bound a) /\
  (forall ty k close ts n, bracket ty k close ts n -> Forall lexeme ts -> k <> Variables -> close <> TFor -> n <> NNull /\ (simple n -> (exists l, n = NList ty l /\ plain_items k l) \/ (exists f, n = NComp ty f /\ plain_for k f))) /\
  (forall k close ts l, items k close ts l -> Forall lexeme ts -> simple (NList LTuple l) -> kind_items k l) /\
  (forall k ts n, item k ts n -> Forall lexeme ts -> simple n -> (k = Variables -> n <> NNull) -> kind_item k n) /\
  (forall close n ts t, clauses close n ts t -> Forall lexeme ts -> simple t -> simple n /\ forall k, (plain_for k n -> plain_for k t) /\ (tok_type (hd eof_token ts) = TFor -> close <> TFor -> plain_item k n -> plain_for k t)) /\
  (forall vs vars, variables vs vars -> Forall lexeme vs -> simple (NList LTuple vars) -> Forall variable_name vars).
Proof.
  apply (grammar_ind (fun opt d ts n _ => Forall lexeme ts -> n <> NNull /\ (simple n -> plain (dangling n) n))
    (fun m ts n _ => Forall lexeme ts -> simple n -> is_operand n = true -> plain_operand n)
    (fun ts n _ => Forall lexeme ts -> n <> NNull /\ (simple n -> plain (dangling n) n))
    (fun ts n _ => Forall lexeme ts -> exists v args, n = NCall (NId v) (NList LTuple args) /\ (simple n -> name (v_text v) /\ plain_items Arguments args))
    (fun ts l _ => Forall lexeme ts -> simple (NList LTuple l) -> plain_items Expressions l)
    (fun ts a _ => Forall lexeme ts -> simple a -> forall x rg, plain_operand x -> plain_operand (NBin TOpenSquare x a rg))
    (fun ts a _ => Forall lexeme ts -> simple a -> plain_bound a)
    (fun ty k close ts n _ => Forall lexeme ts -> k <> Variables -> close <> TFor -> n <> NNull /\ (simple n -> (exists l, n = NList ty l /\ plain_items k l) \/ (exists f, n = NComp ty f /\ plain_for k f)))
    (fun k close ts l _ => Forall lexeme ts -> simple (NList LTuple l) -> kind_items k l)
    (fun k ts n _ => Forall lexeme ts -> simple n -> (k = Variables -> n <> NNull) -> kind_item k n)
    (fun close n ts t _ => Forall lexeme ts -> simple t -> simple n /\ forall k, (plain_for k n -> plain_for k t) /\ (tok_type (hd eof_token ts) = TFor -> close <> TFor -> plain_item k n -> plain_for k t))
    (fun vs vars _ => Forall lexeme vs -> simple (NList LTuple vars) -> Forall variable_name vars)); intros; lexemes; spend.
  - (* E_operand *) assumption.
  - (* E_unary *) destruct H as [NN H]. split; [discriminate|]. intros (_ & S & F). cbn [dangling]. destruct u as [U|U]; rewrite U; [apply X_minus|apply X_not]; auto.
  - (* E_missing *) split; [discriminate|]. intros (X & _). congruence.
  - (* E_binary *) destruct H0 as [NN H0]. split; [discriminate|]. intros (A & B & S1 & S2). apply binary_is in b. destruct (binary_not _ b) as [L O].
    assert (dangling (NBin (tok_type op) l r (token_range op)) = dangling r) as -> by (cbn; destruct (tok_type op); congruence). apply X_binary; auto.
  - (* E_if *) destruct H0 as [NN H0]. split; [discriminate|]. intros (A & B & S1 & S2 & S3). eapply X_if; auto.
  - (* E_if_else *) destruct H0 as [NN H0]. destruct H1 as [NN' H1]. split; [discriminate|]. intros (A & B & S1 & S2 & S3). rewrite dangling_else by exact NN'. apply X_if_else; auto. rewrite <- B by exact NN'. auto.
  - (* H_operand *) destruct H as [NN H]. eapply plain_is_operand; eauto.
  - (* H_missing *) discriminate.
  - (* O_id *) split; [discriminate|]. intros _. apply X_operand, X_name. apply H. exact e.
  - (* O_int *) split; [discriminate|]. intros _. apply X_operand, X_int. split; [|exact e0]. apply H. exact e.
  - (* O_string *) destruct s as [k v triple raw E]. split; [discriminate|]. intros S. apply X_operand, X_string. split; [|exact S]. destruct H as (_ & _ & H). eapply H; eauto.
  - (* O_call *) destruct H as (v & args & -> & H). split; [discriminate|]. intros S. destruct (H S). apply X_operand, X_call; auto.
  - (* O_list *) destruct H as [NN H]; [discriminate|discriminate|]. split; [exact NN|]. intros S. destruct (H S) as [(l & -> & P)|(f & -> & P)]; apply X_operand; constructor; auto.
  - (* O_map *) destruct H as [NN H]; [discriminate|discriminate|]. split; [exact NN|]. intros S. destruct (H S) as [(l & -> & P)|(f & -> & P)]; apply X_operand; constructor; auto.
  - (* O_paren *) assumption.
  - (* O_unit *) split; [discriminate|]. intros _. apply X_operand, X_tuple. constructor.
  - (* O_tuple *) split; [discriminate|]. intros S. apply X_operand, X_tuple. apply simple_list in S. apply Forall_cons_iff in S as [[N S] T]. destruct H as [_ H]. constructor; [eapply X_expression; auto|]. apply H0; [constructor; assumption|]. apply simple_list, T.
  - (* O_index *) split; [discriminate|]. intros (A & B & S1 & S2). apply X_operand. destruct H as [NN H]. apply H0; auto. eapply plain_is_operand; [apply H, S1|apply A; reflexivity].
  - (* C_call *) do 2 eexists. split; [reflexivity|]. intros [_ S]. split; [apply H0; exact e|]. exact (H S).
  - (* T_end *) constructor.
  - constructor.
  - (* T_more *) simple_cons. constructor; [destruct H as [_ H]; eapply X_expression; auto|]. apply H0. apply simple_list, T.
  - (* A_index *) destruct H as [_ H]. eapply X_index; auto.
  - (* A_slice *) match goal with X : simple (NBin _ _ _ _) |- _ => destruct X as (_ & _ & S1 & S2) end. apply X_slice; auto.
  - (* B_none *) constructor.
  - (* B_some *) destruct H as [_ H]. eapply X_bound; auto.
  - (* B_items *) split; [discriminate|]. intros S. left. exists l. split; [reflexivity|]. specialize (H (proj2 (simple_list LTuple l) (proj1 (simple_list _ l) S))). destruct k; auto; congruence.
  - (* B_comprehension *) split; [discriminate|]. intros S. right. exists t. split; [reflexivity|]. destruct (H0 ltac:(constructor; assumption) S) as [S' K]. specialize (K k). apply K; [exact e|assumption|].
    specialize (H S' ltac:(congruence)). destruct k; try (apply H); congruence.
  - (* I_end *) destruct k; constructor.
  - (* I_last *) simple_cons. specialize (H S (fun _ => N)). destruct k; cbn in *; constructor; try constructor; try apply H.
  - (* I_more *) simple_cons. specialize (H S (fun _ => N)). apply (proj2 (simple_list LTuple _)) in T. apply H0 in T. destruct k; cbn in *; constructor; try apply H; apply T.
  - (* I_expr *) destruct H as [N H]. split; [exact N|]. eapply X_expression; auto.
  - destruct H as [N H]. split; [exact N|]. eapply X_argument; auto.
  - (* I_keyword *) split; [discriminate|]. destruct H0 as [_ H0]. match goal with X : simple (NAssign _ _ _) |- _ => destruct X as [S1 S2] end. eapply X_keyword; [|apply H0, S2]. destruct H as [_ H]. specialize (H I). apply plain_is_operand in H; [|reflexivity]. inversion H; assumption.
  - (* I_pair *) split; [discriminate|]. destruct H as [_ H]. destruct H0 as [_ H0]. match goal with X : simple (NBin _ _ _ _) |- _ => destruct X as (_ & _ & S1 & S2) end. eapply X_pair; auto.
  - (* I_variable *) eexists. split; [reflexivity|]. apply H. exact e.
  - (* I_no_variable *) match goal with X : _ = _ -> NNull <> NNull |- _ => destruct (X eq_refl eq_refl) end.
  - (* F_end *) split; [assumption|]. intros k. split; [auto|]. intros A B. cbn in A. congruence.
  - (* F_for *) destruct (H1 ltac:(constructor; assumption) ltac:(assumption)) as [(_ & _ & S1 & (_ & _ & S2 & S3)) K]. split; [exact S1|]. intros k. destruct (K k) as [K1 K2]. destruct H0 as [_ H0]. split; intros.
    + apply K1. eapply X_for_more; eauto.
    + apply K1. eapply X_for; eauto.
  - (* V_plain *) apply H. assumption.
  - (* V_paren *) apply H. assumption.
Qed.

Lemma program_plain ts l : program ts l -> Forall lexeme ts -> simple_file l -> plain_file l.
Proof.
  destruct parsed_plain as (PE & _ & _ & PC & _ & _ & _ & PB & PI & _). intros P. induction P as [e E|t ts l T P IH|ts n rs l C P IH|d ts n nx rs l O E P IH]; intros L S.
  - constructor.
  - apply Forall_cons_iff in L as [_ L]. auto.
  - apply Forall_app in L as [L1 L2]. destruct S as (S1 & U & S2). apply X_closed; [|auto]. destruct C as [ts n C|o ts n T B].
    + destruct (PC _ _ C L1) as (v & args & -> & K). apply K in S1 as [N A]. apply X_call_statement; auto.
    + apply Forall_cons_iff in L1 as [_ L1]. destruct (PB _ _ _ _ _ B L1 ltac:(discriminate) ltac:(discriminate)) as [_ K]. destruct (K S1) as [(x & -> & Q)|(f & -> & Q)]; constructor; auto.
  - apply Forall_app in L as [L1 L2]. destruct S as (S1 & U & S2). apply X_open; auto. destruct O as [d id a rs' r rg T A X G|d o ts vars a rs' r rg T V A X G|d id dt rs' r T A X].
    + apply Forall_cons_iff in L1 as [I L1]. apply Forall_cons_iff in L1 as [_ L1]. destruct S1 as [_ S1]. destruct (PE _ _ _ _ X L1) as [_ K]. eapply X_assign; [apply I, T|auto].
    + apply Forall_cons_iff in L1 as [_ L1]. apply Forall_app in L1 as [L0 L1]. apply Forall_cons_iff in L1 as [_ L1]. destruct S1 as [S0 S1]. destruct (PE _ _ _ _ X L1) as [_ K]. eapply X_unpack; [exact (PI _ _ _ _ V L0 S0)|auto].
    + apply Forall_cons_iff in L1 as [I L1]. apply Forall_cons_iff in L1 as [_ L1]. destruct S1 as (_ & _ & _ & S1). destruct (PE _ _ _ _ X L1) as [_ K]. eapply X_dot; [apply I, T|auto].
Qed.
Theorem reprint content l text : parse content = Ret (l, []) -> simple_file l -> written l text -> exists l', parse text = Ret (l', []) /\ map erase l' = map erase l.
Proof. intros P S W. apply roundtrip with (1 := program_plain _ _ (proj1 (parse_grammar _ _) P) (all_lexemes content) S) (2 := W). Qed.

(** * Printing does not look at places *)
Definition unplaced (n : node) : Prop := forall i m, erase m = erase n -> print i m = print i n.
Lemma elems_unplaced l : Forall unplaced l -> forall l' i ml first, map erase l' = map erase l -> print_elems print i ml first l' = print_elems print i ml first l.
Proof.
  induction 1 as [|n l H F IH]; intros [|n' l'] i ml first E; try discriminate; [reflexivity|]. cbn [map] in E. injection E as E1 E2. cbn [print_elems]. rewrite (IH l' i ml false E2).
  assert ((match n' with NNull => Ret ($"NIL") | _ => print i n' end) = (match n with NNull => Ret ($"NIL") | _ => print i n end)) as ->; [|reflexivity].
  specialize (H i n' E1). destruct n', n; try discriminate E1; auto.
Qed.
Ltac same_print := repeat match goal with E : erase ?m = erase ?n, H : unplaced ?n |- context[print ?i ?m] => rewrite (H i m E) end.
Lemma print_unplaced n : unplaced n.
Proof.
  induction n as [|v t r|v z|v|op n IH|op l r rg IHl IHr|ty l IH|ty f IH|c p e IHc IHp IHe|l r rg IHl IHr|f a IHf IHa] using node_ind'; intros i m; destruct m; cbn [erase]; intros E; try discriminate E; try (injection E; intros; subst).
  - reflexivity.
  - cbn [print]. match goal with H : v_text _ = v_text _ |- _ => rewrite H end. reflexivity.
  - cbn [print]. match goal with H : v_text _ = v_text _ |- _ => rewrite H end. reflexivity.
  - cbn [print]. match goal with H : v_text _ = v_text _ |- _ => rewrite H end. reflexivity.
  - cbn [print]. same_print. reflexivity.
  - cbn [print]. same_print. reflexivity.
  - cbn [print]. rewrite (elems_unplaced l IH) by assumption. assert (length elems = length l) as -> by (rewrite <- (map_length erase elems), <- (map_length erase l); congruence).
    assert ((match ty, elems with LTuple, [_] => $"," | _, _ => [] end) = (match ty, l with LTuple, [_] => $"," | _, _ => [] end)) as ->; [|reflexivity].
    destruct ty; try reflexivity. destruct elems as [|? [|? ?]], l as [|? [|? ?]]; try discriminate; reflexivity.
  - cbn [print]. same_print. reflexivity.
  - cbn [print]. same_print.
    destruct m3, e; try discriminate; reflexivity.
  - cbn [print]. same_print. reflexivity.
  - cbn [print]. destruct m1, f; try discriminate; try reflexivity. same_print. match goal with H : erase (NId _) = erase (NId _) |- _ => apply (f_equal (fun n => match n with NId v => v_text v | _ => [] end)) in H; cbn [erase anywhere v_text] in H; rewrite H end. reflexivity.
Qed.
Lemma print_node_unplaced n m : erase m = erase n -> print_node m = print_node n.
Proof. intros E. pose proof (print_unplaced n 0 m E) as H. unfold print_node. destruct n, m; try discriminate E; auto. Qed.
Lemma written_unplaced l text : written l text -> forall l', map erase l' = map erase l -> written l' text.
Proof.
  induction 1 as [g G|n t g l r G E W IH]; intros [|n' l'] M; try discriminate; [constructor; auto|]. cbn [map] in M. injection M as M1 M2. apply W_tree; auto. rewrite (print_node_unplaced _ _ M1). exact E.
Qed.
