(** The parser implements the grammar of S_Grammar.v. *)
From Verif Require Import Base M_Scanner S_Scanner P_Scanner M_Ast M_Parser S_Parser P_Parser S_Grammar.

(** ** Facts about the grammar *)
Lemma expr_id_both :
  (forall o d ts n, expr o d ts n -> n <> NNull /\ forall v, n = NId v -> exists t, v = token_view t) /\
  (forall ts n, operand ts n -> n <> NNull /\ forall v, n = NId v -> exists t, v = token_view t).
Proof.
  assert (H : 
  (forall o d ts n, expr o d ts n -> n <> NNull /\ forall v, n = NId v -> exists t, v = token_view t) /\
  (forall m ts n, head m ts n -> True) /\
  (forall ts n, operand ts n -> n <> NNull /\ forall v, n = NId v -> exists t, v = token_view t) /\
  (forall ts n, call ts n -> n <> NNull /\ forall v, n = NId v -> exists t, v = token_view t) /\
  (forall ts l, tuple_rest ts l -> True) /\
  (forall ts n, access ts n -> True) /\
  (forall ts n, bound ts n -> True) /\
  (forall ty k c ts n, bracket ty k c ts n -> n <> NNull /\ forall v, n = NId v -> exists t, v = token_view t) /\
  (forall k c ts l, items k c ts l -> True) /\
  (forall k ts n, item k ts n -> True) /\
  (forall c n ts m, clauses c n ts m -> True) /\
  (forall ts l, variables ts l -> True)).
  { apply grammar_ind; intros; auto; try (split; [discriminate|intros; discriminate]).
    - split; [discriminate|]. intros v E. injection E as <-. eauto.
    - inversion s; subst. split; [discriminate|intros; discriminate]. }
  tauto.
Qed.
Lemma expr_not_null o d ts n : expr o d ts n -> n <> NNull.
Proof. intros H. apply expr_id_both in H. tauto. Qed.
Lemma operand_not_null ts n : operand ts n -> n <> NNull.
Proof. intros H. apply (proj2 expr_id_both) in H. tauto. Qed.
Lemma expr_id o d ts v : expr o d ts (NId v) -> exists t, v = token_view t.
Proof. intros H. apply expr_id_both in H. apply (proj2 H v); auto. Qed.

Lemma is_null_false n : n <> NNull -> is_null n = false.
Proof. destruct n; auto. congruence. Qed.
Lemma is_null_true n : is_null n = true -> n = NNull.
Proof. destruct n; auto; discriminate. Qed.

Lemma binary_iff t : is_binary_operator (tok_type t) = true <-> binary t.
Proof.
  unfold binary. destruct (tok_type t); simpl; split; intros H; try discriminate; auto 20;
    repeat (destruct H as [H|H]; try discriminate); contradiction.
Qed.
Lemma binary_false t : is_binary_operator (tok_type t) = false <-> ~ binary t.
Proof. rewrite <- binary_iff. destruct (is_binary_operator _); split; congruence. Qed.

Definition after_id (ts : list token) (t : token) : Prop :=
  forall ts' id, ts = ts' ++ [id] -> tok_type id = TIdentifier -> tok_type t <> TOpenParen.
Lemma after_id_nil t : after_id [] t.
Proof. intros [|? ?] id E; discriminate. Qed.
Lemma after_id_app a b t : b <> [] -> after_id b t -> after_id (a ++ b) t.
Proof.
  intros N H ts' id E I. destruct (exists_last N) as [b' [x ->]].
  rewrite app_assoc in E. apply app_inj_tail in E as [_ ->]. eapply H; eauto.
Qed.
Lemma after_id_cons a b t : b <> [] -> after_id b t -> after_id (a :: b) t.
Proof. apply (after_id_app [a]). Qed.
Lemma after_id_last a x t : tok_type x <> TIdentifier -> after_id (a ++ [x]) t.
Proof. intros N ts' id E. apply app_inj_tail in E as [_ ->]. intros X. contradiction. Qed.

(** The last token of an operand is not an identifier, except for an identifier alone. *)
Definition shut (ts : list token) : Prop := exists a x, ts = a ++ [x] /\ tok_type x <> TIdentifier.
Lemma shut_app a b : shut b -> shut (a ++ b).
Proof. intros [c [x [-> H]]]. exists (a ++ c), x. rewrite app_assoc. auto. Qed.
Lemma shut_cons a b : shut b -> shut (a :: b).
Proof. apply (shut_app [a]). Qed.
Lemma shut_last a x ty : tok_type x = ty -> ty <> TIdentifier -> shut (a ++ [x]).
Proof. intros <- H. exists a, x. auto. Qed.
Lemma shut_after ts t : shut ts -> after_id ts t.
Proof. intros [a [x [-> H]]]. apply after_id_last. auto. Qed.
Lemma grammar_last :
  (forall o d ts n, expr o d ts n -> ts <> []) /\
  (forall m ts n, head m ts n -> ts <> []) /\
  (forall ts n, operand ts n -> (exists t, ts = [t] /\ tok_type t = TIdentifier) \/ shut ts) /\
  (forall ts n, call ts n -> shut ts) /\
  (forall ts l, tuple_rest ts l -> shut ts) /\
  (forall ts n, access ts n -> True) /\
  (forall ts n, bound ts n -> True) /\
  (forall ty k c ts n, bracket ty k c ts n -> c <> TIdentifier -> shut ts) /\
  (forall k c ts l, items k c ts l -> c <> TIdentifier -> shut ts) /\
  (forall k ts n, item k ts n -> True) /\
  (forall c n ts m, clauses c n ts m -> c <> TIdentifier -> shut ts) /\
  (forall ts l, variables ts l -> True).
Proof.
  apply grammar_ind; intros; auto; try discriminate; try (destruct ls; discriminate);
    try (destruct ts; discriminate); try (right; apply shut_cons; apply H; discriminate).
  - destruct H as [[t [-> _]]|[a [x [-> _]]]]; [discriminate|destruct a; discriminate].
  - destruct H as [[t [-> _]]|[a [x [-> _]]]]; [discriminate|destruct a; discriminate].
  - left. eauto.
  - right. apply (shut_last [] t _ e). discriminate.
  - right. apply (shut_last [] t _ e). discriminate.
  - right. apply shut_cons, (shut_last _ _ _ e1). discriminate.
  - right. apply shut_cons, (shut_last [] _ _ e0). discriminate.
  - right. apply shut_cons, shut_app. auto.
  - right. apply shut_app, shut_cons, (shut_last _ _ _ e1). discriminate.
  - apply shut_cons, shut_cons. apply H. discriminate.
  - apply (shut_last [] _ _ e). discriminate.
  - apply shut_cons, (shut_last [] _ _ e0). discriminate.
  - apply shut_cons, shut_app. auto.
  - apply shut_app. auto.
  - apply (shut_last [] _ _ e). auto.
  - apply (shut_last _ _ _ e). auto.
  - apply shut_app, shut_cons. auto.
  - apply (shut_last [] _ _ e). auto.
  - apply shut_cons, shut_app, shut_app. auto.
Qed.
Lemma expr_nonempty o d ts n : expr o d ts n -> ts <> [].
Proof. apply grammar_last. Qed.
Lemma operand_last ts n : operand ts n -> (exists t, ts = [t] /\ tok_type t = TIdentifier) \/ shut ts.
Proof. apply grammar_last. Qed.

(** ** Soundness *)
Definition item_kind (e : elem_parser) : items_kind :=
  match e with EExpression => Expressions | EExpressionOrAssignment => Arguments
  | EMapTuple => Pairs | EOptionalIdentifier => Variables end.
Definition starter (t : token) : Prop :=
  In (tok_type t) [TMinus; TNot; TOpenParen; TStringLiteral; TNumberLiteral; TIdentifier;
                   TOpenSquare; TOpenBrace].

Definition ends (t : token) : Prop :=
  ~ binary t /\ tok_type t <> TIf /\ (tok_type t = TOpenSquare -> tok_newline t = true).

(** What the tokens [used] are when production [p] was run from [ps], gave [n] and
    left [nx] as next token. *)
Definition derives (p : production) (first : token) (used : list token) (n : node) (nx : token) : Prop :=
  match p with
  | PExpression opt =>
      (exists d, expr opt d used n /\ ends_expr d used nx) \/
      (opt = true /\ n = NNull /\ used = [] /\ ~ starter nx)
  | PExpressionLoop m =>
      (ends first -> used = [] /\ n = m) /\ ends nx /\
      (~ ends first -> forall h ts, head h ts m -> (h = true -> ~ starter first) ->
         exists d, (forall opt, (h = true -> opt = true) -> expr opt d (ts ++ used) n) /\ ends_expr d (ts ++ used) nx)
  | PValueOrIdentifier opt =>
      (operand used n /\ after_id used nx) \/ (opt = true /\ n = NNull /\ used = [] /\
        (starter nx -> tok_type nx = TMinus \/ tok_type nx = TNot \/ tok_type nx = TOpenParen))
  | PParenExpressionOrTuple => operand used n /\ after_id used nx
  | PTupleLoop elems => exists more, n = NList LTuple (elems ++ more) /\ tuple_rest used more
  | PArrayOrSliceAccess => exists us c, used = us ++ [c] /\ tok_type c = TCloseSquare /\ access us n
  | PIfElse m =>
      ends nx /\
      forall h ts, head h ts m ->
         exists d, (forall opt, (h = true -> opt = true) -> expr opt d (ts ++ used) n) /\ ends_expr d (ts ++ used) nx
  | PElement e => item (item_kind e) used n
  | PList ty elems e close =>
      (tok_type first = close -> used = [first] /\ n = NList ty elems) /\
      exists more, n = NList ty (elems ++ more) /\ items (item_kind e) close used more
  | PListOrListComprehension ty e => bracket ty (item_kind e) (end_token_for ty) used n
  | PComprehensionFor target ft close =>
      tok_type first = TFor \/ ft = target -> clauses close target used n
  | PFunCall t =>
      exists args, n = NCall (NId (token_view t)) (NList LTuple args) /\
        items Arguments TCloseParen used args
  end.

Section Sound.
Variable content : str.
Notation ok := (fun ps => wf_toks content (p_toks ps)).
Definition pre_gram (p : production) (ps : pstate) : Prop :=
  match p with
  | PParenExpressionOrTuple => tok_type (ppeek ps) = TOpenParen
  | PIfElse _ => tok_type (ppeek ps) = TIf
  | PList _ _ _ close => close <> TEof
  | PComprehensionFor _ _ close => close <> TEof
  | PListOrListComprehension _ e => e <> EOptionalIdentifier
  | _ => True
  end.
Definition post_gram (p : production) (ps : pstate) (r : node * pstate) : Prop :=
  ok (snd r) /\ extends ps (snd r) /\
  (p_errs (snd r) = [] -> exists used, p_toks ps = used ++ p_toks (snd r) /\
     derives p (ppeek ps) used (fst r) (ppeek (snd r))).

Lemma read_skip ps : ok ps -> tok_type (ppeek ps) <> TEof -> p_toks ps = ppeek ps :: p_toks (skip ps).
Proof.
  unfold skip, pnext, ppeek. destruct (p_toks ps) as [|t [|u l]] eqn:E; simpl; rewrite ?E; auto.
  - intros H. inversion H.
  - intros H N. inversion H; subst; try congruence. inversion H5.
Qed.

Lemma ends_expr_ends d ts t : ends_expr d ts t -> ends t.
Proof. unfold ends_expr, ends. tauto. Qed.

Ltac extend := cbn [fst snd]; repeat first
  [ apply extends_refl
  | match goal with
    | H : extends ?x ?y |- extends ?z ?y => apply extends_trans with x; [clear H|exact H]
    | |- extends ?x (skip ?y) => apply extends_trans with y; [|apply extends_skip]
    | |- extends ?x (perr ?t _ ?y) => apply extends_trans with y; [|apply extends_err]
    | |- extends ?x (if ?c then _ else _) => destruct c
    end ].
(* error-free ancestors *)
Ltac errs := repeat match goal with
  | E : extends ?a ?b, Z : p_errs ?b = [] |- _ =>
      lazymatch goal with H : p_errs a = [] |- _ => fail | _ => assert (p_errs a = []) by (exact (extends_no_errs a b E Z)) end
  | Z : p_errs (skip ?a) = [] |- _ =>
      lazymatch goal with H : p_errs a = [] |- _ => fail | _ => assert (p_errs a = []) by (rewrite <- errs_skip; exact Z) end
  | Z : p_errs (perr _ _ _) = [] |- _ => discriminate Z
  | Z : p_errs ?a = [], C : p_errs ?a = [] -> _ |- _ => specialize (C Z)
  end.
Ltac noeof := let X := fresh in intros X; match goal with H : tok_type ?t = _ |- _ => 
   match type of X with tok_type t = _ => rewrite X in H; discriminate H end end.
(* the token at [ps] is consumed by a step *)
Ltac step ps := let R := fresh "R" in
  assert (R : p_toks ps = ppeek ps :: p_toks (skip ps)) by (apply read_skip; [auto using skip_wf|noeof]).
Ltac toks := repeat match goal with
    | H : p_toks ?a = _ |- context [p_toks ?a] => rewrite H end;
  cbn [app]; repeat (rewrite <- ?app_assoc; cbn [app]); try reflexivity.
Ltac istok := repeat match goal with
  | H : is_tok _ _ = true |- _ => apply is_tok_true in H
  | H : is_tok _ _ = false |- _ => apply is_tok_false in H
  | H : negb (is_tok _ _) = true |- _ => apply negb_true_iff, is_tok_false in H
  | H : negb (is_tok _ _) = false |- _ => apply negb_false_iff, is_tok_true in H
  end.
Ltac okk := auto using skip_wf.

Lemma ends_expr_closed ts t : ends t -> after_id ts t -> ends_expr false ts t.
Proof. unfold ends, ends_expr. intuition discriminate. Qed.
Lemma ends_expr_app d a b t : b <> [] -> ends_expr d b t -> ends_expr d (a ++ b) t.
Proof.
  intros N [H1 [H2 [H3 [H4 H5]]]]. repeat (split; auto). apply after_id_app; auto.
Qed.
Lemma ends_expr_cons d a b t : b <> [] -> ends_expr d b t -> ends_expr d (a :: b) t.
Proof. apply (ends_expr_app d [a]). Qed.
Lemma ends_dec t : ends t \/ ~ ends t.
Proof.
  unfold ends. destruct (is_binary_operator (tok_type t)) eqn:Bi.
  - apply binary_iff in Bi. tauto.
  - apply binary_false in Bi. destruct (toktype_eq_dec (tok_type t) TIf); [tauto|].
    destruct (toktype_eq_dec (tok_type t) TOpenSquare) as [Q|Q].
    + destruct (tok_newline t); [left; auto|]. right. intros [_ [_ X]]. specialize (X Q). discriminate.
    + left. split; [auto|]. split; [auto|]. intros Z. contradiction.
Qed.

Lemma sound fuel : forall p ps, ok ps -> pre_gram p ps -> wpp (run fuel p ps) (post_gram p ps).
Proof.
  induction fuel as [|fuel IH]; intros p ps W Pre; [simpl; auto|].
  assert (Call : forall p ps' (Q : node * pstate -> Prop),
    ok ps' -> pre_gram p ps' ->
    (forall n q, ok q -> extends ps' q ->
      (p_errs q = [] -> exists used, p_toks ps' = used ++ p_toks q /\ derives p (ppeek ps') used n (ppeek q)) ->
      Q (n, q)) ->
    wpp (run fuel p ps') Q).
  { intros p' ps' Q H1 H2 H3. apply wpp_mono with (post_gram p' ps'); auto.
    intros [n q] [A [B C]]. apply H3; auto. }
  cbn [run production_step].
  destruct p; cbn [pre_gram production_step] in *.
  - (* Expression *)
    unfold parse_expression. apply wpp_bind.
    apply wpp_mono with (fun r => ok (snd r) /\ extends ps (snd r) /\
      (p_errs (snd r) = [] -> exists used, p_toks ps = used ++ p_toks (snd r) /\
         ((can_be_optional = true /\ fst r = NNull /\ used = [] /\ ~ starter (ppeek (snd r))) \/
          (exists h, head h used (fst r) /\ after_id used (ppeek (snd r)) /\ (h = true -> can_be_optional = true /\ ~ starter (ppeek (snd r)))) \/
          (exists d, expr can_be_optional d used (fst r) /\ ends_expr d used (ppeek (snd r)))))).
    + assert (Un : unary (ppeek ps) ->
        wpp (do (n, ps0) <- run fuel (PExpression can_be_optional) (skip ps);
             Ret (NUnary (tok_type (ppeek ps)) n, ps0))
         (fun r => ok (snd r) /\ extends ps (snd r) /\
      (p_errs (snd r) = [] -> exists used, p_toks ps = used ++ p_toks (snd r) /\
         ((can_be_optional = true /\ fst r = NNull /\ used = [] /\ ~ starter (ppeek (snd r))) \/
          (exists h, head h used (fst r) /\ after_id used (ppeek (snd r)) /\ (h = true -> can_be_optional = true /\ ~ starter (ppeek (snd r)))) \/
          (exists d, expr can_be_optional d used (fst r) /\ ends_expr d used (ppeek (snd r))))))).
      { intros U. apply wpp_bind. apply Call; [okk|exact I|].
        intros n q A B C. simpl. split; auto. split; [extend|]. intros Z. errs.
        assert (R : p_toks ps = ppeek ps :: p_toks (skip ps)).
        { apply read_skip; auto. destruct U as [->| ->]; discriminate. }
        destruct C as [used [E [[d [C1 C2]]|[-> [-> [-> C]]]]]].
        - exists (ppeek ps :: used). split; [toks|]. right. right. exists d. split; [constructor; auto|].
          apply ends_expr_cons; auto. eapply expr_nonempty; eauto.
        - exists [ppeek ps]. split; [toks|]. right. left. exists true. split; [constructor; auto|]. split; auto.
          apply (after_id_last [] (ppeek ps)). destruct U as [->| ->]; discriminate. }
      destruct (tok_type (ppeek ps)) eqn:T;
        try (apply Un; unfold unary; auto; fail);
        try (apply Call; [auto|simpl; auto|]; intros n q A B C; split; [exact A|]; split; [exact B|];
             intros Z; cbn [fst snd] in *; specialize (C Z); destruct C as [used [E C]];
             exists used; split; [exact E|]; cbn [derives] in C;
             solve [ destruct C as [C Ca]; right; left; exists false; split; [constructor; exact C|split; [exact Ca|discriminate]]
                   | destruct C as [[C Ca]|[C1 [C2 [C3 C4]]]];
                     [right; left; exists false; split; [constructor; exact C|split; [exact Ca|discriminate]]
                     |left; split; [auto|]; split; [auto|]; split; [auto|]; intros St;
                      rewrite C3 in E; cbn [app] in E; unfold ppeek in *; rewrite <- E in *;
                      destruct (C4 St) as [X|[X|X]]; congruence ] ]).
    + intros [n q] [A [B C]]. cbn [fst snd] in *.
      destruct (is_null n) eqn:Nu.
      * apply is_null_true in Nu. subst. split; auto. split; auto. cbn [fst snd]. intros Z.
        destruct (C Z) as [used [E [D|[[h [D1 [_ D2]]]|[d [D _]]]]]].
        -- exists used. split; auto. right. tauto.
        -- inversion D1; subst. exfalso. eapply operand_not_null; eauto.
        -- exfalso. eapply expr_not_null; eauto.
      * apply Call; [auto|exact I|].
        intros n' q' A' B' C'. split; auto. split; [extend|]. cbn [fst snd]. intros Z. errs.
        destruct C' as [us [E' [C1 [C2 C3]]]]. destruct C as [used [E D]].
        destruct (ends_dec (ppeek q)) as [Ed|Ed].
        -- destruct (C1 Ed) as [-> ->]. simpl in E'. exists used. split; [congruence|]. left.
           assert (Pq : ppeek q' = ppeek q) by (unfold ppeek; rewrite E'; auto). rewrite Pq.
           destruct D as [[_ [D _]]|[[h [D1 [Da D2]]]|[d D]]].
           ++ subst. discriminate.
           ++ exists false. split.
              ** inversion D1; subst; [constructor; auto|]. destruct D2 as [-> _]; auto. apply E_missing. auto.
              ** apply ends_expr_closed; auto.
           ++ exists d. auto.
        -- exists (used ++ us). split; [toks|]. left.
           destruct D as [[_ [D _]]|[[h [D1 [Da D2]]]|[d [D De]]]].
           ++ subst. discriminate.
           ++ destruct (C3 Ed h used D1) as [d [D3 D4]].
              ** intros ->. apply D2. auto.
              ** exists d. split; auto. apply D3. intros ->. apply D2. auto.
           ++ exfalso. apply Ed. eapply ends_expr_ends; eauto.
  - (* ExpressionLoop *)
    unfold parse_expression_loop.
    destruct (is_tok (ppeek ps) TIf) eqn:Ti; istok.
    { apply Call; [auto|auto|]. intros n' q A B C. split; auto. split; auto. cbn [fst snd]. intros Z. errs.
      destruct C as [used [E [C1 C2]]]. exists used. split; auto. split; [|split].
      - intros [_ [X _]]. contradiction.
      - auto.
      - intros _ h ts Hh _. auto. }
    destruct (is_binary_operator (tok_type (ppeek ps))) eqn:Bi.
    { apply binary_iff in Bi. apply wpp_bind. apply Call; [okk|exact I|].
      intros n' q A B C. split; auto. split; [extend|]. cbn [fst snd]. intros Z. errs.
      assert (R : p_toks ps = ppeek ps :: p_toks (skip ps)).
      { apply read_skip; auto. intros X. unfold binary in Bi. rewrite X in Bi. simpl in Bi. intuition discriminate. }
      destruct C as [used [E [[d [C1 C2]]|[X _]]]]; [|discriminate].
      exists (ppeek ps :: used). split; [toks|]. split; [|split].
      - intros [X _]. contradiction.
      - eapply ends_expr_ends; eauto.
      - intros _ h ts Hh Hs. exists d.
        split; [|apply ends_expr_app; [discriminate|]; apply ends_expr_cons; auto; eapply expr_nonempty; eauto].
        intros opt Ho. econstructor; eauto. intros ->. split; auto. intros X. apply (Hs eq_refl). unfold starter.
        rewrite X. simpl. auto. }
    apply binary_false in Bi.
    destruct (is_tok (ppeek ps) TOpenSquare) eqn:To; istok.
    2:{ split; auto. split; [extend|]. cbn [fst snd]. intros Z. exists []. split; auto.
        assert (ends (ppeek ps)) by (split; auto; split; auto; congruence).
        split; auto. split; auto. intros X. contradiction. }
    destruct (tok_newline (ppeek ps)) eqn:Nl.
    { split; auto. split; [extend|]. cbn [fst snd]. intros Z. exists []. split; auto.
      assert (ends (ppeek ps)) by (split; auto; split; auto; congruence).
      split; auto. split; auto. intros X. contradiction. }
    apply wpp_bind. apply Call; [okk|exact I|]. intros acc q A B C.
    apply Call; [auto|exact I|]. intros n' q' A' B' C'. split; auto. split; [extend|].
    cbn [fst snd]. intros Z. errs. step ps.
    destruct C as [used [E [us [c [-> [C1 C2]]]]]]. destruct C' as [used' [E' [C3 [C4 C5]]]].
    exists (ppeek ps :: us ++ c :: used'). split; [toks|]. split; [|split]; auto.
    + intros [_ [_ X]]. specialize (X To). congruence.
    + intros _ h ts Hh Hs.
      assert (h = false) as ->.
      { destruct h; auto. exfalso. apply (Hs eq_refl). unfold starter. rewrite To. simpl. auto 10. }
      inversion Hh; subst.
      assert (O : operand (ts ++ ppeek ps :: us ++ [c]) (NBin TOpenSquare n acc (token_range (ppeek ps))))
        by (constructor; auto).
      destruct (ends_dec (ppeek q)) as [Ed|Ed].
      * destruct (C3 Ed) as [-> ->]. exists false. split; [intros opt _; constructor; exact O|].
        simpl in E'. assert (Pq : ppeek q' = ppeek q) by (unfold ppeek; rewrite E'; auto).
        rewrite Pq. apply ends_expr_closed; auto. apply after_id_app; [discriminate|].
        apply (after_id_last (ppeek ps :: us)). congruence.
      * destruct (C5 Ed false _ (H_operand _ _ O)) as [d [D1 D2]]; [discriminate|].
        assert (Eq : (ts ++ ppeek ps :: us ++ [c]) ++ used' = ts ++ ppeek ps :: us ++ c :: used')
          by (repeat (rewrite <- ?app_assoc; cbn [app]); reflexivity).
        rewrite Eq in D1, D2. exists d. split; [|exact D2]. intros opt Ho. apply D1. discriminate.
  - (* ValueOrIdentifier *)
    unfold parse_value_or_identifier.
    assert (Def : tok_type (ppeek ps) <> TStringLiteral -> tok_type (ppeek ps) <> TNumberLiteral ->
        tok_type (ppeek ps) <> TIdentifier -> tok_type (ppeek ps) <> TOpenSquare ->
        tok_type (ppeek ps) <> TOpenBrace ->
        wpp (Ret (NNull, if can_be_optional then ps else perr (ppeek ps) RValue ps))
            (post_gram (PValueOrIdentifier can_be_optional) ps)).
    { intros N1 N2 N3 N4 N5. split; cbn [fst snd]; [destruct can_be_optional; auto|].
      split; [extend|]. intros Z. destruct can_be_optional; errs.
      exists []. split; auto. right. split; auto. split; auto. split; auto.
      unfold starter. intros X. simpl in X. intuition congruence. }
    destruct (tok_type (ppeek ps)) eqn:T; try (apply Def; discriminate); clear Def.
    + (* list *)
      apply Call; [okk|simpl; discriminate|]. intros n q A B C. split; auto. split; [extend|].
      cbn [fst snd]. intros Z. errs. step ps. destruct C as [used [E C]].
      exists (ppeek ps :: used). split; [toks|]. left.
      split; [apply O_list; auto|]. apply shut_after, shut_cons.
      eapply (proj1 (proj2 (proj2 (proj2 (proj2 (proj2 (proj2 (proj2 grammar_last)))))))); [exact C|discriminate].
    + (* map *)
      apply Call; [okk|simpl; discriminate|]. intros n q A B C. split; auto. split; [extend|].
      cbn [fst snd]. intros Z. errs. step ps. destruct C as [used [E C]].
      exists (ppeek ps :: used). split; [toks|]. left.
      split; [apply O_map; auto|]. apply shut_after, shut_cons.
      eapply (proj1 (proj2 (proj2 (proj2 (proj2 (proj2 (proj2 (proj2 grammar_last)))))))); [exact C|discriminate].
    + (* identifier *)
      destruct (is_tok (ppeek (skip ps)) TOpenParen) eqn:To; istok.
      * apply Call; [okk|exact I|]. intros n q A B C. split; auto. split; [extend|]. cbn [fst snd].
        intros Z. errs. step ps. step (skip ps).
        destruct C as [used [E [args [-> C]]]].
        exists (ppeek ps :: ppeek (skip ps) :: used). split; [toks|]. left.
        assert (Ca : call (ppeek ps :: ppeek (skip ps) :: used) (NCall (NId (token_view (ppeek ps))) (NList LTuple args)))
          by (constructor; auto).
        split; [apply O_call; auto|]. apply shut_after. apply grammar_last in Ca. auto.
      * split; [apply skip_wf; auto|]. split; [extend|]. cbn [fst snd]. intros Z. step ps.
        exists [ppeek ps]. split; [toks|]. left. split; [apply O_id; auto|].
        intros ts' id _ _. auto.
    + (* string *)
      apply wpp_bind. destruct (string_node (ppeek ps)) as [n| |] eqn:Sn; simpl; auto.
      split; [apply skip_wf; auto|]. split; [extend|]. cbn [fst snd]. intros Z. step ps.
      exists [ppeek ps]. split; [toks|]. left.
      split; [|apply (after_id_last [] (ppeek ps)); congruence]. apply O_string; auto.
      unfold string_node in Sn.
      destruct (string_from_literal _) as [[[[k v] tr] ra]|] eqn:Sf; [|discriminate].
      injection Sn as <-. econstructor. eauto.
    + (* number *)
      unfold parse_int_from_token. destruct (int_from_literal (tok_text (ppeek ps))) as [z|] eqn:Iz.
      * split; [cbn [fst snd p_toks perr]; apply skip_wf; auto|]. split; [extend|]. cbn [fst snd]. intros Z. step ps.
        exists [ppeek ps]. split; [toks|]. left.
        split; [apply O_int; auto|]. apply (after_id_last [] (ppeek ps)). congruence.
      * split; [apply skip_wf; auto|]. split; [extend|]. cbn [fst snd]. intros Z. errs.
  - (* ParenExpressionOrTuple *)
    unfold parse_paren_expression_or_tuple. apply wpp_bind. apply Call; [okk|exact I|].
    intros n q A B C. step ps.
    destruct (is_null n) eqn:Nu; cbn [negb andb].
    + rewrite pnext_eq. split; cbn [fst snd]; [destruct (is_tok _ _); okk; apply skip_wf; auto|].
      split; [extend|]. intros Z. destruct (is_tok (ppeek q) TCloseParen) eqn:Tc; errs. istok.
      apply is_null_true in Nu. subst n.
      destruct C as [used [E [[d [C _]]|[_ [_ [-> C]]]]]]; [exfalso; eapply expr_not_null; eauto|].
      simpl in E. step q. exists [ppeek ps; ppeek q]. split; [toks|].
      split; [apply O_unit; auto|]. apply (after_id_last [ppeek ps] (ppeek q)). congruence.
    + assert (Cd : p_errs q = [] -> exists used d, p_toks (skip ps) = used ++ p_toks q /\ expr true d used n).
      { intros Z. destruct (C Z) as [used [E [[d [D _]]|[_ [-> _]]]]]; [eauto|discriminate]. }
      clear C. destruct (is_tok (ppeek q) TCloseParen) eqn:Tc; istok.
      * split; [apply skip_wf; auto|]. split; [extend|]. cbn [fst snd]. intros Z. errs. step q.
        destruct Cd as [used [d [E C]]]. exists (ppeek ps :: used ++ [ppeek q]). split; [toks|].
        split; [eapply O_paren; eauto|]. apply (after_id_last (ppeek ps :: used)). congruence.
      * apply Call; [auto|exact I|]. intros n' q' A' B' C'. split; auto. split; [extend|].
        cbn [fst snd]. intros Z. errs. destruct Cd as [used [d [E C]]].
        destruct C' as [used' [E' [more [-> C']]]].
        inversion C'; subst; simpl in E'.
        -- exfalso. apply Tc. unfold ppeek. rewrite E'. auto.
        -- exists (ppeek ps :: used ++ [cm; c]). split; [toks|]. split; [eapply O_tuple; eauto|].
           apply shut_after, shut_cons, shut_app. apply grammar_last in C'. auto.
        -- exists (ppeek ps :: used ++ (cm :: ts ++ rs)). split; [toks|]. split; [eapply O_tuple; eauto|].
           apply shut_after, shut_cons, shut_app. apply grammar_last in C'. auto.
  - (* TupleLoop *)
    unfold parse_tuple_loop. rewrite pnext_eq.
    destruct (is_tok (ppeek ps) TCloseParen) eqn:Tc; istok.
    { split; [apply skip_wf; auto|]. split; [extend|]. cbn [fst snd]. intros Z. step ps. exists [ppeek ps]. split; [toks|].
      exists []. split; [rewrite app_nil_r; auto|]. constructor. auto. }
    destruct (negb (is_tok (ppeek ps) TComma)) eqn:Tm; istok.
    { split; [apply skip_wf; auto|]. split; [extend|]. cbn [fst snd]. intros Z. errs. }
    step ps.
    destruct (is_tok (ppeek (skip ps)) TCloseParen) eqn:Tc2; istok.
    { split; [apply skip_wf, skip_wf; auto|]. split; [extend|]. cbn [fst snd]. intros Z.
      step (skip ps). exists [ppeek ps; ppeek (skip ps)]. split; [toks|].
      exists []. split; [rewrite app_nil_r; auto|]. constructor; auto. }
    apply wpp_bind. apply Call; [okk|exact I|]. intros n q A B C.
    apply Call; [auto|exact I|]. intros n' q' A' B' C'. split; auto. split; [extend|].
    cbn [fst snd]. intros Z. errs.
    destruct C as [used [E [[d [C _]]|[X _]]]]; [|discriminate].
    destruct C' as [used' [E' [more [-> C']]]].
    exists (ppeek ps :: used ++ used'). split; [toks|]. exists (n :: more).
    split; [rewrite <- app_assoc; auto|]. econstructor; eauto.
  - (* ArrayOrSliceAccess *)
    unfold parse_array_or_slice_access. apply wpp_bind. apply Call; [okk|exact I|].
    intros n q A B C. rewrite pnext_eq.
    destruct (is_tok (ppeek q) TCloseSquare) eqn:Tc; istok.
    { split; cbn [fst snd]; [destruct (is_null n); okk; apply skip_wf; auto|]. split; [extend|].
      intros Z. destruct (is_null n) eqn:Nu; errs. step q.
      destruct C as [used [E [[d [C _]]|[_ [-> _]]]]]; [|discriminate].
      exists (used ++ [ppeek q]). split; [toks|]. exists used, (ppeek q). split; auto. split; auto.
      econstructor; eauto. }
    destruct (is_tok (ppeek q) TColon) eqn:Tl; istok.
    2:{ split; [apply skip_wf; auto|]. split; [extend|]. cbn [fst snd]. intros Z. errs. }
    step q. apply wpp_bind. apply Call; [okk|exact I|]. intros n' q' A' B' C'. rewrite pnext_eq.
    destruct (negb (is_tok (ppeek q') TCloseSquare)) eqn:Tc'; istok.
    { split; [apply skip_wf; auto|]. split; [extend|]. cbn [fst snd]. intros Z. errs. }
    destruct (is_null n && is_null n') eqn:Nu.
    { split; [apply skip_wf; auto|]. split; [extend|]. cbn [fst snd]. intros Z. errs. }
    split; [apply skip_wf; auto|]. split; [extend|]. cbn [fst snd]. intros Z. errs. step q'.
    destruct C as [used [E C]]. destruct C' as [used' [E' C']].
    assert (Bd : forall us m x, (exists d, expr true d us m /\ ends_expr d us x) \/
               (true = true /\ m = NNull /\ us = [] /\ ~ starter x) -> bound us m).
    { intros us m x [[d [Hx _]]|[_ [-> [-> _]]]]; econstructor; eauto. }
    exists (used ++ ppeek q :: used' ++ [ppeek q']). split; [toks|].
    exists (used ++ ppeek q :: used'), (ppeek q'). split; [rewrite <- app_assoc; auto|]. split; auto.
    constructor; eauto.
    apply andb_false_iff in Nu as [Nu|Nu]; [left|right]; intros ->; discriminate.
  - (* IfElse *)
    unfold parse_if_else. step ps. apply wpp_bind. apply Call; [okk|exact I|].
    intros c q A B C.
    destruct (is_tok (ppeek q) TElse) eqn:Te; istok.
    + step q. apply wpp_bind. apply Call; [okk|exact I|]. intros el q' A' B' C'.
      split; auto. split; [extend|]. cbn [fst snd]. intros Z. errs.
      destruct C as [used [E [[d [C Ce]]|[X _]]]]; [|discriminate].
      destruct C' as [used' [E' [[d' [C' Ce']]|[X _]]]]; [|discriminate].
      exists (ppeek ps :: used ++ ppeek q :: used'). split; [toks|].
      split; [eapply ends_expr_ends; eauto|].
      intros h ts Hh. exists d'.
      split; [|apply ends_expr_app; [discriminate|]; apply ends_expr_cons; [destruct used; discriminate|];
               apply ends_expr_app; [discriminate|]; apply ends_expr_cons; auto; eapply expr_nonempty; eauto].
      intros opt Ho.
      assert (d = false) as ->.
      { destruct d; auto. destruct Ce as [_ [_ [_ [X _]]]]. exfalso. apply X; auto. }
      econstructor; eauto.
    + split; auto. split; [extend|]. cbn [fst snd]. intros Z. errs.
      destruct C as [used [E [[d [C Ce]]|[X _]]]]; [|discriminate].
      exists (ppeek ps :: used). split; [toks|]. split; [eapply ends_expr_ends; eauto|].
      intros h ts Hh. exists true. split.
      * intros opt Ho. econstructor; eauto.
      * assert (Ce' : ends_expr true used (ppeek q)) by (unfold ends_expr in *; tauto).
        apply ends_expr_app; [discriminate|]. apply ends_expr_cons; auto. eapply expr_nonempty; eauto.
  - (* Element *)
    unfold parse_element. destruct e; cbn [item_kind].
    + apply Call; [auto|exact I|]. intros n q A B C. split; auto. split; auto. cbn [fst snd]. intros Z.
      destruct (C Z) as [used [E [[d [D _]]|[X _]]]]; [|discriminate]. exists used. split; auto.
      econstructor; eauto.
    + unfold expression_or_assignment. apply wpp_bind. apply Call; [auto|exact I|].
      intros n q A B C.
      assert (Cd : p_errs q = [] -> exists used d, p_toks ps = used ++ p_toks q /\ expr false d used n).
      { intros Z. destruct (C Z) as [used [E [[d [D _]]|[X _]]]]; [eauto|discriminate]. }
      clear C. destruct (is_null n) eqn:Nu.
      { split; auto. split; auto. cbn [fst snd]. intros Z. destruct (Cd Z) as [used [d [E D]]].
        apply is_null_true in Nu. subst. exfalso. eapply expr_not_null; eauto. }
      assert (Def : wpp (Ret (n, q)) (post_gram (PElement EExpressionOrAssignment) ps)).
      { split; auto. split; auto. cbn [fst snd]. intros Z. destruct (Cd Z) as [used [d [E D]]].
        exists used. split; auto. econstructor; eauto. }
      destruct n as [|? ? ?|? ?|v|? ?|? ? ? ?|? ?|? ?|? ? ?|? ? ?|? ?]; auto.
      destruct (is_tok (ppeek q) TAssign) eqn:Ta; auto. istok. step q. clear Def.
      unfold parse_node_assign_rhs. apply wpp_bind. apply Call; [okk|exact I|].
      intros r q' A' B' C'. apply wpp_bind.
      destruct (covering (id_token v) (ppeek q)) as [rg| |] eqn:Cv; simpl; auto.
      split; auto. split; [extend|]. cbn [fst snd]. intros Z. errs.
      destruct Cd as [used [d [E D]]].
      destruct C' as [used' [E' [[d' [C' _]]|[X _]]]]; [|discriminate].
      exists (used ++ ppeek q :: used'). split; [toks|].
      destruct (expr_id _ _ _ _ D) as [t ->].
      econstructor; eauto; [reflexivity|].
      unfold covering, id_token in Cv. cbn in Cv.
      destruct (tok_off t <=? _) eqn:Le; [|discriminate]. injection Cv as <-.
      apply Nat.leb_le in Le. split; simpl; lia.
    + unfold parse_map_tuple. apply wpp_bind. apply Call; [auto|exact I|].
      intros k q A B C. rewrite pnext_eq.
      destruct (negb (is_tok (ppeek q) TColon)) eqn:Tc; istok.
      { split; [apply skip_wf; auto|]. split; [extend|]. cbn [fst snd]. intros Z. errs. }
      step q. apply wpp_bind. apply Call; [okk|exact I|]. intros v q' A' B' C'.
      split; auto. split; [extend|]. cbn [fst snd]. intros Z. errs.
      destruct C as [used [E [[d [C _]]|[X _]]]]; [|discriminate].
      destruct C' as [used' [E' [[d' [C' _]]|[X _]]]]; [|discriminate].
      exists (used ++ ppeek q :: used'). split; [toks|]. econstructor; eauto.
    + unfold parse_optional_identifier. destruct (is_tok (ppeek ps) TIdentifier) eqn:Ti; istok.
      * step ps. split; [apply skip_wf; auto|]. split; [extend|]. cbn [fst snd]. intros Z. exists [ppeek ps].
        split; [toks|]. constructor. auto.
      * split; auto. split; [extend|]. cbn [fst snd]. intros Z. exists []. split; auto. constructor.
  - (* List *)
    unfold parse_list. destruct (is_tok (ppeek ps) end_tok) eqn:Te; istok.
    { split; [apply skip_wf; auto|]. split; [extend|]. cbn [fst snd]. intros Z.
      assert (R : p_toks ps = ppeek ps :: p_toks (skip ps)) by (apply read_skip; auto; congruence).
      exists [ppeek ps]. split; [toks|]. split; auto. exists []. split; [rewrite app_nil_r; auto|]. constructor. auto. }
    apply wpp_bind. apply Call; [auto|exact I|]. intros n q A B C.
    destruct (is_tok (ppeek q) TComma) eqn:Tc; istok.
    { step q. apply Call; [okk|auto|]. intros n' q' A' B' C'. split; auto. split; [extend|]. cbn [fst snd].
      intros Z. errs. destruct C as [used [E C]]. destruct C' as [used' [E' [_ [more [-> C']]]]].
      exists (used ++ ppeek q :: used'). split; [toks|]. split; [contradiction|]. exists (n :: more).
      split; [rewrite <- app_assoc; auto|]. constructor; auto. }
    destruct (is_tok (ppeek q) end_tok) eqn:Te'; cbn [negb]; istok.
    2:{ rewrite pnext_eq. split; [apply skip_wf; auto|]. split; [extend|]. cbn [fst snd]. intros Z. errs. }
    assert (Rq : p_toks q = ppeek q :: p_toks (skip q)) by (apply read_skip; auto; congruence).
    apply Call; [auto|auto|]. intros n' q' A' B' C'. split; auto. split; [extend|]. cbn [fst snd].
    intros Z. errs. destruct C as [used [E C]]. destruct C' as [used' [E' [C1 _]]].
    destruct (C1 Te') as [-> Em].
    exists (used ++ [ppeek q]). split; [toks; rewrite <- E'; auto|]. split; [contradiction|].
    exists [n]. split; auto. constructor; auto.
    intros ->. simpl in E. apply Te. unfold ppeek. rewrite E. auto.
  - (* ListOrListComprehension *)
    unfold parse_list_or_list_comprehension.
    assert (Cl : end_token_for ty <> TEof) by (destruct ty; discriminate).
    assert (Cl' : end_token_for ty <> TComma) by (destruct ty; discriminate).
    destruct (is_tok (ppeek ps) (end_token_for ty)) eqn:Te; istok.
    { assert (R : p_toks ps = ppeek ps :: p_toks (skip ps)) by (apply read_skip; auto; congruence).
      split; [apply skip_wf; auto|]. split; [extend|]. cbn [fst snd]. intros Z.
      exists [ppeek ps]. split; [toks|]. constructor. constructor. auto. }
    apply wpp_bind. apply Call; [auto|exact I|]. intros n q A B C.
    assert (Ne : forall ts, item (item_kind e) ts n -> n <> NNull).
    { intros ts H. destruct e; try contradiction; inversion H; subst; try discriminate;
        eapply expr_not_null; eauto. }
    destruct (is_null n) eqn:Nu.
    { apply is_null_true in Nu. split; [auto|]. split; [auto|]. cbn [fst snd]. intros Z.
      destruct (C Z) as [used [E D]]. exfalso. eapply Ne; eauto. }
    assert (Def : wpp (run fuel (PList ty [n] e (end_token_for ty))
        (if is_tok (ppeek q) (end_token_for ty) then q else perr (ppeek q) (RForOrClose (end_token_for ty)) q))
        (post_gram (PListOrListComprehension ty e) ps)).
    { destruct (is_tok (ppeek q) (end_token_for ty)) eqn:Tq.
      - istok. assert (R : p_toks q = ppeek q :: p_toks (skip q)) by (apply read_skip; auto; congruence).
        apply Call; [auto|auto|]. intros n' q' A' B' C'. split; [auto|]. split; [extend|]. cbn [fst snd].
        intros Z. errs. destruct C as [used [E C]]. destruct C' as [used' [E' [C1 _]]].
        destruct (C1 Tq) as [-> ->]. exists (used ++ [ppeek q]). split; [toks; rewrite <- E'; auto|].
        constructor. constructor; auto.
        intros ->. simpl in E. apply Te. unfold ppeek in *. rewrite E. auto.
      - apply Call; [auto|auto|]. intros n' q' A' B' C'. split; [auto|]. split; [extend|]. cbn [fst snd].
        intros Z. errs. }
    destruct (tok_type (ppeek q)) eqn:T; auto; clear Def.
    + step q. apply Call; [okk|auto|]. intros n' q' A' B' C'. split; [auto|]. split; [extend|]. cbn [fst snd].
      intros Z. errs. destruct C as [used [E C]]. destruct C' as [used' [E' [_ [more [-> C']]]]].
      exists (used ++ ppeek q :: used'). split; [toks|]. constructor. constructor; auto.
    + apply wpp_bind. apply Call; [auto|auto|]. intros n' q' A' B' C'. split; [auto|]. split; [extend|].
      cbn [fst snd]. intros Z. errs. destruct C as [used [E C]]. destruct C' as [used' [E' C']].
      cbn [derives] in C'. specialize (C' (or_introl T)).
      exists (used ++ used'). split; [toks|].
      assert (U : exists us, used' = ppeek q :: us).
      { unfold ppeek. rewrite E'. inversion C'; subst; simpl; eauto. }
      destruct U as [us ->]. econstructor; eauto.
  - (* ComprehensionFor *)
    unfold parse_comprehension_for.
    destruct (is_tok (ppeek ps) TFor) eqn:Fo; istok.
    2:{ rewrite pnext_eq. destruct (negb (is_tok (ppeek ps) end_tok)) eqn:Te; istok.
        - split; [apply skip_wf; auto|]. split; [extend|]. cbn [fst snd]. intros Z. errs.
        - assert (R : p_toks ps = ppeek ps :: p_toks (skip ps)) by (apply read_skip; auto; congruence).
          split; [apply skip_wf; auto|]. split; [extend|]. cbn [fst snd]. intros Z.
          exists [ppeek ps]. split; [toks|]. intros [X|X]; [contradiction|]. subst.
          constructor. auto. }
    rewrite pnext_eq. step ps. apply wpp_bind.
    apply wpp_mono with (fun r => ok (snd r) /\ extends (skip ps) (snd r) /\
       (p_errs (snd r) = [] -> exists used l, p_toks (skip ps) = used ++ p_toks (snd r) /\
          fst r = NList LTuple l /\ variables used l)).
    { destruct (is_tok (ppeek (skip ps)) TOpenParen) eqn:To; istok.
      - step (skip ps). apply wpp_bind. apply Call; [okk|simpl; discriminate|].
        intros vars q A B C. rewrite pnext_eq. cbn [fst snd].
        split; [destruct (is_tok _ _); apply (skip_wf content q A)|].
        split; [extend|]. cbn [fst snd]. intros Z.
        destruct (is_tok (ppeek q) TIn) eqn:Tn; errs. istok. step q.
        destruct C as [used [E [_ [l [-> C]]]]].
        exists (ppeek (skip ps) :: used ++ [ppeek q]), l. split; [toks|]. split; [auto|].
        constructor; auto.
      - apply Call; [okk|simpl; discriminate|]. intros vars q A B C. split; [auto|]. split; [auto|].
        cbn [fst snd]. intros Z. destruct (C Z) as [used [E [_ [l [-> D]]]]].
        exists used, l. split; [auto|]. split; [auto|]. apply V_plain with (ppeek (skip ps)); auto.
        unfold ppeek. rewrite E. inversion D; subst; simpl; auto.
        + destruct ts; [contradiction|reflexivity].
        + destruct ts; reflexivity. }
    intros [vars q] [A [B C]]. cbn [fst snd] in *.
    apply wpp_bind. apply Call; [auto|exact I|]. intros values q' A' B' C'.
    apply wpp_bind. destruct (between (ppeek ps) (ppeek q')) as [rg| |] eqn:Bt; cbn [wpp]; auto.
    apply Call; [auto|auto|]. intros n' q'' A'' B'' C''. split; [auto|]. split; [extend|]. cbn [fst snd].
    intros Z. errs.
    destruct C as [vs [l [E [-> C]]]]. destruct C' as [es [E' [[d [C' Ce]]|[X _]]]]; [|discriminate].
    destruct C'' as [rs [E'' C'']]. cbn [derives] in C''. specialize (C'' (or_intror eq_refl)).
    exists (ppeek ps :: vs ++ es ++ rs). split; [toks|]. intros _.
    assert (U : exists us, rs = ppeek q' :: us).
    { unfold ppeek. rewrite E''. inversion C''; subst; simpl; eauto. }
    destruct U as [us ->]. econstructor; eauto.
    unfold between in Bt. destruct (_ <=? _) eqn:Le; [|discriminate]. injection Bt as <-.
    apply Nat.leb_le in Le. split; simpl; lia.
  - (* FunCall *)
    unfold parse_fun_call. apply wpp_bind. apply Call; [auto|simpl; discriminate|].
    intros n q A B C. split; [auto|]. split; [extend|]. cbn [fst snd]. intros Z. errs.
    destruct C as [used [E [_ [l [-> C]]]]]. exists used. split; [auto|]. exists l. auto.
Qed.
End Sound.

(** ** Soundness for whole files *)
Lemma toplevel_sound content fuel ps : wf_toks content (p_toks ps) ->
  wpp (parse_toplevel fuel ps) (fun r =>
    wf_toks content (p_toks (snd r)) /\
    (p_errs (snd r) = [] -> p_errs ps = [] /\
     match fst r with
     | TopEnd => exists e, p_toks ps = [e] /\ tok_type e = TEof
     | TopNothing => exists t, p_toks ps = t :: p_toks (snd r) /\ tok_type t = TStringLiteral
     | TopStatement n => exists used, p_toks ps = used ++ p_toks (snd r) /\
         (closed_statement used n \/
          exists d, open_statement d used n /\ ends_expr d used (ppeek (snd r)))
     end)).
Proof.
  intros W. unfold parse_toplevel. rewrite pnext_eq.
  assert (W1 : wf_toks content (p_toks (skip ps))) by (apply skip_wf; auto).
  assert (R : tok_type (ppeek ps) <> TEof -> p_toks ps = ppeek ps :: p_toks (skip ps))
    by (apply (read_skip content); auto).
  assert (Bad : wpp (Ret (TopEnd, perr (ppeek ps) RIdentifier (skip ps))) (fun r =>
    wf_toks content (p_toks (snd r)) /\
    (p_errs (snd r) = [] -> p_errs ps = [] /\
     match fst r with
     | TopEnd => exists e, p_toks ps = [e] /\ tok_type e = TEof
     | TopNothing => exists t, p_toks ps = t :: p_toks (snd r) /\ tok_type t = TStringLiteral
     | TopStatement n => exists used, p_toks ps = used ++ p_toks (snd r) /\
         (closed_statement used n \/
          exists d, open_statement d used n /\ ends_expr d used (ppeek (snd r)))
     end))).
  { simpl. split; auto. discriminate. }
  destruct (tok_type (ppeek ps)) eqn:T; try exact Bad; clear Bad;
    try specialize (R ltac:(discriminate)).
  - (* unpacking *)
    apply wpp_bind. eapply wpp_mono; [apply (sound content); auto; simpl; discriminate|].
    intros [lhs q] [A [B C]]. cbn [fst snd] in *. rewrite pnext_eq.
    assert (A1 : wf_toks content (p_toks (skip q))) by (apply skip_wf; auto).
    destruct (negb (is_tok (ppeek q) TAssign)) eqn:Ta.
    { simpl. split; auto. discriminate. }
    apply negb_false_iff, is_tok_true in Ta.
    assert (Rq : p_toks q = ppeek q :: p_toks (skip q)) by (apply (read_skip content); auto; congruence).
    unfold parse_node_assign_rhs. apply wpp_bind, wpp_bind.
    eapply wpp_mono; [apply (sound content); auto; simpl; exact I|].
    intros [r q'] [A' [B' C']]. cbn [fst snd] in *. apply wpp_bind.
    destruct (covering (ppeek ps) (ppeek q)) as [rg| |] eqn:Cv; cbn [wpp bind]; auto.
    split; auto. cbn [fst snd]. intros Z.
    assert (Zq : p_errs q = []) by (rewrite <- errs_skip; eapply extends_no_errs; eauto).
    split; [rewrite <- errs_skip; eapply extends_no_errs; eauto|].
    destruct (C Zq) as [us [E [_ [l [-> D]]]]].
    destruct (C' Z) as [us' [E' [[d [D' De]]|[X _]]]]; [|discriminate].
    exists (ppeek ps :: us ++ ppeek q :: us'). split.
    { rewrite R, E, Rq, E'. cbn [app]. rewrite <- app_assoc. reflexivity. }
    right. exists d. split.
    + simpl in D. econstructor; eauto. unfold covering in Cv.
      destruct (_ <=? _) eqn:Le; [|discriminate]. injection Cv as <-. apply Nat.leb_le in Le.
      split; simpl; lia.
    + apply ends_expr_cons; [destruct us; discriminate|]. apply ends_expr_app; [discriminate|].
      apply ends_expr_cons; auto. eapply expr_nonempty; eauto.
  - (* list *)
    apply wpp_bind. eapply wpp_mono; [apply (sound content); auto; simpl; discriminate|].
    intros [n q] [A [B C]]. cbn [fst snd wpp] in *. split; auto. intros Z.
    split; [rewrite <- errs_skip; eapply extends_no_errs; eauto|].
    destruct (C Z) as [us [E D]]. exists (ppeek ps :: us). split; [rewrite R, E; auto|]. left.
    apply S_bracket; auto.
  - (* identifier *)
    rewrite pnext_eq. set (a := ppeek (skip ps)) in *.
    assert (A1 : wf_toks content (p_toks (skip (skip ps)))) by (apply skip_wf; auto).
    assert (R1 : tok_type a <> TEof -> p_toks (skip ps) = a :: p_toks (skip (skip ps)))
      by (apply (read_skip content); auto).
    destruct (tok_type a) eqn:Ta; try (simpl; split; [auto|discriminate]);
      specialize (R1 ltac:(discriminate)).
    + apply wpp_bind. eapply wpp_mono; [apply (sound content); auto; exact I|].
      intros [n q] [A [B C]]. cbn [fst snd wpp] in *. split; auto. intros Z.
      split; [rewrite <- errs_skip, <- errs_skip; eapply extends_no_errs; eauto|].
      destruct (C Z) as [us [E [args [-> D]]]]. exists (ppeek ps :: a :: us).
      split; [rewrite R, R1, E; auto|]. left. constructor. constructor; auto.
    + apply wpp_bind. eapply wpp_mono; [apply (sound content); auto; exact I|].
      intros [n q] [A [B C]]. cbn [fst snd wpp] in *. split; auto. intros Z.
      split; [rewrite <- errs_skip, <- errs_skip; eapply extends_no_errs; eauto|].
      destruct (C Z) as [us [E [[d [D De]]|[X _]]]]; [|discriminate]. exists (ppeek ps :: a :: us).
      split; [rewrite R, R1, E; auto|]. right. exists d. split; [constructor; auto|].
      do 2 (apply ends_expr_cons; [try discriminate; eapply expr_nonempty; eauto|]). auto.
    + unfold parse_node_assign_rhs. apply wpp_bind, wpp_bind.
      eapply wpp_mono; [apply (sound content); auto; simpl; exact I|].
      intros [r q'] [A' [B' C']]. cbn [fst snd] in *. apply wpp_bind.
      destruct (covering (ppeek ps) a) as [rg| |] eqn:Cv; cbn [wpp bind]; auto.
      split; auto. cbn [fst snd]. intros Z.
      split; [rewrite <- errs_skip, <- errs_skip; eapply extends_no_errs; eauto|].
      destruct (C' Z) as [us [E [[d [D De]]|[X _]]]]; [|discriminate]. exists (ppeek ps :: a :: us).
      split; [rewrite R, R1, E; auto|]. right. exists d. split.
      * econstructor; eauto. unfold covering in Cv.
        destruct (_ <=? _) eqn:Le; [|discriminate]. injection Cv as <-. apply Nat.leb_le in Le.
        split; simpl; lia.
      * do 2 (apply ends_expr_cons; [try discriminate; eapply expr_nonempty; eauto|]). auto.
  - (* string *)
    simpl. split; auto. intros Z. rewrite errs_skip in Z. split; auto. exists (ppeek ps). auto.
  - (* end *)
    simpl. split; auto. intros Z. rewrite errs_skip in Z. split; auto.
    unfold ppeek in T. inversion W as [e He Ge Ee|t l Ht Gt Ho Hl Ee]; rewrite <- Ee in *.
    + eauto.
    + simpl in T. contradiction.
Qed.

Lemma parse_loop_sound content fuel rounds : forall stmts ps,
  wf_toks content (p_toks ps) ->
  wpp (parse_loop rounds fuel stmts ps) (fun r =>
    p_errs (snd r) = [] -> p_errs ps = [] /\ exists l, fst r = stmts ++ l /\ program (p_toks ps) l).
Proof.
  induction rounds as [|rounds IH]; intros stmts ps W; [simpl; auto|].
  cbn [parse_loop]. destruct (p_errs ps) as [|e es] eqn:Er.
  2:{ simpl. rewrite Er. discriminate. }
  apply wpp_bind. eapply wpp_mono; [apply (toplevel_sound content); auto|].
  intros [r q] [A B]. cbn [fst snd] in *. destruct r as [n| |].
  - eapply wpp_mono; [apply IH; auto|]. intros [l q'] C. cbn [fst snd] in *. intros Z. split; auto.
    destruct (C Z) as [Zq [l' [-> D]]]. destruct (B Zq) as [_ [us [E F]]].
    exists (n :: l'). split; [rewrite <- app_assoc; auto|]. rewrite E. destruct F as [F|[d [F1 F2]]].
    + constructor; auto.
    + destruct (p_toks q) as [|x xs] eqn:Ex; [inversion A|].
      apply G_open with d; auto. unfold ppeek in F2. rewrite Ex in F2. auto.
  - eapply wpp_mono; [apply IH; auto|]. intros [l q'] C. cbn [fst snd] in *. intros Z. split; auto.
    destruct (C Z) as [Zq [l' [-> D]]]. destruct (B Zq) as [_ [t [E F]]].
    exists l'. split; auto. rewrite E. constructor; auto.
  - simpl. intros Z. split; auto. destruct (B Z) as [_ [e [-> F]]]. exists []. rewrite app_nil_r.
    split; auto. constructor. auto.
Qed.

Theorem parse_sound content stmts :
  parse content = Ret (stmts, []) -> program (all_tokens content) stmts.
Proof.
  unfold parse, parse_tokens.
  assert (H := parse_loop_sound content (parse_fuel (all_tokens content))
     (2 * length (all_tokens content) + 2) [] (mkP (all_tokens content) []) (all_tokens_wf content)).
  destruct (parse_loop _ _ _ _) as [[l q]| |]; simpl; try discriminate.
  intros X. injection X as <- Z. simpl in H. destruct (H Z) as [_ [l' [-> D]]]. auto.
Qed.

(** ** Completeness *)
Lemma skip_cons t l e : l <> [] -> skip (mkP (t :: l) e) = mkP l e.
Proof. destruct l; [congruence|reflexivity]. Qed.
Lemma peek_cons t l e : ppeek (mkP (t :: l) e) = t.
Proof. reflexivity. Qed.
Lemma pnext_cons t l e : l <> [] -> pnext (mkP (t :: l) e) = (t, mkP l e).
Proof. intros H. rewrite pnext_eq, skip_cons; auto. Qed.

Lemma grammar_first :
  (forall o d ts n, expr o d ts n -> exists t r, ts = t :: r /\ starter t) /\
  (forall m ts n, head m ts n -> exists t r, ts = t :: r /\ starter t) /\
  (forall ts n, operand ts n -> exists t r, ts = t :: r /\ starter t) /\
  (forall ts n, call ts n -> exists t r, ts = t :: r /\ starter t) /\
  (forall ts l, tuple_rest ts l -> True) /\
  (forall ts n, access ts n -> True) /\
  (forall ts n, bound ts n -> True) /\
  (forall ty k c ts n, bracket ty k c ts n -> True) /\
  (forall k c ts l, items k c ts l -> True) /\
  (forall k ts n, item k ts n -> True) /\
  (forall c n ts m, clauses c n ts m -> True) /\
  (forall ts l, variables ts l -> True).
Proof.
  assert (U : forall t, unary t -> starter t).
  { intros t [H|H]; unfold starter; rewrite H; simpl; auto 10. }
  assert (S : forall t ty, tok_type t = ty -> In ty [TOpenParen; TStringLiteral; TNumberLiteral;
      TIdentifier; TOpenSquare; TOpenBrace] -> starter t).
  { intros t ty H I. unfold starter. rewrite H. right. right. exact I. }
  apply grammar_ind; intros; auto;
    try (match goal with H : exists t r, _ = t :: r /\ _ |- _ => destruct H as [t' [r' [-> ?]]] end; simpl; eauto; fail);
    try (do 2 eexists; split; [reflexivity|]; eapply S; [eassumption|]; simpl; auto 10; fail).
  - eauto.
  - destruct H as [t' [r' [-> ?]]]. simpl. eauto.
  - destruct H as [t' [r' [-> ?]]]. simpl. eauto.
  - destruct H as [t' [r' [-> ?]]]. simpl. eauto.
  - eauto.
Qed.
Lemma expr_first o d ts n : expr o d ts n -> exists t r, ts = t :: r /\ starter t.
Proof. apply grammar_first. Qed.
Lemma operand_first ts n : operand ts n -> exists t r, ts = t :: r /\ starter t.
Proof. apply grammar_first. Qed.

(** Running [p] on the tokens [l] gives [n] and leaves the tokens [rest]. *)
Definition runs (p : production) (l : list token) (n : node) (rest : list token) : Prop :=
  exists F, forall fuel, F <= fuel -> run fuel p (mkP l []) = Ret (n, mkP rest []).

(** Tokens after an element of a list. *)
Definition list_stop (t : token) : Prop :=
  In (tok_type t) [TComma; TCloseParen; TCloseSquare; TCloseBrace; TFor].
Definition closer (k : items_kind) (ty : toktype) : Prop :=
  In ty [TCloseParen; TCloseSquare; TCloseBrace] \/ (k = Variables /\ ty = TIn).
Definition item_stop (k : items_kind) (t : token) : Prop :=
  list_stop t \/ (k = Variables /\ tok_type t = TIn).
Definition bound_stop (t : token) : Prop := tok_type t = TColon \/ tok_type t = TCloseSquare.

Lemma binary_not_starter t : binary t -> tok_type t <> TMinus -> ~ starter t.
Proof.
  intros B N. apply binary_iff in B. unfold starter.
  destruct (tok_type t); try discriminate; try congruence; simpl;
    intros H; repeat (destruct H as [H|H]; [discriminate|]); contradiction.
Qed.
Lemma stop_ends d ts t :
  In (tok_type t) [TComma; TCloseParen; TCloseSquare; TCloseBrace; TFor; TColon; TAssign; TEof] ->
  ends_expr d ts t.
Proof.
  intros H. unfold ends_expr. rewrite <- binary_iff.
  simpl in H. repeat (destruct H as [<-|H]; [simpl; repeat split; discriminate|]). contradiction.
Qed.
Lemma stop_not_starter t :
  In (tok_type t) [TComma; TCloseParen; TCloseSquare; TCloseBrace; TFor; TColon; TAssign; TEof; TIn; TIf] ->
  ~ starter t.
Proof.
  intros H. unfold starter. simpl in H.
  repeat (destruct H as [<-|H]; [simpl; intros X; repeat (destruct X as [X|X]; [discriminate|]); contradiction|]).
  contradiction.
Qed.
Lemma list_stop_ends d ts t : list_stop t -> ends_expr d ts t.
Proof. intros H. apply stop_ends. unfold list_stop in H. simpl in *. intuition. Qed.
Lemma bound_stop_ends d ts t : bound_stop t -> ends_expr d ts t.
Proof. intros [H|H]; apply stop_ends; rewrite H; simpl; auto 10. Qed.

Lemma missing_expr nx rest : ~ starter nx -> runs (PExpression true) (nx :: rest) NNull (nx :: rest).
Proof.
  intros N. exists 2. intros [|[|fuel]] L; [lia|lia|].
  cbn [run production_step]. unfold parse_expression. rewrite peek_cons.
  unfold starter in N. simpl in N.
  destruct (tok_type nx) eqn:T; try (exfalso; apply N; auto 10; fail);
    cbn [run production_step]; unfold parse_value_or_identifier; rewrite peek_cons, T; reflexivity.
Qed.
Lemma loop_stops n nx rest : ends nx -> runs (PExpressionLoop n) (nx :: rest) n (nx :: rest).
Proof.
  intros [H1 [H2 H3]]. exists 1. intros [|fuel] L; [lia|]. cbn [run production_step].
  unfold parse_expression_loop. rewrite peek_cons.
  destruct (is_tok nx TIf) eqn:Ti; [apply is_tok_true in Ti; contradiction|].
  apply binary_false in H1. rewrite H1.
  destruct (is_tok nx TOpenSquare) eqn:To; auto. apply is_tok_true in To. rewrite (H3 To). auto.
Qed.

Ltac ne := solve [ discriminate | assumption
  | let X := fresh in intros X;
    repeat match type of X with
    | _ ++ _ = [] => apply app_eq_nil in X as [_ X]
    | _ :: _ = [] => discriminate X
    end; contradiction ].
Ltac nil_ne := match goal with H : [] <> [] |- _ => exfalso; apply H; reflexivity end.

Lemma by_value opt t l tail n r rest :
  In (tok_type t) [TStringLiteral; TNumberLiteral; TIdentifier; TOpenSquare; TOpenBrace] ->
  n <> NNull -> runs (PValueOrIdentifier opt) (t :: l) n tail ->
  runs (PExpressionLoop n) tail r rest -> runs (PExpression opt) (t :: l) r rest.
Proof.
  intros T N [F1 H1] [F2 H2]. exists (S (F1 + F2)). intros [|fuel] L; [lia|].
  cbn [run production_step]. unfold parse_expression. rewrite peek_cons.
  apply is_null_false in N.
  destruct (tok_type t); simpl in T; try (exfalso; intuition discriminate; fail);
    rewrite H1 by lia; cbn [bind]; rewrite N; apply H2; lia.
Qed.
Lemma by_paren opt t l tail n r rest :
  tok_type t = TOpenParen -> n <> NNull -> runs PParenExpressionOrTuple (t :: l) n tail ->
  runs (PExpressionLoop n) tail r rest -> runs (PExpression opt) (t :: l) r rest.
Proof.
  intros T N [F1 H1] [F2 H2]. exists (S (F1 + F2)). intros [|fuel] L; [lia|].
  cbn [run production_step]. unfold parse_expression. rewrite peek_cons, T.
  apply is_null_false in N. rewrite H1 by lia. cbn [bind]. rewrite N. apply H2. lia.
Qed.
Lemma by_unary opt t l tail n r rest :
  unary t -> l <> [] -> runs (PExpression opt) l n tail ->
  runs (PExpressionLoop (NUnary (tok_type t) n)) tail r rest -> runs (PExpression opt) (t :: l) r rest.
Proof.
  intros T N [F1 H1] [F2 H2]. exists (S (F1 + F2)). intros [|fuel] L; [lia|].
  cbn [run production_step]. unfold parse_expression. rewrite peek_cons, skip_cons by auto.
  destruct T as [T|T]; rewrite T in *; rewrite H1 by lia; cbn [bind is_null]; apply H2; lia.
Qed.
Lemma is_tok_eq t ty : tok_type t = ty -> is_tok t ty = true.
Proof. apply is_tok_true. Qed.
Lemma is_tok_neq t ty : tok_type t <> ty -> is_tok t ty = false.
Proof. apply is_tok_false. Qed.
Lemma loop_bracket n o l acc tail r rest :
  tok_type o = TOpenSquare -> tok_newline o = false -> l <> [] ->
  runs PArrayOrSliceAccess l acc tail ->
  runs (PExpressionLoop (NBin TOpenSquare n acc (token_range o))) tail r rest ->
  runs (PExpressionLoop n) (o :: l) r rest.
Proof.
  intros T Nl N [F1 H1] [F2 H2]. exists (S (F1 + F2)). intros [|fuel] L; [lia|].
  cbn [run production_step]. unfold parse_expression_loop. rewrite peek_cons, skip_cons by auto.
  rewrite (is_tok_neq o TIf) by congruence.
  replace (is_binary_operator (tok_type o)) with false by (rewrite T; reflexivity).
  rewrite is_tok_eq, Nl by auto. rewrite H1 by lia. cbn [bind]. apply H2. lia.
Qed.
Lemma loop_binary n op l m rest :
  binary op -> l <> [] -> runs (PExpression false) l m rest ->
  runs (PExpressionLoop n) (op :: l) (NBin (tok_type op) n m (token_range op)) rest.
Proof.
  intros B N [F1 H1]. exists (S F1). intros [|fuel] L; [lia|].
  cbn [run production_step]. unfold parse_expression_loop. rewrite peek_cons, skip_cons by auto.
  rewrite (is_tok_neq op TIf).
  2:{ intros X. unfold binary in B. rewrite X in B. simpl in B. intuition discriminate. }
  apply binary_iff in B. rewrite B. rewrite H1 by lia. reflexivity.
Qed.
Lemma loop_if n i l c nx tail :
  tok_type i = TIf -> l <> [] -> runs (PExpression false) l c (nx :: tail) -> tok_type nx <> TElse ->
  runs (PExpressionLoop n) (i :: l) (NTernary c n NNull) (nx :: tail).
Proof.
  intros T N [F1 H1] E. exists (S (S F1)). intros [|[|fuel]] L; [lia|lia|].
  cbn [run production_step]. unfold parse_expression_loop. rewrite peek_cons, is_tok_eq by auto.
  cbn [run production_step]. unfold parse_if_else. rewrite skip_cons by auto.
  rewrite H1 by lia. cbn [bind]. rewrite peek_cons, is_tok_neq; auto.
Qed.
Lemma loop_if_else n i l c e tail el rest :
  tok_type i = TIf -> l <> [] -> runs (PExpression false) l c (e :: tail) -> tok_type e = TElse ->
  tail <> [] -> runs (PExpression false) tail el rest ->
  runs (PExpressionLoop n) (i :: l) (NTernary c n el) rest.
Proof.
  intros T N [F1 H1] E Nt [F2 H2]. exists (S (S (F1 + F2))). intros [|[|fuel]] L; [lia|lia|].
  cbn [run production_step]. unfold parse_expression_loop. rewrite peek_cons, is_tok_eq by auto.
  cbn [run production_step]. unfold parse_if_else. rewrite skip_cons by auto.
  rewrite H1 by lia. cbn [bind]. rewrite peek_cons, is_tok_eq, skip_cons by auto.
  rewrite H2 by lia. reflexivity.
Qed.
Lemma ends_expr_tail d a b t : ends_expr d (a ++ b) t -> ends_expr d b t.
Proof.
  intros [H1 [H2 [H3 [H4 H5]]]]. repeat (split; auto). intros ts' id -> I.
  apply (H5 (a ++ ts') id); auto. apply app_assoc.
Qed.
Lemma shut_after_id ts t : shut ts -> after_id ts t.
Proof. apply shut_after. Qed.
Lemma operand_after ts n t : operand ts n -> tok_type t <> TOpenParen -> after_id ts t.
Proof. intros _ H ts' id _ _. auto. Qed.

Lemma item_first k ts n : item k ts n -> ts <> [] -> exists t r, ts = t :: r /\ starter t.
Proof.
  intros H N. inversion H; subst; try (eapply expr_first; eauto; fail).
  - destruct (expr_first _ _ _ _ H0) as [t [r' [-> S]]]. simpl. eauto.
  - destruct (expr_first _ _ _ _ H0) as [t [r' [-> S]]]. simpl. eauto.
  - exists t, []. split; auto. unfold starter. rewrite H0. simpl. auto 10.
  - congruence.
Qed.
Lemma item_whole k ts n : item k ts n -> k <> Variables -> n <> NNull /\ ts <> [].
Proof.
  intros H N. inversion H; subst; try congruence.
  - split; [eapply expr_not_null|eapply expr_nonempty]; eauto.
  - split; [eapply expr_not_null|eapply expr_nonempty]; eauto.
  - split; [discriminate|destruct ts0; discriminate].
  - split; [discriminate|destruct ts0; discriminate].
Qed.
Lemma closer_token k c : closer k c -> c <> TComma /\ c <> TEof /\ c <> TFor /\
  forall t, tok_type t = c -> ~ starter t /\ item_stop k t.
Proof.
  unfold item_stop, list_stop.
  intros [H|[-> ->]].
  - simpl in H. repeat (destruct H as [<-|H]; [repeat split; try discriminate|]); try contradiction;
    try (apply stop_not_starter; rewrite H; simpl; auto 20);
    left; rewrite H; simpl; auto 10.
  - repeat split; try discriminate; auto.
    apply stop_not_starter; rewrite H; simpl; auto 20.
Qed.

Lemma grammar_complete :
  (forall opt d ts n, expr opt d ts n -> forall nx rest, ends_expr d ts nx ->
     (opt = true -> ~ starter nx) -> runs (PExpression opt) (ts ++ nx :: rest) n (nx :: rest)) /\
  (forall m ts n, head m ts n -> forall opt tail r rest, tail <> [] ->
     (m = true -> opt = true /\ ~ starter (hd eof_token tail)) -> after_id ts (hd eof_token tail) ->
     runs (PExpressionLoop n) tail r rest -> runs (PExpression opt) (ts ++ tail) r rest) /\
  (forall ts n, operand ts n -> forall opt tail r rest, tail <> [] -> after_id ts (hd eof_token tail) ->
     runs (PExpressionLoop n) tail r rest -> runs (PExpression opt) (ts ++ tail) r rest) /\
  (forall ts n, call ts n -> exists id o ts', ts = id :: o :: ts' /\ tok_type id = TIdentifier /\
     tok_type o = TOpenParen /\ n <> NNull /\
     forall tail, tail <> [] -> runs (PFunCall id) (ts' ++ tail) n tail) /\
  (forall ts l, tuple_rest ts l -> forall elems tail, tail <> [] ->
     runs (PTupleLoop elems) (ts ++ tail) (NList LTuple (elems ++ l)) tail) /\
  (forall ts n, access ts n -> forall c tail, tail <> [] -> tok_type c = TCloseSquare ->
     runs PArrayOrSliceAccess (ts ++ c :: tail) n tail) /\
  (forall ts n, bound ts n -> forall nx rest, bound_stop nx ->
     runs (PExpression true) (ts ++ nx :: rest) n (nx :: rest)) /\
  (forall ty k c ts n, bracket ty k c ts n -> c = end_token_for ty -> forall e, item_kind e = k ->
     k <> Variables -> n <> NNull /\ forall tail, tail <> [] ->
       runs (PListOrListComprehension ty e) (ts ++ tail) n tail) /\
  (forall k c ts l, items k c ts l -> closer k c -> forall ty e, item_kind e = k -> forall tail,
     tail <> [] ->
     (forall elems, runs (PList ty elems e c) (ts ++ tail) (NList ty (elems ++ l)) tail) /\
     (k <> Variables -> c = end_token_for ty ->
        runs (PListOrListComprehension ty e) (ts ++ tail) (NList ty l) tail)) /\
  (forall k ts n, item k ts n -> forall e, item_kind e = k -> forall nx rest, item_stop k nx ->
     runs (PElement e) (ts ++ nx :: rest) n (nx :: rest)) /\
  (forall c n ts m, clauses c n ts m -> closer Expressions c -> forall ft tail, tail <> [] ->
     (ft = n \/ exists f r, ts = f :: r /\ tok_type f = TFor) ->
     runs (PComprehensionFor n ft c) (ts ++ tail) m tail) /\
  (forall ts l, variables ts l -> forall tail, tail <> [] -> exists F, forall fuel, F <= fuel ->
     let ps := mkP (ts ++ tail) [] in
     (if is_tok (ppeek ps) TOpenParen then
         do (vars, ps) <- run fuel (PList LTuple [] EOptionalIdentifier TCloseParen) (skip ps);
         let '(expected_in, ps) := pnext ps in
         Ret (vars, if is_tok expected_in TIn then ps else perr expected_in RIn ps)
       else run fuel (PList LTuple [] EOptionalIdentifier TIn) ps)
     = Ret (NList LTuple l, mkP tail [])).
Proof.
  apply grammar_ind.
  - (* E_operand *)
    intros opt ts n O IH nx rest E S. apply IH; [ne|destruct E as [_ [_ [_ [_ E]]]]; exact E|].
    apply loop_stops. eapply ends_expr_ends; eauto.
  - (* E_unary *)
    intros opt d t ts n U E IH nx rest En S. cbn [app].
    eapply by_unary; [auto|ne| |].
    + apply IH; auto. apply (ends_expr_tail d [t]). auto.
    + apply loop_stops. eapply ends_expr_ends; eauto.
  - (* E_missing *)
    intros t U nx rest En S. cbn [app]. eapply by_unary; [auto|ne| |].
    + apply missing_expr. auto.
    + apply loop_stops. eapply ends_expr_ends; eauto.
  - (* E_binary *)
    intros opt m d ls l op rs r Hh IHh M B E IHe nx rest En S.
    rewrite <- app_assoc. cbn [app]. apply IHh; [ne| | |].
    + intros Hm. destruct (M Hm) as [Ho Nm]. split; auto. simpl. apply binary_not_starter; auto.
    + intros ts' id _ _ X. simpl in X. apply binary_iff in B. rewrite X in B. discriminate.
    + apply loop_binary; [auto|ne|]. apply IHe; [|discriminate].
      apply (ends_expr_tail d (ls ++ [op])). rewrite <- app_assoc. auto.
  - (* E_if *)
    intros opt m d ts n i cs c Hh IHh M Ti E IHe nx rest En S.
    rewrite <- app_assoc. cbn [app]. apply IHh; [ne| | |].
    + intros Hm. split; auto. simpl. apply stop_not_starter. rewrite Ti. simpl. auto 20.
    + intros ts' id _ _. simpl. rewrite Ti. discriminate.
    + apply loop_if; [auto|ne| |].
      * apply IHe; [|discriminate].
        assert (En' : ends_expr true cs nx).
        { apply (ends_expr_tail true (ts ++ [i])). rewrite <- app_assoc. auto. }
        unfold ends_expr in *. tauto.
      * destruct En as [_ [_ [_ [X _]]]]. auto.
  - (* E_if_else *)
    intros opt m d ts n i cs c e es el Hh IHh M Ti E IHe Te E2 IHe2 nx rest En S.
    rewrite <- app_assoc. cbn [app]. rewrite <- app_assoc. cbn [app]. apply IHh; [ne| | |].
    + intros Hm. split; auto. simpl. apply stop_not_starter. rewrite Ti. simpl. auto 20.
    + intros ts' id _ _. simpl. rewrite Ti. discriminate.
    + eapply loop_if_else; [auto|ne| |exact Te| |].
      * apply IHe; [|discriminate]. split; [rewrite <- binary_iff, Te; discriminate|].
        rewrite Te. repeat split; discriminate.
      * ne.
      * apply IHe2; [|discriminate].
        apply (ends_expr_tail d ((ts ++ i :: cs) ++ [e])). rewrite <- !app_assoc. exact En.
  - (* H_operand *)
    intros ts n O IH opt tail r rest N M A L. apply IH; auto.
  - (* H_missing *)
    intros t U opt tail r rest N M A L. destruct (M eq_refl) as [-> S]. cbn [app].
    destruct tail as [|x tail]; [nil_ne|].
    eapply by_unary; [auto|ne| |].
    + apply missing_expr. auto.
    + auto.
  - (* O_id *)
    intros t T opt tail r rest N A L. cbn [app]. eapply by_value; [rewrite T; simpl; auto|..|exact L].
    + discriminate.
    + exists 1. intros [|fuel] Lf; [lia|]. cbn [run production_step].
      unfold parse_value_or_identifier. rewrite peek_cons, T, skip_cons by auto.
      rewrite is_tok_neq; auto. destruct tail; [nil_ne|]. apply (A [] t); auto.
  - (* O_int *)
    intros t z T Z opt tail r rest N A L. cbn [app]. eapply by_value; [rewrite T; simpl; auto|..|exact L].
    + discriminate.
    + exists 1. intros [|fuel] Lf; [lia|]. cbn [run production_step].
      unfold parse_value_or_identifier. rewrite peek_cons, T, skip_cons by auto.
      unfold parse_int_from_token. rewrite Z. auto.
  - (* O_string *)
    intros t n T Sl opt tail r rest N A L. inversion Sl; subst. cbn [app].
    eapply by_value; [rewrite T; simpl; auto|..|exact L].
    + discriminate.
    + exists 1. intros [|fuel] Lf; [lia|]. cbn [run production_step].
      unfold parse_value_or_identifier. rewrite peek_cons, T, skip_cons by auto.
      unfold string_node. rewrite H. auto.
  - (* O_call *)
    intros ts n C [id [o [ts' [-> [T [To [Nn H]]]]]]] opt tail r rest N A L. cbn [app].
    eapply by_value; [rewrite T; simpl; auto|exact Nn| |exact L].
    destruct (H tail N) as [F Hf]. exists (S F). intros [|fuel] Lf; [lia|]. cbn [run production_step].
    unfold parse_value_or_identifier. rewrite peek_cons, T, skip_cons by ne.
    rewrite peek_cons, is_tok_eq, skip_cons by (auto; ne). apply Hf. lia.
  - (* O_list *)
    intros o ts n T B IH opt tail r rest N A L. cbn [app].
    destruct (IH eq_refl EExpression eq_refl ltac:(discriminate)) as [Nn H].
    eapply by_value; [rewrite T; simpl; auto 10|exact Nn| |exact L].
    destruct (H tail N) as [F Hf]. exists (S F). intros [|fuel] Lf; [lia|]. cbn [run production_step].
    unfold parse_value_or_identifier. rewrite peek_cons, T, skip_cons; [apply Hf; lia|].
    destruct tail; [nil_ne|ne].
  - (* O_map *)
    intros o ts n T B IH opt tail r rest N A L. cbn [app].
    destruct (IH eq_refl EMapTuple eq_refl ltac:(discriminate)) as [Nn H].
    eapply by_value; [rewrite T; simpl; auto 10|exact Nn| |exact L].
    destruct (H tail N) as [F Hf]. exists (S F). intros [|fuel] Lf; [lia|]. cbn [run production_step].
    unfold parse_value_or_identifier. rewrite peek_cons, T, skip_cons; [apply Hf; lia|].
    destruct tail; [nil_ne|ne].
  - (* O_paren *)
    intros o d ts n c To E IH Tc opt tail r rest N A L. cbn [app]. rewrite <- app_assoc. cbn [app].
    assert (Nn := expr_not_null _ _ _ _ E).
    eapply by_paren; [auto|exact Nn| |exact L].
    destruct (IH c tail) as [F Hf].
    { apply stop_ends. rewrite Tc. simpl. auto 10. }
    { intros _. apply stop_not_starter. rewrite Tc. simpl. auto 10. }
    exists (S F). intros [|fuel] Lf; [lia|]. cbn [run production_step].
    unfold parse_paren_expression_or_tuple. rewrite skip_cons by ne. rewrite Hf by lia. cbn [bind].
    rewrite peek_cons, is_null_false, is_tok_eq, skip_cons by auto. reflexivity.
  - (* O_unit *)
    intros o c To Tc opt tail r rest N A L. cbn [app].
    eapply by_paren; [auto| | |exact L]; [discriminate|].
    destruct (missing_expr c tail) as [F Hf].
    { apply stop_not_starter. rewrite Tc. simpl. auto 10. }
    exists (S F). intros [|fuel] Lf; [lia|]. cbn [run production_step].
    unfold parse_paren_expression_or_tuple. rewrite skip_cons by ne. rewrite Hf by lia. cbn [bind is_null negb andb].
    rewrite pnext_cons, is_tok_eq by auto. reflexivity.
  - (* O_tuple *)
    intros o d ts n cm rs l To E IHe Tm Tr IHt opt tail r rest N A L. cbn [app]. rewrite <- app_assoc. cbn [app].
    assert (Nn := expr_not_null _ _ _ _ E).
    eapply by_paren; [auto| | |exact L]; [discriminate|].
    destruct (IHe cm (rs ++ tail)) as [F Hf].
    { apply stop_ends. rewrite Tm. simpl. auto 10. }
    { intros _. apply stop_not_starter. rewrite Tm. simpl. auto 10. }
    destruct (IHt [n] tail N) as [F2 Hf2].
    exists (S (F + F2)). intros [|fuel] Lf; [lia|]. cbn [run production_step].
    unfold parse_paren_expression_or_tuple. rewrite skip_cons by ne. rewrite Hf by lia. cbn [bind].
    rewrite peek_cons, is_null_false, is_tok_neq by (auto; congruence). cbn [negb andb].
    apply Hf2. lia.
  - (* O_index *)
    intros ts x o rs a c O IHo To Nl Ac IHa Tc opt tail r rest N A L.
    rewrite <- app_assoc. cbn [app]. rewrite <- app_assoc. cbn [app].
    apply IHo; [ne| |].
    + intros ts' id _ _. simpl. congruence.
    + eapply loop_bracket; [auto|auto|ne| |exact L]. apply IHa; auto.
  - (* C_call *)
    intros id o ts args Ti To It IH. exists id, o, ts. split; auto. split; auto. split; auto.
    split; [discriminate|]. intros tail N.
    destruct (IH ltac:(left; simpl; auto) LTuple EExpressionOrAssignment eq_refl tail N) as [H _].
    destruct (H []) as [F Hf]. exists (S F). intros [|fuel] Lf; [lia|]. cbn [run production_step].
    unfold parse_fun_call. rewrite Hf by lia. reflexivity.
  - (* T_end *)
    intros c Tc elems tail N. exists 1. intros [|fuel] Lf; [lia|]. cbn [app run production_step].
    unfold parse_tuple_loop. rewrite pnext_cons, is_tok_eq by auto. rewrite app_nil_r. reflexivity.
  - (* T_comma *)
    intros cm c Tm Tc elems tail N. exists 1. intros [|fuel] Lf; [lia|]. cbn [app run production_step].
    unfold parse_tuple_loop. rewrite pnext_cons by ne. rewrite is_tok_neq by congruence.
    rewrite is_tok_eq by auto. cbn [negb]. rewrite peek_cons, is_tok_eq, skip_cons by auto.
    rewrite app_nil_r. reflexivity.
  - (* T_more *)
    intros cm d ts n rs l Tm E IHe Tr IHt elems tail N.
    assert (Rs : exists x rs', rs = x :: rs' /\ In (tok_type x) [TComma; TCloseParen]).
    { inversion Tr; subst; do 2 eexists; split; try reflexivity; simpl; auto. }
    destruct Rs as [x [rs' [-> Hx]]].
    destruct (IHe x (rs' ++ tail)) as [F Hf].
    { apply stop_ends. simpl in *. intuition. }
    { discriminate. }
    destruct (IHt (elems ++ [n]) tail N) as [F2 Hf2].
    exists (S (F + F2)). intros [|fuel] Lf; [lia|]. cbn [run production_step app].
    unfold parse_tuple_loop. rewrite <- app_assoc. cbn [app]. rewrite pnext_cons by ne.
    rewrite is_tok_neq by congruence. rewrite is_tok_eq by auto. cbn [negb].
    destruct (expr_first _ _ _ _ E) as [t [ts' [-> St]]]. cbn [app] in *. rewrite peek_cons.
    rewrite is_tok_neq.
    2:{ intros X. revert St. apply stop_not_starter. rewrite X. simpl. auto. }
    rewrite Hf by lia. cbn [bind]. rewrite <- app_assoc in Hf2. apply Hf2. lia.
  - (* A_index *)
    intros d ts n E IH c tail N Tc. assert (Nn := expr_not_null _ _ _ _ E).
    destruct (IH c tail) as [F Hf].
    { apply stop_ends. rewrite Tc. simpl. auto 10. }
    { intros _. apply stop_not_starter. rewrite Tc. simpl. auto 10. }
    exists (S F). intros [|fuel] Lf; [lia|]. cbn [run production_step].
    unfold parse_array_or_slice_access. rewrite Hf by lia. cbn [bind].
    rewrite pnext_cons, is_tok_eq, is_null_false by auto. reflexivity.
  - (* A_slice *)
    intros ts a co rs b Ba IHa Tco Bb IHb Nn c tail N Tc. rewrite <- app_assoc. cbn [app].
    destruct (IHa co (rs ++ c :: tail)) as [F Hf]; [left; auto|].
    destruct (IHb c tail) as [F2 Hf2]; [right; auto|].
    exists (S (F + F2)). intros [|fuel] Lf; [lia|]. cbn [run production_step].
    unfold parse_array_or_slice_access. rewrite Hf by lia. cbn [bind].
    rewrite pnext_cons by ne. rewrite is_tok_neq, is_tok_eq by congruence.
    rewrite Hf2 by lia. cbn [bind]. rewrite pnext_cons, is_tok_eq by auto. cbn [negb].
    replace (is_null a && is_null b) with false; auto.
    destruct Nn as [X|X]; apply is_null_false in X; rewrite X; auto. symmetry. apply andb_false_r.
  - (* B_none *)
    intros nx rest S. apply missing_expr. destruct S as [S|S]; apply stop_not_starter; rewrite S; simpl; auto 10.
  - (* B_some *)
    intros d ts n E IH nx rest S. apply IH.
    + apply bound_stop_ends. auto.
    + intros _. destruct S as [S|S]; apply stop_not_starter; rewrite S; simpl; auto 10.
  - (* B_items *)
    intros ty k close ts l It IH -> e Ke Nv. split; [discriminate|]. intros tail N.
    refine (proj2 (IH _ ty e Ke tail N) Nv eq_refl).
    left. destruct ty; simpl; auto.
  - (* B_comprehension *)
    intros ty k close ts n f rs t It IHi Tf Cl IHc -> e Ke Nv. split; [discriminate|]. intros tail N.
    rewrite <- app_assoc. cbn [app].
    destruct (IHi e Ke f (rs ++ tail)) as [F Hf]; [left; unfold list_stop; rewrite Tf; simpl; auto 10|].
    destruct (IHc ltac:(left; destruct ty; simpl; auto) NNull tail N) as [F2 Hf2]; [right; eauto|].
    destruct (item_whole _ _ _ It Nv) as [Nn Nts].
    destruct (item_first _ _ _ It Nts) as [x [r [-> Sx]]].
    exists (S (F + F2)). intros [|fuel] Lf; [lia|]. cbn [run production_step].
    unfold parse_list_or_list_comprehension. cbn [app] in *. rewrite peek_cons.
    rewrite is_tok_neq.
    2:{ intros X. revert Sx. apply stop_not_starter. rewrite X. destruct ty; simpl; auto. }
    rewrite Hf by lia. cbn [bind]. rewrite is_null_false, peek_cons, Tf by auto.
    rewrite Hf2 by lia. reflexivity.
  - (* I_end *)
    intros k close c Tc Cl ty e Ke tail N. cbn [app]. split.
    + intros elems. exists 1. intros [|fuel] Lf; [lia|]. cbn [run production_step].
      unfold parse_list. rewrite peek_cons, is_tok_eq, skip_cons, app_nil_r by auto. reflexivity.
    + intros Nv ->. exists 1. intros [|fuel] Lf; [lia|]. cbn [run production_step].
      unfold parse_list_or_list_comprehension. rewrite peek_cons, is_tok_eq, skip_cons by auto. reflexivity.
  - (* I_last *)
    intros k close ts n c Nts It IH Tc Cl ty e Ke tail N.
    destruct (closer_token _ _ Cl) as [C1 [C2 [C3 C4]]]. destruct (C4 c Tc) as [C5 C6].
    destruct (IH e Ke c tail C6) as [F Hf]. rewrite <- app_assoc. cbn [app].
    destruct (item_first _ _ _ It Nts) as [x [r [-> Sx]]]. cbn [app] in *.
    assert (Nx : tok_type x <> close) by (intros X; destruct (C4 x X); auto).
    assert (R : forall fuel elems, 1 <= fuel ->
      run fuel (PList ty elems e close) (mkP (c :: tail) []) = Ret (NList ty elems, mkP tail [])).
    { intros [|fuel] elems Lf; [lia|]. cbn [run production_step]. unfold parse_list.
      rewrite peek_cons, is_tok_eq, skip_cons by auto. reflexivity. }
    split.
    + intros elems. exists (S (S F)). intros [|fuel] Lf; [lia|]. cbn [run production_step].
      unfold parse_list. rewrite peek_cons, is_tok_neq by auto.
      rewrite Hf by lia. cbn [bind]. rewrite peek_cons, is_tok_neq, is_tok_eq by congruence.
      cbn [negb]. apply R. lia.
    + intros Nv ->. destruct (item_whole _ _ _ It Nv) as [Nn _].
      exists (S (S F)). intros [|fuel] Lf; [lia|]. cbn [run production_step].
      unfold parse_list_or_list_comprehension. rewrite peek_cons, is_tok_neq by auto.
      rewrite Hf by lia. cbn [bind]. rewrite is_null_false, peek_cons by auto.
      rewrite is_tok_eq by auto. specialize (R fuel [n] ltac:(lia)).
      rewrite Tc. destruct (end_token_for ty); try contradiction; exact R.
  - (* I_more *)
    intros k close ts n cm rs l It IHi Tm Rs IHr Cl ty e Ke tail N.
    destruct (closer_token _ _ Cl) as [C1 [C2 [C3 C4]]].
    assert (Sm : item_stop k cm) by (left; unfold list_stop; rewrite Tm; simpl; auto).
    destruct (IHi e Ke cm (rs ++ tail) Sm) as [F Hf]. rewrite <- app_assoc. cbn [app].
    destruct (IHr Cl ty e Ke tail N) as [HL _].
    assert (Nx : tok_type (ppeek (mkP (ts ++ cm :: rs ++ tail) [])) <> close).
    { destruct ts as [|x ts]; [cbn [app]; rewrite peek_cons, Tm; congruence|].
      destruct (item_first _ _ _ It ltac:(discriminate)) as [x' [r [E Sx]]]. injection E as <- <-.
      cbn [app]. rewrite peek_cons. intros X. destruct (C4 x X). auto. }
    assert (Ne : rs ++ tail <> []) by ne.
    split.
    + intros elems. destruct (HL (elems ++ [n])) as [F2 Hf2]. rewrite <- app_assoc in Hf2.
      exists (S (F + F2)). intros [|fuel] Lf; [lia|]. cbn [run production_step].
      unfold parse_list. rewrite is_tok_neq by auto.
      rewrite Hf by lia. cbn [bind]. rewrite peek_cons, is_tok_eq, skip_cons by auto.
      apply Hf2. lia.
    + intros Nv ->. destruct (item_whole _ _ _ It Nv) as [Nn _].
      destruct (HL [n]) as [F2 Hf2].
      exists (S (F + F2)). intros [|fuel] Lf; [lia|]. cbn [run production_step].
      unfold parse_list_or_list_comprehension. rewrite is_tok_neq by auto.
      rewrite Hf by lia. cbn [bind]. rewrite is_null_false, peek_cons, Tm, skip_cons by auto.
      apply Hf2. lia.
  - (* I_expr *)
    intros d ts n E IH e Ke nx rest St. destruct e; try discriminate.
    destruct St as [St|[X _]]; [|discriminate].
    destruct (IH nx rest (list_stop_ends _ _ _ St) ltac:(discriminate)) as [F Hf].
    exists (S F). intros [|fuel] Lf; [lia|]. cbn [run production_step parse_element]. apply Hf. lia.
  - (* I_arg *)
    intros d ts n E IH e Ke nx rest St. destruct e; try discriminate.
    destruct St as [St|[X _]]; [|discriminate].
    destruct (IH nx rest (list_stop_ends _ _ _ St) ltac:(discriminate)) as [F Hf].
    exists (S F). intros [|fuel] Lf; [lia|]. cbn [run production_step parse_element].
    unfold expression_or_assignment. rewrite Hf by lia. cbn [bind].
    rewrite is_null_false by (eapply expr_not_null; eauto).
    destruct n; auto. rewrite peek_cons, is_tok_neq; auto.
    intros X. unfold list_stop in St. rewrite X in St. simpl in St. intuition discriminate.
  - (* I_keyword *)
    intros dl d ts v o a rs r rg E IH Vo Ta Er IHr Sp e Ke nx rest St. destruct e; try discriminate.
    destruct St as [St|[X _]]; [|discriminate]. rewrite <- app_assoc. cbn [app].
    destruct (IH a (rs ++ nx :: rest)) as [F Hf]; [|discriminate|].
    { apply stop_ends. rewrite Ta. simpl. auto 10. }
    destruct (IHr nx rest (list_stop_ends _ _ _ St) ltac:(discriminate)) as [F2 Hf2].
    exists (S (F + F2)). intros [|fuel] Lf; [lia|]. cbn [run production_step parse_element].
    unfold expression_or_assignment. rewrite Hf by lia. cbn [bind is_null].
    rewrite peek_cons, is_tok_eq, skip_cons by (auto; ne).
    unfold parse_node_assign_rhs. rewrite Hf2 by lia. cbn [bind].
    unfold covering, id_token. rewrite Vo. cbn [tok_off tok_text].
    destruct Sp as [Sp1 Sp2]. replace (o <=? _) with true by (symmetry; apply Nat.leb_le; lia).
    cbn [bind]. do 2 f_equal. f_equal. destruct rg as [ro rl]. simpl in *. f_equal; lia.
  - (* I_pair *)
    intros d d' ts k co rs v Ek IHk Tco Ev IHv e Ke nx rest St. destruct e; try discriminate.
    destruct St as [St|[X _]]; [|discriminate]. rewrite <- app_assoc. cbn [app].
    destruct (IHk co (rs ++ nx :: rest)) as [F Hf]; [|discriminate|].
    { apply stop_ends. rewrite Tco. simpl. auto 10. }
    destruct (IHv nx rest (list_stop_ends _ _ _ St) ltac:(discriminate)) as [F2 Hf2].
    exists (S (F + F2)). intros [|fuel] Lf; [lia|]. cbn [run production_step parse_element].
    unfold parse_map_tuple. rewrite Hf by lia. cbn [bind]. rewrite pnext_cons by ne.
    rewrite is_tok_eq by auto. cbn [negb]. rewrite Hf2 by lia. reflexivity.
  - (* I_variable *)
    intros t T e Ke nx rest St. destruct e; try discriminate. exists 1. intros [|fuel] Lf; [lia|].
    cbn [app run production_step parse_element]. unfold parse_optional_identifier.
    rewrite peek_cons, is_tok_eq, skip_cons by (auto; ne). reflexivity.
  - (* I_no_variable *)
    intros e Ke nx rest St. destruct e; try discriminate. exists 1. intros [|fuel] Lf; [lia|].
    cbn [app run production_step parse_element]. unfold parse_optional_identifier.
    rewrite peek_cons, is_tok_neq; auto. intros X. destruct St as [St|[_ St]]; [|congruence].
    unfold list_stop in St. rewrite X in St. simpl in St. intuition discriminate.
  - (* F_end *)
    intros close c n Tc Cl ft tail N H. cbn [app].
    assert (Nf : tok_type c <> TFor).
    { rewrite Tc. destruct Cl as [Cl|[X _]]; [|discriminate]. intros ->. simpl in Cl. intuition discriminate. }
    destruct H as [->|[f [r [X Tf]]]]; [|injection X as -> _; contradiction].
    exists 1. intros [|fuel] Lf; [lia|]. cbn [run production_step].
    unfold parse_comprehension_for. rewrite peek_cons, is_tok_neq by auto.
    rewrite pnext_cons, is_tok_eq by auto. reflexivity.
  - (* F_for *)
    intros close n f vs vars d es e nx rs rg t Tf Va IHv E IHe Gp Cl IHc Hc ft tail N _.
    assert (Sx : list_stop nx).
    { unfold list_stop. inversion Cl; subst.
      - destruct Hc as [Hc|[X _]]; [|discriminate]. simpl in *. intuition.
      - match goal with H : tok_type nx = TFor |- _ => rewrite H end. simpl. auto 10. }
    destruct (IHv (es ++ nx :: rs ++ tail)) as [F1 Hf1]; [ne|].
    destruct (IHe nx (rs ++ tail) (list_stop_ends _ _ _ Sx) ltac:(discriminate)) as [F2 Hf2].
    destruct (IHc Hc _ tail N (or_introl eq_refl)) as [F3 Hf3].
    exists (S (F1 + F2 + F3)). intros [|fuel] Lf; [lia|]. cbn [run production_step app].
    unfold parse_comprehension_for. rewrite peek_cons, is_tok_eq by auto.
    repeat (rewrite <- app_assoc; cbn [app]).
    rewrite pnext_cons by ne. rewrite Hf1 by lia. cbn [bind]. rewrite Hf2 by lia. cbn [bind].
    rewrite peek_cons. unfold between. destruct Gp as [G1 G2].
    replace (_ <=? _) with true by (symmetry; apply Nat.leb_le; lia). cbn [bind].
    replace (mkRange _ _) with rg by (destruct rg; simpl in *; f_equal; lia).
    apply Hf3. lia.
  - (* V_plain *)
    intros ts l o Ho To It IH tail N.
    destruct (IH ltac:(right; auto) LTuple EOptionalIdentifier eq_refl tail N) as [H _].
    destruct (H []) as [F Hf]. exists F. intros fuel Lf. destruct ts as [|x ts]; [discriminate|].
    injection Ho as ->. cbn [app] in *. cbv zeta. rewrite peek_cons, is_tok_neq by auto. apply Hf. auto.
  - (* V_paren *)
    intros o ts l i To It IH Ti tail N.
    destruct (IH ltac:(left; simpl; auto) LTuple EOptionalIdentifier eq_refl (i :: tail) ltac:(discriminate)) as [H _].
    destruct (H []) as [F Hf]. exists F. intros fuel Lf. cbv zeta. cbn [app]. rewrite <- app_assoc. cbn [app].
    rewrite peek_cons, is_tok_eq, skip_cons by (auto; ne). rewrite Hf by lia. cbn [bind app].
    rewrite pnext_cons, is_tok_eq by auto. reflexivity.
Qed.

(** More fuel does not change a result. *)
Lemma mono_bind {A B} (x y : outcome A) (f g : A -> outcome B) b :
  bind x f = Ret b -> (forall a, x = Ret a -> y = Ret a) ->
  (forall a, x = Ret a -> f a = Ret b -> g a = Ret b) -> bind y g = Ret b.
Proof.
  intros H Hx Hf. destruct x as [a| |]; try discriminate. rewrite (Hx a) by auto. simpl in *. auto.
Qed.
Lemma run_mono fuel : forall p ps r fuel', run fuel p ps = Ret r -> fuel <= fuel' -> run fuel' p ps = Ret r.
Proof.
  induction fuel as [|fuel IH]; intros p ps r fuel' H L; [discriminate|].
  destruct fuel' as [|fuel']; [lia|].
  assert (R : forall p ps r, run fuel p ps = Ret r -> run fuel' p ps = Ret r) by (intros; eapply IH; eauto; lia).
  clear IH L. cbn [run] in *. revert H.
  generalize dependent (run fuel'). generalize dependent (run fuel). intros s s' R.
  Ltac mono := match goal with
    | |- bind ?x ?f = Ret ?r -> bind ?y ?g = Ret ?r =>
        let H := fresh in intros H; eapply (mono_bind _ _ _ _ _ H);
          [ clear H; intros ?; mono | clear H; intros ? _; mono ]
    | |- ?x = ?r -> ?x = ?r => exact (fun h => h)
    | R : (forall p ps r, ?s p ps = Ret r -> ?s' p ps = Ret r) |- ?s _ _ = _ -> ?s' _ _ = _ => apply R
    | |- context [let '(_, _) := ?x in _] => is_var x; destruct x; mono
    | |- context [let '(_, _) := pnext ?x in _] => rewrite (pnext_eq x); mono
    | |- context [if ?c then _ else _] => destruct c; mono
    | |- context [match ?x with NNull => _ | _ => _ end] => destruct x; mono
    | |- context [match tok_type ?x with TIf => _ | _ => _ end] => destruct (tok_type x); mono
    | |- context [match ?e with EExpression => _ | _ => _ end] => destruct e; mono
    end.
  destruct p; cbn [production_step];
  [ unfold parse_expression | unfold parse_expression_loop | unfold parse_value_or_identifier
  | unfold parse_paren_expression_or_tuple | unfold parse_tuple_loop | unfold parse_array_or_slice_access
  | unfold parse_if_else | unfold parse_element, expression_or_assignment, parse_node_assign_rhs, parse_map_tuple
  | unfold parse_list | unfold parse_list_or_list_comprehension | unfold parse_comprehension_for
  | unfold parse_fun_call ]; mono.
Qed.

Lemma toplevel_mono fuel fuel' ps r : fuel <= fuel' ->
  parse_toplevel fuel ps = Ret r -> parse_toplevel fuel' ps = Ret r.
Proof.
  intros L. assert (R : forall p ps r, run fuel p ps = Ret r -> run fuel' p ps = Ret r)
    by (intros; eapply run_mono; eauto).
  unfold parse_toplevel, parse_node_assign_rhs. rewrite !pnext_eq.
  generalize dependent (run fuel'). generalize dependent (run fuel). intros s s' R.
  set (q := skip ps). clearbody q. set (t := ppeek ps). clearbody t. clear ps.
  destruct (tok_type t); mono.
Qed.
Lemma parse_loop_mono fuel fuel' (L : fuel <= fuel') rounds : forall rounds' stmts ps r,
  rounds <= rounds' ->
  parse_loop rounds fuel stmts ps = Ret r -> parse_loop rounds' fuel' stmts ps = Ret r.
Proof.
  induction rounds as [|rounds IH]; intros rounds' stmts ps r Lr H; [discriminate|].
  destruct rounds' as [|rounds']; [lia|]. cbn [parse_loop] in *.
  destruct (p_errs ps); auto.
  destruct (parse_toplevel fuel ps) as [[t q]| |] eqn:T; try discriminate.
  rewrite (toplevel_mono _ _ _ _ L T). cbn [bind] in *.
  destruct t; auto; apply IH; auto; lia.
Qed.

Lemma closed_complete ts n tail : closed_statement ts n -> tail <> [] ->
  exists F, forall fuel, F <= fuel ->
    parse_toplevel fuel (mkP (ts ++ tail) []) = Ret (TopStatement n, mkP tail []).
Proof.
  intros H N. inversion H as [? ? C|o ts' ? To B]; subst.
  - apply grammar_complete in C as [id [o [ts' [-> [Ti [To [_ R]]]]]]].
    destruct (R tail N) as [F Hf]. exists F. intros fuel L. unfold parse_toplevel. cbn [app].
    rewrite pnext_cons, Ti by ne. rewrite pnext_cons, To by ne. rewrite Hf by auto. reflexivity.
  - apply grammar_complete with (e := EExpression) in B; auto; [|discriminate].
    destruct B as [_ R]. destruct (R tail N) as [F Hf].
    exists F. intros fuel L. unfold parse_toplevel. cbn [app].
    rewrite pnext_cons, To by ne. rewrite Hf by auto. reflexivity.
Qed.
Lemma covering_spans id a rg : spans (tok_off id) a rg -> covering id a = Ret rg.
Proof.
  intros [H1 H2]. unfold covering. replace (_ <=? _) with true by (symmetry; apply Nat.leb_le; lia).
  destruct rg; simpl in *. do 2 f_equal; lia.
Qed.
Lemma open_complete d ts n nx rest : open_statement d ts n -> ends_expr d ts nx ->
  exists F, forall fuel, F <= fuel ->
    parse_toplevel fuel (mkP (ts ++ nx :: rest) []) = Ret (TopStatement n, mkP (nx :: rest) []).
Proof.
  intros H E. inversion H as [? id a rs r rg Ti Ta Er Sp|? o vs vars a rs r rg To It Ta Er Sp|? id dt rs r Ti Td Er];
    subst.
  - destruct (proj1 grammar_complete _ _ _ _ Er nx rest (ends_expr_tail d [id; a] rs nx E)
      ltac:(discriminate)) as [F Hf].
    exists F. intros fuel L. unfold parse_toplevel. cbn [app].
    rewrite pnext_cons, Ti by ne. rewrite pnext_cons, Ta by ne.
    unfold parse_node_assign_rhs. rewrite Hf by auto. cbn [bind]. rewrite (covering_spans _ _ _ Sp). reflexivity.
  - assert (E' : ends_expr d rs nx).
    { apply (ends_expr_tail d ((o :: vs) ++ [a])). rewrite <- app_assoc. exact E. }
    destruct (proj1 grammar_complete _ _ _ _ Er nx rest E' ltac:(discriminate)) as [F Hf].
    apply grammar_complete with (ty := LTuple) (e := EOptionalIdentifier) (tail := a :: rs ++ nx :: rest) in It;
      auto; [|left; simpl; auto|discriminate].
    destruct It as [R _]. destruct (R []) as [F2 Hf2].
    exists (F + F2). intros fuel L. unfold parse_toplevel. cbn [app].
    rewrite <- app_assoc. cbn [app].
    rewrite pnext_cons, To by ne. rewrite Hf2 by lia. cbn [bind app]. rewrite pnext_cons, is_tok_eq by (auto; ne).
    cbn [negb]. unfold parse_node_assign_rhs. rewrite Hf by lia. cbn [bind].
    rewrite (covering_spans _ _ _ Sp). reflexivity.
  - destruct (proj1 grammar_complete _ _ _ _ Er nx rest (ends_expr_tail d [id; dt] rs nx E)
      ltac:(discriminate)) as [F Hf].
    exists F. intros fuel L. unfold parse_toplevel. cbn [app].
    rewrite pnext_cons, Ti by ne. rewrite pnext_cons, Td by ne. rewrite Hf by auto. reflexivity.
Qed.

Lemma program_nonempty ts l : program ts l -> ts <> [].
Proof. induction 1; try discriminate; ne. Qed.

Lemma program_complete ts l : program ts l -> exists F R e, forall fuel rounds stmts,
  F <= fuel -> R <= rounds ->
  parse_loop rounds fuel stmts (mkP ts []) = Ret (stmts ++ l, mkP [e] []).
Proof.
  induction 1 as [e Te|t ts l Tt P IH|ts n rs l S P IH|d ts n nx rs l S E P IH].
  - exists 0, 1, e. intros fuel [|rounds] stmts _ L; [lia|]. cbn [parse_loop p_errs].
    unfold parse_toplevel. cbn. rewrite Te. cbn. rewrite app_nil_r. auto.
  - destruct IH as [F [R [e IH]]]. exists F, (S R), e. intros fuel [|rounds] stmts L1 L2; [lia|].
    cbn [parse_loop p_errs]. unfold parse_toplevel. rewrite pnext_cons, Tt by (eapply program_nonempty; eauto).
    cbn [bind]. apply IH; lia.
  - destruct IH as [F [R [e IH]]].
    destruct (closed_complete ts n rs S (program_nonempty _ _ P)) as [F2 Hf].
    exists (F + F2), (Datatypes.S R), e. intros fuel [|rounds] stmts L1 L2; [lia|].
    cbn [parse_loop p_errs]. rewrite Hf by lia. cbn [bind]. rewrite IH by lia. rewrite <- app_assoc. reflexivity.
  - destruct IH as [F [R [e IH]]].
    destruct (open_complete d ts n nx rs S E) as [F2 Hf].
    exists (F + F2), (Datatypes.S R), e. intros fuel [|rounds] stmts L1 L2; [lia|].
    cbn [parse_loop p_errs]. rewrite Hf by lia. cbn [bind]. rewrite IH by lia. rewrite <- app_assoc. reflexivity.
Qed.

Theorem parse_complete content stmts :
  program (all_tokens content) stmts -> parse content = Ret (stmts, []).
Proof.
  intros P. destruct (program_complete _ _ P) as [F [R [e H]]].
  destruct (parse_to_end content) as [stmts' [ps [H1 [H2 _]]]].
  assert (H3 := parse_loop_mono _ _ (Nat.le_max_r F _) _ (max R (2 * length (all_tokens content) + 2)) _ _ _
    (Nat.le_max_r _ _) H1).
  rewrite H in H3 by (try apply Nat.le_max_l; lia). rewrite H2.
  injection H3 as <- <-. reflexivity.
Qed.

Theorem parse_grammar content stmts :
  parse content = Ret (stmts, []) <-> program (all_tokens content) stmts.
Proof. split; [apply parse_sound|apply parse_complete]. Qed.
Theorem program_unique content l1 l2 :
  program (all_tokens content) l1 -> program (all_tokens content) l2 -> l1 = l2.
Proof. intros H1 H2. apply parse_complete in H1, H2. congruence. Qed.
