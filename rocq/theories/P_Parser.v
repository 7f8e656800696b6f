(** Proofs about the parser. *)
From Verif Require Import Base M_Scanner S_Scanner P_Scanner M_Ast M_Parser S_Parser.

(** ** The token list *)
Lemma toktype_beq_true a b : toktype_beq a b = true <-> a = b.
Proof. split; [apply internal_toktype_dec_bl|apply internal_toktype_dec_lb]. Qed.
Lemma toktype_beq_refl a : toktype_beq a a = true.
Proof. apply toktype_beq_true. auto. Qed.
Lemma toktype_beq_false a b : toktype_beq a b = false <-> a <> b.
Proof. rewrite <- toktype_beq_true. destruct (toktype_beq a b); split; congruence. Qed.
Lemma is_tok_true t ty : is_tok t ty = true <-> tok_type t = ty.
Proof. apply toktype_beq_true. Qed.
Lemma is_tok_false t ty : is_tok t ty = false <-> tok_type t <> ty.
Proof. apply toktype_beq_false. Qed.

(** A token list as the parser needs it. *)
Definition good_token (content : str) (t : token) : Prop :=
  tok_off t + length (tok_text t) <= length content /\
  firstn (length (tok_text t)) (skipn (tok_off t) content) = tok_text t /\
  (tok_type t = TStringLiteral -> string_from_literal (tok_text t) <> None) /\
  (forall text, op_text (tok_type t) = Some text -> tok_text t = text).
Inductive wf_toks (content : str) : list token -> Prop :=
| wf_eof e : tok_type e = TEof -> good_token content e -> wf_toks content [e]
| wf_more t l : tok_type t <> TEof -> good_token content t ->
    tok_off t + length (tok_text t) <= tok_off (hd eof_token l) ->
    wf_toks content l -> wf_toks content (t :: l).

Lemma string_token_value content n :
  tok_type (token_at content n) = TStringLiteral ->
  string_from_literal (tok_text (token_at content n)) <> None.
Proof.
  intros H. apply string_token_shape in H as [raw [q [triple [body [E [Hr [Hq [Hb _]]]]]]]].
  rewrite E. destruct triple; [destruct Hq as [-> | ->]|].
  - rewrite from_literal_shape; auto; try discriminate. intros [_ X]. discriminate.
  - unfold string_literal, string_from_literal.
    destruct Hr as [->|[->| ->]]; cbn [app];
      match goal with |- context [skipn ?a ?b] => set (l := skipn a b) end;
      match goal with |- context [if ?c then _ else _] => destruct c end; try discriminate;
      replace (2 <=? length l) with true; try discriminate; symmetry; apply Nat.leb_le;
      unfold l; cbn [skipn length]; rewrite ?app_length; simpl; lia.
  - rewrite from_literal_shape; auto; try discriminate.
    + intros T. apply Hb. auto.
    + intros [X _]. discriminate.
Qed.

Lemma scan_op_text s pos ty k p text : scan_token s pos = (ty, k, p) -> op_text ty = Some text -> firstn k s = text.
Proof.
  assert (St : forall s pos ty k p, handle_string s pos = (ty, k, p) -> op_text ty = None).
  { clear. intros s pos ty k p. unfold handle_string.
    repeat match goal with
    | |- context [let '(_, _) := ?x in _] => destruct x
    | |- context [match ?x with _ => _ end] => destruct x
    end; intros E; injection E as <- _ _; reflexivity. }
  assert (Re : forall c s a b ty k p text, handle_relational a b (c :: s) = (ty, k, p) -> op_text ty = Some text ->
    (op_text a = Some text -> [c] = text) -> (op_text b = Some text -> [c; "="%char] = text) -> firstn k (c :: s) = text).
  { clear. intros c s a b ty k p text. unfold handle_relational. destruct s as [|d s].
    - intros E H A B. injection E as <- <- <-. cbn. auto.
    - destruct (ceqb d "=") eqn:D; intros E H A B; injection E as <- <- <-; cbn [firstn]; auto.
      apply ceqb_eq in D. subst d. auto. }
  intros E H. unfold scan_token in E. destruct s as [|c s]; [injection E as <- _ _; discriminate|].
  repeat match type of E with
  | (if ceqb c ?x then _ else _) = _ => let D := fresh "D" in destruct (ceqb c x) eqn:D;
      [apply ceqb_eq in D; subst c; first
        [injection E as <- <- _; cbn in H; first [discriminate H|injection H as <-; reflexivity]
        |apply (Re _ _ _ _ _ _ _ text) in E; auto; cbn; intros X; first [discriminate X|injection X as <-; reflexivity]]|]
  end.
  destruct (is_digit c).
  { unfold handle_number in E. repeat match type of E with
    | context [let '(_, _) := ?x in _] => destruct x
    end. injection E as <- _ _. match type of H with context [if ?b then _ else _] => destruct b end; discriminate. }
  destruct (ceqb c DQ || ceqb c SQ); [apply St in E; congruence|].
  unfold handle_identifier in E. destruct (_ && _ && _); [apply St in E; congruence|].
  destruct (negb _); [injection E as <- _ _; discriminate|].
  cbv zeta in E.
  repeat match type of E with
  | (if str_eqb ?x ?y then _ else _) = _ => let D := fresh "D" in destruct (str_eqb x y) eqn:D; [apply str_eqb_eq in D|]
  end; try (destruct (consume_optional_in _)); injection E as <- <- _; try discriminate H; cbn in H; injection H as <-; assumption.
Qed.
Lemma token_op_text content n text : op_text (tok_type (token_at content n)) = Some text -> tok_text (token_at content n) = text.
Proof.
  assert (U : sc_upcoming (after_next n (scanner_init content)) = None) by (apply after_next_upcoming; auto).
  unfold token_at, next. rewrite U. destruct (skip_space _ _ false) as [m p].
  destruct (skipn m _) as [|c r]; [discriminate|].
  destruct (scan_token (c :: r) _) as [[ty k] p2] eqn:Tk. cbn [fst tok_type tok_text]. eapply scan_op_text; eauto.
Qed.
Lemma good_token_at content n : good_token content (token_at content n).
Proof.
  destruct (token_text_located content n) as [H1 H2]. split; auto. split; auto. split.
  - apply string_token_value.
  - apply token_op_text.
Qed.

Lemma tokens_from_S fuel sc :
  tokens_from (S fuel) sc =
  let '(t, sc') := next sc in
  if toktype_beq (tok_type t) TEof then [t] else t :: tokens_from fuel sc'.
Proof. reflexivity. Qed.

Lemma tokens_from_hd content fuel i :
  hd eof_token (tokens_from (S fuel) (after_next i (scanner_init content))) = token_at content i.
Proof.
  rewrite tokens_from_S. unfold token_at.
  destruct (next (after_next i (scanner_init content))) as [t sc']. simpl.
  destruct (toktype_beq (tok_type t) TEof); reflexivity.
Qed.

Lemma next_off_le content i :
  tok_off (token_at content i) + length (tok_text (token_at content i))
  <= tok_off (token_at content (S i)).
Proof.
  assert (H := token_before content i (S i) ltac:(lia)).
  unfold token_at at 3. destruct (next (after_next (S i) (scanner_init content))) as [t sc'] eqn:N.
  apply (next_at_content content) in N.
  - simpl. lia.
  - apply after_next_at_content.
  - apply after_next_upcoming; auto.
Qed.

Lemma tokens_from_wf content fuel : forall i,
  length content <= i + fuel ->
  wf_toks content (tokens_from (S fuel) (after_next i (scanner_init content))).
Proof.
  induction fuel as [|fuel IH]; intros i L.
  - rewrite tokens_from_S. assert (E := eof_reached content i ltac:(lia)).
    assert (G := good_token_at content i). unfold token_at in *.
    destruct (next (after_next i (scanner_init content))) as [t sc']. simpl in *.
    rewrite (proj2 (toktype_beq_true _ _) E). constructor; auto.
  - rewrite tokens_from_S. assert (G := good_token_at content i).
    assert (O := next_off_le content i).
    assert (IH' := IH (S i) ltac:(lia)). assert (Hh := tokens_from_hd content fuel (S i)).
    replace (S i) with (i + 1) in IH', Hh by lia. rewrite after_next_plus in IH', Hh.
    replace (i + 1) with (S i) in Hh by lia. rewrite <- Hh in O.
    unfold token_at in G, O.
    cbn [after_next] in *.
    destruct (next (after_next i (scanner_init content))) as [t sc']. cbn [fst snd] in *.
    destruct (toktype_beq (tok_type t) TEof) eqn:E.
    + apply toktype_beq_true in E. constructor; auto.
    + apply toktype_beq_false in E. constructor; auto.
Qed.

Theorem all_tokens_wf content : wf_toks content (all_tokens content).
Proof. apply (tokens_from_wf content (length content) 0). lia. Qed.

(** The list stands for the scanner. *)
Lemma list_calls_from content cs : forall fuel i,
  length content <= i + fuel ->
  list_calls cs (tokens_from (S fuel) (after_next i (scanner_init content)))
  = expected_calls cs (token_at content) i.
Proof.
  induction cs as [|c cs IH]; intros fuel i L; [reflexivity|].
  cbn [expected_calls].
  assert (T : exists ts, tokens_from (S fuel) (after_next i (scanner_init content))
                         = token_at content i :: ts /\
     (tok_type (token_at content i) = TEof -> ts = []) /\
     (tok_type (token_at content i) <> TEof ->
        ts = tokens_from fuel (after_next (S i) (scanner_init content)))).
  { rewrite tokens_from_S. replace (S i) with (i + 1) by lia. rewrite after_next_plus.
    cbn [after_next]. unfold token_at.
    destruct (next (after_next i (scanner_init content))) as [t sc']. cbn [fst snd].
    destruct (toktype_beq (tok_type t) TEof) eqn:E.
    - apply toktype_beq_true in E. eexists. split; [reflexivity|]. split; auto. contradiction.
    - apply toktype_beq_false in E. eexists. split; [reflexivity|]. split; auto. contradiction. }
  destruct T as [ts [E [T1 T2]]]. destruct c.
  - rewrite E. destruct (toktype_eq_dec (tok_type (token_at content i)) TEof) as [Eo|No].
    + rewrite (T1 Eo) in *. cbn [list_calls]. f_equal. rewrite <- E. rewrite IH by auto.
      assert (St : forall j, i <= j -> token_at content j = token_at content i).
      { intros j Hj. assert (Tj := eof_stays _ _ _ Eo Hj).
        clear -Eo Tj Hj. 
        assert (F : forall k, tok_type (token_at content k) = TEof ->
                   token_at content k = mkToken TEof (length content) [] false).
        { intros k Hk. unfold token_at in *.
          destruct (next (after_next k (scanner_init content))) as [t sc'] eqn:N. simpl in *.
          destruct (after_next_at_content content k) as [A1 A2].
          apply next_spec in N as [_ [[-> _]|[g [_ [_ [_ [X _]]]]]]]; try contradiction.
          - rewrite A2, skipn_length. f_equal. lia.
          - apply after_next_upcoming; auto. }
        rewrite F, F; auto. }
      clear -St. assert (G : forall cs a b, i <= a -> i <= b ->
         expected_calls cs (token_at content) a = expected_calls cs (token_at content) b).
      { intros cs0. induction cs0 as [|[] cs0 IH]; intros a b Ha Hb; simpl; auto;
          rewrite (St a), (St b) by auto; f_equal; apply IH; lia. }
      apply G; lia.
    + rewrite (T2 No) in *. destruct fuel as [|fuel].
      { exfalso. apply No. apply eof_reached. lia. }
      assert (W := tokens_from_wf content fuel (S i) ltac:(lia)).
      remember (tokens_from (S fuel) (after_next (S i) (scanner_init content))) as ts' eqn:Ets.
      destruct ts' as [|t' ts']; [inversion W|].
      cbn [list_calls]. f_equal. rewrite Ets. apply IH. lia.
  - rewrite E. cbn [list_calls]. f_equal. rewrite <- E. apply IH. auto.
Qed.
Theorem token_list_is_scanner content cs :
  list_calls cs (all_tokens content) = run_calls cs (scanner_init content).
Proof.
  rewrite mixed_calls. apply (list_calls_from content cs (length content) 0). lia.
Qed.

(** ** Parser state *)
Lemma pnext_eq ps : pnext ps = (ppeek ps, skip ps).
Proof. unfold pnext, ppeek, skip, pnext. destruct (p_toks ps) as [|t [|u l]]; reflexivity. Qed.

Definition extends (ps ps' : pstate) : Prop :=
  (exists l, p_toks ps = l ++ p_toks ps') /\ (exists e, p_errs ps' = e ++ p_errs ps).
Lemma extends_refl ps : extends ps ps.
Proof. split; [exists []|exists []]; auto. Qed.
Lemma extends_trans a b c : extends a b -> extends b c -> extends a c.
Proof.
  intros [[l1 H1] [e1 H2]] [[l2 H3] [e2 H4]]. split.
  - exists (l1 ++ l2). rewrite H1, H3, app_assoc. auto.
  - exists (e2 ++ e1). rewrite H4, H2, app_assoc. auto.
Qed.
Lemma extends_skip ps : extends ps (skip ps).
Proof.
  unfold skip, pnext. destruct (p_toks ps) as [|t [|u l]] eqn:E; simpl; try apply extends_refl.
  split; simpl; [exists [t]; rewrite E; auto|exists []; auto].
Qed.
Lemma extends_err t why ps : extends ps (perr t why ps).
Proof. split; simpl; [exists []; auto|exists [mkComplaint t why]; auto]. Qed.
#[global] Hint Resolve extends_refl extends_skip extends_err : parse.

Lemma extends_no_errs a b : extends a b -> p_errs b = [] -> p_errs a = [].
Proof. intros [_ [e E]] H. rewrite E in H. apply app_eq_nil in H. tauto. Qed.

Lemma errs_skip ps : p_errs (skip ps) = p_errs ps.
Proof. unfold skip, pnext. destruct (p_toks ps) as [|t [|u l]]; reflexivity. Qed.

(** ** Termination and absence of undefined behaviour *)
Definition wp {A} (x : outcome A) (Q : A -> Prop) : Prop :=
  match x with Ret a => Q a | _ => False end.
Lemma wp_bind {A B} (x : outcome A) (f : A -> outcome B) Q :
  wp x (fun a => wp (f a) Q) -> wp (bind x f) Q.
Proof. destruct x; simpl; auto. Qed.
Lemma wp_mono {A} (x : outcome A) (P Q : A -> Prop) :
  wp x P -> (forall a, P a -> Q a) -> wp x Q.
Proof. destruct x; simpl; auto. Qed.

Lemma wf_suffix content l toks : wf_toks content (l ++ toks) -> toks <> [] -> wf_toks content toks.
Proof.
  induction l as [|t l IH]; simpl; auto. intros H N. inversion H; subst; auto.
  destruct l; [simpl in *; congruence|discriminate].
Qed.
Lemma wf_suffix_off content l toks : wf_toks content (l ++ toks) -> toks <> [] ->
  tok_off (hd eof_token (l ++ toks)) <= tok_off (hd eof_token toks).
Proof.
  induction l as [|t l IH]; simpl; auto. intros H N. inversion H; subst.
  - destruct l; [simpl in *; congruence|discriminate].
  - specialize (IH H5 N). lia.
Qed.
Lemma wf_nonempty content toks : wf_toks content toks -> toks <> [].
Proof. inversion 1; discriminate. Qed.

Lemma skip_wf content ps : wf_toks content (p_toks ps) -> wf_toks content (p_toks (skip ps)).
Proof.
  unfold skip, pnext. destruct (p_toks ps) as [|t [|u l]] eqn:E; simpl; rewrite ?E; auto.
  intros H. inversion H; auto.
Qed.
Definition remaining (ps : pstate) : nat := length (p_toks ps).
Lemma skip_shrinks content ps :
  wf_toks content (p_toks ps) -> tok_type (ppeek ps) <> TEof -> remaining (skip ps) < remaining ps.
Proof.
  unfold skip, pnext, ppeek, remaining. destruct (p_toks ps) as [|t [|u l]] eqn:E; simpl; rewrite ?E.
  - intros H. inversion H.
  - intros H N. inversion H; subst; try congruence. inversion H5.
  - intros _ _. simpl. lia.
Qed.
Lemma skip_le ps : remaining (skip ps) <= remaining ps.
Proof.
  unfold skip, pnext, remaining. destruct (p_toks ps) as [|t [|u l]] eqn:E; simpl; rewrite ?E; simpl; lia.
Qed.
Lemma skip_off content ps : wf_toks content (p_toks ps) ->
  tok_off (ppeek ps) + length (tok_text (ppeek ps)) <= tok_off (ppeek (skip ps)) \/
  tok_type (ppeek ps) = TEof.
Proof.
  unfold skip, pnext, ppeek. destruct (p_toks ps) as [|t [|u l]] eqn:E; simpl; rewrite ?E; intros H.
  - inversion H.
  - inversion H as [e He|t' l' Ht Gt Ho Hl]; subst; [right; auto|inversion Hl].
  - inversion H as [|t' l' Ht Gt Ho Hl]; subst. left. auto.
Qed.
Lemma extends_remaining a b : extends a b -> remaining b <= remaining a.
Proof. intros [[l E] _]. unfold remaining. rewrite E, app_length. lia. Qed.
Lemma extends_same a b : extends a b -> remaining b = remaining a -> p_toks b = p_toks a.
Proof.
  unfold remaining. intros [[l E] _] H. rewrite E, app_length in H.
  destruct l; [auto|simpl in H; lia].
Qed.
Lemma extends_off content a b : wf_toks content (p_toks a) -> extends a b ->
  p_toks b <> [] -> tok_off (ppeek a) <= tok_off (ppeek b).
Proof. intros W [[l E] _] N. unfold ppeek. rewrite E in *. apply (wf_suffix_off content); auto. Qed.

Definition rank (p : production) : nat :=
  match p with
  | PIfElse _ | PTupleLoop _ | PComprehensionFor _ _ _ => 0
  | PExpressionLoop _ | PValueOrIdentifier _ | PParenExpressionOrTuple => 1
  | PExpression _ => 2
  | PArrayOrSliceAccess | PElement _ => 3
  | PList _ _ _ _ => 4
  | PListOrListComprehension _ _ | PFunCall _ => 5
  end.
Definition measure (p : production) (ps : pstate) : nat := 6 * remaining ps + rank p.

(** Where the result is an identifier, it ends before the next token. *)
Definition id_before (n : node) (ps : pstate) : Prop :=
  match n with
  | NId v => exists off, v_org v = InFile off /\ off + length (v_text v) <= tok_off (ppeek ps)
  | _ => True
  end.
Definition pre_total (p : production) (ps : pstate) : Prop :=
  match p with
  | PExpressionLoop n => id_before n ps
  | PParenExpressionOrTuple => tok_type (ppeek ps) = TOpenParen
  | PIfElse _ => tok_type (ppeek ps) = TIf
  | PList _ _ _ end_tok => end_tok <> TEof
  | PComprehensionFor _ t _ => forall q, id_before t q
  | _ => True
  end.

Section Total.
Variable content : str.
Notation ok := (fun ps => wf_toks content (p_toks ps)).
Definition post_total (ps : pstate) (r : node * pstate) : Prop :=
  ok (snd r) /\ extends ps (snd r) /\ id_before (fst r) (snd r).

Lemma id_before_mono n a b : ok a -> ok b -> extends a b -> id_before n a -> id_before n b.
Proof.
  intros Wa Wb E. destruct n; simpl; auto. intros [off [H1 H2]]. exists off. split; auto.
  assert (H := extends_off content a b Wa E (wf_nonempty _ _ Wb)). lia.
Qed.

Ltac extend := cbn [fst snd]; repeat first
  [ apply extends_refl
  | match goal with
    | H : extends ?x ?y |- extends ?z ?y => apply extends_trans with x; [clear H|exact H]
    | |- extends ?x (skip ?y) => apply extends_trans with y; [|apply extends_skip]
    | |- extends ?x (perr ?t _ ?y) => apply extends_trans with y; [|apply extends_err]
    | |- extends ?x (if ?c then _ else _) => destruct c
    end ].
Ltac fin := cbn [bind]; unfold wp, post_total; cbn [fst snd].
Ltac done3 := solve [fin; split; [auto using skip_wf | split; [extend | simpl; auto]]].
Ltac measures :=
  unfold measure; cbn [rank];
  repeat match goal with
  | H : extends ?a ?b |- _ => apply extends_remaining in H
  end;
  repeat match goal with
  | |- context [remaining (skip ?p)] =>
      lazymatch goal with
      | _ : remaining (skip p) <= remaining p |- _ => fail
      | _ => pose proof (skip_le p)
      end
  end.

Lemma total fuel : forall p ps,
  ok ps -> pre_total p ps -> measure p ps < fuel ->
  wp (run fuel p ps) (post_total ps).
Proof.
  induction fuel as [|fuel IH]; intros p ps W Pre M; [lia|].
  assert (Call : forall p ps' (Q : node * pstate -> Prop),
    ok ps' -> pre_total p ps' -> measure p ps' < fuel ->
    (forall n q, ok q -> extends ps' q -> id_before n q -> Q (n, q)) ->
    wp (run fuel p ps') Q).
  { intros p' ps' Q H1 H2 H3 H4. apply wp_mono with (post_total ps'); auto.
    intros [n q] [A [B C]]. apply H4; auto. }
  assert (Shrink : forall ps0, ok ps0 -> tok_type (ppeek ps0) <> TEof ->
             remaining (skip ps0) < remaining ps0) by (apply skip_shrinks).
  unfold measure in M. cbn [run production_step].
  destruct p; cbn [rank pre_total production_step] in *.
  - (* Expression *)
    unfold parse_expression. apply wp_bind.
    apply wp_mono with (fun r => ok (snd r) /\ extends ps (snd r) /\ id_before (fst r) (snd r)).
    + assert (Un : tok_type (ppeek ps) = TMinus \/ tok_type (ppeek ps) = TNot ->
         wp (do (n, ps0) <- run fuel (PExpression can_be_optional) (skip ps);
             Ret (NUnary (tok_type (ppeek ps)) n, ps0))
           (fun r => ok (snd r) /\ extends ps (snd r) /\ id_before (fst r) (snd r))).
      { intros T. apply wp_bind. apply Call; simpl; auto using skip_wf.
        - specialize (Shrink ps W). assert (tok_type (ppeek ps) <> TEof) by (destruct T; congruence).
          unfold measure; simpl. specialize (Shrink H). lia.
        - intros n q A B C. split; auto. split; [extend|simpl; auto]. }
      assert (Va : wp (run fuel (PValueOrIdentifier can_be_optional) ps)
           (fun r => ok (snd r) /\ extends ps (snd r) /\ id_before (fst r) (snd r))).
      { apply Call; simpl; auto. unfold measure; simpl; lia. }
      destruct (tok_type (ppeek ps)) eqn:T; auto.
      apply Call; simpl; auto. unfold measure; simpl; lia.
    + intros [n q] [A [B C]]. simpl in *. destruct (is_null n) eqn:N.
      * simpl. split; auto.
      * apply Call; auto.
        -- measures. lia.
        -- intros n' q' A' B' C'. split; auto. split; auto. extend.
  - (* ExpressionLoop *)
    unfold parse_expression_loop. destruct (is_tok (ppeek ps) TIf) eqn:If.
    { apply is_tok_true in If. apply Call; simpl; auto; [unfold measure; simpl; lia|].
      intros. split; auto. }
    destruct (is_binary_operator (tok_type (ppeek ps))) eqn:Bin.
    { assert (tok_type (ppeek ps) <> TEof) by (intros X; rewrite X in Bin; discriminate).
      apply wp_bind. apply Call; simpl; auto using skip_wf.
      - specialize (Shrink ps W H). unfold measure; simpl; lia.
      - intros n' q A B C. split; auto. split; [extend|simpl; auto]. }
    destruct (is_tok (ppeek ps) TOpenSquare) eqn:Sq.
    2:{ simpl. split; auto. split; auto using extends_refl. }
    apply is_tok_true in Sq. destruct (tok_newline (ppeek ps)).
    { simpl. split; auto. split; auto using extends_refl. }
    specialize (Shrink ps W ltac:(congruence)).
    apply wp_bind. apply Call; simpl; auto using skip_wf; [unfold measure; simpl; lia|].
    intros acc q A B C. apply Call; simpl; auto.
    + measures. lia.
    + intros n' q' A' B' C'. split; auto. split; auto. extend.
  - (* ValueOrIdentifier *)
    unfold parse_value_or_identifier.
    assert (Def : wp (Ret (NNull, if can_be_optional then ps else perr (ppeek ps) RValue ps)) (post_total ps)).
    { fin. split; [destruct can_be_optional; auto|]. split; [extend|simpl; auto]. }
    destruct (tok_type (ppeek ps)) eqn:T; auto.
    + specialize (Shrink ps W ltac:(congruence)).
      apply Call; simpl; auto using skip_wf; [unfold measure; simpl; lia|].
      intros n q A B C. split; auto. split; auto. extend.
    + specialize (Shrink ps W ltac:(congruence)).
      apply Call; simpl; auto using skip_wf; [unfold measure; simpl; lia|].
      intros n q A B C. split; auto. split; auto. extend.
    + specialize (Shrink ps W ltac:(congruence)).
      assert (Off := skip_off content ps W).
      destruct (is_tok (ppeek (skip ps)) TOpenParen) eqn:P.
      * apply Call; simpl; auto using skip_wf.
        { measures. lia. }
        intros n q A B C. split; auto. split; auto. extend.
      * fin. split; [auto using skip_wf|]. split; [apply extends_skip|].
        simpl. eexists. split; [reflexivity|]. destruct Off; [auto|congruence].
    + unfold string_node. destruct (string_from_literal (tok_text (ppeek ps))) as [[[[k v] tr] ra]|] eqn:S.
      * fin. split; [auto using skip_wf|]. split; simpl; auto using extends_skip.
      * exfalso. unfold ppeek in *. destruct (p_toks ps) as [|t l] eqn:E; [inversion W|].
        simpl in *. inversion W as [e He Ge|t' l' Ht Gt]; subst; [congruence|].
        destruct Gt as [_ [_ G]]. apply G; auto.
    + unfold parse_int_from_token. destruct (int_from_literal (tok_text (ppeek ps))).
      * fin. split; [auto using skip_wf|]. split; simpl; auto using extends_skip.
      * fin. split; [apply skip_wf; auto|]. split; simpl; auto. extend.
  - (* Paren *)
    unfold parse_paren_expression_or_tuple. specialize (Shrink ps W ltac:(congruence)).
    apply wp_bind. apply Call; simpl; auto using skip_wf; [unfold measure; simpl; lia|].
    intros exp q A B C. rewrite pnext_eq.
    destruct (negb (is_null exp) && is_tok (ppeek q) TCloseParen) eqn:D.
    { fin. split; [auto using skip_wf|]. split; [extend|].
      apply id_before_mono with q; auto using skip_wf, extends_skip. }
    destruct (is_null exp).
    { fin. split; [destruct (is_tok (ppeek q) TCloseParen); simpl; apply skip_wf; auto|].
      split; simpl; auto. extend. }
    apply Call; simpl; auto.
    + measures. lia.
    + intros n q' A' B' C'. split; auto. split; auto. extend.
  - (* TupleLoop *)
    unfold parse_tuple_loop. rewrite pnext_eq.
    destruct (is_tok (ppeek ps) TCloseParen).
    { fin. split; [auto using skip_wf|]. split; simpl; auto using extends_skip. }
    destruct (is_tok (ppeek ps) TComma) eqn:Co.
    2:{ fin. split; [apply skip_wf; auto|]. split; simpl; auto. extend. }
    apply is_tok_true in Co. specialize (Shrink ps W ltac:(congruence)). simpl.
    destruct (is_tok (ppeek (skip ps)) TCloseParen).
    { fin. split; [auto using skip_wf|]. split; simpl; auto. extend. }
    apply wp_bind. apply Call; simpl; auto using skip_wf; [unfold measure; simpl; lia|].
    intros n q A B C. apply Call; simpl; auto.
    + measures. lia.
    + intros n' q' A' B' C'. split; auto. split; auto. extend.
  - (* ArrayOrSlice *)
    unfold parse_array_or_slice_access. apply wp_bind.
    apply Call; simpl; auto; [unfold measure; simpl; lia|].
    intros n q A B C. rewrite pnext_eq.
    destruct (is_tok (ppeek q) TCloseSquare).
    { fin. split; [destruct (is_null n); simpl; apply skip_wf; auto|]. split; [extend|].
      destruct (is_null n) eqn:Nn.
      - destruct n; try discriminate. simpl. auto.
      - apply id_before_mono with q; auto using skip_wf, extends_skip. }
    destruct (is_tok (ppeek q) TColon) eqn:Co.
    2:{ fin. split; [apply skip_wf; auto|]. split; simpl; auto. extend. }
    apply is_tok_true in Co. assert (Sh := Shrink q A ltac:(congruence)).
    apply wp_bind. apply Call; simpl; auto using skip_wf.
    { measures. lia. }
    intros rhs q' A' B' C'. rewrite pnext_eq.
    destruct (negb (is_tok (ppeek q') TCloseSquare)).
    { fin. split; [apply skip_wf; auto|]. split; simpl; auto. extend. }
    destruct (is_null n && is_null rhs).
    { fin. split; [apply skip_wf; auto|]. split; simpl; auto. extend. }
    fin. split; [apply skip_wf; auto|]. split; simpl; auto. extend.
  - (* IfElse *)
    unfold parse_if_else. specialize (Shrink ps W ltac:(congruence)).
    apply wp_bind. apply Call; simpl; auto using skip_wf; [unfold measure; simpl; lia|].
    intros c q A B C. destruct (is_tok (ppeek q) TElse).
    + apply wp_bind. apply Call; simpl; auto using skip_wf.
      { measures. lia. }
      intros e q' A' B' C'. done3.
    + done3.
  - (* Element *)
    unfold parse_element. destruct e.
    + apply Call; simpl; auto; [unfold measure; simpl; lia|]. intros; split; auto.
    + unfold expression_or_assignment. apply wp_bind.
      apply Call; simpl; auto; [unfold measure; simpl; lia|].
      intros n q A B C. destruct (is_null n) eqn:Nn.
      { done3. }
      destruct n; try (simpl; split; auto; split; simpl; solve [auto]).
      destruct (is_tok (ppeek q) TAssign) eqn:As.
      2:{ split; auto. }
      apply is_tok_true in As. assert (Sh := Shrink q A ltac:(congruence)).
      unfold parse_node_assign_rhs. apply wp_bind. apply Call; simpl; auto using skip_wf.
      { measures. lia. }
      intros r q' A' B' C'. destruct C as [off [C1 C2]].
      unfold covering. simpl. rewrite C1.
      replace (off <=? tok_off (ppeek q) + length (tok_text (ppeek q))) with true
        by (symmetry; apply Nat.leb_le; lia).
      done3.
    + unfold parse_map_tuple. apply wp_bind.
      apply Call; simpl; auto; [unfold measure; simpl; lia|].
      intros n q A B C. rewrite pnext_eq. destruct (is_tok (ppeek q) TColon) eqn:Co.
      2:{ fin. split; [apply skip_wf; auto|]. split; simpl; auto. extend. }
      apply is_tok_true in Co. assert (Sh := Shrink q A ltac:(congruence)). simpl.
      apply wp_bind. apply Call; simpl; auto using skip_wf.
      { measures. lia. }
      intros r q' A' B' C'. done3.
    + unfold parse_optional_identifier. destruct (is_tok (ppeek ps) TIdentifier) eqn:I.
      * apply is_tok_true in I. fin. split; [auto using skip_wf|]. split; [apply extends_skip|].
        simpl. eexists. split; [reflexivity|].
        destruct (skip_off content ps W); [auto|congruence].
      * simpl. split; auto. split; simpl; auto using extends_refl.
  - (* List *)
    unfold parse_list. destruct (is_tok (ppeek ps) end_tok) eqn:En.
    { fin. split; [auto using skip_wf|]. split; simpl; auto using extends_skip. }
    apply is_tok_false in En.
    apply wp_bind. apply Call; simpl; auto; [unfold measure; simpl; lia|].
    intros n q A B C. destruct (is_tok (ppeek q) TComma) eqn:Co.
    { apply is_tok_true in Co. assert (Sh := Shrink q A ltac:(congruence)).
      apply Call; simpl; auto using skip_wf.
      - measures. lia.
      - intros n' q' A' B' C'. split; auto. split; auto. extend. }
    destruct (is_tok (ppeek q) end_tok) eqn:En'.
    2:{ simpl. rewrite pnext_eq. fin. split; [apply skip_wf; auto|]. split; simpl; auto. extend. }
    apply is_tok_true in En'. simpl.
    assert (Lt : remaining q < remaining ps).
    { assert (H := extends_remaining _ _ B). destruct (Nat.eq_dec (remaining q) (remaining ps)); [|lia].
      apply extends_same in e0; auto. unfold ppeek in *. rewrite e0 in En'. congruence. }
    apply Call; simpl; auto.
    + measures. lia.
    + intros n' q' A' B' C'. split; auto. split; auto. extend.
  - (* ListOrListComprehension *)
    unfold parse_list_or_list_comprehension.
    destruct (is_tok (ppeek ps) (end_token_for ty)).
    { fin. split; [auto using skip_wf|]. split; simpl; auto using extends_skip. }
    apply wp_bind. apply Call; simpl; auto; [unfold measure; simpl; lia|].
    intros n q A B C. destruct (is_null n).
    { done3. }
    assert (Ne : end_token_for ty <> TEof) by (destruct ty; discriminate).
    assert (Def : wp (run fuel (PList ty [n] e (end_token_for ty))
        (if is_tok (ppeek q) (end_token_for ty) then q else perr (ppeek q) (RForOrClose (end_token_for ty)) q)) (post_total ps)).
    { assert (Re : remaining (if is_tok (ppeek q) (end_token_for ty) then q else perr (ppeek q) (RForOrClose (end_token_for ty)) q)
                   = remaining q) by (destruct (is_tok _ _); reflexivity).
      apply Call; simpl; auto.
      - destruct (is_tok _ _); auto.
      - unfold measure. rewrite Re. measures. lia.
      - intros n' q' A' B' C'. split; auto. split; auto.
        apply extends_trans with q; auto.
        apply extends_trans with (2 := B'). destruct (is_tok _ _); auto using extends_refl, extends_err. }
    destruct (tok_type (ppeek q)) eqn:T; auto.
    + apply Call; simpl; auto using skip_wf.
      * measures. lia.
      * intros n' q' A' B' C'. split; auto. split; auto. extend.
    + apply wp_bind. apply Call; simpl; auto.
      * measures. lia.
      * intros n' q' A' B' C'. done3.
  - (* ComprehensionFor *)
    unfold parse_comprehension_for. destruct (is_tok (ppeek ps) TFor) eqn:Fo.
    2:{ rewrite pnext_eq. destruct (negb (is_tok (ppeek ps) end_tok)).
        - fin. split; [apply skip_wf; auto|]. split; simpl; auto. extend.
        - fin. split; [auto using skip_wf|]. split; [apply extends_skip|].
          auto. }
    apply is_tok_true in Fo. specialize (Shrink ps W ltac:(congruence)). rewrite pnext_eq.
    apply wp_bind.
    apply wp_mono with (fun r => ok (snd r) /\ extends (skip ps) (snd r)).
    { destruct (is_tok (ppeek (skip ps)) TOpenParen).
      - apply wp_bind. apply Call; simpl; auto using skip_wf; try discriminate.
        + measures. lia.
        + intros vars q A B C. rewrite pnext_eq. simpl.
          split; [destruct (is_tok (ppeek q) TIn); simpl; apply skip_wf; auto|extend].
      - apply Call; simpl; auto using skip_wf; try discriminate.
        measures. lia. }
    intros [vars q] [A B]. simpl in *.
    apply wp_bind. apply Call; simpl; auto.
    { measures. lia. }
    intros values q' A' B' C'.
    assert (Bt : tok_off (ppeek ps) + length (tok_text (ppeek ps)) <= tok_off (ppeek q')).
    { destruct (skip_off content ps W) as [O|O]; [|congruence].
      assert (O1 := extends_off content _ _ (skip_wf _ _ W) (extends_trans _ _ _ B B')
                       (wf_nonempty _ _ A')). lia. }
    unfold between. rewrite (proj2 (Nat.leb_le _ _) Bt). cbn [bind].
    apply Call; simpl; auto.
    + measures. lia.
    + intros n' q'' A'' B'' C''. split; auto. split; auto. extend.
  - (* FunCall *)
    unfold parse_fun_call. apply wp_bind. apply Call; simpl; auto; try discriminate.
    { unfold measure; simpl; lia. }
    intros n q A B C. done3.
Qed.
End Total.

(** The top level. *)
Lemma extends_ok content a b : wf_toks content (p_toks a) -> extends a b -> p_toks b <> [] ->
  wf_toks content (p_toks b).
Proof. intros W [[l E] _] N. rewrite E in W. apply (wf_suffix content l); auto. Qed.

Lemma toplevel_total content fuel ps :
  wf_toks content (p_toks ps) -> 6 * remaining ps + 6 <= fuel ->
  wp (parse_toplevel fuel ps) (fun r =>
    wf_toks content (p_toks (snd r)) /\ extends ps (snd r) /\
    (fst r = TopEnd \/ remaining (snd r) < remaining ps)).
Proof.
  intros W F. unfold parse_toplevel. rewrite pnext_eq.
  assert (Call : forall p ps' (Q : node * pstate -> Prop),
    wf_toks content (p_toks ps') -> pre_total p ps' -> measure p ps' < fuel ->
    (forall n q, wf_toks content (p_toks q) -> extends ps' q -> id_before n q -> Q (n, q)) ->
    wp (run fuel p ps') Q).
  { intros p' ps' Q H1 H2 H3 H4. apply wp_mono with (post_total content ps').
    - apply total; auto.
    - intros [n q] [A [B C]]. apply H4; auto. }
  assert (Shrink : forall ps0, wf_toks content (p_toks ps0) -> tok_type (ppeek ps0) <> TEof ->
             remaining (skip ps0) < remaining ps0) by (apply skip_shrinks).
  assert (Wk := skip_wf _ _ W). assert (Sl := skip_le ps).
  assert (Err : forall q, extends ps q -> wf_toks content (p_toks q) ->
     wp (Ret (TopEnd, q)) (fun r => wf_toks content (p_toks (snd r)) /\ extends ps (snd r) /\
    (fst r = TopEnd \/ remaining (snd r) < remaining ps))) by (simpl; auto).
  assert (Rhs : forall lhs from to q, extends ps q -> wf_toks content (p_toks q) ->
     remaining q < remaining ps ->
     tok_off from <= tok_off to + length (tok_text to) ->
     wp (do (n, q) <- parse_node_assign_rhs (run fuel) lhs from to q; Ret (TopStatement n, q))
       (fun r => wf_toks content (p_toks (snd r)) /\ extends ps (snd r) /\
                 (fst r = TopEnd \/ remaining (snd r) < remaining ps))).
  { intros lhs from to q Hq Wq Lq Ho. unfold parse_node_assign_rhs.
    apply wp_bind, wp_bind. apply Call; simpl; auto; [unfold measure; simpl; lia|].
    intros n q' A B C. unfold covering. rewrite (proj2 (Nat.leb_le _ _) Ho). simpl.
    split; auto. split; [eapply extends_trans; eauto|]. right.
    apply extends_remaining in B. lia. }
  assert (E1 := extends_skip ps).
  assert (Done : forall q n, remaining (skip ps) < remaining ps -> extends (skip ps) q ->
     wf_toks content (p_toks q) ->
     wp (Ret (TopStatement n, q)) (fun r => wf_toks content (p_toks (snd r)) /\ extends ps (snd r) /\
    (fst r = TopEnd \/ remaining (snd r) < remaining ps))).
  { intros q n L E A. simpl. split; auto. split; [eapply extends_trans; eauto|].
    right. apply extends_remaining in E. lia. }
  destruct (tok_type (ppeek ps)) eqn:T;
    try (apply Err; [eapply extends_trans; [exact E1|apply extends_err]|auto]).
  - (* tuple *)
    specialize (Shrink ps W ltac:(congruence)).
    apply wp_bind. apply Call; simpl; auto; try discriminate; [unfold measure; simpl; lia|].
    intros lhs q A B C. rewrite pnext_eq. destruct (is_tok (ppeek q) TAssign); simpl.
    + apply Rhs; auto using skip_wf.
      * eapply extends_trans; [|apply extends_skip]. eapply extends_trans; eauto.
      * assert (H := skip_le q). apply extends_remaining in B. lia.
      * assert (H := extends_off content _ _ W (extends_trans _ _ _ E1 B) (wf_nonempty _ _ A)). lia.
    + split; [apply skip_wf; auto|]. split; auto.
      eapply extends_trans; [|apply extends_err]. eapply extends_trans; [|apply extends_skip].
      eapply extends_trans; eauto.
  - (* list *)
    specialize (Shrink ps W ltac:(congruence)).
    apply wp_bind. apply Call; simpl; auto; [unfold measure; simpl; lia|].
    intros n q A B C. apply Done; auto.
  - (* identifier *)
    specialize (Shrink ps W ltac:(congruence)).
    rewrite pnext_eq.
    assert (E2 : extends ps (skip (skip ps))) by (eapply extends_trans; [exact E1|apply extends_skip]).
    assert (S2 := skip_le (skip ps)).
    destruct (tok_type (ppeek (skip ps))) eqn:T2;
      try (apply Err; [eapply extends_trans; [exact E2|apply extends_err]|apply skip_wf; auto]).
    + apply wp_bind. apply Call; simpl; auto using skip_wf; [unfold measure; simpl; lia|].
      intros n q A B C. apply Done; auto. eapply extends_trans; [apply extends_skip|auto].
    + apply wp_bind. apply Call; simpl; auto using skip_wf; [unfold measure; simpl; lia|].
      intros n q A B C. apply Done; auto. eapply extends_trans; [apply extends_skip|auto].
    + apply Rhs; auto using skip_wf; [lia|].
      destruct (skip_off content ps W) as [O|O]; [lia|congruence].
  - (* string *)
    specialize (Shrink ps W ltac:(congruence)). simpl. auto.
  - (* eof *) simpl. auto.
Qed.

Lemma parse_loop_total content fuel rounds : forall stmts ps,
  wf_toks content (p_toks ps) -> 6 * remaining ps + 6 <= fuel -> remaining ps < rounds ->
  wp (parse_loop rounds fuel stmts ps) (fun r => extends ps (snd r)).
Proof.
  induction rounds as [|rounds IH]; intros stmts ps W F R; [lia|].
  cbn [parse_loop]. destruct (p_errs ps) as [|e es].
  2:{ simpl. apply extends_refl. }
  apply wp_bind. eapply wp_mono; [apply (toplevel_total content); auto|].
  intros [r q] [A [B C]]. cbn [fst snd] in *. destruct r.
  - destruct C as [C|C]; [discriminate|]. eapply wp_mono; [apply IH; auto; lia|].
    intros [l q'] E. eapply extends_trans; eauto.
  - destruct C as [C|C]; [discriminate|]. eapply wp_mono; [apply IH; auto; lia|].
    intros [l q'] E. eapply extends_trans; eauto.
  - simpl. auto.
Qed.

Theorem parse_total content : exists stmts errs, parse content = Ret (stmts, errs).
Proof.
  unfold parse, parse_tokens.
  assert (H := parse_loop_total content (parse_fuel (all_tokens content))
     (2 * length (all_tokens content) + 2) [] (mkP (all_tokens content) []) (all_tokens_wf content)).
  unfold remaining in H. cbn [p_toks] in H.
  specialize (H ltac:(unfold parse_fuel; lia) ltac:(lia)).
  destruct (parse_loop _ _ _ _) as [[l q]| |]; try contradiction. simpl. eauto.
Qed.

(** ** The trees produced *)
Definition wpp {A} (x : outcome A) (Q : A -> Prop) : Prop :=
  match x with Ret a => Q a | _ => True end.
Lemma wpp_bind {A B} (x : outcome A) (f : A -> outcome B) Q :
  wpp x (fun a => wpp (f a) Q) -> wpp (bind x f) Q.
Proof. destruct x; simpl; auto. Qed.
Lemma wpp_mono {A} (x : outcome A) (P Q : A -> Prop) :
  wpp x P -> (forall a, P a -> Q a) -> wpp x Q.
Proof. destruct x; simpl; auto. Qed.

Section Trees.
Variable content : str.

Definition loc (n : node) : Prop :=
  Forall (view_in content) (views n) /\ Forall (range_in content) (ranges n) /\ Forall (op_at content) (operators n).
Definition toks_in (ps : pstate) : Prop := Forall (good_token content) (p_toks ps).

Lemma wf_good l : wf_toks content l -> Forall (good_token content) l.
Proof. induction 1; auto. Qed.
Lemma peek_good ps : toks_in ps -> good_token content (ppeek ps).
Proof.
  unfold toks_in, ppeek. destruct (p_toks ps) as [|t l]; simpl.
  - intros _. split; simpl; [lia|]. split; auto. split; discriminate.
  - inversion 1; auto.
Qed.
Lemma toks_in_extends a b : extends a b -> toks_in a -> toks_in b.
Proof. unfold toks_in. intros [[l ->] _] H. apply Forall_app in H. tauto. Qed.

Lemma good_view t : good_token content t -> view_in content (token_view t).
Proof. intros [H1 [H2 _]]. exists (tok_off t). simpl. auto. Qed.
Lemma good_range t : good_token content t -> range_in content (token_range t).
Proof. intros [H1 _]. exact H1. Qed.

Lemma skipn_plus {A} (l : list A) a b : skipn (a + b) l = skipn b (skipn a l).
Proof.
  revert l. induction a as [|a IH]; intros l; [reflexivity|].
  destruct l as [|x l]; simpl; [rewrite skipn_nil|]; auto. 
Qed.

Lemma good_string t n : good_token content t -> string_node t = Ret n -> loc n /\ whole n.
Proof.
  intros [H1 [H2 _]]. unfold string_node.
  destruct (string_from_literal (tok_text t)) as [[[[k v] tr] ra]|] eqn:S; [|discriminate].
  intros X. injection X as <-. split; [|constructor]. split; [|split; constructor].
  constructor; [|constructor]. exists (tok_off t + k). split; [reflexivity|]. cbn [v_text].
  assert (P : exists r, skipn k (tok_text t) = v ++ r).
  { unfold string_from_literal in S. destruct (tok_text t) as [|c s]; [discriminate|].
    set (pre := if ceqb c "r" || ceqb c "R" then 1 else 0) in *. clearbody pre.
    match type of S with (if ?b then _ else _) = _ => destruct b end.
    - assert (pre + 3 = k) as <- by congruence. rewrite skipn_plus.
      assert (firstn (length (skipn pre (c :: s)) - 6) (skipn 3 (skipn pre (c :: s))) = v) as <- by congruence.
      eexists. symmetry. apply firstn_skipn.
    - match type of S with (if ?b then _ else _) = _ => destruct b end; [|discriminate].
      assert (pre + 1 = k) as <- by congruence. rewrite skipn_plus.
      assert (firstn (length (skipn pre (c :: s)) - 2) (skipn 1 (skipn pre (c :: s))) = v) as <- by congruence.
      eexists. symmetry. apply firstn_skipn. }
  destruct P as [r P].
  assert (Kl : k + length v <= length (tok_text t) \/ v = []).
  { apply (f_equal (@length _)) in P. rewrite skipn_length, app_length in P.
    destruct v; auto. simpl in *. left. lia. }
  assert (Ec : exists z, skipn (tok_off t) content = tok_text t ++ z).
  { rewrite <- (firstn_skipn (length (tok_text t)) (skipn (tok_off t) content)), H2. eauto. }
  destruct Ec as [z Ez]. split.
  - destruct Kl as [Kl| ->]; [lia|]. cbn [length].
    unfold string_from_literal in S. destruct (tok_text t) as [|c s] eqn:Et; [discriminate|].
    set (l := skipn (if ceqb c "r" || ceqb c "R" then 1 else 0) (c :: s)) in *.
    assert (Ll : length l = length (c :: s) - (if ceqb c "r" || ceqb c "R" then 1 else 0))
      by (apply skipn_length).
    destruct (6 <=? length l) eqn:L6; cbn [andb] in S.
    + apply Nat.leb_le in L6. destruct (starts_with [DQ; DQ; DQ] l).
      * injection S as <- _ _ _. destruct (ceqb c "r" || ceqb c "R"); lia.
      * destruct (2 <=? length l) eqn:L2; [|discriminate]. apply Nat.leb_le in L2.
        injection S as <- _ _ _. destruct (ceqb c "r" || ceqb c "R"); lia.
    + destruct (2 <=? length l) eqn:L2; [|discriminate]. apply Nat.leb_le in L2.
      injection S as <- _ _ _. destruct (ceqb c "r" || ceqb c "R"); lia.
  - rewrite skipn_plus, Ez. destruct Kl as [Kl| ->]; [|reflexivity].
    rewrite skipn_app. replace (k - length (tok_text t)) with 0 by lia. simpl.
    rewrite P, <- app_assoc. apply firstn_app_exact.
Qed.

(** What is known about results when no error was reported. *)
Definition elem_ok (e : elem_parser) (n : node) : Prop :=
  match e with EOptionalIdentifier => variable n | _ => whole n end.
Definition slice (n : node) : Prop :=
  exists a b rg, n = NBin TColon a b rg /\ (a = NNull \/ whole a) /\ (b = NNull \/ whole b) /\
                 ~ (a = NNull /\ b = NNull).
Definition result_ok (p : production) (n : node) : Prop :=
  match p with
  | PExpression true | PValueOrIdentifier true => n = NNull \/ whole n
  | PArrayOrSliceAccess => whole n \/ slice n
  | PElement e => elem_ok e n
  | PList ty _ e _ => exists l, n = NList ty l /\ Forall (elem_ok e) l
  | PComprehensionFor _ _ _ => for_chain n
  | _ => whole n
  end.
Definition args_ok (p : production) (ps : pstate) : Prop :=
  match p with
  | PExpressionLoop n | PIfElse n => whole n
  | PTupleLoop l => Forall whole l
  | PList _ l e _ => Forall (elem_ok e) l
  | PComprehensionFor target t _ =>
      (whole target \/ for_chain target) /\ (tok_type (ppeek ps) = TFor \/ for_chain t)
  | _ => True
  end.
Definition args_loc (p : production) : Prop :=
  match p with
  | PExpressionLoop n | PIfElse n => loc n
  | PTupleLoop l | PList _ l _ _ => Forall loc l
  | PListOrListComprehension _ e => e <> EOptionalIdentifier
  | PComprehensionFor target t _ => loc target /\ loc t
  | PFunCall t => good_token content t
  | _ => True
  end.
Definition pre_tree (p : production) (ps : pstate) : Prop :=
  toks_in ps /\ args_loc p /\ (p_errs ps = [] -> args_ok p ps).
Definition post_tree (p : production) (ps : pstate) (r : node * pstate) : Prop :=
  extends ps (snd r) /\ loc (fst r) /\ (p_errs (snd r) = [] -> result_ok p (fst r)).

Lemma loc_null : loc NNull.
Proof. split; [|split]; constructor. Qed.
Lemma loc_list ty l : Forall loc l -> loc (NList ty l).
Proof.
  unfold loc. cbn [views ranges operators]. induction 1 as [|n l [H1 [H2 H3]] H IH]; [split; [|split]; constructor|].
  cbn [flat_map]. rewrite !Forall_app. tauto.
Qed.
Lemma loc_bin op l r rg : loc l -> loc r -> range_in content rg -> op_at content (op, rg) -> loc (NBin op l r rg).
Proof. intros [H1 [H2 H2']] [H3 [H4 H4']] H H'. split; [|split]; simpl; try constructor; auto; apply Forall_app; auto. Qed.
Lemma loc_assign l r rg : loc l -> loc r -> range_in content rg -> loc (NAssign l r rg).
Proof. intros [H1 [H2 H2']] [H3 [H4 H4']] H. split; [|split]; simpl; try constructor; auto; apply Forall_app; auto. Qed.
Lemma loc_unary op n : loc n -> loc (NUnary op n).
Proof. auto. Qed.
Lemma loc_comp ty n : loc n -> loc (NComp ty n).
Proof. auto. Qed.
Lemma loc_ternary c p n : loc c -> loc p -> loc n -> loc (NTernary c p n).
Proof. intros [H1 [H2 H2']] [H3 [H4 H4']] [H5 [H6 H6']]. split; [|split]; simpl; rewrite !Forall_app; auto. Qed.
Lemma loc_call i a : loc i -> loc a -> loc (NCall i a).
Proof. intros [H1 [H2 H2']] [H3 [H4 H4']]. split; [|split]; simpl; rewrite !Forall_app; auto. Qed.
Lemma loc_id t : good_token content t -> loc (NId (token_view t)).
Proof. intros H. split; [|split]; simpl; constructor; auto using good_view. Qed.
Lemma loc_int t z : good_token content t -> loc (NInt (token_view t) z).
Proof. intros H. split; [|split]; simpl; constructor; auto using good_view. Qed.
Lemma good_op t : good_token content t -> op_at content (tok_type t, token_range t).
Proof. intros (H1 & H2 & _ & H) text E. apply H in E. cbn. rewrite <- E. auto. Qed.
Lemma good_op_is t op : is_tok t op = true -> good_token content t -> op_at content (op, token_range t).
Proof. intros E. apply is_tok_true in E. subst op. apply good_op. Qed.
Lemma op_in rg : op_at content (TIn, rg).
Proof. intros text. discriminate. Qed.
Lemma Forall_snoc {A} (P : A -> Prop) l x : Forall P l -> P x -> Forall P (l ++ [x]).
Proof. intros H1 H2. apply Forall_app. auto. Qed.
Lemma covering_in from to rg : good_token content to -> covering from to = Ret rg -> range_in content rg.
Proof.
  unfold covering. intros [H _]. destruct (Nat.leb_spec (tok_off from) (tok_off to + length (tok_text to)));
    [|discriminate]. intros E. injection E as <-. unfold range_in. simpl. lia.
Qed.
Lemma between_in from to rg : good_token content to -> between from to = Ret rg -> range_in content rg.
Proof.
  unfold between. intros [H _]. destruct (Nat.leb_spec (tok_off from + length (tok_text from)) (tok_off to));
    [|discriminate]. intros E. injection E as <-. unfold range_in. simpl. lia.
Qed.

Ltac extend := cbn [fst snd]; repeat first
  [ apply extends_refl
  | match goal with
    | H : extends ?x ?y |- extends ?z ?y => apply extends_trans with x; [clear H|exact H]
    | |- extends ?x (skip ?y) => apply extends_trans with y; [|apply extends_skip]
    | |- extends ?x (perr ?t _ ?y) => apply extends_trans with y; [|apply extends_err]
    | |- extends ?x (if ?c then _ else _) => destruct c
    end ].
Ltac intoks := match goal with
  | H : toks_in ?a |- toks_in ?b => apply toks_in_extends with a; [solve [extend]|exact H]
  | H : toks_in ?a |- good_token content (ppeek ?b) =>
      apply peek_good, toks_in_extends with a; [solve [extend]|exact H]
  end.
Ltac errs := cbn [fst snd] in *; repeat match goal with
  | Z : p_errs (perr _ _ _) = [] |- _ => discriminate Z
  | Z : p_errs (skip ?a) = [] |- _ =>
      lazymatch goal with
      | _ : p_errs a = [] |- _ => fail
      | _ => pose proof (eq_trans (eq_sym (errs_skip a)) Z)
      end
  | Z : p_errs (if ?c then _ else _) = [] |- _ => destruct c
  | Z : p_errs ?b = [], E : extends ?a ?b |- _ =>
      lazymatch goal with
      | _ : p_errs a = [] |- _ => fail
      | _ => pose proof (extends_no_errs _ _ E Z)
      end
  | H : p_errs ?b = [] -> _, Z : p_errs ?b = [] |- _ => specialize (H Z)
  end.
Ltac located := repeat first
  [ assumption | apply loc_null | apply loc_list | apply loc_bin | apply loc_assign | apply loc_unary
  | apply loc_comp | apply loc_ternary | apply loc_call | apply loc_id | apply loc_int
  | apply Forall_snoc | apply Forall_nil | apply Forall_cons | apply good_range
  | apply op_in | apply good_op | (eapply good_op_is; [eassumption|])
  | intoks ].

Lemma trees fuel : forall p ps, pre_tree p ps -> wpp (run fuel p ps) (post_tree p ps).
Proof.
  induction fuel as [|fuel IH]; intros p ps [TI [AL AO]]; [exact I|].
  assert (Call : forall p ps' (Q : node * pstate -> Prop),
    toks_in ps' -> args_loc p -> (p_errs ps' = [] -> args_ok p ps') ->
    (forall n q, extends ps' q -> loc n -> (p_errs q = [] -> result_ok p n) -> Q (n, q)) ->
    wpp (run fuel p ps') Q).
  { intros p' ps' Q H1 H2 H3 H4. eapply wpp_mono; [apply IH; split; auto|].
    intros [n q] [A [B C]]. apply H4; auto. }
  destruct p; cbn [run production_step args_loc args_ok] in *.
  - (* Expression *)
    unfold parse_expression. apply wpp_bind.
    apply wpp_mono with (fun r => extends ps (snd r) /\ loc (fst r) /\
       (p_errs (snd r) = [] -> fst r = NNull /\ can_be_optional = true \/ whole (fst r))).
    + assert (Un : wpp (do (n, ps0) <- run fuel (PExpression can_be_optional) (skip ps);
             Ret (NUnary (tok_type (ppeek ps)) n, ps0))
           (fun r => extends ps (snd r) /\ loc (fst r) /\
       (p_errs (snd r) = [] -> fst r = NNull /\ can_be_optional = true \/ whole (fst r)))).
      { apply wpp_bind. apply Call; simpl; auto; try intoks.
        intros n q A B C. simpl. split; [extend|]. split; [located|].
        intros Z. right. constructor. errs; destruct can_be_optional; auto. }
      assert (Va : wpp (run fuel (PValueOrIdentifier can_be_optional) ps)
           (fun r => extends ps (snd r) /\ loc (fst r) /\
       (p_errs (snd r) = [] -> fst r = NNull /\ can_be_optional = true \/ whole (fst r)))).
      { apply Call; simpl; auto. intros n q A B C. split; auto. split; auto. intros Z. errs.
        simpl in C. destruct can_be_optional; auto. destruct C; auto. }
      destruct (tok_type (ppeek ps)) eqn:T; auto.
      apply Call; simpl; auto.
    + intros [n q] [A [B C]]. simpl in *. destruct (is_null n) eqn:N.
      * simpl. split; auto. split; auto. intros Z. errs; simpl.
        destruct n; try discriminate. destruct C as [[_ ->]|C]; auto. destruct can_be_optional; auto.
      * apply Call; simpl; auto; try intoks.
        -- intros Z. errs; destruct C as [[-> _]|C]; [discriminate|auto].
        -- intros n' q' A' B' C'. split; [extend|]. split; auto. intros Z. errs.
           simpl in *. destruct can_be_optional; auto.
  - (* ExpressionLoop *)
    unfold parse_expression_loop. destruct (is_tok (ppeek ps) TIf).
    { apply Call; simpl; auto. intros n' q A B C. split; auto. }
    destruct (is_binary_operator (tok_type (ppeek ps))).
    { apply wpp_bind. apply Call; simpl; auto; try intoks.
      intros n' q A B C. split; [extend|]. split; [simpl; located|].
      intros Z. cbn [snd] in Z. assert (extends ps q) by extend. errs; simpl; constructor; auto. }
    destruct (is_tok (ppeek ps) TOpenSquare) eqn:Sq.
    2:{ simpl. split; [apply extends_refl|split; auto]. }
    destruct (tok_newline (ppeek ps)).
    { simpl. split; [apply extends_refl|split; auto]. }
    apply wpp_bind. apply Call; simpl; auto; try intoks.
    intros acc q A B C. assert (E : extends ps q) by extend.
    apply Call; simpl; auto; try intoks.
    + located.
    + intros Z. errs; simpl in C. destruct C as [C|[a [b [rg [-> [C1 [C2 C3]]]]]]]; [apply W_bin|apply W_slice]; auto.
    + intros n' q' A' B' C'. split; [extend|]. split; auto.
  - (* ValueOrIdentifier *)
    unfold parse_value_or_identifier.
    assert (Def : wpp (Ret (NNull, if can_be_optional then ps else perr (ppeek ps) RValue ps))
                    (post_tree (PValueOrIdentifier can_be_optional) ps)).
    { simpl. split; [extend|]. split; [located|]. simpl. destruct can_be_optional; auto. discriminate. }
    assert (Opt : forall n, whole n -> result_ok (PValueOrIdentifier can_be_optional) n)
      by (intros n Hn; simpl; destruct can_be_optional; auto).
    destruct (tok_type (ppeek ps)) eqn:T; auto.
    + apply Call; simpl; try intoks; try discriminate; auto.
      intros n q A B C. split; [extend|]. split; auto. 
    + apply Call; simpl; try intoks; try discriminate; auto.
      intros n q A B C. split; [extend|]. split; auto. 
    + destruct (is_tok (ppeek (skip ps)) TOpenParen) eqn:P.
      * apply Call; simpl; try intoks; auto.
        intros n q A B C. split; [extend|]. split; auto.
      * simpl. split; [extend|]. split; [located|]. intros _. apply Opt. constructor.
    + apply wpp_bind. destruct (string_node (ppeek ps)) eqn:S; simpl; auto.
      apply good_string in S as [S1 S2]; [|intoks].
      split; [extend|]. split; auto. 
    + unfold parse_int_from_token. destruct (int_from_literal (tok_text (ppeek ps))).
      * simpl. split; [extend|]. split; [located|]. intros _. apply Opt. constructor.
      * simpl. split; [extend|]. split; [located|]. discriminate.
  - (* Paren *)
    unfold parse_paren_expression_or_tuple.
    apply wpp_bind. apply Call; simpl; try intoks; auto.
    intros exp q A B C. rewrite pnext_eq. assert (E : extends ps q) by extend.
    destruct (negb (is_null exp) && is_tok (ppeek q) TCloseParen) eqn:D.
    { simpl. split; [extend|]. split; auto. intros Z. errs; destruct C as [->|C]; [discriminate|auto]. }
    destruct (is_null exp) eqn:Nu.
    { simpl. split; [extend|]. split; [located|]. intros _. repeat constructor. }
    apply Call; simpl; try intoks; auto.
    + intros Z. errs; destruct C as [->|C]; [discriminate|auto].
    + intros n q' A' B' C'. split; [extend|]. split; auto.
  - (* TupleLoop *)
    unfold parse_tuple_loop. rewrite pnext_eq.
    destruct (is_tok (ppeek ps) TCloseParen).
    { simpl. split; [extend|]. split; [located|]. intros Z. errs; constructor; auto. }
    destruct (is_tok (ppeek ps) TComma) eqn:Co.
    2:{ simpl. split; [extend|]. split; [located|]. intros Z. errs. }
    simpl. destruct (is_tok (ppeek (skip ps)) TCloseParen).
    { simpl. split; [extend|]. split; [located|]. intros Z. errs; constructor; auto. }
    apply wpp_bind. apply Call; simpl; try intoks; auto.
    intros n q A B C. assert (E : extends ps q) by extend. apply Call; simpl; try intoks; auto.
    + located.
    + intros Z. errs; apply Forall_snoc; auto.
    + intros n' q' A' B' C'. split; [extend|]. split; auto.
  - (* ArrayOrSlice *)
    unfold parse_array_or_slice_access. apply wpp_bind.
    apply Call; simpl; auto. intros n q A B C. rewrite pnext_eq.
    destruct (is_tok (ppeek q) TCloseSquare).
    { simpl. split; [extend|]. split; auto. destruct (is_null n) eqn:Nu.
      - intros Z. errs.
      - intros Z. errs; left. simpl in C; destruct C as [->|C]; [discriminate|auto]. }
    destruct (is_tok (ppeek q) TColon) eqn:Co.
    2:{ simpl. split; [extend|]. split; [located|]. intros Z. errs. }
    apply wpp_bind. apply Call; simpl; try intoks; auto.
    intros rhs q' A' B' C'. rewrite pnext_eq. assert (E : extends q q') by extend.
    destruct (negb (is_tok (ppeek q') TCloseSquare)).
    { simpl. split; [extend|]. split; [located|]. intros Z. errs. }
    destruct (is_null n && is_null rhs) eqn:Nn.
    { simpl. split; [extend|]. split; [located|]. intros Z. errs. }
    simpl. split; [extend|]. split; [located|]. intros Z. errs; simpl in C, C'.
    right. do 3 eexists. split; [reflexivity|]. split; auto. split; auto.
    intros [-> ->]. discriminate.
  - (* IfElse *)
    unfold parse_if_else.
    apply wpp_bind. apply Call; simpl; try intoks; auto.
    intros c q A B C. assert (E : extends ps q) by extend. destruct (is_tok (ppeek q) TElse).
    + apply wpp_bind. apply Call; simpl; try intoks; auto.
      intros e q' A' B' C'. assert (E' : extends q q') by extend. simpl.
      split; [extend|]. split; [located|]. intros Z. errs; constructor; auto.
    + simpl. split; [extend|]. split; [located|]. intros Z. errs; constructor; auto.
  - (* Element *)
    unfold parse_element. destruct e.
    + apply Call; simpl; auto. intros; split; auto.
    + unfold expression_or_assignment. apply wpp_bind.
      apply Call; simpl; auto. intros n q A B C. destruct (is_null n) eqn:Nn.
      { simpl. split; auto. split; [located|]. intros Z. errs; simpl in C.
        destruct n; try discriminate. auto. }
      destruct n; try (simpl; split; auto; split; simpl; solve [auto]).
      destruct (is_tok (ppeek q) TAssign) eqn:As.
      2:{ split; auto. }
      unfold parse_node_assign_rhs. apply wpp_bind. apply Call; simpl; try intoks; auto.
      intros r q' A' B' C'. assert (E : extends q q') by extend.
      destruct (covering (id_token v) (ppeek q)) eqn:Cv; simpl; auto.
      apply covering_in in Cv; [|intoks].
      split; [extend|]. split; [located|]. intros Z. errs; constructor; auto.
    + unfold parse_map_tuple. apply wpp_bind.
      apply Call; simpl; auto. intros n q A B C. rewrite pnext_eq.
      destruct (is_tok (ppeek q) TColon) eqn:Co; simpl.
      2:{ split; [extend|]. split; [located|]. intros Z. errs. }
      apply wpp_bind. apply Call; simpl; try intoks; auto.
      intros r q' A' B' C'. assert (E : extends q q') by extend. simpl.
      split; [extend|]. split; [located|]. intros Z. errs; constructor; auto.
    + unfold parse_optional_identifier. destruct (is_tok (ppeek ps) TIdentifier) eqn:I.
      * simpl. split; [extend|]. split; [located|]. intros _. unfold result_ok, elem_ok, variable. cbn [fst]. eauto.
      * simpl. split; [extend|]. split; [located|]. intros _. left. auto.
  - (* List *)
    unfold parse_list. destruct (is_tok (ppeek ps) end_tok) eqn:En.
    { simpl. split; [extend|]. split; [located|]. intros Z. errs; simpl; eauto. }
    apply wpp_bind. apply Call; simpl; auto.
    intros n q A B C. destruct (is_tok (ppeek q) TComma) eqn:Co.
    { apply Call; simpl; try intoks.
      - located.
      - intros Z. errs; apply Forall_snoc; auto.
      - intros n' q' A' B' C'. split; [extend|]. split; auto. }
    destruct (is_tok (ppeek q) end_tok) eqn:En'; simpl.
    2:{ rewrite pnext_eq. simpl. split; [extend|]. split; [located|]. intros Z. errs. }
    apply Call; simpl; try intoks.
    + located.
    + intros Z. errs; apply Forall_snoc; auto.
    + intros n' q' A' B' C'. split; [extend|]. split; auto.
  - (* ListOrListComprehension *)
    unfold parse_list_or_list_comprehension.
    destruct (is_tok (ppeek ps) (end_token_for ty)).
    { simpl. split; [extend|]. split; [located|]. intros Z. repeat constructor. }
    apply wpp_bind. apply Call; simpl; auto.
    intros n q A B C.
    assert (C' : p_errs q = [] -> whole n) by (intros Z; errs; destruct e; simpl in C; auto; contradiction).
    destruct (is_null n) eqn:Nu.
    { simpl. split; auto. split; [located|]. intros Z. errs; destruct n; try discriminate; auto. }
    assert (Lw : forall l, Forall (elem_ok e) l -> whole (NList ty l)).
    { intros l Hl. constructor. destruct e; auto. contradiction. }
    assert (Def : wpp (run fuel (PList ty [n] e (end_token_for ty))
        (if is_tok (ppeek q) (end_token_for ty) then q else perr (ppeek q) (RForOrClose (end_token_for ty)) q))
        (post_tree (PListOrListComprehension ty e) ps)).
    { apply Call; simpl.
      - intoks.
      - located.
      - intros Z. destruct (is_tok _ _); errs; auto.
      - intros n' q' A' B' C''. assert (E : extends q q').
        { eapply extends_trans; [|exact A']. destruct (is_tok _ _); auto with parse. }
        split; [clear A'; extend|]. split; auto. intros Z. errs.
        destruct C'' as [l [-> C'']]. simpl. auto. }
    destruct (tok_type (ppeek q)) eqn:T; auto.
    + apply Call; simpl; try intoks.
      * located.
      * intros Z. errs; auto.
      * intros n' q' A' B' C''. assert (E : extends q q') by extend.
        split; [extend|]. split; auto. intros Z. errs.
        destruct C'' as [l [-> C'']]. simpl. auto.
    + apply wpp_bind. apply Call; simpl; try intoks.
      * split; located.
      * intros Z. errs; auto.
      * intros n' q' A' B' C''. simpl. split; [extend|]. split; [located|]. intros Z. errs.
        constructor. auto.
  - (* ComprehensionFor *)
    unfold parse_comprehension_for. destruct AL as [AL1 AL2].
    destruct (is_tok (ppeek ps) TFor) eqn:Fo.
    2:{ rewrite pnext_eq. destruct (negb (is_tok (ppeek ps) end_tok)).
        - simpl. split; [extend|]. split; [located|]. intros Z. errs.
        - simpl. split; [extend|]. split; auto. intros Z. errs; destruct AO as [_ [AO|AO]]; auto.
          apply is_tok_false in Fo. contradiction. }
    rewrite pnext_eq. apply wpp_bind.
    apply wpp_mono with (fun r => extends (skip ps) (snd r) /\ loc (fst r) /\
       (p_errs (snd r) = [] -> exists l, fst r = NList LTuple l /\ Forall variable l)).
    { destruct (is_tok (ppeek (skip ps)) TOpenParen).
      - apply wpp_bind. apply Call; simpl; try intoks; auto.
        intros vars q A B C. rewrite pnext_eq. simpl. split; [extend|]. split; auto.
        intros Z. errs; auto.
      - apply Call; simpl; try intoks; auto. }
    intros [vars q] [A [B C]]. cbn [fst snd] in *.
    apply wpp_bind. apply Call; simpl; try intoks; auto.
    intros values q' A' B' C'.
    destruct (between (ppeek ps) (ppeek q')) eqn:Bt; simpl; auto.
    apply between_in in Bt; [|intoks].
    assert (E : extends ps q) by extend.
    apply Call; simpl; try intoks; auto.
    + split; located.
    + intros Z. errs; simpl in C'. destruct C as [l [-> C]]. destruct AO as [AO _].
      assert (F : for_chain (NBin TFor target (NBin TIn (NList LTuple l) values a) (token_range (ppeek ps))))
        by (constructor; auto).
      auto.
    + intros n' q'' A'' B'' C''. split; [extend|]. split; auto.
  - (* FunCall *)
    unfold parse_fun_call. apply wpp_bind. apply Call; simpl; auto.
    intros n q A B C. simpl. split; [extend|]. split; [located|]. intros Z. errs.
    destruct C as [l [-> C]]. constructor. auto.
Qed.

Lemma toplevel_trees fuel ps : toks_in ps -> wpp (parse_toplevel fuel ps) (fun r =>
  extends ps (snd r) /\
  (p_errs (snd r) = [] -> fst r = TopEnd -> tok_type (ppeek ps) = TEof) /\
  match fst r with
  | TopStatement n => loc n /\ (p_errs (snd r) = [] -> whole_statement n)
  | _ => True
  end).
Proof.
  intros TI. unfold parse_toplevel. rewrite pnext_eq.
  assert (Call : forall p ps' (Q : node * pstate -> Prop),
    toks_in ps' -> args_loc p -> (p_errs ps' = [] -> args_ok p ps') ->
    (forall n q, extends ps' q -> loc n -> (p_errs q = [] -> result_ok p n) -> Q (n, q)) ->
    wpp (run fuel p ps') Q).
  { intros p' ps' Q H1 H2 H3 H4. eapply wpp_mono; [apply trees; split; auto|].
    intros [n q] [A [B C]]. apply H4; auto. }
  assert (E1 := extends_skip ps).
  destruct (tok_type (ppeek ps)) eqn:T;
    try solve [simpl; split; [extend|split; [intros; first [reflexivity|discriminate]|exact I]]].
  - apply wpp_bind. apply Call; simpl; auto; try intoks.
    intros lhs q A B C. rewrite pnext_eq. destruct (is_tok (ppeek q) TAssign); simpl.
    2:{ split; [extend|split; [discriminate|exact I]]. }
    unfold parse_node_assign_rhs. apply wpp_bind, wpp_bind.
    apply Call; simpl; try intoks; auto. intros r q' A' B' C'.
    assert (E : extends q q') by extend.
    destruct (covering (ppeek ps) (ppeek q)) eqn:Cv; simpl; auto.
    apply covering_in in Cv; [|intoks].
    split; [extend|]. split; [discriminate|]. split; [located|]. intros Z. errs.
    destruct C as [l [-> C]]. apply WS_tuple; auto.
  - apply wpp_bind. apply Call; simpl; auto; try intoks; try discriminate.
    intros n q A B C. simpl. split; [extend|]. split; [discriminate|]. split; auto.
    intros Z. errs. constructor. auto.
  - rewrite pnext_eq.
    destruct (tok_type (ppeek (skip ps))) eqn:T2;
      try solve [simpl; split; [extend|split; [intros; discriminate|exact I]]].
    + apply wpp_bind. apply Call; simpl; auto; try intoks.
      intros n q A B C. simpl. split; [extend|]. split; [discriminate|]. split; auto.
      intros Z. errs. constructor. auto.
    + apply wpp_bind. apply Call; simpl; auto; try intoks.
      intros n q A B C. simpl. split; [extend|]. split; [discriminate|]. split; [located; rewrite <- T2; located|].
      intros Z. errs. constructor. constructor; auto. constructor.
    + unfold parse_node_assign_rhs. apply wpp_bind, wpp_bind.
      apply Call; simpl; try intoks; auto. intros r q' A' B' C'.
      assert (E : extends ps q') by extend.
      destruct (covering (ppeek ps) (ppeek (skip ps))) eqn:Cv; simpl; auto.
      apply covering_in in Cv; [|intoks].
      split; [extend|]. split; [discriminate|]. split; [located|]. intros Z. errs.
      constructor. constructor. auto.
Qed.

Lemma parse_loop_trees fuel rounds : forall stmts ps,
  toks_in ps -> Forall loc stmts -> (p_errs ps = [] -> Forall whole_statement stmts) ->
  wpp (parse_loop rounds fuel stmts ps) (fun r =>
    Forall loc (fst r) /\ (p_errs (snd r) = [] -> Forall whole_statement (fst r))).
Proof.
  induction rounds as [|rounds IH]; intros stmts ps TI HL HW; [exact I|].
  cbn [parse_loop]. destruct (p_errs ps) as [|e es] eqn:Er.
  2:{ simpl. split; auto. rewrite Er. discriminate. }
  apply wpp_bind. eapply wpp_mono; [apply toplevel_trees; auto|].
  intros [r q] [A [B C]]. cbn [fst snd] in *. destruct r.
  - destruct C as [C1 C2]. apply IH.
    + apply toks_in_extends with ps; auto.
    + apply Forall_snoc; auto.
    + intros Z. apply Forall_snoc; auto.
  - apply IH; auto. apply toks_in_extends with ps; auto.
  - simpl. auto.
Qed.

Lemma parse_trees stmts errs : parse content = Ret (stmts, errs) ->
  Forall loc stmts /\ (errs = [] -> Forall whole_statement stmts).
Proof.
  unfold parse, parse_tokens. intros H.
  assert (W := parse_loop_trees (parse_fuel (all_tokens content)) (2 * length (all_tokens content) + 2)
      [] (mkP (all_tokens content) [])).
  assert (TI : toks_in (mkP (all_tokens content) [])).
  { apply wf_good, all_tokens_wf. }
  specialize (W TI (Forall_nil _) (fun _ => Forall_nil _)).
  destruct (parse_loop _ _ _ _) as [[l q]| |]; simpl in *; try discriminate.
  injection H as <- <-. exact W.
Qed.

(** The parser stops after the statement with the first error. *)
Lemma parse_loop_whole fuel rounds : forall stmts ps,
  toks_in ps -> (p_errs ps = [] -> Forall whole_statement stmts) -> Forall whole_statement (removelast stmts) ->
  wpp (parse_loop rounds fuel stmts ps) (fun r => Forall whole_statement (removelast (fst r))).
Proof.
  induction rounds as [|rounds IH]; intros stmts ps TI HW HR; [exact I|].
  cbn [parse_loop]. destruct (p_errs ps) as [|e es] eqn:Er; [|exact HR].
  apply wpp_bind. eapply wpp_mono; [apply toplevel_trees; auto|].
  intros [r q] [A [B C]]. cbn [fst snd] in *. destruct r.
  - destruct C as [C1 C2]. apply IH.
    + apply toks_in_extends with ps; auto.
    + intros Z. apply Forall_snoc; auto.
    + rewrite removelast_last. auto.
  - apply IH; auto. apply toks_in_extends with ps; auto.
  - exact HR.
Qed.
Lemma parse_whole stmts errs : parse content = Ret (stmts, errs) -> Forall whole_statement (removelast stmts).
Proof.
  unfold parse, parse_tokens. intros H.
  assert (W := parse_loop_whole (parse_fuel (all_tokens content)) (2 * length (all_tokens content) + 2)
      [] (mkP (all_tokens content) [])).
  assert (TI : toks_in (mkP (all_tokens content) [])).
  { apply wf_good, all_tokens_wf. }
  specialize (W TI (fun _ => Forall_nil _) (Forall_nil _)).
  destruct (parse_loop _ _ _ _) as [[l q]| |]; simpl in *; try discriminate.
  injection H as <- <-. exact W.
Qed.
End Trees.

(** Without an error the parser stops only at the end of the file. *)
Lemma wf_eof_last content toks : wf_toks content toks -> tok_type (hd eof_token toks) = TEof ->
  exists e, toks = [e].
Proof. intros H. destruct H; simpl; eauto. contradiction. Qed.

Lemma parse_loop_eof content fuel rounds : forall stmts ps,
  wf_toks content (p_toks ps) -> 6 * remaining ps + 6 <= fuel -> remaining ps < rounds ->
  wp (parse_loop rounds fuel stmts ps) (fun r =>
    p_errs (snd r) = [] -> remaining (snd r) = 1 /\ tok_type (ppeek (snd r)) = TEof).
Proof.
  induction rounds as [|rounds IH]; intros stmts ps W F R; [lia|].
  cbn [parse_loop]. destruct (p_errs ps) as [|e es] eqn:Er.
  2:{ simpl. rewrite Er. discriminate. }
  assert (T1 := toplevel_total content fuel ps W F).
  assert (T2 := toplevel_trees content fuel ps (wf_good _ _ W)).
  apply wp_bind. destruct (parse_toplevel fuel ps) as [[r q]| |] eqn:Ep; try contradiction.
  simpl in T1, T2 |- *. destruct T1 as [A [B C]]. destruct T2 as [_ [D _]].
  destruct r.
  - destruct C as [C|C]; [discriminate|]. apply IH; auto; lia.
  - destruct C as [C|C]; [discriminate|]. apply IH; auto; lia.
  - simpl. intros Z. specialize (D Z eq_refl).
    destruct (wf_eof_last content (p_toks ps) W) as [e Ee].
    { unfold ppeek in D. destruct (p_toks ps); simpl in *; auto. }
    destruct B as [[l El] _]. rewrite Ee in El.
    destruct l as [|x [|y l]]; simpl in El.
    + unfold remaining, ppeek in *. rewrite Ee in D. rewrite <- El. auto.
    + injection El as _ El. rewrite <- El in A. inversion A.
    + discriminate.
Qed.

Theorem parse_to_end content : exists stmts ps,
  parse_loop (2 * length (all_tokens content) + 2) (parse_fuel (all_tokens content)) []
    (mkP (all_tokens content) []) = Ret (stmts, ps) /\
  parse content = Ret (stmts, p_errs ps) /\
  (p_errs ps = [] -> exists e, p_toks ps = [e] /\ tok_type e = TEof).
Proof.
  assert (H := parse_loop_eof content (parse_fuel (all_tokens content))
     (2 * length (all_tokens content) + 2) [] (mkP (all_tokens content) []) (all_tokens_wf content)).
  unfold remaining in H. cbn [p_toks] in H.
  specialize (H ltac:(unfold parse_fuel; lia) ltac:(lia)).
  unfold parse, parse_tokens.
  destruct (parse_loop _ _ _ _) as [[l q]| |]; try contradiction. simpl in *.
  exists l, q. split; auto. split; auto. intros Z. destruct (H Z) as [A B].
  unfold ppeek in B. destruct (p_toks q) as [|e [|? ?]]; simpl in *; try lia. eauto.
Qed.
