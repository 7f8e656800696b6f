(** The parser complains as early as possible: what is before the token of its first complaint can be completed. *)
From Coq Require Import Lia.
From Verif Require Import Base M_Scanner S_Scanner P_Scanner M_Ast M_Parser S_Parser P_Parser S_Grammar P_Grammar.

Section Stuck.
Variable content : str.
Notation ok := (fun ps => wf_toks content (p_toks ps)).

(** Tokens to complete a text with. *)
Definition fill_text (ty : toktype) : str :=
  match ty with
  | TIdentifier => $"x" | TCloseParen => $")" | TCloseSquare => $"]" | TCloseBrace => $"}" | TColon => $":"
  | TAssign => $"=" | TIn => $"in" | TComma => $"," | TFor => $"for" | TOpenParen => $"(" | _ => []
  end.
Definition fillers : list toktype := [TIdentifier; TCloseParen; TCloseSquare; TCloseBrace; TColon; TAssign; TIn].
Definition F (ty : toktype) : token := mkToken ty (length content + 3) (fill_text ty) false.
(** The token that was expected. *)
Definition wanted (ty : toktype) : token := mkToken ty (length content) (fill_text ty) false.
Definition advised (why : reason) : list toktype :=
  match why with
  | RAssignment => [TAssign]
  | RIdentifier | RValue => [TIdentifier]
  | RCallOrAssignment => [TOpenParen; TAssign]
  | RCommaOrClose end_tok => [TComma; end_tok]
  | RColonOrSquare | RMapColon => [TColon]
  | REmptyTuple => [TCloseParen]
  | RTupleComma => [TComma]
  | RForOrClose end_tok => [TFor; end_tok; TComma]
  | RIn => [TIn]
  | RComprehensionEnd end_tok => [end_tok]
  | REmptyAccess | RAccessEnd | RNoBounds | RInt => []
  end.
Definition advice (why : reason) (more : list token) : Prop := more = [] \/ exists ty, In ty (advised why) /\ more = [wanted ty].
Definition completes (G : list token -> Prop) (used : list token) : Prop :=
  exists tys, Forall (fun ty => In ty fillers) tys /\ G (used ++ map F tys).
Lemma completes_in (G G' : list token -> Prop) tys0 u us : Forall (fun ty => In ty fillers) tys0 -> completes G us ->
  (forall ts, G ts -> G' (u ++ ts ++ map F tys0)) -> completes G' (u ++ us).
Proof.
  intros A (tys & B & C) H. exists (tys ++ tys0). split; [apply Forall_app; auto|]. specialize (H _ C). rewrite map_app, <- app_assoc. rewrite <- app_assoc in H. exact H.
Qed.
Lemma completes_now (G : list token -> Prop) tys u : Forall (fun ty => In ty fillers) tys -> G (u ++ map F tys) -> completes G u.
Proof. intros A B. exists tys. auto. Qed.
Lemma completes_imp (G G' : list token -> Prop) u : completes G u -> (forall ts, G ts -> G' ts) -> completes G' u.
Proof. intros (tys & A & B) H. exists tys. auto. Qed.
Ltac adv := let I := fresh in intros ? [->|(? & I & ->)]; [rewrite ?app_nil_r|cbn in I; repeat destruct I as [<-|I]; try solve [destruct I]].
Ltac fine := solve [repeat (apply Forall_cons; [first [assumption|cbn; auto 10]|]); apply Forall_nil].

Lemma fill_operand ty : ty = TIdentifier -> operand [F ty] (NId (token_view (F ty))).
Proof. intros ->. constructor. reflexivity. Qed.
Lemma wanted_operand : operand [wanted TIdentifier] (NId (token_view (wanted TIdentifier))).
Proof. constructor. reflexivity. Qed.
Lemma fill_expr opt : expr opt false [F TIdentifier] (NId (token_view (F TIdentifier))).
Proof. constructor. now apply fill_operand. Qed.

Definition closing (ty : toktype) : Prop := In ty [TCloseParen; TCloseSquare; TCloseBrace; TIn].
Definition viable (p : production) (first : token) : list token -> Prop :=
  match p with
  | PExpression opt => completes (fun ts => exists d n, expr opt d ts n)
  | PExpressionLoop m => fun used => ~ ends first /\ forall h ts, head h ts m -> (h = true -> ~ starter first) ->
      completes (fun us => exists d n, forall opt, (h = true -> opt = true) -> expr opt d (ts ++ us) n) used
  | PValueOrIdentifier _ | PParenExpressionOrTuple => completes (fun ts => exists n, operand ts n)
  | PTupleLoop _ => completes (fun ts => exists l, tuple_rest ts l)
  | PArrayOrSliceAccess => completes (fun ts => exists us c n, ts = us ++ [c] /\ tok_type c = TCloseSquare /\ access us n)
  | PIfElse m => fun used => forall h ts, head h ts m ->
      completes (fun us => exists d n, forall opt, (h = true -> opt = true) -> expr opt d (ts ++ us) n) used
  | PElement e => completes (fun ts => exists n, item (item_kind e) ts n)
  | PList _ _ e close => fun used => tok_type first <> close /\ completes (fun ts => exists l, items (item_kind e) close ts l) used
  | PListOrListComprehension ty e => completes (fun ts => exists n, bracket ty (item_kind e) (end_token_for ty) ts n)
  | PComprehensionFor _ _ close => fun used => forall target, completes (fun ts => exists n, clauses close target ts n) used
  | PFunCall _ => completes (fun ts => exists l, items Arguments TCloseParen ts l)
  end.
Definition pre_stuck (p : production) (ps : pstate) : Prop :=
  match p with
  | PParenExpressionOrTuple => tok_type (ppeek ps) = TOpenParen
  | PIfElse _ => tok_type (ppeek ps) = TIf
  | PList _ _ _ close => closing close
  | PComprehensionFor _ _ close => closing close
  | PListOrListComprehension _ e => e <> EOptionalIdentifier
  | _ => True
  end.
Lemma closing_filler c : closing c -> In c fillers.
Proof. unfold closing. cbn. intuition. Qed.
Lemma closing_not_eof c : closing c -> c <> TEof.
Proof. unfold closing. cbn. intuition congruence. Qed.
Lemma pre_stuck_gram p ps : pre_stuck p ps -> pre_gram p ps.
Proof. destruct p; cbn; auto using closing_not_eof. Qed.

Definition closes (why : reason) : Prop :=
  match why with RCommaOrClose close | RForOrClose close | RComprehensionEnd close => closing close | _ => True end.
Local Hint Extern 0 (closes _) => (cbn [closes]; first [exact I|assumption]) : core.
(** The first complaint is about [t], and what is before it satisfies [G]. *)
Definition blocked (ts : list token) (errs : list complaint) (G : list token -> Prop) : Prop :=
  exists used t rest why es, ts = used ++ t :: rest /\ errs = es ++ [mkComplaint t why] /\
    closes why /\ forall more, advice why more -> G (used ++ more).
Definition post_stuck (p : production) (ps : pstate) (r : node * pstate) : Prop :=
  p_errs ps = [] -> p_errs (snd r) <> [] -> blocked (p_toks ps) (p_errs (snd r)) (viable p (ppeek ps)).

Lemma blocked_carry ts q q' G : blocked ts (p_errs q) G -> extends q q' -> blocked ts (p_errs q') G.
Proof. intros (u & t & r & w & es & A & B & C) (_ & e & E). exists u, t, r, w, (e ++ es). rewrite E, B, app_assoc. auto. Qed.
Lemma blocked_under u ts ts' e (G G' : list token -> Prop) : blocked ts' e G' -> ts = u ++ ts' -> (forall us, G' us -> G (u ++ us)) -> blocked ts e G.
Proof. intros (us & t & r & w & es & -> & B & C) -> H. exists (u ++ us), t, r, w, es. rewrite <- app_assoc. split; [reflexivity|]. split; [exact B|]. destruct C as [K C]. split; [exact K|]. intros m Hm. rewrite <- app_assoc. auto. Qed.
Lemma blocked_imp ts e (G G' : list token -> Prop) : blocked ts e G' -> (forall us, G' us -> G us) -> blocked ts e G.
Proof. intros (us & t & r & w & es & A & B & C) H. exists us, t, r, w, es. destruct C. auto 10. Qed.
Lemma blocked_here u ps q why (G : list token -> Prop) q0 : closes why -> ok q -> p_toks ps = u ++ p_toks q -> p_errs q0 = [] -> (forall more, advice why more -> G (u ++ more)) -> blocked (p_toks ps) (p_errs (perr (ppeek q) why q0)) G.
Proof.
  intros K W E Z H. exists u, (ppeek q), (tl (p_toks q)), why, []. rewrite E. split; [|split; [cbn; rewrite Z; reflexivity|split; [exact K|exact H]]].
  unfold ppeek. cbv beta in W. destruct (p_toks q) as [|t l] in W |- *; [inversion W|reflexivity].
Qed.
Lemma peek_good ps : ok ps -> good_token content (ppeek ps).
Proof. cbv beta. unfold ppeek. intros W. inversion W as [e Te Ge Ee|t l Tt Gt Ot Wl Ee]; [exact Ge|exact Gt]. Qed.
Lemma errs_dec q : p_errs q = [] \/ p_errs q <> [].
Proof. destruct (p_errs q); [left; reflexivity|right; discriminate]. Qed.

Lemma items_last k close ts n c : item k ts n -> tok_type c = close -> exists l, items k close (ts ++ [c]) l.
Proof.
  intros I C. destruct ts as [|t ts]; [exists []; constructor; exact C|]. exists [n]. apply I_last; [discriminate|exact I|exact C].
Qed.
Lemma items_comma k close ts n : item k ts n -> exists l, items k close ((ts ++ [wanted TComma]) ++ [F close]) l.
Proof.
  intros I. rewrite <- app_assoc. cbn [app]. eexists. eapply I_more; [exact I|reflexivity|]. constructor. reflexivity.
Qed.
Lemma clauses_head close n ts t : clauses close n ts t -> (exists c, ts = [c] /\ tok_type c = close) \/ exists f rs, ts = f :: rs /\ tok_type f = TFor.
Proof. destruct 1; [left|right]; eauto. Qed.
Lemma variables_plain ts l : items Variables TIn ts l -> variables ts l.
Proof.
  intros H. inversion H as [k c x E|k c us n x Nn I E|k c us n cm rs l' I E R]; subst.
  - eapply V_plain; [reflexivity| |exact H]. congruence.
  - inversion I; subst; [|congruence]. eapply V_plain; [reflexivity| |exact H]. congruence.
  - inversion I; subst; eapply V_plain; try exact H; try reflexivity; congruence.
Qed.

Ltac extend := cbn [fst snd]; repeat first
  [ apply extends_refl
  | match goal with
    | H : extends ?x ?y |- extends ?z ?y => apply extends_trans with x; [clear H|exact H]
    | |- extends ?x (skip ?y) => apply extends_trans with y; [|apply extends_skip]
    | |- extends ?x (perr ?t _ ?y) => apply extends_trans with y; [|apply extends_err]
    | |- extends ?x (if ?c then _ else _) => destruct c
    end ].
Ltac istok := repeat match goal with
  | H : is_tok _ _ = true |- _ => apply is_tok_true in H
  | H : is_tok _ _ = false |- _ => apply is_tok_false in H
  | H : negb (is_tok _ _) = true |- _ => apply negb_true_iff, is_tok_false in H
  | H : negb (is_tok _ _) = false |- _ => apply negb_false_iff, is_tok_true in H
  end.
Ltac noeof := let X := fresh in intros X; match goal with H : tok_type ?t = _ |- _ =>
   match type of X with tok_type t = _ => rewrite X in H; discriminate H end end.
Ltac step ps := let R := fresh "R" in
  assert (R : p_toks ps = ppeek ps :: p_toks (skip ps)) by (apply (read_skip content); [auto using skip_wf|noeof]).
Ltac toks := repeat match goal with
    | H : p_toks ?a = _ |- context [p_toks ?a] => rewrite H end;
  cbn [app]; repeat (rewrite <- ?app_assoc; cbn [app]); try reflexivity.
Ltac okk := auto using skip_wf.
Ltac zero := repeat match goal with
  | Z : p_errs ?a = [], C : p_errs ?a = [] -> _ |- _ => specialize (C Z)
  | Z : p_errs ?a <> [], C : p_errs ?a <> [] -> _ |- _ => specialize (C Z)
  | Z : p_errs ?a = [], C : p_errs (skip ?a) = [] -> _ |- _ => rewrite errs_skip in C; specialize (C Z)
  end.
(* was there a complaint up to [q]? *)
Ltac cases q := let Z := fresh "Z" in destruct (errs_dec q) as [Z|Z]; zero.

Lemma stuck fuel : forall p ps, ok ps -> pre_stuck p ps -> wpp (run fuel p ps) (post_stuck p ps).
Proof.
  induction fuel as [|fuel IH]; intros p ps W Pre; [simpl; auto|].
  assert (Call : forall p ps' (Q : node * pstate -> Prop),
    ok ps' -> pre_stuck p ps' ->
    (forall n q, ok q -> extends ps' q ->
      (p_errs q = [] -> exists used, p_toks ps' = used ++ p_toks q /\ derives p (ppeek ps') used n (ppeek q)) ->
      (p_errs ps' = [] -> p_errs q <> [] -> blocked (p_toks ps') (p_errs q) (viable p (ppeek ps'))) ->
      Q (n, q)) ->
    wpp (run fuel p ps') Q).
  { intros p' ps' Q H1 H2 H3. apply wpp_mono with (fun r => post_gram content p' ps' r /\ post_stuck p' ps' r).
    - pose proof (sound content fuel p' ps' H1 (pre_stuck_gram _ _ H2)) as S. specialize (IH p' ps' H1 H2).
      destruct (run fuel p' ps'); cbn in *; auto.
    - intros [n q] [[A [B C]] D]. apply H3; auto. }
  cbn [run production_step].
  destruct p; cbn [pre_stuck production_step] in *.
  - (* Expression *)
    unfold parse_expression. apply wpp_bind.
    apply wpp_mono with (fun r => ok (snd r) /\ extends ps (snd r) /\
      (p_errs (snd r) = [] -> exists used, p_toks ps = used ++ p_toks (snd r) /\
         (fst r = NNull \/
          (exists h, head h used (fst r) /\ (h = true -> can_be_optional = true /\ ~ starter (ppeek (snd r)))) \/
          ends (ppeek (snd r)))) /\
      (p_errs ps = [] -> p_errs (snd r) <> [] -> blocked (p_toks ps) (p_errs (snd r)) (viable (PExpression can_be_optional) (ppeek ps)))).
    + assert (Un : unary (ppeek ps) ->
        wpp (do (n, ps0) <- run fuel (PExpression can_be_optional) (skip ps);
             Ret (NUnary (tok_type (ppeek ps)) n, ps0))
         (fun r => ok (snd r) /\ extends ps (snd r) /\
      (p_errs (snd r) = [] -> exists used, p_toks ps = used ++ p_toks (snd r) /\
         (fst r = NNull \/
          (exists h, head h used (fst r) /\ (h = true -> can_be_optional = true /\ ~ starter (ppeek (snd r)))) \/
          ends (ppeek (snd r)))) /\
      (p_errs ps = [] -> p_errs (snd r) <> [] -> blocked (p_toks ps) (p_errs (snd r)) (viable (PExpression can_be_optional) (ppeek ps))))).
      { intros U. apply wpp_bind. apply Call; [okk|exact I|].
        assert (R : p_toks ps = ppeek ps :: p_toks (skip ps)).
        { apply (read_skip content); auto. destruct U as [->| ->]; discriminate. }
        intros n q A B C D. cbn [wpp fst snd]. split; auto. split; [extend|]. split; [intros Z; zero|intros Z Z'; zero].
        - destruct C as [used [E [[d [C1 C2]]|[-> [-> [-> C]]]]]].
          + exists (ppeek ps :: used). split; [toks|]. right. right. eapply ends_expr_ends; eauto.
          + exists [ppeek ps]. split; [toks|]. right. left. exists true. split; [constructor; auto|]. auto.
        - eapply (blocked_under [ppeek ps]); [exact D|exact R|]. intros us H. eapply (completes_in _ _ [] [ppeek ps]); [fine|exact H|].
          intros ts (d & m & X). cbn [map app]. rewrite app_nil_r. exists d, (NUnary (tok_type (ppeek ps)) m). constructor; auto. }
      destruct (tok_type (ppeek ps)) eqn:T;
        try (apply Un; unfold unary; auto; fail);
        try (apply Call; [auto|simpl; auto|]; intros n q A B C D; split; [exact A|]; split; [exact B|]; cbn [fst snd] in *;
             (split; [intros Z; specialize (C Z); destruct C as [used [E C]]; exists used; split; [exact E|]; cbn [derives] in C;
                solve [ destruct C as [C Ca]; right; left; exists false; split; [constructor; exact C|discriminate]
                   | destruct C as [[C Ca]|[C1 [C2 [C3 C4]]]]; [right; left; exists false; split; [constructor; exact C|discriminate]|left; exact C2]]
              |intros Z Z'; eapply blocked_imp; [exact (D Z Z')|]; intros us H; apply (completes_imp _ _ _ H); intros ts (m & O); exists false, m; constructor; exact O])).
    + intros [n q] [A [B [C D]]]. cbn [fst snd] in *.
      destruct (is_null n) eqn:Nu; [exact D|].
      apply Call; [auto|exact I|]. intros n' q' A' B' C' D'. unfold post_stuck. cbn [fst snd]. intros Z Z'. cases q.
      * destruct C as [used [E X]]. eapply (blocked_under used); [exact D'|exact E|]. intros us [Ne H].
        destruct X as [X|[[h [X1 X2]]|X]]; [subst; discriminate| |contradiction].
        destruct (H h used X1) as (tys & T1 & d & m & H1); [intros ->; apply X2; reflexivity|].
        exists tys. split; [exact T1|]. exists d, m. rewrite <- app_assoc. apply H1. intros ->. apply X2. reflexivity.
      * eapply blocked_carry; eassumption.
  - (* ExpressionLoop *)
    unfold parse_expression_loop.
    destruct (is_tok (ppeek ps) TIf) eqn:Ti; istok.
    { apply Call; [auto|auto|]. intros n' q A B C D Z Z'. cbn [fst snd] in *. zero. eapply blocked_imp; [exact D|].
      intros us H. split; [intros [_ [X _]]; contradiction|]. intros h ts Hh _. apply H, Hh. }
    destruct (is_binary_operator (tok_type (ppeek ps))) eqn:Bi.
    { apply binary_iff in Bi. apply wpp_bind. apply Call; [okk|exact I|].
      intros n' q A B C D Z Z'. cbn [fst snd] in *. zero.
      assert (R : p_toks ps = ppeek ps :: p_toks (skip ps)).
      { apply (read_skip content); auto. intros X. unfold binary in Bi. rewrite X in Bi. simpl in Bi. intuition discriminate. }
      eapply (blocked_under [ppeek ps]); [exact D|exact R|]. intros us H. split; [intros [X _]; contradiction|].
      intros h ts Hh Hs. eapply (completes_in _ _ [] [ppeek ps]); [fine|exact H|]. intros rs (d & r & X). cbn [map app]. rewrite app_nil_r.
      exists d, (NBin (tok_type (ppeek ps)) n r (token_range (ppeek ps))). intros opt Ho. econstructor; eauto. intros ->. split; auto. intros Y. apply (Hs eq_refl). unfold starter.
      rewrite Y. simpl. auto. }
    apply binary_false in Bi.
    destruct (is_tok (ppeek ps) TOpenSquare) eqn:To; istok; [|intros Z Z'; contradiction].
    destruct (tok_newline (ppeek ps)) eqn:Nl; [intros Z Z'; contradiction|].
    assert (Ne : ~ ends (ppeek ps)) by (intros [_ [_ X]]; specialize (X To); congruence).
    assert (Hf : forall h : bool, (h = true -> ~ starter (ppeek ps)) -> h = false).
    { intros [|] Hs; auto. exfalso. apply (Hs eq_refl). unfold starter. rewrite To. simpl. auto 10. }
    apply wpp_bind. apply Call; [okk|exact I|]. intros acc q A B C D.
    apply Call; [auto|exact I|]. intros n' q' A' B' C' D' Z Z'. cbn [fst snd] in *. step ps. cases q.
    + destruct C as [used [E [us [c [-> [C1 C2]]]]]].
      eapply (blocked_under (ppeek ps :: us ++ [c])); [exact D'|toks|]. intros rs [_ H]. split; [exact Ne|]. intros h ts Hh Hs.
      rewrite (Hf h Hs) in *. inversion Hh; subst.
      assert (O : operand (ts ++ ppeek ps :: us ++ [c]) (NBin TOpenSquare n acc (token_range (ppeek ps)))) by (apply O_index; auto).
      destruct (H false _ (H_operand _ _ O)) as (tys & T1 & d & m & H1); [discriminate|]. exists tys. split; [exact T1|]. exists d, m.
      intros opt Ho. specialize (H1 opt Ho). revert H1. repeat (rewrite <- ?app_assoc; cbn [app]). auto.
    + eapply blocked_carry; [|exact B']. eapply (blocked_under [ppeek ps]); [exact D|exact R|]. intros rs H. split; [exact Ne|]. intros h ts Hh Hs.
      rewrite (Hf h Hs) in *. inversion Hh; subst.
      eapply (completes_in _ _ [] [ppeek ps]); [fine|exact H|]. intros us (vs & c & m & -> & H1 & H2). cbn [map app]. rewrite app_nil_r.
      exists false, (NBin TOpenSquare n m (token_range (ppeek ps))). intros opt _. apply E_operand. apply O_index; auto.
  - (* ValueOrIdentifier *)
    unfold parse_value_or_identifier.
    assert (Def : wpp (Ret (NNull, if can_be_optional then ps else perr (ppeek ps) RValue ps))
            (post_stuck (PValueOrIdentifier can_be_optional) ps)).
    { intros Z Z'. cbn [fst snd] in *. destruct can_be_optional; [contradiction|].
      apply (blocked_here [] ps ps); auto. adv.
      - apply (completes_now _ [TIdentifier]); [fine|]. eexists. apply fill_operand. reflexivity.
      - apply (completes_now _ []); [fine|]. eexists. apply wanted_operand. }
    destruct (tok_type (ppeek ps)) eqn:T; try exact Def; clear Def.
    + (* list *)
      apply Call; [okk|simpl; discriminate|]. intros n q A B C D Z Z'. cbn [fst snd] in *. zero. step ps.
      eapply (blocked_under [ppeek ps]); [exact D|exact R|]. intros us H. eapply (completes_in _ _ [] [ppeek ps]); [fine|exact H|].
      intros ts (m & X). cbn [map app]. rewrite app_nil_r. exists m. apply O_list; auto.
    + (* map *)
      apply Call; [okk|simpl; discriminate|]. intros n q A B C D Z Z'. cbn [fst snd] in *. zero. step ps.
      eapply (blocked_under [ppeek ps]); [exact D|exact R|]. intros us H. eapply (completes_in _ _ [] [ppeek ps]); [fine|exact H|].
      intros ts (m & X). cbn [map app]. rewrite app_nil_r. exists m. apply O_map; auto.
    + (* identifier *)
      destruct (is_tok (ppeek (skip ps)) TOpenParen) eqn:To; istok; [|intros Z Z'; cbn [snd] in *; rewrite errs_skip in *; contradiction].
      apply Call; [okk|exact I|]. intros n q A B C D Z Z'. cbn [fst snd] in *. rewrite !errs_skip in D. zero. step ps. step (skip ps).
      eapply (blocked_under [ppeek ps; ppeek (skip ps)]); [exact D|toks|]. intros us H. eapply (completes_in _ _ [] [ppeek ps; ppeek (skip ps)]); [fine|exact H|].
      intros ts (l & X). cbn [map app]. rewrite app_nil_r. eexists. apply O_call. constructor; eauto.
    + (* string *)
      apply wpp_bind. destruct (string_node (ppeek ps)) as [n| |] eqn:Sn; simpl; auto.
      intros Z Z'; cbn [snd] in *; rewrite errs_skip in *; contradiction.
    + (* number *)
      unfold parse_int_from_token. destruct (int_from_literal (tok_text (ppeek ps))) as [z|] eqn:Iz; intros Z Z'; cbn [snd] in *; [rewrite errs_skip in *; contradiction|].
      apply (blocked_here [] ps ps); auto; [now rewrite errs_skip|]. adv. apply (completes_now _ [TIdentifier]); [fine|]. eexists. apply fill_operand. reflexivity.
  - (* ParenExpressionOrTuple *)
    unfold parse_paren_expression_or_tuple. apply wpp_bind. apply Call; [okk|exact I|].
    intros n q A B C D. step ps.
    assert (Sub : p_errs ps = [] -> p_errs q <> [] -> blocked (p_toks ps) (p_errs q) (viable PParenExpressionOrTuple (ppeek ps))).
    { intros Z Z'. zero. eapply (blocked_under [ppeek ps]); [exact D|exact R|]. intros us H. eapply (completes_in _ _ [TCloseParen] [ppeek ps]); [fine|exact H|].
      intros ts (d & m & X). cbn [map app]. exists m. eapply O_paren; eauto. }
    destruct (is_null n) eqn:Nu; cbn [negb andb].
    + rewrite pnext_eq. intros Z Z'. cbn [fst snd] in *. cases q.
      * destruct (is_tok (ppeek q) TCloseParen); [rewrite errs_skip in Z'; contradiction|].
        apply is_null_true in Nu. subst n.
        destruct C as [used [E [[d [C _]]|[_ [_ [-> C]]]]]]; [exfalso; eapply expr_not_null; eauto|]. cbn [app] in E.
        apply (blocked_here [ppeek ps] ps q); auto; [toks|now rewrite errs_skip|]. adv.
        -- apply (completes_now _ [TCloseParen]); [fine|]. eexists. apply O_unit; auto.
        -- apply (completes_now _ []); [fine|]. eexists. apply O_unit; auto.
      * eapply blocked_carry; [exact Sub|]. extend.
    + destruct (is_tok (ppeek q) TCloseParen) eqn:Tc; istok.
      * intros Z Z'. cbn [fst snd] in *. rewrite errs_skip in *. auto.
      * apply Call; [auto|exact I|]. intros n' q' A' B' C' D' Z Z'. cbn [fst snd] in *. cases q; [|eapply blocked_carry; eassumption].
        destruct C as [used [E [[d [C _]]|[_ [-> _]]]]]; [|discriminate].
        eapply (blocked_under (ppeek ps :: used)); [exact D'|toks|]. intros us H. eapply (completes_in _ _ [] (ppeek ps :: used)); [fine|exact H|].
        intros ts (l & X). cbn [map app]. rewrite app_nil_r. inversion X; subst.
        -- exists n. eapply O_paren; eauto.
        -- eexists. eapply O_tuple; eauto.
        -- eexists. eapply O_tuple; eauto.
  - (* TupleLoop *)
    unfold parse_tuple_loop. rewrite pnext_eq.
    destruct (is_tok (ppeek ps) TCloseParen) eqn:Tc; istok.
    { intros Z Z'. cbn [snd] in *. rewrite errs_skip in *. contradiction. }
    destruct (negb (is_tok (ppeek ps) TComma)) eqn:Tm; istok.
    { intros Z Z'. cbn [snd] in *. apply (blocked_here [] ps ps); auto; [now rewrite errs_skip|]. adv.
      - apply (completes_now _ [TCloseParen]); [fine|]. eexists. apply T_end. reflexivity.
      - apply (completes_now _ [TIdentifier; TCloseParen]); [fine|]. eexists. apply (T_more (wanted TComma) false [F TIdentifier]); [reflexivity|apply fill_expr|]. apply T_end. reflexivity. }
    step ps.
    destruct (is_tok (ppeek (skip ps)) TCloseParen) eqn:Tc2; istok.
    { intros Z Z'. cbn [snd] in *. rewrite !errs_skip in *. contradiction. }
    apply wpp_bind. apply Call; [okk|exact I|]. intros n q A B C D.
    apply Call; [auto|exact I|]. intros n' q' A' B' C' D' Z Z'. cbn [fst snd] in *. cases q.
    + destruct C as [used [E [[d [C _]]|[X _]]]]; [|discriminate].
      eapply (blocked_under (ppeek ps :: used)); [exact D'|toks|]. intros us H. eapply (completes_in _ _ [] (ppeek ps :: used)); [fine|exact H|].
      intros ts (l & X). cbn [map app]. rewrite app_nil_r. eexists. eapply T_more; eauto.
    + eapply blocked_carry; [|exact B']. eapply (blocked_under [ppeek ps]); [exact D|exact R|]. intros us H. eapply (completes_in _ _ [TCloseParen] [ppeek ps]); [fine|exact H|].
      intros ts (d & m & X). cbn [map app]. eexists. eapply T_more; eauto. apply T_end. reflexivity.
  - (* ArrayOrSliceAccess *)
    unfold parse_array_or_slice_access. apply wpp_bind. apply Call; [okk|exact I|].
    intros n q A B C D. rewrite pnext_eq.
    assert (Sub : p_errs ps = [] -> p_errs q <> [] -> blocked (p_toks ps) (p_errs q) (viable PArrayOrSliceAccess (ppeek ps))).
    { intros Z Z'. zero. eapply (blocked_under []); [exact D|reflexivity|]. intros us H. eapply (completes_in _ _ [TCloseSquare] []); [fine|exact H|].
      intros ts (d & m & X). cbn [map app]. exists ts, (F TCloseSquare), m. split; [reflexivity|]. split; [reflexivity|]. econstructor; eauto. }
    assert (Bd : forall us m x, (exists d, expr true d us m /\ ends_expr d us x) \/
               (true = true /\ m = NNull /\ us = [] /\ ~ starter x) -> bound us m).
    { intros us m x [[d [Hx _]]|[_ [-> [-> _]]]]; econstructor; eauto. }
    assert (Nx : access [F TIdentifier] (NId (token_view (F TIdentifier)))) by (econstructor; apply fill_expr).
    destruct (is_tok (ppeek q) TCloseSquare) eqn:Tc; istok.
    { intros Z Z'. cbn [fst snd] in *. cases q; [|eapply blocked_carry; [exact Sub|extend]].
      destruct (is_null n) eqn:Nu; [|rewrite errs_skip in Z'; contradiction]. apply is_null_true in Nu. subst n.
      destruct C as [used [E [[d [C _]]|[_ [_ [-> C]]]]]]; [exfalso; eapply expr_not_null; eauto|]. cbn [app] in E.
      apply (blocked_here [] ps q); auto; [now rewrite errs_skip|]. adv. apply (completes_now _ [TIdentifier; TCloseSquare]); [fine|]. exists [F TIdentifier], (F TCloseSquare). eexists. split; [reflexivity|]. split; [reflexivity|exact Nx]. }
    destruct (is_tok (ppeek q) TColon) eqn:Tl; istok.
    2:{ intros Z Z'. cbn [fst snd] in *. cases q; [|eapply blocked_carry; [exact Sub|extend]].
        destruct C as [used [E [[d [C _]]|[_ [-> [-> C]]]]]].
        - apply (blocked_here used ps q); auto; [now rewrite errs_skip|]. adv.
          + apply (completes_now _ [TCloseSquare]); [fine|]. exists used, (F TCloseSquare), n. split; [reflexivity|]. split; [reflexivity|]. econstructor; eauto.
          + apply (completes_now _ [TCloseSquare]); [fine|]. exists (used ++ [wanted TColon]), (F TCloseSquare). eexists. split; [reflexivity|]. split; [reflexivity|].
            apply A_slice; [econstructor; eauto|reflexivity|constructor|left; eapply expr_not_null; eauto].
        - cbn [app] in E. apply (blocked_here [] ps q); auto; [now rewrite errs_skip|]. adv.
          + apply (completes_now _ [TIdentifier; TCloseSquare]); [fine|]. exists [F TIdentifier], (F TCloseSquare). eexists. split; [reflexivity|]. split; [reflexivity|exact Nx].
          + apply (completes_now _ [TIdentifier; TCloseSquare]); [fine|]. exists [wanted TColon; F TIdentifier], (F TCloseSquare). eexists. split; [reflexivity|]. split; [reflexivity|].
            apply (A_slice [] NNull (wanted TColon) [F TIdentifier]); [constructor|reflexivity|econstructor; apply fill_expr|]. right. discriminate. }
    step q. apply wpp_bind. apply Call; [okk|exact I|]. intros n' q' A' B' C' D'. rewrite pnext_eq.
    assert (Fin : p_errs ps = [] -> p_errs q' = [] -> forall why, advised why = [] ->
       blocked (p_toks ps) (p_errs (perr (ppeek q') why (skip q'))) (viable PArrayOrSliceAccess (ppeek ps))).
    { intros Z Z' why Ad. assert (Zq : p_errs q = []) by (rewrite <- errs_skip; eapply extends_no_errs; eauto). zero.
      destruct C as [used [E C]]. destruct C' as [used' [E' C']]. cbn [derives] in C, C'. pose proof (Bd _ _ _ C) as B1. pose proof (Bd _ _ _ C') as B2.
      assert (Kw : closes why) by (destruct why; try discriminate Ad; exact I).
      apply (blocked_here (used ++ ppeek q :: used') ps q'); auto; [toks|now rewrite errs_skip|].
      intros ? [->|(? & I & ->)]; [rewrite app_nil_r|rewrite Ad in I; destruct I].
      destruct (is_null n && is_null n') eqn:Nu.
      - apply andb_true_iff in Nu as [N1 N2]. apply is_null_true in N1, N2. subst n n'.
        destruct C' as [[d [C' _]]|[_ [_ [-> C']]]]; [exfalso; eapply expr_not_null; eauto|].
        apply (completes_now _ [TIdentifier; TCloseSquare]); [fine|]. exists (used ++ [ppeek q; F TIdentifier]), (F TCloseSquare). eexists. split; [cbn [map]; rewrite <- !app_assoc; reflexivity|]. split; [reflexivity|].
        apply (A_slice used NNull (ppeek q) [F TIdentifier]); eauto; [econstructor; apply fill_expr|]. right. discriminate.
      - apply (completes_now _ [TCloseSquare]); [fine|]. exists (used ++ ppeek q :: used'), (F TCloseSquare). eexists. split; [reflexivity|]. split; [reflexivity|].
        apply A_slice; eauto. apply andb_false_iff in Nu as [Nu|Nu]; [left|right]; intros ->; discriminate. }
    assert (Sub' : p_errs ps = [] -> p_errs q' <> [] -> blocked (p_toks ps) (p_errs q') (viable PArrayOrSliceAccess (ppeek ps))).
    { intros Z Z'. cases q; [|eapply blocked_carry; [exact Sub|extend]]. destruct C as [used [E C]]. pose proof (Bd _ _ _ C) as B1.
      eapply (blocked_under (used ++ [ppeek q])); [exact D'|toks|]. intros us H. eapply (completes_in _ _ [TCloseSquare] (used ++ [ppeek q])); [fine|exact H|].
      intros ts (d & m & X). exists (used ++ ppeek q :: ts), (F TCloseSquare). eexists. split; [cbn [map]; repeat (rewrite <- ?app_assoc; cbn [app]); reflexivity|]. split; [reflexivity|].
      apply A_slice; eauto; [econstructor; eauto|]. right. eapply expr_not_null; eauto. }
    destruct (negb (is_tok (ppeek q') TCloseSquare)) eqn:Tc'; istok.
    { intros Z Z'. cbn [fst snd] in *. destruct (errs_dec q') as [Z1|Z1]; [apply Fin; auto|eapply blocked_carry; [exact (Sub' Z Z1)|extend]]. }
    destruct (is_null n && is_null n') eqn:Nu.
    { intros Z Z'. cbn [fst snd] in *. destruct (errs_dec q') as [Z1|Z1]; [apply Fin; auto|eapply blocked_carry; [exact (Sub' Z Z1)|extend]]. }
    intros Z Z'. cbn [fst snd] in *. rewrite errs_skip in *. auto.
  - (* IfElse *)
    unfold parse_if_else. step ps. apply wpp_bind. apply Call; [okk|exact I|].
    intros c q A B C D.
    assert (Sub : p_errs ps = [] -> p_errs q <> [] -> blocked (p_toks ps) (p_errs q) (viable (PIfElse if_branch) (ppeek ps))).
    { intros Z Z'. zero. eapply (blocked_under [ppeek ps]); [exact D|exact R|]. intros us H h ts Hh. eapply (completes_in _ _ [] [ppeek ps]); [fine|exact H|].
      intros cs (d & m & X). cbn [map app]. rewrite app_nil_r. exists true. eexists. intros opt Ho. eapply E_if; eauto. }
    destruct (is_tok (ppeek q) TElse) eqn:Te; istok; [|exact Sub].
    step q. apply wpp_bind. apply Call; [okk|exact I|]. intros el q' A' B' C' D' Z Z'. cbn [fst snd] in *.
    cases q; [|eapply blocked_carry; [exact Sub|extend]].
    destruct C as [used [E [[d [C Ce]]|[X _]]]]; [|discriminate].
    assert (d = false) as ->.
    { destruct d; auto. destruct Ce as [_ [_ [_ [X _]]]]. exfalso. apply X; auto. }
    eapply (blocked_under (ppeek ps :: used ++ [ppeek q])); [exact D'|toks|]. intros us H h ts Hh. eapply (completes_in _ _ [] (ppeek ps :: used ++ [ppeek q])); [fine|exact H|].
    intros es (d & m & X). cbn [map app]. rewrite app_nil_r, <- app_assoc. cbn [app]. exists d. eexists. intros opt Ho. eapply E_if_else; eauto.
  - (* Element *)
    unfold parse_element. destruct e; cbn [item_kind].
    + apply Call; [auto|exact I|]. intros n q A B C D Z Z'. cbn [fst snd] in *. zero. eapply blocked_imp; [exact D|].
      intros us H. apply (completes_imp _ _ _ H). intros ts (d & m & X). eexists. eapply I_expr; eauto.
    + unfold expression_or_assignment. apply wpp_bind. apply Call; [auto|exact I|].
      intros n q A B C D.
      assert (Sub : p_errs ps = [] -> p_errs q <> [] -> blocked (p_toks ps) (p_errs q) (viable (PElement EExpressionOrAssignment) (ppeek ps))).
      { intros Z Z'. zero. eapply blocked_imp; [exact D|]. intros us H. apply (completes_imp _ _ _ H). intros ts (d & m & X). eexists. eapply I_arg; eauto. }
      destruct (is_null n) eqn:Nu; [exact Sub|].
      destruct n as [|? ? ?|? ?|v|? ?|? ? ? ?|? ?|? ?|? ? ?|? ? ?|? ?]; try exact Sub.
      destruct (is_tok (ppeek q) TAssign) eqn:Ta; [|exact Sub]. istok. step q.
      unfold parse_node_assign_rhs. apply wpp_bind. apply Call; [okk|exact I|].
      intros r q' A' B' C' D'. apply wpp_bind.
      destruct (covering (id_token v) (ppeek q)) as [rg| |] eqn:Cv; simpl; auto.
      intros Z Z'. cbn [fst snd] in *. cases q; [|eapply blocked_carry; [exact Sub|extend]].
      destruct C as [used [E [[d [C _]]|[X _]]]]; [|discriminate].
      eapply (blocked_under (used ++ [ppeek q])); [exact D'|toks|]. intros us H. eapply (completes_in _ _ [] (used ++ [ppeek q])); [fine|exact H|].
      intros ts (d' & m & X). cbn [map app]. rewrite app_nil_r, <- app_assoc. cbn [app].
      destruct (expr_id _ _ _ _ C) as [t ->].
      eexists. eapply I_keyword; eauto; [reflexivity|]. instantiate (1 := rg).
      unfold covering, id_token in Cv. cbn in Cv.
      destruct (tok_off t <=? _) eqn:Le; [|discriminate]. injection Cv as <-.
      apply Nat.leb_le in Le. split; simpl; lia.
    + unfold parse_map_tuple. apply wpp_bind. apply Call; [auto|exact I|].
      intros k q A B C D. rewrite pnext_eq.
      assert (Sub : p_errs ps = [] -> p_errs q <> [] -> blocked (p_toks ps) (p_errs q) (viable (PElement EMapTuple) (ppeek ps))).
      { intros Z Z'. zero. eapply (blocked_under []); [exact D|reflexivity|]. intros us H. eapply (completes_in _ _ [TColon; TIdentifier] []); [fine|exact H|].
        intros ts (d & m & X). cbn [map app]. eexists. eapply I_pair; eauto. apply fill_expr. }
      destruct (negb (is_tok (ppeek q) TColon)) eqn:Tc; istok.
      { intros Z Z'. cbn [fst snd] in *. cases q; [|eapply blocked_carry; [exact Sub|extend]].
        destruct C as [used [E [[d [C _]]|[X _]]]]; [|discriminate].
        apply (blocked_here used ps q); auto; [now rewrite errs_skip|]. adv.
        - apply (completes_now _ [TColon; TIdentifier]); [fine|]. eexists. eapply I_pair; eauto. apply fill_expr.
        - apply (completes_now _ [TIdentifier]); [fine|]. eexists. cbn [map]. rewrite <- app_assoc. cbn [app]. eapply I_pair; [exact C|reflexivity|apply fill_expr]. }
      step q. apply wpp_bind. apply Call; [okk|exact I|]. intros v q' A' B' C' D' Z Z'. cbn [fst snd] in *.
      cases q; [|eapply blocked_carry; [exact Sub|extend]].
      destruct C as [used [E [[d [C _]]|[X _]]]]; [|discriminate].
      eapply (blocked_under (used ++ [ppeek q])); [exact D'|toks|]. intros us H. eapply (completes_in _ _ [] (used ++ [ppeek q])); [fine|exact H|].
      intros ts (d' & m & X). cbn [map app]. rewrite app_nil_r, <- app_assoc. cbn [app]. eexists. eapply I_pair; eauto.
    + unfold parse_optional_identifier. destruct (is_tok (ppeek ps) TIdentifier) eqn:Ti; intros Z Z'; cbn [snd] in *; rewrite ?errs_skip in *; contradiction.
  - (* List *)
    assert (Fc : Forall (fun ty => In ty fillers) [end_tok]) by (constructor; [apply closing_filler, Pre|constructor]).
    unfold parse_list. destruct (is_tok (ppeek ps) end_tok) eqn:Te; istok.
    { intros Z Z'; cbn [snd] in *; rewrite ?errs_skip in *; contradiction. }
    apply wpp_bind. apply Call; [auto|exact I|]. intros n q A B C D.
    assert (Sub : p_errs ps = [] -> p_errs q <> [] -> blocked (p_toks ps) (p_errs q) (viable (PList ty elems e end_tok) (ppeek ps))).
    { intros Z Z'. zero. eapply (blocked_under []); [exact D|reflexivity|]. intros us H. split; [exact Te|]. eapply (completes_in _ _ [end_tok] []); [exact Fc|exact H|].
      intros ts (m & X). cbn [map app]. eapply items_last; eauto. }
    destruct (is_tok (ppeek q) TComma) eqn:Tc; istok.
    { step q. apply Call; [okk|exact Pre|]. intros n' q' A' B' C' D' Z Z'. cbn [fst snd] in *.
      cases q; [|eapply blocked_carry; [exact Sub|extend]]. destruct C as [used [E C]].
      eapply (blocked_under (used ++ [ppeek q])); [exact D'|toks|]. intros us [_ H]. split; [exact Te|]. eapply (completes_in _ _ [] (used ++ [ppeek q])); [fine|exact H|].
      intros ts (l & X). cbn [map app]. rewrite app_nil_r, <- app_assoc. cbn [app]. eexists. eapply I_more; eauto. }
    destruct (is_tok (ppeek q) end_tok) eqn:Te'; cbn [negb]; istok.
    2:{ rewrite pnext_eq. intros Z Z'. cbn [fst snd] in *. cases q; [|eapply blocked_carry; [exact Sub|extend]]. destruct C as [used [E C]].
        apply (blocked_here used ps q); auto; [now rewrite errs_skip|]. adv; (split; [exact Te|]).
        - apply (completes_now _ [end_tok]); [exact Fc|]. eapply items_last; eauto.
        - apply (completes_now _ [end_tok]); [exact Fc|]. eapply items_comma; eauto.
        - apply (completes_now _ []); [fine|]. cbn [map]. rewrite app_nil_r. eapply items_last; eauto. }
    apply Call; [auto|exact Pre|]. intros n' q' A' B' C' D' Z Z'. cbn [fst snd] in *.
    cases q; [|eapply blocked_carry; [exact Sub|extend]]. destruct D' as (u & t & rest & why & es & _ & _ & _ & X). destruct (X [] (or_introl eq_refl)) as [X' _]. contradiction.
  - (* ListOrListComprehension *)
    unfold parse_list_or_list_comprehension.
    assert (Cl : closing (end_token_for ty)) by (destruct ty; cbn; auto).
    assert (Fc : Forall (fun ty => In ty fillers) [end_token_for ty]) by (constructor; [apply closing_filler, Cl|constructor]).
    destruct (is_tok (ppeek ps) (end_token_for ty)) eqn:Te; istok.
    { intros Z Z'; cbn [snd] in *; rewrite ?errs_skip in *; contradiction. }
    apply wpp_bind. apply Call; [auto|exact I|]. intros n q A B C D.
    assert (Sub : p_errs ps = [] -> p_errs q <> [] -> blocked (p_toks ps) (p_errs q) (viable (PListOrListComprehension ty e) (ppeek ps))).
    { intros Z Z'. zero. eapply (blocked_under []); [exact D|reflexivity|]. intros us H. eapply (completes_in _ _ [end_token_for ty] []); [exact Fc|exact H|].
      intros ts (m & X). cbn [map app]. destruct (items_last _ _ _ _ (F (end_token_for ty)) X eq_refl) as [l L]. eexists. apply B_items. exact L. }
    destruct (is_null n) eqn:Nu; [exact Sub|].
    assert (Def : wpp (run fuel (PList ty [n] e (end_token_for ty))
        (if is_tok (ppeek q) (end_token_for ty) then q else perr (ppeek q) (RForOrClose (end_token_for ty)) q))
        (post_stuck (PListOrListComprehension ty e) ps)).
    { destruct (is_tok (ppeek q) (end_token_for ty)) eqn:Tq.
      - istok. apply Call; [auto|exact Cl|]. intros n' q' A' B' C' D' Z Z'. cbn [fst snd] in *.
        cases q; [|eapply blocked_carry; [exact Sub|extend]]. destruct D' as (u & t & rest & why & es & _ & _ & _ & X). destruct (X [] (or_introl eq_refl)) as [X' _]. contradiction.
      - apply Call; [auto|exact Cl|]. intros n' q' A' B' C' D' Z Z'. cbn [fst snd] in *.
        cases q; [|eapply blocked_carry; [exact Sub|extend]]. destruct C as [used [E C]].
        eapply blocked_carry; [|exact B']. apply (blocked_here used ps q); auto. adv.
        + apply (completes_now _ [end_token_for ty]); [exact Fc|]. destruct (items_last _ _ _ _ (F (end_token_for ty)) C eq_refl) as [l L]. eexists. apply B_items. exact L.
        + apply (completes_now _ [TIdentifier; TIn; TIdentifier; end_token_for ty]); [repeat (constructor; [first [apply closing_filler, Cl|cbn; auto 10]|]); constructor|].
          eexists. cbn [map]. rewrite <- app_assoc. cbn [app]. eapply B_comprehension; [exact C|reflexivity|].
          eapply (F_for _ _ (wanted TFor) [F TIdentifier; F TIn] _ false [F TIdentifier] _ (F (end_token_for ty)) [] (mkRange (length content + 3) 0)); [reflexivity| |apply fill_expr|split; cbn; lia|apply F_end; reflexivity].
          eapply V_plain; [reflexivity|discriminate|]. apply (I_last Variables TIn [F TIdentifier]); [discriminate|constructor; reflexivity|reflexivity].
        + apply (completes_now _ []); [fine|]. cbn [map]. rewrite app_nil_r. destruct (items_last _ _ _ _ (wanted (end_token_for ty)) C eq_refl) as [l L]. eexists. apply B_items. exact L.
        + apply (completes_now _ [end_token_for ty]); [exact Fc|]. destruct (items_comma _ (end_token_for ty) _ _ C) as [l L]. eexists. apply B_items. exact L. }
    destruct (tok_type (ppeek q)) eqn:T; auto; clear Def.
    + step q. apply Call; [okk|exact Cl|]. intros n' q' A' B' C' D' Z Z'. cbn [fst snd] in *.
      cases q; [|eapply blocked_carry; [exact Sub|extend]]. destruct C as [used [E C]].
      eapply (blocked_under (used ++ [ppeek q])); [exact D'|toks|]. intros us [_ H]. eapply (completes_in _ _ [] (used ++ [ppeek q])); [fine|exact H|].
      intros ts (l & X). cbn [map app]. rewrite app_nil_r, <- app_assoc. cbn [app]. eexists. apply B_items. eapply I_more; eauto.
    + apply wpp_bind. apply Call; [auto|exact Cl|]. intros n' q' A' B' C' D' Z Z'. cbn [fst snd] in *.
      cases q; [|eapply blocked_carry; [exact Sub|extend]]. destruct C as [used [E C]].
      eapply (blocked_under used); [exact D'|exact E|]. intros us H. specialize (H n). eapply (completes_in _ _ [] used); [fine|exact H|].
      intros ts (m & X). cbn [map app]. rewrite app_nil_r. destruct (clauses_head _ _ _ _ X) as [(c & -> & Tc)|(f & rs & -> & Tf)].
      * exists (NList ty [n]). apply B_items. apply I_last; auto. destruct e; try contradiction; eapply item_whole; try exact C; discriminate.
      * eexists. eapply B_comprehension; eauto.
  - (* ComprehensionFor *)
    assert (Fc : In end_tok fillers) by (apply closing_filler, Pre).
    unfold parse_comprehension_for.
    destruct (is_tok (ppeek ps) TFor) eqn:Fo; istok.
    2:{ rewrite pnext_eq. destruct (negb (is_tok (ppeek ps) end_tok)) eqn:Te; istok; intros Z Z'; cbn [snd] in *; [|rewrite ?errs_skip in *; contradiction].
        apply (blocked_here [] ps ps); auto; [now rewrite errs_skip|]. adv; intros m.
        - apply (completes_now _ [end_tok]); [fine|]. eexists. apply F_end. reflexivity.
        - apply (completes_now _ []); [fine|]. eexists. apply F_end. reflexivity. }
    rewrite pnext_eq. step ps. apply wpp_bind.
    assert (Gp : exists rg, gap (ppeek ps) (F end_tok) rg).
    { assert (K : good_token content (ppeek ps)) by (unfold ppeek; cbv beta in W; inversion W as [e Te Ge Ee|t l Tt Gt Ot Wl Ee]; [exact Ge|exact Gt]).
      exists (mkRange (tok_off (ppeek ps) + length (tok_text (ppeek ps))) (length content + 3 - (tok_off (ppeek ps) + length (tok_text (ppeek ps))))).
      destruct K as [K _]. split; cbn; lia. }
    destruct Gp as [rg0 Gp].
    assert (Vw : forall vs l m, variables vs l -> exists n, clauses end_tok m (ppeek ps :: vs ++ [F TIdentifier; F end_tok]) n).
    { intros vs l m V. eexists. eapply (F_for _ _ _ vs l false [F TIdentifier] _ (F end_tok) []); [exact Fo|exact V|apply fill_expr|exact Gp|]. apply F_end. reflexivity. }
    apply wpp_mono with (fun r => ok (snd r) /\ extends (skip ps) (snd r) /\
       (p_errs (snd r) = [] -> exists used l, p_toks (skip ps) = used ++ p_toks (snd r) /\
          fst r = NList LTuple l /\ variables used l) /\
       (p_errs ps = [] -> p_errs (snd r) <> [] -> blocked (p_toks ps) (p_errs (snd r)) (viable (PComprehensionFor target for_tree end_tok) (ppeek ps)))).
    { destruct (is_tok (ppeek (skip ps)) TOpenParen) eqn:To; istok.
      - step (skip ps). apply wpp_bind. apply Call; [okk|cbn; auto|].
        intros vars q A B C D. rewrite pnext_eq. cbn [fst snd].
        split; [destruct (is_tok _ _); apply (skip_wf content q A)|].
        split; [extend|]. cbn [fst snd]. split; [intros Z|intros Z Z'].
        + destruct (is_tok (ppeek q) TIn) eqn:Tn; [|discriminate]. rewrite errs_skip in Z. zero. istok. step q.
          destruct C as [used [E [_ [l [-> C]]]]].
          exists (ppeek (skip ps) :: used ++ [ppeek q]), l. split; [toks|]. split; [auto|].
          constructor; auto.
        + rewrite !errs_skip in D. cases q.
          * destruct (is_tok (ppeek q) TIn) eqn:Tn; [rewrite errs_skip in Z'; contradiction|].
            destruct C as [used [E [_ [l [-> C]]]]].
            apply (blocked_here (ppeek ps :: ppeek (skip ps) :: used) ps q); auto; [toks|now rewrite errs_skip|].
            adv; intros m.
            -- apply (completes_now _ [TIn; TIdentifier; end_tok]); [fine|].
               destruct (Vw (ppeek (skip ps) :: used ++ [F TIn]) l m) as [n X]; [apply V_paren; auto|]. exists n. revert X. cbn [map app]. rewrite <- app_assoc. auto.
            -- apply (completes_now _ [TIdentifier; end_tok]); [fine|].
               destruct (Vw (ppeek (skip ps) :: used ++ [wanted TIn]) l m) as [n X]; [apply V_paren; auto|]. exists n. exact X.
          * eapply (blocked_carry _ q); [|extend]. eapply (blocked_under [ppeek ps; ppeek (skip ps)]); [exact D|toks|]. intros us [_ H] m.
            eapply (completes_in _ _ [TIn; TIdentifier; end_tok] [ppeek ps; ppeek (skip ps)]); [fine|exact H|]. intros ts (l & X).
            destruct (Vw (ppeek (skip ps) :: ts ++ [F TIn]) l m) as [n Y]; [apply V_paren; auto|]. exists n. revert Y. cbn [map app]. rewrite <- app_assoc. auto.
      - apply Call; [okk|cbn; auto|]. intros vars q A B C D. split; [auto|]. split; [auto|].
        cbn [fst snd]. split; [intros Z|intros Z Z'; zero].
        + destruct (C Z) as [used [E [_ [l [-> X]]]]]. exists used, l. split; [auto|]. split; [auto|]. apply variables_plain, X.
        + eapply (blocked_under [ppeek ps]); [exact D|exact R|]. intros us [_ H] m.
          eapply (completes_in _ _ [TIdentifier; end_tok] [ppeek ps]); [fine|exact H|]. intros ts (l & X). apply (Vw ts l m), variables_plain, X. }
    intros [vars q] [A [B [C D]]]. cbn [fst snd] in *.
    apply wpp_bind. apply Call; [auto|exact I|]. intros values q' A' B' C' D'.
    apply wpp_bind. destruct (between (ppeek ps) (ppeek q')) as [rg| |] eqn:Bt; cbn [wpp]; auto.
    apply Call; [auto|auto|]. intros n' q'' A'' B'' C'' D'' Z Z'. cbn [fst snd] in *.
    cases q; [|eapply blocked_carry; [exact D|extend]]. destruct C as [vs [l [E [-> C]]]].
    cases q'.
    + destruct C' as [es [E' [[d [C' Ce]]|[X _]]]]; [|discriminate].
      destruct D'' as (us & t & rest & why & errs & T0 & T1 & Kw & H).
      exists (ppeek ps :: vs ++ es ++ us), t, rest, why, errs. split; [rewrite R, E, E', T0; cbn [app]; repeat (rewrite <- ?app_assoc; cbn [app]); reflexivity|]. split; [exact T1|]. split; [exact Kw|].
      intros more Hm m. specialize (H more Hm). set (us' := us ++ more) in *.
      assert (K : exists rg', forall nx rs, us' = [] /\ tok_off nx = length content + 3 \/ nx :: rs = us' -> gap (ppeek ps) nx rg').
      { destruct us' as [|nx us''] eqn:U.
        - exists rg0. intros nx rs [[_ Ho]|X]; [|discriminate]. destruct Gp as [G1 G2]. split; [exact G1|]. rewrite G2, Ho. reflexivity.
        - assert (Gn : exists rg', gap (ppeek ps) nx rg').
          { destruct us as [|u us].
            - cbn [app] in us'. destruct Hm as [->|(ty & _ & ->)]; [discriminate|]. injection U as <- <-. destruct (peek_good ps W) as [K _].
              exists (mkRange (tok_off (ppeek ps) + length (tok_text (ppeek ps))) (length content - (tok_off (ppeek ps) + length (tok_text (ppeek ps))))). split; cbn; lia.
            - cbn [app] in us'. injection U as <- <-. exists rg.
              assert (u = ppeek q') as -> by (unfold ppeek; rewrite T0; reflexivity).
              unfold between in Bt. destruct (_ <=? _) eqn:Le; [|discriminate]. injection Bt as <-.
              apply Nat.leb_le in Le. split; simpl; lia. }
          destruct Gn as [rg' Gn]. exists rg'. intros nx' rs [[X _]|X]; [discriminate|]. injection X as -> _. exact Gn. }
      destruct K as [rg' K].
      destruct (H (NBin TFor m (NBin TIn (NList LTuple l) values rg') (token_range (ppeek ps)))) as (tys & Y1 & n & Y2).
      exists tys. split; [exact Y1|].
      destruct (us' ++ map F tys) as [|nx rs] eqn:Q; [inversion Y2|].
      assert (Gx : gap (ppeek ps) nx rg').
      { destruct us' as [|u us'']; [apply (K nx rs); left; split; [reflexivity|]; destruct tys; [discriminate|]; cbn in Q; injection Q as <- _; reflexivity|]. cbn [app] in Q. injection Q as <- _. apply (K u us''). right. reflexivity. }
      exists n. replace (((ppeek ps :: vs ++ es ++ us) ++ more) ++ map F tys) with (ppeek ps :: vs ++ es ++ nx :: rs) by (rewrite <- Q; unfold us'; cbn [app]; rewrite <- !app_assoc; reflexivity).
      eapply F_for; eauto.
    + eapply blocked_carry; [|exact B'']. eapply (blocked_under (ppeek ps :: vs)); [exact D'|toks|]. intros us H m.
      eapply (completes_in _ _ [end_tok] (ppeek ps :: vs)); [fine|exact H|]. intros ts (d & v & X). cbn [map app]. eexists.
      eapply F_for; eauto. apply F_end. reflexivity.
  - (* FunCall *)
    unfold parse_fun_call. apply wpp_bind. apply Call; [auto|cbn; auto|].
    intros n q A B C D Z Z'. cbn [fst snd] in *. zero. eapply blocked_imp; [exact D|]. intros us [_ H]. exact H.
Qed.

(** ** Statements and files *)
Definition statement_or_none (ts : list token) : Prop :=
  ts = [] \/ (exists n, closed_statement ts n) \/ exists d n, open_statement d ts n.
Lemma fill_spans t : good_token content t -> exists rg, spans (tok_off t) (F TAssign) rg.
Proof. intros [K _]. exists (mkRange (tok_off t) (length content + 4 - tok_off t)). split; cbn; lia. Qed.
Lemma wanted_spans t : good_token content t -> exists rg, spans (tok_off t) (wanted TAssign) rg.
Proof. intros [K _]. exists (mkRange (tok_off t) (length content + 1 - tok_off t)). split; cbn; lia. Qed.
(** A statement, or the beginning of one, that starts with what was there or should have been. *)
Definition top (ps : pstate) (used : list token) : Prop :=
  completes statement_or_none used /\ forall u r, used = u :: r -> u = ppeek ps \/ u = wanted TIdentifier.
Lemma top_cons ps u : completes statement_or_none (ppeek ps :: u) -> top ps (ppeek ps :: u).
Proof. intros H. split; [exact H|]. intros u' r X. injection X as -> _. left. reflexivity. Qed.
Lemma top_under ps u ts' e (G' : list token -> Prop) : blocked ts' e G' -> p_toks ps = (ppeek ps :: u) ++ ts' ->
  (forall us, G' us -> completes statement_or_none ((ppeek ps :: u) ++ us)) -> blocked (p_toks ps) e (top ps).
Proof. intros B E H. eapply blocked_under; [exact B|exact E|]. intros us X. apply top_cons. exact (H us X). Qed.
Lemma top_here ps u q why q0 : closes why -> ok q -> p_toks ps = (ppeek ps :: u) ++ p_toks q -> p_errs q0 = [] ->
  (forall more, advice why more -> completes statement_or_none ((ppeek ps :: u) ++ more)) -> blocked (p_toks ps) (p_errs (perr (ppeek q) why q0)) (top ps).
Proof. intros K W E Z H. eapply blocked_here; [exact K|exact W|exact E|exact Z|]. intros more M. apply top_cons. exact (H more M). Qed.
Lemma covering_spans' a b rg : covering a b = Ret rg -> spans (tok_off a) b rg.
Proof. unfold covering. destruct (_ <=? _) eqn:Le; [|discriminate]. intros X. injection X as <-. apply Nat.leb_le in Le. split; simpl; lia. Qed.

Lemma toplevel_stuck fuel ps : ok ps -> p_errs ps = [] ->
  wpp (parse_toplevel fuel ps) (fun r => p_errs (snd r) <> [] -> blocked (p_toks ps) (p_errs (snd r)) (top ps)).
Proof.
  intros W Z. unfold parse_toplevel. rewrite pnext_eq.
  assert (W1 : ok (skip ps)) by (apply skip_wf; auto).
  assert (Call : forall p ps' (Q : node * pstate -> Prop),
    ok ps' -> pre_stuck p ps' ->
    (forall n q, ok q -> extends ps' q ->
      (p_errs q = [] -> exists used, p_toks ps' = used ++ p_toks q /\ derives p (ppeek ps') used n (ppeek q)) ->
      (p_errs ps' = [] -> p_errs q <> [] -> blocked (p_toks ps') (p_errs q) (viable p (ppeek ps'))) ->
      Q (n, q)) ->
    wpp (run fuel p ps') Q).
  { intros p' ps' Q H1 H2 H3. apply wpp_mono with (fun r => post_gram content p' ps' r /\ post_stuck p' ps' r).
    - pose proof (sound content fuel p' ps' H1 (pre_stuck_gram _ _ H2)) as S. pose proof (stuck fuel p' ps' H1 H2) as T.
      destruct (run fuel p' ps'); cbn in *; auto.
    - intros [n q] [[A [B C]] D]. apply H3; auto. }
  assert (Bad : wpp (Ret (TopEnd, perr (ppeek ps) RIdentifier (skip ps))) (fun r => p_errs (snd r) <> [] -> blocked (p_toks ps) (p_errs (snd r)) (top ps))).
  { intros Z'. cbn [snd]. apply (blocked_here [] ps ps); auto; [now rewrite errs_skip|]. adv.
    - split; [|discriminate]. apply (completes_now _ []); [fine|]. left. reflexivity.
    - split; [|intros u r X; injection X as <- _; right; reflexivity]. apply (completes_now _ [TAssign; TIdentifier]); [fine|]. right. right. exists false. eexists. cbn [map app].
      eapply (S_assign _ (wanted TIdentifier) (F TAssign) [F TIdentifier] _ (mkRange (length content) 4)); [reflexivity|reflexivity|apply fill_expr|split; cbn; lia]. }
  destruct (tok_type (ppeek ps)) eqn:T; try exact Bad; clear Bad.
  - (* unpacking *)
    step ps. apply wpp_bind. apply Call; [exact W1|cbn; auto|]. intros lhs q A B C D. rewrite pnext_eq.
    assert (Fin : forall ts l a rs d r rg, items Variables TCloseParen ts l -> tok_type a = TAssign -> expr false d rs r -> spans (tok_off (ppeek ps)) a rg ->
       statement_or_none (ppeek ps :: ts ++ a :: rs)).
    { intros ts l a rs d r rg H1 H2 H3 H4. right. right. exists d. eexists. eapply S_unpack; eauto. }
    destruct (fill_spans (ppeek ps) (peek_good ps W)) as [rg0 Sp].
    assert (Sub : p_errs q <> [] -> blocked (p_toks ps) (p_errs q) (top ps)).
    { intros Z'. zero. eapply (top_under ps []); [exact D|exact R|]. intros us [_ H]. eapply (completes_in _ _ [TAssign; TIdentifier] [ppeek ps]); [fine|exact H|].
      intros ts (l & X). cbn [map app]. eapply Fin; [exact X|reflexivity|apply fill_expr|exact Sp]. }
    destruct (negb (is_tok (ppeek q) TAssign)) eqn:Ta; istok.
    { intros Z'. cbn [snd] in *. cases q; [|eapply blocked_carry; [exact Sub|extend]]. destruct C as [used [E [_ [l [-> C]]]]].
      apply (top_here ps used q); auto; [toks|now rewrite errs_skip|]. destruct (wanted_spans (ppeek ps) (peek_good ps W)) as [rg1 Sp1]. adv.
      - apply (completes_now _ [TAssign; TIdentifier]); [fine|]. cbn [map app]. eapply Fin; [exact C|reflexivity|apply fill_expr|exact Sp].
      - apply (completes_now _ [TIdentifier]); [fine|]. cbn [map app]. rewrite <- app_assoc. cbn [app]. eapply Fin; [exact C|reflexivity|apply fill_expr|exact Sp1]. }
    unfold parse_node_assign_rhs. step q. apply wpp_bind, wpp_bind. apply Call; [okk|exact I|]. intros r q' A' B' C' D'. apply wpp_bind.
    destruct (covering (ppeek ps) (ppeek q)) as [rg| |] eqn:Cv; cbn [wpp bind]; auto. intros Z'. cbn [snd] in *.
    cases q; [|eapply blocked_carry; [exact Sub|extend]]. destruct C as [used [E [_ [l [-> C]]]]].
    eapply (top_under ps (used ++ [ppeek q])); [exact D'|toks|]. intros us H. eapply (completes_in _ _ [] (ppeek ps :: used ++ [ppeek q])); [fine|exact H|].
    intros ts (d & m & X). cbn [map app]. rewrite app_nil_r, <- app_assoc. cbn [app]. eapply Fin; eauto. apply covering_spans', Cv.
  - (* list *)
    step ps. apply wpp_bind. apply Call; [exact W1|cbn; discriminate|]. intros n q A B C D Z'. cbn [snd] in *. zero.
    eapply (top_under ps []); [exact D|exact R|]. intros us H. eapply (completes_in _ _ [] [ppeek ps]); [fine|exact H|].
    intros ts (m & X). cbn [map app]. rewrite app_nil_r. right. left. exists m. apply S_bracket; auto.
  - (* identifier *)
    step ps. rewrite pnext_eq. destruct (fill_spans (ppeek ps) (peek_good ps W)) as [rg0 Sp].
    assert (Z1 : p_errs (skip ps) = []) by now rewrite errs_skip.
    assert (W2 : ok (skip (skip ps))) by (apply skip_wf; auto).
    assert (Bad : wpp (Ret (TopEnd, perr (ppeek (skip ps)) RCallOrAssignment (skip (skip ps)))) (fun r => p_errs (snd r) <> [] -> blocked (p_toks ps) (p_errs (snd r)) (top ps))).
    { intros Z'. cbn [snd]. apply (top_here ps [] (skip ps)); auto; [now rewrite errs_skip|]. destruct (wanted_spans (ppeek ps) (peek_good ps W)) as [rg1 Sp1]. adv.
      - apply (completes_now _ [TAssign; TIdentifier]); [fine|]. right. right. exists false. eexists. cbn [map app]. eapply S_assign; [exact T|reflexivity|apply fill_expr|exact Sp].
      - apply (completes_now _ [TCloseParen]); [fine|]. right. left. eexists. apply S_call. cbn [map app]. apply (C_call (ppeek ps) (wanted TOpenParen) [F TCloseParen] []); [exact T|reflexivity|]. constructor. reflexivity.
      - apply (completes_now _ [TIdentifier]); [fine|]. right. right. exists false. eexists. cbn [map app]. eapply S_assign; [exact T|reflexivity|apply fill_expr|exact Sp1]. }
    destruct (tok_type (ppeek (skip ps))) eqn:Ta; try exact Bad; clear Bad.
    + step (skip ps). apply wpp_bind. apply Call; [exact W2|exact I|]. intros n q A B C D Z'. cbn [snd] in *. rewrite errs_skip in D. zero.
      eapply (top_under ps [ppeek (skip ps)]); [exact D|toks|]. intros us H. eapply (completes_in _ _ [] [ppeek ps; ppeek (skip ps)]); [fine|exact H|].
      intros ts (l & X). cbn [map app]. rewrite app_nil_r. right. left. eexists. apply S_call. constructor; eauto.
    + step (skip ps). apply wpp_bind. apply Call; [exact W2|exact I|]. intros n q A B C D Z'. cbn [snd] in *. rewrite errs_skip in D. zero.
      eapply (top_under ps [ppeek (skip ps)]); [exact D|toks|]. intros us H. eapply (completes_in _ _ [] [ppeek ps; ppeek (skip ps)]); [fine|exact H|].
      intros ts (d & m & X). cbn [map app]. rewrite app_nil_r. right. right. exists d. eexists. apply S_dot; eauto.
    + step (skip ps). unfold parse_node_assign_rhs. apply wpp_bind, wpp_bind. apply Call; [exact W2|exact I|]. intros n q A B C D. apply wpp_bind.
      destruct (covering (ppeek ps) (ppeek (skip ps))) as [rg| |] eqn:Cv; cbn [wpp bind]; auto. intros Z'. cbn [snd] in *. rewrite errs_skip in D. zero.
      eapply (top_under ps [ppeek (skip ps)]); [exact D|toks|]. intros us H. eapply (completes_in _ _ [] [ppeek ps; ppeek (skip ps)]); [fine|exact H|].
      intros ts (d & m & X). cbn [map app]. rewrite app_nil_r. right. right. exists d. eexists. eapply S_assign; eauto. apply covering_spans', Cv.
  - intros Z'. cbn [snd] in *. rewrite errs_skip in Z'. contradiction.
  - intros Z'. cbn [snd] in *. rewrite errs_skip in Z'. contradiction.
Qed.

Definition file_end : token := mkToken TEof (length content) [] false.
Definition file_viable (used : list token) : Prop :=
  exists tys l, Forall (fun ty => In ty fillers) tys /\ program (used ++ map F tys ++ [file_end]) l.
Lemma file_end_ends d ts : ends_expr d ts file_end.
Proof.
  unfold ends_expr, binary. cbn. repeat split; try discriminate. intros H. repeat destruct H as [H|H]; try discriminate. exact H.
Qed.
Lemma file_viable_nil : file_viable [].
Proof. exists [], []. split; [constructor|]. cbn. constructor. reflexivity. Qed.
Lemma statement_viable used : completes statement_or_none used -> file_viable used.
Proof.
  intros (tys & A & S). exists tys. assert (N : program [file_end] []) by (constructor; reflexivity). rewrite app_assoc.
  destruct S as [S|[[n S]|(d & n & S)]].
  - exists []. rewrite S. split; [exact A|exact N].
  - exists [n]. split; [exact A|]. apply G_closed; auto.
  - exists [n]. split; [exact A|]. eapply G_open; eauto. apply file_end_ends.
Qed.
Definition file_top (ps : pstate) (used : list token) : Prop :=
  file_viable used /\ forall u r, used = u :: r -> u = ppeek ps \/ u = wanted TIdentifier.
Lemma wanted_ends d ts : ends_expr d ts (wanted TIdentifier).
Proof.
  unfold ends_expr, binary. cbn. repeat split; try discriminate. intros H. repeat destruct H as [H|H]; try discriminate. exact H.
Qed.
Lemma statement_not_nil n d' t : closed_statement [] n \/ (exists d, open_statement d [] n /\ ends_expr d d' t) -> False.
Proof. intros [H|(d & H & _)]; [inversion H as [ts m X|]; subst; inversion X|inversion H]. Qed.
Lemma loop_stuck fuel rounds : forall stmts ps, ok ps -> p_errs ps = [] ->
  wpp (parse_loop rounds fuel stmts ps) (fun r => p_errs (snd r) <> [] -> blocked (p_toks ps) (p_errs (snd r)) (file_top ps)).
Proof.
  induction rounds as [|rounds IH]; intros stmts ps W Z; [exact I|]. cbn [parse_loop]. rewrite Z. apply wpp_bind.
  apply wpp_mono with (fun r => (p_errs (snd r) <> [] -> blocked (p_toks ps) (p_errs (snd r)) (top ps)) /\
    ok (snd r) /\
    (p_errs (snd r) = [] -> p_errs ps = [] /\
     match fst r with
     | TopEnd => exists e, p_toks ps = [e] /\ tok_type e = TEof
     | TopNothing => exists t, p_toks ps = t :: p_toks (snd r) /\ tok_type t = TStringLiteral
     | TopStatement n => exists used, p_toks ps = used ++ p_toks (snd r) /\
         (closed_statement used n \/
          exists d, open_statement d used n /\ ends_expr d used (ppeek (snd r)))
     end)).
  { pose proof (toplevel_stuck fuel ps W Z) as A. pose proof (toplevel_sound content fuel ps W) as B. destruct (parse_toplevel fuel ps); cbn in *; auto. }
  intros [r q] (A & B & C). cbn [fst snd] in *.
  assert (Stop : forall rs stmts', p_errs q <> [] -> wpp (parse_loop rs fuel stmts' q) (fun r => p_errs (snd r) <> [] -> blocked (p_toks ps) (p_errs (snd r)) (file_top ps))).
  { intros [|rs] stmts' Z'; [exact I|]. cbn [parse_loop]. destruct (p_errs q) eqn:Q; [congruence|]. intros _. cbn [snd]. rewrite Q. eapply blocked_imp; [apply A, Z'|]. intros us [H Hf]. split; [apply statement_viable, H|exact Hf]. }
  destruct (errs_dec q) as [Zq|Zq].
  - specialize (C Zq) as [_ C]. destruct r as [n| |].
    + destruct C as [used [E C]]. eapply wpp_mono; [apply IH; auto|]. intros [l q'] H Z'. cbn [snd] in *. specialize (H Z').
      destruct H as (us & t & rest & why & es & T0 & T1 & Kw & H). exists (used ++ us), t, rest, why, es. split; [rewrite E, T0, app_assoc; reflexivity|]. split; [exact T1|]. split; [exact Kw|].
      intros more Hm. specialize (H more Hm). rewrite <- app_assoc. set (us' := us ++ more) in *. destruct H as [H Hf].
      assert (H' : exists tys l, Forall (fun ty => In ty fillers) tys /\ program (us' ++ map F tys ++ [file_end]) l /\ (us' = [] -> tys = [])).
      { destruct us' as [|u us'']; [exists [], []; split; [constructor|]; split; [constructor; reflexivity|reflexivity]|]. destruct H as (tys & l' & H1 & H2). exists tys, l'. split; [exact H1|]. split; [exact H2|discriminate]. }
      destruct H' as (tys & l' & H1 & H2 & H3). split; [exists tys, (n :: l')|].
      * split; [exact H1|]. rewrite <- app_assoc.
        destruct C as [C|(d & C & Ce)]; [apply G_closed; auto|].
        destruct (us' ++ map F tys ++ [file_end]) as [|nx rs] eqn:Q; [destruct us'; [destruct tys|]; discriminate|].
        eapply G_open; [exact C| |exact H2].
        destruct us' as [|u us''] eqn:U.
        -- rewrite (H3 eq_refl) in Q. cbn in Q. injection Q as <- _. apply file_end_ends.
        -- cbn [app] in Q. injection Q as <- _. destruct (Hf u us'' eq_refl) as [->| ->]; [exact Ce|apply wanted_ends].
      * intros u r X. left. destruct used as [|u' used]; [exfalso; eapply statement_not_nil; exact C|]. injection X as <- _. unfold ppeek. rewrite E. reflexivity.
    + destruct C as [t [E C]]. eapply wpp_mono; [apply IH; auto|]. intros [l q'] H Z'. cbn [snd] in *. specialize (H Z').
      eapply (blocked_under [t]); [exact H|exact E|]. intros us ((tys & l' & H1 & H2) & _). split; [exists tys, l'; split; [exact H1|]; cbn [app]; apply G_comment; auto|]. intros u r X. injection X as <- _. left. unfold ppeek. rewrite E. reflexivity.
    + intros Z'. cbn [snd] in *. contradiction.
  - destruct r as [n| |]; [apply Stop; exact Zq|apply Stop; exact Zq|]. intros _. cbn [snd]. eapply blocked_imp; [apply A, Zq|]. intros us [H Hf]. split; [apply statement_viable, H|exact Hf].
Qed.
End Stuck.
