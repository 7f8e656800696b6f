(** What the parser reports first depends only on the tokens up to there. *)
From Coq Require Import Lia.
From Verif Require Import Base M_Scanner S_Scanner P_Scanner M_Ast M_Parser P_Parser P_Grammar.

(** * What no step of the parser loses *)
Definition keeps {A} (I : pstate -> Prop) (x : outcome (A * pstate)) : Prop := match x with Ret (_, q) => I q | _ => True end.
Definition steady (I : pstate -> Prop) : Prop :=
  (forall ps, I ps -> I (skip ps)) /\ (forall ps why, I ps -> I (perr (ppeek ps) why ps)) /\ (forall ps why, I ps -> I (perr (ppeek ps) why (skip ps))).
Lemma keeps_bind {A B} I (x : outcome (A * pstate)) (f : A * pstate -> outcome (B * pstate)) :
  keeps I x -> (forall a q, I q -> keeps I (f (a, q))) -> keeps I (bind x f).
Proof. destruct x as [[a q]| |]; cbn; auto. Qed.
Lemma keeps_pure {A B} I (x : outcome A) (f : A -> outcome (B * pstate)) : (forall a, keeps I (f a)) -> keeps I (bind x f).
Proof. destruct x; cbn; auto. Qed.

Ltac closed := cbn [keeps fst snd]; match goal with
  | |- ?I (if ?c then _ else _) => destruct c; closed
  | H : steady ?I |- ?I (perr (ppeek ?ps) _ (skip ?ps)) => apply (proj2 (proj2 H)); closed
  | H : steady ?I |- ?I (perr (ppeek ?ps) _ ?ps) => apply (proj1 (proj2 H)); closed
  | H : steady ?I |- ?I (skip ?ps) => apply (proj1 H); closed
  | H : ?I ?x |- ?I ?x => exact H
  end.
Ltac keep := match goal with
  | |- keeps _ (let x := _ in _) => cbv zeta; keep
  | |- keeps _ (Ret (_, _)) => closed
  | |- keeps _ UB => exact I
  | |- keeps _ OutOfFuel => exact I
  | IH : (forall p ps, ?P ps -> keeps ?P (?s p ps)) |- keeps ?P (?s _ _) => apply IH; closed
  | |- keeps _ (bind (covering _ _) _) => apply keeps_pure; intros; keep
  | |- keeps _ (bind (between _ _) _) => apply keeps_pure; intros; keep
  | |- keeps _ (bind (string_node _) _) => apply keeps_pure; intros; keep
  | |- keeps _ (bind _ _) => apply keeps_bind; [keep|intros; keep]
  | |- context [let '(_, _) := pnext ?x in _] => rewrite (pnext_eq x); keep
  | |- context [if ?c then _ else _] => destruct c; keep
  | |- context [match int_from_literal ?x with _ => _ end] => destruct (int_from_literal x); keep
  | |- context [match ?x with NNull => _ | _ => _ end] => destruct x; keep
  | |- context [match tok_type ?x with TIf => _ | _ => _ end] => destruct (tok_type x); keep
  | |- context [match ?e with EExpression => _ | _ => _ end] => destruct e; keep
  end.
Ltac open_step := cbn [production_step]; unfold parse_expression, parse_expression_loop, parse_value_or_identifier, parse_int_from_token,
  parse_paren_expression_or_tuple, parse_tuple_loop, parse_array_or_slice_access, parse_if_else, parse_element, expression_or_assignment,
  parse_node_assign_rhs, parse_map_tuple, parse_optional_identifier, parse_list, parse_list_or_list_comprehension, parse_comprehension_for, parse_fun_call.
Lemma run_keeps I (H : steady I) fuel : forall p ps, I ps -> keeps I (run fuel p ps).
Proof.
  induction fuel as [|fuel IH]; intros p ps P; [exact Logic.I|]. cbn [run]. generalize dependent (run fuel). intros self IH.
  destruct p; open_step; keep.
Qed.

(** * Two token lists with a common beginning *)
Section Two.
(** What comes after the common part; [after]: the tokens of [r]. *)
Variables r r' : list token.
Variable after : token -> Prop.
Hypothesis R : r <> [].
Hypothesis R' : r' <> [].
Hypothesis After : Forall after r.

(** Both are still in the common part, without complaint; both began with the same complaint; the first is past the common part without complaint about it. *)
Definition together (ps ps' : pstate) : Prop :=
  exists u, u <> [] /\ p_toks ps = u ++ r /\ p_toks ps' = u ++ r' /\ p_errs ps = [] /\ p_errs ps' = [].
Definition began (c : complaint) (ps : pstate) : Prop := exists es, p_errs ps = es ++ [c].
Definition past (ps : pstate) : Prop := p_toks ps <> [] /\ Forall after (p_toks ps) /\ Forall (fun c => after (e_tok c)) (p_errs ps).
Definition related {A} (x x' : outcome (A * pstate)) : Prop :=
  match x, x' with
  | Ret (a, q), Ret (a', q') => (a = a' /\ together q q') \/ (exists c, began c q /\ began c q') \/ past q
  | _, _ => True
  end.

Lemma steady_began c : steady (began c).
Proof.
  split; [|split].
  - intros ps [es E]. exists es. now rewrite errs_skip.
  - intros ps why [es E]. exists (mkComplaint (ppeek ps) why :: es). cbn. now rewrite E.
  - intros ps why [es E]. exists (mkComplaint (ppeek ps) why :: es). cbn. now rewrite errs_skip, E.
Qed.
Lemma past_skip ps : past ps -> past (skip ps).
Proof.
  intros (A & B & C). unfold past, skip, pnext. destruct (p_toks ps) as [|t [|u l]] eqn:E; cbn [snd p_toks p_errs]; rewrite ?E; [congruence|auto..].
  split; [discriminate|]. split; [|exact C]. inversion B; assumption.
Qed.
Lemma past_peek ps : past ps -> after (ppeek ps).
Proof. intros (A & B & _). unfold ppeek. destruct (p_toks ps); [congruence|]. inversion B; assumption. Qed.
Lemma steady_past : steady past.
Proof.
  split; [exact past_skip|]. split.
  - intros ps why P. pose proof (past_peek _ P). destruct P as (A & B & C). split; [exact A|]. split; [exact B|]. constructor; assumption.
  - intros ps why P. pose proof (past_peek _ P). destruct (past_skip _ P) as (A & B & C). split; [exact A|]. split; [exact B|]. constructor; assumption.
Qed.

Lemma together_peek ps ps' : together ps ps' -> ppeek ps' = ppeek ps.
Proof. intros (u & N & E & E' & _). unfold ppeek. rewrite E, E'. destruct u; [congruence|reflexivity]. Qed.
Lemma together_skip ps ps' : together ps ps' -> together (skip ps) (skip ps') \/ past (skip ps).
Proof.
  intros (u & N & E & E' & Z & Z'). destruct u as [|t u]; [congruence|].
  assert (S : p_toks (skip ps) = u ++ r). { unfold skip, pnext. rewrite E. cbn [app]. destruct (u ++ r) eqn:X; [apply app_eq_nil in X as [_ X]; congruence|reflexivity]. }
  assert (S' : p_toks (skip ps') = u ++ r'). { unfold skip, pnext. rewrite E'. cbn [app]. destruct (u ++ r') eqn:X; [apply app_eq_nil in X as [_ X]; congruence|reflexivity]. }
  destruct u as [|x u].
  - right. split; [rewrite S; exact R|]. rewrite S, errs_skip, Z. split; [exact After|constructor].
  - left. exists (x :: u). split; [discriminate|]. rewrite !errs_skip. auto.
Qed.
Lemma together_began ps ps' t why q q' : together ps ps' -> p_errs q = p_errs ps -> p_errs q' = p_errs ps' ->
  exists c, began c (perr t why q) /\ began c (perr t why q').
Proof.
  intros (u & _ & _ & _ & Z & Z') A A'. exists (mkComplaint t why). split; exists []; cbn; rewrite ?A, ?A', ?Z, ?Z'; reflexivity.
Qed.
Lemma related_bind {A B} (x x' : outcome (A * pstate)) (f : A * pstate -> outcome (B * pstate)) : related x x' ->
  (forall I a q, steady I -> I q -> keeps I (f (a, q))) ->
  (forall a q q', together q q' -> related (f (a, q)) (f (a, q'))) ->
  related (bind x f) (bind x' f).
Proof.
  intros H K F. destruct x as [[a q]| |], x' as [[a' q']| |]; cbn [bind]; try exact I; cbn [related] in H.
  - destruct H as [[<- T]|[(c & C & C')|P]]; [apply F, T| |].
    + pose proof (K _ a q (steady_began c) C) as X. pose proof (K _ a' q' (steady_began c) C') as X'.
      destruct (f (a, q)) as [[b p]| |], (f (a', q')) as [[b' p']| |]; cbn [related keeps] in *; try exact I. right. left. eauto.
    + pose proof (K _ a q steady_past P) as X. destruct (f (a, q)) as [[b p]| |], (f (a', q')) as [[b' p']| |]; cbn [related keeps] in *; try exact I. auto.
  - destruct (f (a, q)) as [[]| |]; exact I.
  - destruct (f (a, q)) as [[]| |]; exact I.
Qed.
Lemma related_past {A} (x x' : outcome (A * pstate)) : keeps past x -> related x x'.
Proof. destruct x as [[a q]| |], x' as [[a' q']| |]; cbn; auto. Qed.
Lemma related_began {A} c (x x' : outcome (A * pstate)) : keeps (began c) x -> keeps (began c) x' -> related x x'.
Proof. destruct x as [[a q]| |], x' as [[a' q']| |]; cbn; eauto. Qed.

Ltac rel_skip ps ps' := match goal with T : together ps ps' |- _ =>
  let T1 := fresh "T" in let P1 := fresh "P" in
  destruct (together_skip ps ps' T) as [T1|P1];
  [ clear T; generalize dependent (skip ps'); generalize dependent (skip ps); intros
  | apply related_past; pose proof steady_past; match goal with K : (forall I, steady I -> forall p ps, I ps -> keeps I (_ p ps)) |- _ => specialize (K past steady_past) | _ => idtac end; keep ] end.
Ltac rel := match goal with
  | |- related (let x := _ in _) _ => cbv zeta; rel
  | |- context [pnext ?x] => rewrite (pnext_eq x); rel
  | T : together ?q ?q' |- context [ppeek ?q'] => rewrite (together_peek q q' T); rel
  | |- related UB _ => exact I
  | |- related (bind (covering ?a ?b) _) _ => destruct (covering a b); cbn [bind]; [rel|exact I..]
  | |- related (bind (between ?a ?b) _) _ => destruct (between a b); cbn [bind]; [rel|exact I..]
  | |- related (bind (string_node ?a) _) _ => destruct (string_node a); cbn [bind]; [rel|exact I..]
  | K : (forall I, steady I -> forall p ps, I ps -> keeps I (?s p ps)) |- related (bind _ _) (bind _ _) =>
      apply related_bind;
      [ rel
      | let I := fresh "I" in let a := fresh "a" in let q := fresh "q" in let SI := fresh "SI" in let Q := fresh "Q" in
        intros I a q SI Q; specialize (K I SI); keep
      | intros; rel ]
  | |- related (if ?c then _ else _) _ => lazymatch c with context [skip ?q] =>
        lazymatch goal with T : together q ?q' |- _ => rel_skip q q'; rel end
      | _ => destruct c; rel end
  | |- related (match tok_type ?x with TIf => _ | _ => _ end) _ => destruct (tok_type x); rel
  | |- related (match int_from_literal ?x with _ => _ end) _ => destruct (int_from_literal x); rel
  | |- related (match ?x with NNull => _ | _ => _ end) _ => destruct x; rel
  | |- related (match ?e with EExpression => _ | _ => _ end) _ => destruct e; rel
  | |- related (Ret (_, if ?c then _ else _)) _ => destruct c; rel
  | |- related (_ _ (if ?c then _ else _)) _ => destruct c; rel
  | T : together ?q ?q' |- related (Ret (_, ?q)) (Ret (_, ?q')) => left; split; [reflexivity|exact T]
  | T : together ?q ?q' |- related (Ret (_, perr _ _ _)) (Ret (_, perr _ _ _)) => right; left; apply (together_began q q' _ _ _ _ T); rewrite ?errs_skip; reflexivity
  | T : together ?q ?q' |- related (Ret (_, skip ?q)) (Ret (_, skip ?q')) => rel_skip q q'; rel
  | T : together ?q ?q', IH : (forall p ps ps', together ps ps' -> related (?s p ps) (?s p ps')) |- related (?s _ ?q) (?s _ ?q') => apply IH, T
  | T : together ?q ?q' |- related (_ _ (skip ?q)) (_ _ (skip ?q')) => rel_skip q q'; rel
  | T : together ?q ?q', K : (forall I, steady I -> forall p ps, I ps -> keeps I (?s p ps)) |- related (?s _ (perr ?t ?w ?x)) (?s _ (perr _ _ ?x')) =>
      let c := fresh in let C := fresh in let C' := fresh in
      destruct (together_began q q' t w x x' T) as (c & C & C'); [rewrite ?errs_skip; reflexivity..|];
      apply (related_began c); apply (K _ (steady_began c)); assumption
  end.
Lemma step_related self : (forall I, steady I -> forall p ps, I ps -> keeps I (self p ps)) ->
  (forall p ps ps', together ps ps' -> related (self p ps) (self p ps')) ->
  forall p ps ps', together ps ps' -> related (production_step self p ps) (production_step self p ps').
Proof.
  intros K IH p ps ps' T. destruct p; open_step; rel.
Qed.
Lemma run_related fuel : forall p ps ps', together ps ps' -> related (run fuel p ps) (run fuel p ps').
Proof.
  induction fuel as [|fuel IH]; intros p ps ps' T; [exact I|]. cbn [run]. apply step_related; [|exact IH|exact T].
  intros J SJ. apply run_keeps, SJ.
Qed.
Lemma toplevel_keeps J (S : steady J) fuel ps : J ps -> keeps J (parse_toplevel fuel ps).
Proof. intros P. pose proof (run_keeps J S fuel) as K. unfold parse_toplevel, parse_node_assign_rhs. keep. Qed.
Lemma toplevel_related fuel ps ps' : together ps ps' -> related (parse_toplevel fuel ps) (parse_toplevel fuel ps').
Proof.
  intros T. pose proof (run_related fuel) as IH. assert (K : forall J, steady J -> forall p ps, J ps -> keeps J (run fuel p ps)) by (intros J SJ; apply run_keeps, SJ).
  unfold parse_toplevel, parse_node_assign_rhs. rewrite !pnext_eq, (together_peek _ _ T).
  destruct (tok_type (ppeek ps)); try rel.
  destruct (together_skip _ _ T) as [T1|P1].
  - rewrite (together_peek _ _ T1). destruct (tok_type (ppeek (skip ps))); rel.
  - apply related_past. pose proof steady_past. specialize (K past steady_past). keep.
Qed.
Lemma loop_keeps J (S : steady J) fuel rounds : forall l ps, J ps -> keeps J (parse_loop rounds fuel l ps).
Proof.
  induction rounds as [|rounds IH]; intros l ps P; [exact I|]. cbn [parse_loop]. destruct (p_errs ps); [|exact P].
  apply keeps_bind; [apply toplevel_keeps; assumption|]. intros [n| |] q Q; [apply IH, Q..|exact Q].
Qed.
Lemma loop_related fuel rounds : forall l ps ps', together ps ps' -> related (parse_loop rounds fuel l ps) (parse_loop rounds fuel l ps').
Proof.
  induction rounds as [|rounds IH]; intros l ps ps' T; [exact I|]. cbn [parse_loop].
  assert (p_errs ps = [] /\ p_errs ps' = []) as [-> ->] by (destruct T as (u & _ & _ & _ & A & B); auto).
  apply related_bind; [apply toplevel_related, T| |].
  - intros J a q SJ Q. destruct a; [apply loop_keeps; assumption..|exact Q].
  - intros a q q' T'. destruct a; [apply IH, T'..|]. left. auto.
Qed.
End Two.

(** * Files *)
Lemma tokens_nonempty content t : In t (all_tokens content) -> tok_type t <> TEof -> tok_text t <> [].
Proof.
  unfold all_tokens. set (fuel := S (length content)). clearbody fuel.
  assert (U : sc_upcoming (scanner_init content) = None) by reflexivity. revert U. generalize (scanner_init content). induction fuel as [|fuel IH]; intros sc U; [intros []|].
  rewrite tokens_from_S. destruct (next sc) as [t' sc'] eqn:N. destruct (next_spec _ _ _ U N) as [U' S].
  destruct (toktype_beq (tok_type t') TEof) eqn:B.
  - intros [<-|[]] T. apply toktype_beq_true in B. contradiction.
  - intros [<-|I] T; [|exact (IH _ U' I T)]. destruct S as [[-> _]|(g & _ & _ & X & _)]; [discriminate B|exact X].
Qed.
Lemma wf_later content : forall pre t rest, wf_toks content (pre ++ t :: rest) -> tok_text t <> [] -> Forall (fun x => tok_off t < tok_off x) rest.
Proof.
  intros pre t rest W N. apply (wf_suffix content) in W; [|discriminate]. remember (t :: rest) as l eqn:E. revert t rest N E.
  assert (G : forall b l, wf_toks content l -> b < tok_off (hd eof_token l) -> Forall (fun x => b < tok_off x) l).
  { intros b l' W'. induction W' as [e T G|t l' T G O W' IH]; intros B; [constructor; [exact B|constructor]|].
    constructor; [exact B|]. apply IH. cbn [hd] in B. lia. }
  intros t rest N ->. inversion W as [|? ? T Gd O W']; subst; [constructor|]. apply G; [exact W'|]. destruct (tok_text t); [congruence|]. cbn [length] in O. lia.
Qed.
Lemma wf_eof_last content pre t rest : wf_toks content (pre ++ t :: rest) -> tok_type t = TEof -> rest = [].
Proof. intros W T. apply (wf_suffix content) in W; [|discriminate]. inversion W; subst; [reflexivity|contradiction]. Qed.
Lemma wf_not_last content pre t rest : wf_toks content (pre ++ t :: rest) -> tok_type t <> TEof -> rest <> [].
Proof. intros W T. apply (wf_suffix content) in W; [|discriminate]. inversion W; subst; [contradiction|]. eapply wf_nonempty; eassumption. Qed.

Theorem first_complaint_local content content' pre t rest rest' stmts es why :
  all_tokens content = pre ++ t :: rest -> all_tokens content' = pre ++ t :: rest' ->
  parse content = Ret (stmts, es ++ [mkComplaint t why]) ->
  exists stmts' es', parse content' = Ret (stmts', es' ++ [mkComplaint t why]).
Proof.
  intros A A' P. pose proof (all_tokens_wf content) as W. pose proof (all_tokens_wf content') as W'.
  destruct (toktype_eq_dec (tok_type t) TEof) as [T|T].
  - rewrite A in W. rewrite A' in W'. rewrite (wf_eof_last _ _ _ _ W T) in A. rewrite (wf_eof_last _ _ _ _ W' T) in A'.
    exists stmts, es. rewrite <- P. unfold parse. now rewrite A, A'.
  - assert (N : tok_text t <> []). { apply (tokens_nonempty content); [rewrite A; apply in_or_app; right; left; reflexivity|exact T]. }
    rewrite A in W. rewrite A' in W'. pose proof (wf_later _ _ _ _ W N) as L. pose proof (wf_not_last _ _ _ _ W T) as R. pose proof (wf_not_last _ _ _ _ W' T) as R'.
    destruct (parse_to_end content) as (l & q & H1 & H2 & _). destruct (parse_to_end content') as (l' & q' & H1' & H2' & _).
    assert (q_errs : p_errs q = es ++ [mkComplaint t why]) by congruence. clear P H2. rewrite H2'.
    assert (T0 : together rest rest' (mkP (all_tokens content) []) (mkP (all_tokens content') [])).
    { exists (pre ++ [t]). split; [intros X; apply app_eq_nil in X as [_ X]; discriminate|]. cbn [p_toks p_errs]. rewrite A, A', <- !app_assoc. auto. }
    set (F := max (parse_fuel (all_tokens content)) (parse_fuel (all_tokens content'))).
    set (N' := max (2 * length (all_tokens content) + 2) (2 * length (all_tokens content') + 2)).
    apply (parse_loop_mono _ F (Nat.le_max_l _ _) _ N') in H1; [|apply Nat.le_max_l]. apply (parse_loop_mono _ F (Nat.le_max_r _ _) _ N') in H1'; [|apply Nat.le_max_r].
    pose proof (loop_related rest rest' (fun x => tok_off t < tok_off x) R R' L F N' [] _ _ T0) as X. rewrite H1, H1' in X. cbn [related] in X.
    destruct X as [[_ (u & _ & _ & _ & Z & _)]|[(c & (e1 & C1) & (e2 & C2))|(_ & _ & G)]].
    + rewrite q_errs in Z. apply app_eq_nil in Z as [_ Z]. discriminate.
    + rewrite q_errs in C1. apply app_inj_tail in C1 as [_ <-]. rewrite C2. eauto.
    + rewrite q_errs, Forall_app in G. destruct G as [_ G]. inversion G as [|? ? G0]; subst. cbn in G0. lia.
Qed.
