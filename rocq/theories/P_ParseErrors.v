(** The messages of the parser: proofs. *)
From Coq Require Import Lia.
From Verif Require Import Base M_Scanner S_Scanner P_Scanner M_Ast M_Parser S_Parser P_Parser M_Printer M_Table M_Project M_Commands S_Commands P_Commands S_Grammar P_Grammar P_ErrLocal P_Viable P_ViableText M_ParseErrors S_ParseErrors.

(** * All complaints *)
Definition close_errs (ps : pstate) : Prop := Forall (fun c => closes (e_why c)) (p_errs ps).
Definition fits (p : production) : Prop :=
  match p with PList _ _ _ close | PComprehensionFor _ _ close => closing close | _ => True end.
Lemma close_skip ps : close_errs ps -> close_errs (skip ps).
Proof. unfold close_errs. now rewrite errs_skip. Qed.
Lemma close_perr t why ps : closes why -> close_errs ps -> close_errs (perr t why ps).
Proof. intros A B. constructor; assumption. Qed.
Ltac fit := cbn [fits closes]; first [exact I|assumption|solve [cbn; auto]|match goal with |- closing (end_token_for ?ty) => destruct ty; cbn; auto end].
Ltac closed2 := cbn [keeps fst snd]; match goal with
  | |- close_errs (if ?c then _ else _) => destruct c; closed2
  | |- close_errs (perr _ _ _) => apply close_perr; [fit|closed2]
  | |- close_errs (skip _) => apply close_skip; closed2
  | H : close_errs ?x |- close_errs ?x => exact H
  end.
Ltac keep2 := match goal with
  | |- keeps _ (let x := _ in _) => cbv zeta; keep2
  | |- keeps _ (Ret (_, _)) => closed2
  | |- keeps _ UB => exact I
  | |- keeps _ OutOfFuel => exact I
  | IH : (forall p ps, fits p -> close_errs ps -> keeps _ (?s p ps)) |- keeps _ (?s _ _) => apply IH; [fit|closed2]
  | |- keeps _ (bind (covering _ _) _) => apply keeps_pure; intros; keep2
  | |- keeps _ (bind (between _ _) _) => apply keeps_pure; intros; keep2
  | |- keeps _ (bind (string_node _) _) => apply keeps_pure; intros; keep2
  | |- keeps _ (bind _ _) => apply keeps_bind; [keep2|intros; keep2]
  | |- context [let '(_, _) := pnext ?x in _] => rewrite (pnext_eq x); keep2
  | |- context [if ?c then _ else _] => destruct c; keep2
  | |- context [match int_from_literal ?x with _ => _ end] => destruct (int_from_literal x); keep2
  | |- context [match ?x with NNull => _ | _ => _ end] => destruct x; keep2
  | |- context [match tok_type ?x with TIf => _ | _ => _ end] => destruct (tok_type x); keep2
  | |- context [match ?e with EExpression => _ | _ => _ end] => destruct e; keep2
  end.
Lemma run_closes fuel : forall p ps, fits p -> close_errs ps -> keeps close_errs (run fuel p ps).
Proof.
  induction fuel as [|fuel IH]; intros p ps F P; [exact I|]. cbn [run]. generalize dependent (run fuel). intros self IH.
  destruct p; cbn [fits] in F; open_step; keep2.
Qed.
Lemma toplevel_closes fuel ps : close_errs ps -> keeps close_errs (parse_toplevel fuel ps).
Proof. intros P. pose proof (run_closes fuel) as K. unfold parse_toplevel, parse_node_assign_rhs. keep2. Qed.
Lemma loop_closes fuel rounds : forall l ps, close_errs ps -> keeps close_errs (parse_loop rounds fuel l ps).
Proof.
  induction rounds as [|rounds IH]; intros l ps P; [exact I|]. cbn [parse_loop]. destruct (p_errs ps); [|exact P].
  apply keeps_bind; [apply toplevel_closes; assumption|]. intros [n| |] q Q; [apply IH, Q..|exact Q].
Qed.
Lemma complaints_fit content stmts errs : parse content = Ret (stmts, errs) ->
  Forall (fun c => In (e_tok c) (all_tokens content) /\ closes (e_why c)) errs.
Proof.
  intros P. destruct (parse_to_end content) as (l & q & H1 & H2 & _). assert (errs = p_errs q) as -> by congruence.
  pose proof (loop_closes (parse_fuel (all_tokens content)) (2 * length (all_tokens content) + 2) [] (mkP (all_tokens content) []) (Forall_nil _)) as A.
  rewrite H1 in A. cbn [keeps] in A.
  assert (N : all_tokens content <> []) by (pose proof (all_tokens_wf content) as W; inversion W; discriminate).
  pose proof (loop_keeps (past (fun t => In t (all_tokens content))) (steady_past _) (parse_fuel (all_tokens content)) (2 * length (all_tokens content) + 2) [] (mkP (all_tokens content) [])) as B.
  rewrite H1 in B. cbn [keeps] in B. destruct B as (_ & _ & B); [split; [exact N|split; [apply Forall_forall; auto|constructor]]|].
  apply Forall_and; assumption.
Qed.

(** * Places *)
Lemma in_tokens fuel : forall sc t, In t (tokens_from fuel sc) -> exists i, t = fst (next (after_next i sc)) /\ i < fuel /\ forall j, j < i -> tok_type (fst (next (after_next j sc))) <> TEof.
Proof.
  induction fuel as [|fuel IH]; intros sc t I; [destruct I|]. rewrite tokens_from_S in I. destruct (next sc) as [t0 sc'] eqn:N.
  destruct (toktype_beq (tok_type t0) TEof) eqn:B.
  - destruct I as [<-|[]]. exists 0. cbn [after_next]. rewrite N. split; [reflexivity|]. split; [lia|]. intros j J. lia.
  - destruct I as [<-|I]; [exists 0; cbn [after_next]; rewrite N; split; [reflexivity|]; split; [lia|]; intros j J; lia|].
    destruct (IH _ _ I) as (i & -> & L & E). exists (S i). cbn [after_next]. rewrite N. cbn [snd]. split; [reflexivity|]. split; [lia|].
    intros [|j] J; cbn [after_next]; rewrite N; cbn [fst snd]; [intros X; rewrite X in B; discriminate|apply E; lia].
Qed.
Lemma next_off sc t sc' : sc_upcoming sc = None -> next sc = (t, sc') -> tok_type t <> TEof -> sc_off sc <= tok_off t /\ tok_off t < sc_off sc'.
Proof.
  intros U N T. apply next_spec in N as [_ [(-> & _)|(g & _ & _ & X & _ & O & O' & _)]]; auto; [cbn in T; congruence|].
  destruct (tok_text t); [congruence|]. cbn [length] in O'. lia.
Qed.
Lemma next_off_le sc : sc_upcoming sc = None -> sc_off sc <= tok_off (fst (next sc)).
Proof.
  intros U. destruct (next sc) as [t sc'] eqn:N. apply next_spec in N as [_ [(-> & _)|(g & _ & _ & X & _ & O & _)]]; auto; cbn; lia.
Qed.
Lemma after_off_le i : forall sc, sc_upcoming sc = None -> sc_off sc <= sc_off (after_next i sc).
Proof.
  induction i as [|i IH]; intros sc U; [cbn; lia|]. cbn [after_next]. destruct (next sc) as [t sc'] eqn:N. cbn [snd].
  pose proof (next_spec _ _ _ U N) as [U' S]. specialize (IH sc' U').
  destruct S as [(_ & _ & _ & O & _)|(g & _ & _ & X & _ & O & O' & _)]; lia.
Qed.
Lemma lines_upto_at fuel : forall sc i, sc_upcoming sc = None -> i < fuel -> (forall j, j < i -> tok_type (fst (next (after_next j sc))) <> TEof) ->
  lines_upto fuel sc (tok_off (fst (next (after_next i sc)))) = sc_lines (after_next (S i) sc).
Proof.
  induction fuel as [|fuel IH]; intros sc i U L E; [lia|]. cbn [lines_upto]. destruct (next sc) as [t sc'] eqn:N.
  pose proof (next_spec _ _ _ U N) as [U' _].
  destruct i as [|i].
  - cbn [after_next]. rewrite N. cbn [fst snd]. rewrite Nat.leb_refl. reflexivity.
  - assert (T : tok_type t <> TEof) by (specialize (E 0 ltac:(lia)); cbn [after_next] in E; rewrite N in E; exact E).
    destruct (next_off _ _ _ U N T) as [_ O]. cbn [after_next]. rewrite N. cbn [snd].
    assert (G : sc_off sc' <= tok_off (fst (next (after_next i sc')))).
    { transitivity (sc_off (after_next i sc')); [apply after_off_le, U'|apply next_off_le, after_next_upcoming, U']. }
    destruct (Nat.leb_spec (tok_off (fst (next (after_next i sc')))) (tok_off t)); [lia|].
    rewrite (IH sc' i U'); [reflexivity|lia|]. intros j J. specialize (E (S j) ltac:(lia)). cbn [after_next] in E. rewrite N in E. exact E.
Qed.
Lemma place_printed content off len l1 c1 l2 c2 : (Z.of_nat (length content) < 2147483647)%Z -> off + len <= length content ->
  is_position content off (mkLC l1 c1) -> is_position content (off + len) (mkLC l2 c2) ->
  place content off len (print_lc_range (mkLC l1 c1, mkLC l2 c2)).
Proof.
  intros Sz Le P1 P2.
  assert (B1 : l1 + c1 <= length content) by (apply (position_bound _ off); [lia|exact P1]).
  assert (B2 : l2 + c2 <= length content) by (apply (position_bound _ (off + len)); [lia|exact P2]).
  exists l1, c1, l2, c2, (print_int (Z.of_nat (l1 + 1))), (print_int (Z.of_nat (c1 + 1))), (print_int (Z.of_nat (l2 + 1))), (print_int (Z.of_nat c2)).
  split; [exact P1|]. split; [exact P2|]. do 4 (split; [apply print_decimal; lia|]).
  unfold print_lc_range, print_position. rewrite !Nat2Z.inj_add. change (Z.of_nat 1) with 1%Z.
  replace (Z.of_nat c2 - 1 + 1)%Z with (Z.of_nat c2) by lia. rewrite <- !app_assoc. do 3 f_equal.
  destruct (Z.eqb_spec (Z.of_nat l1) (Z.of_nat l2)), (Nat.eqb_spec l1 l2); try lia; [|rewrite <- ?app_assoc; reflexivity].
  destruct (Z.ltb_spec (Z.of_nat c1) (Z.of_nat c2 - 1)), (Nat.ltb_spec (c1 + 1) c2); try lia; rewrite <- ?app_assoc; reflexivity.
Qed.

(** * Texts *)
Lemma kind_text ty k : kind ty k -> print_op ty = k /\ is_char_type ty = false.
Proof. destruct 1; split; reflexivity. Qed.
Lemma shown_text content t : In t (all_tokens content) -> shown t (print_token t).
Proof.
  intros I. unfold print_token. destruct (tok_type t) eqn:T; cbn [is_char_type];
    try (apply shown_plain; rewrite T; [discriminate|intros k K; inversion K]).
  all: try (assert (N : tok_text t <> []) by (apply (tokens_nonempty content t I); congruence);
    destruct (tok_text t) as [|c x] eqn:X; [congruence|]; rewrite <- X; apply shown_kind; rewrite T; constructor).
  assert (tok_text t = []) as ->; [|apply shown_eof, T].
  destruct (in_tokens _ _ _ I) as (i & E & _). assert (U : sc_upcoming (after_next i (scanner_init content)) = None) by (apply after_next_upcoming; reflexivity).
  destruct (next (after_next i (scanner_init content))) as [t' sc'] eqn:N. cbn [fst] in E. subst t'.
  apply next_spec in N as [_ [(-> & _)|(g & _ & _ & _ & X & _)]]; [reflexivity|contradiction|exact U].
Qed.
Lemma closer_text c : closing c -> closer c (print_op c) /\ print_op c = fill_text c.
Proof. unfold closing. cbn. intros H. repeat destruct H as [<-|H]; try solve [destruct H]; split; constructor. Qed.
Lemma explained_text content t why : In t (all_tokens content) -> closes why ->
  explained t why (reason_text t why) (map fill_text (advised why)).
Proof.
  intros I C. pose proof (shown_text content t I) as S.
  destruct why; cbn [reason_text advised map closes] in *; try (destruct (closer_text _ C) as [C1 C2]; rewrite <- C2);
    first [apply X_assignment, S|apply X_identifier, S|apply X_list, C1|apply X_brackets, C1|apply X_comprehension, C1|constructor].
Qed.

(** * C78 *)
Lemma message_said name content c : plain_lines content -> In (e_tok c) (all_tokens content) -> closes (e_why c) ->
  exists m, parse_message name content c = Ret m /\ message name content c m.
Proof.
  intros [Sz Pl] I C. destruct (in_tokens _ _ _ I) as (i & E & L & N).
  assert (T : e_tok c = token_at content i) by exact E.
  destruct (token_positions content (S i) i) as (a & b & G & P1 & P2); [intros; auto|lia|].
  destruct (token_text_located content i) as [_ Le]. unfold parse_message. rewrite T in *.
  destruct (Nat.ltb_spec (length content) (tok_off (token_at content i) + length (tok_text (token_at content i)))); [lia|].
  rewrite (lines_upto_at (S (length content)) (scanner_init content) i eq_refl L N : lines_upto _ _ (tok_off (token_at content i)) = _). rewrite G.
  eexists. split; [reflexivity|]. destruct a as [l1 c1], b as [l2 c2]. unfold message. rewrite T. eexists _, _, _.
  split; [apply place_printed; eassumption|]. split; [eapply explained_text; [exact I|exact C]|reflexivity].
Qed.
Theorem messages_said f stmts : plain_lines (pf_content f) -> parse (pf_content f) = Ret (stmts, pf_errors f) ->
  exists ms, Forall2 (message (pf_name f) (pf_content f)) (rev (pf_errors f)) ms /\ file_messages f = Ret (concat ms).
Proof.
  intros Pl P. apply complaints_fit in P. apply Forall_rev in P. unfold file_messages. induction P as [|c cs [I C] _ IH].
  - exists []. split; [constructor|reflexivity].
  - destruct IH as (ms & H1 & H2). destruct (message_said (pf_name f) (pf_content f) c Pl I C) as (m & M1 & M2).
    exists (m :: ms). split; [constructor; assumption|]. cbn [all_messages]. rewrite M1, H2. reflexivity.
Qed.

Lemma explained_words t why text words : explained t why text words -> words = map fill_text (advised why).
Proof. destruct 1 as [| | |close c K| | | | | | | | | |close c K| |close c K]; try destruct K; reflexivity. Qed.
Theorem words_do content stmts es t why text words w :
  parse content = Ret (stmts, es ++ [mkComplaint t why]) -> explained t why text words -> In w words ->
  exists more stmts', parse (firstn (tok_off t) content ++ [NL; "#"%char; NL] ++ w ++ more) = Ret (stmts', []).
Proof.
  intros P X I. apply explained_words in X as ->. apply in_map_iff in I as (ty & <- & I).
  destruct (first_complaint_viable _ _ _ _ _ P) as (_ & _ & _ & A). exact (A ty I).
Qed.
Theorem before_does content stmts es t why : parse content = Ret (stmts, es ++ [mkComplaint t why]) ->
  exists more stmts', parse (firstn (tok_off t) content ++ more) = Ret (stmts', []).
Proof. intros P. destruct (first_complaint_viable _ _ _ _ _ P) as (_ & _ & A & _). exact A. Qed.

(** * The words that do not do *)
Fixpoint scan_some (n : nat) (sc : scanner) : list token * scanner :=
  match n with
  | 0 => ([], sc)
  | S n => let '(t, sc') := next sc in let '(l, sc'') := scan_some n sc' in (t :: l, sc'')
  end.
Lemma scan_some_tokens n : forall fuel sc l sc', n < fuel -> scan_some n sc = (l, sc') -> Forall (fun t => tok_type t <> TEof) l ->
  tokens_from fuel sc = l ++ tokens_from (fuel - n) sc'.
Proof.
  induction n as [|n IH]; intros fuel sc l sc' L H N; cbn [scan_some] in H.
  - injection H as <- <-. now rewrite Nat.sub_0_r.
  - destruct fuel as [|fuel]; [lia|]. destruct (next sc) as [t sc1] eqn:E. destruct (scan_some n sc1) as [l2 sc2] eqn:R. injection H as <- <-.
    inversion N; subst. rewrite tokens_from_S, E. destruct (toktype_beq (tok_type t) TEof) eqn:B; [destruct (tok_type t); try discriminate B; congruence|].
    cbn [app]. f_equal. apply IH; [lia|exact R|assumption].
Qed.
Lemma stays_wrong c n pre t es why more stmts :
  (forall more, fst (scan_some n (scanner_init (c ++ more))) = pre ++ [t]) -> Forall (fun t => tok_type t <> TEof) (pre ++ [t]) -> n <= length c ->
  (exists s, parse c = Ret (s, es ++ [mkComplaint t why])) -> parse (c ++ more) <> Ret (stmts, []).
Proof.
  intros H N L [s P] Q.
  assert (K : forall more, exists rest, all_tokens (c ++ more) = pre ++ t :: rest).
  { intros m. specialize (H m). destruct (scan_some n (scanner_init (c ++ m))) as [l sc'] eqn:E. cbn [fst] in H. subst l.
    unfold all_tokens. erewrite scan_some_tokens; [|rewrite app_length; apply Nat.lt_succ_r, (Nat.le_trans _ _ _ L), Nat.le_add_r|exact E|exact N].
    rewrite <- app_assoc. eexists. reflexivity. }
  destruct (K []) as [r1 K1]. rewrite app_nil_r in K1. destruct (K more) as [r2 K2].
  destruct (first_complaint_local _ _ _ _ _ _ _ _ _ K1 K2 P) as (s' & es' & X). rewrite Q in X.
  apply (f_equal (fun o => match o with Ret (_, []) => true | _ => false end)) in X. destruct es'; discriminate X.
Qed.
Definition before_bracket := Eval vm_compute in fst (scan_some 4 (scanner_init ($"x = a["))).
Definition before_bracket2 := Eval vm_compute in fst (scan_some 5 (scanner_init ($"x = a[:"))).
Definition close9 : token := mkToken TCloseSquare 9 ($"]") true.
Definition close10 : token := mkToken TCloseSquare 10 ($"]") true.
Lemma access_wrong more stmts : parse ($"x = a[" ++ [NL; "#"%char; NL] ++ $"]" ++ more) <> Ret (stmts, []).
Proof.
  change ($"x = a[" ++ [NL; "#"%char; NL] ++ $"]" ++ more) with (($"x = a[" ++ [NL; "#"%char; NL] ++ $"]") ++ more).
  apply (stays_wrong _ 5 before_bracket close9 [] REmptyAccess).
  - intros m. vm_compute. reflexivity.
  - repeat constructor; discriminate.
  - cbn. lia.
  - vm_compute. eexists. reflexivity.
Qed.
Lemma slice_wrong more stmts : parse ($"x = a[:" ++ [NL; "#"%char; NL] ++ $"]" ++ more) <> Ret (stmts, []).
Proof.
  change ($"x = a[:" ++ [NL; "#"%char; NL] ++ $"]" ++ more) with (($"x = a[:" ++ [NL; "#"%char; NL] ++ $"]") ++ more).
  apply (stays_wrong _ 6 before_bracket2 close10 [] RNoBounds).
  - intros m. vm_compute. reflexivity.
  - repeat constructor; discriminate.
  - cbn. lia.
  - vm_compute. eexists. reflexivity.
Qed.
