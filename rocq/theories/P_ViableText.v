(** The text before the first complaint can be continued to a file that parses. *)
From Coq Require Import Lia.
From Verif Require Import Base M_Scanner S_Scanner P_Scanner M_Ast M_Parser S_Parser P_Parser S_Grammar P_Grammar P_Lex S_Layout P_Layout P_LayoutParse P_ErrLocal P_Viable.
Local Notation gap := S_Scanner.gap.

(** * No token of the grammar is in error *)
Definition proper (t : token) : Prop := tok_type t <> TError.
Lemma proper_type t ty : tok_type t = ty -> ty <> TError -> proper t.
Proof. unfold proper. congruence. Qed.
Lemma proper_binary t : binary t -> proper t.
Proof. unfold binary, proper. intros H E. rewrite E in H. cbn in H. intuition discriminate. Qed.
Lemma proper_unary t : unary t -> proper t.
Proof. unfold unary, proper. intros H E. rewrite E in H. intuition discriminate. Qed.
Ltac propers := repeat match goal with
  | |- Forall proper (_ ++ _) => apply Forall_app; split
  | |- Forall proper (_ :: _) => apply Forall_cons
  | |- Forall proper [] => apply Forall_nil
  | H : Forall proper ?l |- Forall proper ?l => exact H
  | |- proper _ => solve [assumption | apply proper_binary; assumption | apply proper_unary; assumption | eapply proper_type; [eassumption|solve [discriminate|assumption]]]
  end.
Lemma grammar_proper :
  (forall o d ts n, expr o d ts n -> Forall proper ts) /\
  (forall m ts n, head m ts n -> Forall proper ts) /\
  (forall ts n, operand ts n -> Forall proper ts) /\
  (forall ts n, call ts n -> Forall proper ts) /\
  (forall ts l, tuple_rest ts l -> Forall proper ts) /\
  (forall ts n, access ts n -> Forall proper ts) /\
  (forall ts n, bound ts n -> Forall proper ts) /\
  (forall ty k c ts n, bracket ty k c ts n -> c <> TError -> Forall proper ts) /\
  (forall k c ts l, items k c ts l -> c <> TError -> Forall proper ts) /\
  (forall k ts n, item k ts n -> Forall proper ts) /\
  (forall c n ts m, clauses c n ts m -> c <> TError -> Forall proper ts) /\
  (forall ts l, variables ts l -> Forall proper ts).
Proof.
  apply grammar_ind; intros;
    repeat match goal with
    | H : ?c <> TError -> Forall proper _, N : ?c <> TError |- _ => specialize (H N)
    | H : TIn <> TError -> _ |- _ => specialize (H ltac:(discriminate))
    | H : TCloseParen <> TError -> _ |- _ => specialize (H ltac:(discriminate))
    | H : TCloseSquare <> TError -> _ |- _ => specialize (H ltac:(discriminate))
    | H : TCloseBrace <> TError -> _ |- _ => specialize (H ltac:(discriminate))
    | H : Forall proper (_ :: _) |- _ => apply Forall_cons_iff in H as [? ?]
    end; propers.
Qed.
Lemma program_proper ts l : program ts l -> Forall proper ts.
Proof.
  pose proof grammar_proper as (E & _ & _ & C & _ & _ & _ & B & I & _).
  induction 1 as [e Te|t ts l Tt P IH|ts n rs l S P IH|d ts n nx rs l S En P IH]; propers.
  - destruct S as [ts n S|o ts n To S]; [eapply C, S|]. propers. eapply B; [exact S|discriminate].
  - destruct S as [d id a rs' r rg T1 T2 X Sp|d o ts vars a rs' r rg T1 It T2 X Sp|d id dt rs' r T1 T2 X]; propers; try (eapply E; exact X). eapply I; [exact It|discriminate].
  - now apply Forall_cons_iff in IH.
  - now apply Forall_cons_iff in IH.
Qed.

(** * The beginning of a file as words *)
Definition word_of (g tx : str) : word := mkWord g [] tx.
Lemma prefix_words fuel : forall sc pre t rest, sc_upcoming sc = None -> sc_last_newlines sc = sc_newlines sc ->
  tokens_from fuel sc = pre ++ t :: rest -> Forall proper pre ->
  exists ws g e, sc_rest sc = text_of w_gap ws (g ++ e) /\ Forall (fun w => gap false (w_gap w)) ws /\ worded w_gap (g ++ e) ws (map tok_type pre) /\
    norm_toks w_gap ws (map tok_type pre) = map norm_tok pre /\ gap true g /\ tok_off t = sc_off sc + length (text_of w_gap ws g).
Proof.
  induction fuel as [|fuel IH]; intros sc pre t rest U L T P; [destruct pre; discriminate|].
  rewrite tokens_from_S in T. destruct (next sc) as [t0 sc'] eqn:N. pose proof (next_spec _ _ _ U N) as [U' S].
  destruct pre as [|p pre].
  - assert (t0 = t) as -> by (cbn [app] in T; destruct (toktype_beq (tok_type t0) TEof); injection T; auto). exists [].
    destruct S as [(-> & G & _)|(g & R & G & _ & _ & O & _)].
    + exists (sc_rest sc), []. rewrite app_nil_r. repeat split; auto; constructor.
    + exists g, (tok_text t ++ sc_rest sc'). rewrite R. split; [reflexivity|]. split; [constructor|]. split; [constructor|]. split; [reflexivity|]. split; [|exact O].
      clear - G. remember false as b. induction G; subst; constructor; auto; discriminate.
  - cbn [app] in T. apply Forall_cons_iff in P as [P0 P].
    destruct (toktype_beq (tok_type t0) TEof) eqn:B; [destruct pre; discriminate|]. injection T as -> T.
    assert (NT : tok_type p <> TEof) by (intros E; rewrite E in B; discriminate).
    destruct (next_scanned sc p sc' U N NT) as (V & Sc & _ & L').
    destruct S as [(E & _)|(g & R & G & _ & _ & O & O' & _)]; [rewrite E in NT; cbn in NT; congruence|].
    destruct (IH sc' pre t rest U' L' T P) as (ws & g' & e & R' & GS & WS & NS & G' & Of).
    exists (word_of g (tok_text p) :: ws), g', e. rewrite text_of_cons. cbn [w_gap w_text word_of map norm_toks].
    split; [rewrite R, R'; reflexivity|]. split; [constructor; auto|]. split; [|split; [|split; [exact G'|]]].
    + apply worded_cons; [exact V|exact P0|exact NT| |exact WS]. intros pos. cbn [w_text word_of]. rewrite <- R'. apply Sc.
    + rewrite NS. f_equal.
      destruct (Sc (sc_off sc + length g)) as [q Eq]. destruct (next_word sc g (tok_text p) (sc_rest sc') (tok_type p) q U L R G V Eq) as (sc2 & N2 & _).
      rewrite N in N2. injection N2 as N2 _. rewrite N2. cbn [tok_type tok_text]. symmetry. eapply norm_word; eassumption.
    + rewrite text_of_cons. cbn [w_gap w_text word_of]. rewrite Of, O', !app_length. lia.
Qed.

(** * Another end *)
Lemma not_in_again g tx rest rest' ty : gap false g -> visible tx -> follows rest rest' ->
  scans ty tx rest -> consume_optional_in (g ++ tx ++ rest) = None -> consume_optional_in (g ++ tx ++ rest') = None.
Proof.
  intros G V Fo S H. destruct (forallb is_space g) eqn:Sp; [|eapply gap_no_in; eassumption].
  assert (V' : forall r, visible (tx ++ r)) by (intros r; destruct V as (c & x & -> & V); exists c, (x ++ r); auto).
  apply spaces_no_in; [exact Sp|right; apply V'|].
  assert (H' : starts_with ($"in") (tx ++ rest) = false).
  { unfold consume_optional_in in H. assert (K : span_len is_space (g ++ tx ++ rest) = length g).
    { clear - Sp V. induction g as [|c g IH]; cbn [app span_len length]; [|cbn in Sp; apply andb_true_iff in Sp as [-> Sp]; now rewrite IH].
      destruct V as (c & x & -> & V & _). cbn. now rewrite V. }
    rewrite K, skipn_app, skipn_all, Nat.sub_diag in H. cbn [app skipn] in H. destruct (starts_with ($"in") (tx ++ rest)); [discriminate|reflexivity]. }
  destruct V as (c & x & -> & V). destruct x as [|d x].
  - cbn [app] in *. change ($"in") with ["i"%char; "n"%char] in *. cbn [starts_with] in *. destruct (ceqb "i" c) eqn:Ci; [|reflexivity]. cbn [andb] in *.
    destruct Fo as [->|[(d & r & -> & Ld)|(d & r & r' & -> & -> & _)]]; [reflexivity| |].
    + cbn [starts_with]. destruct (ceqb_spec "n" d) as [<-|]; [discriminate Ld|reflexivity].
    + cbn [starts_with] in *. destruct (ceqb "n" d); [discriminate|reflexivity].
  - etransitivity; [|exact H']. apply starts_with_again. cbn [length]. change (length ($"in")) with 2. lia.
Qed.
Definition calm (e' : str) : Prop := (exists d r, e' = d :: r /\ layout_char d = true) /\ consume_optional_in e' = None.
Lemma not_scan rest pos ty p : scan_token ($"not" ++ rest) pos = (ty, 3, p) -> consume_optional_in rest = None.
Proof.
  set (k := span_len is_identifier_char rest). set (text := ["n"%char; "o"%char; "t"%char] ++ firstn k rest).
  change (scan_token ($"not" ++ rest) pos) with
    (if str_eqb text ($"not") then match consume_optional_in (skipn k rest) with Some j => (TNotIn, 3 + k + j, []) | None => (TNot, 3 + k, []) end
     else if str_eqb text ($"in") then (TIn, 3 + k, @nil nat)
     else if str_eqb text ($"for") then (TFor, 3 + k, [])
     else if str_eqb text ($"and") then (TAnd, 3 + k, [])
     else if str_eqb text ($"or") then (TOr, 3 + k, [])
     else if str_eqb text ($"if") then (TIf, 3 + k, [])
     else if str_eqb text ($"else") then (TElse, 3 + k, [])
     else (TIdentifier, 3 + k, [])).
  intros E. clearbody k. destruct k as [|k].
  - cbn [skipn firstn] in *. change (str_eqb text ($"not")) with true in E. cbn iota in E. destruct (consume_optional_in rest) as [j|] eqn:J; [|reflexivity].
    injection E as _ E _. unfold consume_optional_in in J. destruct (starts_with _ _) in J; [|discriminate]. injection J as J. lia.
  - exfalso. repeat (destruct (str_eqb _ _) in E; [try destruct (consume_optional_in _) in E; injection E; intros; lia|]). injection E; intros; lia.
Qed.
Lemma worded_end e e' ws tys : worded w_gap e ws tys -> Forall (fun w => gap false (w_gap w)) ws -> calm e' ->
  worded w_gap e' ws tys /\ follows (text_of w_gap ws e) (text_of w_gap ws e') /\
  (consume_optional_in (text_of w_gap ws e) = None -> consume_optional_in (text_of w_gap ws e') = None).
Proof.
  intros W G [C1 C2]. induction W as [|w ws ty tys V NE NF S W IH].
  - split; [constructor|]. unfold text_of. cbn [flat_map app]. split; [right; left; exact C1|auto].
  - apply Forall_cons_iff in G as [G GS]. destruct (IH GS) as (W' & Fo & NI). rewrite !text_of_cons. pose proof V as (c & t & V' & _). split; [|split].
    + apply worded_cons; [exact V|exact NE|exact NF| |exact W']. intros pos. destruct (S 0) as [p E]. rewrite V' in *. cbn [app length] in E |- *.
      eapply scan_again; [exact Fo|exact NE| |exact E]. intros N. apply NI. rewrite N in V'. change (c :: t ++ text_of w_gap ws e) with ((c :: t) ++ text_of w_gap ws e) in E. rewrite N in E.
      change (Datatypes.S (length t)) with (length (c :: t)) in E. rewrite N in E. exact (not_scan _ _ _ _ E).
    + destruct (gap_first _ _ G) as [->|(d & r & -> & Ld)]; [|right; left; cbn [app]; eauto]. cbn [app]. rewrite V'. cbn [app]. right. right.
      eexists c, _, _. split; [reflexivity|]. split; [reflexivity|]. intros Q. destruct (S 0) as [p E]. rewrite V' in E. cbn [app length] in E. apply quoted_long in E; auto. destruct t; [congruence|discriminate].
    + apply (not_in_again _ _ _ _ ty); auto.
Qed.
Lemma worded_app sel e ws tys ws2 tys2 : worded sel (text_of sel ws2 e) ws tys -> worded sel e ws2 tys2 -> worded sel e (ws ++ ws2) (tys ++ tys2).
Proof.
  intros W W2. remember (text_of sel ws2 e) as e0. induction W as [|w ws ty tys V NE NF S W IH]; [exact W2|]. cbn [app]. apply worded_cons; [exact V|exact NE|exact NF| |exact IH].
  intros pos. specialize (S pos). unfold text_of in *. rewrite flat_map_app, <- app_assoc, <- Heqe0. exact S.
Qed.
Lemma norm_toks_app sel ws tys ws2 tys2 : length ws = length tys -> norm_toks sel (ws ++ ws2) (tys ++ tys2) = norm_toks sel ws tys ++ norm_toks sel ws2 tys2.
Proof. revert tys. induction ws as [|w ws IH]; intros [|ty tys] L; try discriminate; [reflexivity|]. cbn [app norm_toks]. rewrite IH by (injection L; auto). reflexivity. Qed.
Lemma worded_length sel e ws tys : worded sel e ws tys -> length ws = length tys.
Proof. induction 1; cbn; auto. Qed.

(** ** The tokens added *)
Definition words : list toktype := fillers ++ [TComma; TFor; TOpenParen].
Definition head_text (tys : list toktype) : str := match tys with [] => [] | ty :: _ => fill_text ty end.
Definition fill_word (ty : toktype) : word := word_of [" "%char] (fill_text ty).
Lemma fills_worded tys : Forall (fun ty => In ty words) tys -> worded w_gap [] (map fill_word tys) tys.
Proof.
  induction 1 as [|ty tys H1 H2 IH]; [constructor|]. cbn [map].
  assert (R : exists r, text_of w_gap (map fill_word tys) [] = r /\ (r = [] \/ exists q, r = " "%char :: q)).
  { eexists. split; [reflexivity|]. destruct tys; [left; reflexivity|]. right. cbn [map]. rewrite text_of_cons. eexists. reflexivity. }
  destruct R as (r & Er & R). unfold words, fillers in H1. cbn in H1.
  apply worded_cons; [| | |intros pos; rewrite Er|exact IH].
  - cbn [fill_word word_of w_text]. repeat destruct H1 as [<-|H1]; try (eexists _, _; split; [reflexivity|]; repeat split; discriminate). destruct H1.
  - intros ->. intuition discriminate.
  - intros ->. intuition discriminate.
  - exists []. cbn [fill_word word_of w_text]. destruct R as [->|[q ->]]; repeat destruct H1 as [<-|H1]; try reflexivity; try (destruct q; reflexivity); destruct H1.
Qed.
Lemma fills_norm content tys : Forall (fun ty => In ty words) tys -> norm_toks w_gap (map fill_word tys) tys = map norm_tok (map (F content) tys).
Proof.
  induction 1 as [|ty tys H1 H2 IH]; [reflexivity|]. cbn [map norm_toks]. rewrite IH. apply (f_equal (fun x => x :: _)). unfold norm_tok. cbn [fill_word word_of w_text w_gap F tok_type tok_text tok_newline].
  destruct (toktype_beq ty TOpenSquare) eqn:T; [|reflexivity]. apply internal_toktype_dec_bl in T as ->. reflexivity.
Qed.

(** The separator keeps an added "in" away from a "not". *)
Definition separator : str := [NL; "#"%char; NL].
Lemma gap_true_false g : gap true g -> gap false (g ++ separator).
Proof.
  induction 1 as [|c g C G IH|body g N G IH|body X N]; cbn [app].
  - apply gap_blank; [left; reflexivity|]. apply (gap_comment false [] []); [intros []|constructor].
  - apply gap_blank; auto.
  - rewrite <- app_assoc. cbn [app]. apply gap_comment; auto.
  - apply (gap_comment false body); [exact N|]. apply (gap_comment false [] []); [intros []|constructor].
Qed.
Lemma separator_calm g r : gap true g -> calm (g ++ separator ++ r).
Proof.
  intros G. rewrite app_assoc. apply gap_true_false in G. split.
  - destruct (gap_first _ _ G) as [E|(d & q & -> & L)]; [destruct g; discriminate|]. exists d, (q ++ r). auto.
  - eapply gap_no_in; [exact G|]. rewrite forallb_app. change (forallb is_space separator) with false. apply andb_false_r.
Qed.

Lemma text_of_app sel ws ws2 e : text_of sel (ws ++ ws2) e = text_of sel ws (text_of sel ws2 e).
Proof. unfold text_of. rewrite flat_map_app, <- app_assoc. reflexivity. Qed.
Lemma text_of_end sel ws e e2 : text_of sel ws (e ++ e2) = text_of sel ws e ++ e2.
Proof. unfold text_of. rewrite <- app_assoc. reflexivity. Qed.

Lemma continued content pre t rest tys : all_tokens content = pre ++ t :: rest -> Forall proper pre -> Forall (fun ty => In ty words) tys ->
  exists more, map norm_tok (all_tokens (firstn (tok_off t) content ++ separator ++ head_text tys ++ more)) = map norm_tok (pre ++ map (F content) tys ++ [file_end content]).
Proof.
  intros A P T. unfold all_tokens in A.
  destruct (prefix_words (S (length content)) (scanner_init content) pre t rest eq_refl eq_refl A P) as (ws & g & e & R & GS & W & NS & G & Of).
  cbn [scanner_init sc_rest sc_off Nat.add] in *.
  assert (Fs : firstn (tok_off t) content = text_of w_gap ws g).
  { rewrite R, text_of_end, Of, firstn_app, firstn_all, Nat.sub_diag, firstn_O, app_nil_r. reflexivity. }
  rewrite Fs. assert (FE : norm_tok (file_end content) = eof_token) by reflexivity.
  destruct T as [|ty tys T1 T].
  - exists []. cbn [head_text app]. rewrite <- text_of_end. destruct (worded_end _ _ ws _ W GS (separator_calm g [] G)) as (W' & _). cbn [map app]. rewrite map_app, <- NS. cbn [map]. rewrite FE.
    apply (worded_tokens w_gap (g ++ separator ++ []) _ _ W' GS); [|reflexivity..|cbn [scanner_init sc_rest]; lia]. rewrite app_nil_r. clear - G. apply gap_true_false in G. remember false as b. induction G; subst; constructor; auto; discriminate.
  - exists (text_of w_gap (map fill_word tys) []). cbn [head_text].
    set (w0 := word_of (g ++ separator) (fill_text ty)).
    assert (E : text_of w_gap ws g ++ separator ++ fill_text ty ++ text_of w_gap (map fill_word tys) [] = text_of w_gap (ws ++ w0 :: map fill_word tys) []).
    { rewrite text_of_app, text_of_cons. cbn [w0 word_of w_gap w_text]. rewrite <- text_of_end, <- !app_assoc. reflexivity. }
    rewrite E.
    assert (W2 : worded w_gap [] (w0 :: map fill_word tys) (ty :: tys)).
    { pose proof (fills_worded (ty :: tys) (Forall_cons (P := fun ty => In ty words) ty T1 T)) as X. cbn [map] in X. inversion X; subst. apply worded_cons; assumption. }
    assert (W1 : worded w_gap (text_of w_gap (w0 :: map fill_word tys) []) ws (map tok_type pre)).
    { rewrite text_of_cons. cbn [w0 word_of w_gap w_text]. rewrite <- !app_assoc. apply (worded_end _ _ _ _ W GS). apply separator_calm, G. }
    pose proof (worded_app _ _ _ _ _ _ W1 W2) as W3.
    assert (N2 : norm_toks w_gap (w0 :: map fill_word tys) (ty :: tys) = map norm_tok (map (F content) (ty :: tys))).
    { rewrite <- fills_norm by (constructor; assumption). cbn [map norm_toks w0 fill_word word_of w_gap w_text]. apply (f_equal (fun x => x :: _)).
      destruct (toktype_beq ty TOpenSquare) eqn:B; [|reflexivity]. apply internal_toktype_dec_bl in B as ->. cbn in T1. intuition discriminate. }
    rewrite !map_app, <- NS, <- N2, app_assoc, <- norm_toks_app by (eapply worded_length; exact W1). cbn [map]. rewrite FE.
    apply (worded_tokens w_gap [] _ _ W3); [|constructor|reflexivity..|cbn [scanner_init sc_rest]; lia].
    apply Forall_app. split; [exact GS|]. constructor; [apply gap_true_false, G|]. clear. apply Forall_forall. intros w I. apply in_map_iff in I as (ty & <- & _). apply gap_blank; [left; reflexivity|constructor].
Qed.

Lemma parsed_again c ts l : map norm_tok (all_tokens c) = map norm_tok ts -> program ts l -> exists stmts', parse c = Ret (stmts', []).
Proof.
  intros M Pr. destruct (parse_to_end c) as (lc & qc & C1 & C2 & _). exists lc. rewrite C2. f_equal. f_equal.
  destruct (program_complete _ _ Pr) as (F0 & R0 & e & H).
  set (FF := max F0 (parse_fuel (all_tokens c))). set (RR := max R0 (2 * length (all_tokens c) + 2)).
  apply (parse_loop_mono _ FF (Nat.le_max_r _ _) _ RR) in C1; [|apply Nat.le_max_r].
  specialize (H FF RR [] (Nat.le_max_l _ _) (Nat.le_max_l _ _)).
  pose proof (loop_sim RR FF [] [] (mkP (all_tokens c) []) (mkP ts []) eq_refl) as Si.
  rewrite C1, H in Si. destruct Si as (_ & _ & Si); [left; split; [exact M|reflexivity]|]. cbn [p_errs map] in Si. destruct (p_errs qc); [reflexivity|discriminate].
Qed.
Lemma fillers_words tys : Forall (fun ty => In ty fillers) tys -> Forall (fun ty => In ty words) tys.
Proof. apply Forall_impl. intros ty H. apply in_or_app. left. exact H. Qed.
Lemma advised_words why ty : closes why -> In ty (advised why) -> In ty words.
Proof.
  assert (K : forall c, closing c -> In c words) by (intros c H; apply in_or_app; left; apply closing_filler, H).
  destruct why; cbn [advised closes]; intros C H; cbn in H; repeat destruct H as [<-|H]; try destruct H; try (apply K; exact C); cbn; auto 20.
Qed.

Theorem first_complaint_viable content stmts es t why : parse content = Ret (stmts, es ++ [mkComplaint t why]) ->
  In t (all_tokens content) /\ closes why /\
  (exists more stmts', parse (firstn (tok_off t) content ++ more) = Ret (stmts', [])) /\
  forall ty, In ty (advised why) -> exists more stmts', parse (firstn (tok_off t) content ++ separator ++ fill_text ty ++ more) = Ret (stmts', []).
Proof.
  intros P. destruct (parse_to_end content) as (l & q & H1 & H2 & _).
  pose proof (loop_stuck content (parse_fuel (all_tokens content)) (2 * length (all_tokens content) + 2) [] (mkP (all_tokens content) []) (all_tokens_wf content) eq_refl) as S.
  rewrite H1 in S. cbn [wpp snd p_toks] in S. assert (Q : p_errs q = es ++ [mkComplaint t why]) by congruence. rewrite Q in S.
  destruct S as (pre & t' & rest & why' & es' & A & B & K & V); [intros X; apply app_eq_nil in X as [_ X]; discriminate|].
  apply app_inj_tail in B as [_ B]. injection B as <- <-. split; [rewrite A; apply in_or_app; right; left; reflexivity|]. split; [exact K|]. split.
  - destruct (V [] (or_introl eq_refl)) as [(tys & l' & T & Pr) _]. rewrite app_nil_r in Pr.
    pose proof (program_proper _ _ Pr) as Pp. apply Forall_app in Pp as [Pp _].
    destruct (continued content pre t rest tys A Pp (fillers_words _ T)) as [more M]. exists (separator ++ head_text tys ++ more). eapply parsed_again; eassumption.
  - intros ty I. destruct (V [wanted content ty] (or_intror (ex_intro _ ty (conj I eq_refl)))) as [(tys & l' & T & Pr) _].
    pose proof (program_proper _ _ Pr) as Pp. apply Forall_app in Pp as [Pp _]. apply Forall_app in Pp as [Pp _].
    destruct (continued content pre t rest (ty :: tys) A Pp) as [more M]; [constructor; [eapply advised_words; eassumption|apply fillers_words, T]|]. exists more.
    eapply parsed_again; [|exact Pr]. cbn [head_text] in M. rewrite M. rewrite !map_app. cbn [map]. rewrite <- app_assoc. reflexivity.
Qed.
