(** Printing a tree and reading it back. *)
From Coq Require Import Lia.
From Verif Require Import Base M_Scanner S_Scanner M_Ast M_Parser M_Printer P_Scanner S_Grammar P_Grammar S_Roundtrip P_Lex.
Local Open Scope list_scope.

(** * Pieces of the text of a tree *)
Definition after_expr (c : ascii) : bool := existsb (ceqb c) [" "%char; NL; ","%char; ")"%char; "]"%char; "}"%char].
Definition after_operand (n : node) (c : ascii) : bool := after_expr c || ceqb c "[" || (negb (is_int n) && ceqb c ".").
Lemma after_expr_operand n c : after_expr c = true -> after_operand n c = true.
Proof. unfold after_operand. intros ->. reflexivity. Qed.
Lemma after_expr_word c : after_expr c = true -> after_number c = true.
Proof. destruct c as [[] [] [] [] [] [] [] []]; vm_compute; congruence. Qed.
Lemma after_number_word c : after_number c = true -> not_word c = true.
Proof. unfold after_number. rewrite andb_true_iff. tauto. Qed.
Lemma after_operand_word n c : after_operand n c = true -> not_word c = true.
Proof.
  unfold after_operand. rewrite !orb_true_iff, andb_true_iff, !ceqb_eq. intros [[H| ->]|[_ ->]]; try reflexivity. apply after_number_word, after_expr_word, H.
Qed.
Lemma after_operand_int v z c : after_operand (NInt v z) c = true -> after_number c = true.
Proof. unfold after_operand. cbn [is_int negb andb]. rewrite orb_false_r, orb_true_iff, ceqb_eq. intros [H| ->]; [apply after_expr_word, H|reflexivity]. Qed.

Definition starts (fn : option str) (ps : list piece) : Prop :=
  exists ty tx ps', ps = Tok ty tx :: ps' /\ (ty = TIdentifier -> fn = Some tx) /\ (ty <> TIdentifier -> forall r, tx <> "i"%char :: r).
Definition ends (ln : bool) (ps : list piece) : Prop := exists ps' ty tx, ps = ps' ++ [Tok ty tx] /\ (ty = TIdentifier -> ln = true).
Definition reads (follow : ascii -> bool) (fn : option str) (ln : bool) (pr : outcome str) (G : list token -> node -> Prop) (n : node) : Prop :=
  exists ps, pr = Ret (render ps) /\ starts fn ps /\ ends ln ps /\ (forall rest, first_char follow rest -> lex ps rest) /\
  forall off nl, exists n', G (place off nl ps) n' /\ erase n' = erase n.
Definition P_expr (d : bool) (n : node) : Prop := n <> NNull /\ forall i, reads after_expr (first_name n) (last_is_name n) (print i n) (expr false d) n.
Definition P_operand (n : node) : Prop := n <> NNull /\ forall i, reads (after_operand n) (first_name n) (last_is_name n) (print i n) operand n.
Definition P_bound (n : node) : Prop := n = NNull \/ exists d, P_expr d n.
Definition P_item (k : items_kind) (n : node) : Prop := n <> NNull /\ forall i, reads after_expr (first_name n) (last_is_name n) (print i n) (item k) n.
Definition P_items (k : items_kind) (l : list node) : Prop := Forall (P_item k) l.
Definition P_for (k : items_kind) (n : node) : Prop := forall i, exists ps0 ps, print i n = Ret (render (ps0 ++ ps)) /\
  (forall rest, first_char after_expr rest -> lex (ps0 ++ ps) rest) /\
  forall off nl, exists n0 f rest', item k (place off nl ps0) n0 /\ place (off + length (render ps0)) (trail nl ps0) ps = f :: rest' /\ tok_type f = TFor /\
    forall nx, off + length (render (ps0 ++ ps)) <= tok_off nx -> exists n', erase n' = erase n /\
      forall close rs t, clauses close n' (nx :: rs) t -> clauses close n0 (f :: rest' ++ nx :: rs) t.

Lemma starts_app fn a b : starts fn a -> starts fn (a ++ b).
Proof. intros (ty & tx & ps & -> & H). exists ty, tx, (ps ++ b). auto. Qed.
Lemma ends_app ln a b : ends ln b -> ends ln (a ++ b).
Proof. intros (ps & ty & tx & -> & H). exists (a ++ ps), ty, tx. rewrite app_assoc. auto. Qed.
Lemma ends_cons ln p b : ends ln b -> ends ln (p :: b).
Proof. apply (ends_app ln [p]). Qed.
Lemma ends_trail ln ps nl : ends ln ps -> trail nl ps = false.
Proof. intros (a & ty & tx & -> & _). rewrite trail_app. reflexivity. Qed.
Lemma place_bounds ps : forall off nl t, In t (place off nl ps) -> off <= tok_off t /\ tok_off t + length (tok_text t) <= off + length (render ps).
Proof.
  induction ps as [|[g|ty tx] ps IH]; intros off nl t; cbn [place]; rewrite ?render_cons, ?app_length; cbn [piece_text].
  - intros [].
  - intros H. apply IH in H. lia.
  - intros [<-|H]; [cbn; lia|]. apply IH in H. lia.
Qed.
Lemma place_starts fn ps off nl : starts fn ps -> place off nl ps <> [].
Proof. intros (ty & tx & ps' & -> & _). discriminate. Qed.
Lemma blank_lex g ps rest : forallb is_space g = true -> lex ps rest -> lex (Blank g :: ps) rest.
Proof. intros G. apply lex_blank, gapped_blank, G. Qed.
Lemma space_lex ps rest : lex ps rest -> lex (Blank ($" ") :: ps) rest.
Proof. apply blank_lex. reflexivity. Qed.
Definition char_tokens : list (toktype * str) :=
  [(TOpenParen, $"("); (TCloseParen, $")"); (TOpenSquare, $"["); (TCloseSquare, $"]"); (TOpenBrace, $"{"); (TCloseBrace, $"}"); (TComma, $","); (TColon, $":"); (TDot, $"."); (TMinus, $"-")].
Lemma char_lex ty tx ps rest : In (ty, tx) char_tokens -> lex ps rest -> lex (Tok ty tx :: ps) rest.
Proof.
  intros I X. cbn in I. repeat destruct I as [I|I]; try (injection I as <- <-; apply lex_tok; [eexists; eexists; split; [reflexivity|repeat split; discriminate]|discriminate|intros pos; exists []; reflexivity|exact X]).
  destruct I.
Qed.
Lemma word_lex ty tx ps rest : In (ty, tx) [(TFor, $"for"); (TIn, $"in"); (TIf, $"if"); (TElse, $"else"); (TAssign, $"=")] -> lex ps rest -> lex (Tok ty tx :: Blank ($" ") :: ps) rest.
Proof.
  intros I X. cbn in I. repeat destruct I as [I|I]; try (injection I as <- <-; apply lex_tok; [eexists; eexists; split; [reflexivity|repeat split; discriminate]|discriminate|intros pos; exists []; reflexivity|apply space_lex, X]).
  destruct I.
Qed.
Lemma op_lex op ps rest : is_op op -> lex ps rest -> lex (Tok op (print_op op) :: Blank ($" ") :: ps) rest.
Proof. intros O X. destruct (op_visible op O). apply lex_tok; auto; [|apply space_lex, X]. apply op_scans, O. Qed.
Lemma name_lex s ps rest : name s -> first_char not_word (render ps ++ rest) -> lex ps rest -> lex (Tok TIdentifier s :: ps) rest.
Proof. intros N F X. apply lex_tok; [apply name_visible, N|discriminate|apply name_scans; auto|exact X]. Qed.
Lemma expr_true d ts n : expr false d ts n -> expr true d ts n.
Proof.
  intros H. remember false as o eqn:O. induction H; subst; try discriminate.
  - apply E_operand; auto.
  - apply E_unary; auto.
  - eapply E_binary; eauto. tauto.
  - eapply E_if; eauto.
  - eapply E_if_else; eauto.
Qed.
Lemma expr_follow (n : node) rest : first_char after_expr rest -> first_char (after_operand n) rest.
Proof. apply first_char_imp. intros c. apply after_expr_operand. Qed.

(** * Lists *)
Lemma elems_match i n : n <> NNull -> (match n with NNull => Ret ($"NIL") | _ => print i n end) = print i n.
Proof. destruct n; congruence. Qed.
Lemma more_reads k l i ml : P_items k l -> exists ps, print_elems print i ml false l = Ret (render ps) /\
  (forall rest, first_char after_expr rest -> lex ps rest /\ first_char after_expr (render ps ++ rest)) /\
  forall off nl, exists l', map erase l' = map erase l /\
    forall close c ts n, tok_type c = close -> ts <> [] -> item k ts n -> items k close (ts ++ place off nl ps ++ [c]) (n :: l').
Proof.
  induction 1 as [|x l [NN H] F (ps & E & L & R)]; cbn [print_elems].
  - exists []. split; [reflexivity|]. split; [intros rest Fr; split; [constructor|exact Fr]|]. intros off nl. exists []. split; [reflexivity|].
    intros close c ts n C T I. cbn [place app]. apply I_last; auto.
  - destruct (H i) as (px & Ex & Sx & Nx & Lx & Rx). rewrite elems_match, Ex, E by auto. cbn [bind].
    exists (Tok TComma ($",") :: Blank (NL :: (if ml then repeat " "%char i else [])) :: px ++ ps). split; [|split].
    + f_equal. rewrite !render_cons, render_app. cbn [piece_text app]. rewrite <- !app_assoc. reflexivity.
    + intros rest Fr. destruct (L rest Fr) as [L1 L2]. split; [|reflexivity]. apply char_lex; [cbn; auto 10|]. apply blank_lex.
      * cbn. destruct ml; [|reflexivity]. clear. induction i; cbn; auto.
      * apply lex_app; auto.
    + intros off nl. cbn [place]. rewrite place_app.
      match goal with |- context[place ?o ?b px ++ place ?o' ?b' ps] => destruct (Rx o b) as (x' & Gx & Ex'); destruct (R o' b') as (l' & El & Gl) end.
      exists (x' :: l'). split; [cbn [map]; rewrite Ex', El; reflexivity|]. intros close c ts n C T I.
      cbn [app]. apply I_more; auto. rewrite <- app_assoc. apply Gl; auto. eapply place_starts; eauto.
Qed.
Lemma items_reads k l i (ml : bool) : P_items k l -> exists ps, print_elems print i ml true l = Ret (render ps) /\
  (forall rest, first_char after_expr rest -> lex ps rest) /\ (l = [] -> ps = []) /\
  forall off nl, exists l', map erase l' = map erase l /\ (forall close c, tok_type c = close -> items k close (place off nl ps ++ [c]) l') /\
    forall n', l' = [n'] -> item k (place off nl ps) n'.
Proof.
  intros [|x l' [NN H] F]; cbn [print_elems].
  - exists []. split; [reflexivity|]. split; [constructor|]. split; [auto|]. intros off nl. exists []. split; [reflexivity|]. split; [|discriminate]. intros close c C. constructor. exact C.
  - destruct (H i) as (px & Ex & Sx & Nx & Lx & Rx). destruct (more_reads k l' i ml F) as (ps & E & L & R). rewrite elems_match, Ex, E by auto. cbn [bind].
    exists (Blank (if ml then repeat " "%char i else []) :: px ++ ps). split; [|split; [|split]].
    + f_equal. rewrite render_cons, render_app. reflexivity.
    + intros rest Fr. destruct (L rest Fr) as [L1 L2]. apply blank_lex; [destruct ml; [clear; induction i; cbn; auto|reflexivity]|]. apply lex_app; auto.
    + discriminate.
    + intros off nl. cbn [place]. rewrite place_app.
      match goal with |- context[place ?o ?b px ++ place ?o' ?b' ps] => destruct (Rx o b) as (x' & Gx & Ex'); destruct (R o' b') as (m & Em & Gm) end.
      exists (x' :: m). split; [cbn [map]; rewrite Ex', Em; reflexivity|]. split.
      * intros close c C. rewrite <- app_assoc. apply Gm; auto. eapply place_starts; eauto.
      * intros n' X. injection X as -> ->. destruct l' as [|y l']; [|discriminate Em]. cbn in E. apply (f_equal (fun o => match o with Ret s => length s | _ => 0 end)) in E. cbn in E.
        assert (ps = [] \/ exists g, render ps = g /\ length g = 0) as [->|(g & <- & Z)] by (right; eexists; split; [reflexivity|lia]); [cbn [place]; rewrite app_nil_r; exact Gx|].
        destruct (place _ _ ps) as [|t ts] eqn:P; [rewrite app_nil_r; exact Gx|]. exfalso.
        destruct (L [] I) as [Lp _]. clear - Lp Z P. revert P. match goal with |- place ?o ?b ps = _ -> _ => generalize o b end.
        remember [] as r. clear Heqr. induction Lp as [|g ps rest G Lp IH|ty tx ps rest (c & r' & -> & _) N S Lp IH]; intros o b P; [discriminate| |].
        -- rewrite render_cons, app_length in Z. cbn [place] in P. eapply IH; [lia|exact P].
        -- rewrite render_cons, app_length in Z. cbn in Z. lia.
Qed.
Definition opener (ty : ltype) : toktype := match ty with LList => TOpenSquare | LMap => TOpenBrace | LTuple => TOpenParen end.
Definition closer (ty : ltype) : toktype := match ty with LList => TCloseSquare | LMap => TCloseBrace | LTuple => TCloseParen end.
Lemma open_lex ty ps rest : lex ps rest -> lex (Tok (opener ty) (list_open ty) :: ps) rest.
Proof. apply char_lex. destruct ty; cbn; auto 10. Qed.
Lemma close_lex ty rest : lex [Tok (closer ty) (list_close ty)] rest.
Proof. apply char_lex; [|constructor]. destruct ty; cbn; auto 10. Qed.
Lemma list_reads k ty l i : P_items k l -> exists ps, print i (NList ty l) = Ret (render (Tok (opener ty) (list_open ty) :: ps)) /\
  (forall rest, lex ps rest) /\ (exists ps', ps = ps' ++ [Tok (closer ty) (list_close ty)]) /\
  forall off nl, exists l', map erase l' = map erase l /\ items k (closer ty) (place off nl ps) l' /\
    (ty = LTuple -> forall n', l' = [n'] -> exists ts cm c, place off nl ps = ts ++ [cm; c] /\ item k ts n' /\ tok_type cm = TComma /\ tok_type c = TCloseParen).
Proof.
  intros H. cbn [print]. set (ml := 1 <? length l). destruct (items_reads k l (i + 4) ml H) as (ps & E & L & Z & R). rewrite E. cbn [bind].
  set (g1 := if ml then [NL] else @nil ascii). set (g2 := if ml then [NL] ++ repeat " "%char i else @nil ascii).
  assert (B1 : forallb is_space g1 = true) by (unfold g1; destruct ml; reflexivity).
  assert (B2 : forallb is_space g2 = true) by (unfold g2; destruct ml; [cbn; clear; induction i; cbn; auto|reflexivity]).
  set (one := match ty, l with LTuple, [_] => true | _, _ => false end).
  assert (O : (match ty, l with LTuple, [_] => $"," | _, _ => [] end) = if one then $"," else []) by (unfold one; destruct ty; try reflexivity; destruct l as [|? [|? ?]]; reflexivity).
  rewrite O. exists (Blank g1 :: ps ++ (if one then [Tok TComma ($",")] else []) ++ [Blank g2; Tok (closer ty) (list_close ty)]). split; [|split; [|split]].
  - f_equal. rewrite !render_cons, !render_app. cbn [piece_text]. f_equal. f_equal. f_equal. destruct one; cbn [render flat_map piece_text app]; rewrite ?app_nil_r; reflexivity.
  - intros rest. apply blank_lex; [exact B1|]. apply lex_app.
    + apply L. destruct one; [reflexivity|]. cbn [app]. rewrite !render_cons. cbn [piece_text]. unfold g2. destruct ml; [reflexivity|]. destruct ty; reflexivity.
    + destruct one; cbn [app]; [apply char_lex; [cbn; auto 10|]|]; (apply blank_lex; [exact B2|apply close_lex]).
  - exists (Blank g1 :: ps ++ (if one then [Tok TComma ($",")] else []) ++ [Blank g2]). cbn [app]. rewrite <- !app_assoc. reflexivity.
  - intros off nl. cbn [place]. rewrite place_app. match goal with |- context[place ?o ?b ps ++ _] => destruct (R o b) as (l' & El & I1 & I2) end.
    exists l'. split; [exact El|]. destruct one eqn:One.
    + assert (exists x, l = [x]) as [x ->] by (revert One; unfold one; destruct ty; try discriminate; destruct l as [|x [|? ?]]; try discriminate; eauto).
      destruct l' as [|n' [|? ?]]; try discriminate El. specialize (I2 n' eq_refl). cbn [app place]. split.
      * apply I_more; [exact I2|reflexivity|]. constructor. reflexivity.
      * intros -> n'' X. injection X as <-. do 3 eexists. split; [reflexivity|]. split; [exact I2|]. auto.
    + cbn [app place]. split; [apply I1; reflexivity|]. intros -> n' ->. exfalso. revert One. unfold one. destruct l as [|x [|? ?]]; cbn in El; discriminate.
Qed.

(** A closing parenthesis after elements with commas. *)
Lemma tuple_items k close rs l : items k close rs l -> k = Expressions -> close = TCloseParen -> forall cm, tok_type cm = TComma -> tuple_rest (cm :: rs) l.
Proof.
  induction 1 as [k close c C|k close ts n c T I C|k close ts n cm' rs l I C J IH]; intros -> -> cm CM.
  - apply T_comma; auto.
  - inversion I; subst. eapply T_more; eauto. apply T_end. exact C.
  - inversion I; subst. eapply T_more; eauto.
Qed.
Lemma tuple_reads l ts l' o : items Expressions TCloseParen ts l' -> map erase l' = map erase l -> tok_type o = TOpenParen ->
  (forall n', l' = [n'] -> exists ts' cm c, ts = ts' ++ [cm; c] /\ item Expressions ts' n' /\ tok_type cm = TComma /\ tok_type c = TCloseParen) ->
  operand (o :: ts) (NList LTuple l').
Proof.
  intros I E O S. destruct l' as [|n' [|m l']].
  - inversion I; subst. apply O_unit; auto.
  - destruct (S n' eq_refl) as (ts' & cm & c & -> & J & C1 & C2). inversion J; subst. eapply O_tuple; eauto; [apply expr_true; eassumption|]. apply T_comma || (apply T_end || idtac); auto.
  - inversion I as [| |k close ts' x cm rs y J C K]; subst. inversion J; subst. eapply O_tuple; eauto; [apply expr_true; eassumption|]. eapply tuple_items; eauto.
Qed.

(** * Comprehensions *)
Lemma variable_item v : name (v_text v) -> P_item Variables (NId v).
Proof.
  intros N. split; [discriminate|]. intros i. exists [Tok TIdentifier (v_text v)]. split; [cbn; rewrite app_nil_r; reflexivity|]. split; [|split; [|split]].
  - do 3 eexists. split; [reflexivity|]. split; [reflexivity|congruence].
  - exists [], TIdentifier, (v_text v). split; reflexivity.
  - intros rest F. apply name_lex; [exact N| |constructor]. cbn. revert F. apply first_char_imp. intros c H. apply after_number_word, after_expr_word, H.
  - intros off nl. eexists. split; [apply I_variable; reflexivity|reflexivity].
Qed.
Lemma variables_items vars : Forall variable_name vars -> P_items Variables vars.
Proof. intros F. eapply Forall_impl; [|exact F]. intros n (v & -> & N). apply variable_item, N. Qed.

Lemma clause_reads vars d e i rg : Forall variable_name vars -> P_expr d e -> exists t ps, print i (NBin TIn (NList LTuple vars) e rg) = Ret t /\ $" for " ++ t = render ps /\
  (forall rest, first_char after_expr rest -> lex ps rest) /\
  forall off nl, exists f rest' vars' e', place off nl ps = f :: rest' /\ tok_type f = TFor /\ map erase vars' = map erase vars /\ erase e' = erase e /\
    forall nx n0, off + length (render ps) <= tok_off nx -> exists rg', forall close rs t,
      clauses close (NBin TFor n0 (NBin TIn (NList LTuple vars') e' rg') (token_range f)) (nx :: rs) t -> clauses close n0 (f :: rest' ++ nx :: rs) t.
Proof.
  intros V [NN H]. destruct (list_reads Variables LTuple vars i (variables_items _ V)) as (pv & Ev & Lv & (pv' & Nv) & Rv). destruct (H i) as (pe & Ee & Se & Ne & Le & Re).
  set (ps := [Blank ($" "); Tok TFor ($"for"); Blank ($" ")] ++ (Tok TOpenParen ($"(") :: pv) ++ [Blank ($" "); Tok TIn ($"in"); Blank ($" ")] ++ pe).
  exists (render (Tok TOpenParen ($"(") :: pv) ++ ($" " ++ $"in" ++ $" ") ++ render pe ++ []), ps. split; [|split; [|split]].
  - change (print i (NBin TIn (NList LTuple vars) e rg)) with (do a <- print i (NList LTuple vars); do b <- print i e; Ret (a ++ ($" " ++ print_op TIn ++ $" ") ++ b ++ [])).
    rewrite Ev, Ee. reflexivity.
  - unfold ps. rewrite !render_app, app_nil_r. reflexivity.
  - intros rest F. unfold ps. cbn [app]. apply space_lex. apply word_lex; [cbn; auto|]. apply char_lex; [cbn; auto 10|]. apply lex_app; [apply Lv|].
    apply space_lex. apply word_lex; [cbn; auto 10|]. apply Le, F.
  - intros off nl. remember (place off nl ps) as toks eqn:Et. pose proof (place_bounds ps off nl) as PB. rewrite <- Et in PB. unfold ps in Et. cbn [app place] in Et. rewrite place_app in Et. cbn [place] in Et.
    match type of Et with _ = _ :: _ :: place ?o ?b pv ++ _ => destruct (Rv o b) as (vars' & E1 & I1 & _) end.
    match type of Et with context[place ?o ?b pe] => destruct (Re o b) as (e' & G & E2) end.
    do 2 eexists. exists vars', e'. split; [exact Et|]. split; [reflexivity|]. split; [exact E1|]. split; [exact E2|]. intros nx n0 LE.
    match type of Et with _ = ?x :: _ => set (f := x) in * end.
    assert (BF : tok_off f + length (tok_text f) <= tok_off nx) by (specialize (PB f); rewrite Et in PB; specialize (PB (or_introl eq_refl)); lia).
    exists (mkRange (tok_off f + length (tok_text f)) (tok_off nx - (tok_off f + length (tok_text f)))). intros close rs t C.
    match goal with |- clauses _ _ (f :: (?o :: ?a ++ ?x :: ?b) ++ nx :: rs) t => replace ((o :: a ++ x :: b) ++ nx :: rs) with ((o :: a ++ [x]) ++ b ++ nx :: rs) by (cbn [app]; rewrite <- !app_assoc; reflexivity) end.
    eapply F_for; [reflexivity| |exact G| |exact C].
    + apply V_paren; [reflexivity|exact I1|reflexivity].
    + split; cbn [r_off r_len]; lia.
Qed.
Lemma for_text op a b (t : str) : op = TFor -> a ++ ($" for " ++ t) = b -> Ret (a ++ (match op with TDot | TOpenSquare => print_op op | _ => $" " ++ print_op op ++ $" " end) ++ t ++ (match op with TOpenSquare => $"]" | _ => [] end)) = Ret b.
Proof. intros -> <-. rewrite app_nil_r. reflexivity. Qed.
Lemma for_reads k n vars d e rg rg' : P_item k n -> Forall variable_name vars -> P_expr d e -> P_for k (NBin TFor n (NBin TIn (NList LTuple vars) e rg) rg').
Proof.
  intros [NN H] V He i. destruct (H i) as (pn & En & Sn & Nn & Ln & Rn). destruct (clause_reads vars d e i rg V He) as (t & ps & Et & Er & L & R).
  exists pn, ps. split; [|split].
  - cbn [print] in *. rewrite En. cbn [bind]. rewrite Et. cbn [bind]. rewrite render_app, <- Er, app_nil_r. reflexivity.
  - intros rest F. apply lex_app; [apply Ln; rewrite <- Er; reflexivity|auto].
  - intros off nl. destruct (Rn off nl) as (n0 & G & E0). destruct (R (off + length (render pn)) (trail nl pn)) as (f & rest' & vars' & e' & P & Tf & E1 & E2 & K).
    exists n0, f, rest'. split; [exact G|]. split; [exact P|]. split; [exact Tf|]. intros nx LE. rewrite render_app, app_length in LE.
    destruct (K nx n0) as (rg2 & K'); [lia|]. eexists. split; [|exact K']. cbn [erase]. rewrite E0, E1, E2. reflexivity.
Qed.
Lemma for_more_reads k n vars d e rg rg' : P_for k n -> Forall variable_name vars -> P_expr d e -> P_for k (NBin TFor n (NBin TIn (NList LTuple vars) e rg) rg').
Proof.
  intros H V He i. destruct (H i) as (p0 & pn & En & Ln & Rn). destruct (clause_reads vars d e i rg V He) as (t & ps & Et & Er & L & R).
  exists p0, (pn ++ ps). split; [|split].
  - cbn [print] in *. rewrite En. cbn [bind]. rewrite Et. cbn [bind]. rewrite (app_assoc p0 pn ps), (render_app (p0 ++ pn)), <- Er, app_nil_r. reflexivity.
  - intros rest F. rewrite (app_assoc p0 pn ps). apply lex_app; [apply Ln; rewrite <- Er; reflexivity|auto].
  - intros off nl. destruct (Rn off nl) as (n0 & f0 & r0 & G & P0 & T0 & K0).
    destruct (R (off + length (render p0) + length (render pn)) (trail (trail nl p0) pn)) as (f & rest' & vars' & e' & P & Tf & E1 & E2 & K).
    exists n0, f0, (r0 ++ f :: rest'). split; [exact G|]. split; [rewrite place_app, P0, P; reflexivity|]. split; [exact T0|]. intros nx LE. rewrite !render_app, !app_length in LE.
    destruct (K0 f) as (n' & E' & K').
    { assert (B : In f (place (off + length (render p0) + length (render pn)) (trail (trail nl p0) pn) ps)) by (rewrite P; left; reflexivity). apply place_bounds in B. rewrite render_app, app_length. lia. }
    destruct (K nx n') as (rg2 & K2); [lia|]. eexists. split; [|].
    2: { intros close rs t' C. rewrite <- app_assoc. cbn [app]. apply K'. apply K2. exact C. }
    cbn [erase]. rewrite E', E1, E2. reflexivity.
Qed.
Lemma comp_reads k ty f i : P_for k f -> exists ps, print i (NComp ty f) = Ret (render (Tok (opener ty) (list_open ty) :: ps)) /\
  (forall rest, lex ps rest) /\ (exists ps', ps = ps' ++ [Tok (closer ty) (list_close ty)]) /\
  forall off nl, exists f', erase f' = erase f /\ bracket ty k (closer ty) (place off nl ps) (NComp ty f').
Proof.
  intros H. destruct (H i) as (p0 & ps & E & L & R). exists ((p0 ++ ps) ++ [Tok (closer ty) (list_close ty)]). cbn [print]. rewrite E. cbn [bind]. split; [|split; [|split]].
  - rewrite render_cons, (render_app (p0 ++ ps)). cbn [piece_text]. rewrite (render_cons _ []). cbn [piece_text render flat_map]. rewrite app_nil_r. reflexivity.
  - intros rest. apply lex_app; [apply L; destruct ty; reflexivity|apply close_lex].
  - eauto.
  - intros off nl. destruct (R off nl) as (n0 & f0 & r0 & G & P0 & T0 & K0). rewrite place_app. cbn [place].
    match goal with |- context[[mkToken ?a ?b ?c ?d]] => destruct (K0 (mkToken a b c d)) as (n' & E' & K') end; [cbn [tok_off]; lia|]. exists n'. split; [exact E'|].
    rewrite place_app, P0, <- app_assoc. cbn [app]. eapply B_comprehension; [exact G|exact T0|]. apply K'. apply F_end. reflexivity.
Qed.

(** * All trees *)
Lemma scanned_name tx ps rest : lex (Tok TIdentifier tx :: ps) rest -> first_char (fun c => negb (is_identifier_char c)) (render ps ++ rest).
Proof.
  intros X. inversion X as [| |ty tx' ps' rest' (c & r & E & Sp & _) N S L]; subst. destruct (S 0) as (p & E). cbn [app] in E. destruct (render ps ++ rest) as [|d r0] eqn:Q; [exact I|]. cbn.
  apply scan_token_spec in E as [_ K]; auto. rewrite (K (or_introl (or_introl eq_refl)) d); [reflexivity|]. cbn [length nth_error]. rewrite nth_error_app2, Nat.sub_diag by lia. reflexivity.
Qed.
Lemma starts_not_in n ps rest : starts (first_name n) ps -> lex ps rest -> (forall s, first_name n = Some s -> starts_with ($"in") s = false) -> starts_with ($"in") (render ps ++ rest) = false.
Proof.
  intros (ty & tx & ps' & -> & A & B) X N. rewrite render_cons, <- app_assoc. cbn [piece_text]. assert (V : visible tx) by (inversion X; auto). destruct V as (c & r & -> & _).
  destruct (toktype_beq ty TIdentifier) eqn:T.
  - apply internal_toktype_dec_bl in T. subst ty. specialize (N _ (A eq_refl)). apply scanned_name in X. destruct r as [|d r].
    + cbn [app]. cbn. destruct (ceqb "i" c); [|reflexivity]. cbn. destruct (render ps' ++ rest) as [|d r0]; [reflexivity|]. cbn in X. destruct (ceqb_spec "n" d) as [<-|]; [discriminate X|reflexivity].
    + cbn in *. exact N.
  - assert (ty <> TIdentifier) as NT by (intros ->; discriminate). specialize (B NT r). cbn. destruct (ceqb_spec "i" c) as [<-|]; [congruence|reflexivity].
Qed.
Lemma starts_space ps fn rest rest' : starts fn ps -> lex ps rest -> exists c r, render ps ++ rest' = c :: r /\ is_space c = false.
Proof.
  intros (ty & tx & ps' & -> & _) X. inversion X as [| |? ? ? ? (c & r & -> & V & _) N S L]; subst. exists c, (r ++ render ps' ++ rest'). rewrite render_cons. cbn [piece_text]. split; [cbn; rewrite <- app_assoc; reflexivity|exact V].
Qed.
Lemma binary_place op off tx nl : is_op op -> binary (mkToken op off tx nl).
Proof. exact (fun H => H). Qed.
Lemma else_print i e : e <> NNull -> (match e with NNull => Ret [] | _ => do x <- print i e; Ret ($" else " ++ x) end) = do x <- print i e; Ret ($" else " ++ x).
Proof. destruct e; congruence. Qed.
Lemma else_last c p e : e <> NNull -> last_is_name (NTernary c p e) = last_is_name e.
Proof. destruct e; intros N; try reflexivity. congruence. Qed.

Lemma operand_expr n : P_operand n -> P_expr false n.
Proof.
  intros [NN H]. split; [exact NN|]. intros i. destruct (H i) as (ps & E & S & N & L & R). exists ps. split; [exact E|]. split; [exact S|]. split; [exact N|]. split.
  - intros rest F. apply L, expr_follow, F.
  - intros off nl. destruct (R off nl) as (n' & G & E'). exists n'. split; [apply E_operand, G|exact E'].
Qed.
Lemma minus_expr d n : P_expr d n -> P_expr d (NUnary TMinus n).
Proof.
  intros [NN H]. split; [discriminate|]. intros i. destruct (H i) as (ps & E & S & N & L & R). exists (Tok TMinus ($"-") :: ps). cbn [print]. rewrite E. cbn [bind]. split; [reflexivity|]. split; [|split; [|split]].
  - do 3 eexists. split; [reflexivity|]. split; [discriminate|]. intros _ r X. discriminate X.
  - apply ends_cons, N.
  - intros rest F. apply char_lex; [cbn; auto 20|auto].
  - intros off nl. cbn [place]. match goal with |- context[place ?o ?b ps] => destruct (R o b) as (n' & G & E') end. eexists. split; [apply E_unary; [left; reflexivity|exact G]|]. cbn. rewrite E'. reflexivity.
Qed.
Lemma not_expr d n : P_expr d n -> (forall s, first_name n = Some s -> starts_with ($"in") s = false) -> P_expr d (NUnary TNot n).
Proof.
  intros [NN H] NI. split; [discriminate|]. intros i. destruct (H i) as (ps & E & S & N & L & R). exists (Tok TNot ($"not") :: Blank ($" ") :: ps). cbn [print]. rewrite E. cbn [bind]. split; [reflexivity|]. split; [|split; [|split]].
  - do 3 eexists. split; [reflexivity|]. split; [discriminate|]. intros _ r X. discriminate X.
  - apply ends_cons, ends_cons, N.
  - intros rest F. specialize (L rest F). apply lex_tok; [eexists; eexists; split; [reflexivity|repeat split; discriminate]|discriminate| |apply space_lex, L].
    rewrite render_cons, <- app_assoc. cbn [piece_text]. apply not_scans; [eapply starts_space; eauto|eapply starts_not_in; eauto].
  - intros off nl. cbn [place]. match goal with |- context[place ?o ?b ps] => destruct (R o b) as (n' & G & E') end. eexists. split; [apply E_unary; [right; reflexivity|exact G]|]. cbn. rewrite E'. reflexivity.
Qed.
Lemma binary_expr d op l r rg : P_operand l -> is_op op -> (op = TDot -> is_int l = false) -> P_expr d r -> P_expr d (NBin op l r rg).
Proof.
  intros [NNl Hl] O D [NNr Hr]. split; [discriminate|]. intros i. destruct (Hl i) as (pl & El & Sl & Nl & Ll & Rl). destruct (Hr i) as (pr & Er & Sr & Nr & Lr & Rr).
  assert (LN : last_is_name (NBin op l r rg) = last_is_name r). { clear - O. cbn. destruct op; try reflexivity. exfalso. unfold is_op, binary in O. cbn in O. repeat destruct O as [O|O]; try discriminate. exact O. }
  destruct (toktype_beq op TDot) eqn:T.
  - apply internal_toktype_dec_bl in T. subst op. exists (pl ++ Tok TDot ($".") :: pr). cbn [print]. rewrite El, Er. cbn [bind]. split; [rewrite render_app, render_cons, app_nil_r; reflexivity|]. split; [|split; [|split]].
    + apply starts_app, Sl.
    + rewrite LN. apply ends_app, ends_cons, Nr.
    + intros rest F. apply lex_app; [|apply char_lex; [cbn; auto 20|auto]]. apply Ll. assert (A : after_operand l "." = true) by (unfold after_operand; rewrite (D eq_refl); reflexivity). exact A.
    + intros off nl. rewrite place_app. cbn [place]. match goal with |- context[place ?o ?b pl ++ _] => destruct (Rl o b) as (l' & Gl & El') end.
      match goal with |- context[place ?o ?b pr] => destruct (Rr o b) as (r' & Gr & Er') end.
      eexists. split; [eapply E_binary; [apply H_operand, Gl|discriminate|exact O|exact Gr]|]. cbn. rewrite El', Er'. reflexivity.
  - assert (NT : op <> TDot) by (intros ->; discriminate).
    assert (P : print i (NBin op l r rg) = do a <- print i l; do b <- print i r; Ret (a ++ ($" " ++ print_op op ++ $" ") ++ b)).
    { clear - O NT. cbn [print]. destruct (print i l); cbn [bind]; try reflexivity. destruct (print i r); cbn [bind]; try reflexivity. f_equal. f_equal.
      destruct op; try congruence; try (rewrite app_nil_r; reflexivity). exfalso. unfold is_op, binary in O. cbn in O. repeat destruct O as [O|O]; try discriminate. exact O. }
    exists (pl ++ Blank ($" ") :: Tok op (print_op op) :: Blank ($" ") :: pr). rewrite P, El, Er. cbn [bind]. split; [rewrite render_app, !render_cons; cbn [piece_text]; rewrite <- !app_assoc; reflexivity|]. split; [|split; [|split]].
    + apply starts_app, Sl.
    + rewrite LN. apply ends_app, ends_cons, ends_cons, ends_cons, Nr.
    + intros rest F. apply lex_app; [apply Ll; reflexivity|]. apply space_lex, op_lex; auto.
    + intros off nl. rewrite place_app. cbn [place]. match goal with |- context[place ?o ?b pl ++ _] => destruct (Rl o b) as (l' & Gl & El') end.
      match goal with |- context[place ?o ?b pr] => destruct (Rr o b) as (r' & Gr & Er') end.
      eexists. split; [eapply E_binary; [apply H_operand, Gl|discriminate|apply binary_place; exact O|exact Gr]|]. cbn. rewrite El', Er'. reflexivity.
Qed.
Lemma if_expr d n c : P_operand n -> P_expr d c -> P_expr true (NTernary c n NNull).
Proof.
  intros [NNl Hl] [NNr Hr]. split; [discriminate|]. intros i. destruct (Hl i) as (pl & El & Sl & Nl & Ll & Rl). destruct (Hr i) as (pr & Er & Sr & Nr & Lr & Rr).
  exists (pl ++ Blank ($" ") :: Tok TIf ($"if") :: Blank ($" ") :: pr). cbn [print]. rewrite El, Er. cbn [bind]. split; [rewrite render_app, !render_cons, app_nil_r; reflexivity|]. split; [|split; [|split]].
  - apply starts_app, Sl.
  - apply ends_app, ends_cons, ends_cons, ends_cons, Nr.
  - intros rest F. apply lex_app; [apply Ll; reflexivity|]. apply space_lex, word_lex; [cbn; auto|auto].
  - intros off nl. rewrite place_app. cbn [place]. match goal with |- context[place ?o ?b pl ++ _] => destruct (Rl o b) as (l' & Gl & El') end.
    match goal with |- context[place ?o ?b pr] => destruct (Rr o b) as (r' & Gr & Er') end.
    eexists. split; [eapply E_if; [apply H_operand, Gl|discriminate|reflexivity|exact Gr]|]. cbn. rewrite El', Er'. reflexivity.
Qed.
Lemma if_else_expr d n c e : P_operand n -> P_expr false c -> P_expr d e -> P_expr d (NTernary c n e).
Proof.
  intros [NNl Hl] [NNr Hr] [NNe He]. split; [discriminate|]. intros i. destruct (Hl i) as (pl & El & Sl & Nl & Ll & Rl). destruct (Hr i) as (pr & Er & Sr & Nr & Lr & Rr). destruct (He i) as (pe & Ee & Se & Ne & Le & Re).
  exists (pl ++ Blank ($" ") :: Tok TIf ($"if") :: Blank ($" ") :: pr ++ Blank ($" ") :: Tok TElse ($"else") :: Blank ($" ") :: pe). cbn [print]. rewrite El, Er, else_print, Ee by auto. cbn [bind].
  split; [f_equal; rewrite render_app, !render_cons, render_app, !render_cons; reflexivity|]. split; [|split; [|split]].
  - apply starts_app, Sl.
  - rewrite else_last by auto. apply ends_app, ends_cons, ends_cons, ends_cons, ends_app, ends_cons, ends_cons, ends_cons, Ne.
  - intros rest F. apply lex_app; [apply Ll; reflexivity|]. apply space_lex, word_lex; [cbn; auto|]. apply lex_app; [apply Lr; reflexivity|]. apply space_lex, word_lex; [cbn; auto 10|auto].
  - intros off nl. rewrite place_app. cbn [place]. rewrite place_app. cbn [place]. match goal with |- context[place ?o ?b pl ++ _] => destruct (Rl o b) as (l' & Gl & El') end.
    match goal with |- context[place ?o ?b pr ++ _] => destruct (Rr o b) as (r' & Gr & Er') end. match goal with |- context[place ?o ?b pe] => destruct (Re o b) as (e' & Ge & Ee') end.
    eexists. split; [eapply E_if_else; [apply H_operand, Gl|discriminate|reflexivity|exact Gr|reflexivity|exact Ge]|]. cbn. rewrite El', Er', Ee'. reflexivity.
Qed.

Lemma erase_null n : erase n = NNull -> n = NNull.
Proof. destruct n; cbn; try discriminate; reflexivity. Qed.
Lemma bound_reads n i : P_bound n -> exists ps, print i n = Ret (render ps) /\ (forall rest, first_char after_expr rest -> lex ps rest) /\
  forall off nl, exists n', bound (place off nl ps) n' /\ erase n' = erase n.
Proof.
  intros [->|(d & NN & H)].
  - exists []. split; [reflexivity|]. split; [constructor|]. intros off nl. exists NNull. split; [constructor|reflexivity].
  - destruct (H i) as (ps & E & S & N & L & R). exists ps. split; [exact E|]. split; [exact L|]. intros off nl. destruct (R off nl) as (n' & G & E'). exists n'. split; [eapply B_some, expr_true, G|exact E'].
Qed.
Lemma index_operand d x a rg : P_operand x -> P_expr d a -> P_operand (NBin TOpenSquare x a rg).
Proof.
  intros [NNx Hx] [NNa Ha]. split; [discriminate|]. intros i. destruct (Hx i) as (px & Ex & Sx & Nx & Lx & Rx). destruct (Ha i) as (pa & Ea & Sa & Na & La & Ra).
  exists (px ++ Tok TOpenSquare ($"[") :: pa ++ [Tok TCloseSquare ($"]")]). cbn [print]. rewrite Ex, Ea. cbn [bind]. split; [rewrite render_app, render_cons, render_app; reflexivity|]. split; [|split; [|split]].
  - apply starts_app, Sx.
  - apply ends_app, ends_cons, ends_app. exists [], TCloseSquare, ($"]"). split; [reflexivity|discriminate].
  - intros rest F. apply lex_app; [apply Lx; cbn; unfold after_operand; cbn; reflexivity|]. apply char_lex; [cbn; auto 10|]. apply lex_app; [apply La; reflexivity|]. apply char_lex; [cbn; auto 10|constructor].
  - intros off nl. rewrite place_app. cbn [place]. rewrite place_app. cbn [place]. destruct (Rx off nl) as (x' & Gx & Ex'). match goal with |- context[place ?o ?b pa] => destruct (Ra o b) as (a' & Ga & Ea') end.
    eexists. split; [eapply O_index; [exact Gx|reflexivity| |eapply A_index, expr_true, Ga|reflexivity]|].
    + cbn [tok_newline]. rewrite (ends_trail _ _ _ Nx). reflexivity.
    + cbn. rewrite Ex', Ea'. reflexivity.
Qed.
Lemma slice_operand x a b rg rg' : P_operand x -> P_bound a -> P_bound b -> a <> NNull \/ b <> NNull -> P_operand (NBin TOpenSquare x (NBin TColon a b rg) rg').
Proof.
  intros [NNx Hx] Ha Hb NN. split; [discriminate|]. intros i. destruct (Hx i) as (px & Ex & Sx & Nx & Lx & Rx). destruct (bound_reads a i Ha) as (pa & Ea & La & Ra). destruct (bound_reads b i Hb) as (pb & Eb & Lb & Rb).
  exists (px ++ Tok TOpenSquare ($"[") :: (pa ++ Blank ($" ") :: Tok TColon ($":") :: Blank ($" ") :: pb) ++ [Tok TCloseSquare ($"]")]). cbn [print]. rewrite Ex, Ea, Eb. cbn [bind].
  split; [f_equal; rewrite render_app, render_cons, render_app, render_app, !render_cons, app_nil_r; reflexivity|]. split; [|split; [|split]].
  - apply starts_app, Sx.
  - apply ends_app, ends_cons, ends_app. exists [], TCloseSquare, ($"]"). split; [reflexivity|discriminate].
  - intros rest F. apply lex_app; [apply Lx; cbn; unfold after_operand; cbn; reflexivity|]. apply char_lex; [cbn; auto 10|]. apply lex_app; [|apply char_lex; [cbn; auto 10|constructor]].
    apply lex_app; [apply La; reflexivity|]. apply space_lex, char_lex; [cbn; auto 10|]. apply space_lex, Lb. reflexivity.
  - intros off nl. rewrite place_app. cbn [place]. rewrite place_app, place_app. cbn [place]. destruct (Rx off nl) as (x' & Gx & Ex'). match goal with |- context[place ?o ?b pa ++ _] => destruct (Ra o b) as (a' & Ga & Ea') end.
    match goal with |- context[place ?o ?b pb] => destruct (Rb o b) as (b' & Gb & Eb') end.
    eexists. split; [eapply O_index; [exact Gx|reflexivity| |eapply A_slice; [exact Ga|reflexivity|exact Gb|]|reflexivity]|].
    + cbn [tok_newline]. rewrite (ends_trail _ _ _ Nx). reflexivity.
    + destruct NN as [NN|NN]; [left|right]; intros ->; apply NN, erase_null; symmetry; assumption.
    + cbn. rewrite Ex', Ea', Eb'. reflexivity.
Qed.
Lemma name_operand v : name (v_text v) -> P_operand (NId v).
Proof.
  intros N. split; [discriminate|]. intros i. exists [Tok TIdentifier (v_text v)]. split; [cbn; rewrite app_nil_r; reflexivity|]. split; [|split; [|split]].
  - do 3 eexists. split; [reflexivity|]. split; [reflexivity|congruence].
  - exists [], TIdentifier, (v_text v). split; reflexivity.
  - intros rest F. apply name_lex; [exact N| |constructor]. cbn. revert F. apply first_char_imp, after_operand_word.
  - intros off nl. eexists. split; [apply O_id; reflexivity|reflexivity].
Qed.
Lemma int_operand v z : number (v_text v) z -> P_operand (NInt v z).
Proof.
  intros N. split; [discriminate|]. intros i. exists [Tok TNumberLiteral (v_text v)]. assert (V := number_visible _ _ N). split; [|split; [|split; [|split]]].
  - cbn. rewrite app_nil_r. destruct V as (c & r & -> & _). reflexivity.
  - do 3 eexists. split; [reflexivity|]. split; [discriminate|]. intros _ r X. destruct N as [N _]. rewrite X in N. apply single_token in N as (_ & p & E); [|discriminate].
    apply scan_number_token in E as [_ K]. specialize (K ($"f ") 0). discriminate K.
  - exists [], TNumberLiteral, (v_text v). split; [reflexivity|discriminate].
  - intros rest F. apply lex_tok; [exact V|discriminate| |constructor]. cbn. eapply number_scans; [exact N|]. revert F. apply first_char_imp, after_operand_int.
  - intros off nl. eexists. split; [apply O_int; [reflexivity|apply N]|]. reflexivity.
Qed.
Lemma string_operand v triple raw : quotable triple (v_text v) -> P_operand (NStr v triple raw).
Proof.
  intros Q. split; [discriminate|]. intros i. exists [Tok TStringLiteral (print_string (v_text v) triple raw)]. split; [cbn [print render flat_map piece_text]; rewrite app_nil_r; reflexivity|]. split; [|split; [|split]].
  - do 3 eexists. split; [reflexivity|]. split; [discriminate|]. intros _ r. rewrite print_string_literal. unfold string_literal, quote_of. destruct raw; [discriminate|]. destruct triple, (find_first DQ (v_text v)); discriminate.
  - exists [], TStringLiteral, (print_string (v_text v) triple raw). split; [reflexivity|discriminate].
  - intros rest F. apply lex_tok; [apply string_visible|discriminate| |constructor]. cbn [render flat_map app]. apply string_scans; [exact Q|]. revert F. apply first_char_imp, after_operand_word.
  - intros off nl. eexists. split; [apply O_string; [reflexivity|apply string_leaf_intro, string_back, Q]|]. reflexivity.
Qed.
Lemma call_reads v args i : name (v_text v) -> P_items Arguments args -> exists ps, print i (NCall (NId v) (NList LTuple args)) = Ret (render (Tok TIdentifier (v_text v) :: ps)) /\
  (forall rest, lex (Tok TIdentifier (v_text v) :: ps) rest) /\ (exists ps', ps = ps' ++ [Tok TCloseParen ($")")]) /\
  forall off nl, exists n', call (place off nl (Tok TIdentifier (v_text v) :: ps)) n' /\ erase n' = erase (NCall (NId v) (NList LTuple args)).
Proof.
  intros N H. destruct (list_reads Arguments LTuple args i H) as (ps & E & L & (ps' & Z) & R). exists (Tok TOpenParen ($"(") :: ps).
  change (print i (NCall (NId v) (NList LTuple args))) with (do a <- print i (NList LTuple args); Ret (v_text v ++ a)). rewrite E. cbn [bind]. split; [reflexivity|]. split; [|split].
  - intros rest. apply name_lex; [exact N|reflexivity|]. apply char_lex; [cbn; auto|apply L].
  - exists (Tok TOpenParen ($"(") :: ps'). rewrite Z. reflexivity.
  - intros off nl. cbn [place]. match goal with |- context[place ?o ?b ps] => destruct (R o b) as (l' & El & I1 & _) end. eexists. split; [apply C_call; [reflexivity|reflexivity|exact I1]|].
    cbn [erase]. rewrite El. reflexivity.
Qed.
Lemma closed_ends ln ps ty tx : (exists ps', ps = ps' ++ [Tok ty tx]) -> ty <> TIdentifier -> ends ln ps.
Proof. intros (ps' & ->) N. exists ps', ty, tx. split; [reflexivity|congruence]. Qed.
Lemma call_operand v args : name (v_text v) -> P_items Arguments args -> P_operand (NCall (NId v) (NList LTuple args)).
Proof.
  intros N H. split; [discriminate|]. intros i. destruct (call_reads v args i N H) as (ps & E & L & Z & R). eexists. split; [exact E|]. split; [|split; [|split]].
  - do 3 eexists. split; [reflexivity|]. split; [reflexivity|congruence].
  - apply ends_cons. eapply closed_ends; [exact Z|discriminate].
  - intros rest _. apply L.
  - intros off nl. destruct (R off nl) as (n' & G & E'). exists n'. split; [apply O_call, G|exact E'].
Qed.
Lemma opener_starts ty ps : starts None (Tok (opener ty) (list_open ty) :: ps).
Proof. do 3 eexists. split; [reflexivity|]. split; [destruct ty; discriminate|]. intros _ r. destruct ty; discriminate. Qed.
Lemma closer_name ty : closer ty <> TIdentifier.
Proof. destruct ty; discriminate. Qed.
Lemma list_operand k ty l : P_items k l -> (k = match ty with LMap => Pairs | _ => Expressions end) -> P_operand (NList ty l).
Proof.
  intros H K. split; [discriminate|]. intros i. destruct (list_reads k ty l i H) as (ps & E & L & Z & R). eexists. split; [exact E|]. split; [apply opener_starts|]. split; [|split].
  - apply ends_cons. eapply closed_ends; [exact Z|apply closer_name].
  - intros rest _. apply open_lex, L.
  - intros off nl. cbn [place]. match goal with |- context[place ?o ?b ps] => destruct (R o b) as (l' & El & I1 & I2) end. exists (NList ty l'). split; [|cbn [erase]; rewrite El; reflexivity].
    subst k. destruct ty; cbn [opener closer] in *.
    + apply O_list; [reflexivity|]. apply B_items, I1.
    + apply O_map; [reflexivity|]. apply B_items, I1.
    + eapply tuple_reads; eauto.
Qed.
Lemma comp_operand ty k f : P_for k f -> (ty = LList /\ k = Expressions \/ ty = LMap /\ k = Pairs) -> P_operand (NComp ty f).
Proof.
  intros H K. split; [discriminate|]. intros i. destruct (comp_reads k ty f i H) as (ps & E & L & Z & R). eexists. split; [exact E|]. split; [apply opener_starts|]. split; [|split].
  - apply ends_cons. eapply closed_ends; [exact Z|apply closer_name].
  - intros rest _. apply open_lex, L.
  - intros off nl. cbn [place]. match goal with |- context[place ?o ?b ps] => destruct (R o b) as (f' & Ef & B) end. exists (NComp ty f'). split; [|cbn [erase]; rewrite Ef; reflexivity].
    destruct K as [[-> ->]|[-> ->]]; cbn [opener closer] in *; [apply O_list|apply O_map]; auto.
Qed.
Lemma expr_item d n k : P_expr d n -> k = Expressions \/ k = Arguments -> P_item k n.
Proof.
  intros [NN H] K. split; [exact NN|]. intros i. destruct (H i) as (ps & E & S & N & L & R). exists ps. do 4 (split; auto). intros off nl. destruct (R off nl) as (n' & G & E'). exists n'. split; [|exact E'].
  destruct K as [-> | ->]; [eapply I_expr|eapply I_arg]; eauto.
Qed.
Lemma assign_print i l r rg : print i (NAssign l r rg) = do a <- print i l; do b <- print i r; Ret (a ++ $" = " ++ b).
Proof. reflexivity. Qed.
Lemma keyword_item d v r rg : name (v_text v) -> P_expr d r -> P_item Arguments (NAssign (NId v) r rg).
Proof.
  intros V [NN H]. split; [discriminate|]. intros i. destruct (H i) as (ps & E & S & N & L & R). exists (Tok TIdentifier (v_text v) :: Blank ($" ") :: Tok TAssign ($"=") :: Blank ($" ") :: ps).
  rewrite assign_print, E. cbn [print bind]. split; [reflexivity|]. split; [|split; [|split]].
  - do 3 eexists. split; [reflexivity|]. split; [reflexivity|congruence].
  - do 4 apply ends_cons. exact N.
  - intros rest F. apply name_lex; [exact V|reflexivity|]. apply space_lex, word_lex; [cbn; auto 10|auto].
  - intros off nl. cbn [place]. match goal with |- context[place ?o ?b ps] => destruct (R o b) as (r' & G & E') end.
    match goal with |- context[?t :: ?a :: place _ _ ps] => set (ta := t); set (tb := a) end.
    exists (NAssign (NId (token_view ta)) r' (mkRange (tok_off ta) (tok_off tb + length (tok_text tb) - tok_off ta))). split; [|cbn; rewrite E'; reflexivity].
    apply (I_keyword false d [ta]) with (o := tok_off ta); [apply E_operand, O_id; reflexivity|reflexivity|reflexivity|exact G|]. split; [reflexivity|]. subst ta tb. cbn [r_off r_len tok_off tok_text]. lia.
Qed.
Lemma pair_item d d' a b rg : P_expr d a -> P_expr d' b -> P_item Pairs (NBin TColon a b rg).
Proof.
  intros [NNa Ha] [NNb Hb]. split; [discriminate|]. intros i. destruct (Ha i) as (pa & Ea & Sa & Na & La & Ra). destruct (Hb i) as (pb & Eb & Sb & Nb & Lb & Rb).
  exists (pa ++ Blank ($" ") :: Tok TColon ($":") :: Blank ($" ") :: pb). cbn [print]. rewrite Ea, Eb. cbn [bind]. split; [rewrite render_app, !render_cons, app_nil_r; reflexivity|]. split; [|split; [|split]].
  - apply starts_app, Sa.
  - apply ends_app. do 3 apply ends_cons. exact Nb.
  - intros rest F. apply lex_app; [apply La; reflexivity|]. apply space_lex, char_lex; [cbn; auto 10|]. apply space_lex, Lb, F.
  - intros off nl. rewrite place_app. cbn [place]. destruct (Ra off nl) as (a' & Ga & Ea'). match goal with |- context[place ?o ?b pb] => destruct (Rb o b) as (b' & Gb & Eb') end.
    eexists. split; [eapply I_pair; [exact Ga|reflexivity|exact Gb]|]. cbn. rewrite Ea', Eb'. reflexivity.
Qed.

Theorem plain_reads : (forall d n, plain d n -> P_expr d n) /\ (forall n, plain_operand n -> P_operand n) /\ (forall n, plain_bound n -> P_bound n) /\
  (forall k l, plain_items k l -> P_items k l) /\ (forall k n, plain_item k n -> P_item k n) /\ (forall k n, plain_for k n -> P_for k n).
Proof.
  apply (plain_ind_all (fun d n _ => P_expr d n) (fun n _ => P_operand n) (fun n _ => P_bound n) (fun k l _ => P_items k l) (fun k n _ => P_item k n) (fun k n _ => P_for k n)); intros.
  - apply operand_expr; auto.
  - apply minus_expr; auto.
  - apply not_expr; auto.
  - apply binary_expr; auto.
  - eapply if_expr; eauto.
  - apply if_else_expr; auto.
  - apply name_operand; auto.
  - apply int_operand; auto.
  - apply string_operand; auto.
  - apply call_operand; auto.
  - eapply list_operand; eauto.
  - eapply list_operand; eauto.
  - eapply list_operand; eauto.
  - eapply comp_operand; eauto.
  - eapply comp_operand; eauto.
  - eapply index_operand; eauto.
  - apply slice_operand; auto.
  - left. reflexivity.
  - right. eauto.
  - constructor.
  - constructor; auto.
  - eapply expr_item; eauto.
  - eapply expr_item; eauto.
  - eapply keyword_item; eauto.
  - eapply pair_item; eauto.
  - eapply for_reads; eauto.
  - eapply for_more_reads; eauto.
Qed.

(** * Statements *)
Lemma open_reads n : plain_open n -> exists d, n <> NNull /\ forall i, exists ps, print i n = Ret (render ps) /\ ends (last_is_name n) ps /\
  (exists ty tx ps', ps = Tok ty tx :: ps' /\ (ty = TIdentifier \/ ty = TOpenParen /\ exists vars r rg, n = NAssign (NList LTuple vars) r rg)) /\
  (forall rest, first_char after_expr rest -> lex ps rest) /\ forall off nl, exists n', open_statement d (place off nl ps) n' /\ erase n' = erase n.
Proof.
  intros [d v r rg V P|d vars r rg V P|d v r rg V P]; exists d; (split; [discriminate|]); intros i; destruct plain_reads as (PE & _); apply PE in P; destruct P as [NN H]; destruct (H i) as (ps & E & S & N & L & R).
  - exists (Tok TIdentifier (v_text v) :: Blank ($" ") :: Tok TAssign ($"=") :: Blank ($" ") :: ps).
    rewrite assign_print, E. cbn [print bind]. split; [reflexivity|]. split; [|split; [|split]].
    + do 4 apply ends_cons. exact N.
    + do 3 eexists. split; [reflexivity|]. auto.
    + intros rest F. apply name_lex; [exact V|reflexivity|]. apply space_lex, word_lex; [cbn; auto 10|auto].
    + intros off nl. cbn [place]. match goal with |- context[place ?o ?b ps] => destruct (R o b) as (r' & G & E') end.
      match goal with |- context[?t :: ?a :: place _ _ ps] => set (ta := t); set (tb := a) end.
      exists (NAssign (NId (token_view ta)) r' (mkRange (tok_off ta) (tok_off tb + length (tok_text tb) - tok_off ta))). split; [|cbn; rewrite E'; reflexivity].
      apply S_assign; [reflexivity|reflexivity|exact G|]. split; [reflexivity|]. subst ta tb. cbn [r_off r_len tok_off tok_text]. lia.
  - destruct (list_reads Variables LTuple vars i (variables_items _ V)) as (pv & Ev & Lv & (pv' & Zv) & Rv).
    exists (Tok TOpenParen ($"(") :: pv ++ Blank ($" ") :: Tok TAssign ($"=") :: Blank ($" ") :: ps).
    rewrite assign_print, Ev, E. cbn [bind]. split; [|split; [|split; [|split]]].
    + f_equal. change (Tok TOpenParen ($"(") :: pv ++ Blank ($" ") :: Tok TAssign ($"=") :: Blank ($" ") :: ps) with ((Tok (opener LTuple) (list_open LTuple) :: pv) ++ Blank ($" ") :: Tok TAssign ($"=") :: Blank ($" ") :: ps).
      rewrite render_app. reflexivity.
    + apply ends_cons, ends_app. do 3 apply ends_cons. exact N.
    + do 3 eexists. split; [reflexivity|]. right. eauto.
    + intros rest F. apply char_lex; [cbn; auto|]. apply lex_app; [apply Lv|]. apply space_lex, word_lex; [cbn; auto 10|auto].
    + intros off nl. cbn [place]. rewrite place_app. cbn [place]. match goal with |- context[place ?o ?b pv ++ _] => destruct (Rv o b) as (l' & El & I1 & _); pose proof (place_bounds pv o b) as PB end.
      match goal with |- context[place ?o ?b ps] => destruct (R o b) as (r' & G & E') end.
      match goal with |- context[?t :: _ ++ ?a :: place _ _ ps] => set (ta := t) in *; set (tb := a) in * end.
      exists (NAssign (NList LTuple l') r' (mkRange (tok_off ta) (tok_off tb + length (tok_text tb) - tok_off ta))). split; [|cbn; rewrite E', El; reflexivity].
      apply S_unpack; [reflexivity|exact I1|reflexivity|exact G|]. split; [reflexivity|]. subst ta tb. cbn [r_off r_len tok_off tok_text]. lia.
  - exists (Tok TIdentifier (v_text v) :: Tok TDot ($".") :: ps). cbn [print]. rewrite E. cbn [bind]. split; [rewrite app_nil_r; reflexivity|]. split; [|split; [|split]].
    + do 2 apply ends_cons. exact N.
    + do 3 eexists. split; [reflexivity|]. auto.
    + intros rest F. apply name_lex; [exact V|reflexivity|]. apply char_lex; [cbn; auto 20|auto].
    + intros off nl. cbn [place]. match goal with |- context[place ?o ?b ps] => destruct (R o b) as (r' & G & E') end. eexists. split; [apply S_dot; [reflexivity|reflexivity|exact G]|]. cbn. rewrite E'. reflexivity.
Qed.
Lemma closed_reads n : plain_closed n -> n <> NNull /\ forall i, exists ps, print i n = Ret (render ps) /\
  (exists ty tx ps', ps = Tok ty tx :: ps' /\ (ty = TIdentifier \/ ty = TOpenSquare)) /\
  (forall rest, lex ps rest) /\ forall off nl, exists n', closed_statement (place off nl ps) n' /\ erase n' = erase n.
Proof.
  destruct plain_reads as (_ & _ & _ & PI & _ & PF). intros [v args V P|l P|f P]; (split; [discriminate|]); intros i.
  - apply PI in P. destruct (call_reads v args i V P) as (ps & E & L & Z & R). eexists. split; [exact E|]. split; [do 3 eexists; split; [reflexivity|auto]|]. split; [exact L|].
    intros off nl. destruct (R off nl) as (n' & G & E'). exists n'. split; [apply S_call, G|exact E'].
  - apply PI in P. destruct (list_reads _ LList l i P) as (ps & E & L & Z & R). eexists. split; [exact E|]. split; [do 3 eexists; split; [reflexivity|auto]|]. split; [intros rest; apply open_lex, L|].
    intros off nl. cbn [place]. match goal with |- context[place ?o ?b ps] => destruct (R o b) as (l' & El & I1 & I2) end. exists (NList LList l'). split; [|cbn [erase]; rewrite El; reflexivity].
    apply S_bracket; [reflexivity|]. apply B_items, I1.
  - apply PF in P. destruct (comp_reads _ LList f i P) as (ps & E & L & Z & R). eexists. split; [exact E|]. split; [do 3 eexists; split; [reflexivity|auto]|]. split; [intros rest; apply open_lex, L|].
    intros off nl. cbn [place]. match goal with |- context[place ?o ?b ps] => destruct (R o b) as (f' & Ef & B) end. exists (NComp LList f'). split; [|cbn [erase]; rewrite Ef; reflexivity].
    apply S_bracket; [reflexivity|exact B].
Qed.

(** * Files *)
Lemma print_node_0 n : n <> NNull -> print_node n = print 0 n.
Proof. destruct n; try reflexivity. intros H. destruct (H eq_refl). Qed.
Lemma nl_lex ps rest : lex ps rest -> lex (Blank [NL] :: ps) rest.
Proof. apply blank_lex. reflexivity. Qed.
Definition may_begin (nl : bool) (l : list node) (t : token) : Prop :=
  tok_type t = TEof \/ tok_type t = TIdentifier \/ tok_type t = TOpenSquare /\ (nl = true -> tok_newline t = true) \/ tok_type t = TOpenParen /\ unpacks l.
Lemma begin_ends l t d ts n : may_begin true l t -> ends (last_is_name n) ts -> (unpacks l -> last_is_name n = false) -> forall off nl, ends_expr d (place off nl ts) t.
Proof.
  intros B (ps & ty & tx & -> & E) U off nl. assert (forall ty, tok_type t = ty -> In ty [TEof; TIdentifier; TOpenSquare; TOpenParen]) as T by (intros ? <-; destruct B as [-> |[-> |[[-> _]|[-> _]]]]; cbn; auto).
  split; [|split; [|split; [|split]]].
  - intros X. unfold binary in X. specialize (T _ eq_refl). cbn in X, T. intuition congruence.
  - intros X. apply T in X. cbn in X. intuition congruence.
  - intros X. destruct B as [Y|[Y|[[_ Y]|[Y _]]]]; [congruence|congruence|auto|congruence].
  - intros _ X. apply T in X. cbn in X. intuition congruence.
  - intros ts' id X I Y. destruct B as [Z|[Z|[[Z _]|[_ Z]]]]; [congruence|congruence|congruence|]. apply U in Z.
    rewrite place_app in X. cbn [place] in X. apply app_inj_tail in X as [_ <-]. cbn in I. apply E in I. congruence.
Qed.
Lemma file_reads l txt : plain_file l -> written l txt -> exists ps g, txt = render ps ++ g /\ gapped g /\ lex ps g /\
  forall off nl e, tok_type e = TEof -> exists l' t ts, place off nl ps ++ [e] = t :: ts /\ program (t :: ts) l' /\ map erase l' = map erase l /\ may_begin nl l t.
Proof.
  intros P W. revert P. induction W as [g G|n t g l r G E W IH]; intros P.
  - exists [], g. split; [reflexivity|]. split; [exact G|]. split; [constructor|]. intros off nl e T. exists [], e, []. split; [reflexivity|]. split; [constructor; exact T|]. split; [reflexivity|]. left. exact T.
  - assert (plain_file l) as P' by (inversion P; assumption). destruct (IH P') as (ps & ge & -> & Ge & L & R). clear IH.
    assert ((plain_closed n) \/ (plain_open n /\ (unpacks l -> last_is_name n = false))) as [C|[O U]] by (inversion P; auto).
    + apply closed_reads in C as [NN H]. rewrite print_node_0 in E by exact NN. destruct (H 0) as (pn & En & (ty & tx & pn' & Z & TY) & Ln & Rn). rewrite E in En. injection En as ->.
      exists (Blank g :: pn ++ Blank [NL] :: ps), ge. split; [rewrite render_cons, render_app, render_cons; cbn [piece_text app]; rewrite <- !app_assoc; reflexivity|]. split; [exact Ge|].
      split; [apply lex_blank; [exact G|]; apply lex_app; [apply Ln|apply nl_lex, L]|]. intros off nl e T. cbn [place]. rewrite place_app. cbn [place].
      match goal with |- context[place ?o ?b pn ++ _] => destruct (Rn o b) as (n' & Gn & En'); set (off' := o) in *; set (nl' := b) in * end.
      match goal with |- context[place ?o ?b ps] => destruct (R o b e T) as (l' & t1 & ts1 & Z1 & G1 & E1 & B1) end.
      rewrite <- app_assoc, Z1. exists (n' :: l'). subst pn. cbn [place app] in *. do 2 eexists. split; [reflexivity|]. split; [|split].
      * match goal with |- program (?a :: ?b ++ ?c) _ => change (program ((a :: b) ++ c) (n' :: l')) end. apply G_closed; assumption.
      * cbn [map]. rewrite E1, En'. reflexivity.
      * unfold may_begin. cbn. destruct TY as [-> | ->]; [tauto|]. right. right. left. split; [reflexivity|]. intros ->. subst nl'. rewrite <- orb_assoc. reflexivity.
    + apply open_reads in O as (d & NN & H). rewrite print_node_0 in E by exact NN. destruct (H 0) as (pn & En & N & (ty & tx & pn' & Z & TY) & Ln & Rn). rewrite E in En. injection En as ->.
      exists (Blank g :: pn ++ Blank [NL] :: ps), ge. split; [rewrite render_cons, render_app, render_cons; cbn [piece_text app]; rewrite <- !app_assoc; reflexivity|]. split; [exact Ge|].
      split; [apply lex_blank; [exact G|]; apply lex_app; [apply Ln; reflexivity|apply nl_lex, L]|]. intros off nl e T. cbn [place]. rewrite place_app. cbn [place].
      match goal with |- context[place ?o ?b pn ++ _] => destruct (Rn o b) as (n' & Gn & En'); set (off' := o) in *; set (nl' := b) in * end.
      match goal with |- context[place ?o ?b ps] => destruct (R o b e T) as (l' & t1 & ts1 & Z1 & G1 & E1 & B1) end.
      rewrite <- app_assoc, Z1. exists (n' :: l').
      assert (ends_expr d (place off' nl' pn) t1) as EE. { apply (begin_ends l t1 d pn n); auto. rewrite (ends_trail _ _ _ N) in B1. exact B1. }
      subst pn. cbn [place app] in *. do 2 eexists. split; [reflexivity|]. split; [|split].
      * match goal with |- program (?a :: ?b ++ ?c) _ => change (program ((a :: b) ++ c) (n' :: l')) end. eapply G_open; [exact Gn|exact EE|exact G1].
      * cbn [map]. rewrite E1, En'. reflexivity.
      * unfold may_begin. cbn. destruct TY as [-> | [-> (vars & r & rg & ->)]]; [tauto|]. right. right. right. split; [reflexivity|]. do 4 eexists. reflexivity.
Qed.
Theorem roundtrip l txt : plain_file l -> written l txt -> exists l', parse txt = Ret (l', []) /\ map erase l' = map erase l.
Proof.
  intros P W. destruct (file_reads l txt P W) as (ps & g & -> & G & L & R). destruct (lex_tokens ps g L G) as (e & T & A). destruct (R 0 false e T) as (l' & t & ts & Z & G' & E & _).
  exists l'. split; [|exact E]. apply parse_grammar. rewrite A, Z. exact G'.
Qed.
