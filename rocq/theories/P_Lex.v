(** Reading back tokens that were written with blanks between them. *)
From Coq Require Import Lia.
From Verif Require Import Base M_Scanner S_Scanner M_Ast M_Parser M_Printer P_Scanner S_Grammar S_Roundtrip.

Inductive piece := Blank (g : str) | Tok (ty : toktype) (tx : str).
Definition piece_text (p : piece) : str := match p with Blank g => g | Tok _ tx => tx end.
Definition render (ps : list piece) : str := flat_map piece_text ps.
Definition has_nl (s : str) : bool := existsb (ceqb NL) s.
(** The tokens with their places; [nl]: there was a new line since the last one. *)
Fixpoint place (off : nat) (nl : bool) (ps : list piece) : list token :=
  match ps with
  | [] => []
  | Blank g :: ps => place (off + length g) (nl || has_nl g) ps
  | Tok ty tx :: ps => mkToken ty off tx (nl || has_nl tx) :: place (off + length tx) false ps
  end.
Fixpoint trail (nl : bool) (ps : list piece) : bool :=
  match ps with
  | [] => nl
  | Blank g :: ps => trail (nl || has_nl g) ps
  | Tok _ _ :: ps => trail false ps
  end.
Lemma render_app a b : render (a ++ b) = render a ++ render b.
Proof. apply flat_map_app. Qed.
Lemma render_cons p ps : render (p :: ps) = piece_text p ++ render ps.
Proof. reflexivity. Qed.
Lemma place_app a : forall off nl b, place off nl (a ++ b) = place off nl a ++ place (off + length (render a)) (trail nl a) b.
Proof.
  induction a as [|[g|ty tx] a IH]; intros off nl b; cbn [app place trail].
  - cbn. now rewrite Nat.add_0_r.
  - rewrite IH, render_cons, app_length, Nat.add_assoc. reflexivity.
  - rewrite IH, render_cons, app_length, Nat.add_assoc. reflexivity.
Qed.
Lemma trail_app a : forall nl b, trail nl (a ++ b) = trail (trail nl a) b.
Proof. induction a as [|[g|ty tx] a IH]; intros nl b; cbn [app trail]; auto. Qed.
Lemma place_off ps : forall off nl t, In t (place off nl ps) -> off <= tok_off t.
Proof.
  induction ps as [|[g|ty tx] ps IH]; intros off nl t; cbn [place].
  - intros [].
  - intros H. apply IH in H. lia.
  - intros [<-|H]; [cbn; lia|]. apply IH in H. lia.
Qed.

(** White space and comments. *)
Definition gapped (g : str) : Prop := S_Scanner.gap false g.
Lemma gapped_blank g : forallb is_space g = true -> gapped g.
Proof. induction g as [|c g IH]; intros H; [constructor|]. cbn in H. apply andb_true_iff in H as [C H]. apply gap_blank; auto. apply IH, H. Qed.
Lemma gapped_app a b : gapped a -> gapped b -> gapped (a ++ b).
Proof.
  intros A B. induction A as [|c g C G IH|body g N G IH|body X]; cbn [app].
  - exact B.
  - apply gap_blank; auto.
  - rewrite <- app_assoc. cbn [app]. apply gap_comment; auto.
  - discriminate.
Qed.

(** [rest] ends the token. *)
Definition scans (ty : toktype) (tx rest : str) : Prop := forall pos, exists p, scan_token (tx ++ rest) pos = (ty, length tx, p).
Definition visible (s : str) : Prop := exists c r, s = c :: r /\ is_space c = false /\ c <> BSL /\ c <> "#"%char.
Inductive lex : list piece -> str -> Prop :=
| lex_nil rest : lex [] rest
| lex_blank g ps rest : gapped g -> lex ps rest -> lex (Blank g :: ps) rest
| lex_tok ty tx ps rest : visible tx -> (ty = TNotIn -> ~ In NL tx) -> scans ty tx (render ps ++ rest) -> lex ps rest -> lex (Tok ty tx :: ps) rest.
Lemma lex_app a b rest : lex a (render b ++ rest) -> lex b rest -> lex (a ++ b) rest.
Proof.
  intros A B. remember (render b ++ rest) as r eqn:E. induction A as [r0|g ps r0 G A IH|ty tx ps r0 V N S A IH]; cbn [app]; subst r0.
  - exact B.
  - apply lex_blank; [exact G|exact (IH eq_refl)].
  - apply lex_tok; [exact V|exact N| |exact (IH eq_refl)]. rewrite render_app, <- app_assoc. exact S.
Qed.

(** * The tokens *)
Lemma skip_comment body : forall r pos, ~ In NL body -> skip_space (body ++ NL :: r) pos true =
  let '(n, p) := skip_space r (S (pos + length body)) false in (S (length body + n), S (pos + length body) :: p).
Proof.
  induction body as [|c body IH]; intros r pos N.
  - cbn [app length Nat.add]. rewrite Nat.add_0_r. cbn [skip_space]. rewrite orb_true_r. change (ceqb NL "#") with false. rewrite ceqb_refl. cbn iota. destruct (skip_space r (S pos) false); reflexivity.
  - cbn [app skip_space length]. rewrite orb_true_r. assert (ceqb c NL = false) as C by (apply ceqb_neq; intros ->; apply N; left; reflexivity). rewrite C.
    rewrite IH by (intros I; apply N; right; exact I). replace (S pos + length body) with (pos + S (length body)) by lia.
    destruct (skip_space r _ false) as [n p]. destruct (ceqb c "#"); reflexivity.
Qed.
Lemma skip_gap g : gapped g -> forall s pos, (s = [] \/ visible s) -> skip_space (g ++ s) pos false = (length g, newline_starts pos g).
Proof.
  induction 1 as [|c g C G IH|body g N G IH|body X]; intros s pos V; cbn [app].
  - destruct V as [->|(c & r & -> & S & B & H)]; [reflexivity|]. cbn [skip_space]. rewrite S, (proj2 (ceqb_neq c BSL) B), (proj2 (ceqb_neq c "#") H). reflexivity.
  - cbn [skip_space]. assert (is_space c || ceqb c BSL = true) as -> by (destruct C as [->| ->]; [reflexivity|apply orb_true_r]). cbn [orb].
    assert (ceqb c "#" = false) as -> by (apply ceqb_neq; intros ->; destruct C; discriminate). cbn [length newline_starts].
    destruct (ceqb c NL) eqn:NE; rewrite IH by auto; reflexivity.
  - rewrite <- app_assoc. cbn [app skip_space]. change (is_space "#" || ceqb "#" BSL || ceqb "#" "#" || false) with true. change (ceqb "#" "#") with true. cbn iota.
    rewrite skip_comment by exact N. rewrite IH by exact V. cbn [length newline_starts]. change (ceqb "#" NL) with false. cbn [app].
    rewrite newline_starts_app. cbn [newline_starts]. rewrite ceqb_refl, (newline_starts_none _ body) by exact N. cbn [app]. f_equal. rewrite app_length; cbn [length]; lia.
  - discriminate X.
Qed.
Lemma has_nl_in s : has_nl s = true <-> In NL s.
Proof.
  unfold has_nl. rewrite existsb_exists. split; [intros (c & I & E); apply ceqb_eq in E; now subst|]. intros I. exists NL. split; [exact I|apply ceqb_refl].
Qed.
Lemma has_nl_app a b : has_nl (a ++ b) = has_nl a || has_nl b.
Proof. apply existsb_app. Qed.
Lemma starts_none pos s : length (newline_starts pos s) = 0 <-> has_nl s = false.
Proof.
  rewrite newline_starts_length, count_char_0, <- has_nl_in. destruct (has_nl s); split; congruence.
Qed.
Lemma next_piece g ty tx rest sc : sc_upcoming sc = None -> sc_last_newlines sc = sc_newlines sc -> sc_rest sc = g ++ tx ++ rest ->
  gapped g -> visible tx -> (ty = TNotIn -> ~ In NL tx) -> scans ty tx rest -> ty <> TEof /\ exists sc',
  next sc = (mkToken ty (sc_off sc + length g) tx (has_nl g || has_nl tx), sc') /\ sc_upcoming sc' = None /\ sc_last_newlines sc' = sc_newlines sc' /\
  sc_rest sc' = rest /\ sc_off sc' = sc_off sc + length g + length tx.
Proof.
  intros U L R G V NI S. unfold next. rewrite U, R. assert (V' : visible (tx ++ rest)) by (destruct V as (c & r & -> & V); exists c, (r ++ rest); auto).
  rewrite skip_gap by auto. rewrite skipn_app, skipn_all, Nat.sub_diag. cbn [app skipn].
  destruct (S (sc_off sc + length g)) as (p & E). destruct V as (c & r & -> & SP & _). cbn [app] in *. rewrite E.
  destruct (scan_token_spec _ _ _ _ _ _ SP E) as ((LN & NE & P1 & P2) & _). split; [exact NE|]. eexists. split; [|cbn [sc_upcoming sc_last_newlines sc_newlines sc_rest sc_off]].
  - f_equal. change (c :: r ++ rest) with ((c :: r) ++ rest). rewrite firstn_app, firstn_all, Nat.sub_diag, firstn_O, app_nil_r. f_equal.
    rewrite L.
    assert (A : length p = 0 <-> has_nl (c :: r) = false).
    { destruct (toktype_beq ty TNotIn) eqn:T.
      - apply internal_toktype_dec_bl in T. rewrite (P2 T). cbn [length]. split; [|reflexivity]. intros _. destruct (has_nl (c :: r)) eqn:H; [|reflexivity]. apply has_nl_in in H. destruct (NI T H).
      - assert (ty <> TNotIn) as T' by (intros ->; discriminate). rewrite (P1 T'). change (c :: r ++ rest) with ((c :: r) ++ rest).
        rewrite firstn_app, firstn_all, Nat.sub_diag, firstn_O, app_nil_r. apply starts_none. }
    pose proof (starts_none (sc_off sc) g) as B.
    destruct (has_nl g), (has_nl (c :: r)); cbn [orb]; destruct (Nat.eqb_spec (sc_newlines sc) (sc_newlines sc + length (newline_starts (sc_off sc) g) + length p)) as [X|X]; cbn [negb]; try reflexivity; exfalso.
    + assert (length p = 0) as H by lia. apply A in H. discriminate.
    + assert (length (newline_starts (sc_off sc) g) = 0) as H by lia. apply B in H. discriminate.
    + assert (length p = 0) as H by lia. apply A in H. discriminate.
    + apply X. rewrite (proj2 A), (proj2 B); auto. lia.
  - repeat split; auto. change (c :: r ++ rest) with ((c :: r) ++ rest). rewrite skipn_app, skipn_all, Nat.sub_diag. reflexivity.
Qed.
Lemma tokens_fuel ps rest : lex ps rest -> gapped rest -> forall fuel sc g, length (render ps) < fuel -> sc_upcoming sc = None -> sc_last_newlines sc = sc_newlines sc ->
  gapped g -> sc_rest sc = g ++ render ps ++ rest -> exists e, tok_type e = TEof /\ tokens_from fuel sc = place (sc_off sc + length g) (has_nl g) ps ++ [e].
Proof.
  intros X B. induction X as [rest|h ps rest H X IH|ty tx ps rest V N S X IH]; intros fuel sc g F U L G R.
  - destruct fuel as [|fuel]; [lia|]. cbn [render flat_map app] in R. cbn [tokens_from]. unfold next. rewrite U, R.
    pose proof (skip_gap (g ++ rest) (gapped_app _ _ G B) [] (sc_off sc) (or_introl eq_refl)) as K. rewrite app_nil_r in K. rewrite K. rewrite skipn_all. cbn [place app]. eexists. split; [|cbn; reflexivity]; reflexivity.
  - rewrite render_cons, app_length in F. rewrite render_cons in R. cbn [piece_text] in R, F.
    destruct (IH B fuel sc (g ++ h)) as (e & E1 & E2); auto; [lia|apply gapped_app; auto|rewrite R, <- !app_assoc; reflexivity|].
    exists e. split; [exact E1|]. rewrite E2, app_length, has_nl_app, Nat.add_assoc. reflexivity.
  - destruct fuel as [|fuel]; [lia|]. rewrite render_cons, app_length in F. rewrite render_cons in R. cbn [piece_text] in R, F. rewrite <- !app_assoc in R.
    destruct (next_piece g ty tx _ sc U L R G V N S) as (NE & sc' & E & U' & L' & R' & O'). cbn [tokens_from]. rewrite E. cbn [tok_type].
    destruct (toktype_beq ty TEof) eqn:T; [apply internal_toktype_dec_bl in T; contradiction|].
    assert (0 < length tx) by (destruct V as (c & r & -> & _); cbn; lia).
    destruct (IH B fuel sc' []) as (e & E1 & E2); auto; [lia|constructor|]. exists e. split; [exact E1|]. rewrite E2, O'. cbn [place length app has_nl existsb]. rewrite Nat.add_0_r. reflexivity.
Qed.
Theorem lex_tokens ps rest : lex ps rest -> gapped rest -> exists e, tok_type e = TEof /\ all_tokens (render ps ++ rest) = place 0 false ps ++ [e].
Proof.
  intros X B. unfold all_tokens. apply (tokens_fuel ps rest X B (S (length (render ps ++ rest))) (scanner_init (render ps ++ rest)) []); try reflexivity; [|constructor].
  rewrite app_length. lia.
Qed.

(** * Kinds of tokens *)
Definition first_char (f : ascii -> bool) (rest : str) : Prop := match rest with [] => True | c :: _ => f c = true end.
Definition not_word (c : ascii) : bool := negb (is_identifier_char c || ceqb c DQ || ceqb c SQ).
Lemma first_char_imp (f g : ascii -> bool) rest : (forall c, f c = true -> g c = true) -> first_char f rest -> first_char g rest.
Proof. destruct rest as [|c r]; cbn; auto. Qed.
Lemma span_word f s rest : span_len f s = length s -> first_char (fun c => negb (f c)) rest -> span_len f (s ++ rest) = length s.
Proof.
  intros H F. induction s as [|c s IH]; cbn [app length span_len] in *.
  - destruct rest as [|c r]; [reflexivity|]. cbn in F. apply negb_true_iff in F. cbn. now rewrite F.
  - destruct (f c); [|discriminate]. injection H as H. now rewrite IH.
Qed.
(** A text that is one token. *)
Lemma single_token s ty : ty <> TEof -> token_at s 0 = mkToken ty 0 s false -> visible s /\ exists p, scan_token s 0 = (ty, length s, p).
Proof.
  intros NE. unfold token_at. cbn [after_next]. unfold next. cbn [scanner_init sc_upcoming sc_rest sc_off sc_lines sc_newlines sc_last_newlines].
  destruct (skip_space s 0 false) as [n p] eqn:S. apply skip_space_spec in S as (LE & _ & V & _).
  destruct V as [V|(c & r & V & A & B & C)]; rewrite V; cbn [fst].
  - intros E. injection E as E _ _. congruence.
  - destruct (scan_token (c :: r) (0 + n)) as [[ty' k] p'] eqn:E. cbn [fst]. intros X.
    assert (n = 0) as -> by (apply (f_equal tok_off) in X; cbn in X; lia). cbn [skipn] in V. subst s. apply (f_equal tok_text) in X as X1. cbn [tok_text] in X1. apply (f_equal tok_type) in X. cbn in X. subst ty'.
    split; [exists c, r; auto|]. exists p'. cbn [Nat.add] in E. rewrite E. f_equal. f_equal. destruct (scan_token_spec _ _ _ _ _ _ A E) as ((LN & _) & _).
    apply (f_equal (@length ascii)) in X1. rewrite firstn_length in X1. lia.
Qed.
Ltac split_scan := unfold scan_token; repeat match goal with |- context[if ?x then (_, 1, []) else _] => destruct x; [intros; discriminate|] end.
Lemma relational_type a b s ty k p : handle_relational a b s = (ty, k, p) -> ty = a \/ ty = b.
Proof. destruct s as [|? [|d s]]; cbn; try (intros E; injection E; auto; fail). destruct (ceqb d "="); intros E; injection E; auto. Qed.
Lemma string_type s pos ty k p : handle_string s pos = (ty, k, p) -> ty = TError \/ ty = TStringLiteral.
Proof.
  unfold handle_string. destruct (skipn _ s) as [|q body]; [intros E; injection E; auto|].
  destruct (scan_string _ _ _ _ _ _) as [[[|] n] p']; intros E; injection E; auto.
Qed.
Lemma number_type s ty k p : handle_number s = (ty, k, p) -> ty = TError \/ ty = TNumberLiteral.
Proof.
  destruct s as [|c r]; cbn [handle_number]; [intros E; injection E; auto|].
  match goal with |- context[let '(_, _) := ?x in _] => destruct x as [f sk] end. destruct (scan_number _ _ _) as [[|] n]; intros E; injection E; auto.
Qed.
Lemma scan_identifier c s pos k p : scan_token (c :: s) pos = (TIdentifier, k, p) -> forall s' pos', scan_token (c :: s') pos' = handle_identifier (c :: s') pos'.
Proof.
  intros E s' pos'. revert E. unfold scan_token.
  repeat match goal with |- context[if ?x then (_, 1, []) else _] => destruct x; [intros; discriminate|] end.
  repeat match goal with |- context[if ?x then handle_relational ?a ?b (c :: s) else _] => destruct x; [intros E; apply relational_type in E as [E|E]; discriminate|] end.
  destruct (is_digit c); [intros E; apply number_type in E as [E|E]; discriminate|].
  destruct (ceqb c DQ || ceqb c SQ); [intros E; apply string_type in E as [E|E]; discriminate|]. reflexivity.
Qed.
Lemma identifier_type s pos ty k p : handle_identifier s pos = (ty, k, p) -> ty <> TNumberLiteral.
Proof.
  unfold handle_identifier. destruct s as [|c r]; [intros E; injection E; congruence|].
  match goal with |- context[if ?x then handle_string _ _ else _] => destruct x end; [intros E; apply string_type in E as [->| ->]; discriminate|].
  repeat match goal with |- context[if ?x then _ else _] => destruct x end; try (intros E; injection E; congruence).
  destruct (consume_optional_in _); intros E; injection E; congruence.
Qed.
Lemma scan_number_token c s pos k p : scan_token (c :: s) pos = (TNumberLiteral, k, p) -> handle_number (c :: s) = (TNumberLiteral, k, p) /\ forall s' pos', scan_token (c :: s') pos' = handle_number (c :: s').
Proof.
  intros E. assert (G : handle_number (c :: s) = (TNumberLiteral, k, p) /\ forall s' pos', scan_token (c :: s') pos' = handle_number (c :: s')); [|exact G].
  revert E. unfold scan_token.
  repeat match goal with |- context[if ?x then (_, 1, []) else _] => destruct x; [intros; discriminate|] end.
  repeat match goal with |- context[if ?x then handle_relational ?a ?b (c :: s) else _] => destruct x; [intros E; apply relational_type in E as [E|E]; discriminate|] end.
  destruct (is_digit c); [auto|].
  destruct (ceqb c DQ || ceqb c SQ); [intros E; apply string_type in E as [E|E]; discriminate|]. intros E. apply identifier_type in E. congruence.
Qed.
Lemma name_scans s rest : name s -> first_char not_word rest -> scans TIdentifier s rest.
Proof.
  intros N F. apply single_token in N as ((c & r & -> & _) & p & E); [|discriminate]. intros pos. exists [].
  pose proof (scan_identifier _ _ _ _ _ E) as K. cbn [app]. rewrite K. rewrite K in E. revert E. unfold handle_identifier.
  match goal with |- context[if ?x then handle_string (c :: r) _ else _] => destruct x eqn:Q end; [intros E; apply string_type in E as [E|E]; discriminate|].
  destruct (is_identifier_char c) eqn:I; cbn [negb]; [|discriminate]. intros E.
  assert (L : span_len is_identifier_char (c :: r) = length (c :: r)).
  { revert E. repeat match goal with |- context[if ?x then (_, span_len _ _, _) else _] => destruct x; [discriminate|] end.
    destruct (str_eqb _ ($"not")); [destruct (consume_optional_in _); discriminate|].
    repeat match goal with |- context[if ?x then (_, span_len _ _, _) else _] => destruct x; [discriminate|] end. intros E. injection E as E _. exact E. }
  assert (F' : first_char (fun c => negb (is_identifier_char c)) rest).
  { revert F. apply first_char_imp. intros d. unfold not_word. rewrite !negb_true_iff, !orb_false_iff. tauto. }
  pose proof (span_word _ _ _ L F') as L'. cbn [app] in L'. rewrite L'. rewrite L in E. rewrite firstn_all in E.
  assert (Q' : (2 <? length (c :: r ++ rest)) && (ceqb c "r" || ceqb c "R") && match r ++ rest with d :: _ => ceqb d DQ || ceqb d SQ | [] => false end = false).
  { destruct r as [|d r]; cbn [app].
    - destruct rest as [|d rest]; [apply andb_false_r|]. cbn in F. unfold not_word in F. apply negb_true_iff in F. rewrite !orb_false_iff in F. destruct F as [[_ ->] ->]. apply andb_false_r.
    - assert (is_identifier_char d = true). { cbn [span_len length] in L. rewrite I in L. destruct (is_identifier_char d); [reflexivity|discriminate]. }
      assert (ceqb d DQ || ceqb d SQ = false) as ->; [|apply andb_false_r]. rewrite orb_false_iff, !ceqb_neq. split; intros ->; discriminate. }
  rewrite Q'. change (c :: r ++ rest) with ((c :: r) ++ rest). rewrite firstn_app, firstn_all, Nat.sub_diag, firstn_O, app_nil_r.
  revert E. destruct (str_eqb _ ($"not")); [destruct (consume_optional_in _); discriminate|].
  repeat match goal with |- context[if ?x then _ else _] => destruct x; [discriminate|] end. reflexivity.
Qed.
Lemma word_scans ty w rest : In (ty, w) [(TFor, $"for"); (TIn, $"in"); (TIf, $"if"); (TElse, $"else"); (TAnd, $"and"); (TOr, $"or")] -> scans ty w ($" " ++ rest).
Proof. intros I pos. exists []. cbn in I. repeat destruct I as [I|I]; try (injection I as <- <-; reflexivity). destruct I. Qed.
Lemma not_scans rest : (exists c r, rest = c :: r /\ is_space c = false) -> starts_with ($"in") rest = false -> scans TNot ($"not") ($" " ++ rest).
Proof.
  intros (c & r & -> & S) H pos. exists [].
  change (match consume_optional_in (" "%char :: c :: r) with Some k => (TNotIn, 3 + k, @nil nat) | None => (TNot, 3, []) end = (TNot, 3, [])).
  unfold consume_optional_in. cbn [span_len]. change (is_space " ") with true. cbn iota. rewrite S. cbn [skipn]. rewrite H. reflexivity.
Qed.
Definition after_number (c : ascii) : bool := not_word c && negb (ceqb c ".").
Lemma scan_number_end f s rest : forall dot, scan_number f s dot = (true, length s) -> first_char (fun c => negb (f c) && negb (ceqb c ".")) rest -> scan_number f (s ++ rest) dot = (true, length s).
Proof.
  induction s as [|c s IH]; intros dot E F; cbn [app length scan_number] in *.
  - destruct rest as [|c r]; [reflexivity|]. cbn in F. rewrite andb_true_iff, !negb_true_iff in F. destruct F as [A B]. cbn [scan_number]. rewrite A, B. reflexivity.
  - destruct (f c || ceqb c "."); [|discriminate]. destruct (ceqb c "." && dot); [discriminate|].
    destruct (scan_number f s (dot || ceqb c ".")) as [ok n] eqn:S. injection E as -> E. subst n. rewrite IH by auto. reflexivity.
Qed.
Lemma number_scans s z rest : number s z -> first_char after_number rest -> scans TNumberLiteral s rest.
Proof.
  intros [N _] F. apply single_token in N as ((c & r & -> & _) & p & E); [|discriminate]. intros pos. exists [].
  apply scan_number_token in E as [E K]. cbn [app]. rewrite K. revert E. unfold handle_number.
  assert (FF : forall f, (forall c, f c = true -> is_identifier_char c = true) -> first_char (fun c => negb (f c) && negb (ceqb c ".")) rest).
  { intros f H. revert F. apply first_char_imp. intros d. unfold after_number, not_word. rewrite !andb_true_iff, !negb_true_iff, !orb_false_iff. intros [[[A _] _] B]. split; [|exact B].
    destruct (f d) eqn:X; [|reflexivity]. apply H in X. congruence. }
  assert (D : forall c, is_digit c = true -> is_identifier_char c = true) by (intros d H; unfold is_identifier_char; rewrite H; apply orb_true_r).
  assert (X : forall c, is_xdigit c = true -> is_identifier_char c = true) by (intros d; destruct d as [[] [] [] [] [] [] [] []]; vm_compute; congruence).
  assert (G : forall f sk, (forall c, f c = true -> is_identifier_char c = true) -> sk <= length (c :: r) ->
    (let '(ok, n) := scan_number f (skipn sk (c :: r)) false in (if ok then TNumberLiteral else TError, sk + n, @nil nat)) = (TNumberLiteral, length (c :: r), p) ->
    (let '(ok, n) := scan_number f (skipn sk (c :: r ++ rest)) false in (if ok then TNumberLiteral else TError, sk + n, @nil nat)) = (TNumberLiteral, length (c :: r), [])).
  { intros f sk H LE E. destruct (scan_number f (skipn sk (c :: r)) false) as [[|] n] eqn:S; [|discriminate]. injection E as E _. fold (length (c :: r)) in E.
    change (c :: r ++ rest) with ((c :: r) ++ rest). rewrite skipn_app. replace (sk - length (c :: r)) with 0 by lia. cbn [skipn].
    rewrite (scan_number_end f _ rest false); [|rewrite S; f_equal; rewrite skipn_length; cbn [length] in *; lia|apply FF, H]. f_equal. f_equal. rewrite skipn_length. lia. }
  destruct r as [|d r].
  - cbn [app]. intros E. destruct rest as [|d rest]; [apply (G is_digit 1 D) in E; [exact E|cbn; lia]|].
    assert (ceqb d "x" = false /\ ceqb d "o" = false) as [-> ->].
    { cbn in F. unfold after_number, not_word in F. rewrite !andb_true_iff, !negb_true_iff, !orb_false_iff in F. split; apply ceqb_neq; intros ->; destruct F as [[[F _] _] _]; discriminate. }
    apply (G is_digit 1 D) in E; [|cbn; lia]. destruct (ceqb c "0"); exact E.
  - cbn [app]. destruct (ceqb c "0"); [destruct (ceqb d "x"); [|destruct (ceqb d "o")]|]; apply G; auto; cbn [length]; lia.
Qed.

(** Strings. *)
Lemma scan_string_triple rest body : forall pos esc, ~ In DQ body -> escape_state body esc = false ->
  exists p, scan_string DQ true (body ++ DQ :: DQ :: DQ :: rest) pos 3 esc = (true, length body + 2, p).
Proof.
  induction body as [|c body IH]; intros pos esc H1 H2.
  - cbn [escape_state] in H2. subst esc. eexists. reflexivity.
  - cbn [app scan_string escape_state] in *. assert (ceqb c DQ = false) as -> by (apply ceqb_neq; intros ->; apply H1; left; reflexivity). cbn [andb].
    destruct (IH (S pos) (ceqb c BSL && negb esc)) as (p & ->); auto; [intros I; apply H1; right; exact I|]. eexists. reflexivity.
Qed.
Definition quote_of (s : str) : ascii := if find_first DQ s then SQ else DQ.
Lemma print_string_literal s (triple raw : bool) : print_string s triple raw = string_literal (if raw then Some "r"%char else None) (quote_of s) triple s.
Proof. unfold print_string, string_literal, quote_of. destruct raw, triple; reflexivity. Qed.
Lemma quotable_quote triple s : quotable triple s -> (quote_of s = DQ \/ quote_of s = SQ) /\ escape_state s false = false /\ (forall i, ~ active_quote (quote_of s) s i) /\
  (triple = true -> quote_of s = DQ /\ ~ In DQ s).
Proof.
  intros [E Q]. unfold quote_of. destruct (find_first DQ s) as [i|] eqn:F.
  - assert (I : In DQ s). { apply find_first_some in F as [F _]. rewrite F. apply in_or_app. right. left. reflexivity. }
    destruct (Q I) as [-> N]. split; [auto|]. split; [auto|]. split; [exact N|discriminate].
  - apply find_first_none in F. split; [auto|]. split; [auto|]. split; [|auto]. intros i [A _]. apply nth_error_In in A. contradiction.
Qed.
Lemma string_visible s triple raw : visible (print_string s triple raw).
Proof.
  rewrite print_string_literal. unfold string_literal, quote_of. destruct raw; [|destruct (find_first DQ s), triple]; (eexists; eexists; split; [reflexivity|]); repeat split; discriminate.
Qed.
Lemma handle_string_scans s (triple : bool) q rest pre pos : (q = DQ \/ q = SQ) -> (pre = [] \/ pre = ["r"%char]) -> escape_state s false = false -> (forall i, ~ active_quote q s i) ->
  (triple = true -> q = DQ /\ ~ In DQ s) -> first_char (fun c => negb (ceqb c DQ || ceqb c SQ)) rest ->
  exists p, handle_string (pre ++ (if triple then [q; q; q] else [q]) ++ s ++ (if triple then [q; q; q] else [q]) ++ rest) pos =
    (TStringLiteral, length pre + 2 * (if triple then 3 else 1) + length s, p).
Proof.
  intros Hq Hp E A T F. unfold handle_string.
  set (body := s ++ (if triple then [q; q; q] else [q]) ++ rest).
  assert (P : (match pre ++ (if triple then [q; q; q] else [q]) ++ body with c :: _ => if ceqb c "r" || ceqb c "R" then 1 else 0 | [] => 0 end) = length pre).
  { destruct Hp as [-> | ->]; [|reflexivity]. destruct Hq as [-> | ->], triple; reflexivity. }
  rewrite P. rewrite skipn_app, skipn_all, Nat.sub_diag. cbn [app skipn].
  destruct triple.
  - destruct (T eq_refl) as [-> N]. cbn [app]. rewrite ceqb_refl. cbn [andb].
    assert (K : skipn (length pre + 3) (pre ++ DQ :: DQ :: DQ :: body) = body) by (rewrite skipn_app, skipn_all2 by lia; replace (length pre + 3 - length pre) with 3 by lia; reflexivity).
    rewrite K. unfold body. cbn [app]. destruct (scan_string_triple rest s (pos + (length pre + 3)) false N E) as (p & ->). exists p. f_equal. f_equal. lia.
  - cbn [app]. assert (TR : match body with a :: b :: _ => ceqb a q && ceqb b q | _ => false end = false).
    { unfold body. cbn [app]. destruct s as [|c s]; cbn [app].
      - destruct rest as [|c rest]; [reflexivity|]. cbn in F. apply negb_true_iff, orb_false_iff in F as [F1 F2]. rewrite ceqb_refl. cbn [andb]. destruct Hq as [-> | ->]; assumption.
      - assert (ceqb c q = false) as C. { apply ceqb_neq. intros ->. apply (A 0). split; reflexivity. } rewrite C. destruct (s ++ q :: rest); reflexivity. }
    rewrite TR. assert (K : skipn (length pre + 1) (pre ++ q :: body) = body) by (rewrite skipn_app, skipn_all2 by lia; replace (length pre + 1 - length pre) with 1 by lia; reflexivity).
    rewrite K. unfold body. cbn [app]. rewrite (scan_string_complete q rest s); [|exact A|exact E]. eexists. f_equal. f_equal. lia.
Qed.
Lemma string_scans s triple raw rest : quotable triple s -> first_char not_word rest -> scans TStringLiteral (print_string s triple raw) rest.
Proof.
  intros Q F pos. apply quotable_quote in Q as (Hq & E & A & T).
  assert (F' : first_char (fun c => negb (ceqb c DQ || ceqb c SQ)) rest).
  { revert F. apply first_char_imp. intros d. unfold not_word. rewrite !negb_true_iff, !orb_false_iff. tauto. }
  set (pre := if raw then ["r"%char] else @nil ascii).
  destruct (handle_string_scans s triple (quote_of s) rest pre pos Hq (ltac:(unfold pre; destruct raw; auto)) E A T F') as (p & H). exists p.
  rewrite print_string_literal. unfold string_literal.
  replace (match (if raw then Some "r"%char else None) with Some r => [r] | None => [] end) with pre by (unfold pre; destruct raw; reflexivity).
  rewrite <- !app_assoc. set (qs := if triple then [quote_of s; quote_of s; quote_of s] else [quote_of s]) in *.
  assert (LQ : length qs = if triple then 3 else 1) by (unfold qs; destruct triple; reflexivity).
  replace (length (pre ++ qs ++ s ++ qs)) with (length pre + 2 * (if triple then 3 else 1) + length s) by (rewrite !app_length, LQ; lia).
  rewrite <- H. unfold pre. destruct raw.
  - assert (RS : forall q c b, q = DQ \/ q = SQ -> scan_token ("r"%char :: q :: c :: b) pos = handle_string ("r"%char :: q :: c :: b) pos) by (intros q c b [-> | ->]; reflexivity).
    cbn [app]. unfold qs. destruct triple; [apply RS; exact Hq|]. cbn [app]. destruct s; cbn [app]; apply RS; exact Hq.
  - cbn [app]. unfold qs. destruct triple, Hq as [-> | ->]; reflexivity.
Qed.
Lemma string_back s triple raw : quotable triple s ->
  string_from_literal (print_string s triple raw) = Some ((if raw then 1 else 0) + (if triple then 3 else 1), s, triple, raw).
Proof.
  intros Q. apply quotable_quote in Q as (Hq & E & A & T). rewrite print_string_literal. rewrite from_literal_shape.
  - destruct raw; reflexivity.
  - destruct raw; auto.
  - exact Hq.
  - intros -> (r & H). destruct s as [|c s]; [discriminate|]. cbn [app] in H. assert (H0 : c = quote_of (c :: s)) by congruence. apply (A 0). split; [cbn [nth_error]; rewrite <- H0|]; reflexivity.
  - intros [-> H]. destruct (T eq_refl) as [H' _]. rewrite H' in H. discriminate.
Qed.
(** Operators. *)
Lemma op_scans op rest : is_op op -> scans op (print_op op) (" "%char :: rest).
Proof.
  intros I pos. unfold is_op, binary in I. cbn [tok_type] in I. exists [].
  repeat destruct I as [<-|I]; try reflexivity. destruct I.
Qed.
Lemma op_visible op : is_op op -> visible (print_op op) /\ (op = TNotIn -> ~ In NL (print_op op)).
Proof.
  intros I. split.
  - unfold is_op, binary in I. cbn [tok_type] in I. repeat destruct I as [<-|I]; try (eexists; eexists; split; [reflexivity|repeat split; discriminate]). destruct I.
  - intros -> H. cbn in H. repeat destruct H as [H|H]; try discriminate. exact H.
Qed.
Lemma dot_scans rest : scans TDot ($".") rest.
Proof. intros pos. exists []. reflexivity. Qed.
Lemma name_visible s : name s -> visible s.
Proof. intros H. apply single_token in H as [V _]; [exact V|discriminate]. Qed.
Lemma number_visible s z : number s z -> visible s.
Proof. intros [H _]. apply single_token in H as [V _]; [exact V|discriminate]. Qed.
