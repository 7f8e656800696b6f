(** Proofs about the table printers. *)
From Coq Require Import NArith Lia.
From Verif Require Import Base M_Ast M_Table S_Table.

(** * Escaping *)
Section LexLemmas.
Variable punct blank : ascii -> bool.
Notation step := (lex_step c_escapes punct blank).
Notation jstep := (lex_step json_escapes punct blank).

Lemma c_char_step toks acc c :
  fold_left step (c_escape_char c) (Some (toks, MStr acc)) = Some (toks, MStr (acc ++ [c])).
Proof. destruct c as [[] [] [] [] [] [] [] []]; reflexivity. Qed.
Lemma c_escape_step s : forall toks acc,
  fold_left step (c_escape s) (Some (toks, MStr acc)) = Some (toks, MStr (acc ++ s)).
Proof.
  induction s as [|c s IH]; intros toks acc; cbn [c_escape flat_map].
  - now rewrite app_nil_r.
  - rewrite fold_left_app, c_char_step. fold (c_escape s). rewrite IH, <- app_assoc. reflexivity.
Qed.
Lemma quoted_step s toks :
  fold_left step (quoted s) (Some (toks, MOut)) = Some (toks ++ [TStr s], MOut).
Proof.
  unfold quoted. cbn [fold_left lex_step]. unfold lex_out. rewrite (proj2 (ceqb_eq DQ DQ) eq_refl).
  rewrite fold_left_app, c_escape_step. reflexivity.
Qed.

Definition safe_char (c : ascii) : bool :=
  ceqb c (ascii_of_nat 9) || ceqb c (ascii_of_nat 10) || ceqb c (ascii_of_nat 13)
  || (32 <=? code c)%N && (code c <=? 126)%N && negb (ceqb c SQ).
Definition safe (s : str) : bool := forallb safe_char s.
Lemma json_char_step toks acc c :
  fold_left jstep (c_escape_char c) (Some (toks, MStr acc))
  = if safe_char c then Some (toks, MStr (acc ++ [c])) else None.
Proof. destruct c as [[] [] [] [] [] [] [] []]; reflexivity. Qed.
Lemma step_none esc s : fold_left (lex_step esc punct blank) s None = None.
Proof. induction s; auto. Qed.
Lemma json_escape_step s : forall toks acc,
  fold_left jstep (c_escape s) (Some (toks, MStr acc)) = if safe s then Some (toks, MStr (acc ++ s)) else None.
Proof.
  induction s as [|c s IH]; intros toks acc; cbn [c_escape flat_map safe forallb].
  - now rewrite app_nil_r.
  - rewrite fold_left_app, json_char_step. fold (c_escape s) (safe s). destruct (safe_char c); cbn [andb].
    + rewrite IH, <- app_assoc. reflexivity.
    + apply step_none.
Qed.
Lemma json_quoted_step s toks :
  fold_left jstep (quoted s) (Some (toks, MOut)) = if safe s then Some (toks ++ [TStr s], MOut) else None.
Proof.
  unfold quoted. cbn [fold_left lex_step]. unfold lex_out. rewrite (proj2 (ceqb_eq DQ DQ) eq_refl).
  rewrite fold_left_app, json_escape_step. destruct (safe s); reflexivity.
Qed.
End LexLemmas.

Lemma safe_spec s : safe s = true <-> json_safe s.
Proof.
  unfold safe, json_safe. rewrite forallb_forall. split; intros H c Hc; specialize (H c Hc).
  - unfold safe_char in H. rewrite !Bool.orb_true_iff, !Bool.andb_true_iff, Bool.negb_true_iff, !ceqb_eq, !N.leb_le in H.
    destruct H as [[[H|H]|H]|[[H1 H2] H3]]; auto. do 3 right. split; [lia|]. intros E. apply ceqb_eq in E. congruence.
  - unfold safe_char. rewrite !Bool.orb_true_iff, !Bool.andb_true_iff, Bool.negb_true_iff, !ceqb_eq, !N.leb_le.
    destruct H as [H|[H|[H|[[H1 H2] H3]]]]; auto. right. split; [split; lia|].
    destruct (ceqb c SQ) eqn:E; auto. apply ceqb_eq in E. contradiction.
Qed.

(** * Reading pieces of text *)
Section Lexes.
Variable escapes : str -> escape.
Variable punct blank : ascii -> bool.
(** From between tokens, [text] gives [toks] if [ok], and is an error otherwise. *)
Definition lexes (text : str) (toks : list tok) (ok : bool) : Prop :=
  forall pre, fold_left (lex_step escapes punct blank) text (Some (pre, MOut))
              = if ok then Some (pre ++ toks, MOut) else None.
Lemma lexes_nil : lexes [] [] true.
Proof. intros pre. cbn. now rewrite app_nil_r. Qed.
Lemma lexes_app t1 t2 k1 k2 b1 b2 : lexes t1 k1 b1 -> lexes t2 k2 b2 -> lexes (t1 ++ t2) (k1 ++ k2) (b1 && b2).
Proof.
  intros H1 H2 pre. rewrite fold_left_app, H1. destruct b1; cbn [andb].
  - rewrite H2, app_assoc. reflexivity.
  - apply step_none.
Qed.
Lemma lexes_cons c t2 k1 k2 b2 : lexes [c] k1 true -> lexes t2 k2 b2 -> lexes (c :: t2) (k1 ++ k2) b2.
Proof. intros H1 H2. apply (lexes_app [c] t2 k1 k2 true b2 H1 H2). Qed.
Lemma lexes_sym c : ceqb c DQ = false -> punct c = true -> lexes [c] [TSym c] true.
Proof. intros H1 H2 pre. cbn. unfold lex_out. rewrite H1, H2. reflexivity. Qed.
Lemma lexes_blank c : ceqb c DQ = false -> punct c = false -> blank c = true -> lexes [c] [] true.
Proof. intros H1 H2 H3 pre. cbn. unfold lex_out. rewrite H1, H2, H3, app_nil_r. reflexivity. Qed.
Lemma lexes_blanks c n : ceqb c DQ = false -> punct c = false -> blank c = true -> lexes (repeat c n) [] true.
Proof.
  intros H1 H2 H3. induction n; [apply lexes_nil|]. cbn [repeat].
  apply (lexes_cons _ _ [] [] true); auto. now apply lexes_blank.
Qed.
Lemma lexes_sepb {A} sep ksep (f : A -> str) (g : A -> list tok) (h : A -> bool) l :
  lexes sep ksep true -> (forall a, In a l -> lexes (f a) (g a) (h a)) ->
  lexes (separated sep (map f l)) (separated ksep (map g l)) (forallb h l).
Proof.
  intros Hs. induction l as [|a l IH]; intros H; [apply lexes_nil|].
  assert (IH' := IH (fun x Hx => H x (or_intror Hx))). clear IH.
  destruct l as [|b l].
  - cbn. rewrite Bool.andb_true_r. apply H. now left.
  - change (separated sep (map f (a :: b :: l))) with (f a ++ sep ++ separated sep (map f (b :: l))).
    change (separated ksep (map g (a :: b :: l))) with (g a ++ ksep ++ separated ksep (map g (b :: l))).
    cbn [forallb]. apply lexes_app; [apply H; now left|].
    apply (lexes_app _ _ _ _ true _ Hs IH').
Qed.
Lemma lexes_sep {A} sep ksep (f : A -> str) (g : A -> list tok) l :
  lexes sep ksep true -> (forall a, In a l -> lexes (f a) (g a) true) ->
  lexes (separated sep (map f l)) (separated ksep (map g l)) true.
Proof.
  intros H1 H2. assert (H := lexes_sepb sep ksep f g (fun _ => true) l H1 H2).
  assert (E : forallb (fun _ : A => true) l = true) by (clear; induction l; auto).
  rewrite E in H. exact H.
Qed.
Lemma lexes_flat {A} (f : A -> str) (g : A -> list tok) l :
  (forall a, In a l -> lexes (f a) (g a) true) -> lexes (flat_map f l) (flat_map g l) true.
Proof.
  induction l as [|a l IH]; intros H; [apply lexes_nil|]. cbn [flat_map].
  apply (lexes_app _ _ _ _ true true); [apply H; now left|]. apply IH. intros x Hx. apply H. now right.
Qed.
Lemma lexes_lex text toks ok : lexes text toks ok -> lex escapes punct blank text = if ok then Some toks else None.
Proof. intros H. unfold lex. rewrite H. destruct ok; reflexivity. Qed.
(** A word of plain characters with a blank after it. *)
Lemma lexes_word w c b :
  (forall x, In x (c :: w) -> ceqb x DQ = false /\ punct x = false /\ blank x = false) ->
  ceqb b DQ = false -> punct b = false -> blank b = true ->
  lexes (c :: w ++ [b]) [TWord (c :: w)] true.
Proof.
  intros H H1 H2 H3 pre. cbn [fold_left lex_step]. unfold lex_out at 1.
  destruct (H c (or_introl eq_refl)) as (A1 & A2 & A3). rewrite A1, A2, A3.
  assert (G : forall w v, (forall x, In x w -> ceqb x DQ = false /\ punct x = false /\ blank x = false) ->
     fold_left (lex_step escapes punct blank) w (Some (pre, MWord v)) = Some (pre, MWord (v ++ w))).
  { clear w H. induction w as [|x w IH]; intros v H; cbn; [now rewrite app_nil_r|].
    destruct (H x (or_introl eq_refl)) as (B1 & B2 & B3). rewrite B1, B2, B3. cbn.
    rewrite IH by (intros y Hy; apply H; now right). rewrite <- app_assoc. reflexivity. }
  rewrite fold_left_app, G by (intros x Hx; apply H; now right). cbn.
  rewrite H1, H2, H3. cbn. unfold lex_out. rewrite H1, H2, H3. reflexivity.
Qed.
End Lexes.
Lemma lexes_quoted punct blank s : lexes c_escapes punct blank (quoted s) [TStr s] true.
Proof. intros pre. apply quoted_step. Qed.
Lemma lexes_json_quoted punct blank s : lexes json_escapes punct blank (quoted s) [TStr s] (safe s).
Proof. intros pre. apply json_quoted_step. Qed.

Lemma feed_app {S} (step : S -> tok -> option S) a b st :
  feed step (a ++ b) st = match feed step a st with Some st => feed step b st | None => None end.
Proof. revert st. induction a as [|t a IH]; intros st; cbn; auto. destruct (step st t); auto. Qed.

(** The entry of an operation. *)
Definition entry_of (op : table_op) : entry :=
  match op with
  | AddRow row => Plain row
  | AddRowWithRepeatedLastColumn row_prefix repeat_col => Multi row_prefix repeat_col
  end.

(** * CSV *)
Definition csv_toks (row : list str) : list tok :=
  separated [TSym ","%char] (map (fun c => [TStr c]) row) ++ [TSym NL].
Notation csv_lexes := (lexes c_escapes (fun c => ceqb c "," || ceqb c NL) (fun _ => false)).
Lemma csv_line_lexes row : csv_lexes (csv_line row) (csv_toks row) true.
Proof.
  unfold csv_line, csv_toks.
  apply (lexes_app _ _ _ _ _ _ _ true true).
  - apply (lexes_sep _ _ _ _ _ quoted (fun c => [TStr c])).
    + now apply lexes_sym.
    + intros a _. apply lexes_quoted.
  - now apply lexes_sym.
Qed.
Lemma csv_feed_row lines row : row <> [] ->
  feed csv_step (csv_toks row) (mkCsv lines [] false) = Some (mkCsv (lines ++ [row]) [] false).
Proof.
  intros Hn. unfold csv_toks. rewrite feed_app.
  assert (G : forall row acc, row <> [] ->
    feed csv_step (separated [TSym ","%char] (map (fun c => [TStr c]) row)) (mkCsv lines acc false)
    = Some (mkCsv lines (acc ++ row) true)).
  { clear. induction row as [|c row IH]; intros acc H; [contradiction|].
    destruct row as [|d row].
    - reflexivity.
    - change (separated [TSym ","%char] (map (fun c => [TStr c]) (c :: d :: row)))
        with ([TStr c; TSym ","%char] ++ separated [TSym ","%char] (map (fun c => [TStr c]) (d :: row))).
      rewrite feed_app. cbn -[separated map]. rewrite IH by discriminate. now rewrite <- app_assoc. }
  rewrite G by auto. reflexivity.
Qed.
Lemma csv_feed rows : forall lines, (forall row, In row rows -> row <> []) ->
  feed csv_step (flat_map csv_toks rows) (mkCsv lines [] false) = Some (mkCsv (lines ++ rows) [] false).
Proof.
  induction rows as [|row rows IH]; intros lines H; cbn [flat_map feed].
  - now rewrite app_nil_r.
  - rewrite feed_app, csv_feed_row by (apply H; now left). rewrite IH by (intros r Hr; apply H; now right).
    now rewrite <- app_assoc.
Qed.
Lemma csv_print_lines headers ops :
  csv_print headers ops = flat_map csv_line (headers :: flat_map (fun op => entry_rows (entry_of op)) ops).
Proof.
  unfold csv_print. cbn [flat_map]. f_equal. induction ops as [|op ops IH]; cbn [flat_map]; auto.
  rewrite IH, flat_map_app. f_equal. destruct op; cbn; [now rewrite app_nil_r|reflexivity].
Qed.
Lemma csv_read headers ops :
  headers <> [] -> (forall op, In op ops -> entry_columns (entry_of op) <> 0) ->
  read_csv (csv_print headers ops) = Some (headers :: flat_map (fun op => entry_rows (entry_of op)) ops).
Proof.
  intros Hh Ho. rewrite csv_print_lines. unfold read_csv.
  erewrite lexes_lex by (apply (lexes_flat _ _ _ csv_line csv_toks); intros; apply csv_line_lexes).
  cbv iota. rewrite csv_feed; [reflexivity|]. intros row [<-|Hr]; auto.
  apply in_flat_map in Hr. destruct Hr as (op & H1 & H2). specialize (Ho op H1). destruct op; cbn in *.
  - destruct H2 as [<-|[]]. intros ->. contradiction.
  - apply in_map_iff in H2. destruct H2 as (v & <- & _). destruct row_prefix; discriminate.
Qed.

(** * S-expressions and property lists *)
Notation sx_lexes := (lexes c_escapes (fun c => ceqb c "(" || ceqb c ")") is_space).
(** Inside a list, [text] adds [items] to it. *)
Definition reads (text : str) (items : list sexpr) : Prop :=
  exists toks, sx_lexes text toks true /\
    forall l o d, feed sexpr_step toks (mkSexpr (l :: o) d) = Some (mkSexpr ((l ++ items) :: o) d).
Lemma reads_nil : reads [] [].
Proof. exists []. split; [apply lexes_nil|]. intros. cbn. now rewrite app_nil_r. Qed.
Lemma reads_app t1 t2 i1 i2 : reads t1 i1 -> reads t2 i2 -> reads (t1 ++ t2) (i1 ++ i2).
Proof.
  intros (k1 & L1 & F1) (k2 & L2 & F2). exists (k1 ++ k2). split.
  - apply (lexes_app _ _ _ _ _ _ _ true true L1 L2).
  - intros. rewrite feed_app, F1, F2, app_assoc. reflexivity.
Qed.
Lemma reads_blank c : is_space c = true -> reads [c] [].
Proof.
  intros H. exists []. split; [|intros; cbn; now rewrite app_nil_r].
  apply lexes_blank; auto; destruct c as [[] [] [] [] [] [] [] []]; try discriminate; reflexivity.
Qed.
Lemma reads_quoted s : reads (quoted s) [Str s].
Proof. exists [TStr s]. split; [apply lexes_quoted|]. reflexivity. Qed.
Lemma reads_paren t items : reads t items -> reads ("("%char :: t ++ [")"%char]) [Paren items].
Proof.
  intros (k & L & F). exists ([TSym "("%char] ++ k ++ [TSym ")"%char]). split.
  - apply (lexes_cons _ _ _ "("%char); [now apply lexes_sym|].
    apply (lexes_app _ _ _ _ _ _ _ true true); auto. now apply lexes_sym.
  - intros. rewrite feed_app. cbn [feed sexpr_step]. rewrite ceqb_refl. cbn [sx_open sx_done].
    rewrite feed_app, F. reflexivity.
Qed.
Lemma reads_spaces s : Forall (fun c => is_space c = true) s -> reads s [].
Proof.
  induction 1; [apply reads_nil|]. apply (reads_app [x] l [] []); auto. now apply reads_blank.
Qed.
Lemma reads_separated sep l :
  Forall (fun c => is_space c = true) sep -> reads (separated sep (map quoted l)) (map Str l).
Proof.
  intros Hs. induction l as [|a l IH]; [apply reads_nil|]. destruct l as [|b l]; [apply reads_quoted|].
  change (separated sep (map quoted (a :: b :: l))) with (quoted a ++ sep ++ separated sep (map quoted (b :: l))).
  apply (reads_app _ _ [Str a] (map Str (b :: l))); [apply reads_quoted|].
  apply (reads_app _ _ [] _); auto. now apply reads_spaces.
Qed.

Lemma reads_header h : plain_header h -> reads (":"%char :: h ++ [" "%char]) [Word (":"%char :: h)].
Proof.
  intros H. exists [TWord (":"%char :: h)]. split; [|reflexivity].
  apply lexes_word; try reflexivity. intros x [<-|Hx]; [auto|].
  destruct (H x Hx) as (A & B & C & D). rewrite (proj2 (ceqb_neq _ _) A), (proj2 (ceqb_neq _ _) B), (proj2 (ceqb_neq _ _) C). auto.
Qed.

Section SExprProofs.
Variable as_plist : bool.
Variable headers : list str.
Hypothesis plain : as_plist = true -> Forall plain_header headers.
Definition word_at (c : nat) : list sexpr := if as_plist then [Word (":"%char :: nth c headers [])] else [].
Fixpoint items_from (c : nat) (l : list sexpr) : list sexpr :=
  match l with [] => [] | x :: l => word_at c ++ x :: items_from (S c) l end.
Lemma items_from_app l1 l2 : forall c, items_from c (l1 ++ l2) = items_from c l1 ++ items_from (c + length l1) l2.
Proof.
  induction l1 as [|x l1 IH]; intros c; cbn; [now rewrite Nat.add_0_r|].
  rewrite <- app_assoc. cbn. rewrite IH, Nat.add_succ_r. reflexivity.
Qed.
Lemma header_reads c : (as_plist = true -> c < length headers) ->
  exists h, plist_header as_plist headers c = Ret h /\ reads h (word_at c) /\
    length h = (if as_plist then length (nth c headers []) + 2 else 0) /\ (as_plist = true -> exists h', h = ":"%char :: h').
Proof.
  intros Hc. unfold plist_header, word_at, header_at. destruct as_plist.
  - specialize (Hc eq_refl). destruct (nth_error headers c) as [h|] eqn:E.
    + rewrite (nth_error_nth headers c (@nil ascii) E : nth c headers [] = h). eexists. split; [reflexivity|]. split.
      * apply reads_header. rewrite Forall_forall in plain. apply plain; auto. eapply nth_error_In; eauto.
      * split; [cbn; rewrite app_length; cbn; lia|eauto].
    + apply nth_error_None in E. lia.
  - exists []. split; [reflexivity|]. split; [apply reads_nil|]. split; [reflexivity|discriminate].
Qed.
Lemma sexpr_cells_reads row : forall c, (as_plist = true -> c + length row <= length headers) ->
  exists t, sexpr_cells as_plist headers c row = Ret t /\ reads t (items_from c (map Str row)).
Proof.
  induction row as [|cell row IH]; intros c Hc; cbn [sexpr_cells items_from map].
  - exists []. split; [reflexivity|apply reads_nil].
  - destruct (header_reads c) as (h & Eh & Rh & _); [intros E; specialize (Hc E); cbn in Hc; lia|].
    destruct (IH (S c)) as (t & Et & Rt); [intros E; specialize (Hc E); cbn in Hc; lia|].
    rewrite Eh, Et. cbn [bind]. eexists. split; [reflexivity|].
    change (word_at c ++ Str cell :: items_from (S c) (map Str row)) with ([] ++ word_at c ++ [Str cell] ++ items_from (S c) (map Str row)).
    apply reads_app.
    + destruct (c =? 0); [apply reads_nil|now apply reads_blank].
    + apply reads_app; auto. apply reads_app; auto. apply reads_quoted.
Qed.
Lemma prefix_indent_ret row : forall c, (as_plist = true -> c + length row <= length headers) ->
  exists n, prefix_indent as_plist headers c row = Ret n.
Proof.
  induction row as [|cell row IH]; intros c Hc; cbn [prefix_indent]; [eauto|].
  destruct (IH (S c)) as (n & E); [intros F; specialize (Hc F); cbn in Hc; lia|]. rewrite E.
  destruct as_plist; cbn [bind]; [|eauto].
  unfold header_at. destruct (nth_error headers c) eqn:E2; cbn; [eauto|].
  apply nth_error_None in E2. specialize (Hc eq_refl). cbn in Hc. lia.
Qed.
Definition op_sexpr (op : table_op) : sexpr :=
  match op with
  | AddRow row => Paren (items_from 0 (map Str row))
  | AddRowWithRepeatedLastColumn row_prefix repeat_col =>
      Paren (items_from 0 (map Str row_prefix ++ [Paren (map Str repeat_col)]))
  end.
Lemma sexpr_op_reads printed op : (as_plist = true -> entry_columns (entry_of op) <= length headers) ->
  exists t, sexpr_op as_plist headers printed op = Ret t /\ reads t [op_sexpr op].
Proof.
  intros Hc.
  assert (Ro : forall t i, reads t i -> reads (row_open printed ++ t ++ [")"%char]) [Paren i]).
  { intros t i R. apply reads_paren in R. destruct printed; [|exact R].
    apply (reads_app [NL; " "%char] _ [] _); auto. apply reads_spaces. repeat constructor. }
  destruct op as [row|pre reps]; cbn [sexpr_op entry_of entry_columns op_sexpr] in *.
  - destruct (sexpr_cells_reads row 0) as (t & E & R); [auto|]. rewrite E. cbn [bind].
    eexists. split; [reflexivity|]. auto.
  - destruct (sexpr_cells_reads pre 0) as (t & E & R); [intros F; specialize (Hc F); lia|].
    destruct (prefix_indent_ret pre 0) as (n & En); [intros F; specialize (Hc F); lia|].
    destruct (header_reads (length pre)) as (h & Eh & Rh & _); [intros F; specialize (Hc F); lia|].
    rewrite E, En, Eh. cbn [bind].
    assert (G : exists hw, (if as_plist then do h <- header_at headers (length pre); Ret (length h + 2) else Ret 0) = Ret hw).
    { destruct as_plist; eauto. unfold header_at. destruct (nth_error headers (length pre)) eqn:E2; cbn; eauto.
      apply nth_error_None in E2. specialize (Hc eq_refl). lia. }
    destruct G as (hw & ->). cbn [bind]. eexists. split; [reflexivity|].
    set (sepc := if length pre =? 0 then [] else [" "%char]).
    set (rc := repeated_cells _ _).
    replace (row_open printed ++ t ++ sepc ++ h ++ "("%char :: rc ++ $"))")
      with (row_open printed ++ (t ++ sepc ++ h ++ ("("%char :: rc ++ [")"%char])) ++ [")"%char]).
    + apply Ro. rewrite items_from_app. apply reads_app; auto.
      rewrite map_length. cbn [plus items_from].
      change (word_at (length pre) ++ [Paren (map Str reps)]) with ([] ++ word_at (length pre) ++ [Paren (map Str reps)]).
      apply reads_app; [subst sepc; destruct (length pre =? 0); [apply reads_nil|now apply reads_blank]|].
      apply reads_app; auto. apply reads_paren. apply reads_separated. constructor; auto.
      apply Forall_forall. intros x Hx. apply repeat_spec in Hx. now subst.
    + rewrite <- !app_assoc. cbn. rewrite <- !app_assoc. reflexivity.
Qed.
Lemma sexpr_ops_reads ops : forall printed, (as_plist = true -> forall op, In op ops -> entry_columns (entry_of op) <= length headers) ->
  exists t, sexpr_ops as_plist headers printed ops = Ret t /\ reads t (map op_sexpr ops).
Proof.
  induction ops as [|op ops IH]; intros printed Hc; cbn [sexpr_ops map].
  - exists []. split; [reflexivity|apply reads_nil].
  - destruct (sexpr_op_reads printed op) as (t & E & R); [intros F; apply Hc; auto; now left|].
    destruct (IH true) as (t2 & E2 & R2); [intros F o Ho; apply Hc; auto; now right|].
    rewrite E, E2. cbn [bind]. eexists. split; [reflexivity|]. apply (reads_app _ _ [op_sexpr op]); auto.
Qed.
Lemma sexpr_print_read ops : (as_plist = true -> forall op, In op ops -> entry_columns (entry_of op) <= length headers) ->
  exists t, sexpr_print as_plist headers ops = Ret t /\ read_sexpr t = Some (Paren (map op_sexpr ops)).
Proof.
  intros Hc. destruct (sexpr_ops_reads ops false Hc) as (t & E & R). unfold sexpr_print. rewrite E. cbn [bind].
  eexists. split; [reflexivity|].
  destruct R as (k & L & F). unfold read_sexpr.
  assert (L2 : sx_lexes ("("%char :: t ++ [")"%char; NL]) ([TSym "("%char] ++ k ++ [TSym ")"%char] ++ []) true).
  { apply (lexes_cons _ _ _ "("%char); [now apply lexes_sym|].
    apply (lexes_app _ _ _ _ _ _ _ true true); auto.
    apply (lexes_cons _ _ _ ")"%char); [now apply lexes_sym|]. now apply lexes_blank. }
  rewrite (lexes_lex _ _ _ _ _ _ L2). cbv iota.
  rewrite feed_app. cbn [feed sexpr_step]. rewrite ceqb_refl. cbn [sx_open sx_done].
  rewrite feed_app, F. reflexivity.
Qed.
End SExprProofs.

Lemma items_from_plain headers l : forall c, items_from false headers c l = l.
Proof. induction l as [|x l IH]; intros c; cbn; auto. now rewrite IH. Qed.
Lemma items_from_keyed headers l : forall c, c + length l <= length headers ->
  items_from true headers c l = keyed (skipn c headers) l.
Proof.
  induction l as [|x l IH]; intros c Hc; cbn [items_from length] in *.
  - unfold keyed. destruct (skipn c headers); reflexivity.
  - rewrite IH by lia. unfold keyed.
    assert (E : skipn c headers = nth c headers [] :: skipn (S c) headers).
    { clear - Hc. revert c Hc. induction headers as [|h hs IH]; intros c Hc; cbn in *; [lia|].
      destruct c; cbn; auto. apply (IH c). lia. }
    rewrite E. reflexivity.
Qed.
Lemma sexpr_read headers ops :
  exists t, table_print FmtSExpr headers ops = Ret t /\
    read_sexpr t = Some (Paren (map (fun op => entry_sexpr (entry_of op)) ops)).
Proof.
  destruct (sexpr_print_read false headers) with (ops := ops) as (t & E & R); try discriminate.
  exists t. split; auto. rewrite R. f_equal. f_equal. apply map_ext. intros [row|pre reps]; cbn; now rewrite items_from_plain.
Qed.
Lemma plist_read headers ops :
  Forall plain_header headers -> (forall op, In op ops -> entry_columns (entry_of op) <= length headers) ->
  exists t, table_print FmtPList headers ops = Ret t /\
    read_sexpr t = Some (Paren (map (fun op => entry_plist headers (entry_of op)) ops)).
Proof.
  intros Hh Hc. destruct (sexpr_print_read true headers) with (ops := ops) as (t & E & R); auto.
  exists t. split; auto. rewrite R. f_equal. f_equal. apply map_ext_in. intros op Ho. specialize (Hc op Ho).
  destruct op as [row|pre reps]; cbn in *; rewrite items_from_keyed; auto;
    rewrite ?app_length, ?map_length; cbn; lia.
Qed.

(** * JSON *)
Notation js_lexes := (lexes json_escapes (fun c => contains_char c ($"{}[]:,"))
              (fun c => ceqb c " " || ceqb c NL || ceqb c "013" || ceqb c "009")).
Definition jreads (text : str) (s1 : json_mode) (ms : list (str * jvalue)) (s2 : json_mode) (ok : bool) : Prop :=
  exists toks, js_lexes text toks ok /\ forall pre, feed json_step toks (pre, s1) = Some (pre ++ ms, s2).
Lemma jreads_nil s : jreads [] s [] s true.
Proof. exists []. split; [apply lexes_nil|]. intros. cbn. now rewrite app_nil_r. Qed.
Lemma jreads_app t1 t2 s1 s2 s3 m1 m2 b1 b2 :
  jreads t1 s1 m1 s2 b1 -> jreads t2 s2 m2 s3 b2 -> jreads (t1 ++ t2) s1 (m1 ++ m2) s3 (b1 && b2).
Proof.
  intros (k1 & L1 & F1) (k2 & L2 & F2). exists (k1 ++ k2). split; [now apply lexes_app|].
  intros pre. rewrite feed_app, F1, F2, app_assoc. reflexivity.
Qed.
Lemma jreads_sym c s1 s2 : contains_char c ($"{}[]:,") = true ->
  (forall pre, json_step (pre, s1) (TSym c) = Some (pre, s2)) -> jreads [c] s1 [] s2 true.
Proof.
  intros H1 H2. exists [TSym c]. split.
  - apply lexes_sym; auto. destruct (ceqb_spec c DQ); auto. subst. discriminate.
  - intros pre. cbn [feed]. rewrite H2, app_nil_r. reflexivity.
Qed.
Lemma jreads_space s : jreads [" "%char] s [] s true.
Proof. exists []. split; [now apply lexes_blank|]. intros. cbn. now rewrite app_nil_r. Qed.
Lemma jreads_sym_space c s1 s2 : contains_char c ($"{}[]:,") = true ->
  (forall pre, json_step (pre, s1) (TSym c) = Some (pre, s2)) -> jreads [c; " "%char] s1 [] s2 true.
Proof. intros H1 H2. apply (jreads_app [c] [" "%char] s1 s2 s2 [] [] true true); [now apply jreads_sym|apply jreads_space]. Qed.
(** Before the member of column [c]. *)
Definition at_column (c : nat) : json_mode := if c =? 0 then JFirst else JNext.
Lemma jreads_key c h :
  jreads ((if c =? 0 then [] else $", ") ++ quoted h ++ $": ") (at_column c) [] (JValue h) (safe h).
Proof.
  unfold at_column.
  assert (K : forall s, (s = JFirst \/ s = JKey) -> jreads (quoted h ++ $": ") s [] (JValue h) (safe h)).
  { intros s Hs. replace (safe h) with (safe h && true) by apply Bool.andb_true_r.
    apply (jreads_app _ _ s (JColon h) (JValue h) [] []).
    - exists [TStr h]. split; [apply lexes_json_quoted|]. intros pre. cbn. rewrite app_nil_r. destruct Hs as [->| ->]; reflexivity.
    - now apply jreads_sym_space. }
  destruct (c =? 0).
  - cbn [app]. apply K. auto.
  - apply (jreads_app _ _ JNext JKey (JValue h) [] [] true); auto. now apply jreads_sym_space.
Qed.
Lemma jreads_str k v : jreads (quoted v) (JValue k) [(k, JStr v)] JNext (safe v).
Proof. exists [TStr v]. split; [apply lexes_json_quoted|]. reflexivity. Qed.
Lemma jreads_array k vs :
  jreads ("["%char :: separated ($", ") (map quoted vs) ++ ["]"%char]) (JValue k) [(k, JArr vs)] JNext (forallb safe vs).
Proof.
  exists ([TSym "["%char] ++ separated [TSym ","%char] (map (fun v => [TStr v]) vs) ++ [TSym "]"%char]). split.
  - apply (lexes_cons _ _ _ "["%char); [now apply lexes_sym|].
    replace (forallb safe vs) with (forallb safe vs && true) by apply Bool.andb_true_r.
    apply lexes_app; [|now apply lexes_sym].
    apply (lexes_sepb _ _ _ _ _ quoted (fun v => [TStr v]) safe).
    + apply (lexes_app _ _ _ [","%char] [" "%char] [TSym ","%char] [] true true); [now apply lexes_sym|now apply lexes_blank].
    + intros a _. apply lexes_json_quoted.
  - intros pre. rewrite feed_app. cbn [feed json_step]. rewrite ceqb_refl, feed_app.
    destruct vs as [|v vs]; [reflexivity|].
    assert (G : forall vs v acc s, s = JArrFirst k /\ acc = [] \/ s = JArrItem k acc ->
      feed json_step (separated [TSym ","%char] (map (fun v => [TStr v]) (v :: vs))) (pre, s)
      = Some (pre, JArrNext k (acc ++ v :: vs))).
    { clear. induction vs as [|w vs IH]; intros v acc s Hs.
      - cbn. destruct Hs as [(-> & ->)| ->]; reflexivity.
      - change (separated [TSym ","%char] (map (fun v => [TStr v]) (v :: w :: vs)))
          with ([TStr v; TSym ","%char] ++ separated [TSym ","%char] (map (fun v => [TStr v]) (w :: vs))).
        rewrite feed_app.
        assert (E : feed json_step [TStr v; TSym ","%char] (pre, s) = Some (pre, JArrItem k (acc ++ [v]))).
        { destruct Hs as [(-> & ->)| ->]; reflexivity. }
        rewrite E, (IH w (acc ++ [v])) by auto. now rewrite <- app_assoc. }
    rewrite (G vs v []) by auto. reflexivity.
Qed.

Section JsonProofs.
Variable headers : list str.
Lemma json_header_ret c : c < length headers -> json_header headers c = Ret (quoted (nth c headers []) ++ $": ").
Proof.
  intros Hc. unfold json_header, header_at. destruct (nth_error headers c) as [h|] eqn:E.
  - rewrite (nth_error_nth headers c (@nil ascii) E : nth c headers [] = h). reflexivity.
  - apply nth_error_None in E. lia.
Qed.
Lemma skipn_nth {A} (l : list A) c d : c < length l -> skipn c l = nth c l d :: skipn (S c) l.
Proof.
  revert c. induction l as [|h hs IH]; intros c Hc; cbn in *; [lia|].
  destruct c; cbn; auto. apply (IH c). lia.
Qed.
Lemma json_cells_reads row : forall c, c + length row <= length headers ->
  exists t, json_cells headers c row = Ret t /\
    jreads t (at_column c) (combine (skipn c headers) (map JStr row)) (at_column (c + length row))
           (forallb safe (firstn (length row) (skipn c headers)) && forallb safe row).
Proof.
  induction row as [|cell row IH]; intros c Hc; cbn [json_cells map length] in *.
  - exists []. split; [reflexivity|]. rewrite Nat.add_0_r. destruct (skipn c headers); apply jreads_nil.
  - destruct (IH (S c)) as (t & E & R); [lia|]. rewrite json_header_ret, E by lia. cbn [bind].
    eexists. split; [reflexivity|]. rewrite (skipn_nth headers c []) by lia. cbn [combine].
    replace (forallb safe (firstn (S (length row)) (nth c headers [] :: skipn (S c) headers)) && forallb safe (cell :: row))
      with (safe (nth c headers []) && (safe cell && (forallb safe (firstn (length row) (skipn (S c) headers)) && forallb safe row))).
    2:{ cbn [firstn forallb]. destruct (safe (nth c headers [])), (safe cell); cbn; auto. now rewrite Bool.andb_false_r. }
    set (m := combine _ _).
    change ((nth c headers [], JStr cell) :: m) with ([] ++ [(nth c headers [], JStr cell)] ++ m).
    rewrite app_assoc. apply (jreads_app _ _ _ (JValue (nth c headers []))); [apply jreads_key|].
    apply (jreads_app _ _ _ JNext); [apply jreads_str|]. subst m. replace (c + S (length row)) with (S c + length row) by lia. exact R.
Qed.
(** The headers that an entry uses. *)
Definition op_headers (op : table_op) : list str := firstn (entry_columns (entry_of op)) headers.
Definition op_safe (op : table_op) : bool := forallb safe (op_headers op ++ entry_cells (entry_of op)).
Lemma firstn_snoc {A} (l : list A) n d : n < length l -> firstn (S n) l = firstn n l ++ [nth n l d].
Proof.
  revert n. induction l as [|x l IH]; intros n H; cbn in *; [lia|]. destruct n; [reflexivity|].
  cbn [firstn nth app]. f_equal. apply IH. lia.
Qed.
Lemma combine_snoc {A B} (l : list A) (m : list B) x d : length m < length l ->
  combine l (m ++ [x]) = combine l m ++ [(nth (length m) l d, x)].
Proof.
  revert l. induction m as [|b m IH]; intros [|a l] H; cbn in *; try lia; auto.
  - destruct l; reflexivity.
  - f_equal. apply IH. lia.
Qed.
Lemma json_op_reads op : entry_columns (entry_of op) <= length headers ->
  exists line, json_op headers op = Ret (line ++ [NL]) /\
    jreads line JStart (entry_json headers (entry_of op)) JEnd (op_safe op).
Proof.
  intros Hc. unfold op_safe, op_headers. destruct op as [row|pre reps]; cbn [entry_of entry_columns entry_cells json_op entry_json] in *.
  - destruct (json_cells_reads row 0) as (t & E & R); [auto|]. rewrite E. cbn [bind].
    exists ("{"%char :: t ++ ["}"%char]). split.
    + cbn. now rewrite <- app_assoc.
    + rewrite forallb_app. cbn [skipn plus] in R. set (b := _ && _) in *.
      apply (jreads_app ["{"%char] _ _ JFirst _ [] (combine headers (map JStr row)) true b); [now apply jreads_sym|].
      rewrite <- (app_nil_r (combine headers _)). rewrite <- (Bool.andb_true_r b).
      apply (jreads_app _ _ _ (at_column (length row))); [exact R|].
      apply jreads_sym; auto. intros p. unfold at_column. destruct (length row =? 0); reflexivity.
  - destruct (json_cells_reads pre 0) as (t & E & R); [lia|]. rewrite E, json_header_ret by lia. cbn [bind].
    set (n := length pre) in *. set (h := nth n headers []).
    exists ("{"%char :: t ++ ((if n =? 0 then [] else $", ") ++ quoted h ++ $": ")
            ++ ("["%char :: separated ($", ") (map quoted reps) ++ ["]"%char]) ++ ["}"%char]). split.
    + f_equal. cbn. f_equal. rewrite <- !app_assoc. cbn. rewrite <- !app_assoc. cbn. reflexivity.
    + rewrite (firstn_snoc headers n []) by lia. rewrite !forallb_app. cbn [forallb]. fold h. rewrite Bool.andb_true_r.
      cbn [skipn plus] in R. fold n in R.
      assert (Eb : forall a b c d, (a && b) && (c && d) = true && ((a && c) && (b && (d && true)))) by (intros [] [] [] []; auto).
      rewrite Eb. apply (jreads_app ["{"%char] _ _ JFirst _ [] (combine headers (map JStr pre ++ [JArr reps]))); [now apply jreads_sym|].
      rewrite (combine_snoc headers (map JStr pre) (JArr reps) []) by (rewrite map_length; fold n; lia).
      rewrite map_length. fold n h. apply (jreads_app _ _ _ (at_column n)); [exact R|].
      change [(h, JArr reps)] with ([] ++ [(h, JArr reps)] ++ []).
      apply (jreads_app _ _ _ (JValue h)); [apply jreads_key|].
      apply (jreads_app _ _ _ JNext); [apply jreads_array|]. now apply jreads_sym.
Qed.
Lemma jreads_json line ms ok : jreads line JStart ms JEnd ok -> read_json line = if ok then Some ms else None.
Proof.
  intros (k & L & F). unfold read_json. rewrite (lexes_lex _ _ _ _ _ _ L). destruct ok; auto.
  rewrite F. reflexivity.
Qed.
End JsonProofs.

(** No line break in a line. *)
Lemma escape_no_nl s : ~ In NL (c_escape s).
Proof.
  unfold c_escape. rewrite in_flat_map. intros (c & _ & H).
  assert (G : existsb (ceqb NL) (c_escape_char c) = false) by (destruct c as [[] [] [] [] [] [] [] []]; reflexivity).
  assert (existsb (ceqb NL) (c_escape_char c) = true) by (apply existsb_exists; exists NL; split; auto; apply ceqb_refl).
  congruence.
Qed.
Lemma quoted_no_nl s : ~ In NL (quoted s).
Proof.
  unfold quoted. intros [H|H]; [discriminate|]. apply in_app_iff in H. destruct H as [H|[H|[]]]; [|discriminate].
  now apply escape_no_nl in H.
Qed.
Lemma separated_no_nl sep l : ~ In NL sep -> (forall x, In x l -> ~ In NL x) -> ~ In NL (separated sep l).
Proof.
  intros Hs. induction l as [|a l IH]; intros H; [intros []|]. destruct l as [|b l]; [apply H; now left|].
  change (separated sep (a :: b :: l)) with (a ++ sep ++ separated sep (b :: l)).
  rewrite !in_app_iff. intros [G|[G|G]]; [apply (H a); auto; now left|auto|].
  apply IH; auto. intros x Hx. apply H. now right.
Qed.
Lemma ret_inj {A} (a b : A) : Ret a = Ret b -> a = b.
Proof. congruence. Qed.
Lemma json_cells_no_nl headers row : forall c t, json_cells headers c row = Ret t -> ~ In NL t.
Proof.
  induction row as [|cell row IH]; intros c t H; cbn [json_cells] in H.
  - apply ret_inj in H. subst t. intros [].
  - destruct (json_header headers c) as [h| |] eqn:Eh; try discriminate. cbn [bind] in H.
    destruct (json_cells headers (S c) row) as [r| |] eqn:Er; try discriminate. cbn [bind] in H. apply ret_inj in H. subst t.
    unfold json_header in Eh. destruct (header_at headers c); try discriminate. cbn [bind] in Eh. apply ret_inj in Eh. subst h.
    specialize (IH _ _ Er). rewrite !in_app_iff. intros [G|[[G|G]|[G|G]]]; auto.
    + destruct (c =? 0); cbn in G; intuition discriminate.
    + now apply quoted_no_nl in G.
    + cbn in G. intuition discriminate.
    + now apply quoted_no_nl in G.
Qed.
Lemma json_op_no_nl headers op line : json_op headers op = Ret (line ++ [NL]) -> ~ In NL line.
Proof.
  intros H. destruct op as [row|pre reps]; cbn [json_op] in H.
  - destruct (json_cells headers 0 row) as [t| |] eqn:E; try discriminate. cbn [bind] in H. apply ret_inj in H.
    assert (E2 : "{"%char :: t ++ ["}"%char; NL] = ("{"%char :: t ++ ["}"%char]) ++ [NL]) by (cbn; now rewrite <- app_assoc).
    rewrite E2 in H. apply app_inj_tail in H. destruct H as [<- _]. intros [G|G]; [discriminate|].
    apply in_app_iff in G. destruct G as [G|[G|[]]]; [|discriminate]. eapply json_cells_no_nl; eauto.
  - destruct (json_cells headers 0 pre) as [t| |] eqn:E; try discriminate. cbn [bind] in H.
    destruct (json_header headers (length pre)) as [h| |] eqn:Eh; try discriminate. cbn [bind] in H. apply ret_inj in H.
    unfold json_header in Eh. destruct (header_at headers (length pre)); try discriminate. cbn [bind] in Eh. apply ret_inj in Eh. subst h.
    set (sp := separated _ _) in H.
    set (sepc := if length pre =? 0 then [] else _) in H.
    assert (E2 : "{"%char :: t ++ sepc ++ (quoted a ++ $": ") ++ "["%char :: sp ++ ["]"%char; "}"%char; NL]
      = ("{"%char :: t ++ sepc ++ (quoted a ++ $": ") ++ "["%char :: sp ++ ["]"%char; "}"%char]) ++ [NL]).
    { cbn. f_equal. repeat (rewrite <- !app_assoc; cbn). reflexivity. }
    rewrite E2 in H. apply app_inj_tail in H. destruct H as [<- _]. subst sepc.
    apply json_cells_no_nl in E. rewrite <- !app_assoc.
    intros [G|G]; [discriminate|]. rewrite !in_app_iff in G. destruct G as [G|[G|[G|[G|G]]]]; auto.
    + destruct (length pre =? 0); cbn in G; intuition discriminate.
    + now apply quoted_no_nl in G.
    + cbn in G. intuition discriminate.
    + destruct G as [G|G]; [discriminate|]. rewrite in_app_iff in G. destruct G as [G|G]; [|cbn in G; intuition discriminate].
      revert G. apply separated_no_nl; [cbn; intuition discriminate|].
      intros x Hx. apply in_map_iff in Hx. destruct Hx as (v & <- & _). apply quoted_no_nl.
Qed.
Lemma json_print_read headers ops : (forall op, In op ops -> entry_columns (entry_of op) <= length headers) ->
  exists lines, table_print FmtJson headers ops = Ret (flat_map (fun l => l ++ [NL]) lines) /\
    Forall2 (fun op line => ~ In NL line /\
               read_json line = if op_safe headers op then Some (entry_json headers (entry_of op)) else None) ops lines.
Proof.
  cbn [table_print]. induction ops as [|op ops IH]; intros Hc; cbn [json_print].
  - exists []. split; [reflexivity|constructor].
  - destruct IH as (lines & E & F); [intros o Ho; apply Hc; now right|].
    destruct (json_op_reads headers op (Hc op (or_introl eq_refl))) as (line & El & R).
    rewrite El, E. cbn [bind]. exists (line :: lines). split; [reflexivity|]. constructor; auto.
    split; [eapply json_op_no_nl; eauto|]. now apply jreads_json.
Qed.

(** * Aligned columns *)
Lemma update_widths_length ws : forall row, length (update_widths ws row) = length ws.
Proof.
  induction ws as [|w ws IH]; intros row; [reflexivity|].
  destruct ws as [|w2 ws]; [reflexivity|]. destruct row as [|c row]; [reflexivity|].
  cbn [update_widths length]. f_equal. apply IH.
Qed.
Lemma update_widths_nth ws : forall row i, length row = length ws ->
  nth i (update_widths ws row) 0 = if S i <? length ws then Nat.max (nth i ws 0) (length (nth i row [])) else nth i ws 0.
Proof.
  induction ws as [|w ws IH]; intros row i Hl; [destruct i; reflexivity|].
  destruct ws as [|w2 ws].
  - destruct i; [reflexivity|]. reflexivity.
  - destruct row as [|c row]; [discriminate|]. injection Hl as Hl.
    change (update_widths (w :: w2 :: ws) (c :: row)) with (Nat.max w (length c) :: update_widths (w2 :: ws) row).
    destruct i as [|i]; [reflexivity|].
    change (nth (S i) (Nat.max w (length c) :: update_widths (w2 :: ws) row) 0) with (nth i (update_widths (w2 :: ws) row) 0).
    rewrite IH by exact Hl. reflexivity.
Qed.
(** The widths for some rows. *)
Definition widths_of (n : nat) (rows : list (list str)) (ws : list nat) : Prop :=
  length ws = n /\ forall i, nth i ws 0 = if S i <? n then column_width rows i else 0.
Lemma column_width_snoc rows row i : column_width (rows ++ [row]) i = Nat.max (column_width rows i) (length (nth i row [])).
Proof. unfold column_width. rewrite map_app, list_max_app. f_equal. cbn [map list_max fold_right]. apply Nat.max_0_r. Qed.
Lemma aligned_add_rows_ok n rows : forall ws buf, 0 < n -> widths_of n buf ws ->
  (forall r, In r rows -> length r = n) ->
  exists ws', aligned_add_rows rows (ws, buf) = Ret (ws', buf ++ rows) /\ widths_of n (buf ++ rows) ws'.
Proof.
  induction rows as [|row rows IH]; intros ws buf Hn Hw Hr; cbn [aligned_add_rows].
  - exists ws. rewrite app_nil_r. auto.
  - unfold aligned_add_row. destruct Hw as [Hl Hw]. rewrite (Hr row (or_introl eq_refl)), Hl, Nat.eqb_refl. cbn [negb].
    destruct (Nat.eqb_spec n 0); [lia|]. cbn [bind].
    destruct (IH (update_widths ws row) (buf ++ [row])) as (ws' & E & W); auto.
    + split; [now rewrite update_widths_length|]. intros i.
      rewrite update_widths_nth by (rewrite Hl; apply Hr; now left). rewrite Hl, Hw, column_width_snoc.
      destruct (S i <? n); reflexivity.
    + intros r H. apply Hr. now right.
    + exists ws'. rewrite <- app_assoc in E, W. auto.
Qed.
Lemma aligned_ops_ok n ops : forall ws buf, 0 < n -> widths_of n buf ws ->
  (forall op, In op ops -> entry_columns (entry_of op) = n) ->
  exists ws', aligned_ops ops (ws, buf) = Ret (ws', buf ++ flat_map (fun op => entry_rows (entry_of op)) ops)
    /\ widths_of n (buf ++ flat_map (fun op => entry_rows (entry_of op)) ops) ws'.
Proof.
  induction ops as [|op ops IH]; intros ws buf Hn Hw Ho; cbn [aligned_ops flat_map].
  - exists ws. rewrite app_nil_r. auto.
  - assert (Hop := Ho op (or_introl eq_refl)).
    assert (G : exists ws', aligned_op op (ws, buf) = Ret (ws', buf ++ entry_rows (entry_of op)) /\ widths_of n (buf ++ entry_rows (entry_of op)) ws').
    { destruct op as [row|pre reps]; cbn [aligned_op entry_of entry_rows entry_columns] in *.
      - destruct (aligned_add_rows_ok n [row] ws buf) as (ws' & E & W); auto; [intros r [<-|[]]; auto|].
        cbn [aligned_add_rows] in E. destruct (aligned_add_row row (ws, buf)) as [p| |]; cbn in E; try discriminate. eauto.
      - destruct Hw as [Hl Hw]. cbn [fst]. rewrite Hl, Hop, Nat.eqb_refl. cbn [negb].
        apply aligned_add_rows_ok; auto; [split; auto|]. unfold denormalize. intros r H. apply in_map_iff in H.
        destruct H as (v & <- & _). rewrite app_length. cbn. lia. }
    destruct G as (ws1 & E1 & W1). rewrite E1. cbn [bind].
    destruct (IH ws1 _ Hn W1) as (ws2 & E2 & W2); [intros o H; apply Ho; now right|].
    exists ws2. rewrite <- app_assoc in E2, W2. auto.
Qed.
Lemma aligned_op_bad n op ws buf : length ws = n -> entry_columns (entry_of op) <> n -> aligned_op op (ws, buf) = UB.
Proof.
  intros Hl H. destruct op as [row|pre reps]; cbn [aligned_op entry_of entry_columns aligned_add_row fst] in *.
  - destruct (Nat.eqb_spec (length row) (length ws)); [lia|reflexivity].
  - rewrite Hl. destruct (Nat.eqb_spec (S (length pre)) n); [lia|reflexivity].
Qed.

(** Where the cells of one line are. *)
Fixpoint start (ws : list nat) (i : nat) : nat :=
  match i with 0 => 0 | S i => start ws i + nth i ws 0 + 1 end.
Lemma start_cons w ws i : start (w :: ws) (S i) = w + 1 + start ws i.
Proof. induction i as [|i IH]; cbn [start nth] in *; lia. Qed.
Lemma line_cells row : forall ws i c, length row = length ws ->
  (forall j, S j < length ws -> length (nth j row []) <= nth j ws 0) -> nth (length ws - 1) ws 0 = 0 ->
  nth_error row i = Some c ->
  exists before after, aligned_line ws row = before ++ c ++ after /\ length before = start ws i /\
    (if S i <? length ws then exists k rest, after = repeat " "%char (S k) ++ rest /\ start ws i + length c + S k = start ws (S i)
     else after = if is_nil c then [" "%char] else []).
Proof.
  induction row as [|cell row IH]; intros ws i c Hl Hw Hz Hi; [destruct i; discriminate|].
  destruct ws as [|w ws]; [discriminate|]. injection Hl as Hl. cbn [aligned_line].
  destruct i as [|i].
  - injection Hi as <-. exists []. unfold pad_cell. rewrite <- app_assoc. cbn [app].
    eexists. split; [reflexivity|]. split; [reflexivity|]. cbn [length].
    destruct ws as [|w2 ws].
    + destruct row; [|discriminate]. cbn in Hz. subst w. cbn. destruct cell; reflexivity.
    + replace (1 <? S (length (w2 :: ws))) with true by (symmetry; apply Nat.ltb_lt; cbn; lia).
      specialize (Hw 0). cbn [length nth] in Hw. exists (w - length cell). eexists. split.
      * replace (w + 1 - length cell) with (S (w - length cell)) by lia. reflexivity.
      * cbn. lia.
  - assert (Hne : ws <> []) by (intros ->; destruct row; [destruct i; discriminate|discriminate]).
    assert (Hz' : nth (length ws - 1) ws 0 = 0).
    { destruct ws as [|w2 ws]; [congruence|]. cbn [length] in *.
      replace (S (S (length ws)) - 1) with (S (length ws)) in Hz by lia. cbn [nth] in Hz.
      replace (S (length ws) - 1) with (length ws) by lia. exact Hz. }
    destruct (IH ws i c) as (before & after & E & Lb & K); auto.
    { intros j Hj. specialize (Hw (S j)). cbn [length nth] in Hw. apply Hw. lia. }
    assert (Hc : length cell <= w).
    { specialize (Hw 0). cbn [length nth] in Hw. apply Hw. destruct ws; [congruence|]. cbn. lia. }
    exists (pad_cell w cell ++ before), after. rewrite E, <- app_assoc. split; [reflexivity|].
    rewrite !start_cons. split.
    + rewrite app_length, Lb. unfold pad_cell. rewrite app_length, repeat_length. lia.
    + cbn [length]. change (S (S i) <? S (length ws)) with (S i <? length ws). destruct (S i <? length ws); auto.
      destruct K as (k & rest & -> & Ek). exists k, rest. split; auto. lia.
Qed.
Lemma start_column n rows ws i : widths_of n rows ws -> i < n -> start ws i = column_start rows i.
Proof.
  intros [Hl Hw]. induction i as [|i IH]; intros Hi; [reflexivity|]. cbn [start column_start].
  rewrite IH by lia. rewrite Hw. destruct (Nat.ltb_spec (S i) n); lia.
Qed.
Lemma column_width_ge rows row i : In row rows -> length (nth i row []) <= column_width rows i.
Proof.
  intros H. unfold column_width.
  assert (G := proj1 (list_max_le (map (fun row => length (nth i row [])) rows) _) (Nat.le_refl _)).
  rewrite Forall_forall in G. apply G. apply in_map_iff. eauto.
Qed.
Lemma aligned_print_ok format headers ops : format = FmtNative \/ format = FmtGraphviz ->
  headers <> [] -> (forall op, In op ops -> entry_columns (entry_of op) = length headers) ->
  let rows := flat_map (fun op => entry_rows (entry_of op)) ops in
  exists lines, table_print format headers ops = Ret (flat_map (fun l => l ++ [NL]) lines) /\
    Forall2 (aligned_row rows) rows lines.
Proof.
  intros Hf Hh Ho rows. set (n := length headers) in *.
  assert (Hn : 0 < n) by (destruct headers; [congruence|cbn; lia]).
  assert (E : table_print format headers ops = aligned_print headers ops) by (destruct Hf as [->| ->]; reflexivity).
  rewrite E. unfold aligned_print. fold n.
  assert (W0 : widths_of n [] (repeat 0 n)).
  { split; [apply repeat_length|]. intros i. rewrite nth_repeat. destruct (S i <? n); reflexivity. }
  destruct (aligned_ops_ok n ops (repeat 0 n) [] Hn W0 Ho) as (ws & E2 & W). rewrite E2. cbn [bind app] in *.
  fold rows in W |- *. exists (map (aligned_line ws) rows). split.
  - unfold aligned_finish. cbn [fst snd]. f_equal. clear. induction rows as [|r rs IH]; cbn; auto. now rewrite IH.
  - assert (Hl : forall r, In r rows -> length r = n).
    { intros r Hr. apply in_flat_map in Hr. destruct Hr as (op & H1 & H2). rewrite <- (Ho op H1).
      destruct op; cbn in *; [destruct H2 as [<-|[]]; auto|].
      apply in_map_iff in H2. destruct H2 as (v & <- & _). rewrite app_length. cbn. lia. }
    assert (G : forall r, In r rows -> aligned_row rows r (aligned_line ws r)).
    { intros r Hr i c Hi. assert (W' := W). destruct W' as [Lw Hw].
      destruct (line_cells r ws i c) as (before & after & El & Lb & K).
      - rewrite Lw. auto.
      - intros j Hj. rewrite Hw. rewrite Lw in Hj. destruct (Nat.ltb_spec (S j) n); [|lia]. now apply column_width_ge.
      - rewrite Hw, Lw. destruct (Nat.ltb_spec (S (n - 1)) n); [lia|auto].
      - auto.
      - assert (Hin : i < n) by (rewrite <- (Hl r Hr); apply nth_error_Some; congruence).
        exists before, after. split; [exact El|]. split; [rewrite Lb; eapply start_column; eauto|].
        rewrite Lw in K. rewrite (Hl r Hr). split; intros H.
        + destruct (Nat.ltb_spec (S i) n); [|lia]. destruct K as (k & rest & -> & Ek). exists k, rest. split; auto.
          rewrite <- !(start_column n rows ws) by (auto; lia). exact Ek.
        + destruct (Nat.ltb_spec (S i) n); [lia|]. exact K. }
    assert (F : forall rs, (forall r, In r rs -> In r rows) -> Forall2 (aligned_row rows) rs (map (aligned_line ws) rs)).
    { induction rs as [|r rs IH]; intros H; constructor; [apply G, H; now left|].
      apply IH. intros x Hx. apply H. now right. }
    apply F. auto.
Qed.
Lemma aligned_print_bad format headers ops op : format = FmtNative \/ format = FmtGraphviz ->
  In op ops -> entry_columns (entry_of op) <> length headers -> table_print format headers ops = UB.
Proof.
  intros Hf Hin Hb.
  assert (E : table_print format headers ops = aligned_print headers ops) by (destruct Hf as [->| ->]; reflexivity).
  rewrite E. unfold aligned_print. clear E Hf.
  assert (G : forall ops ws buf, length ws = length headers -> In op ops -> aligned_ops ops (ws, buf) = UB).
  { clear ops Hin. induction ops as [|o ops IH]; intros ws buf Hl Hin; [destruct Hin|].
    cbn [aligned_ops]. destruct (Nat.eq_dec (entry_columns (entry_of o)) (length headers)) as [He|He].
    - destruct Hin as [->|Hin]; [congruence|].
      assert (R : forall rows ws buf, length ws = length headers -> forall st, aligned_add_rows rows (ws, buf) = Ret st -> length (fst st) = length headers).
      { clear. induction rows as [|r rows IH]; intros ws buf Hl st H; cbn [aligned_add_rows] in H.
        - injection H as <-. exact Hl.
        - unfold aligned_add_row in H. destruct (negb _); [discriminate|]. destruct (length ws =? 0); [discriminate|].
          cbn [bind] in H. eapply IH in H; auto. now rewrite update_widths_length. }
      assert (N : forall rows ws buf, aligned_add_rows rows (ws, buf) <> OutOfFuel).
      { clear. induction rows as [|r rows IH]; intros ws buf; cbn [aligned_add_rows]; [discriminate|].
        unfold aligned_add_row. destruct (negb _); [discriminate|]. destruct (length ws =? 0); [discriminate|]. apply IH. }
      assert (O : aligned_op o (ws, buf) = UB \/ exists st, aligned_op o (ws, buf) = Ret st /\ length (fst st) = length headers).
      { destruct o as [row|pre reps]; cbn [aligned_op].
        - specialize (R [row] ws buf Hl). specialize (N [row] ws buf). cbn [aligned_add_rows] in R, N.
          destruct (aligned_add_row row (ws, buf)) as [st| |]; cbn in *; [right; eauto|auto|congruence].
        - destruct (negb _); [auto|]. specialize (R (denormalize pre reps) ws buf Hl). specialize (N (denormalize pre reps) ws buf).
          destruct (aligned_add_rows _ _) as [st| |]; [right; eauto|auto|congruence]. }
      destruct O as [->|([ws2 buf2] & -> & L)]; [reflexivity|]. cbn [bind]. apply IH; auto.
    - rewrite (aligned_op_bad (length headers)) by auto. reflexivity. }
  rewrite G; auto. apply repeat_length.
Qed.

(** The words of an aligned line. *)
Lemma words_nil_blank n : words (repeat " "%char n) = [].
Proof. unfold words. induction n as [|n IH]; [reflexivity|]. cbn [repeat split]. rewrite ceqb_refl. exact IH. Qed.
Lemma words_blank_cons s : words (" "%char :: s) = words s.
Proof. unfold words. cbn [split]. rewrite ceqb_refl. reflexivity. Qed.
Lemma words_cell c s : c <> [] -> ~ In " "%char c -> words (c ++ " "%char :: s) = c :: words s.
Proof.
  intros Hn Hb. unfold words.
  assert (E : split " " (c ++ " "%char :: s) = c :: split " " s).
  { clear Hn. induction c as [|x c IH]; cbn [app split].
    - now rewrite ceqb_refl.
    - destruct (ceqb_spec x " "); [subst; exfalso; apply Hb; now left|].
      rewrite IH by (intros H; apply Hb; now right). reflexivity. }
  rewrite E. destruct c; [congruence|reflexivity].
Qed.
Lemma words_last c : c <> [] -> ~ In " "%char c -> words c = [c].
Proof.
  intros Hn Hb. unfold words.
  assert (E : split " " c = [c]).
  { clear Hn. induction c as [|x c IH]; cbn [split]; [reflexivity|].
    destruct (ceqb_spec x " "); [subst; exfalso; apply Hb; now left|].
    rewrite IH by (intros H; apply Hb; now right). reflexivity. }
  rewrite E. destruct c; [congruence|reflexivity].
Qed.
Lemma words_blanks n s : words (repeat " "%char n ++ s) = words s.
Proof. induction n as [|n IH]; [reflexivity|]. cbn [repeat app]. rewrite words_blank_cons. exact IH. Qed.
Lemma aligned_line_words row : forall ws, length row = length ws ->
  (forall j, S j < length ws -> length (nth j row []) <= nth j ws 0) -> nth (length ws - 1) ws 0 = 0 ->
  (forall c, In c row -> c <> [] /\ ~ In " "%char c) ->
  words (aligned_line ws row) = row.
Proof.
  induction row as [|cell row IH]; intros ws Hl Hw Hz Hc; (destruct ws as [|w ws]; [try discriminate|]); [reflexivity|discriminate|].
  injection Hl as Hl. cbn [aligned_line]. destruct (Hc cell (or_introl eq_refl)) as [Hn Hb].
  destruct ws as [|w2 ws].
  - destruct row; [|discriminate]. cbn in Hz. subst w. cbn [aligned_line]. rewrite app_nil_r.
    unfold pad_cell. destruct cell as [|x cell]; [congruence|]. cbn [length plus Nat.sub repeat]. rewrite app_nil_r. now apply words_last.
  - unfold pad_cell. rewrite <- app_assoc. specialize (Hw 0) as H0. cbn [length nth] in H0.
    replace (w + 1 - length cell) with (S (w - length cell)) by lia. cbn [repeat app].
    rewrite words_cell, words_blanks by auto. f_equal. apply IH; auto.
    + intros j Hj. specialize (Hw (S j)). cbn [length nth] in *. apply Hw. lia.
    + cbn [length] in *. replace (S (S (length ws)) - 1) with (S (length ws)) in Hz by lia. cbn [nth] in Hz.
      replace (S (length ws) - 1) with (length ws) by lia. exact Hz.
    + intros c H. apply Hc. now right.
Qed.
Lemma aligned_print_words format headers ops : format = FmtNative \/ format = FmtGraphviz ->
  headers <> [] -> (forall op, In op ops -> entry_columns (entry_of op) = length headers) ->
  let rows := flat_map (fun op => entry_rows (entry_of op)) ops in
  (forall row c, In row rows -> In c row -> c <> [] /\ ~ In " "%char c) ->
  exists lines, table_print format headers ops = Ret (flat_map (fun l => l ++ [NL]) lines) /\
    map words lines = rows.
Proof.
  intros Hf Hh Ho rows Hc. set (n := length headers) in *.
  assert (Hn : 0 < n) by (destruct headers; [congruence|cbn; lia]).
  assert (E : table_print format headers ops = aligned_print headers ops) by (destruct Hf as [->| ->]; reflexivity).
  rewrite E. unfold aligned_print. fold n.
  assert (W0 : widths_of n [] (repeat 0 n)).
  { split; [apply repeat_length|]. intros i. rewrite nth_repeat. destruct (S i <? n); reflexivity. }
  destruct (aligned_ops_ok n ops (repeat 0 n) [] Hn W0 Ho) as (ws & E2 & W). rewrite E2. cbn [bind app] in *.
  fold rows in W |- *. exists (map (aligned_line ws) rows). split.
  - unfold aligned_finish. cbn [fst snd]. f_equal. clear. induction rows as [|r rs IH]; cbn; auto. now rewrite IH.
  - assert (Hl : forall r, In r rows -> length r = n).
    { intros r Hr. apply in_flat_map in Hr. destruct Hr as (op & H1 & H2). rewrite <- (Ho op H1).
      destruct op; cbn in *; [destruct H2 as [<-|[]]; auto|].
      apply in_map_iff in H2. destruct H2 as (v & <- & _). rewrite app_length. cbn. lia. }
    assert (W' := W). destruct W' as [Lw Hw].
    rewrite map_map. rewrite <- (map_id rows) at 2. apply map_ext_in. intros r Hr. apply aligned_line_words.
    + rewrite Lw. auto.
    + intros j Hj. rewrite Hw. rewrite Lw in Hj. destruct (Nat.ltb_spec (S j) n); [|lia]. now apply column_width_ge.
    + rewrite Hw, Lw. destruct (Nat.ltb_spec (S (n - 1)) n); [lia|auto].
    + intros c. now apply Hc.
Qed.

(** Repeated values in S-expressions are below each other. *)
Lemma quoted_length s : length (quoted s) = length (c_escape s) + 2.
Proof. unfold quoted. cbn [length]. rewrite app_length. cbn. lia. Qed.
Lemma sexpr_cells_indent as_plist headers row : forall c t, sexpr_cells as_plist headers c row = Ret t ->
  prefix_indent as_plist headers c row = Ret (length t).
Proof.
  induction row as [|cell row IH]; intros c t H; cbn [sexpr_cells prefix_indent] in *.
  - injection H as <-. reflexivity.
  - destruct (plist_header as_plist headers c) as [h| |] eqn:Eh; try discriminate. cbn [bind] in H.
    destruct (sexpr_cells as_plist headers (S c) row) as [r| |] eqn:Er; try discriminate. cbn [bind] in H.
    apply ret_inj in H. subst t. rewrite (IH _ _ Er). unfold plist_header in Eh.
    assert (G : (if as_plist then do h <- header_at headers c; Ret (length h + 2) else Ret 0) = Ret (length h)).
    { destruct as_plist.
      - destruct (header_at headers c) as [x| |]; cbn [bind] in *; try discriminate. apply ret_inj in Eh. subst h.
        cbn [length]. rewrite app_length. cbn. f_equal. lia.
      - apply ret_inj in Eh. subst h. reflexivity. }
    rewrite G. cbn [bind]. f_equal. rewrite !app_length, quoted_length. destruct (c =? 0); cbn; lia.
Qed.
Lemma sexpr_cells_no_nl as_plist (headers row : list str) : (as_plist = true -> Forall (fun h : str => ~ In NL h) headers) ->
  forall c t, sexpr_cells as_plist headers c row = Ret t -> ~ In NL t.
Proof.
  intros Hh. induction row as [|cell row IH]; intros c t H; cbn [sexpr_cells] in H.
  - injection H as <-. intros [].
  - destruct (plist_header as_plist headers c) as [h| |] eqn:Eh; try discriminate. cbn [bind] in H.
    destruct (sexpr_cells as_plist headers (S c) row) as [r| |] eqn:Er; try discriminate. cbn [bind] in H.
    apply ret_inj in H. subst t. specialize (IH _ _ Er). rewrite !in_app_iff. intros [G|[G|[G|G]]]; auto.
    + destruct (c =? 0); cbn in G; intuition discriminate.
    + unfold plist_header, header_at in Eh. destruct as_plist; [|apply ret_inj in Eh; subst h; destruct G].
      destruct (nth_error headers c) as [x|] eqn:E; cbn [bind] in Eh; try discriminate. apply ret_inj in Eh. subst h.
      destruct G as [G|G]; [discriminate|]. apply in_app_iff in G. destruct G as [G|[G|[]]]; [|discriminate].
      specialize (Hh eq_refl). rewrite Forall_forall in Hh. apply (Hh x); auto. eapply nth_error_In; eauto.
    + now apply quoted_no_nl in G.
Qed.
Lemma repeated_flat indent v vs :
  repeated_cells indent (v :: vs) = quoted v ++ flat_map (fun v => NL :: repeat " "%char indent ++ quoted v) vs.
Proof.
  unfold repeated_cells. revert v. induction vs as [|w vs IH]; intros v.
  - cbn [map separated flat_map]. now rewrite app_nil_r.
  - change (separated (NL :: repeat " "%char indent) (map quoted (v :: w :: vs)))
      with (quoted v ++ (NL :: repeat " "%char indent) ++ separated (NL :: repeat " "%char indent) (map quoted (w :: vs))).
    rewrite IH. cbn [flat_map app]. f_equal. f_equal. now rewrite <- app_assoc.
Qed.
Lemma sexpr_alignment as_plist (headers : list str) printed pre v vs t :
  (as_plist = true -> Forall (fun h : str => ~ In NL h) headers) -> pre <> [] ->
  sexpr_op as_plist headers printed (AddRowWithRepeatedLastColumn pre (v :: vs)) = Ret t ->
  exists first, ~ In NL first /\
    (if printed then t else NL :: "("%char :: t)
    = NL :: first ++ quoted v ++ flat_map (fun v => NL :: repeat " "%char (length first) ++ quoted v) vs ++ $"))".
Proof.
  intros Hh Hp H. cbn [sexpr_op] in H.
  destruct (sexpr_cells as_plist headers 0 pre) as [cells| |] eqn:Ec; try discriminate. cbn [bind] in H.
  rewrite (sexpr_cells_indent _ _ _ _ _ Ec) in H. cbn [bind] in H.
  destruct (plist_header as_plist headers (length pre)) as [h| |] eqn:Eh; try discriminate. cbn [bind] in H.
  assert (G : (if as_plist then do h <- header_at headers (length pre); Ret (length h + 2) else Ret 0) = Ret (length h) /\ ~ In NL h).
  { unfold plist_header, header_at in *. destruct as_plist.
    - destruct (nth_error headers (length pre)) as [x|] eqn:E; cbn [bind] in *; try discriminate. apply ret_inj in Eh. subst h.
      split; [cbn [length]; rewrite app_length; cbn; f_equal; lia|].
      intros [G|G]; [discriminate|]. apply in_app_iff in G. destruct G as [G|[G|[]]]; [|discriminate].
      specialize (Hh eq_refl). rewrite Forall_forall in Hh. apply (Hh x); auto. eapply nth_error_In; eauto.
    - apply ret_inj in Eh. subst h. split; auto. }
  destruct G as [G Hnl]. rewrite G in H. cbn [bind] in H. apply ret_inj in H. subst t.
  destruct (Nat.eqb_spec (length pre) 0) as [E|_]; [destruct pre; [congruence|discriminate]|].
  set (first := (if printed then [" "%char] else ["("%char]) ++ "("%char :: cells ++ [" "%char] ++ h ++ ["("%char]).
  exists first. split.
  - subst first. rewrite in_app_iff. intros [K|K]; [destruct printed; cbn in K; intuition discriminate|].
    destruct K as [K|K]; [discriminate|]. rewrite !in_app_iff in K. destruct K as [K|[K|[K|K]]]; auto.
    + revert K. eapply sexpr_cells_no_nl; eauto.
    + cbn in K. intuition discriminate.
    + cbn in K. intuition discriminate.
  - assert (L : length first = length cells + 1 + length h + 3).
    { subst first. rewrite app_length. cbn [length]. rewrite !app_length. cbn [length]. destruct printed; cbn; lia. }
    rewrite <- L, repeated_flat. subst first. destruct printed; cbn; repeat (rewrite <- !app_assoc; cbn); reflexivity.
Qed.

Lemma json_read headers ops : (forall op, In op ops -> entry_columns (entry_of op) <= length headers) ->
  exists lines, table_print FmtJson headers ops = Ret (flat_map (fun l => l ++ [NL]) lines) /\
    Forall2 (fun op line => let e := entry_of op in
       ~ In NL line /\
       ((forall s, In s (firstn (entry_columns e) headers ++ entry_cells e) -> json_safe s) ->
        read_json line = Some (entry_json headers e)) /\
       ((exists s, In s (firstn (entry_columns e) headers ++ entry_cells e) /\ ~ json_safe s) ->
        read_json line = None)) ops lines.
Proof.
  intros H. destruct (json_print_read headers ops H) as (lines & E & F). exists lines. split; auto.
  clear - F. induction F as [|op line ops lines [H1 H2] F IH]; constructor; auto. cbv zeta. split; auto.
  unfold op_safe, op_headers in H2. rewrite H2. split.
  - intros A. assert (G : forallb safe (firstn (entry_columns (entry_of op)) headers ++ entry_cells (entry_of op)) = true).
    { apply forallb_forall. intros x Hx. apply safe_spec. auto. }
    now rewrite G.
  - intros (s & Hs & Hn). destruct (forallb safe _) eqn:G; auto. rewrite forallb_forall in G.
    exfalso. apply Hn, safe_spec. auto.
Qed.
