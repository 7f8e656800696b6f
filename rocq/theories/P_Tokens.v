(** Proofs about the kinds of tokens. *)
From Verif Require Import Base M_Scanner S_Scanner P_Scanner S_Tokens.

Definition token_ok (ty : toktype) (k : nat) (s : str) : Prop :=
  kind_text ty (firstn k s) (nth_error s k) /\ operator_whole (firstn k s) (nth_error s k).

Lemma fixed_intro s ty (w : string) : In (w, ty) fixed_words -> s = $w -> fixed s ty.
Proof. unfold fixed. eauto. Qed.
Ltac in_table := cbn [In fixed_words]; repeat first [left; reflexivity | right]; fail.

Lemma fixed_words_first s ty c r : fixed s ty -> s = c :: r -> is_digit c = false /\ c <> DQ /\ c <> SQ.
Proof.
  intros (w & I & ->) E. cbn [In fixed_words] in I.
  repeat (destruct I as [I|I]; [injection I as <- <-; injection E as <- _; repeat split; discriminate|]).
  destruct I.
Qed.

Lemma scan_number_count f s : forall dot ok n, scan_number f s dot = (ok, n) ->
  (forall c, In c (firstn n s) -> f c = true \/ c = "."%char) /\
  count_char "." (firstn n s) + (if dot then 1 else 0) <= 1 /\
  (if ok then forall c, nth_error s n = Some c -> ~ (f c = true \/ c = "."%char)
   else nth_error s n = Some "."%char).
Proof.
  induction s as [|c s IH]; intros dot ok n E; cbn [scan_number] in E.
  - injection E as <- <-. cbn. split; [tauto|]. split; [destruct dot; lia|]. discriminate.
  - destruct (f c || ceqb c ".") eqn:F.
    + destruct (ceqb c "." && dot) eqn:D.
      * injection E as <- <-. apply andb_true_iff in D. destruct D as [D ->]. apply ceqb_eq in D. subst.
        cbn. split; [tauto|]. split; auto.
      * destruct (scan_number f s (dot || ceqb c ".")) as [ok' n'] eqn:R. injection E as <- <-.
        destruct (IH _ _ _ R) as (A & B & C). cbn [firstn nth_error]. split; [|split].
        -- intros d [<-|Hd]; auto. apply orb_true_iff in F. destruct F as [F|F]; auto. right. apply ceqb_eq; auto.
        -- cbn [count_char]. destruct (ceqb c "."); cbn in *; destruct dot; cbn in *; try lia; discriminate.
        -- destruct ok'; auto.
    + injection E as <- <-. cbn. split; [tauto|]. split; [destruct dot; lia|].
      intros d Hd. injection Hd as <-. apply orb_false_iff in F. destruct F as [F1 F2].
      intros [G|G]; [congruence|]. subst. discriminate.
Qed.
Lemma operator_digit c r nx : is_digit c = true -> operator_whole (c :: r) nx.
Proof.
  intros D [E|[E|[E|[E|[]]]]]; injection E as <- _; discriminate.
Qed.
Lemma firstn_add {A} a b (l : list A) : firstn (a + b) l = firstn a l ++ firstn b (skipn a l).
Proof. revert l. induction a as [|a IH]; intros [|x l]; cbn; auto. - rewrite firstn_nil; auto. - f_equal. apply IH. Qed.
Lemma nth_error_skipn {A} a b (l : list A) : nth_error l (a + b) = nth_error (skipn a l) b.
Proof. revert l. induction a as [|a IH]; intros [|x l]; cbn; auto. destruct b; auto. Qed.

Lemma number_ok c s ty k p : is_digit c = true -> handle_number (c :: s) = (ty, k, p) -> token_ok ty k (c :: s).
Proof.
  intros D. unfold handle_number.
  assert (G : forall f skip pre hex, 1 <= skip -> firstn skip (c :: s) = pre ->
    (if hex : bool then pre = $"0x" else pre = $"0o" \/ exists c, is_digit c = true /\ pre = [c]) ->
    (forall c, f c = if hex then is_xdigit c else is_digit c) ->
    (let '(ok, n) := scan_number f (skipn skip (c :: s)) false in
     (if ok then TNumberLiteral else TError, skip + n, [])) = (ty, k, p) -> token_ok ty k (c :: s)).
  { intros f skip pre hex Hs Hpre Hh Hf E. destruct (scan_number f _ false) as [ok n] eqn:R.
    injection E as <- <- _. apply scan_number_count in R. destruct R as (A & B & C).
    assert (Fst : exists r, firstn (skip + n) (c :: s) = c :: r) by (destruct skip; [lia|cbn; eauto]).
    split; [|destruct Fst as [r ->]; apply operator_digit; auto].
    rewrite nth_error_skipn. destruct ok; cbn [kind_text].
    - exists pre, (firstn n (skipn skip (c :: s))), hex. rewrite firstn_add, Hpre. split; auto. split; auto.
      cbv zeta. split; [|split; [lia|]].
      + intros d Hd. rewrite <- Hf. auto.
      + intros d Hd. rewrite <- Hf. auto.
    - right; left. destruct Fst as [r Fst]. exists c, r. auto. }
  destruct s as [|d s].
  - apply (G is_digit 1 [c] false); auto. right. eauto.
  - destruct (ceqb_spec c "0") as [->|N]; [|apply (G is_digit 1 [c] false); auto; right; eauto].
    destruct (ceqb_spec d "x") as [->|N1]; [apply (G is_xdigit 2 ($"0x") true); auto|].
    destruct (ceqb_spec d "o") as [->|N2]; [apply (G is_digit 2 ($"0o") false); auto|].
    apply (G is_digit 1 ["0"%char] false); auto. right. eauto.
Qed.

Lemma string_ok s ty k p pos : starts_string s -> handle_string s pos = (ty, k, p) ->
  token_ok ty k s.
Proof.
  intros (q & r & Hq & Hs) E.
  assert (K : (ty = TStringLiteral \/ ty = TError) /\
    1 <= k /\ (forall c, s = c :: q :: r -> (c = "r"%char \/ c = "R"%char) -> 2 <= k)).
  { unfold handle_string in E.
    set (prefix := match s with c :: _ => if ceqb c "r" || ceqb c "R" then 1 else 0 | [] => 0 end) in *.
    assert (Hp : (s = q :: r /\ prefix = 0) \/ (exists c, s = c :: q :: r /\ prefix = 1)).
    { destruct Hs as [->|(c & Hc & ->)].
      - left. split; auto. unfold prefix. destruct Hq; subst q; reflexivity.
      - right. exists c. split; auto. unfold prefix. destruct Hc; subst c; reflexivity. }
    destruct (skipn prefix s) as [|q' body] eqn:Sk.
    { exfalso. destruct Hp as [[-> ->]|(c & -> & ->)]; discriminate. }
    destruct (scan_string _ _ _ _ _ _) as [[closed n] p'].
    assert (P : forall c, s = c :: q :: r -> (c = "r"%char \/ c = "R"%char) -> prefix = 1).
    { intros c -> [->| ->]; reflexivity. }
    destruct closed; injection E as <- <- _; repeat split; auto;
      try (intros c Es Hc; rewrite (P c Es Hc)); match goal with |- context [if ?b then 3 else 1] => destruct b end; lia. }
  destruct K as (T & K1 & K2).
  assert (Start : starts_string (firstn k s)).
  { destruct Hs as [->|(c & Hc & ->)].
    - destruct k; [lia|]. cbn [firstn]. exists q, (firstn k r). auto.
    - specialize (K2 c eq_refl Hc). destruct k as [|[|k]]; try lia. cbn [firstn]. exists q, (firstn k r). eauto. }
  split.
  - destruct T as [->| ->]; cbn [kind_text]; auto.
  - destruct Start as (q2 & r2 & Hq2 & Hs2). intros I _. revert I.
    destruct Hs2 as [->|(c & Hc & ->)]; cbn [In].
    + destruct Hq2; subst q2; intros [E2|[E2|[E2|[E2|[]]]]]; discriminate.
    + destruct Hc; subst c; intros [E2|[E2|[E2|[E2|[]]]]]; discriminate.
Qed.

Lemma word_not_operator c r nx : is_identifier_char c = true -> operator_whole (c :: r) nx.
Proof. intros D [E|[E|[E|[E|[]]]]]; injection E as <- _; discriminate. Qed.

Lemma identifier_ok c s ty k p pos : is_digit c = false ->
  (forall t, ~ fixed [c] t) -> ~ (c = DQ \/ c = SQ) ->
  handle_identifier (c :: s) pos = (ty, k, p) -> token_ok ty k (c :: s).
Proof.
  intros D Nf Nq. unfold handle_identifier.
  destruct ((2 <? length (c :: s)) && (ceqb c "r" || ceqb c "R") &&
            match s with d :: _ => ceqb d DQ || ceqb d SQ | [] => false end) eqn:Raw.
  - intros E. apply string_ok in E; auto.
    apply andb_true_iff in Raw as [Raw R3]. apply andb_true_iff in Raw as [_ R2].
    destruct s as [|d s]; [discriminate|]. exists d, s.
    apply orb_true_iff in R3. split; [destruct R3 as [R3|R3]; apply ceqb_eq in R3; auto|].
    right. exists c. split; auto.
    apply orb_true_iff in R2. destruct R2 as [R2|R2]; apply ceqb_eq in R2; auto.
  - destruct (negb (is_identifier_char c)) eqn:Ic.
    + intros E. injection E as <- <- _. split.
      * cbn [kind_text firstn]. right; right. exists c. split; auto. split; auto.
        intros I. apply identifier_char_word in I. rewrite I in Ic. discriminate.
      * intros I. exfalso. cbn [firstn In] in I.
        destruct I as [I|[I|[I|[I|[]]]]]; injection I as <-.
        -- apply (Nf TAssign). apply (fixed_intro _ _ "="); [in_table|reflexivity].
        -- apply (Nf TLessThan). apply (fixed_intro _ _ "<"); [in_table|reflexivity].
        -- apply (Nf TGreaterThan). apply (fixed_intro _ _ ">"); [in_table|reflexivity].
        -- apply (Nf TNot). apply (fixed_intro _ _ "!"); [in_table|reflexivity].
    + apply negb_false_iff in Ic. set (n := span_len is_identifier_char (c :: s)).
      assert (Hn : exists m, n = S m) by (unfold n; cbn [span_len]; rewrite Ic; eauto).
      assert (Op : forall k, 1 <= k -> operator_whole (firstn k (c :: s)) (nth_error (c :: s) k)).
      { intros [|k'] Hk; [lia|]. apply word_not_operator; auto. }
      assert (G : forall ty' w, In (w, ty') fixed_words ->
         (forall s nx, fixed s ty' -> kind_text ty' s nx) ->
         firstn n (c :: s) = $w -> (ty', n, @nil nat) = (ty, k, p) -> token_ok ty k (c :: s)).
      { intros ty' w I Kt Ew E. injection E as <- <- _. split; [|apply Op; destruct Hn; lia].
        apply Kt. unfold fixed. eauto. }
      destruct (str_eqb_spec (firstn n (c :: s)) ($"not")) as [E|N0].
      { destruct (consume_optional_in (skipn n (c :: s))) as [j|] eqn:Co.
        - intros E'. injection E' as <- <- _. split; [|apply Op; destruct Hn; lia].
          unfold consume_optional_in in Co.
          set (b := span_len is_space (skipn n (c :: s))) in *.
          destruct (starts_with ($"in") (skipn b (skipn n (c :: s)))) eqn:St; [|discriminate].
          injection Co as <-. exists (firstn b (skipn n (c :: s))). split.
          + intros d Hd. eapply span_len_all; exact Hd.
          + rewrite firstn_add, E. f_equal. rewrite firstn_add. f_equal.
            apply starts_with_iff in St. destruct St as [r ->]. reflexivity.
        - apply (G TNot "not"%string); auto; try in_table. }
      destruct (str_eqb_spec (firstn n (c :: s)) ($"in")) as [E|N1];
        [apply (G TIn "in"%string); auto; in_table|].
      destruct (str_eqb_spec (firstn n (c :: s)) ($"for")) as [E|N2];
        [apply (G TFor "for"%string); auto; in_table|].
      destruct (str_eqb_spec (firstn n (c :: s)) ($"and")) as [E|N3];
        [apply (G TAnd "and"%string); auto; in_table|].
      destruct (str_eqb_spec (firstn n (c :: s)) ($"or")) as [E|N4];
        [apply (G TOr "or"%string); auto; in_table|].
      destruct (str_eqb_spec (firstn n (c :: s)) ($"if")) as [E|N5];
        [apply (G TIf "if"%string); auto; in_table|].
      destruct (str_eqb_spec (firstn n (c :: s)) ($"else")) as [E|N6];
        [apply (G TElse "else"%string); auto; in_table|].
      intros E. injection E as <- <- _. split; [|apply Op; destruct Hn; lia].
      cbn [kind_text]. destruct Hn as [m Hm]. split; [rewrite Hm; discriminate|]. split; [|split].
      * intros d Hd. apply identifier_char_word. eapply span_len_all; exact Hd.
      * intros d r Ed. rewrite Hm in Ed. injection Ed as <- _. auto.
      * intros t (w & I & Ew). revert I Ew. cbn [In fixed_words].
        assert (Cw : is_identifier_char (hd " "%char (firstn n (c :: s))) = true) by (rewrite Hm; exact Ic).
        intros I Ew. rewrite Ew in Cw.
        repeat (destruct I as [I|I];
          [injection I as <- <-; first [discriminate Cw | contradiction]|]). destruct I.
Qed.

Lemma single_ok c s ty k p ty' w : In (w, ty') fixed_words -> [c] = $w ->
  (forall s nx, fixed s ty' -> kind_text ty' s nx) ->
  ~ In [c] [$"="; $"<"; $">"; $"!"] ->
  (ty', 1, @nil nat) = (ty, k, p) -> token_ok ty k (c :: s).
Proof.
  intros I E Kt No T. injection T as <- <- _. split; cbn [firstn].
  - apply Kt. unfold fixed. eauto.
  - intros X. contradiction.
Qed.
Lemma relational_ok c s ty k p t1 t2 w1 w2 :
  In (w1, t1) fixed_words -> In (w2, t2) fixed_words -> [c] = $w1 -> [c; "="%char] = $w2 ->
  (forall s nx, fixed s t1 -> kind_text t1 s nx) -> (forall s nx, fixed s t2 -> kind_text t2 s nx) ->
  handle_relational t1 t2 (c :: s) = (ty, k, p) -> token_ok ty k (c :: s).
Proof.
  intros I1 I2 E1 E2 K1 K2. unfold handle_relational. destruct s as [|d s].
  - intros T. injection T as <- <- _. split; cbn [firstn nth_error]; [|discriminate].
    apply K1. unfold fixed. eauto.
  - destruct (ceqb_spec d "=") as [->|N]; intros T; injection T as <- <- _; split; cbn [firstn nth_error].
    + apply K2. unfold fixed. eauto.
    + intros [X|[X|[X|[X|[]]]]]; discriminate.
    + apply K1. unfold fixed. eauto.
    + congruence.
Qed.

Lemma scan_token_ok c s pos ty k p : is_space c = false ->
  scan_token (c :: s) pos = (ty, k, p) -> token_ok ty k (c :: s).
Proof.
  intros Sp. unfold scan_token.
  Ltac one c s w := match goal with |- (if ceqb c ?x then (?t, 1, []) else _) = _ -> _ =>
    let E := fresh in destruct (ceqb_spec c x) as [E|?];
    [subst c; apply (single_ok x s _ _ _ t w); [in_table|reflexivity|auto|
       cbn [In]; intros [X|[X|[X|[X|[]]]]]; discriminate]|] end.
  one c s "("%string. one c s ")"%string. one c s "{"%string. one c s "}"%string.
  one c s "["%string. one c s "]"%string. one c s ","%string. one c s ":"%string.
  one c s "+"%string. one c s "-"%string. one c s "*"%string. one c s "/"%string.
  one c s "."%string. one c s "%"%string. one c s "|"%string.
  destruct (ceqb_spec c "!") as [E|N1];
    [subst c; apply (relational_ok "!" s ty k p TNot TNotEqual "!" "!="); try in_table; auto|].
  destruct (ceqb_spec c "<") as [E|N2];
    [subst c; apply (relational_ok "<" s ty k p TLessThan TLessEqual "<" "<="); try in_table; auto|].
  destruct (ceqb_spec c ">") as [E|N3];
    [subst c; apply (relational_ok ">" s ty k p TGreaterThan TGreaterEqual ">" ">="); try in_table; auto|].
  destruct (ceqb_spec c "=") as [E|N4];
    [subst c; apply (relational_ok "=" s ty k p TAssign TEqualityComparison "=" "=="); try in_table; auto|].
  destruct (is_digit c) eqn:D; [apply number_ok; auto|].
  destruct (ceqb_spec c DQ) as [E|Nd]; cbn [orb].
  { apply string_ok. exists c, s. auto. }
  destruct (ceqb_spec c SQ) as [E|Ns].
  { apply string_ok. exists c, s. auto. }
  apply identifier_ok; auto; [|tauto].
  intros t (w & I & Ew). cbn [In fixed_words] in I.
  repeat (destruct I as [I|I]; [injection I as <- <-; first [discriminate Ew | injection Ew as ->; contradiction]|]).
  destruct I.
Qed.

Theorem token_kinds content n :
  let t := token_at content n in
  let nx := nth_error content (tok_off t + length (tok_text t)) in
  kind_text (tok_type t) (tok_text t) nx /\ operator_whole (tok_text t) nx.
Proof.
  cbv zeta. unfold token_at. set (sc := after_next n (scanner_init content)).
  assert (U : sc_upcoming sc = None) by (apply after_next_upcoming; auto).
  assert (L := after_next_at_content content n). fold sc in L.
  destruct (next sc) as [t sc'] eqn:N. cbn [fst].
  assert (N' := N). apply (next_at_content content) in N'; auto. destruct N' as (_ & _ & _ & N1 & _).
  unfold next in N. rewrite U in N.
  destruct (skip_space (sc_rest sc) (sc_off sc) false) as [m p] eqn:Sk.
  apply skip_space_spec in Sk. destruct Sk as (_ & _ & H3 & _).
  destruct (skipn m (sc_rest sc)) as [|c r] eqn:Rest.
  - injection N as <- <-. cbn. rewrite Nat.add_0_r. split; [split; auto|intros [X|[X|[X|[X|[]]]]]; discriminate].
    apply nth_error_None. destruct L as [L1 L2].
    apply (f_equal (@length _)) in Rest. rewrite skipn_length in Rest. cbn in Rest.
    rewrite L2, skipn_length in Rest. lia.
  - destruct H3 as [H3|(c' & r' & E3 & S1 & _)]; [discriminate|]. injection E3 as <- <-.
    destruct (scan_token (c :: r) (sc_off sc + m)) as [[ty k] p2] eqn:Tk.
    apply scan_token_spec in Tk as Tk2; auto. destruct Tk2 as [[K1 _] _].
    apply scan_token_ok in Tk; auto. injection N as <- <-. cbn [tok_type tok_text tok_off].
    rewrite firstn_length, Nat.min_l by lia.
    replace (nth_error content (sc_off sc + m + k)) with (nth_error (c :: r) k); [exact Tk|].
    rewrite <- Rest. destruct L as [L1 ->].
    rewrite <- !nth_error_skipn. f_equal. lia.
Qed.
