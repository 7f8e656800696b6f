(** Properties C07-C14: scanning, literals and source locations. *)
From Verif Require Import Base M_Scanner S_Scanner P_Scanner.
From Coq Require Import Sorted.

(** C07. Tokens are in order, disjoint, non-empty, and leave only white space,
    backslashes and comments uncovered. *)
Theorem C07_tokens_tile : forall content, exists toks,
  tiles 0 content toks /\
  forall i t, nth_error toks i = Some t -> token_at content i = t.
Proof. exact tokens_tile. Qed.
Print Assumptions C07_tokens_tile.

(** Each token's text is the part of the content it is located at. *)
Theorem C07_token_is_substring : forall content n,
  firstn (length (tok_text (token_at content n)))
         (skipn (tok_off (token_at content n)) content) = tok_text (token_at content n) /\
  tok_off (token_at content n) + length (tok_text (token_at content n)) <= length content.
Proof. exact token_text_located. Qed.
Print Assumptions C07_token_is_substring.

Example C07_case :
  let s := $"a = [""x"",  # c" ++ [NL] ++ $"]" in
  map (fun i => (tok_off (token_at s i), tok_text (token_at s i))) [0; 1; 2; 3; 4; 5; 6]
  = [(0, $"a"); (2, $"="); (4, $"["); (5, $"""x"""); (8, $","); (15, $"]"); (16, [])].
Proof. vm_compute. reflexivity. Qed.

(** C08. EOF comes after at most as many tokens as bytes, and stays; any mix of
    Next() and Peek() sees the token sequence, Peek() without consuming. *)
Theorem C08_eof_reached : forall content i,
  length content <= i -> tok_type (token_at content i) = TEof.
Proof. exact eof_reached. Qed.
Print Assumptions C08_eof_reached.
Theorem C08_eof_stays : forall content i j,
  tok_type (token_at content i) = TEof -> i <= j -> tok_type (token_at content j) = TEof.
Proof. exact eof_stays. Qed.
Print Assumptions C08_eof_stays.
Theorem C08_next_and_peek : forall content cs,
  run_calls cs (scanner_init content) = expected_calls cs (token_at content) 0.
Proof. exact mixed_calls. Qed.
Print Assumptions C08_next_and_peek.
Example C08_case :
  map tok_text (run_calls [CallPeek; CallPeek; CallNext; CallPeek; CallNext; CallNext; CallPeek]
                          (scanner_init ($"a+b")))
  = [$"a"; $"a"; $"a"; $"+"; $"+"; $"b"; $""].
Proof. vm_compute. reflexivity. Qed.

(** C09. Positions of delivered tokens are the true ones, as long as no "not in"
    operator was broken across lines. *)
Theorem C09_token_positions : forall content n i,
  (forall j, j < n -> tok_type (token_at content j) = TNotIn ->
             ~ In NL (tok_text (token_at content j))) ->
  i < n ->
  let t := token_at content i in
  exists a b,
    get_range (sc_lines (after_next n (scanner_init content))) (tok_off t) (length (tok_text t))
      = Some (a, b) /\
    is_position content (tok_off t) a /\
    is_position content (tok_off t + length (tok_text t)) b.
Proof. exact token_positions. Qed.
Print Assumptions C09_token_positions.
(** The true position is unique, so the above determines what is reported. *)
Theorem C09_position_unique : forall content p a b,
  is_position content p a -> is_position content p b -> a = b.
Proof. exact is_position_unique. Qed.
Print Assumptions C09_position_unique.
(** The CHECK that line starts are pushed in increasing order never fails. *)
Theorem C09_line_starts_increase : forall content n,
  StronglySorted lt (sc_lines (after_next n (scanner_init content))).
Proof. exact lines_sorted. Qed.
Print Assumptions C09_line_starts_increase.

Definition c09_bad : str := $"a not" ++ [NL] ++ $"in b".
Theorem C09_not_in_across_lines_refuted : exists content n i,
  i < n /\
  let t := token_at content i in
  forall a, get_pos (sc_lines (after_next n (scanner_init content))) (tok_off t) = Some a ->
            ~ is_position content (tok_off t) a.
Proof.
  exists c09_bad, 3, 2. split; [lia|]. intros t a H P.
  vm_compute in H. injection H as <-.
  assert (Q : is_position c09_bad (tok_off t) (mkLC 1 3)).
  { exists ($"a not" ++ [NL]), ($"in "). split; [reflexivity|]. split; [simpl; intuition discriminate|].
    split; [right; eexists; reflexivity|]. split; reflexivity. }
  assert (E := is_position_unique _ _ _ _ P Q). discriminate.
Qed.
Print Assumptions C09_not_in_across_lines_refuted.

Example C09_case :
  let s := $"a" ++ [NL] ++ $"  b not in c" in
  get_range (sc_lines (after_next 4 (scanner_init s))) 14 1 = Some (mkLC 1 12, mkLC 1 13) /\
  forall j, j < 4 -> tok_type (token_at s j) = TNotIn -> ~ In NL (tok_text (token_at s j)).
Proof.
  split; [reflexivity|]. intros j Hj _.
  do 4 (destruct j as [|j]; [vm_compute; intuition discriminate|]). lia.
Qed.

(** C10. A word is never cut off in the middle ("not in" is not a word). *)
Theorem C10_words_maximal : forall content n,
  is_word_token (token_at content n) ->
  forall d, nth_error content (tok_off (token_at content n)
                               + length (tok_text (token_at content n))) = Some d ->
  ~ In d word_chars.
Proof. exact words_maximal. Qed.
Print Assumptions C10_words_maximal.
Theorem C10_not_in_refuted : exists content n d,
  tok_type (token_at content n) = TNotIn /\
  nth_error content (tok_off (token_at content n) + length (tok_text (token_at content n))) = Some d /\
  In d word_chars /\ tok_text (token_at content (S n)) = $"ner".
Proof.
  exists ($"not inner"), 0, "n"%char. repeat split; try reflexivity. vm_compute. tauto.
Qed.
Print Assumptions C10_not_in_refuted.
Example C10_case : is_word_token (token_at ($"information+x") 0) /\
  tok_text (token_at ($"information+x") 0) = $"information".
Proof. split; [left; vm_compute; auto|reflexivity]. Qed.

(** C11. Every string token is a literal with a body, and its value is that body,
    unless it is in triple single quotes. *)
Theorem C11_string_value : forall content n,
  tok_type (token_at content n) = TStringLiteral ->
  exists raw q triple body,
    tok_text (token_at content n) = string_literal raw q triple body /\
    (raw = None \/ raw = Some "r"%char \/ raw = Some "R"%char) /\ (q = DQ \/ q = SQ) /\
    (triple = false -> forall i, ~ active_quote q body i) /\
    escape_state body false = false /\
    (~ (triple = true /\ q = SQ) ->
     string_from_literal (tok_text (token_at content n))
     = Some ((if raw then 1 else 0) + (if triple then 3 else 1), body, triple,
             if raw then true else false)).
Proof.
  intros content n H. apply string_token_shape in H as [raw [q [triple [body [E [Hr [Hq [Hb He]]]]]]]].
  exists raw, q, triple, body. split; auto. split; auto. split; auto. split; [|split; [exact He|]].
  - intros T. apply Hb; auto.
  - intros N. rewrite E. apply from_literal_shape; auto. intros T. apply Hb; auto.
Qed.
Print Assumptions C11_string_value.
Theorem C11_triple_single_quotes_refuted : exists content,
  tok_type (token_at content 0) = TStringLiteral /\
  tok_text (token_at content 0) = string_literal None SQ true ($"x") /\
  exists k v t r, string_from_literal (tok_text (token_at content 0)) = Some (k, v, t, r) /\
                  v <> $"x".
Proof.
  exists ($"'''x'''"). split; [reflexivity|]. split; [reflexivity|].
  do 4 eexists. split; [reflexivity|]. discriminate.
Qed.
Print Assumptions C11_triple_single_quotes_refuted.
Example C11_case :
  tok_type (token_at ($"x = r""a\""b"" ") 2) = TStringLiteral /\
  string_from_literal (tok_text (token_at ($"x = r""a\""b"" ") 2)) = Some (2, $"a\""b", false, true).
Proof. split; reflexivity. Qed.

(** C12. Plain decimal, octal and hexadecimal literals are read exactly, or
    rejected when they do not fit. *)
Theorem C12_decimal : forall s v, numeral 10 s v ->
  int_from_literal s = if (v <=? 2 ^ 63 - 1)%Z then Some v else None.
Proof. exact decimal_literal. Qed.
Print Assumptions C12_decimal.
Theorem C12_octal : forall s v, numeral 8 s v ->
  int_from_literal ($"0o" ++ s) = if (v <=? 2 ^ 63 - 1)%Z then Some v else None.
Proof. exact octal_literal. Qed.
Print Assumptions C12_octal.
Theorem C12_hexadecimal : forall s v, numeral 16 s v ->
  int_from_literal ($"0x" ++ s) = if (v <=? 2 ^ 63 - 1)%Z then Some v else None.
Proof. exact hex_literal. Qed.
Print Assumptions C12_hexadecimal.
Theorem C12_no_wrap_around : forall s v,
  int_from_literal s = Some v -> (- 2 ^ 63 <= v <= 2 ^ 63 - 1)%Z.
Proof. exact int_literal_in_range. Qed.
Print Assumptions C12_no_wrap_around.
(** Number tokens that are not such literals are not rejected, but cut off. *)
Theorem C12_other_numbers_refuted :
  (tok_type (token_at ($"0o78") 0) = TNumberLiteral /\
   tok_text (token_at ($"0o78") 0) = $"0o78" /\ int_from_literal ($"0o78") = Some 7%Z) /\
  (tok_type (token_at ($"1.5") 0) = TNumberLiteral /\
   tok_text (token_at ($"1.5") 0) = $"1.5" /\ int_from_literal ($"1.5") = Some 1%Z).
Proof. vm_compute. auto 10. Qed.
Print Assumptions C12_other_numbers_refuted.
Example C12_case : numeral 16 ($"fF") 255 /\ int_from_literal ($"0xfF") = Some 255%Z /\
  numeral 10 ($"42") 42 /\ int_from_literal ($"9223372036854775808") = None.
Proof.
  split; [|split; [reflexivity|split; [|reflexivity]]].
  - apply (numeral_more 16 "f"%char ($"F") 15 15); [apply (digit_low 5); reflexivity|lia|].
    apply numeral_one; [apply (digit_upp 5); reflexivity|lia].
  - apply (numeral_more 10 "4"%char ($"2") 4 2); [apply (digit_dec 4); reflexivity|lia|].
    apply numeral_one; [apply (digit_dec 2); reflexivity|lia].
Qed.

(** C13. The line index initialised from a text gives the true positions. *)
Theorem C13_get_pos : forall content p, p <= length content ->
  exists lc, get_pos (line_map_of content) p = Some lc /\ is_position content p lc.
Proof. exact get_pos_true. Qed.
Print Assumptions C13_get_pos.
Theorem C13_injective : forall content p q lc, p <= length content -> q <= length content ->
  is_position content p lc -> is_position content q lc -> p = q.
Proof. exact is_position_injective. Qed.
Print Assumptions C13_injective.
Example C13_case :
  get_pos (line_map_of ($"ab" ++ [NL; NL] ++ $"c")) 4 = Some (mkLC 2 0) /\
  get_pos (line_map_of ($"ab" ++ [NL; NL] ++ $"c")) 2 = Some (mkLC 0 2).
Proof. split; reflexivity. Qed.

(** C14. The surrounding line. *)
Theorem C14_surrounding_line : forall content start len,
  start + len <= length content ->
  exists s n, get_surrounding_line content start len = Some (s, n) /\
    s <= start /\ start + len <= s + n /\ s + n <= length content /\
    (s = 0 \/ nth_error content (s - 1) = Some NL) /\
    (s + n = length content \/ nth_error content (s + n) = Some NL) /\
    ~ In NL (firstn (start - s) (skipn s content)) /\
    ~ In NL (firstn (s + n - (start + len)) (skipn (start + len) content)).
Proof. exact surrounding_line_spec. Qed.
Print Assumptions C14_surrounding_line.
Example C14_case :
  get_surrounding_line ($"ab" ++ [NL] ++ $"cde" ++ [NL] ++ $"f") 4 1 = Some (3, 3).
Proof. reflexivity. Qed.
