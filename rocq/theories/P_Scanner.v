(** Proofs about the line index, the scanner and literals. *)
From Verif Require Import Base M_Scanner S_Scanner.

(** ** Line index *)
Lemma newline_starts_app k a b :
  newline_starts k (a ++ b) = newline_starts k a ++ newline_starts (k + length a) b.
Proof.
  revert k. induction a as [|c a IH]; intros k; simpl.
  - rewrite Nat.add_0_r. reflexivity.
  - rewrite IH, <- app_assoc. do 2 f_equal. f_equal. lia.
Qed.
Lemma newline_starts_none k s : ~ In NL s -> newline_starts k s = [].
Proof.
  revert k. induction s as [|c s IH]; intros k H; simpl; auto.
  destruct (ceqb_spec c NL) as [->|N].
  - exfalso. apply H. simpl; auto.
  - apply IH. intros I. apply H. simpl; auto.
Qed.
Lemma newline_starts_bounds k s x : In x (newline_starts k s) -> k < x <= k + length s.
Proof.
  revert k. induction s as [|c s IH]; intros k; simpl; [tauto|].
  rewrite in_app_iff. intros [H|H].
  - destruct (ceqb c NL); simpl in H; [destruct H as [<-|[]]; lia | tauto].
  - apply IH in H. lia.
Qed.
Lemma newline_starts_length k s : length (newline_starts k s) = count_char NL s.
Proof.
  revert k. induction s as [|c s IH]; intros k; simpl; auto.
  rewrite app_length, IH. unfold count_char. simpl.
  destruct (ceqb_spec c NL) as [->|N]; simpl; auto.
Qed.

Lemma upper_bound_app p l1 l2 :
  (forall x, In x l1 -> x <= p) -> (forall x, In x l2 -> p < x) ->
  upper_bound p (l1 ++ l2) = length l1.
Proof.
  intros H1 H2. induction l1 as [|x l1 IH]; simpl.
  - destruct l2 as [|y l2]; simpl; auto.
    destruct (Nat.leb_spec y p); auto. specialize (H2 y (or_introl eq_refl)). lia.
  - assert (x <= p) by (apply H1; simpl; auto).
    destruct (Nat.leb_spec x p); [|lia]. f_equal. apply IH. intros y Hy. apply H1. simpl; auto.
Qed.

(** Splitting off the last line. *)
Lemma last_line s : exists before line,
  s = before ++ line /\ ~ In NL line /\ (before = [] \/ exists b, before = b ++ [NL]).
Proof.
  induction s as [|c s IH] using rev_ind.
  - exists [], []. simpl. auto.
  - destruct IH as [before [line [-> [H1 H2]]]].
    destruct (ascii_dec c NL) as [->|N].
    + exists ((before ++ line) ++ [NL]), []. rewrite app_nil_r. split; auto. split; [tauto|].
      right. eauto.
    + exists before, (line ++ [c]). rewrite app_assoc. split; auto. split; auto.
      rewrite in_app_iff. simpl. intuition.
Qed.

Lemma last_start before :
  before = [] \/ (exists b, before = b ++ [NL]) ->
  last (0 :: newline_starts 0 before) 0 = length before.
Proof.
  intros [->|[b ->]]; auto.
  rewrite newline_starts_app. simpl. rewrite app_length. simpl.
  destruct (newline_starts 0 b ++ [S (length b)]) eqn:E; [destruct (newline_starts 0 b); discriminate|].
  rewrite <- E, last_last. lia.
Qed.

Lemma nth_last_index {A} (l : list A) d : l <> [] -> nth (length l - 1) l d = last l d.
Proof.
  induction l as [|x l IH]; [congruence|]. intros _. destruct l as [|y l]; auto.
  replace (length (x :: y :: l) - 1) with (S (length (y :: l) - 1)) by (simpl; lia).
  cbn [nth last]. apply IH. discriminate.
Qed.

Theorem get_pos_true content p :
  p <= length content ->
  exists lc, get_pos (line_map_of content) p = Some lc /\ is_position content p lc.
Proof.
  intros Hp. destruct (last_line (firstn p content)) as [before [line [E [H1 H2]]]].
  assert (Len : length before + length line = p).
  { apply (f_equal (@length _)) in E. rewrite firstn_length, app_length in E. lia. }
  assert (Ec : content = before ++ line ++ skipn p content).
  { rewrite app_assoc, <- E. symmetry. apply firstn_skipn. }
  assert (U : upper_bound p (line_map_of content) = S (count_char NL before)).
  { unfold line_map_of. rewrite Ec at 1. rewrite !newline_starts_app.
    rewrite (newline_starts_none _ line) by auto. simpl app.
    change (0 :: newline_starts 0 before ++ ?l) with ((0 :: newline_starts 0 before) ++ l).
    rewrite upper_bound_app.
    - simpl. rewrite newline_starts_length. reflexivity.
    - intros x [<-|Hx]; [lia|]. apply newline_starts_bounds in Hx. lia.
    - intros x Hx. apply newline_starts_bounds in Hx. lia. }
  exists (mkLC (count_char NL before) (length line)). unfold get_pos. rewrite U.
  split.
  - f_equal. f_equal.
    assert (Nth : nth (count_char NL before) (line_map_of content) 0 = length before).
    { unfold line_map_of. rewrite Ec at 1. rewrite newline_starts_app.
      change (0 :: newline_starts 0 before ++ ?l) with ((0 :: newline_starts 0 before) ++ l).
      rewrite app_nth1 by (simpl; rewrite newline_starts_length; lia).
      rewrite <- (last_start before H2). rewrite <- nth_last_index by discriminate.
      f_equal. simpl. rewrite newline_starts_length. lia. }
    rewrite Nth. lia.
  - exists before, line. simpl. auto 6.
Qed.

(** The position is unique. *)
Lemma last_line_unique b1 l1 b2 l2 :
  b1 ++ l1 = b2 ++ l2 -> ~ In NL l1 -> ~ In NL l2 ->
  (b1 = [] \/ exists b, b1 = b ++ [NL]) -> (b2 = [] \/ exists b, b2 = b ++ [NL]) ->
  b1 = b2 /\ l1 = l2.
Proof.
  intros E N1 N2 B1 B2. apply app_eq_app in E as [l [[E1 E2]|[E1 E2]]].
  - destruct l as [|x l] using rev_ind.
    + rewrite app_nil_r in E1. simpl in E2. subst. auto.
    + exfalso. rewrite app_assoc in E1. destruct B1 as [->|[b ->]].
      * destruct ((b2 ++ l)); discriminate.
      * apply app_inj_tail in E1 as [_ <-]. apply N2. rewrite E2, !in_app_iff. simpl. auto.
  - destruct l as [|x l] using rev_ind.
    + rewrite app_nil_r in E1. simpl in E2. subst. auto.
    + exfalso. rewrite app_assoc in E1. destruct B2 as [->|[b ->]].
      * destruct ((b1 ++ l)); discriminate.
      * apply app_inj_tail in E1 as [_ <-]. apply N1. rewrite E2, !in_app_iff. simpl. auto.
Qed.
Lemma is_position_unique content p a b :
  is_position content p a -> is_position content p b -> a = b.
Proof.
  intros [b1 [l1 [E1 [N1 [B1 [L1 C1]]]]]] [b2 [l2 [E2 [N2 [B2 [L2 C2]]]]]].
  rewrite E1 in E2. destruct (last_line_unique _ _ _ _ E2 N1 N2 B1 B2) as [-> ->].
  destruct a, b; simpl in *; congruence.
Qed.

(** Positions determine offsets: p is recovered from line and column. *)
Lemma is_position_injective content p q lc :
  p <= length content -> q <= length content ->
  is_position content p lc -> is_position content q lc -> p = q.
Proof.
  intros Hp Hq [b1 [l1 [E1 [N1 [B1 [L1 C1]]]]]] [b2 [l2 [E2 [N2 [B2 [L2 C2]]]]]].
  assert (P1 : p = length b1 + length l1).
  { apply (f_equal (@length _)) in E1. rewrite firstn_length, app_length in E1. lia. }
  assert (P2 : q = length b2 + length l2).
  { apply (f_equal (@length _)) in E2. rewrite firstn_length, app_length in E2. lia. }
  assert (Eb : length b1 = length b2); [|lia].
  assert (G : forall (b1 l1 b2 l2 r1 r2 : str), b1 ++ l1 ++ r1 = b2 ++ l2 ++ r2 ->
     (b2 = [] \/ exists b, b2 = b ++ [NL]) -> count_char NL b1 = count_char NL b2 ->
     length b2 <= length b1).
  { clear. intros b1 l1 b2 l2 r1 r2 E B C.
    destruct (Nat.le_gt_cases (length b2) (length b1)) as [H|H]; auto. exfalso.
    apply app_eq_app in E as [l [[E1 E2]|[E1 E2]]].
    - rewrite E1, app_length in H. lia.
    - destruct l as [|x l] using rev_ind.
      + rewrite app_nil_r in E1. subst. lia.
      + rewrite app_assoc in E1. destruct B as [->|[b ->]]; [simpl in H; lia|].
        apply app_inj_tail in E1 as [-> <-].
        rewrite !count_char_app in C. simpl in C. lia. }
  assert (E : b1 ++ l1 ++ skipn p content = b2 ++ l2 ++ skipn q content).
  { rewrite !app_assoc, <- E1, <- E2, !firstn_skipn. reflexivity. }
  assert (H1 := G _ _ _ _ _ _ E B2 (eq_trans (eq_sym L1) L2)).
  assert (H2 := G _ _ _ _ _ _ (eq_sym E) B1 (eq_trans (eq_sym L2) L1)). lia.
Qed.

(** ** Surrounding line *)
Lemma take_until_nl_spec s :
  exists rest, s = firstn (take_until_nl s) s ++ rest /\ ~ In NL (firstn (take_until_nl s) s) /\
  take_until_nl s <= length s /\ (rest = [] \/ exists r, rest = NL :: r).
Proof.
  induction s as [|c s IH]; simpl.
  - exists []. auto.
  - destruct (ceqb_spec c NL) as [->|N]; simpl.
    + exists (NL :: s). split; auto. split; auto. split; [lia|]. right. eauto.
    + destruct IH as [rest [H1 [H2 [H3 H4]]]]. exists rest. split; [congruence|].
      split; [|split; [lia|auto]]. intros [E|E]; [congruence|auto].
Qed.

Theorem surrounding_line_spec content start len :
  start + len <= length content ->
  exists s n, get_surrounding_line content start len = Some (s, n) /\
    s <= start /\ start + len <= s + n /\ s + n <= length content /\
    (s = 0 \/ nth_error content (s - 1) = Some NL) /\
    (s + n = length content \/ nth_error content (s + n) = Some NL) /\
    ~ In NL (firstn (start - s) (skipn s content)) /\
    ~ In NL (firstn (s + n - (start + len)) (skipn (start + len) content)).
Proof.
  intros H. unfold get_surrounding_line.
  destruct (Nat.leb_spec (start + len) (length content)) as [_|]; [|lia].
  destruct (take_until_nl_spec (rev (firstn start content))) as [r1 [E1 [N1 [L1 B1]]]].
  destruct (take_until_nl_spec (skipn (start + len) content)) as [r2 [E2 [N2 [L2 B2]]]].
  set (back := take_until_nl (rev (firstn start content))) in *.
  set (fwd := take_until_nl (skipn (start + len) content)) in *.
  rewrite rev_length, firstn_length in L1. rewrite skipn_length in L2.
  exists (start - back), (start + len + fwd - (start - back)). split; auto.
  replace (start - back + (start + len + fwd - (start - back))) with (start + len + fwd) by lia.
  split; [lia|]. split; [lia|]. split; [lia|].
  assert (F : firstn start content = rev r1 ++ rev (firstn back (rev (firstn start content)))).
  { rewrite <- rev_app_distr, <- E1, rev_involutive. reflexivity. }
  assert (Lr : length (rev r1) = start - back).
  { apply (f_equal (@length _)) in F. rewrite app_length, !rev_length, !firstn_length, rev_length,
      firstn_length in F. rewrite rev_length. lia. }
  split; [|split; [|split]].
  - destruct B1 as [->|[r ->]].
    + left. simpl in Lr. lia.
    + right. simpl in F, Lr. rewrite app_length in Lr. simpl in Lr.
      rewrite <- (firstn_skipn start content), F, <- !app_assoc.
      rewrite nth_error_app2; rewrite rev_length in *; [|lia].
      replace (start - back - 1 - length r) with 0 by lia. reflexivity.
  - destruct B2 as [->|[r ->]].
    + left. rewrite app_nil_r in E2. apply (f_equal (@length _)) in E2.
      rewrite firstn_length, skipn_length in E2. lia.
    + right. rewrite <- (firstn_skipn (start + len) content).
      rewrite nth_error_app2; rewrite firstn_length, Nat.min_l by lia; [|lia].
      rewrite E2. rewrite nth_error_app2; rewrite firstn_length, skipn_length, Nat.min_l by lia; [|lia].
      replace (start + len + fwd - (start + len) - fwd) with 0 by lia. reflexivity.
  - replace (start - (start - back)) with back by lia.
    assert (E : firstn back (skipn (start - back) content)
                = rev (firstn back (rev (firstn start content)))).
    { remember (rev (firstn back (rev (firstn start content)))) as X eqn:EX.
      rewrite <- (firstn_skipn start content) at 1. rewrite F, <- app_assoc.
      rewrite <- Lr, skipn_app_exact.
      assert (Lb : length X = back)
        by (rewrite EX, rev_length, firstn_length, rev_length, firstn_length; lia).
      rewrite <- Lb at 1. apply firstn_app_exact. }
    rewrite E, <- in_rev. auto.
  - replace (start + len + fwd - (start + len)) with fwd by lia. auto.
Qed.

(** ** Scanner *)
Lemma gap_weaken g : gap false g -> gap true g.
Proof.
  intros H. induction H; try discriminate.
  - constructor.
  - apply gap_blank; auto.
  - apply gap_comment; auto.
Qed.

Definition comment_gap (eof : bool) (g : str) : Prop :=
  (exists body g', g = body ++ NL :: g' /\ ~ In NL body /\ gap eof g') \/
  (eof = true /\ ~ In NL g).

Lemma skip_space_spec s : forall pos inc n p,
  skip_space s pos inc = (n, p) ->
  n <= length s /\ p = newline_starts pos (firstn n s) /\
  (skipn n s = [] \/ exists c r, skipn n s = c :: r /\ is_space c = false /\
                                 c <> BSL /\ c <> "#"%char) /\
  (if inc then comment_gap (is_nil (skipn n s)) (firstn n s)
   else gap (is_nil (skipn n s)) (firstn n s)).
Proof.
  induction s as [|c s IH]; intros pos inc n p; simpl.
  - intros E. injection E as <- <-. simpl. split; auto. split; auto. split; auto.
    destruct inc; [right; auto | constructor].
  - destruct (is_space c || ceqb c BSL || ceqb c "#" || inc) eqn:C.
    + destruct (ceqb_spec c "#") as [Eh|Nh].
      * destruct (skip_space s (S pos) true) as [n' p'] eqn:R.
        intros E. injection E as <- <-. apply IH in R as [H1 [H2 [H3 H4]]].
        simpl. subst c. change (ceqb "#" NL) with false. cbn [app].
        split; [lia|]. split; auto. split; auto.
        destruct inc.
        -- destruct H4 as [[body [g' [E [N G]]]]|[E N]].
           ++ left. exists ("#"%char :: body), g'. rewrite E. split; auto. split; auto.
              simpl. intros [X|X]; [discriminate|auto].
           ++ right. split; auto. simpl. intros [X|X]; [discriminate|auto].
        -- destruct H4 as [[body [g' [E [N G]]]]|[E N]].
           ++ rewrite E. apply gap_comment; auto.
           ++ apply gap_last; auto.
      * destruct (ceqb_spec c NL) as [En|Nn].
        -- destruct (skip_space s (S pos) false) as [n' p'] eqn:R.
           intros E. injection E as <- <-. apply IH in R as [H1 [H2 [H3 H4]]].
           simpl. subst c. rewrite ceqb_refl. cbn [app]. rewrite <- H2.
           split; [lia|]. split; auto. split; auto.
           destruct inc.
           ++ left. exists [], (firstn n' s). auto.
           ++ apply gap_blank; auto.
        -- destruct (skip_space s (S pos) inc) as [n' p'] eqn:R.
           intros E. injection E as <- <-. apply IH in R as [H1 [H2 [H3 H4]]].
           simpl. destruct (ceqb_spec c NL) as [|_]; [contradiction|]. cbn [app].
           split; [lia|]. split; auto. split; auto.
           destruct inc.
           ++ destruct H4 as [[body [g' [E [N G]]]]|[E N]].
              ** left. exists (c :: body), g'. rewrite E. split; auto. split; auto.
                 simpl. intros [X|X]; auto.
              ** right. split; auto. simpl. intros [X|X]; auto.
           ++ rewrite orb_false_r in C. apply orb_true_iff in C as [C|C].
              2:{ discriminate. }
              apply gap_blank; auto. apply orb_true_iff in C as [C|C]; auto.
              apply ceqb_eq in C. auto.
    + intros E. injection E as <- <-. simpl.
      apply orb_false_iff in C as [C C4]. apply orb_false_iff in C as [C C3].
      apply orb_false_iff in C as [C1 C2]. apply ceqb_neq in C2. apply ceqb_neq in C3.
      split; [lia|]. split; auto. split; [right; exists c, s; auto|].
      subst inc. constructor.
Qed.

Lemma scan_string_spec q triple s : forall pos count esc ok n p,
  scan_string q triple s pos count esc = (ok, n, p) ->
  n <= length s /\ p = newline_starts pos (firstn n s) /\
  (ok = true -> nth_error s n = Some q) /\ (ok = false -> n = length s).
Proof.
  induction s as [|c s IH]; intros pos count esc ok n p; cbn [scan_string].
  - intros E. injection E as <- <- <-. simpl. repeat split; auto. intros X; discriminate X.
  - destruct ((ceqb c q && negb esc) &&
      ((if ceqb c q && negb esc then count - 1 else if triple then 3 else 1) =? 0)) eqn:C.
    + intros E. injection E as <- <- <-. simpl. split; [lia|]. split; auto.
      apply andb_true_iff in C as [C _]. apply andb_true_iff in C as [C _].
      apply ceqb_eq in C. subst. split; [auto|discriminate].
    + destruct (scan_string q triple s (S pos) _ _) as [[ok' n'] p'] eqn:R.
      intros E. injection E as <- <- <-. apply IH in R as [H1 [H2 [H3 H4]]].
      simpl. rewrite <- H2. split; [lia|]. split; auto.
Qed.

Lemma span_len_le f s : span_len f s <= length s.
Proof. induction s as [|c s IH]; simpl; auto. destruct (f c); simpl; lia. Qed.
Lemma span_len_all f s c : In c (firstn (span_len f s) s) -> f c = true.
Proof.
  induction s as [|x s IH]; simpl; [tauto|]. destruct (f x) eqn:E; simpl; [|tauto].
  intros [<-|H]; auto.
Qed.
Lemma span_len_stop f s c : nth_error s (span_len f s) = Some c -> f c = false.
Proof.
  induction s as [|x s IH]; simpl; [discriminate|]. destruct (f x) eqn:E; simpl; auto.
  intros H. injection H as <-. auto.
Qed.
Lemma span_len_app f a b :
  (forall c, In c a -> f c = true) ->
  (match b with c :: _ => f c = false | [] => True end) ->
  span_len f (a ++ b) = length a.
Proof.
  intros H1 H2. induction a as [|x a IH]; simpl.
  - destruct b; simpl; auto. rewrite H2. auto.
  - rewrite H1 by (simpl; auto). f_equal. apply IH. intros c I. apply H1. simpl; auto.
Qed.

Lemma identifier_char_word c : is_identifier_char c = true <-> In c word_chars.
Proof.
  split.
  - destruct c as [[] [] [] [] [] [] [] []]; vm_compute; intros H; try discriminate;
      repeat (first [left; reflexivity | right]).
  - intros H. assert (G : forallb is_identifier_char word_chars = true) by (vm_compute; reflexivity).
    rewrite forallb_forall in G. auto.
Qed.
Lemma identifier_not_nl c : is_identifier_char c = true -> c <> NL.
Proof. intros H ->. vm_compute in H. discriminate. Qed.
Lemma digit_not_nl c : is_digit c = true -> c <> NL.
Proof. intros H ->. vm_compute in H. discriminate. Qed.
Lemma xdigit_not_nl c : is_xdigit c = true -> c <> NL.
Proof. intros H ->. vm_compute in H. discriminate. Qed.

Lemma scan_number_spec f s : forall dot ok n,
  (forall c, f c = true -> c <> NL) ->
  scan_number f s dot = (ok, n) -> n <= length s /\ ~ In NL (firstn n s).
Proof.
  induction s as [|c s IH]; intros dot ok n Hf; cbn [scan_number].
  - intros E. injection E as <- <-. simpl. auto.
  - destruct (f c || ceqb c ".") eqn:C.
    + destruct (ceqb c "." && dot).
      * intros E. injection E as <- <-. simpl. split; [lia|auto].
      * destruct (scan_number f s (dot || ceqb c ".")) as [ok' n'] eqn:R.
        intros E. injection E as <- <-. apply IH in R as [H1 H2]; auto.
        simpl. split; [lia|]. intros [E|E]; [|auto].
        apply orb_true_iff in C as [C|C].
        -- apply (Hf c C E).
        -- apply ceqb_eq in C. subst. discriminate.
    + intros E. injection E as <- <-. simpl. split; [lia|auto].
Qed.

Lemma firstn_no_nl_starts k pos s : ~ In NL (firstn k s) -> newline_starts pos (firstn k s) = [].
Proof. apply newline_starts_none. Qed.

(** Newline positions a token may push. *)
Definition token_pushes (ty : toktype) (pos k : nat) (s : str) (p : list nat) : Prop :=
  1 <= k <= length s /\ ty <> TEof /\
  (ty <> TNotIn -> p = newline_starts pos (firstn k s)) /\ (ty = TNotIn -> p = []).

Lemma handle_number_spec c s pos ty k p :
  is_digit c = true -> handle_number (c :: s) = (ty, k, p) -> token_pushes ty pos k (c :: s) p.
Proof.
  intros Hc. unfold handle_number.
  assert (G : forall f skip ok n, (forall c, f c = true -> c <> NL) ->
     1 <= skip <= length (c :: s) -> ~ In NL (firstn skip (c :: s)) ->
     scan_number f (skipn skip (c :: s)) false = (ok, n) ->
     (if ok then TNumberLiteral else TError, skip + n, @nil nat) = (ty, k, p) ->
     token_pushes ty pos k (c :: s) p).
  { intros f skip ok n Hf L N R E. apply scan_number_spec in R as [H1 H2]; auto.
    rewrite skipn_length in H1. injection E as <- <- <-.
    assert (NN : ~ In NL (firstn (skip + n) (c :: s))).
    { intros I. rewrite <- (firstn_skipn skip (firstn (skip + n) (c :: s))) in I.
      rewrite firstn_firstn, Nat.min_l in I by lia.
      rewrite skipn_firstn_comm in I. replace (skip + n - skip) with n in I by lia.
      apply in_app_or in I as [I|I]; auto. }
    split; [lia|]. split; [destruct ok; discriminate|].
    split; [|destruct ok; discriminate]. intros _. rewrite newline_starts_none; auto. }
  assert (Nc : c <> NL) by (apply digit_not_nl; auto).
  assert (Nx : "x"%char <> NL) by discriminate. assert (No : "o"%char <> NL) by discriminate.
  Ltac finish := solve [apply digit_not_nl | apply xdigit_not_nl | simpl; lia | eassumption
                       | simpl; intros I; repeat destruct I as [I|I]; auto ].
  destruct s as [|d s].
  - destruct (scan_number is_digit _ false) as [ok n] eqn:R. intros E.
    apply (G is_digit 1 ok n); finish.
  - destruct (ceqb c "0").
    + destruct (ceqb_spec d "x") as [->|].
      * destruct (scan_number is_xdigit _ false) as [ok n] eqn:R. intros E.
        apply (G is_xdigit 2 ok n); finish.
      * destruct (ceqb_spec d "o") as [->|].
        -- destruct (scan_number is_digit _ false) as [ok k'] eqn:R. intros E.
           apply (G is_digit 2 ok k'); finish.
        -- destruct (scan_number is_digit _ false) as [ok k'] eqn:R. intros E.
           apply (G is_digit 1 ok k'); finish.
    + destruct (scan_number is_digit _ false) as [ok k'] eqn:R. intros E.
      apply (G is_digit 1 ok k'); finish.
Qed.

Lemma handle_string_spec s pos ty k p :
  (match s with
   | c :: r => (c = DQ \/ c = SQ) \/
               ((c = "r"%char \/ c = "R"%char) /\ exists d r', r = d :: r' /\ (d = DQ \/ d = SQ))
   | [] => False
   end) ->
  handle_string s pos = (ty, k, p) ->
  token_pushes ty pos k s p /\ (ty = TStringLiteral \/ ty = TError).
Proof.
  intros Hs. unfold handle_string.
  set (prefix := match s with c :: _ => if ceqb c "r" || ceqb c "R" then 1 else 0 | [] => 0 end).
  assert (Hp : exists q body, skipn prefix s = q :: body /\ (q = DQ \/ q = SQ) /\
               prefix + 1 + length body = length s /\ ~ In NL (firstn prefix s)).
  { destruct s as [|c r]; [tauto|]. destruct Hs as [Hs|[Hs [d [r' [-> Hd]]]]].
    - exists c, r. assert (prefix = 0) by (unfold prefix; destruct Hs; subst; reflexivity).
      rewrite H. simpl. auto.
    - exists d, r'. assert (prefix = 1) by (unfold prefix; destruct Hs; subst; reflexivity).
      rewrite H. simpl. split; auto. split; auto. split; auto.
      destruct Hs; subst; intros [I|[]]; discriminate. }
  destruct Hp as [q [body [Ep [Hq [Hl Hn]]]]]. rewrite Ep.
  set (triple := match body with a :: b :: _ => ceqb a q && ceqb b q | _ => false end).
  set (open := prefix + (if triple then 3 else 1)).
  assert (Nq : q <> NL) by (destruct Hq; subst; discriminate).
  assert (Es : s = firstn prefix s ++ q :: body) by (rewrite <- Ep; symmetry; apply firstn_skipn).
  assert (Lp : length (firstn prefix s) = prefix) by (rewrite firstn_length; lia).
  assert (Ho : open <= length s /\ ~ In NL (firstn open s)).
  { unfold open. destruct triple eqn:T.
    - unfold triple in T. destruct body as [|a [|b body]]; try discriminate.
      apply andb_true_iff in T as [T1 T2]. apply ceqb_eq in T1, T2. subst a b.
      simpl in Hl. split; [lia|]. rewrite Es. rewrite <- Lp at 1. rewrite firstn_app_2.
      simpl. rewrite in_app_iff. simpl. intuition.
    - split; [lia|]. rewrite Es. rewrite <- Lp at 1. rewrite firstn_app_2.
      simpl. rewrite in_app_iff. simpl. intuition. }
  destruct Ho as [Ho1 Ho2].
  destruct (scan_string q triple (skipn open s) (pos + open) _ false) as [[ok n] p'] eqn:R.
  apply scan_string_spec in R as [H1 [H2 [H3 H4]]]. rewrite skipn_length in H1.
  assert (F : forall m, firstn (open + m) s = firstn open s ++ firstn m (skipn open s)).
  { intros m. rewrite <- (firstn_skipn open (firstn (open + m) s)).
    rewrite firstn_firstn, Nat.min_l by lia. rewrite skipn_firstn_comm.
    replace (open + m - open) with m by lia. reflexivity. }
  assert (Lo : length (firstn open s) = open) by (rewrite firstn_length; lia).
  destruct ok.
  - specialize (H3 eq_refl). intros E. injection E as <- <- <-.
    assert (Hn1 : n < length (skipn open s)) by (apply nth_error_Some; congruence).
    rewrite skipn_length in Hn1. split; auto.
    split; [unfold open in *; destruct triple; lia|]. split; [discriminate|]. split; [|discriminate].
    intros _. rewrite <- Nat.add_assoc, F, newline_starts_app, Lo.
    rewrite (newline_starts_none _ (firstn open s)) by auto. simpl.
    assert (Fn : firstn (n + 1) (skipn open s) = firstn n (skipn open s) ++ [q]).
    { apply nth_error_split in H3 as [l1 [l2 [E1 E2]]]. rewrite E1. rewrite <- E2.
      rewrite firstn_app_exact. rewrite firstn_app_2. reflexivity. }
    rewrite Fn, newline_starts_app.
    rewrite (newline_starts_none _ [q]) by (simpl; intuition). rewrite app_nil_r. auto.
  - intros E. injection E as <- <- <-. split; auto.
    split; [unfold open in *; destruct triple; lia|]. split; [discriminate|]. split; [|discriminate].
    intros _. rewrite F, newline_starts_app, Lo.
    rewrite (newline_starts_none _ (firstn open s)) by auto. simpl. auto.
Qed.

Definition is_keyword_type (ty : toktype) : Prop :=
  In ty [TIdentifier; TFor; TIn; TAnd; TOr; TIf; TElse; TNot].

Lemma handle_identifier_spec c s pos ty k p :
  c <> NL -> handle_identifier (c :: s) pos = (ty, k, p) ->
  token_pushes ty pos k (c :: s) p /\
  (is_keyword_type ty ->
   forall d, nth_error (c :: s) k = Some d -> is_identifier_char d = false).
Proof.
  intros Nc. unfold handle_identifier.
  destruct ((2 <? length (c :: s)) && (ceqb c "r" || ceqb c "R") &&
            match s with d :: _ => ceqb d DQ || ceqb d SQ | [] => false end) eqn:Raw.
  - intros E. apply andb_true_iff in Raw as [Raw R3]. apply andb_true_iff in Raw as [_ R2].
    destruct s as [|d s]; [discriminate|].
    apply handle_string_spec in E.
    + destruct E as [E1 E2]. split; auto. intros K. exfalso. destruct E2; subst;
      unfold is_keyword_type in K; simpl in K; intuition discriminate.
    + right. apply orb_true_iff in R2 as [R2|R2]; apply ceqb_eq in R2;
        apply orb_true_iff in R3 as [R3|R3]; apply ceqb_eq in R3; split; eauto 6.
  - destruct (negb (is_identifier_char c)) eqn:I.
    + intros E. injection E as <- <- <-. split.
      * split; [simpl; lia|]. split; [discriminate|]. split; [|discriminate].
        intros _. rewrite newline_starts_none; auto. simpl. intuition.
      * intros K. unfold is_keyword_type in K; simpl in K. intuition discriminate.
    + apply negb_false_iff in I.
      set (n := span_len is_identifier_char (c :: s)).
      assert (Hn : 1 <= n <= length (c :: s)).
      { split; [unfold n; simpl; rewrite I; lia|apply span_len_le]. }
      assert (NN : ~ In NL (firstn n (c :: s))).
      { intros H. apply span_len_all in H. vm_compute in H. discriminate. }
      assert (Hs : forall d, nth_error (c :: s) n = Some d -> is_identifier_char d = false)
        by (intros d; apply span_len_stop).
      assert (G : forall ty', ty' <> TEof -> ty' <> TNotIn -> (ty', n, @nil nat) = (ty, k, p) ->
              token_pushes ty pos k (c :: s) p /\
              (is_keyword_type ty -> forall d, nth_error (c :: s) k = Some d ->
                                     is_identifier_char d = false)).
      { intros ty' N1 N2 E. injection E as <- <- <-. split; auto.
        split; auto. split; auto. split; [|contradiction].
        intros _. rewrite newline_starts_none; auto. }
      destruct (str_eqb (firstn n (c :: s)) ($"not")).
      * destruct (consume_optional_in (skipn n (c :: s))) as [m|] eqn:Cn.
        -- intros E. injection E as <- <- <-. split.
           ++ unfold consume_optional_in in Cn.
              destruct (starts_with ($"in") _) eqn:Sw; [|discriminate]. injection Cn as <-.
              apply starts_with_iff in Sw as [r Sw].
              assert (L := f_equal (@length _) Sw). rewrite !skipn_length in L.
              rewrite app_length in L. simpl (length ($"in")) in L.
              split; [lia|]. split; [discriminate|]. split; [congruence|auto].
           ++ intros K. unfold is_keyword_type in K; simpl in K. intuition discriminate.
        -- apply G; discriminate.
      * repeat (match goal with |- context [str_eqb ?a ?b] => destruct (str_eqb a b) end;
                [apply G; discriminate|]).
        apply G; discriminate.
Qed.

Lemma scan_token_spec c s pos ty k p :
  is_space c = false -> scan_token (c :: s) pos = (ty, k, p) ->
  token_pushes ty pos k (c :: s) p /\
  (In ty [TIdentifier; TFor; TIn; TAnd; TOr; TIf; TElse] \/ (ty = TNot /\ c <> "!"%char) ->
   forall d, nth_error (c :: s) k = Some d -> is_identifier_char d = false).
Proof.
  intros Hsp.
  assert (Nc : c <> NL) by (intros ->; vm_compute in Hsp; discriminate).
  assert (G : forall ty', ty' <> TEof -> ty' <> TNotIn ->
     ~ (In ty' [TIdentifier; TFor; TIn; TAnd; TOr; TIf; TElse] \/ (ty' = TNot /\ c <> "!"%char)) ->
     (ty', 1, @nil nat) = (ty, k, p) ->
     token_pushes ty pos k (c :: s) p /\
     (In ty [TIdentifier; TFor; TIn; TAnd; TOr; TIf; TElse] \/ (ty = TNot /\ c <> "!"%char) ->
      forall d, nth_error (c :: s) k = Some d -> is_identifier_char d = false)).
  { intros ty' N1 N2 N3 E. injection E as <- <- <-. split; [|intros K; contradiction].
    split; [simpl; lia|]. split; auto. split; [|contradiction].
    intros _. rewrite newline_starts_none; auto. simpl. intuition. }
  assert (Gr : forall t1 t2, t1 <> TEof -> t1 <> TNotIn -> t2 <> TEof -> t2 <> TNotIn ->
     ~ (In t1 [TIdentifier; TFor; TIn; TAnd; TOr; TIf; TElse] \/ (t1 = TNot /\ c <> "!"%char)) ->
     ~ (In t2 [TIdentifier; TFor; TIn; TAnd; TOr; TIf; TElse] \/ (t2 = TNot /\ c <> "!"%char)) ->
     handle_relational t1 t2 (c :: s) = (ty, k, p) ->
     token_pushes ty pos k (c :: s) p /\
     (In ty [TIdentifier; TFor; TIn; TAnd; TOr; TIf; TElse] \/ (ty = TNot /\ c <> "!"%char) ->
      forall d, nth_error (c :: s) k = Some d -> is_identifier_char d = false)).
  { intros t1 t2 N1 N2 N3 N4 N5 N6. unfold handle_relational. destruct s as [|d s].
    - apply G; auto.
    - destruct (ceqb_spec d "=") as [->|].
      + intros E. injection E as <- <- <-. split; [|intros K; contradiction].
        split; [simpl; lia|]. split; auto. split; [|contradiction].
        intros _. rewrite newline_starts_none; auto. simpl. intros [I|[I|[]]]; [auto|discriminate].
      + apply G; auto. }
  unfold scan_token.
  repeat (match goal with |- context [if ceqb c ?x then (_, 1, []) else _] =>
            destruct (ceqb c x); [apply G; solve [discriminate | simpl; intuition discriminate]|] end).
  destruct (ceqb_spec c "!") as [E|N1].
  { subst c. apply Gr; try discriminate; simpl; intuition discriminate. }
  destruct (ceqb c "<"); [apply Gr; try discriminate; simpl; intuition discriminate|].
  destruct (ceqb c ">"); [apply Gr; try discriminate; simpl; intuition discriminate|].
  destruct (ceqb c "="); [apply Gr; try discriminate; simpl; intuition discriminate|].
  destruct (is_digit c) eqn:D.
  { intros E. pose proof E as E'. apply (handle_number_spec c s pos) in E; auto. split; auto.
    intros K. exfalso. unfold handle_number in E'.
    match type of E' with (let '(_, _) := ?x in _) = _ => destruct x as [f skip] end.
    destruct (scan_number f (skipn skip (c :: s)) false) as [ok n]. injection E' as <- _ _.
    destruct ok; simpl in K; intuition discriminate. }
  destruct (ceqb c DQ || ceqb c SQ) eqn:Q.
  { intros E. apply handle_string_spec in E.
    - destruct E as [E1 E2]. split; auto. intros K. exfalso.
      destruct E2; subst; simpl in K; intuition discriminate.
    - left. apply orb_true_iff in Q as [Q|Q]; apply ceqb_eq in Q; auto. }
  intros E. apply handle_identifier_spec in E; auto. destruct E as [E1 E2]. split; auto.
  intros K. apply E2. unfold is_keyword_type. simpl in *. intuition.
Qed.

Definition pushes_of (ty : toktype) (pos : nat) (text : str) : list nat :=
  if toktype_beq ty TNotIn then [] else newline_starts pos text.

Lemma next_spec sc t sc' :
  sc_upcoming sc = None -> next sc = (t, sc') ->
  sc_upcoming sc' = None /\
  ((t = mkToken TEof (sc_off sc + length (sc_rest sc)) [] false /\
    gap true (sc_rest sc) /\ sc_rest sc' = [] /\
    sc_off sc' = sc_off sc + length (sc_rest sc) /\
    sc_lines sc' = sc_lines sc ++ newline_starts (sc_off sc) (sc_rest sc)) \/
   (exists g,
     sc_rest sc = g ++ tok_text t ++ sc_rest sc' /\ gap false g /\ tok_text t <> [] /\
     tok_type t <> TEof /\ tok_off t = sc_off sc + length g /\
     sc_off sc' = sc_off sc + length g + length (tok_text t) /\
     let p := newline_starts (sc_off sc) g
              ++ pushes_of (tok_type t) (sc_off sc + length g) (tok_text t) in
     sc_lines sc' = sc_lines sc ++ p /\
     sc_newlines sc' = sc_newlines sc + length p /\
     sc_last_newlines sc' = sc_newlines sc' /\
     tok_newline t = negb (sc_last_newlines sc =? sc_newlines sc + length p) /\
     (is_word_token t -> forall d r, sc_rest sc' = d :: r -> is_identifier_char d = false))).
Proof.
  intros Hu. unfold next. rewrite Hu.
  destruct (skip_space (sc_rest sc) (sc_off sc) false) as [n p] eqn:Sk.
  apply skip_space_spec in Sk as [H1 [H2 [H3 H4]]].
  destruct (skipn n (sc_rest sc)) as [|c r] eqn:Rest.
  - intros E. injection E as <- <-. simpl. split; auto. left.
    assert (Ln : n = length (sc_rest sc)).
    { apply (f_equal (@length _)) in Rest. rewrite skipn_length in Rest. simpl in Rest. lia. }
    simpl in H4. rewrite Ln, firstn_all in *. subst p. auto 8.
  - simpl in H4. destruct H3 as [H3|[c' [r' [E3 [S1 [S2 S3]]]]]]; [discriminate|].
    injection E3 as <- <-.
    destruct (scan_token (c :: r) (sc_off sc + n)) as [[ty k] p2] eqn:Tk.
    assert (Tk' := Tk). apply scan_token_spec in Tk; auto. destruct Tk as [[K1 [K2 [K3 K3']]] K4].
    intros E. injection E as <- <-. cbn [sc_upcoming sc_rest sc_off sc_lines sc_newlines
      sc_last_newlines tok_text tok_type tok_off tok_newline]. split; auto. right.
    exists (firstn n (sc_rest sc)).
    assert (Lf : length (firstn n (sc_rest sc)) = n) by (rewrite firstn_length; lia).
    rewrite Lf. assert (Lk : length (firstn k (c :: r)) = k) by (rewrite firstn_length; lia).
    rewrite Lk.
    split. { rewrite firstn_skipn, <- Rest. symmetry. apply firstn_skipn. }
    split; auto. split. { destruct k; [lia|discriminate]. }
    split; auto. split; auto. split; auto.
    assert (Ep : p ++ p2 = newline_starts (sc_off sc) (firstn n (sc_rest sc))
                 ++ pushes_of ty (sc_off sc + n) (firstn k (c :: r))).
    { rewrite <- H2. f_equal. unfold pushes_of. destruct (toktype_beq ty TNotIn) eqn:B.
      - apply K3'. apply internal_toktype_dec_bl; auto.
      - apply K3. intros ->. discriminate. }
    cbv zeta. rewrite <- Ep, app_length.
    split; [rewrite app_assoc; auto|]. split; [lia|]. split; auto.
    split; [rewrite Nat.add_assoc; auto|].
    intros W d r2 Er. apply K4.
    + destruct W as [W|[W1 W2]]; auto. right. simpl in W1, W2. split; auto. intros ->. subst ty.
      apply W2. change (scan_token ("!"%char :: r) (sc_off sc + n))
        with (handle_relational TNot TNotEqual ("!"%char :: r)) in Tk'.
      unfold handle_relational in Tk'. destruct r as [|d' r3].
      * injection Tk' as <- _. reflexivity.
      * destruct (ceqb d' "="); [discriminate|]. injection Tk' as <- _. reflexivity.
    + rewrite <- (firstn_skipn k (c :: r)). rewrite nth_error_app2 by lia.
      rewrite Lk, Nat.sub_diag, Er. reflexivity.
Qed.

Lemma length_0_iff_nil {A} (l : list A) : length l = 0 -> l = [].
Proof. destruct l; auto; discriminate. Qed.

Lemma newline_pushes off g text :
  length (newline_starts off g ++ newline_starts (off + length g) text) = 0 <-> ~ In NL (g ++ text).
Proof.
  rewrite <- newline_starts_app, newline_starts_length. apply count_char_0.
Qed.

Lemma tiles_exist : forall n sc,
  length (sc_rest sc) <= n -> sc_upcoming sc = None -> sc_last_newlines sc = sc_newlines sc ->
  exists toks, tiles (sc_off sc) (sc_rest sc) toks /\
    (forall i t, nth_error toks i = Some t -> fst (next (after_next i sc)) = t).
Proof.
  induction n as [|n IH]; intros sc L U Eq;
    destruct (next sc) as [t sc'] eqn:N; assert (N' := N); apply next_spec in N; auto;
    destruct N as [U' [[Et [G _]]|[g [E [G [T1 [T2 [T3 [T4 [T5 [T6 [T7 [T8 _]]]]]]]]]]]]].
  - exists [t]. rewrite Et. split; [constructor; auto|].
    intros [|i] t0; simpl; [|destruct i; discriminate]. intros X. injection X as <-.
    rewrite N'. auto.
  - exfalso. apply (f_equal (@length _)) in E. rewrite !app_length in E.
    destruct (tok_text t); [congruence|]. simpl in E. lia.
  - exists [t]. rewrite Et. split; [constructor; auto|].
    intros [|i] t0; simpl; [|destruct i; discriminate]. intros X. injection X as <-.
    rewrite N'. auto.
  - destruct (IH sc') as [toks [H1 H2]]; auto.
    { apply (f_equal (@length _)) in E. rewrite !app_length in E.
      destruct (tok_text t); [congruence|]. simpl in E. lia. }
    exists (t :: toks). split.
    + rewrite E. destruct t as [ty off text nl]; simpl in *. subst off.
      apply tiles_token; auto.
      * intros Hni. rewrite T8, Eq. unfold pushes_of in *.
        destruct (toktype_beq ty TNotIn) eqn:B.
        { apply internal_toktype_dec_bl in B. contradiction. }
        split.
        -- intros Hb. apply negb_true_iff, Nat.eqb_neq in Hb.
           destruct (in_dec ascii_dec NL (g ++ text)) as [I|I]; auto.
           apply newline_pushes with (off := sc_off sc) in I. lia.
        -- intros I. apply negb_true_iff, Nat.eqb_neq. intros Hc.
           assert (Z : length (newline_starts (sc_off sc) g ++
                         newline_starts (sc_off sc + length g) text) = 0) by lia.
           apply newline_pushes in Z. contradiction.
      * rewrite <- T4. auto.
    + intros [|i] t0; simpl.
      * intros X. injection X as <-. rewrite N'. auto.
      * intros X. rewrite N'. simpl. apply H2; auto.
Qed.

Theorem tokens_tile content :
  exists toks, tiles 0 content toks /\
    forall i t, nth_error toks i = Some t -> token_at content i = t.
Proof.
  destruct (tiles_exist (length content) (scanner_init content)) as [toks [H1 H2]]; auto.
  exists toks. auto.
Qed.

(** ** End of file *)
Lemma after_next_upcoming n sc : sc_upcoming sc = None -> sc_upcoming (after_next n sc) = None.
Proof.
  revert sc. induction n as [|n IH]; intros sc U; simpl; auto.
  destruct (next sc) as [t sc'] eqn:N. apply IH. simpl. apply next_spec in N; tauto.
Qed.
Lemma after_next_plus n m sc : after_next (n + m) sc = after_next m (after_next n sc).
Proof. revert sc. induction n as [|n IH]; intros sc; simpl; auto. Qed.

Lemma rest_shrinks sc t sc' :
  sc_upcoming sc = None -> next sc = (t, sc') ->
  (sc_rest sc' = [] \/ length (sc_rest sc') < length (sc_rest sc)).
Proof.
  intros U N. apply next_spec in N as [_ [[_ [_ [H _]]]|[g [E [_ [T _]]]]]]; auto.
  right. rewrite E, !app_length. destruct (tok_text t); [congruence|]. simpl. lia.
Qed.

Lemma eof_from_rest i : forall sc, sc_upcoming sc = None -> length (sc_rest sc) <= i ->
  tok_type (fst (next (after_next i sc))) = TEof.
Proof.
  induction i as [|i IH]; intros sc U L; simpl; destruct (next sc) as [t sc'] eqn:N.
  - simpl. apply next_spec in N as [_ [[-> _]|[g [E [_ [T _]]]]]]; auto.
    exfalso. apply (f_equal (@length _)) in E. rewrite !app_length in E.
    destruct (tok_text t); [congruence|]. simpl in E. lia.
  - simpl. apply IH; [apply next_spec in N; tauto|].
    destruct (rest_shrinks _ _ _ U N) as [->|H]; simpl; lia.
Qed.

Theorem eof_reached content i : length content <= i -> tok_type (token_at content i) = TEof.
Proof. intros H. apply eof_from_rest; auto. Qed.

Theorem eof_stays content i j :
  tok_type (token_at content i) = TEof -> i <= j -> tok_type (token_at content j) = TEof.
Proof.
  unfold token_at. intros E L. destruct (next (after_next i (scanner_init content))) as [t sc'] eqn:N.
  assert (U : sc_upcoming (after_next i (scanner_init content)) = None)
    by (apply after_next_upcoming; auto).
  assert (N' := N). apply next_spec in N as [U' [[_ [_ [H _]]]|[g [_ [_ [_ [T _]]]]]]]; auto;
    simpl in E; [|contradiction].
  destruct (Nat.eq_dec i j) as [<-|Nij]; [rewrite N'; auto|].
  replace j with (i + S (j - i - 1)) by lia. rewrite after_next_plus. simpl. rewrite N'. simpl.
  apply eof_from_rest; auto. rewrite H. simpl. lia.
Qed.

Lemma calls_see cs : forall content i sc,
  next sc = next (after_next i (scanner_init content)) ->
  (sc_upcoming sc = None \/ sc_upcoming sc = Some (token_at content i)) ->
  run_calls cs sc = expected_calls cs (token_at content) i.
Proof.
  induction cs as [|c cs IH]; intros content i sc Hn Hu; simpl; auto.
  assert (Ui : sc_upcoming (after_next i (scanner_init content)) = None)
    by (apply after_next_upcoming; auto).
  destruct c.
  - destruct (next sc) as [t sc'] eqn:N.
    assert (Et : t = token_at content i) by (unfold token_at; rewrite <- Hn; auto).
    rewrite Et. f_equal. symmetry in Hn.
    assert (Es : sc' = after_next (S i) (scanner_init content)).
    { replace (S i) with (i + 1) by lia. rewrite after_next_plus. simpl. rewrite Hn. auto. }
    apply IH.
    + rewrite Es. auto.
    + left. rewrite Es. apply after_next_upcoming; auto.
  - unfold peek. destruct (sc_upcoming sc) as [t|] eqn:U.
    + destruct Hu as [Hu|Hu]; [discriminate|]. injection Hu as ->. f_equal. apply IH; auto.
    + destruct (next sc) as [t sc'] eqn:N.
      assert (Et : t = token_at content i) by (unfold token_at; rewrite <- Hn; auto).
      rewrite Et. f_equal. apply IH; [|right; reflexivity].
      rewrite <- Hn, <- Et. apply next_spec in N as [U' _]; auto.
      destruct sc'; simpl in *. subst. reflexivity.
Qed.

Theorem mixed_calls content cs :
  run_calls cs (scanner_init content) = expected_calls cs (token_at content) 0.
Proof. apply calls_see; auto. Qed.

(** ** Lines *)
Definition at_content (content : str) (sc : scanner) : Prop :=
  sc_off sc <= length content /\ sc_rest sc = skipn (sc_off sc) content.

Lemma skipn_prefix (content : str) off a b :
  off <= length content ->
  skipn off content = a ++ b -> off + length a <= length content /\
  b = skipn (off + length a) content /\
  firstn (off + length a) content = firstn off content ++ a.
Proof.
  intros L E. assert (Len := f_equal (@length _) E). rewrite skipn_length, app_length in Len.
  assert (Ec : content = (firstn off content ++ a) ++ b).
  { rewrite <- app_assoc, <- E. symmetry. apply firstn_skipn. }
  assert (Lf : length (firstn off content ++ a) = off + length a)
    by (rewrite app_length, firstn_length; lia).
  split; [lia|]. split.
  - rewrite Ec at 1. rewrite <- Lf. rewrite skipn_app_exact. reflexivity.
  - rewrite Ec at 1. rewrite <- Lf. apply firstn_app_exact.
Qed.

Lemma next_at_content content sc t sc' :
  at_content content sc -> sc_upcoming sc = None -> next sc = (t, sc') ->
  at_content content sc' /\ sc_off sc <= sc_off sc' /\
  sc_off sc <= tok_off t /\ tok_off t + length (tok_text t) = sc_off sc' /\
  firstn (length (tok_text t)) (skipn (tok_off t) content) = tok_text t.
Proof.
  intros [A1 A2] U N. apply next_spec in N as [U' N]; auto.
  destruct N as [[Et [_ [H1 [H2 _]]]]|[g [E [_ [_ [_ [H1 [H2 _]]]]]]]].
  - subst t. simpl. rewrite A2, skipn_length in H2.
    assert (sc_off sc' = length content) by lia.
    unfold at_content. rewrite H1, H. rewrite skipn_all. rewrite A2, skipn_length.
    repeat split; auto; lia.
  - rewrite A2 in E. rewrite app_assoc in E.
    assert (E' := E). apply skipn_prefix in E' as [P1 [P2 P3]]; auto.
    rewrite app_length in P1, P2, P3.
    unfold at_content. rewrite H2. rewrite <- Nat.add_assoc.
    split; [split; [lia|auto]|]. split; [lia|]. split; [lia|]. split; [lia|].
    rewrite <- app_assoc in E. apply skipn_prefix in E as [Q1 [Q2 Q3]]; auto.
    rewrite H1, <- Q2. apply firstn_app_exact.
Qed.

Lemma after_next_at_content content n :
  at_content content (after_next n (scanner_init content)).
Proof.
  assert (G : forall n sc, at_content content sc -> sc_upcoming sc = None ->
              at_content content (after_next n sc)).
  { induction n0 as [|m IH]; intros sc A U; simpl; auto.
    destruct (next sc) as [t sc'] eqn:N. simpl. apply IH.
    - apply (next_at_content content) in N; tauto.
    - apply next_spec in N; tauto. }
  apply G; auto. split; simpl; auto. lia.
Qed.

Lemma token_text_located content n :
  firstn (length (tok_text (token_at content n)))
         (skipn (tok_off (token_at content n)) content) = tok_text (token_at content n) /\
  tok_off (token_at content n) + length (tok_text (token_at content n)) <= length content.
Proof.
  unfold token_at. destruct (next (after_next n (scanner_init content))) as [t sc'] eqn:N.
  apply (next_at_content content) in N.
  - simpl. destruct N as [[N0 _] [_ [_ [N1 N2]]]]. rewrite N1. auto.
  - apply after_next_at_content.
  - apply after_next_upcoming; auto.
Qed.

Lemma lines_inv content sc t sc' :
  at_content content sc -> sc_upcoming sc = None -> next sc = (t, sc') ->
  (tok_type t = TNotIn -> ~ In NL (tok_text t)) ->
  sc_lines sc = line_map_of (firstn (sc_off sc) content) ->
  sc_lines sc' = line_map_of (firstn (sc_off sc') content).
Proof.
  intros [A1 A2] U N Hn Hl. apply next_spec in N as [U' N]; auto.
  destruct N as [[Et [_ [H1 [H2 H3]]]]|[g [E [_ [_ [_ [H1 [H2 [H3 _]]]]]]]]].
  - rewrite H3, Hl. unfold line_map_of.
    assert (Er : skipn (sc_off sc) content = sc_rest sc ++ []) by (rewrite app_nil_r; auto).
    apply skipn_prefix in Er as [P1 [P2 P3]]; auto. rewrite H2, P3, newline_starts_app.
    simpl. do 2 f_equal. rewrite firstn_length. f_equal. lia.
  - rewrite H3, Hl. unfold line_map_of. rewrite A2, app_assoc in E.
    apply skipn_prefix in E as [P1 [P2 P3]]; auto. rewrite app_length in P3.
    rewrite H2, <- Nat.add_assoc, P3, !newline_starts_app.
    assert (Lf : 0 + length (firstn (sc_off sc) content) = sc_off sc)
      by (rewrite firstn_length; lia).
    rewrite Lf. simpl. do 3 f_equal.
    unfold pushes_of. destruct (toktype_beq (tok_type t) TNotIn) eqn:B; auto.
    apply internal_toktype_dec_bl in B. rewrite newline_starts_none; auto.
Qed.

Lemma lines_after content n :
  (forall i, i < n -> tok_type (token_at content i) = TNotIn ->
             ~ In NL (tok_text (token_at content i))) ->
  let sc := after_next n (scanner_init content) in
  sc_lines sc = line_map_of (firstn (sc_off sc) content).
Proof.
  induction n as [|n IH]; intros H; [reflexivity|]. cbv zeta.
  replace (S n) with (n + 1) by lia. rewrite after_next_plus. simpl.
  destruct (next (after_next n (scanner_init content))) as [t sc'] eqn:N. simpl.
  eapply lines_inv.
  - apply after_next_at_content.
  - apply after_next_upcoming. reflexivity.
  - exact N.
  - intros Ht. specialize (H n). unfold token_at in H. rewrite N in H. apply H; auto.
  - apply IH. intros i Hi. apply H. lia.
Qed.

Lemma token_before content i n :
  i < n -> tok_off (token_at content i) + length (tok_text (token_at content i))
           <= sc_off (after_next n (scanner_init content)).
Proof.
  intros L. replace n with (i + S (n - i - 1)) by lia. rewrite after_next_plus. simpl.
  unfold token_at. destruct (next (after_next i (scanner_init content))) as [t sc'] eqn:N. simpl.
  assert (N' := N). apply (next_at_content content) in N.
  2: apply after_next_at_content. 2: apply after_next_upcoming; auto.
  destruct N as [A [_ [_ [N1 _]]]]. rewrite N1.
  assert (G : forall m sc, at_content content sc -> sc_upcoming sc = None ->
              sc_off sc <= sc_off (after_next m sc)).
  { induction m as [|m IH]; intros sc A' U'; simpl; auto.
    destruct (next sc) as [t2 sc2] eqn:N2. simpl.
    assert (N3 := N2). apply (next_at_content content) in N2; auto.
    apply next_spec in N3; auto. destruct N2 as [A2 [L2 _]]. destruct N3 as [U2 _].
    specialize (IH sc2 A2 U2). lia. }
  apply G; auto. apply next_spec in N'; [tauto|]. apply after_next_upcoming; auto.
Qed.

Lemma is_position_firstn content k p lc :
  p <= k -> is_position (firstn k content) p lc -> is_position content p lc.
Proof.
  intros L [b [l [E H]]]. exists b, l. rewrite firstn_firstn, Nat.min_l in E by lia. auto.
Qed.

Theorem token_positions content n i :
  (forall j, j < n -> tok_type (token_at content j) = TNotIn ->
             ~ In NL (tok_text (token_at content j))) ->
  i < n ->
  let t := token_at content i in
  exists a b,
    get_range (sc_lines (after_next n (scanner_init content))) (tok_off t) (length (tok_text t))
      = Some (a, b) /\
    is_position content (tok_off t) a /\
    is_position content (tok_off t + length (tok_text t)) b.
Proof.
  intros H L t. subst t. assert (B := token_before content i n L).
  rewrite lines_after by auto.
  set (t := token_at content i) in *.
  set (k := sc_off (after_next n (scanner_init content))) in *.
  assert (Lk : k <= length content) by apply after_next_at_content.
  assert (Lf : length (firstn k content) = k) by (rewrite firstn_length; lia).
  destruct (get_pos_true (firstn k content) (tok_off t)) as [a [Ea Pa]]; [lia|].
  destruct (get_pos_true (firstn k content) (tok_off t + length (tok_text t))) as [b [Eb Pb]]; [lia|].
  exists a, b. unfold get_range. rewrite Ea, Eb. split; auto.
  split; apply (is_position_firstn content k); auto; lia.
Qed.

(** The CHECK in PushNewline never fails: positions are pushed in strictly
    ascending order. *)
From Coq Require Import Sorted.
Lemma sorted_app (l1 l2 : list nat) m :
  StronglySorted lt l1 -> StronglySorted lt l2 ->
  (forall x, In x l1 -> x <= m) -> (forall x, In x l2 -> m < x) ->
  StronglySorted lt (l1 ++ l2).
Proof.
  intros S1 S2 H1 H2. induction S1 as [|x l S IH F]; simpl; auto.
  constructor.
  - apply IH. intros y Hy. apply H1. simpl; auto.
  - rewrite Forall_app. split; auto. apply Forall_forall. intros y Hy.
    specialize (H1 x (or_introl eq_refl)). specialize (H2 y Hy). lia.
Qed.
Lemma newline_starts_sorted k s : StronglySorted lt (newline_starts k s).
Proof.
  revert k. induction s as [|c s IH]; intros k; simpl; [constructor|].
  destruct (ceqb c NL); simpl; auto. constructor; auto.
  apply Forall_forall. intros x Hx. apply newline_starts_bounds in Hx. lia.
Qed.

Theorem lines_sorted content n :
  StronglySorted lt (sc_lines (after_next n (scanner_init content))).
Proof.
  assert (G : forall n sc, sc_upcoming sc = None ->
     StronglySorted lt (sc_lines sc) -> (forall x, In x (sc_lines sc) -> x <= sc_off sc) ->
     StronglySorted lt (sc_lines (after_next n sc)) ).
  { induction n0 as [|m IH]; intros sc U S B; simpl; auto.
    destruct (next sc) as [t sc'] eqn:N. simpl.
    apply next_spec in N as [U' N]; auto.
    destruct N as [[_ [_ [_ [H2 H3]]]]|[g [_ [_ [_ [_ [H1 [H2 [H3 _]]]]]]]]].
    - apply IH; auto; rewrite H3.
      + apply (sorted_app _ _ (sc_off sc)); auto; [apply newline_starts_sorted|].
        intros x Hx. apply newline_starts_bounds in Hx. lia.
      + intros x Hx. apply in_app_or in Hx as [Hx|Hx].
        * specialize (B x Hx). lia.
        * apply newline_starts_bounds in Hx. lia.
    - assert (P : forall x, In x (pushes_of (tok_type t) (sc_off sc + length g) (tok_text t)) ->
                  sc_off sc + length g < x <= sc_off sc + length g + length (tok_text t)).
      { intros x Hx. unfold pushes_of in Hx. destruct (toktype_beq _ _); [destruct Hx|].
        apply newline_starts_bounds in Hx. lia. }
      apply IH; auto; rewrite H3.
      + apply (sorted_app _ _ (sc_off sc)); auto.
        * apply (sorted_app _ _ (sc_off sc + length g)).
          -- apply newline_starts_sorted.
          -- unfold pushes_of. destruct (toktype_beq _ _); [constructor|apply newline_starts_sorted].
          -- intros x Hx. apply newline_starts_bounds in Hx. lia.
          -- intros x Hx. apply P in Hx. lia.
        * intros x Hx. apply in_app_or in Hx as [Hx|Hx].
          -- apply newline_starts_bounds in Hx. lia.
          -- apply P in Hx. lia.
      + intros x Hx. apply in_app_or in Hx as [Hx|Hx].
        * specialize (B x Hx). lia.
        * apply in_app_or in Hx as [Hx|Hx].
          -- apply newline_starts_bounds in Hx. lia.
          -- apply P in Hx. lia. }
  apply G; auto; simpl.
  - repeat constructor.
  - intros x [<-|[]]. auto.
Qed.

(** ** Words *)
Lemma nth_error_skipn_0 {A} (l : list A) k : nth_error (skipn k l) 0 = nth_error l k.
Proof. revert l. induction k as [|k IH]; intros [|x l]; simpl; auto. apply IH. Qed.

Theorem words_maximal content n :
  is_word_token (token_at content n) ->
  forall d, nth_error content (tok_off (token_at content n)
                               + length (tok_text (token_at content n))) = Some d ->
  ~ In d word_chars.
Proof.
  unfold token_at. destruct (next (after_next n (scanner_init content))) as [t sc'] eqn:N. simpl.
  intros W d Hd Hin. apply identifier_char_word in Hin.
  assert (N' := N). apply (next_at_content content) in N.
  2: apply after_next_at_content. 2: apply after_next_upcoming; auto.
  destruct N as [[A1 A2] [_ [_ [N1 _]]]].
  apply next_spec in N' as [_ [[-> _]|[g [_ [_ [_ [_ [_ [_ [_ [_ [_ [_ H]]]]]]]]]]]]].
  - destruct W as [W|[W _]]; simpl in W; [intuition discriminate|discriminate].
  - rewrite N1 in Hd.
    destruct (sc_rest sc') as [|e r] eqn:R.
    + apply (f_equal (@length _)) in A2. rewrite skipn_length in A2. simpl in A2.
      assert (sc_off sc' < length content) by (apply nth_error_Some; congruence). lia.
    + specialize (H W e r eq_refl).
      assert (e = d).
      { rewrite <- nth_error_skipn_0, <- A2 in Hd. simpl in Hd. congruence. }
      subst. congruence.
  - apply after_next_upcoming; auto.
Qed.

(** ** String literals *)
Lemma escape_state_app a b e : escape_state (a ++ b) e = escape_state b (escape_state a e).
Proof. revert e. induction a as [|c a IH]; intros e; simpl; auto. Qed.

Lemma scan_string_single q s : forall pos esc n p,
  scan_string q false s pos 1 esc = (true, n, p) ->
  forall i, i < n -> ~ (nth_error s i = Some q /\ escape_state (firstn i s) esc = false).
Proof.
  induction s as [|c s IH]; intros pos esc n p; cbn [scan_string]; [discriminate|].
  destruct (ceqb_spec c q) as [E|N]; [destruct esc|]; simpl.
  - destruct (scan_string q false s (S pos) 1 (ceqb c BSL && false)) as [[ok n'] p'] eqn:R.
    intros X. injection X as -> <- <-. intros [|i] Hi [A B]; simpl in *; [discriminate|].
    apply (IH _ _ _ _ R i); auto. lia.
  - intros X. injection X as <- <-. intros i Hi. lia.
  - destruct (scan_string q false s (S pos) 1 (ceqb c BSL && negb esc)) as [[ok n'] p'] eqn:R.
    intros X. injection X as -> <- <-. intros [|i] Hi [A B]; simpl in *; [congruence|].
    apply (IH _ _ _ _ R i); auto. lia.
Qed.

Lemma scan_string_escape q triple s : forall pos count esc n p,
  scan_string q triple s pos count esc = (true, n, p) -> escape_state (firstn n s) esc = false.
Proof.
  induction s as [|c s IH]; intros pos count esc n p; cbn [scan_string]; [discriminate|].
  destruct (_ && _) eqn:Q.
  - apply andb_true_iff in Q as [Q _]. apply andb_true_iff in Q as [_ Q]. apply negb_true_iff in Q.
    intros E. injection E as <- <-. exact Q.
  - destruct (scan_string _ _ s _ _ _) as [[ok n'] p'] eqn:R. intros E. injection E as -> <- <-.
    apply IH in R. exact R.
Qed.

Lemma scan_string_triple q s : forall pos c esc n p,
  ceqb q BSL = false -> 1 <= c <= 3 -> (c < 3 -> esc = false) -> scan_string q true s pos c esc = (true, n, p) ->
  exists body, repeat q (3 - c) ++ firstn n s = body ++ [q; q] /\ escape_state body esc = false.
Proof.
  induction s as [|x s IH]; intros pos c esc n p Hq Hc He; cbn [scan_string]; [discriminate|].
  destruct (ceqb x q && negb esc) eqn:Q.
  - apply andb_true_iff in Q as [Q Q']. apply ceqb_eq in Q. subst x. apply negb_true_iff in Q'. subst esc. cbn [andb].
    destruct (Nat.eqb_spec (c - 1) 0) as [Z|Z].
    + intros X. injection X as <- <-. exists []. replace c with 1 by lia. split; reflexivity.
    + destruct (scan_string q true s (S pos) (c - 1) (ceqb q BSL && negb false)) as [[ok n'] p'] eqn:R.
      intros X. injection X as -> <- <-. rewrite Hq in R. apply IH in R as [body [E E2]]; [|auto|lia|auto].
      exists body. split; [|exact E2]. rewrite <- E. replace (3 - (c - 1)) with (3 - c + 1) by lia.
      rewrite repeat_app, <- app_assoc. reflexivity.
  - cbn [andb].
    destruct (scan_string q true s (S pos) 3 (ceqb x BSL && negb esc)) as [[ok n'] p'] eqn:R.
    intros X. injection X as -> <- <-. apply IH in R as [body [E E2]]; [|auto|lia|lia].
    simpl in E. exists (repeat q (3 - c) ++ x :: body). split; [simpl; rewrite E, <- app_assoc; reflexivity|].
    assert (escape_state (repeat q (3 - c)) esc = esc) as K.
    { destruct (3 - c) as [|[|[|k]]] eqn:C; [reflexivity| | |lia]; rewrite He by lia; simpl; rewrite Hq; reflexivity. }
    rewrite escape_state_app, K. exact E2.
Qed.

Lemma scan_string_complete q rest body : forall pos esc,
  (forall i, ~ (nth_error body i = Some q /\ escape_state (firstn i body) esc = false)) ->
  escape_state body esc = false ->
  scan_string q false (body ++ q :: rest) pos 1 esc
  = (true, length body, newline_starts pos body).
Proof.
  induction body as [|c body IH]; intros pos esc H1 H2.
  - simpl in *. subst. rewrite ceqb_refl. reflexivity.
  - cbn [app scan_string].
    assert (Q : ceqb c q && negb esc = false).
    { destruct (ceqb_spec c q) as [->|]; auto. destruct esc; auto.
      exfalso. apply (H1 0). auto. }
    rewrite Q. cbn [andb]. rewrite IH; auto.
    intros i [A B]. apply (H1 (S i)). auto.
Qed.

(** Strings are found by the dispatch only at quotes or r-prefixed quotes. *)
Lemma scan_token_string c r pos k p :
  scan_token (c :: r) pos = (TStringLiteral, k, p) ->
  handle_string (c :: r) pos = (TStringLiteral, k, p) /\
  ((c = DQ \/ c = SQ) \/
   ((c = "r"%char \/ c = "R"%char) /\ exists d r', r = d :: r' /\ (d = DQ \/ d = SQ))).
Proof.
  unfold scan_token.
  repeat (match goal with |- context [if ceqb c ?x then (_, 1, []) else _] =>
            destruct (ceqb c x); [discriminate|] end).
  assert (R : forall t1 t2 s, t1 <> TStringLiteral -> t2 <> TStringLiteral ->
                handle_relational t1 t2 s <> (TStringLiteral, k, p)).
  { intros t1 t2 s N1 N2. unfold handle_relational. destruct s as [|? [|d s]]; try congruence.
    destruct (ceqb d "="); congruence. }
  repeat (match goal with |- context [if ceqb c ?x then handle_relational ?a ?b ?s else _] =>
            destruct (ceqb c x); [intros E; exfalso; apply (R a b s) in E; auto; discriminate|] end).
  destruct (is_digit c).
  { unfold handle_number. match goal with |- (let '(_, _) := ?x in _) = _ -> _ => destruct x as [f sk] end.
    destruct (scan_number f (skipn sk (c :: r)) false) as [ok n]. destruct ok; discriminate. }
  destruct (ceqb c DQ || ceqb c SQ) eqn:Q.
  { intros E. split; auto. left. apply orb_true_iff in Q as [Q|Q]; apply ceqb_eq in Q; auto. }
  unfold handle_identifier.
  destruct ((2 <? length (c :: r)) && (ceqb c "r" || ceqb c "R") &&
            match r with d :: _ => ceqb d DQ || ceqb d SQ | [] => false end) eqn:Raw.
  - intros E. split; auto. right.
    apply andb_true_iff in Raw as [Raw R3]. apply andb_true_iff in Raw as [_ R2].
    destruct r as [|d r]; [discriminate|].
    apply orb_true_iff in R2 as [R2|R2]; apply ceqb_eq in R2;
        apply orb_true_iff in R3 as [R3|R3]; apply ceqb_eq in R3; split; eauto 6.
  - destruct (negb (is_identifier_char c)); [discriminate|].
    destruct (str_eqb _ ($"not")).
    { destruct (consume_optional_in _); discriminate. }
    repeat (match goal with |- context [str_eqb ?a ?b] => destruct (str_eqb a b) end;
            [discriminate|]).
    discriminate.
Qed.

Lemma handle_string_shape s pos k p :
  (match s with
   | c :: r => (c = DQ \/ c = SQ) \/
               ((c = "r"%char \/ c = "R"%char) /\ exists d r', r = d :: r' /\ (d = DQ \/ d = SQ))
   | [] => False
   end) ->
  handle_string s pos = (TStringLiteral, k, p) ->
  exists raw q triple body,
    firstn k s = string_literal raw q triple body /\
    (raw = None \/ raw = Some "r"%char \/ raw = Some "R"%char) /\ (q = DQ \/ q = SQ) /\
    (triple = false -> (forall i, ~ active_quote q body i) /\
                       ~ (exists r, body ++ [q] = q :: q :: r)) /\
    escape_state body false = false.
Proof.
  intros Hs. unfold handle_string.
  set (prefix := match s with c :: _ => if ceqb c "r" || ceqb c "R" then 1 else 0 | [] => 0 end).
  assert (Hp : exists raw q body, skipn prefix s = q :: body /\ (q = DQ \/ q = SQ) /\
               firstn prefix s = (match raw with Some r => [r] | None => [] end) /\
               (raw = None \/ raw = Some "r"%char \/ raw = Some "R"%char) /\
               prefix = length (match raw with Some r => [r] | None => [] end)).
  { destruct s as [|c r]; [tauto|]. destruct Hs as [Hs|[Hs [d [r' [-> Hd]]]]].
    - exists None, c, r. assert (prefix = 0) by (unfold prefix; destruct Hs; subst; reflexivity).
      rewrite H. simpl. auto 6.
    - exists (Some c), d, r'. assert (prefix = 1) by (unfold prefix; destruct Hs; subst; reflexivity).
      rewrite H. simpl. split; auto. split; auto. split; auto. destruct Hs; subst; auto. }
  destruct Hp as [raw [q [body [Ep [Hq [Hf [Hr Hl]]]]]]]. rewrite Ep.
  assert (Es : s = (match raw with Some r => [r] | None => [] end) ++ q :: body).
  { rewrite <- Hf, <- Ep. symmetry. apply firstn_skipn. }
  set (triple := match body with a :: b :: _ => ceqb a q && ceqb b q | _ => false end).
  destruct (scan_string q triple (skipn (prefix + (if triple then 3 else 1)) s)
             (pos + (prefix + (if triple then 3 else 1))) (if triple then 3 else 1) false)
    as [[ok n] p'] eqn:R.
  destruct ok; [|discriminate]. intros E. injection E as <- <-.
  set (pre := match raw with Some r => [r] | None => [] end) in *.
  exists raw, q, triple.
  assert (R' := R). apply scan_string_spec in R' as [H1 [H2 [H3 _]]]. specialize (H3 eq_refl).
  unfold string_literal. fold pre.
  destruct triple eqn:T.
  - unfold triple in T. destruct body as [|a [|b body]]; try discriminate.
    apply andb_true_iff in T as [T1 T2]. apply ceqb_eq in T1, T2. subst a b.
    assert (Sk : skipn (prefix + 3) s = body).
    { rewrite Es, Hl.
      replace (pre ++ q :: q :: q :: body) with ((pre ++ [q; q; q]) ++ body)
        by (rewrite <- app_assoc; reflexivity).
      replace (length pre + 3) with (length (pre ++ [q; q; q])) by (rewrite app_length; reflexivity).
      apply skipn_app_exact. }
    rewrite Sk in *. apply scan_string_triple in R as [b [Eb Ee]]; [|destruct Hq; subst; reflexivity|lia|auto]. simpl in Eb.
    exists b. split; [|split; auto; split; auto; split; [discriminate|exact Ee]].
    apply nth_error_split in H3 as [l1 [l2 [E1 E2]]].
    rewrite E1, <- E2, firstn_app_exact in Eb.
    rewrite Es, E1, Eb.
    replace (pre ++ q :: q :: q :: (b ++ [q; q]) ++ q :: l2)
      with ((pre ++ [q; q; q] ++ b ++ [q; q; q]) ++ l2)
      by (rewrite <- !app_assoc; reflexivity).
    replace (prefix + 3 + n + 1) with (length (pre ++ [q; q; q] ++ b ++ [q; q; q])).
    2:{ rewrite Hl, <- E2, Eb, !app_length. simpl. lia. }
    apply firstn_app_exact.
  - assert (Sk : skipn (prefix + 1) s = body).
    { rewrite Es, Hl.
      replace (pre ++ q :: body) with ((pre ++ [q]) ++ body) by (rewrite <- app_assoc; reflexivity).
      replace (length pre + 1) with (length (pre ++ [q])) by (rewrite app_length; reflexivity).
      apply skipn_app_exact. }
    rewrite Sk in *. assert (A := scan_string_single _ _ _ _ _ _ R). assert (A' := scan_string_escape _ _ _ _ _ _ _ _ R).
    apply nth_error_split in H3 as [l1 [l2 [E1 E2]]].
    exists l1. split; [|split; auto; split; auto; split]; cycle 2.
    { rewrite E1, <- E2, firstn_app_exact in A'. exact A'. }
    + rewrite Es, E1.
      replace (pre ++ q :: l1 ++ q :: l2) with ((pre ++ [q] ++ l1 ++ [q]) ++ l2)
        by (rewrite <- !app_assoc; reflexivity).
      replace (prefix + 1 + n + 1) with (length (pre ++ [q] ++ l1 ++ [q])).
      2:{ rewrite Hl, <- E2, !app_length. simpl. lia. }
      apply firstn_app_exact.
    + intros _. split.
      * intros i [B1 B2]. assert (Hi : i < length l1) by (apply nth_error_Some; congruence).
        apply (A i); [lia|]. rewrite E1. split.
        -- rewrite nth_error_app1; auto.
        -- rewrite firstn_app. replace (i - length l1) with 0 by lia. simpl.
           rewrite app_nil_r. auto.
      * intros [r X]. unfold triple in T. rewrite E1 in T.
        replace (l1 ++ q :: l2) with ((l1 ++ [q]) ++ l2) in T by (rewrite <- app_assoc; reflexivity).
        rewrite X in T. simpl in T. rewrite ceqb_refl in T. discriminate.
Qed.

Theorem string_token_shape content n :
  tok_type (token_at content n) = TStringLiteral ->
  exists raw q triple body,
    tok_text (token_at content n) = string_literal raw q triple body /\
    (raw = None \/ raw = Some "r"%char \/ raw = Some "R"%char) /\ (q = DQ \/ q = SQ) /\
    (triple = false -> (forall i, ~ active_quote q body i) /\
                       ~ (exists r, body ++ [q] = q :: q :: r)) /\
    escape_state body false = false.
Proof.
  unfold token_at. assert (U : sc_upcoming (after_next n (scanner_init content)) = None)
    by (apply after_next_upcoming; auto).
  unfold next. rewrite U.
  destruct (skip_space _ _ false) as [m p].
  destruct (skipn m _) as [|c r]; [discriminate|].
  destruct (scan_token (c :: r) _) as [[ty k] p2] eqn:Tk. simpl. intros ->.
  apply scan_token_string in Tk as [H1 H2]. apply handle_string_shape in H1; auto.
Qed.

Lemma from_literal_shape raw q (triple : bool) body :
  (raw = None \/ raw = Some "r"%char \/ raw = Some "R"%char) -> (q = DQ \/ q = SQ) ->
  (triple = false -> ~ (exists r, body ++ [q] = q :: q :: r)) ->
  ~ (triple = true /\ q = SQ) ->
  string_from_literal (string_literal raw q triple body)
  = Some ((if raw then 1 else 0) + (if triple then 3 else 1), body, triple, if raw then true else false).
Proof.
  intros Hr Hq Hb Ht. unfold string_from_literal, string_literal.
  set (l := (if triple then [q; q; q] else [q]) ++ body ++ (if triple then [q; q; q] else [q])).
  assert (Q : ceqb q "r" || ceqb q "R" = false) by (destruct Hq; subst; reflexivity).
  assert (Hd : exists c x, (match raw with Some r => [r] | None => [] end) ++ l = c :: x /\
     ceqb c "r" || ceqb c "R" = (if raw then true else false) /\
     skipn (if (if raw then true else false) then 1 else 0) (c :: x) = l).
  { destruct Hr as [->|[->| ->]].
    - exists q, ((if triple then [q; q] else []) ++ body ++ (if triple then [q; q; q] else [q])).
      split; [destruct triple; reflexivity|]. split; auto. destruct triple; reflexivity.
    - exists "r"%char, l. auto.
    - exists "R"%char, l. auto. }
  destruct Hd as [c [x [Hdd [Hec Hes]]]]. rewrite Hdd, Hec.
  replace (if raw then 1 else 0) with (if (if raw then true else false) then 1 else 0)
    by (destruct raw; reflexivity).
  rewrite Hes. destruct triple.
  - assert (q = DQ) by (destruct Hq; auto; exfalso; auto). subst q.
    assert (L : length l = 6 + length body) by (unfold l; rewrite !app_length; simpl; lia).
    assert (S3 : starts_with [DQ; DQ; DQ] l = true) by (apply starts_with_iff; unfold l; eauto).
    rewrite S3, L. cbn [Nat.leb andb]. replace (6 + length body - 6) with (length body) by lia.
    unfold l. simpl. rewrite firstn_app_exact. reflexivity.
  - assert (L : length l = 2 + length body) by (unfold l; rewrite !app_length; simpl; lia).
    assert (S3 : (6 <=? length l) && starts_with [DQ; DQ; DQ] l = false).
    { apply andb_false_iff. right. destruct (starts_with [DQ; DQ; DQ] l) eqn:S3; auto.
      apply starts_with_iff in S3 as [r S3]. exfalso. apply Hb; auto.
      unfold l in S3. simpl in S3. injection S3 as -> S3. exists r. auto. }
    rewrite S3, L. cbn [Nat.leb]. replace (2 + length body - 2) with (length body) by lia.
    unfold l. simpl. rewrite firstn_app_exact. reflexivity.
Qed.

(** ** Integers *)
Lemma digit_value_digit c d : digit c d -> digit_value c = d /\ (0 <= d)%Z.
Proof.
  intros H. inversion H as [i c' F|i c' F|i c' F]; subst;
    (split; [|lia]); cbn in F;
    repeat (match type of F with
            | context [if ceqb ?x c then _ else _] =>
                destruct (ceqb_spec x c); [subst c; injection F as <-; reflexivity|]
            end); discriminate.
Qed.

Lemma numeral_spec base s v : (0 < base)%Z -> numeral base s v ->
  s <> [] /\ (0 <= v)%Z /\ forallb (is_base_digit base) s = true /\
  forall acc, digits_value base acc s = (acc * base ^ Z.of_nat (length s) + v)%Z.
Proof.
  intros Hb H. induction H as [c d Hd Hlt|c s d v Hd Hlt H IH].
  - apply digit_value_digit in Hd as [Hd Hp]. split; [discriminate|]. split; auto. split.
    + simpl. unfold is_base_digit. rewrite Hd, andb_true_r. apply Z.ltb_lt. auto.
    + intros acc. cbn [digits_value length]. rewrite Hd. lia.
  - apply digit_value_digit in Hd as [Hd Hp]. destruct IH as [_ [Hv [Hf IH]]].
    split; [discriminate|].
    assert (0 <= base ^ Z.of_nat (length s))%Z by (apply Z.pow_nonneg; lia).
    split; [nia|]. split.
    + cbn [forallb]. rewrite Hf, andb_true_r. unfold is_base_digit. rewrite Hd. apply Z.ltb_lt. auto.
    + intros acc. cbn [digits_value length]. rewrite IH, Hd, Nat2Z.inj_succ, Z.pow_succ_r by lia. ring.
Qed.

Lemma span_len_forallb f s : forallb f s = true -> span_len f s = length s.
Proof. induction s as [|c s IH]; simpl; auto. destruct (f c); simpl; intros; [f_equal; auto|discriminate]. Qed.

Lemma from_chars_numeral base s v : (1 < base <= 16)%Z -> numeral base s v ->
  from_chars base s = if (v <=? int64_max)%Z then Some v else None.
Proof.
  intros Hb H. apply numeral_spec in H as [H1 [H2 [H3 H4]]]; [|lia].
  unfold from_chars. destruct s as [|c s]; [contradiction|].
  destruct (ceqb_spec c "-") as [->|_].
  { simpl in H3. apply andb_true_iff in H3 as [H3 _]. unfold is_base_digit in H3.
    apply Z.ltb_lt in H3. change (digit_value "-") with 1000%Z in H3. lia. }
  rewrite span_len_forallb by auto. cbn [length Nat.eqb].
  rewrite firstn_all2 by (simpl; lia). rewrite H4. rewrite Z.mul_0_l, Z.add_0_l.
  replace (int64_min <=? v)%Z with true by (symmetry; apply Z.leb_le; unfold int64_min; lia).
  reflexivity.
Qed.

Lemma numeral_dec_not c s v : numeral 10 s v -> In c s -> ceqb c "o" = false /\ ceqb c "x" = false.
Proof.
  intros H I. apply numeral_spec in H as [_ [_ [H _]]]; [|lia].
  rewrite forallb_forall in H. apply H in I. 
  split; apply ceqb_neq; intros ->; discriminate.
Qed.

Theorem decimal_literal s v : numeral 10 s v ->
  int_from_literal s = if (v <=? int64_max)%Z then Some v else None.
Proof.
  intros H. assert (E := from_chars_numeral 10 s v ltac:(lia) H).
  unfold int_from_literal. destruct s as [|a [|b s]]; auto.
  destruct (numeral_dec_not b _ _ H) as [-> ->]; simpl; auto.
Qed.
Theorem octal_literal s v : numeral 8 s v ->
  int_from_literal ($"0o" ++ s) = if (v <=? int64_max)%Z then Some v else None.
Proof. apply (from_chars_numeral 8). lia. Qed.
Theorem hex_literal s v : numeral 16 s v ->
  int_from_literal ($"0x" ++ s) = if (v <=? int64_max)%Z then Some v else None.
Proof. apply (from_chars_numeral 16). lia. Qed.

(** No literal wraps around. *)
Theorem int_literal_in_range s v : int_from_literal s = Some v -> (int64_min <= v <= int64_max)%Z.
Proof.
  assert (F : forall base r, from_chars base r = Some v -> (int64_min <= v <= int64_max)%Z).
  { intros base r. unfold from_chars.
    match goal with |- (let '(_, _) := ?x in _) = _ -> _ => destruct x as [neg l] end.
    destruct (_ =? 0); [discriminate|].
    match goal with |- context [(int64_min <=? ?x)%Z] => set (y := x) end.
    destruct (Z.leb_spec int64_min y); [|discriminate].
    destruct (Z.leb_spec y int64_max); [|discriminate].
    simpl. intros E. injection E as <-. lia. }
  unfold int_from_literal. destruct s as [|a [|b r]]; try apply F.
  destruct (ceqb b "o"); [apply F|]. destruct (ceqb b "x"); apply F.
Qed.

(** A decimal numeral is one token. *)
Lemma scan_number_run f s rest : forallb f s = true ->
  (forall c, f c = true -> ceqb c "." = false) ->
  (match rest with c :: _ => f c = false /\ ceqb c "." = false | [] => True end) ->
  scan_number f (s ++ rest) false = (true, length s).
Proof.
  intros Hs Hf Hr. induction s as [|c s IH].
  - destruct rest as [|c r]; auto. destruct Hr as [Hr E]. cbn [app scan_number].
    rewrite Hr, E. reflexivity.
  - simpl in Hs. apply andb_true_iff in Hs as [Hc Hs]. cbn [app scan_number].
    rewrite Hc, (Hf _ Hc). cbn [orb andb]. rewrite IH by auto. reflexivity.
Qed.
