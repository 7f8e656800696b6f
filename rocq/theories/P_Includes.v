(** Proofs about include directives. *)
From Coq Require Import Sorted.
From Verif Require Import Base M_Includes S_Includes.

Lemma re_space_white c : re_space c = true <-> white c.
Proof.
  unfold re_space, white. rewrite !orb_true_iff, !ceqb_eq. cbn [In]. unfold NL. intuition congruence.
Qed.
Lemma is_alpha_letter c : is_alpha c = true <-> letter c.
Proof.
  unfold is_alpha, is_lower, is_upper, in_range, letter. rewrite orb_true_iff, !andb_true_iff, !N.leb_le.
  change (code "a") with 97%N. change (code "z") with 122%N. change (code "A") with 65%N. change (code "Z") with 90%N. tauto.
Qed.
Lemma path_char_name c : path_char c = true <-> name_char c.
Proof.
  unfold path_char, name_char, is_alnum. rewrite !orb_true_iff, is_alpha_letter, !ceqb_eq.
  unfold is_digit, in_range, digit. rewrite andb_true_iff, !N.leb_le.
  change (code "0") with 48%N. change (code "9") with 57%N. cbn [In]. intuition congruence.
Qed.
Lemma name_char_not c : name_char c -> c <> "."%char /\ c <> "#"%char /\ c <> DQ.
Proof. intros H. apply path_char_name in H. repeat split; intros ->; discriminate H. Qed.
Lemma letter_not c : letter c -> c <> "."%char /\ c <> "#"%char /\ c <> DQ.
Proof. intros H. apply is_alpha_letter in H. repeat split; intros ->; discriminate H. Qed.
Lemma white_not c : white c -> c <> "#"%char /\ c <> DQ /\ c <> "i"%char.
Proof. intros H. apply re_space_white in H. repeat split; intros ->; discriminate H. Qed.

(** Skipping. *)
Lemma skip_while_app f w s : Forall (fun c => f c = true) w ->
  match s with [] => True | c :: _ => f c = false end -> skip_while f (w ++ s) = s.
Proof.
  induction w as [|c w IH]; intros F Hs; cbn [app].
  - destruct s as [|c s]; cbn; auto. now rewrite Hs.
  - inversion F; subst. cbn. rewrite H1. auto.
Qed.
Lemma skip_while_split f s : exists w, s = w ++ skip_while f s /\ Forall (fun c => f c = true) w /\
  match skip_while f s with [] => True | c :: _ => f c = false end.
Proof.
  induction s as [|c s IH]; cbn.
  - exists []. repeat split; auto.
  - destruct (f c) eqn:E.
    + destruct IH as (w & Hs & F & Hn). exists (c :: w). cbn. rewrite <- Hs. repeat split; auto.
    + exists []. repeat split; auto.
Qed.

Ltac len := repeat (rewrite app_length || cbn [length]); lia.

(** Paths. *)
Lemma suffixes_complete exts : forall fuel, length (concat (map (cons "."%char) exts)) <= fuel ->
  (forall e, In e exts -> e <> [] /\ Forall letter e) -> match_suffixes fuel (concat (map (cons "."%char) exts)) = true.
Proof.
  induction exts as [|e exts IH]; intros fuel Hl H.
  - destruct fuel; reflexivity.
  - destruct (H e (or_introl eq_refl)) as [Ne Fe]. cbn [map concat app] in Hl |- *. cbn [length] in Hl.
    destruct fuel as [|fuel]; [lia|]. cbn [match_suffixes]. destruct e as [|d e]; [contradiction|].
    rewrite skip_while_app.
    + cbn [app]. inversion Fe; subst. rewrite (proj2 (is_alpha_letter d)) by auto. cbn.
      apply IH; [rewrite app_length in Hl; lia|intros; apply H; cbn; auto].
    + eapply Forall_impl; [|exact Fe]. intros a. apply is_alpha_letter.
    + destruct exts; cbn; auto.
Qed.
Lemma suffixes_sound : forall fuel s, length s <= fuel -> match_suffixes fuel s = true ->
  exists exts, s = concat (map (cons "."%char) exts) /\ (forall e, In e exts -> e <> [] /\ Forall letter e).
Proof.
  induction fuel as [|fuel IH]; intros s Hl H.
  - destruct s; [|discriminate]. exists []. split; auto. intros e [].
  - destruct s as [|c s]; [exists []; split; auto; intros e []|]. cbn in H.
    apply andb_true_iff in H as [H1 H2]. apply andb_true_iff in H1 as [Hc Hd]. apply ceqb_eq in Hc as ->.
    destruct (skip_while_split is_alpha s) as (w & Hs & F & Hn).
    destruct (IH (skip_while is_alpha s)) as (exts & He & Hf); auto.
    { rewrite Hs in Hl. cbn in Hl. rewrite app_length in Hl. lia. }
    exists (w :: exts). split; [cbn [map concat app]; rewrite <- He, <- Hs; reflexivity|].
    intros e [<-|I]; auto. split.
    + intros ->. cbn in Hs. rewrite <- Hs in Hn. destruct s; congruence.
    + eapply Forall_impl; [|exact F]. intros a. apply is_alpha_letter.
Qed.
Lemma skip_dotdot_split : forall fuel s, exists n, s = concat (repeat ($"../") n) ++ skip_dotdot fuel s.
Proof.
  induction fuel as [|fuel IH]; intros s; cbn [skip_dotdot]; [exists 0; reflexivity|].
  destruct (starts_with ($"../") s) eqn:E; [|exists 0; reflexivity].
  destruct (IH (skipn 3 s)) as [n Hn]. exists (S n). cbn [repeat concat]. rewrite <- app_assoc, <- Hn.
  exact (starts_with_skipn _ _ E).
Qed.
Lemma skip_dotdot_app : forall n fuel s, n <= fuel -> starts_with ($"../") s = false ->
  skip_dotdot fuel (concat (repeat ($"../") n) ++ s) = s.
Proof.
  induction n as [|n IH]; intros fuel s Hf Hs.
  - cbn [repeat concat app]. destruct fuel; cbn [skip_dotdot]; auto. now rewrite Hs.
  - destruct fuel as [|fuel]; [lia|]. cbn [repeat concat skip_dotdot]. rewrite <- app_assoc, starts_with_app.
    apply IH; auto. lia.
Qed.
Lemma match_path_spec p : match_path p = true <-> header_path p.
Proof.
  unfold match_path. split.
  - destruct (skip_dotdot_split (length p) p) as [n Hn]. set (s := skip_dotdot (length p) p) in *.
    destruct s as [|c s'] eqn:Es; [discriminate|]. intros H. apply andb_true_iff in H as [Hc H].
    destruct (skip_while_split path_char (c :: s')) as (w & Hs & F & Hx).
    apply suffixes_sound in H as (exts & He & Hf).
    2:{ rewrite Hs at 2. rewrite app_length. lia. }
    exists n, w, exts. rewrite <- He, <- Hs. repeat split; auto.
    + intros ->. cbn [app] in Hs. rewrite <- Hs in Hx. congruence.
    + eapply Forall_impl; [|exact F]. intros a. apply path_char_name.
    + apply Hf, H.
    + apply Hf, H.
  - intros (n & name & exts & -> & Nn & Fn & Hf). destruct name as [|c name]; [contradiction|].
    rewrite skip_dotdot_app.
    + inversion Fn; subst. cbn [app]. rewrite (proj2 (path_char_name c)) by auto. cbn [andb].
      change (c :: name ++ concat (map (cons "."%char) exts)) with ((c :: name) ++ concat (map (cons "."%char) exts)).
      rewrite skip_while_app.
      * apply suffixes_complete; auto. rewrite app_length. lia.
      * eapply Forall_impl; [|exact Fn]. intros a. apply path_char_name.
      * destruct exts; cbn; auto.
    + rewrite app_length. assert (L : n <= length (concat (repeat ($"../") n))).
      { clear. induction n as [|n IH]; cbn [repeat concat]; [lia|]. rewrite app_length. change (length ($"../")) with 3. lia. }
      lia.
    + inversion Fn; subst. cbn. destruct (ceqb_spec "."%char c) as [<-|N]; auto. apply name_char_not in H1. now destruct H1.
Qed.
Lemma header_path_chars p c : header_path p -> In c p -> c <> "#"%char /\ c <> DQ.
Proof.
  intros (n & name & exts & -> & _ & Fn & Hf) I. apply in_app_or in I as [I|I].
  - assert (J : c = "."%char \/ c = "/"%char).
    { induction n as [|n IH]; cbn [repeat concat] in I; [destruct I|]. apply in_app_or in I as [I|I]; auto.
      cbn in I. intuition. }
    destruct J as [->| ->]; split; discriminate.
  - apply in_app_or in I as [I|I].
    + rewrite Forall_forall in Fn. apply Fn, name_char_not in I. tauto.
    + apply in_concat in I as (x & I & J). apply in_map_iff in I as (e & <- & I). destruct J as [<-|J]; [split; discriminate|].
      apply Hf in I as [_ F]. rewrite Forall_forall in F. apply F, letter_not in J. tauto.
Qed.

(** A directive at the beginning of a text. *)
Definition directive (s p rest : str) : Prop :=
  exists w1 w2 w3, s = w1 ++ $"#" ++ w2 ++ $"include" ++ w3 ++ [DQ] ++ p ++ [DQ] ++ rest /\
    Forall white w1 /\ Forall white w2 /\ Forall white w3 /\ w3 <> [] /\ header_path p.
Lemma whites w : Forall white w -> Forall (fun c => re_space c = true) w.
Proof. apply Forall_impl. intros a. apply re_space_white. Qed.
Lemma match_include_spec s p rest : match_include s = Some (p, rest) <-> directive s p rest.
Proof.
  unfold match_include, directive. split.
  - destruct (skip_while_split re_space s) as (w1 & H1 & F1 & _). destruct (skip_while re_space s) as [|c s1]; [discriminate|].
    destruct (ceqb_spec c "#") as [->|]; [cbn [negb]|discriminate].
    destruct (skip_while_split re_space s1) as (w2 & H2 & F2 & _). destruct (starts_with ($"include") (skip_while re_space s1)) eqn:E; [|discriminate].
    apply starts_with_skipn in E. change (length ($"include")) with 7 in E. cbn [negb].
    destruct (skipn 7 (skip_while re_space s1)) as [|d s2]; [discriminate|]. destruct (re_space d) eqn:Ed; [cbn [negb]|discriminate].
    destruct (skip_while_split re_space s2) as (w3 & H3 & F3 & _). destruct (skip_while re_space s2) as [|q s3]; [discriminate|].
    destruct (ceqb_spec q DQ) as [->|]; [cbn [negb]|discriminate].
    destruct (find_first DQ s3) as [n|] eqn:En; [|discriminate]. destruct (match_path (firstn n s3)) eqn:Ep; [|discriminate].
    intros H. injection H as <- <-. apply find_first_some in En as [En _].
    exists w1, w2, (d :: w3). repeat split; auto.
    + rewrite H1. f_equal. change ("#"%char :: s1) with ($"#" ++ s1). f_equal. rewrite H2. f_equal. rewrite E. f_equal.
      cbn [app]. f_equal. rewrite H3. f_equal. f_equal. exact En.
    + eapply Forall_impl; [|exact F1]. intros a. apply re_space_white.
    + eapply Forall_impl; [|exact F2]. intros a. apply re_space_white.
    + constructor; [now apply re_space_white|]. eapply Forall_impl; [|exact F3]. intros a. apply re_space_white.
    + discriminate.
    + now apply match_path_spec.
  - intros (w1 & w2 & w3 & -> & F1 & F2 & F3 & N3 & Hp). apply whites in F1, F2, F3.
    rewrite skip_while_app; [|exact F1|reflexivity]. cbn [app list_ascii_of_string]. cbn [ceqb negb Ascii.eqb eqb].
    rewrite skip_while_app; auto.
    change ("i"%char :: "n"%char :: "c"%char :: "l"%char :: "u"%char :: "d"%char :: "e"%char :: w3 ++ DQ :: p ++ DQ :: rest)
      with ($"include" ++ (w3 ++ DQ :: p ++ DQ :: rest)). rewrite starts_with_app. cbn [negb].
    replace (skipn 7 ($"include" ++ (w3 ++ DQ :: p ++ DQ :: rest))) with (w3 ++ DQ :: p ++ DQ :: rest) by reflexivity.
    destruct w3 as [|d w3]; [contradiction|]. cbn [app]. inversion F3; subst. rewrite H1. cbn [negb].
    rewrite skip_while_app; auto. rewrite ceqb_refl. cbn [negb].
    assert (Ef : find_first DQ (p ++ DQ :: rest) = Some (length p)).
    { apply find_first_some. rewrite firstn_app, firstn_all, Nat.sub_diag. cbn [firstn]. rewrite app_nil_r.
      split; [|intros I; apply (header_path_chars p) in I; tauto].
      f_equal. change (S (length p)) with (1 + length p). rewrite Nat.add_comm, skipn_app, skipn_all2 by lia.
      replace (length p + 1 - length p) with 1 by lia. reflexivity. }
    rewrite Ef, firstn_app, firstn_all, Nat.sub_diag. cbn [firstn]. rewrite app_nil_r.
    rewrite (proj2 (match_path_spec p)) by auto. f_equal. f_equal.
    change (S (length p)) with (1 + length p). rewrite Nat.add_comm, skipn_app, skipn_all2 by lia.
    replace (length p + 1 - length p) with 1 by lia. reflexivity.
Qed.

(** Finding the first quote or directive. *)
Definition line_start (bol : bool) (before : str) : Prop :=
  (before = [] /\ bol = true) \/ exists b, before = b ++ [NL] \/ before = b ++ [DQ].
Lemma line_start_step bol c before : c <> DQ ->
  line_start bol (c :: before) <-> line_start (ceqb c NL) before.
Proof.
  intros N. unfold line_start. split.
  - intros [[H _]|[b Hb]]; [discriminate|]. destruct before as [|d before].
    + left. split; auto. apply ceqb_eq. destruct Hb as [Hb|Hb]; destruct b as [|? [|]]; cbn in Hb; congruence.
    + right. destruct b as [|e b]; [destruct Hb; discriminate|]. exists b. destruct Hb as [Hb|Hb]; cbn [app] in Hb; [left|right]; congruence.
  - right. destruct H as [[-> H]|[b [-> | ->]]].
    + apply ceqb_eq in H as ->. exists []. auto.
    + exists (c :: b). auto.
    + exists (c :: b). auto.
Qed.
Lemma directive_head s p rest : directive s p rest -> exists c r, s = c :: r /\ c <> DQ.
Proof.
  intros (w1 & w2 & w3 & -> & F1 & _). destruct w1 as [|c w1].
  - exists "#"%char. eexists. split; [reflexivity|discriminate].
  - exists c. eexists. split; [reflexivity|]. inversion F1; subst. now apply white_not in H1.
Qed.
Lemma find_complete before : forall bol s p rest, ~ In DQ before -> line_start bol before -> directive s p rest ->
  exists p' rest', find_and_consume (before ++ s) bol = Some (Some p', rest').
Proof.
  induction before as [|c before IH]; intros bol s p rest N L D.
  - destruct L as [[_ ->]|[b [Hb|Hb]]]; [|destruct b; discriminate..].
    destruct (directive_head _ _ _ D) as (c & r & -> & Nc). apply match_include_spec in D. cbn [app find_and_consume].
    destruct (ceqb_spec c DQ); [contradiction|]. rewrite D. eauto.
  - assert (Nc : c <> DQ) by (intros ->; apply N; cbn; auto). cbn [app find_and_consume].
    destruct (ceqb_spec c DQ); [contradiction|].
    destruct (if bol then match_include (c :: before ++ s) else None) as [[p' r']|]; [eauto|].
    eapply IH; eauto; [intros I; apply N; cbn; auto|]. now apply (line_start_step bol c before).
Qed.
Lemma find_sound : forall s bol,
  match find_and_consume s bol with
  | None => ~ In DQ s
  | Some (None, rest) => exists before, s = before ++ DQ :: rest /\ ~ In DQ before
  | Some (Some p, rest) => exists before s', s = before ++ s' /\ ~ In DQ before /\ line_start bol before /\ directive s' p rest
  end.
Proof.
  induction s as [|c s IH]; intros bol; cbn [find_and_consume]; [intros []|].
  destruct (ceqb_spec c DQ) as [->|N]; [exists []; auto|].
  destruct (if bol then match_include (c :: s) else None) as [[p r]|] eqn:E.
  - destruct bol; [|discriminate]. apply match_include_spec in E. exists [], (c :: s). repeat split; auto. left. auto.
  - specialize (IH (ceqb c NL)). destruct (find_and_consume s (ceqb c NL)) as [[[p|] r]|].
    + destruct IH as (before & s' & -> & Nb & L & D). exists (c :: before), s'. repeat split; auto.
      * intros [I|I]; auto.
      * now apply line_start_step.
    + destruct IH as (before & -> & Nb). exists (c :: before). split; auto. intros [I|I]; auto.
    + intros [I|I]; auto.
Qed.

(** Includes of what is left of a text, given how many quotes were before. *)
Definition included_from (q : bool) (run : str) (off : nat) (p : str) : Prop :=
  exists before s after, run = before ++ s /\ at_line_start before /\ Nat.even (quotes before) = negb q /\
    directive s p after /\ off = length run - length after - 1 - length p.
Lemma line_start_true before : line_start true before <-> at_line_start before.
Proof. unfold line_start, at_line_start. intuition. Qed.
Lemma quotes_app a b : quotes (a ++ b) = quotes a + quotes b.
Proof. apply count_occ_app. Qed.
Lemma quotes_cons b : quotes (DQ :: b) = S (quotes b).
Proof. reflexivity. Qed.
Lemma quotes_none a : ~ In DQ a <-> quotes a = 0.
Proof. unfold quotes. apply count_occ_not_In. Qed.
Lemma directive_shape s p after : directive s p after -> exists front, s = front ++ DQ :: p ++ DQ :: after /\ ~ In DQ front /\ In "#"%char front.
Proof.
  intros (w1 & w2 & w3 & -> & F1 & F2 & F3 & _ & Hp).
  exists (w1 ++ $"#" ++ w2 ++ $"include" ++ w3). rewrite <- !app_assoc. repeat split; auto.
  - rewrite !in_app_iff. rewrite Forall_forall in F1, F2, F3. intros [I|[I|[I|[I|I]]]].
    + apply F1, white_not in I. tauto.
    + cbn in I. intuition discriminate.
    + apply F2, white_not in I. tauto.
    + cbn in I. intuition discriminate.
    + apply F3, white_not in I. tauto.
  - apply in_or_app. right. apply in_or_app. left. cbn. auto.
Qed.
(** Two ways to split at a quote. *)
Lemma split_quote a : forall x b y, ~ In DQ x -> a ++ DQ :: b = x ++ DQ :: y ->
  (a = x /\ b = y) \/ exists c, a = x ++ DQ :: c /\ y = c ++ DQ :: b.
Proof.
  induction a as [|e a IH]; intros x b y N H.
  - destruct x as [|d x]; cbn [app] in H; [injection H; auto|]. injection H as H _. exfalso. apply N. left. auto.
  - destruct x as [|d x]; cbn [app] in H.
    + injection H as -> <-. right. exists a. auto.
    + injection H as -> H. apply IH in H as [[-> ->]|(c & -> & ->)]; [left|right; exists c|intros I; apply N; cbn]; auto.
Qed.

Lemma at_line_start_suffix a b : at_line_start (a ++ DQ :: b) -> at_line_start b.
Proof.
  unfold at_line_start. intros [H|[c Hc]]; [destruct a; discriminate|].
  destruct b as [|e b] using rev_ind; auto. right. exists b.
  change (a ++ DQ :: b ++ [e]) with (a ++ (DQ :: b) ++ [e]) in Hc. rewrite app_assoc in Hc.
  destruct Hc as [Hc|Hc]; apply app_inj_tail in Hc as [_ ->]; auto.
Qed.
Lemma at_line_start_prefix a b : at_line_start b -> at_line_start (a ++ DQ :: b).
Proof.
  unfold at_line_start. intros [->|[c [->| ->]]]; right.
  - exists a. auto.
  - exists (a ++ DQ :: c). left. now rewrite <- app_assoc.
  - exists (a ++ DQ :: c). right. now rewrite <- app_assoc.
Qed.

Lemma loop_spec : forall fuel size run q, length run <= fuel -> length run <= size ->
  let l := includes_loop fuel size run q in
  (forall off p, In (off, p) l <-> exists o, included_from q run o p /\ off = size - length run + o) /\
  StronglySorted lt (map fst l) /\ Forall (fun o => size - length run <= o) (map fst l).
Proof.
  induction fuel as [|fuel IH]; intros size run q Hf Hs.
  { destruct run; [|cbn in Hf; lia]. cbn. repeat split; try constructor; [intros []|].
    intros (o & (before & s & after & H & _ & _ & D & _) & _). destruct (directive_head _ _ _ D) as (c & r & -> & _). destruct before; discriminate. }
  cbn [includes_loop]. pose proof (find_sound run true) as FS.
  destruct (find_and_consume run true) as [[[p|] rest]|] eqn:E.
  - destruct FS as (before & s' & -> & Nb & L & D). pose proof D as D0.
    apply directive_shape in D as (front & -> & Nf & If).
    set (run := before ++ front ++ DQ :: p ++ DQ :: rest) in *.
    assert (Lr : length run = length (before ++ front) + 2 + length p + length rest).
    { unfold run. rewrite !app_length. cbn. rewrite !app_length. cbn. lia. }
    destruct (IH size rest q) as (I1 & I2 & I3); [lia|lia|].
    assert (Hp : header_path p) by (destruct D0 as (? & ? & ? & _ & _ & _ & _ & _ & Hp); exact Hp).
    assert (Np : ~ In DQ p) by (intros I; apply (header_path_chars p) in I; tauto).
    assert (KEY : forall o p', included_from q run o p' <->
       (q = false /\ p' = p /\ o = length run - length rest - 1 - length p) \/
       exists o', included_from q rest o' p' /\ o = length run - length rest + o').
    { intros o p'. split.
      - intros (b2 & s2 & a2 & Hr & LS & EV & D2 & ->). pose proof D2 as D2'. apply directive_shape in D2 as (f2 & -> & Nf2 & If2).
        unfold run in Hr. rewrite !app_assoc in Hr.
        symmetry in Hr. pose proof Hr as Hr0. apply split_quote in Hr as [[H1 H2]|(c & H1 & H2)].
        3:{ rewrite in_app_iff. tauto. }
        + left. assert (Nb2 : ~ In DQ b2). { intros I. assert (J : In DQ (before ++ front)) by (rewrite <- H1; apply in_or_app; auto). apply in_app_or in J. tauto. }
          apply quotes_none in Nb2. rewrite Nb2 in EV. cbn in EV. assert (Hp2 : header_path p') by (destruct D2' as (? & ? & ? & _ & _ & _ & _ & _ & X); exact X).
          apply split_quote in H2 as [[-> ->]|(c & -> & ->)]; auto.
          * repeat split; auto. destruct q; auto; discriminate.
          * exfalso. apply (header_path_chars _ DQ) in Hp2; [tauto|]. apply in_or_app. cbn. auto.
        + (* the second quote *)
          symmetry in H2. apply split_quote in H2 as [[-> <-]|(c2 & -> & ->)]; auto.
          { exfalso. (* directive's quote is the closing one: p = c, contains '#' *)
            assert (B2 : exists c0, b2 = (before ++ front) ++ DQ :: c0).
            { (* b2 ++ f2 = x ++ DQ :: c, f2 has no DQ *)
              clear - H1 Nf2. revert f2 Nf2 H1. generalize (before ++ front) as x. intros x f2. revert p. induction f2 as [|e f2 IH] using rev_ind; intros p Nf2 H1.
              - rewrite app_nil_r in H1. eauto.
              - destruct p as [|e' p] using rev_ind.
                + rewrite app_assoc in H1. apply app_inj_tail in H1 as [_ ->]. exfalso. apply Nf2. apply in_or_app. cbn. auto.
                + rewrite app_assoc in H1. change (x ++ DQ :: p ++ [e']) with (x ++ (DQ :: p) ++ [e']) in H1. rewrite app_assoc in H1.
                  apply app_inj_tail in H1 as [H1 _]. eapply IH; [|exact H1]. intros I. apply Nf2. apply in_or_app. auto. }
            destruct B2 as [c0 ->]. rewrite <- app_assoc in H1. apply app_inv_head in H1. cbn in H1. injection H1 as H1.
            apply (header_path_chars p "#"%char) in Hp; [tauto|]. rewrite <- H1. apply in_or_app. auto. }
          { right. assert (B2 : exists c0, b2 = ((before ++ front) ++ DQ :: p) ++ DQ :: c0 /\ c2 = c0 ++ f2).
            { clear - H1 Nf2. change ((before ++ front) ++ DQ :: p ++ DQ :: c2) with ((before ++ front) ++ (DQ :: p) ++ DQ :: c2) in H1.
              rewrite app_assoc in H1. revert H1. generalize ((before ++ front) ++ DQ :: p) as x. intros x.
              revert c2. induction f2 as [|e f2 IH] using rev_ind; intros c2 H1.
              - rewrite app_nil_r in H1. exists c2. now rewrite app_nil_r.
              - destruct c2 as [|e' c2 _] using rev_ind.
                + rewrite app_assoc in H1. apply app_inj_tail in H1 as [_ ->]. exfalso. apply Nf2. apply in_or_app. cbn. auto.
                + rewrite app_assoc in H1. change (x ++ DQ :: c2 ++ [e']) with (x ++ (DQ :: c2) ++ [e']) in H1. rewrite app_assoc in H1.
                  apply app_inj_tail in H1 as [H1 ->]. apply IH in H1 as (c0 & -> & ->).
                  * exists c0. now rewrite <- app_assoc.
                  * intros I. apply Nf2. apply in_or_app. auto. }
            destruct B2 as (c0 & -> & ->). rewrite <- app_assoc.
            exists (length (c0 ++ f2 ++ DQ :: p' ++ DQ :: a2) - length a2 - 1 - length p'). split.
            - exists c0, (f2 ++ DQ :: p' ++ DQ :: a2), a2. repeat split; auto.
              + eapply at_line_start_suffix; eauto.
              + rewrite <- EV, !quotes_app, !quotes_cons. rewrite (proj1 (quotes_none before)), (proj1 (quotes_none front)), (proj1 (quotes_none p)); auto.
            - unfold run. len. }
      - intros [(-> & -> & ->)|(o' & (b2 & s2 & a2 & -> & LS & EV & D2 & ->) & ->)].
        + exists before, (front ++ DQ :: p ++ DQ :: rest), rest. repeat split; auto.
          * now apply line_start_true.
          * rewrite (proj1 (quotes_none before)); auto.
        + exists (before ++ front ++ DQ :: p ++ DQ :: b2), s2, a2. unfold run. repeat split; auto.
          * now rewrite <- !app_assoc; cbn; rewrite <- !app_assoc.
          * rewrite app_assoc. change ((before ++ front) ++ DQ :: p ++ DQ :: b2) with ((before ++ front) ++ (DQ :: p) ++ DQ :: b2).
            rewrite app_assoc. now apply at_line_start_prefix.
          * rewrite <- EV, !quotes_app, quotes_cons, quotes_app, quotes_cons. rewrite (proj1 (quotes_none before)), (proj1 (quotes_none front)), (proj1 (quotes_none p)); auto.
          * apply directive_shape in D2 as (f2 & -> & _). len. }
    repeat split.
    + intros I. apply in_app_or in I as [I|I].
      * destruct q; [destruct I|]. destruct I as [I|[]]. injection I as <- <-. eexists. split; [apply KEY; left; repeat split; reflexivity|]. lia.
      * apply I1 in I as (o & Io & ->). eexists. split; [apply KEY; right; exists o; split; [exact Io|reflexivity]|]. lia.
    + intros (o & Io & ->). apply KEY in Io as [(-> & -> & ->)|(o' & Io & ->)]; apply in_or_app.
      * left. cbn. left. f_equal. lia.
      * right. apply I1. exists o'. split; auto. lia.
    + destruct q; cbn [app]; auto. cbn [map fst]. constructor; auto. eapply Forall_impl; [|exact I3]. intros a. cbn beta. lia.
    + destruct q; cbn [app].
      * eapply Forall_impl; [|exact I3]. intros a. cbn beta. lia.
      * cbn [map fst]. constructor; [lia|]. eapply Forall_impl; [|exact I3]. intros a. cbn beta. lia.
  - destruct FS as (before & -> & Nb). rewrite app_length in Hf, Hs. cbn in Hf, Hs. destruct (IH size rest (negb q)) as (I1 & I2 & I3); [lia|lia|].
    assert (KEY : forall o p, included_from q (before ++ DQ :: rest) o p <-> exists o', included_from (negb q) rest o' p /\ o = S (length before) + o').
    { intros o p. split.
      - intros (b2 & s2 & a2 & Hr & LS & EV & D2 & ->). pose proof D2 as D2'. apply directive_shape in D2 as (f2 & -> & Nf2 & If2).
        assert (B2 : (~ In DQ b2) \/ exists c0, b2 = before ++ DQ :: c0 /\ rest = c0 ++ f2 ++ DQ :: p ++ DQ :: a2).
        { destruct (in_dec ascii_dec DQ b2) as [I|]; [right|left; auto]. apply in_split in I as (x & y & Hxy).
          assert (exists x y, b2 = x ++ DQ :: y /\ ~ In DQ x) as (x' & y' & Hb & Nx).
          { destruct (find_first DQ b2) as [n|] eqn:En.
            - apply find_first_some in En as [E1 E2]. eauto.
            - apply find_first_none in En. exfalso. apply En. rewrite Hxy. apply in_or_app. cbn. auto. }
          exists y'. rewrite Hb in Hr. rewrite <- app_assoc in Hr. cbn in Hr. apply split_quote in Hr as [[<- <-]|(c & H & _)]; auto.
          exfalso. apply Nb. rewrite H. apply in_or_app. cbn. auto. }
        destruct B2 as [Nb2|(c0 & -> & ->)].
        + exfalso. destruct (find_complete b2 true (f2 ++ DQ :: p ++ DQ :: a2) p a2) as (p' & r' & Hc); auto.
          { now apply line_start_true. }
          rewrite <- Hr in Hc. congruence.
        + exists (length (c0 ++ f2 ++ DQ :: p ++ DQ :: a2) - length a2 - 1 - length p). split.
          * exists c0, (f2 ++ DQ :: p ++ DQ :: a2), a2. repeat split; auto.
            { eapply at_line_start_suffix; eauto. }
            { rewrite quotes_app, quotes_cons in EV. rewrite (proj1 (quotes_none before)) in EV by auto. rewrite Nat.add_0_l, Nat.even_succ, <- Nat.negb_even in EV.
              destruct (Nat.even (quotes c0)); destruct q; auto; discriminate. }
          * len.
      - intros (o' & (b2 & s2 & a2 & -> & LS & EV & D2 & ->) & ->). exists (before ++ DQ :: b2), s2, a2. repeat split; auto.
        + now rewrite <- app_assoc.
        + now apply at_line_start_prefix.
        + rewrite quotes_app, quotes_cons. rewrite (proj1 (quotes_none before)) by auto. rewrite Nat.add_0_l, Nat.even_succ, <- Nat.negb_even, EV. now rewrite !negb_involutive.
        + apply directive_shape in D2 as (f2 & -> & _). len. }
    rewrite app_length. cbn [length]. repeat split.
    + intros I. apply I1 in I as (o & Io & ->). eexists. split; [apply KEY; exists o; split; [exact Io|reflexivity]|]. lia.
    + intros (o & Io & ->). apply KEY in Io as (o' & Io & ->). apply I1. exists o'. split; auto. lia.
    + auto.
    + eapply Forall_impl; [|exact I3]. intros a. cbn beta. lia.
  - cbn. repeat split; try constructor; [intros []|]. intros (o & (b2 & s2 & a2 & -> & _ & _ & D2 & _) & _).
    apply directive_shape in D2 as (f2 & -> & _). apply FS. apply in_or_app. right. apply in_or_app. right. cbn. auto.
Qed.

Lemma extract_spec content :
  (forall off p, In (off, p) (extract_cc_includes content) <-> included content off p) /\
  StronglySorted lt (map fst (extract_cc_includes content)).
Proof.
  destruct (loop_spec (length content) (length content) content false) as (H1 & H2 & _); auto.
  split; auto. intros off p. unfold extract_cc_includes. rewrite H1. rewrite Nat.sub_diag. split.
  - intros (o & (before & s & after & -> & LS & EV & (w1 & w2 & w3 & -> & F1 & F2 & F3 & N3 & Hp) & ->) & ->).
    exists before, w1, w2, w3, after. repeat split; auto.
    + apply Nat.even_spec. exact EV.
    + len.
  - intros (before & w1 & w2 & w3 & after & -> & LS & EV & F1 & F2 & F3 & N3 & Hp & ->). eexists. split; [|symmetry; apply Nat.add_0_l].
    exists before, (w1 ++ $"#" ++ w2 ++ $"include" ++ w3 ++ [DQ] ++ p ++ [DQ] ++ after), after. repeat split; auto.
    + apply Nat.even_spec. exact EV.
    + exists w1, w2, w3. repeat split; auto.
    + len.
Qed.
