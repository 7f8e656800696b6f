(** Denotational meaning of regular expressions and correctness of matching. *)
From Verif Require Import Base M_Regex.

(** Textbook language semantics; the specification of [full_match]. *)
Inductive lang : regex -> str -> Prop :=
| L_eps : lang REps []
| L_lit c : lang (RLit c) [c]
| L_any c : c <> NL -> lang RAny [c]
| L_notslash c : c <> "/"%char -> lang RNotSlash [c]
| L_seq a b s t : lang a s -> lang b t -> lang (RSeq a b) (s ++ t)
| L_altl a b s : lang a s -> lang (RAlt a b) s
| L_altr a b s : lang b s -> lang (RAlt a b) s
| L_star0 a : lang (RStar a) []
| L_star1 a s t : lang a s -> lang (RStar a) t -> lang (RStar a) (s ++ t).

Lemma lang_nullable r : nullable r = true <-> lang r [].
Proof.
  induction r as [| |c| | |a IHa b IHb|a IHa b IHb|a IHa]; simpl; split; intro H;
    try discriminate; try (now inversion H); try (now constructor).
  - apply andb_true_iff in H as [H1 H2].
    change (@nil ascii) with (@nil ascii ++ []). constructor; [apply IHa|apply IHb]; auto.
  - inversion H as [ | | | |? ? s t H1 H2 E1 E2| | | | ]; subst.
    apply app_eq_nil in E2 as [-> ->]. apply andb_true_iff. split; [apply IHa|apply IHb]; auto.
  - apply orb_true_iff in H as [H|H]; [apply L_altl, IHa|apply L_altr, IHb]; auto.
  - apply orb_true_iff. inversion H; subst; [left; apply IHa|right; apply IHb]; auto.
Qed.

Lemma star_inv a s :
  lang (RStar a) s -> s = [] \/
  exists x u v, s = (x :: u) ++ v /\ lang a (x :: u) /\ lang (RStar a) v.
Proof.
  intros H. remember (RStar a) as r eqn:E. induction H; try discriminate.
  - auto.
  - inversion E; subst. destruct s as [|x u].
    + simpl. apply IHlang2. reflexivity.
    + right. exists x, u, t. auto.
Qed.

Lemma deriv_lang r x s : lang (deriv x r) s <-> lang r (x :: s).
Proof.
  revert s. induction r as [| |c| | |a IHa b IHb|a IHa b IHb|a IHa]; intros s; simpl.
  - split; intro H; inversion H.
  - split; intro H; inversion H.
  - destruct (ceqb_spec c x) as [->|N].
    + split; intro H; inversion H; subst; constructor.
    + split; intro H; inversion H; subst; congruence.
  - destruct (ceqb_spec x NL) as [->|N].
    + split; intro H; inversion H; subst; congruence.
    + split; intro H; inversion H; subst; constructor; auto.
  - destruct (ceqb_spec x "/") as [->|N].
    + split; intro H; inversion H; subst; congruence.
    + split; intro H; inversion H; subst; constructor; auto.
  - assert (Sq : lang (RSeq (deriv x a) b) s <->
                 exists u v, s = u ++ v /\ lang a (x :: u) /\ lang b v).
    { split.
      - intros H. inversion H; subst. exists s0, t. rewrite <- IHa. auto.
      - intros [u [v [-> [H1 H2]]]]. constructor; auto. apply IHa; auto. }
    assert (G : lang (RSeq a b) (x :: s) <->
                (exists u v, s = u ++ v /\ lang a (x :: u) /\ lang b v) \/
                (lang a [] /\ lang b (x :: s))).
    { split.
      - intros H. inversion H as [ | | | |? ? u v H1 H2 E1 E2| | | | ]; subst.
        destruct u as [|y u]; simpl in E2.
        + subst. right; auto.
        + inversion E2; subst. left. eauto.
      - intros [[u [v [-> [H1 H2]]]]|[H1 H2]].
        + change (x :: u ++ v) with ((x :: u) ++ v). constructor; auto.
        + change (x :: s) with ([] ++ x :: s). constructor; auto. }
    rewrite G. destruct (nullable a) eqn:N.
    + apply lang_nullable in N. split.
      * intros H. inversion H; subst; [left; apply Sq | right; split; auto; apply IHb]; auto.
      * intros [H|[_ H]]; [apply L_altl, Sq|apply L_altr, IHb]; auto.
    + rewrite Sq. split; auto. intros [H|[H _]]; auto.
      apply lang_nullable in H. congruence.
  - split; intro H; inversion H; subst;
      solve [apply L_altl, IHa; assumption | apply L_altr, IHb; assumption].
  - split; intro H.
    + inversion H; subst. change (x :: s0 ++ t) with ((x :: s0) ++ t).
      constructor; auto. apply IHa; auto.
    + apply star_inv in H as [H|[y [u [v [E [H1 H2]]]]]]; [discriminate|].
      inversion E; subst. constructor; auto. apply IHa; auto.
Qed.

Theorem full_match_lang r s : full_match r s = true <-> lang r s.
Proof.
  revert r. induction s as [|x s IH]; intros r; simpl.
  - apply lang_nullable.
  - rewrite IH. apply deriv_lang.
Qed.

(** Inversion forms. *)
Lemma lang_seq a b s : lang (RSeq a b) s <-> exists u v, s = u ++ v /\ lang a u /\ lang b v.
Proof.
  split.
  - intros H. inversion H; subst; eauto.
  - intros [u [v [-> [H1 H2]]]]. constructor; auto.
Qed.
Lemma lang_alt a b s : lang (RAlt a b) s <-> lang a s \/ lang b s.
Proof.
  split.
  - intros H. inversion H; subst; auto.
  - intros [H|H]; [apply L_altl | apply L_altr]; auto.
Qed.
Lemma lang_eps s : lang REps s <-> s = [].
Proof. split; intro H; [inversion H; auto | subst; constructor]. Qed.
Lemma lang_lit c s : lang (RLit c) s <-> s = [c].
Proof. split; intro H; [inversion H; auto | subst; constructor]. Qed.
Lemma lang_opt a s : lang (ROpt a) s <-> lang a s \/ s = [].
Proof. unfold ROpt. rewrite lang_alt, lang_eps. tauto. Qed.
Lemma lang_any_star s : lang (RStar RAny) s <-> ~ In NL s.
Proof.
  split.
  - intros H. remember (RStar RAny) as r eqn:E. induction H; try discriminate; auto.
    inversion E; subst. inversion H; subst. simpl. intros [X|X]; [congruence|].
    apply IHlang2; auto.
  - induction s as [|x s IH]; intros H; [constructor|].
    change (x :: s) with ([x] ++ s). constructor.
    + constructor. intros ->. apply H. simpl; auto.
    + apply IH. intros X. apply H. simpl; auto.
Qed.
Lemma lang_notslash_star s : lang (RStar RNotSlash) s <-> ~ In "/"%char s.
Proof.
  split.
  - intros H. remember (RStar RNotSlash) as r eqn:E. induction H; try discriminate; auto.
    inversion E; subst. inversion H; subst. simpl. intros [X|X]; [congruence|].
    apply IHlang2; auto.
  - induction s as [|x s IH]; intros H; [constructor|].
    change (x :: s) with ([x] ++ s). constructor.
    + constructor. intros ->. apply H. simpl; auto.
    + apply IH. intros X. apply H. simpl; auto.
Qed.

(** Sequences kept reversed in a frame. *)
Fixpoint lang_list (l : list regex) (s : str) : Prop :=
  match l with
  | [] => s = []
  | r :: l' => exists u v, s = u ++ v /\ lang r u /\ lang_list l' v
  end.

Lemma fold_seq_lang l acc s :
  lang (fold_left (fun acc r => RSeq r acc) l acc) s <->
  exists u v, s = u ++ v /\ lang_list (rev l) u /\ lang acc v.
Proof.
  revert acc s. induction l as [|r l IH]; intros acc s; simpl.
  - split.
    + intros H. exists [], s. auto.
    + intros [u [v [-> [-> H]]]]. auto.
  - rewrite IH.
    assert (A : forall l1 x t, lang_list (l1 ++ [x]) t <->
                exists u v, t = u ++ v /\ lang_list l1 u /\ lang x v).
    { induction l1 as [|y l1 IHl]; intros x t; simpl.
      - split.
        + intros [u [v [-> [H1 ->]]]]. exists [], u. rewrite app_nil_r. auto.
        + intros [u [v [-> [-> H]]]]. exists v, []. rewrite app_nil_r. auto.
      - split.
        + intros [u [v [-> [H1 H2]]]]. apply IHl in H2 as [u2 [v2 [-> [H2 H3]]]].
          exists (u ++ u2), v2. rewrite app_assoc. split; auto. split; auto.
          exists u, u2. auto.
        + intros [u [v [-> [[u1 [u2 [-> [H1 H2]]]] H3]]]].
          exists u1, (u2 ++ v). rewrite app_assoc. split; auto. split; auto.
          apply IHl. exists u2, v. auto. }
    split.
    + intros [u [v [-> [H1 H2]]]]. apply lang_seq in H2 as [a [b [-> [H2 H3]]]].
      exists (u ++ a), b. rewrite app_assoc. split; auto. split; auto.
      apply A. exists u, a. auto.
    + intros [u [v [-> [H1 H2]]]]. apply A in H1 as [u1 [u2 [-> [H1 H3]]]].
      exists u1, (u2 ++ v). rewrite app_assoc. split; auto. split; auto.
      apply lang_seq. exists u2, v. auto.
Qed.

Lemma seq_of_lang l s : lang (seq_of l) s <-> lang_list (rev l) s.
Proof.
  unfold seq_of. rewrite fold_seq_lang. split.
  - intros [u [v [-> [H1 H2]]]]. apply lang_eps in H2. subst. rewrite app_nil_r. auto.
  - intros H. exists s, []. rewrite app_nil_r. split; auto. split; auto. constructor.
Qed.

Lemma lang_list_app l1 l2 s :
  lang_list (l1 ++ l2) s <-> exists u v, s = u ++ v /\ lang_list l1 u /\ lang_list l2 v.
Proof.
  revert s. induction l1 as [|r l1 IH]; intros s; simpl.
  - split.
    + intros H. exists [], s. auto.
    + intros [u [v [-> [-> H]]]]. auto.
  - split.
    + intros [u [v [-> [H1 H2]]]]. apply IH in H2 as [u2 [v2 [-> [H2 H3]]]].
      exists (u ++ u2), v2. rewrite app_assoc. split; auto. split; auto. exists u, u2. auto.
    + intros [u [v [-> [[u1 [u2 [-> [H1 H2]]]] H3]]]].
      exists u1, (u2 ++ v). rewrite app_assoc. split; auto. split; auto.
      apply IH. exists u2, v. auto.
Qed.

Lemma alt_of_lang alts last s :
  lang (alt_of alts last) s <-> (exists r, In r alts /\ lang r s) \/ lang last s.
Proof.
  unfold alt_of. revert last. induction alts as [|r alts IH]; intros last; simpl.
  - split; auto. intros [[r [[] _]]|H]; auto.
  - rewrite IH, lang_alt. split.
    + intros [[q [I H]]|[H|H]]; eauto.
    + intros [[q [[->|I] H]]|H]; eauto.
Qed.

Lemma close_frame_lang f s :
  lang (close_frame f) s <->
  (exists r, In r (fr_alts f) /\ lang r s) \/ lang_list (rev (fr_seq f)) s.
Proof. unfold close_frame. rewrite alt_of_lang, seq_of_lang. reflexivity. Qed.

(** Literal text: characters that are read as themselves. *)
Definition plain_char (c : ascii) : bool :=
  negb (existsb (ceqb c) ($"\.[*+?()|^${")).

Lemma re_parse_plain c s rep top stack :
  plain_char c = true ->
  re_parse (c :: s) rep top stack = re_parse s false (push_atom (RLit c) top) stack.
Proof.
  unfold plain_char. intros H. apply negb_true_iff in H. simpl in H.
  repeat (apply orb_false_iff in H as [? H]).
  cbn [re_parse]. unfold BSL, re_special. cbn [existsb list_ascii_of_string].
  repeat match goal with E : ceqb _ _ = false |- _ => rewrite E; clear E end.
  reflexivity.
Qed.

Lemma re_parse_plain_list l s rep top stack :
  forallb plain_char l = true -> l <> [] ->
  re_parse (l ++ s) rep top stack =
  re_parse s false {| fr_alts := fr_alts top; fr_seq := rev (map RLit l) ++ fr_seq top |} stack.
Proof.
  revert rep top. induction l as [|c l IH]; intros rep top F N; [congruence|].
  simpl in F. apply andb_true_iff in F as [F1 F2].
  rewrite <- app_comm_cons, re_parse_plain; auto.
  destruct l as [|d l].
  - destruct top; reflexivity.
  - rewrite IH; auto; [|discriminate]. cbn [push_atom fr_alts fr_seq map rev].
    rewrite <- !app_assoc. reflexivity.
Qed.

(** QuoteMeta followed by parsing reads every byte as itself. *)
Lemma re_parse_quote_char c s rep top stack :
  re_parse (quote_char c ++ s) rep top stack = re_parse s false (push_atom (RLit c) top) stack.
Proof.
  unfold quote_char. destruct (ceqb_spec c "000") as [->|N0]; [reflexivity|].
  destruct (needs_no_quote c) eqn:Q.
  - simpl. apply re_parse_plain. unfold needs_no_quote, high_bit in Q.
    revert N0 Q. destruct c as [[] [] [] [] [] [] [] []]; intros N0 Q; vm_compute in *; try reflexivity; discriminate.
  - simpl "++". revert N0 Q. unfold needs_no_quote. intros N0 Q.
    apply orb_false_iff in Q as [Q Qh]. apply orb_false_iff in Q as [Q1 Q2].
    cbn [re_parse]. change (ceqb BSL BSL) with true. cbn iota.
    destruct (ceqb_spec c "x") as [->|Nx]; [discriminate|].
    rewrite Q1, Qh. reflexivity.
Qed.

Lemma re_parse_quote_meta l s rep top stack :
  l <> [] ->
  re_parse (quote_meta l ++ s) rep top stack =
  re_parse s false {| fr_alts := fr_alts top; fr_seq := rev (map RLit l) ++ fr_seq top |} stack.
Proof.
  revert rep top. induction l as [|c l IH]; intros rep top N; [congruence|].
  unfold quote_meta. simpl flat_map. rewrite <- app_assoc, re_parse_quote_char.
  destruct l as [|d l].
  - destruct top; reflexivity.
  - fold (quote_meta (d :: l)). rewrite IH by discriminate.
    cbn [push_atom fr_alts fr_seq map rev]. rewrite <- !app_assoc. reflexivity.
Qed.

Lemma lang_list_lits l s : lang_list (map RLit l) s <-> s = l.
Proof.
  revert s. induction l as [|c l IH]; intros s; simpl; [tauto|]. split.
  - intros [u [v [-> [H1 H2]]]]. apply lang_lit in H1. apply IH in H2. subst. auto.
  - intros ->. exists [c], l. split; auto. split; [constructor | apply IH; auto].
Qed.
