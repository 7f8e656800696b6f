(** Proofs about the command line. *)
From Verif Require Import Base OMap M_Types M_Ast M_Table M_Commands S_Commands P_Commands M_Main S_Main.

(** * getopt *)
Lemma flag_letter_spec c : flag_letter c <-> letter c = Some TakesNothing.
Proof.
  split.
  - intros I. cbn in I. repeat (destruct I as [<-|I]; [reflexivity|]). destruct I.
  - unfold letter. destruct (find (fun x => ceqb (fst x) c) option_letters) as [[x t]|] eqn:F; cbn; intros E; [|discriminate]. injection E as ->.
    apply find_some in F as [F C]. cbn [fst] in C. apply ceqb_eq in C. subst x.
    repeat (destruct F as [F|F]; [first [discriminate F|injection F as <-; cbn; tauto]|]). destruct F.
Qed.
Lemma argument_letter_spec c : argument_letter c <-> letter c = Some TakesArgument.
Proof.
  split.
  - intros I. cbn in I. repeat (destruct I as [<-|I]; [reflexivity|]). destruct I.
  - unfold letter. destruct (find (fun x => ceqb (fst x) c) option_letters) as [[x t]|] eqn:F; cbn; intros E; [|discriminate]. injection E as ->.
    apply find_some in F as [F C]. cbn [fst] in C. apply ceqb_eq in C. subst x.
    repeat (destruct F as [F|F]; [first [discriminate F|injection F as <-; cbn; tauto]|]). destruct F.
Qed.
Lemma recursion_letter_spec c : recursion_letter c <-> letter c = Some TakesOptional.
Proof.
  split; [intros ->; reflexivity|].
  unfold letter. destruct (find (fun x => ceqb (fst x) c) option_letters) as [[x t]|] eqn:F; cbn; intros E; [|discriminate]. injection E as ->.
  apply find_some in F as [F C]. cbn [fst] in C. apply ceqb_eq in C. subst x.
  repeat (destruct F as [F|F]; [first [discriminate F|injection F as <-; reflexivity]|]). destruct F.
Qed.
Definition drop_used (used : bool) (next : list str) : list str := if used then tl next else next.
Lemma cluster_flags fs rest next : Forall flag_letter fs ->
  cluster (fs ++ rest) next = (flag_events fs ++ fst (cluster rest next), snd (cluster rest next)).
Proof.
  induction 1 as [|c fs H F IH]; [cbn; destruct (cluster rest next); reflexivity|]. cbn [app cluster flag_events map].
  apply flag_letter_spec in H. rewrite H, IH. reflexivity.
Qed.
Lemma cluster_spec letters next evs used : letters <> [] -> cluster letters next = (evs, used) -> ~ In OptBad evs ->
  option_word ("-"%char :: letters) next evs (drop_used used next).
Proof.
  intros N E B.
  assert (K : exists fs rest, letters = fs ++ rest /\ Forall flag_letter fs /\ match rest with [] => True | c :: _ => letter c <> Some TakesNothing end).
  { clear. induction letters as [|c l (fs & rest & -> & F & R)]; [exists [], []; auto|].
    destruct (letter c) as [[| |]|] eqn:L; [exists (c :: fs), rest; repeat split; auto; constructor; auto; apply flag_letter_spec; auto|..];
      exists [], (c :: fs ++ rest); repeat split; auto; congruence. }
  destruct K as (fs & rest & -> & F & R). rewrite cluster_flags in E by auto. injection E as <- <-. rewrite in_app_iff in B.
  destruct rest as [|c rest]; [rewrite !app_nil_r in *; cbn [cluster fst snd drop_used]; apply only_flags; auto|]. cbn [cluster] in *.
  destruct (letter c) as [[| |]|] eqn:L; [congruence|..].
  - apply argument_letter_spec in L. destruct rest as [|d rest]; cbn [is_nil] in *.
    + destruct next as [|a next]; cbn [fst snd drop_used tl] in *; [destruct B; right; left; reflexivity|]. apply in_next_word; auto.
    + cbn [fst snd drop_used]. apply in_this_word; auto. discriminate.
  - apply recursion_letter_spec in L. destruct rest as [|d rest]; cbn [is_nil fst snd drop_used].
    + apply without_argument; auto.
    + apply in_this_word; auto. discriminate.
  - destruct (cluster rest next); cbn in B. tauto.
Qed.
Lemma cluster_reads letters next evs next' : option_word ("-"%char :: letters) next evs next' ->
  letters <> [] /\ exists used, cluster letters next = (evs, used) /\ next' = drop_used used next.
Proof.
  intros H. inversion H as [fs n N F|fs c arg n F L A|fs c arg n F L|fs c n F L]; subst.
  - split; auto. exists false. rewrite <- (app_nil_r letters) at 1. rewrite cluster_flags by auto. cbn. rewrite app_nil_r. auto.
  - split; [destruct fs; discriminate|]. exists false. rewrite cluster_flags by auto. destruct arg as [|d arg]; [congruence|]. cbn [cluster].
    destruct L as [L|L]; [apply argument_letter_spec in L|apply recursion_letter_spec in L]; rewrite L; auto.
  - split; [destruct fs; discriminate|]. exists true. rewrite cluster_flags by auto. cbn [cluster]. apply argument_letter_spec in L. rewrite L. auto.
  - split; [destruct fs; discriminate|]. exists false. rewrite cluster_flags by auto. cbn [cluster]. apply recursion_letter_spec in L. rewrite L. auto.
Qed.
(** Events of proper options. *)
Definition proper (ev : opt_event) : Prop :=
  match ev with
  | OptBad => False
  | Opt c a => (flag_letter c /\ a = None) \/ (argument_letter c /\ a <> None) \/ recursion_letter c
  end.
Lemma flag_events_proper fs : Forall flag_letter fs -> Forall proper (flag_events fs).
Proof. intros F. apply Forall_map. eapply Forall_impl; [|exact F]. cbn. auto. Qed.
Lemma option_word_proper w next evs next' : option_word w next evs next' -> Forall proper evs.
Proof.
  intros H. inversion H as [fs n N F|fs c arg n F L A|fs c arg n F L|fs c n F L]; subst; [apply flag_events_proper; auto|..];
    (apply Forall_app; split; [apply flag_events_proper; auto|]; constructor; [|constructor]; cbn).
  - destruct L; auto. right. left. split; auto. discriminate.
  - right. left. split; auto. discriminate.
  - auto.
Qed.
Lemma proper_not_bad evs : Forall proper evs -> ~ In OptBad evs.
Proof. intros F I. rewrite Forall_forall in F. apply (F _ I). Qed.
Lemma option_word_form w next evs next' : option_word w next evs next' -> exists letters, w = "-"%char :: letters /\ letters <> [] /\ w <> $"--".
Proof.
  intros H. assert (P := option_word_proper _ _ _ _ H). assert (E : exists letters, w = "-"%char :: letters) by (inversion H; eauto).
  destruct E as [letters ->]. exists letters. destruct (cluster_reads _ _ _ _ H) as (N & used & E & _). split; [reflexivity|]. split; [exact N|].
  intros D. injection D as ->. cbn in E. injection E as <- <-. apply proper_not_bad in P. apply P. left. reflexivity.
Qed.

Lemma getopt_option letters next evs used : letters <> [] -> "-"%char :: letters <> $"--" -> cluster letters next = (evs, used) ->
  getopt (("-"%char :: letters) :: next) = (evs ++ fst (getopt (drop_used used next)), snd (getopt (drop_used used next))).
Proof.
  intros N D E. cbn [getopt]. destruct (str_eqb ("-"%char :: letters) ($"--")) eqn:Q; [apply str_eqb_eq in Q; contradiction|].
  destruct letters as [|c l]; [contradiction|]. rewrite (eq_refl : ceqb "-" "-" = true). rewrite E. destruct used; cbn [drop_used].
  - destruct next as [|x next]; cbn [tl].
    + reflexivity.
    + destruct (getopt next); reflexivity.
  - destruct (getopt next); reflexivity.
Qed.

Lemma getopt_word w args : plain_word w -> getopt (w :: args) = (fst (getopt args), w :: snd (getopt args)).
Proof.
  intros P. cbn [getopt]. destruct (str_eqb w ($"--")) eqn:Q.
  { apply str_eqb_eq in Q. subst. destruct P as [P|P]; [discriminate|]. destruct (P ($"-")). reflexivity. }
  destruct w as [|c [|d w]]; try (destruct (getopt args); reflexivity).
  destruct (ceqb c "-") eqn:C; [|destruct (getopt args); reflexivity]. apply ceqb_eq in C. subst. destruct P as [P|P]; [discriminate|]. destruct (P (d :: w)). reflexivity.
Qed.
Theorem command_line_getopt args evs words : command_line args evs words -> getopt args = (evs, words).
Proof.
  induction 1 as [|args|w args evs words P H IH|w args evs args' evs' words O H IH]; [reflexivity|reflexivity| |].
  - rewrite getopt_word, IH by auto. reflexivity.
  - destruct (option_word_form _ _ _ _ O) as (letters & -> & N & D). destruct (cluster_reads _ _ _ _ O) as (_ & used & E & ->).
    etransitivity; [exact (getopt_option _ _ _ _ N D E)|]. rewrite IH. reflexivity.
Qed.
Lemma word_cases w : w = $"--" \/ plain_word w \/ exists letters, w = "-"%char :: letters /\ letters <> [] /\ w <> $"--".
Proof.
  destruct w as [|c w]; [right; left; right; discriminate|].
  destruct (ceqb c "-") eqn:C.
  - apply ceqb_eq in C. subst. destruct w as [|d w]; [right; left; left; reflexivity|].
    destruct (str_eqb ("-"%char :: d :: w) ($"--")) eqn:Q; [apply str_eqb_eq in Q; auto|]. right. right. exists (d :: w). split; [reflexivity|]. split; [discriminate|].
    intros E. rewrite E in Q. discriminate.
  - right. left. right. intros r E. injection E as -> ->. discriminate.
Qed.
Theorem getopt_command_line args : forall evs words, getopt args = (evs, words) -> ~ In OptBad evs -> command_line args evs words.
Proof.
  remember (length args) as n eqn:L. assert (Le : length args <= n) by lia. clear L. revert args Le.
  induction n as [|n IH]; intros [|w args] L evs words E B; cbn [length] in L; try lia; try (injection E as <- <-; constructor; fail).
  destruct (word_cases w) as [->|[P|(letters & -> & N & D)]].
  - injection E as <- <-. constructor.
  - rewrite getopt_word in E by auto. injection E as <- <-. constructor; auto. apply IH; auto; [lia|]. destruct (getopt args); reflexivity.
  - destruct (cluster letters args) as [e used] eqn:C. assert (G := getopt_option _ _ _ _ N D C). assert (E' := eq_trans (eq_sym E) G). clear E G. rename E' into E. injection E as -> ->. rewrite in_app_iff in B.
    eapply an_option; [apply cluster_spec; eauto|]. apply IH; [|destruct (getopt _); reflexivity|tauto].
    destruct used; cbn [drop_used]; [destruct args; cbn in *|]; lia.
Qed.
Lemma command_line_proper args evs words : command_line args evs words -> Forall proper evs.
Proof. induction 1; auto. apply Forall_app. split; auto. eapply option_word_proper; eauto. Qed.

(** Reading goes on after complete options. *)
Lemma complete_getopt l : complete l -> forall rest, getopt (l ++ rest) = (fst (getopt l) ++ fst (getopt rest), snd (getopt l) ++ snd (getopt rest)).
Proof.
  induction 1 as [|w l P H IH|w evs l O H IH|w arg evs l O H IH]; intros rest; cbn [app].
  - destruct (getopt rest); reflexivity.
  - rewrite !getopt_word, IH by auto. reflexivity.
  - assert (O' : forall more, option_word w more evs more).
    { intros more. inversion O; subst; constructor; auto. }
    destruct (option_word_form _ _ _ _ O) as (letters & -> & N & D).
    assert (K : forall more, getopt (("-"%char :: letters) :: more) = (evs ++ fst (getopt more), snd (getopt more))).
    { intros more. destruct (cluster_reads _ _ _ _ (O' more)) as (_ & used & E & X). etransitivity; [exact (getopt_option _ _ _ _ N D E)|]. rewrite <- X. reflexivity. }
    rewrite !K, IH. cbn [fst snd]. rewrite app_assoc. reflexivity.
  - assert (O' : forall more, option_word w (arg :: more) evs more).
    { intros more. inversion O; subst; try discriminate; constructor; auto. }
    destruct (option_word_form _ _ _ _ O) as (letters & -> & N & D).
    assert (K : forall more, getopt (("-"%char :: letters) :: arg :: more) = (evs ++ fst (getopt more), snd (getopt more))).
    { intros more. destruct (cluster_reads _ _ _ _ (O' more)) as (_ & used & E & X). etransitivity; [exact (getopt_option _ _ _ _ N D E)|]. rewrite <- X. reflexivity. }
    rewrite !K, IH. cbn [fst snd]. rewrite app_assoc. reflexivity.
Qed.

(** * Formats and numbers *)
Lemma format_names_sorted : msorted format_names.
Proof. repeat constructor. Qed.
Lemma format_abbreviations c word : length (abbreviated format_names (c :: word)) <= 1.
Proof.
  unfold abbreviated. rewrite map_length. cbn [format_names filter fst list_ascii_of_string starts_with].
  repeat match goal with |- context [ceqb c ?x] => destruct (ceqb_spec c x); [subst c; cbn; repeat match goal with |- context [if ?b then _ else _] => destruct b end; cbn; lia|] end.
  cbn. lia.
Qed.
Lemma find_format_some word f : find_format word = Some f -> format_of word f /\ (word = [] -> f = FmtCsv).
Proof.
  intros E. split; [|intros ->; vm_compute in E; congruence]. unfold find_format in E.
  assert (A := lower_bound_app word format_names). destruct (lower_bound word format_names) as [b [|[name g] a]]; [discriminate|]. cbn [fst snd] in *.
  destruct (starts_with word name) eqn:St; [|discriminate]. injection E as ->. exists name. split; [rewrite <- A; apply in_or_app; right; left; reflexivity|].
  apply starts_with_iff. exact St.
Qed.
Lemma format_find word f : format_of word f -> exists f', find_format word = Some f' /\ (word <> [] -> f' = f).
Proof.
  intros (name & I & r & ->). assert (In f (abbreviated format_names word)).
  { unfold abbreviated. apply in_map_iff. exists (word ++ r, f). split; auto. apply filter_In. split; auto. cbn [fst]. apply starts_with_app. }
  destruct word as [|c word]; [exists FmtCsv; split; [reflexivity|congruence]|].
  assert (L := format_abbreviations c word). assert (C := find_command_spec format_names (c :: word) format_names_sorted).
  destruct (abbreviated format_names (c :: word)) as [|x [|y l]]; [destruct H| |cbn in L; lia]. destruct H as [->|[]].
  assert (G : find_format (c :: word) = (fun x => match x with (name, f) :: _ => if starts_with (c :: word) name then Some f else None | [] => None end) (snd (lower_bound (c :: word) format_names)))
    by reflexivity.
  rewrite G. clear G. change ((fun x => match x with
    | (name, c0) :: next => if starts_with (c :: word) name then match next with (name', _) :: _ => if starts_with (c :: word) name' then Ambiguous else Found c0 | [] => Found c0 end else Unknown
    | [] => Unknown end) (snd (lower_bound (c :: word) format_names)) = Found f) in C.
  destruct (snd (lower_bound (c :: word) format_names)) as [|[nm g] a]; [discriminate C|].
  destruct (starts_with (c :: word) nm); [|discriminate C]. exists g. split; [reflexivity|]. intros _.
  destruct a as [|[nm' g'] a]; [congruence|]. destruct (starts_with (c :: word) nm'); congruence.
Qed.
Lemma atoi_decimal n s : decimal n s -> (Z.of_nat n <= INT_MAX)%Z -> atoi s = Ret (Z.of_nat n).
Proof.
  intros (N & F & _ & V) L. unfold atoi.
  assert (K : forall s acc, Forall (fun c => is_digit c = true) s -> leading_number (Z.of_nat acc) s = Z.of_nat (fold_left (fun a c => 10 * a + digit c) s acc)).
  { clear. induction s as [|c s IH]; intros acc F; [reflexivity|]. inversion F as [|? ? D F']; subst. cbn [leading_number fold_left]. rewrite D, <- IH by auto.
    f_equal. unfold digit. lia. }
  destruct s as [|c s]; [congruence|]. assert (D := F). inversion D as [|? ? Dc _]; subst.
  assert (X : is_space c = false /\ ceqb c "-" = false /\ ceqb c "+" = false).
  { clear - Dc. revert Dc. destruct c as [[] [] [] [] [] [] [] []]; vm_compute; intros; try discriminate; auto. }
  destruct X as (X1 & X2 & X3). cbn [skip_spaces]. rewrite X1, X2, X3. specialize (K (c :: s) 0%nat F). change (Z.of_nat 0) with 0%Z in K. rewrite K.
  generalize dependent (fold_left (fun a c => 10 * a + digit c) (c :: s) 0). intros n L _.
  destruct (Z.leb_spec (-2147483648) (Z.of_nat n)); [|lia]. destruct (Z.leb_spec (Z.of_nat n) INT_MAX); [reflexivity|lia].
Qed.

Lemma atoi_signed n s : decimal n s -> (Z.of_nat n <= INT_MAX)%Z -> atoi ("+"%char :: s) = Ret (Z.of_nat n) /\ atoi ("-"%char :: s) = Ret (- Z.of_nat n)%Z.
Proof.
  intros D L. assert (E := atoi_decimal n s D L). assert (B : (-2147483648 <=? - Z.of_nat n)%Z && (- Z.of_nat n <=? INT_MAX)%Z = true).
  { rewrite andb_true_iff, !Z.leb_le. unfold INT_MAX in *. lia. }
  assert (X : leading_number 0 s = Z.of_nat n).
  { destruct D as (N & F & _ & V). destruct s as [|c s]; [congruence|]. inversion F as [|? ? Dc _]; subst.
    assert (X : is_space c = false /\ ceqb c "-" = false /\ ceqb c "+" = false).
    { clear - Dc. revert Dc. destruct c as [[] [] [] [] [] [] [] []]; vm_compute; intros; try discriminate; auto. }
    destruct X as (X1 & X2 & X3). unfold atoi in E. cbn [skip_spaces] in E. rewrite X1, X2, X3 in E. destruct (_ && _); [|discriminate]. injection E as E. exact E. }
  unfold atoi. cbn [skip_spaces]. change (is_space "+") with false. change (is_space "-") with false. cbv iota.
  rewrite (eq_refl : ceqb "+" "-" = false), (eq_refl : ceqb "+" "+" = true), (eq_refl : ceqb "-" "-" = true), X. split.
  - destruct (Z.leb_spec (-2147483648) (Z.of_nat n)); [|lia]. destruct (Z.leb_spec (Z.of_nat n) INT_MAX); [reflexivity|lia].
  - rewrite B. reflexivity.
Qed.

(** * Options *)
Section Options.
Variable change_dir open_output : list str -> str -> bool.
Notation handle_option := (handle_option change_dir open_output).
Notation handle_options := (handle_options change_dir open_output).
Lemma handle_app evs1 : forall st evs2, handle_options st (evs1 ++ evs2) =
  do n <- handle_options st evs1; match n with Continue st => handle_options st evs2 | Return code => Ret (Return code) end.
Proof.
  induction evs1 as [|ev evs1 IH]; intros st evs2; [reflexivity|]. cbn [app M_Main.handle_options].
  destruct (handle_option st ev) as [[st'|code]| |]; cbn [bind]; auto.
Qed.
Lemma arguments_app c a b : arguments c (a ++ b) = arguments c a ++ arguments c b.
Proof. apply flat_map_app. Qed.
Lemma last_argument_snoc c evs c' a : last_argument c (evs ++ [Opt c' a]) = if ceqb c' c then Some a else last_argument c evs.
Proof. unfold last_argument. rewrite arguments_app. cbn [arguments flat_map]. destruct (ceqb c' c); cbn [app]; rewrite fold_left_app; reflexivity. Qed.
Lemma given_snoc c evs c' a : given c (evs ++ [Opt c' a]) = given c evs || ceqb c' c.
Proof. unfold given. rewrite existsb_app. cbn [existsb is_given]. rewrite orb_false_r. reflexivity. Qed.
Lemma arguments_snoc c evs c' a : arguments c (evs ++ [Opt c' a]) = arguments c evs ++ if ceqb c' c then [a] else [].
Proof. rewrite arguments_app. cbn. destruct (ceqb c' c); reflexivity. Qed.
Lemma dirs_of evs st : meaning evs st -> flat_map (fun a => match a with Some d => [d] | None => [] end) (arguments "C" evs) = s_dirs st.
Proof. intros M. rewrite <- (means_dirs _ _ M). induction (s_dirs st) as [|d l IH]; [reflexivity|]. cbn. f_equal. exact IH. Qed.

Ltac field := cbn [s_verbose s_print_ast s_print_only_errors s_elaborate s_ignore_keep s_depth s_format s_regex s_insensitive s_quiet s_dirs s_output];
  rewrite ?given_snoc, ?last_argument_snoc, ?arguments_snoc;
  repeat match goal with |- context [ceqb ?a ?b] => let v := eval vm_compute in (ceqb a b) in change (ceqb a b) with v end; cbv iota;
  rewrite ?orb_true_r, ?orb_false_r, ?app_nil_r; auto.
Ltac letters H := cbn in H; repeat match type of H with
  | (_ = _) \/ _ => destruct H as [<-|H]
  | False => destruct H
  end.
Lemma handle_meaning evs st ev st' : meaning evs st -> proper ev -> handle_option st ev = Ret (Continue st') ->
  meaning (evs ++ [ev]) st' /\ acceptable change_dir open_output evs ev.
Proof.
  intros M P E. assert (D := dirs_of _ _ M). destruct ev as [c a|]; [|destruct P].
  destruct M as [M1 M2 M3 M4 M5 M6 M7 M8 M9 M10 M11 M12]. destruct st as [v p oe e k d f re i q dirs out].
  cbn [s_verbose s_print_ast s_print_only_errors s_elaborate s_ignore_keep s_depth s_format s_regex s_insensitive s_quiet s_dirs s_output] in *.
  unfold acceptable. rewrite D.
  assert (Done : forall x, Ret (Continue x) = Ret (Continue st') -> x = st') by (intros x X; injection X; auto).
  destruct P as [[L ->]|[[L N]|L]].
  - letters L; cbn in E; try discriminate E; apply Done in E; subst st'; (split; [|split; [cbn; intuition congruence|intros w X; discriminate X]]);
      constructor; cbn [s_verbose s_print_ast s_print_only_errors s_elaborate s_ignore_keep s_depth s_format s_regex s_insensitive s_quiet s_dirs s_output];
      rewrite ?given_snoc, ?last_argument_snoc, ?arguments_snoc; cbn; rewrite ?orb_true_r, ?orb_false_r, ?app_nil_r, ?app_length; cbn; auto; try lia; congruence.
  - destruct a as [w|]; [|congruence]. clear N.
    destruct L as [<-|[<-|[<-|[<-|[]]]]]; cbn [handle_option M_Main.handle_option] in E.
    + rewrite (eq_refl : ceqb "C" "C" = true) in E. destruct (change_dir dirs w) eqn:Cd; [|discriminate E]. apply Done in E. subst st'. split; [|split; [cbn; intuition congruence|]].
      * constructor; field.
        rewrite map_app, M11. reflexivity.
      * intros w' X. injection X as <-. repeat split; intros Y; try discriminate Y. exact Cd.
    + destruct (str_eqb w ($"-")) eqn:Q; [|destruct (open_output dirs w) eqn:Oo]; cbn in E; try discriminate E; apply Done in E; subst st'; (split; [|split; [cbn; intuition congruence|]]).
      * constructor; field. rewrite Q. reflexivity.
      * intros w' X. injection X as <-. repeat split; intros Y; try discriminate Y. left. apply str_eqb_eq. exact Q.
      * constructor; field. rewrite Q. reflexivity.
      * intros w' X. injection X as <-. repeat split; intros Y; try discriminate Y. right. exact Oo.
    + destruct (find_format w) as [f'|] eqn:Ff; cbn in E; [|discriminate E]. apply Done in E. subst st'. apply find_format_some in Ff. split; [|split; [cbn; intuition congruence|]].
      * constructor; field.
      * intros w' X. injection X as <-. repeat split; intros Y; try discriminate Y. exists f'. apply Ff.
    + cbn in E. apply Done in E. subst st'. split; [|split; [cbn; intuition congruence|]].
      * constructor; field.
      * intros w' X. injection X as <-. repeat split; intros Y; discriminate Y.
  - unfold recursion_letter in L. subst c. cbn in E. destruct a as [w|]; cbn [bind] in E.
    + destruct (atoi w) as [z| |] eqn:A; try discriminate E. cbn [bind] in E. apply Done in E. subst st'. split; [|split; [cbn; intuition congruence|]].
      * constructor; field.
      * intros w' X. injection X as <-. repeat split; intros Y; try discriminate Y. exists z. exact A.
    + apply Done in E. subst st'. split; [|split; [cbn; intuition congruence|]].
      * constructor; field.
      * intros w' X. discriminate X.
Qed.
Lemma default_meaning : meaning [] default_settings.
Proof. constructor; reflexivity. Qed.
Lemma handle_step evs st ev : meaning evs st -> proper ev -> acceptable change_dir open_output evs ev -> exists st', handle_option st ev = Ret (Continue st').
Proof.
  intros M P A. assert (D := dirs_of _ _ M). unfold acceptable in A. rewrite D in A. destruct ev as [c a|]; [|destruct P].
  destruct st as [v p oe e k d f re i q dirs out]. cbn [s_dirs] in *. destruct A as [N A].
  destruct P as [[L ->]|[[L Na]|L]].
  - clear A. letters L; cbn in N; try (exfalso; tauto); cbn; eauto.
  - destruct a as [w|]; [|congruence]. destruct (A w eq_refl) as (A1 & A2 & A3 & A4). destruct L as [<-|[<-|[<-|[<-|[]]]]]; cbn [M_Main.handle_option].
    + rewrite A1 by reflexivity. cbn. eauto.
    + destruct (str_eqb w ($"-")) eqn:Q; [cbn; eauto|]. destruct (A2 eq_refl) as [-> |O]; [discriminate|]. rewrite O. cbn. eauto.
    + destruct (A3 eq_refl) as [g G]. apply format_find in G as (f' & -> & _). cbn. eauto.
    + cbn. eauto.
  - unfold recursion_letter in L. subst c. cbn. destruct a as [w|]; [|cbn; eauto]. destruct (A w eq_refl) as (_ & _ & _ & A4). destruct (A4 eq_refl) as [z ->]. cbn. eauto.
Qed.
Theorem handle_options_spec evs : Forall proper evs -> forall st, handle_options default_settings evs = Ret (Continue st) ->
  meaning evs st /\ all_acceptable change_dir open_output evs.
Proof.
  induction evs as [|ev evs IH] using rev_ind; intros P st E.
  - injection E as <-. split; [apply default_meaning|]. intros b x a X. destruct b; discriminate X.
  - apply Forall_app in P as [P1 P2]. inversion P2; subst. rewrite handle_app in E.
    destruct (handle_options default_settings evs) as [[st0|code]| |]; try discriminate. cbn [bind M_Main.handle_options] in E.
    destruct (handle_option st0 ev) as [[st1|code]| |] eqn:H; try discriminate. cbn [bind] in E. injection E as <-.
    destruct (IH P1 st0 eq_refl) as [M A]. destruct (handle_meaning _ _ _ _ M H1 H) as [M' A']. split; [exact M'|].
    intros b x a X. destruct (exists_last (l := x :: a)) as (a' & y & Y); [discriminate|].
    destruct a' as [|z a'].
    + injection Y as -> ->. apply app_inj_tail in X as [<- <-]. exact A'.
    + injection Y as <- ->. rewrite app_comm_cons, app_assoc in X. apply app_inj_tail in X as [X <-]. apply (A b x a'). exact X.
Qed.
Theorem handle_options_accepts evs : Forall proper evs -> all_acceptable change_dir open_output evs ->
  exists st, handle_options default_settings evs = Ret (Continue st).
Proof.
  induction evs as [|ev evs IH] using rev_ind; intros P A; [cbn; eauto|].
  apply Forall_app in P as [P1 P2]. inversion P2; subst.
  destruct IH as [st E]; [exact P1|intros b x a ->; apply (A b x (a ++ [ev])); rewrite <- app_assoc; reflexivity|].
  rewrite handle_app, E. cbn [bind M_Main.handle_options]. destruct (handle_options_spec _ P1 _ E) as [M _].
  destruct (handle_step _ _ _ M H1 (A evs ev [] eq_refl)) as [st' ->]. cbn. eauto.
Qed.
Lemma handle_refuses evs st c a : meaning evs st -> proper (Opt c a) -> (c = "r"%char -> forall w, a = Some w -> exists z, atoi w = Ret z) ->
  ~ acceptable change_dir open_output evs (Opt c a) -> handle_option st (Opt c a) = Ret (Return (if existsb (ceqb c) ($"Cof") then 1 else 0)).
Proof.
  intros M P R A. destruct (handle_option st (Opt c a)) as [[st'|code]| |] eqn:E.
  - destruct A. eapply handle_meaning; eauto.
  - f_equal. f_equal. destruct st as [v p oe e k d f re i q dirs out]. destruct P as [[L ->]|[[L N]|L]].
    + letters L; cbn in E; try discriminate E; injection E as <-; reflexivity.
    + destruct a as [w|]; [|congruence]. destruct L as [<-|[<-|[<-|[<-|[]]]]]; cbn [M_Main.handle_option] in E.
      * destruct (change_dir dirs w); cbn in E; [discriminate|]. injection E as <-. reflexivity.
      * destruct (str_eqb w ($"-")); [|destruct (open_output dirs w)]; cbn in E; try discriminate. injection E as <-. reflexivity.
      * destruct (find_format w); cbn in E; [discriminate|]. injection E as <-. reflexivity.
      * discriminate.
    + unfold recursion_letter in L. subst c. cbn in E. destruct a as [w|]; [|discriminate]. destruct (R eq_refl w eq_refl) as [z Z]. rewrite Z in E. discriminate.
  - exfalso. destruct st as [v p oe e k d f re i q dirs out]. destruct P as [[L ->]|[[L N]|L]].
    + letters L; cbn in E; discriminate E.
    + destruct a as [w|]; [|congruence]. destruct L as [<-|[<-|[<-|[<-|[]]]]]; cbn in E; discriminate E.
    + unfold recursion_letter in L. subst c. cbn in E. destruct a as [w|]; [|discriminate]. destruct (R eq_refl w eq_refl) as [z Z]. rewrite Z in E. discriminate.
  - exfalso. destruct st as [v p oe e k d f re i q dirs out]. destruct P as [[L ->]|[[L N]|L]].
    + letters L; cbn in E; discriminate E.
    + destruct a as [w|]; [|congruence]. destruct L as [<-|[<-|[<-|[<-|[]]]]]; cbn in E; discriminate E.
    + unfold recursion_letter in L. subst c. cbn in E. destruct a as [w|]; [|discriminate]. destruct (R eq_refl w eq_refl) as [z Z]. rewrite Z in E. discriminate.
Qed.
End Options.
