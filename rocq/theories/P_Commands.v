(** Proofs about the commands. *)
From Verif Require Import Base OMap M_Types M_Scanner S_Scanner P_Scanner M_Ast M_Parser M_Query S_Query P_Query M_Elab P_Elab M_Workspace S_Workspace P_Workspace
  M_Project M_DepGraph S_DepGraph P_DepGraph M_Headers M_Dwyu M_Edits M_Table S_Table P_Table M_Printer M_Highlight M_Commands S_Commands.

(** * C49 *)
Lemma prefix_between (word b c : str) : ~ klt b word -> klt b c -> starts_with word c = true -> starts_with word b = true.
Proof.
  change (OMap.lex kcmp b word <> Lt -> OMap.lex kcmp b c = Lt -> starts_with word c = true -> starts_with word b = true).
  revert b c. induction word as [|x word IH]; intros b c H1 H2 H3; [reflexivity|].
  destruct c as [|z c]; [discriminate|]. cbn [starts_with] in H3. destruct (ceqb_spec x z) as [<-|]; [|discriminate].
  destruct b as [|y b]; [exfalso; apply H1; reflexivity|]. cbn [OMap.lex starts_with] in H1, H2 |- *.
  destruct (kcmp y x) eqn:E; [|congruence|congruence].
  apply kcmp_eq in E. subst y. rewrite ceqb_refl. cbn [andb] in *. eauto.
Qed.
Lemma prefix_not_before (word a : str) : klt a word -> starts_with word a = false.
Proof.
  change (OMap.lex kcmp a word = Lt -> starts_with word a = false).
  revert a. induction word as [|x word IH]; intros a H; [destruct a; discriminate|].
  destruct a as [|y a]; [reflexivity|]. cbn [starts_with]. destruct (ceqb_spec x y) as [<-|]; [|reflexivity].
  cbn [OMap.lex] in H. rewrite kcmp_refl in H. cbn [andb]. auto.
Qed.
Theorem find_command_spec {A} (names : list (str * A)) word : msorted names ->
  find_command names word = match abbreviated names word with [] => Unknown | [c] => Found c | _ => Ambiguous end.
Proof.
  intros S. unfold find_command, abbreviated.
  assert (E := lower_bound_app word names). destruct (lower_bound word names) as [before after] eqn:L. cbn [fst snd] in *.
  assert (Bf : filter (fun e => starts_with word (fst e)) before = []).
  { assert (B : forall x v, In (x, v) before -> klt x word) by (intros x v I; apply (lower_bound_before word names x v); rewrite L; exact I).
    clear - B. induction before as [|[x v] l IH]; [reflexivity|]. cbn [filter fst]. rewrite (prefix_not_before word x) by (apply (B x v); left; auto).
    apply IH. intros y u I. apply (B y u). right; auto. }
  rewrite <- E, filter_app, Bf. cbn [app].
  assert (Af : forall x v, In (x, v) after -> ~ klt x word) by (intros x v I; apply (lower_bound_after word names x v S); rewrite L; exact I).
  assert (Sa : msorted after).
  { unfold msorted, keys in *. rewrite <- E, map_app in S. clear - S. induction (map fst before); cbn in S; auto. apply IHl, S. }
  clear E Bf L. destruct after as [|[x v] after]; [reflexivity|].
  assert (Tail : forall y u (rest : list (str * A)), msorted ((y, u) :: rest) -> ~ klt y word -> starts_with word y = false -> filter (fun e => starts_with word (fst e)) rest = []).
  { intros y u rest Sr N F. destruct Sr as [Sr _]. cbn [map fst] in Sr. fold (keys rest) in Sr. rewrite Forall_forall in Sr.
    assert (K : forall z, In z (keys rest) -> starts_with word z = false).
    { intros z Hz. destruct (starts_with word z) eqn:Z; auto. rewrite (prefix_between word y z) in F; auto. }
    clear - K. unfold keys in K. induction rest as [|[z u] rest IH]; [reflexivity|]. cbn [filter fst]. rewrite K by (left; auto). apply IH. intros; apply K; right; auto. }
  cbn [filter fst]. destruct (starts_with word x) eqn:X.
  - destruct after as [|[y u] after]; [reflexivity|]. cbn [filter fst]. destruct (starts_with word y) eqn:Y; [reflexivity|].
    rewrite (Tail y u after); auto; [apply Sa|apply (Af y u); right; left; auto].
  - rewrite (Tail x v after); auto. apply (Af x v). left; auto.
Qed.

(** * C64 *)
Section Filter.
Variable w : workspace.
Hypothesis w_sorted : msorted w.
Definition good_sub (sub : workspace) : Prop := msorted sub /\ incl sub w.
Lemma insert_in (sub : workspace) vp d : good_sub sub -> In (vp, d) w ->
  good_sub (map_insert vp d sub) /\ forall e, In e (map_insert vp d sub) <-> e = (vp, d) \/ In e sub.
Proof.
  intros [S I] H. assert (S' := map_insert_sorted vp d sub S).
  assert (K : forall e, In e (map_insert vp d sub) <-> e = (vp, d) \/ In e sub).
  { intros [k v]. split; intros Hin.
    - apply (msorted_find _ _ _ S') in Hin. rewrite map_insert_find in Hin by exact S.
      destruct (map_find k sub) eqn:F; [right; apply map_find_in; congruence|].
      destruct (keqb_spec k vp) as [->|N]; [left; congruence|discriminate].
    - apply map_find_in. rewrite map_insert_find by exact S. destruct Hin as [E|Hin].
      + inversion E; subst. destruct (map_find vp sub) as [d'|] eqn:F; [|rewrite keqb_refl; reflexivity].
        apply map_find_in in F. apply I in F. apply (msorted_find _ _ _ w_sorted) in F. apply (msorted_find _ _ _ w_sorted) in H. congruence.
      + apply (msorted_find _ _ _ S) in Hin. rewrite Hin. reflexivity. }
  split; [|exact K]. split; [exact S'|]. intros e He. apply K in He as [->|He]; auto.
Qed.
(** The entry that a reference asks for. *)
Definition asked (p : package) (ref : str) (e : vproject * str) : Prop :=
  exists t, parse_target ref p = Some t /\ project (tpackage t) <> [] /\ project (tpackage t) <> project p /\
    first_version w (bare (project (tpackage t))) (fst e) (snd e).
Lemma transfer_ref_spec p ref sub : good_sub sub ->
  good_sub (transfer_ref w p sub ref) /\ forall e, In e (transfer_ref w p sub ref) <-> In e sub \/ asked p ref e.
Proof.
  intros G. unfold transfer_ref, asked.
  destruct (parse_target ref p) as [t|]; [|split; [exact G|]; intros e; split; [auto|intros [?|(t & E & _)]; [auto|discriminate]]].
  destruct (is_nil (project (tpackage t))) eqn:N; cbn [orb].
  { split; [exact G|]. intros e. split; [auto|]. intros [?|(t' & E & N' & _)]; [auto|]. injection E as <-. destruct (project (tpackage t)); [contradiction|discriminate]. }
  destruct (str_eqb_spec (project (tpackage t)) (project p)) as [Ep|Np].
  { split; [exact G|]. intros e. split; [auto|]. intros [?|(t' & E & _ & N' & _)]; [auto|]. injection E as <-. contradiction. }
  assert (Ne : project (tpackage t) <> []) by (intros E; rewrite E in N; discriminate).
  destruct (find_entry_by_project w (project (tpackage t))) as [[vp d]|] eqn:F.
  - apply find_entry_spec in F; auto. destruct (insert_in sub vp d G) as [G' K]; [apply F|]. split; [exact G'|].
    intros [vp' d']. rewrite K. split.
    + intros [E|?]; [|auto]. inversion E; subst. right. exists t. auto.
    + intros [?|(t' & E & _ & _ & F')]; [auto|]. injection E as <-. left. cbn in F'. apply find_entry_spec in F, F'; auto. congruence.
  - split; [exact G|]. intros [vp' d']. split; [auto|]. intros [?|(t' & E & _ & _ & F')]; [auto|]. injection E as <-.
    cbn in F'. apply find_entry_spec in F'; auto. congruence.
Qed.
Lemma transfer_refs_spec p refs : forall sub, good_sub sub ->
  good_sub (fold_left (transfer_ref w p) refs sub) /\
  forall e, In e (fold_left (transfer_ref w p) refs sub) <-> In e sub \/ exists ref, In ref refs /\ asked p ref e.
Proof.
  induction refs as [|ref refs IH]; intros sub G; cbn [fold_left].
  - split; [exact G|]. intros e. split; [auto|]. intros [?|(ref & [] & _)]. auto.
  - destruct (transfer_ref_spec p ref sub G) as [G1 K1]. destruct (IH _ G1) as [G2 K2]. split; [exact G2|].
    intros e. rewrite K2, K1. split.
    + intros [[?|?]|(r & I & A)]; [auto|right; exists ref; split; [left; auto|auto]|right; exists r; split; [right; auto|auto]].
    + intros [?|(r & [<-|I] & A)]; [auto|auto|right; eauto].
Qed.
Lemma external_refs_spec pt p r refs : external_refs pt p r = Ret refs -> forall ref, In ref refs <-> referring pt p r ref.
Proof.
  unfold external_refs, referring. intros E ref. destruct (str_eqb_spec (v_text (q_rule r)) ($"load")) as [L|L].
  - destruct (q_node r) as [| | | | | | | | | |f args]; try discriminate. destruct args as [| | | | | |ty args| | | |]; try discriminate.
    unfold extract_string_list, opt_elems in E. destruct (string_list args) as [vs| |] eqn:S; try discriminate. injection E as <-.
    rewrite (string_list_texts _ _ S). split.
    + intros H. left. split; [exact L|]. eauto.
    + intros [(_ & f' & ty' & args' & En & I)|(N & _)]; [|contradiction]. injection En as <- <- <-. exact I.
  - destruct (qualified_target p (v_text (q_name r))) as [t|] eqn:Q.
    + destruct (match_target pt t) eqn:M.
      * unfold extract_string_list in E. destruct (string_list (opt_elems (q_deps r))) as [vs| |] eqn:S; try discriminate. injection E as <-.
        rewrite (string_list_texts _ _ S).
        assert (Em : texts (opt_elems (q_deps r)) ++ (if is_nil (v_text (q_actual r)) then [] else [v_text (q_actual r)]) = mentioned r).
        { unfold mentioned, opt_elems. destruct (q_deps r), (v_text (q_actual r)); reflexivity. }
        rewrite Em. split; [intros H; right; eauto|]. intros [(C & _)|(_ & I & _)]; [contradiction|auto].
      * injection E as <-. split; [intros []|]. intros [(C & _)|(_ & I & t' & Et & M')]; [contradiction|]. congruence.
    + injection E as <-. split; [intros []|]. intros [(C & _)|(_ & I & t' & Et & M')]; [contradiction|]. congruence.
Qed.
Lemma transfer_rules_spec pt p rs : forall sub sub', good_sub sub -> transfer_rules w pt p rs sub = Ret sub' ->
  good_sub sub' /\ forall e, In e sub' <-> In e sub \/ exists r ref, In r rs /\ referring pt p r ref /\ asked p ref e.
Proof.
  induction rs as [|r rs IH]; intros sub sub' G E; cbn [transfer_rules] in E.
  - injection E as <-. split; [exact G|]. intros e. split; [auto|]. intros [?|(r & ref & [] & _)]. auto.
  - destruct (external_refs pt p r) as [refs| |] eqn:Er; try discriminate. cbn [bind] in E.
    assert (K0 := external_refs_spec _ _ _ _ Er). destruct (transfer_refs_spec p refs sub G) as [G1 K1].
    destruct (IH _ _ G1 E) as [G2 K2]. split; [exact G2|]. intros e. rewrite K2, K1. split.
    + intros [[?|(ref & I & A)]|(r' & ref & I & A)]; [auto|right; exists r, ref; split; [left; auto|split; [now apply K0|auto]]|right; exists r', ref; split; [right; apply I|exact A]].
    + intros [?|(r' & ref & [<-|I] & R & A)]; [auto|left; right; exists ref; split; [now apply K0|auto]|right; eauto].
Qed.
Lemma filter_files_spec pt files : forall sub sub', good_sub sub -> filter_files w pt files sub = Ret sub' ->
  good_sub sub' /\ forall e, In e sub' <-> In e sub \/
    exists q f rs r ref, In (q, f) files /\ match_package pt (pf_package f) = true /\
      find_targets_allow_empty [] (pf_ast f) = Ret rs /\ In r rs /\ referring pt (pf_package f) r ref /\ asked (pf_package f) ref e.
Proof.
  induction files as [|[q f] files IH]; intros sub sub' G E; cbn [filter_files] in E.
  - injection E as <-. split; [exact G|]. intros e. split; [auto|]. intros [?|(q & f & rs & r & ref & [] & _)]. auto.
  - destruct (match_package pt (pf_package f)) eqn:M.
    + destruct (find_targets_allow_empty [] (pf_ast f)) as [rs| |] eqn:Ef; try discriminate. cbn [bind] in E.
      destruct (transfer_rules w pt (pf_package f) rs sub) as [sub1| |] eqn:Et; try discriminate. cbn [bind] in E.
      destruct (transfer_rules_spec _ _ _ _ _ G Et) as [G1 K1]. destruct (IH _ _ G1 E) as [G2 K2]. split; [exact G2|].
      intros e. rewrite K2, K1. split.
      * intros [[?|(r & ref & A)]|(q' & f' & rs' & r & ref & I & A)]; [auto| |].
        -- right. exists q, f, rs, r, ref. split; [left; auto|]. split; auto.
        -- right. exists q', f', rs', r, ref. split; [right; auto|]. exact A.
      * intros [?|(q' & f' & rs' & r & ref & [I|I] & M' & F' & A)]; [auto| |].
        -- inversion I; subst. assert (rs' = rs) by congruence. subst. left. right. eauto.
        -- right. exists q', f', rs', r, ref. auto.
    + destruct (IH _ _ G E) as [G2 K2]. split; [exact G2|]. intros e. rewrite K2. split.
      * intros [?|(q' & f' & rs' & r & ref & I & A)]; [auto|]. right. exists q', f', rs', r, ref. split; [right; auto|]. exact A.
      * intros [?|(q' & f' & rs' & r & ref & [I|I] & M' & A)]; [auto| |].
        -- inversion I; subst. congruence.
        -- right. exists q', f', rs', r, ref. auto.
Qed.
Theorem filtered_spec pr pt sub : filtered_workspace w pr pt = Ret sub ->
  msorted sub /\ forall vp d, In (vp, d) sub <-> exists proj, uses_project pr pt proj /\ first_version w (bare proj) vp d.
Proof.
  intros E. assert (G0 : good_sub []) by (split; [exact I|apply incl_nil_l]).
  destruct (filter_files_spec _ _ _ _ G0 E) as [[S _] K]. split; [exact S|].
  intros vp d. rewrite K. unfold uses_project, asked. cbn [fst snd]. split.
  - intros [[]|(q & f & rs & r & ref & A1 & A2 & A3 & A4 & A5 & t & B1 & B2 & B3 & B4)]. eauto 20.
  - intros (proj & (q & f & rs & r & ref & t & A1 & A2 & A3 & A4 & A5 & B1 & B2 & B3 & B4) & F). subst proj. right.
    exists q, f, rs, r, ref. do 5 (split; [assumption|]). exists t. auto.
Qed.
End Filter.

(** * C65 *)
Lemma iter_after n sc : Nat.iter n (fun sc => snd (next sc)) sc = after_next n sc.
Proof.
  induction n as [|n IH]; [reflexivity|]. cbn [Nat.iter nat_rect]. change (snd (next (Nat.iter n (fun sc => snd (next sc)) sc)) = after_next (S n) sc).
  rewrite IH. replace (S n) with (n + 1) by lia. rewrite after_next_plus. reflexivity.
Qed.
Lemma scanned_all content : plain_lines content -> scanned_lines content = line_map_of content.
Proof.
  intros [_ H]. unfold scanned_lines. rewrite iter_after, (lines_after content) by (intros; auto).
  replace (S (length content)) with (length content + 1) by lia. rewrite after_next_plus.
  assert (E := eof_reached content (length content) (le_n _)). unfold token_at in E.
  assert (U : sc_upcoming (after_next (length content) (scanner_init content)) = None) by (apply after_next_upcoming; auto).
  assert (A := after_next_at_content content (length content)). cbn [after_next].
  destruct (next (after_next (length content) (scanner_init content))) as [t sc'] eqn:N. cbn [fst snd] in *.
  apply next_spec in N as [_ [(_ & _ & _ & O & _)|(g & _ & _ & _ & T & _)]]; auto; [|contradiction].
  destruct A as [A1 A2]. rewrite O, A2, skipn_length. rewrite firstn_all2 by lia. reflexivity.
Qed.

(** Numbers. *)
Lemma digit_ch d : d < 10 -> is_digit (ch (48 + d)) = true /\ digit (ch (48 + d)) = d /\ (ch (48 + d) = "0"%char -> d = 0).
Proof. intros H. do 10 (destruct d as [|d]; [repeat split; auto; vm_compute; discriminate|]). lia. Qed.
Lemma fold_digits s : forall a b, fold_left (fun a c => 10 * a + digit c) s (a + b) = fold_left (fun a c => 10 * a + digit c) s a + b * 10 ^ length s.
Proof.
  induction s as [|c s IH]; intros a b; cbn [fold_left length].
  - cbn. lia.
  - replace (10 * (a + b) + digit c) with ((10 * a + digit c) + 10 * b) by lia. rewrite IH. cbn [Nat.pow]. lia.
Qed.
Lemma digits_decimal fuel : forall z acc, (0 <= z < 10 ^ Z.of_nat fuel)%Z -> Forall (fun c => is_digit c = true) acc -> 0 < fuel ->
  exists s, digits_of fuel z acc = s ++ acc /\ decimal (Z.to_nat z) s.
Proof.
  induction fuel as [|fuel IH]; intros z acc Hz Ha F; [lia|]. cbn [digits_of].
  assert (M := Z.mod_pos_bound z 10 ltac:(lia)). assert (D := Z.div_mod z 10 ltac:(lia)).
  destruct (digit_ch (Z.to_nat (z mod 10))) as (D1 & D2 & D3); [lia|].
  destruct (Z.eqb_spec (z / 10) 0) as [E|E].
  - exists [ch (48 + Z.to_nat (z mod 10))]. split; [reflexivity|].
    split; [discriminate|]. split; [auto|]. split; [intros r Er; congruence|].
    cbn [fold_left]. rewrite D2. lia.
  - assert (0 <= z / 10)%Z by (apply Z.div_pos; lia).
    assert (z / 10 < 10 ^ Z.of_nat fuel)%Z.
    { apply Z.div_lt_upper_bound; [lia|]. rewrite Nat2Z.inj_succ, Z.pow_succ_r in Hz by lia. lia. }
    destruct fuel as [|fuel]; [cbn in *; lia|].
    destruct (IH (z / 10)%Z (ch (48 + Z.to_nat (z mod 10)) :: acc)) as (s & Es & N & Fs & Z0 & V); [lia|auto|lia|].
    exists (s ++ [ch (48 + Z.to_nat (z mod 10))]). split; [rewrite Es, <- app_assoc; reflexivity|].
    split; [destruct s; discriminate|]. split; [apply Forall_app; auto|]. split.
    + intros r Er. destruct s as [|c s]; [contradiction|]. assert (Ec : c = "0"%char) by (apply (f_equal (hd "1"%char)) in Er; exact Er). subst c.
      rewrite (Z0 s eq_refl) in V. cbn in V. lia.
    + rewrite fold_left_app. cbn [fold_left]. rewrite V, D2. lia.
Qed.
Lemma print_decimal n : (Z.of_nat n <= 2147483647)%Z -> decimal n (print_int (Z.of_nat n)).
Proof.
  intros H. unfold print_int. destruct (Z.ltb_spec (Z.of_nat n) 0); [lia|].
  destruct (digits_decimal 20 (Z.of_nat n) []) as (s & -> & D); [|auto|lia|].
  - split; [lia|]. change (10 ^ Z.of_nat 20)%Z with 100000000000000000000%Z. lia.
  - rewrite app_nil_r. rewrite Nat2Z.id in D. exact D.
Qed.
Lemma position_bound content p l c : p <= length content -> is_position content p (mkLC l c) -> l + c <= length content.
Proof.
  intros H (b & ln & E & _ & _ & L & C). cbn in L, C. apply (f_equal (@length _)) in E. rewrite app_length, firstn_length in E.
  assert (count_char NL b <= length b). { clear. unfold count_char. induction b; cbn; [lia|]. destruct (ceqb _ _); cbn; lia. }
  lia.
Qed.
Lemma loc_spec f v s : plain_lines (pf_content f) -> loc f v = Ret s -> shown_at f v s.
Proof.
  intros P. unfold loc. set (p := match v_org v with InFile off => (off, length (v_text v)) | Synth off len => (off, len) end).
  destruct p as [off len] eqn:Ep. destruct (Nat.ltb_spec (length (pf_content f)) (off + len)); [discriminate|].
  rewrite scanned_all by exact P. unfold get_range.
  destruct (get_pos_true (pf_content f) off) as [[l1 c1] [-> P1]]; [lia|].
  destruct (get_pos_true (pf_content f) (off + len)) as [[l2 c2] [-> P2]]; [lia|].
  intros E. injection E as <-. eexists. split; [reflexivity|].
  assert (B1 : l1 + c1 <= length (pf_content f)) by (apply (position_bound _ off); [lia|exact P1]).
  assert (B2 : l2 + c2 <= length (pf_content f)) by (apply (position_bound _ (off + len)); [lia|exact P2]).
  destruct P as [Sz _].
  assert (K : place (pf_content f) off len (print_lc_range (mkLC l1 c1, mkLC l2 c2))).
  { exists l1, c1, l2, c2, (print_int (Z.of_nat (l1 + 1))), (print_int (Z.of_nat (c1 + 1))), (print_int (Z.of_nat (l2 + 1))), (print_int (Z.of_nat c2)).
    split; [exact P1|]. split; [exact P2|]. do 4 (split; [apply print_decimal; lia|]).
    unfold print_lc_range, print_position. rewrite !Nat2Z.inj_add. change (Z.of_nat 1) with 1%Z.
    replace (Z.of_nat c2 - 1 + 1)%Z with (Z.of_nat c2) by lia. rewrite <- !app_assoc. do 3 f_equal.
    destruct (Z.eqb_spec (Z.of_nat l1) (Z.of_nat l2)), (Nat.eqb_spec l1 l2); try lia; [|rewrite <- ?app_assoc; reflexivity].
    destruct (Z.ltb_spec (Z.of_nat c1) (Z.of_nat c2 - 1)), (Nat.ltb_spec (c1 + 1) c2); try lia; rewrite <- ?app_assoc; reflexivity. }
  unfold p in Ep. destruct (v_org v); injection Ep as -> ->; exact K.
Qed.
Lemma next_lines sc : exists p, sc_lines (snd (next sc)) = sc_lines sc ++ p.
Proof.
  unfold next. destruct (sc_upcoming sc); cbn [snd sc_lines]; [exists []; now rewrite app_nil_r|].
  destruct (skip_space _ _ _) as [n p]. destruct (skipn n (sc_rest sc)) eqn:E; [exists p; reflexivity|].
  destruct (scan_token _ _) as [[ty k] p2]. cbn [snd sc_lines]. exists (p ++ p2). now rewrite app_assoc.
Qed.
Lemma lines_start content : exists l, scanned_lines content = 0 :: l.
Proof.
  unfold scanned_lines. generalize (S (length content)). induction n as [|n [l IH]]; [exists []; reflexivity|].
  cbn [Nat.iter nat_rect]. match goal with |- context [next ?s] => destruct (next_lines s) as (p & ->) end.
  change (exists l, sc_lines (Nat.iter n (fun sc => snd (next sc)) (scanner_init content)) ++ p = 0 :: l). rewrite IH. exists (l ++ p). reflexivity.
Qed.
(** A location can always be printed, whatever the lines. *)
Lemma loc_defined f v : match v_org v with InFile off => off + length (v_text v) | Synth off len => off + len end <= length (pf_content f) ->
  exists s, loc f v = Ret s.
Proof.
  intros H. unfold loc. destruct (lines_start (pf_content f)) as (l & L).
  assert (K : forall off len, off + len <= length (pf_content f) -> exists s,
    (if length (pf_content f) <? off + len then UB else match get_range (scanned_lines (pf_content f)) off len with
      Some r => Ret (pf_name f ++ $":" ++ print_lc_range r) | None => UB end) = Ret s).
  { intros off len Le. destruct (Nat.ltb_spec (length (pf_content f)) (off + len)); [lia|]. rewrite L. unfold get_range, get_pos. cbn [upper_bound Nat.leb]. eauto. }
  destruct (v_org v) as [off|off len]; apply K; exact H.
Qed.
Lemma colon_target p n : parse_target ($":" ++ n) p = if contains_char ":" n then None else Some (mkTarget p n).
Proof.
  unfold parse_target. assert (E : split ":" ($":" ++ n) = [] :: split ":" n) by reflexivity. rewrite E. clear E.
  destruct (contains_char ":" n) eqn:C.
  - destruct (split ":" n) as [|a [|b l]] eqn:Sp; [exfalso; apply (split_not_nil ":" n Sp)| |reflexivity].
    exfalso. assert (L : length (split ":" n) = 1) by (rewrite Sp; reflexivity). apply split_length_1 in L. apply L.
    unfold contains_char in C. apply existsb_exists in C as (x & I & E). apply ceqb_eq in E. subst. exact I.
  - rewrite split_notin; [reflexivity|]. intros I. unfold contains_char in C.
    rewrite <- not_true_iff_false in C. apply C. apply existsb_exists. exists ":"%char. split; [exact I|apply ceqb_refl].
Qed.
Lemma target_rows_spec pt p f rs : plain_lines (pf_content f) -> forall ops, target_rows pt p f rs = Ret ops ->
  Forall2 (target_row p f) (filter (listed pt p) rs) (flat_map (fun op => entry_rows (entry_of op)) ops) /\
  (forall op, In op ops -> entry_columns (entry_of op) = 3).
Proof.
  intros P. induction rs as [|r rs IH]; intros ops E; cbn [target_rows] in E; [injection E as <-; split; [constructor|intros ? []]|].
  rewrite colon_target in E. cbn [filter]. unfold listed at 1. destruct (contains_char ":" (v_text (q_name r))); cbn [negb andb]; [auto|].
  destruct (match_target pt _); [|auto].
  destruct (loc f (q_name r)) as [l| |] eqn:L; try discriminate. cbn [bind] in E.
  destruct (target_rows pt p f rs) as [rows| |]; try discriminate. injection E as <-. destruct (IH _ eq_refl) as [A B].
  split; [|intros op [<-|I]; [reflexivity|auto]]. cbn [flat_map entry_rows entry_of app]. constructor; auto.
  exists l. split; auto. apply loc_spec; auto.
Qed.
Lemma target_rows_of_spec pt files : (forall p f, In (p, f) files -> plain_lines (pf_content f)) -> forall ops, target_rows_of pt files = Ret ops ->
  target_list pt files (flat_map (fun op => entry_rows (entry_of op)) ops) /\ (forall op, In op ops -> entry_columns (entry_of op) = 3).
Proof.
  induction files as [|[p f] files IH]; intros P ops E; cbn [target_rows_of] in E; [injection E as <-; split; [constructor|intros ? []]|].
  destruct (find_targets [] (pf_ast f)) as [rs| |] eqn:F; try discriminate. cbn [bind] in E.
  destruct (target_rows pt p f rs) as [a| |] eqn:R; try discriminate. cbn [bind] in E.
  destruct (target_rows_of pt files) as [b| |]; try discriminate. injection E as <-.
  destruct (IH (fun p f I => P p f (or_intror I)) _ eq_refl) as [A B]. destruct (target_rows_spec _ _ _ _ (P p f (or_introl eq_refl)) _ R) as [A' B'].
  rewrite flat_map_app. split; [econstructor; eauto|]. intros op I. apply in_app_or in I as [I|I]; auto.
Qed.
Lemma target_rows_columns pt p f rs : forall ops, target_rows pt p f rs = Ret ops -> forall op, In op ops -> entry_columns (entry_of op) = 3.
Proof.
  induction rs as [|r rs IH]; intros ops E op I; cbn [target_rows] in E; [injection E as <-; destruct I|].
  destruct (parse_target _ p) as [t|]; [|eauto]. destruct (match_target pt t); [|eauto].
  destruct (loc f (q_name r)) as [l| |]; try discriminate. cbn [bind] in E.
  destruct (target_rows pt p f rs) as [rows| |]; try discriminate. injection E as <-. destruct I as [<-|I]; [reflexivity|eauto].
Qed.
Lemma target_rows_of_columns pt files : forall ops, target_rows_of pt files = Ret ops -> forall op, In op ops -> entry_columns (entry_of op) = 3.
Proof.
  induction files as [|[p f] files IH]; intros ops E op I; cbn [target_rows_of] in E; [injection E as <-; destruct I|].
  destruct (find_targets [] (pf_ast f)) as [rs| |]; try discriminate. cbn [bind] in E.
  destruct (target_rows pt p f rs) as [a| |] eqn:R; try discriminate. cbn [bind] in E.
  destruct (target_rows_of pt files) as [b| |]; try discriminate. injection E as <-.
  apply in_app_or in I as [I|I]; [eapply target_rows_columns; eauto|eauto].
Qed.
