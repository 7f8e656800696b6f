(** The texts of the clang-tidy script: includes, checks, names, repaired lines. *)
From Coq Require Import NArith Lia Permutation.
From Verif Require Import Base OMap M_Workspace M_CompDb M_Tidy S_Tidy.

(** * Matches of an expression *)
Section Matches.
Variable m : str -> option (str * nat).
Variable P : str -> str -> Prop.
Hypothesis matched : forall s x len, m s = Some (x, len) <-> exists b c, s = b ++ c /\ P b x /\ length b = len.
Hypothesis some_text : forall b x, P b x -> b <> [].

Lemma all_matches_skip s : forall k, all_matches m k s = all_matches m 0 (skipn k s).
Proof. induction s as [|c r IH]; intros [|k]; try reflexivity. cbn. apply IH. Qed.

Lemma search s :
  (all_matches m 0 s = [] /\ forall a b c x, s = a ++ b ++ c -> ~ P b x) \/
  exists a b c x, s = a ++ b ++ c /\ P b x /\ (forall a' b' c' y, s = a' ++ b' ++ c' -> P b' y -> length a <= length a') /\
    all_matches m 0 s = x :: all_matches m 0 c.
Proof.
  induction s as [|ch r IH].
  - left. split; [reflexivity|]. intros a b c x E H. apply (some_text b x H). destruct a, b; try discriminate. reflexivity.
  - destruct (m (ch :: r)) as [[x len]|] eqn:E.
    + right. destruct (proj1 (matched _ _ _) E) as (b & c & Es & Hb & Hl). exists [], b, c, x. cbn [app].
      split; [exact Es|]. split; [exact Hb|]. split; [intros; cbn; lia|].
      cbn [all_matches]. rewrite E. f_equal. rewrite all_matches_skip. f_equal.
      destruct b as [|b0 b]; [exfalso; now apply (some_text [] x)|]. injection Es as <- ->. subst len. cbn.
      rewrite Nat.sub_0_r, skipn_app, skipn_all, Nat.sub_diag. reflexivity.
    + assert (N : forall b c x, ch :: r = b ++ c -> ~ P b x).
      { intros b c x Es Hb. assert (F : m (ch :: r) = Some (x, length b)) by (apply matched; eauto). congruence. }
      destruct IH as [[IH1 IH2]|(a & b & c & x & Es & Hb & Hm & IH)].
      * left. split; [cbn [all_matches]; now rewrite E|]. intros [|a0 a] b c x Es; [now apply (N b c)|].
        injection Es as <- ->. eapply IH2; reflexivity.
      * right. exists (ch :: a), b, c, x. split; [cbn; now rewrite Es|]. split; [exact Hb|]. split.
        -- intros [|a0 a'] b' c' y Es' Hb'; [exfalso; now apply (N b' c' y)|]. injection Es' as <- Es'. cbn. apply le_n_S. eapply Hm; eauto.
        -- cbn [all_matches]. rewrite E. exact IH.
Qed.

Lemma app_same_length {A} (a a' b b' : list A) : a ++ b = a' ++ b' -> length a = length a' -> a = a' /\ b = b'.
Proof.
  revert a'; induction a as [|x a IH]; intros [|y a'] E L; try discriminate L; [now split|].
  injection E as -> E. injection L as L. destruct (IH a' E L) as [-> ->]. now split.
Qed.

Lemma matches_pieces s l : pieces P s l <-> l = all_matches m 0 s.
Proof.
  split.
  - intros H. induction H as [s N|a b x s l Hb Hm H IH].
    + destruct (search s) as [[-> _]|(a & b & c & x & Es & Hb & _)]; [reflexivity|]. exfalso. eapply N; eauto.
    + destruct (search (a ++ b ++ s)) as [[_ N]|(a2 & b2 & c2 & x2 & Es & Hb2 & Hm2 & E)].
      * exfalso. eapply N; eauto.
      * assert (L : length a = length a2). { apply Nat.le_antisymm; [eapply Hm; eauto|eapply Hm2; [reflexivity|exact Hb]]. }
        destruct (app_same_length _ _ _ _ Es L) as [-> Er].
        assert (F1 : m (b ++ s) = Some (x, length b)) by (apply matched; eauto).
        assert (F2 : m (b ++ s) = Some (x2, length b2)) by (rewrite Er; apply matched; eauto).
        rewrite F1 in F2. injection F2 as -> L2. destruct (app_same_length _ _ _ _ Er L2) as [-> ->]. now rewrite E, IH.
  - intros ->. remember (length s) as n eqn:En. revert s En. induction n as [n IH] using (well_founded_induction lt_wf). intros s ->.
    destruct (search s) as [[-> N]|(a & b & c & x & -> & Hb & Hm & ->)]; [now constructor|].
    apply pieces_one; auto. apply (IH (length c)); [|reflexivity]. rewrite !app_length. generalize (some_text b x Hb). destruct b; [easy|cbn; lia].
Qed.
End Matches.

(** * Runs of characters *)
Lemma take_skip f s : s = take_while f s ++ skip_while f s.
Proof. induction s as [|c s IH]; cbn; [reflexivity|]. destruct (f c); cbn; [now rewrite <- IH|reflexivity]. Qed.
Lemma take_all f s : Forall (fun c => f c = true) (take_while f s).
Proof. induction s as [|c s IH]; cbn; [constructor|]. destruct (f c) eqn:E; constructor; auto. Qed.
Lemma take_run f a c b : Forall (fun c => f c = true) a -> f c = false -> take_while f (a ++ c :: b) = a /\ skip_while f (a ++ c :: b) = c :: b.
Proof. intros H N. induction H as [|x a Hx H [IH1 IH2]]; cbn; [now rewrite N|]. now rewrite Hx, IH1, IH2. Qed.
Lemma without_some p s r : without p s = Some r <-> s = p ++ r.
Proof.
  unfold without. destruct (starts_with p s) eqn:E.
  - apply starts_with_iff in E as [x ->]. rewrite skipn_app, skipn_all, Nat.sub_diag. cbn. split; [intros H; injection H as ->; reflexivity|].
    intros H. apply app_inv_head in H. now subst.
  - split; [discriminate|]. intros ->. now rewrite starts_with_app in E.
Qed.

Lemma header_char_spec c : header_char c = true <-> is_alnum c = true \/ In c ($"_/-").
Proof.
  unfold header_char. rewrite !orb_true_iff, !ceqb_eq. cbn. intuition congruence.
Qed.
Lemma check_char_spec c : check_char c = true <-> is_alpha c = true \/ In c ($".-").
Proof. unfold check_char. rewrite !orb_true_iff, !ceqb_eq. cbn. intuition congruence. Qed.

(** * Includes *)
Lemma include_some s x len : include_at s = Some (x, len) <-> exists b c, s = b ++ c /\ include_text b x /\ length b = len.
Proof.
  split.
  - unfold include_at. destruct s as [|c s1]; [discriminate|]. destruct (ceqb_spec c "#") as [->|]; [cbn [negb]|discriminate].
    destruct (without ($"include") (skip_while is_space s1)) as [s2|] eqn:E2; [|discriminate]. apply without_some in E2.
    destruct (is_nil (take_while is_space s2)) eqn:N2; [discriminate|]. apply is_nil_false in N2.
    destruct (skip_while is_space s2) as [|q s3] eqn:E3; [discriminate|]. destruct (ceqb_spec q DQ) as [->|]; [cbn [negb]|discriminate].
    destruct (is_nil (take_while header_char s3)) eqn:N3; [discriminate|]. apply is_nil_false in N3.
    destruct (skip_while header_char s3) as [|dot s4] eqn:E4; [discriminate|]. destruct (ceqb_spec dot ".") as [->|]; [cbn [negb]|discriminate].
    destruct (is_nil (take_while is_alpha s4)) eqn:N4; [discriminate|]. apply is_nil_false in N4.
    destruct (skip_while is_alpha s4) as [|q2 rest] eqn:E5; [discriminate|]. destruct (ceqb_spec q2 DQ) as [->|]; [cbn [negb]|discriminate].
    intros H. injection H as <- <-.
    assert (S1 := take_skip is_space s1). rewrite E2 in S1. assert (S2 := take_skip is_space s2). rewrite E3 in S2.
    assert (S3 := take_skip header_char s3). rewrite E4 in S3. assert (S4 := take_skip is_alpha s4). rewrite E5 in S4.
    set (b1 := take_while is_space s1) in *. set (b2 := take_while is_space s2) in *.
    set (st := take_while header_char s3) in *. set (ex := take_while is_alpha s4) in *.
    assert (B1 : Forall (fun c => is_space c = true) b1) by apply take_all.
    assert (B2 : Forall (fun c => is_space c = true) b2) by apply take_all.
    assert (H3 : Forall (fun c => header_char c = true) st) by apply take_all.
    assert (H4 : Forall (fun c => is_alpha c = true) ex) by apply take_all.
    assert (Es : "#"%char :: s1 = ($"#" ++ b1 ++ $"include" ++ b2 ++ [DQ] ++ (st ++ $"." ++ ex) ++ [DQ]) ++ rest).
    { rewrite S1, S2, S3, S4. cbn. repeat (rewrite <- !app_assoc; cbn). reflexivity. }
    exists ($"#" ++ b1 ++ $"include" ++ b2 ++ [DQ] ++ (st ++ $"." ++ ex) ++ [DQ]), rest. split; [exact Es|]. split.
    + exists b1, b2. split; [reflexivity|]. split; [exact B1|]. split; [exact B2|]. split; [exact N2|].
      exists st, ex. split; [reflexivity|]. split; [exact N3|]. split; [exact N4|]. split; [|exact H4].
      eapply Forall_impl; [|exact H3]. intros a. apply header_char_spec.
    + match goal with |- length ?B = _ => transitivity (length (B ++ rest) - length rest); [rewrite (app_length B); lia|] end.
      rewrite <- Es. reflexivity.
  - intros (b & r & -> & (b1 & b2 & -> & B1 & B2 & N2 & st & ex & -> & N3 & N4 & H3 & H4) & <-).
    assert (H3' : Forall (fun c => header_char c = true) st) by (eapply Forall_impl; [|exact H3]; intros a; apply header_char_spec).
    assert (Es : ($"#" ++ b1 ++ $"include" ++ b2 ++ [DQ] ++ (st ++ $"." ++ ex) ++ [DQ]) ++ r =
                 "#"%char :: b1 ++ $"include" ++ b2 ++ DQ :: st ++ "."%char :: ex ++ DQ :: r).
    { cbn. repeat (rewrite <- !app_assoc; cbn). reflexivity. }
    rewrite Es at 1. unfold include_at. change (ceqb "#" "#") with true. cbn [negb].
    assert (T1 : skip_while is_space (b1 ++ $"include" ++ b2 ++ DQ :: st ++ "."%char :: ex ++ DQ :: r) = $"include" ++ b2 ++ DQ :: st ++ "."%char :: ex ++ DQ :: r).
    { apply (take_run is_space b1 "i"%char _ B1 eq_refl). }
    rewrite T1. assert (W : without ($"include") ($"include" ++ b2 ++ DQ :: st ++ "."%char :: ex ++ DQ :: r) = Some (b2 ++ DQ :: st ++ "."%char :: ex ++ DQ :: r)).
    { now apply without_some. }
    rewrite W. destruct (take_run is_space b2 DQ (st ++ "."%char :: ex ++ DQ :: r) B2 eq_refl) as [T2 T3]. rewrite T2, T3.
    apply is_nil_false in N2. rewrite N2. change (ceqb DQ DQ) with true. cbn [negb].
    destruct (take_run header_char st "."%char (ex ++ DQ :: r) H3' eq_refl) as [T4 T5]. rewrite T4, T5.
    apply is_nil_false in N3. rewrite N3. change (ceqb "." ".") with true. cbn [negb].
    destruct (take_run is_alpha ex DQ r H4 eq_refl) as [T6 T7]. rewrite T6, T7.
    apply is_nil_false in N4. rewrite N4. change (ceqb DQ DQ) with true. cbn [negb]. f_equal. f_equal.
    rewrite <- Es, app_length. lia.
Qed.
Lemma included_pieces content l : pieces include_text content l <-> l = included content.
Proof.
  apply matches_pieces; [exact include_some|]. intros b x (b1 & b2 & -> & _) E. discriminate E.
Qed.

(** * Checks *)
Lemma check_some s x len : check_at s = Some (x, len) <-> exists b c, s = b ++ c /\ check_text b x /\ length b = len.
Proof.
  split.
  - unfold check_at. destruct s as [|c s1]; [discriminate|]. destruct (ceqb_spec c "[") as [->|]; [cbn [negb]|discriminate].
    destruct (is_nil (take_while check_char s1)) eqn:N; [discriminate|]. apply is_nil_false in N.
    destruct (skip_while check_char s1) as [|b [|n r]] eqn:E; try discriminate.
    destruct (ceqb_spec b "]") as [->|]; [|discriminate]. destruct (ceqb_spec n NL) as [->|]; [|discriminate]. cbn [andb].
    intros H. apply (f_equal (fun o => match o with Some x => x | None => ([], 0) end)) in H. apply pair_equal_spec in H as [<- <-].
    assert (S1 := take_skip check_char s1). rewrite E in S1. set (nm := take_while check_char s1) in *.
    assert (H1 : Forall (fun c => check_char c = true) nm) by apply take_all.
    exists (($"[" ++ nm ++ $"]") ++ [NL]), r. split; [rewrite S1; cbn; rewrite <- !app_assoc; reflexivity|]. split.
    + split; [reflexivity|]. exists nm. split; [reflexivity|]. split; [exact N|]. eapply Forall_impl; [|exact H1]. intros a. apply check_char_spec.
    + rewrite !app_length. cbn. lia.
  - intros (b & r & -> & (-> & nm & -> & N & H1) & <-).
    assert (H1' : Forall (fun c => check_char c = true) nm) by (eapply Forall_impl; [|exact H1]; intros a; apply check_char_spec).
    assert (Es : (($"[" ++ nm ++ $"]") ++ [NL]) ++ r = "["%char :: nm ++ "]"%char :: NL :: r) by (cbn; rewrite <- !app_assoc; reflexivity).
    rewrite Es. unfold check_at. change (ceqb "[" "[") with true. cbn [negb].
    destruct (take_run check_char nm "]"%char (NL :: r) H1' eq_refl) as [T1 T2]. rewrite T1, T2. apply is_nil_false in N. rewrite N.
    change (ceqb "]" "]" && ceqb NL NL) with true. cbv iota.
    replace (length (($"[" ++ nm ++ $"]") ++ [NL])) with (length nm + 3); [reflexivity|]. rewrite !app_length. cbn [length list_ascii_of_string]. lia.
Qed.
Lemma checks_pieces tidy l : pieces check_text tidy l <-> l = checks_in tidy.
Proof.
  apply matches_pieces; [exact check_some|]. intros b x [-> (nm & -> & _)] E. discriminate E.
Qed.

(** How often a check is found. *)
Lemma occurrences_skip x c a s : (exists r, x = c :: r) -> ~ In c a -> occurrences x (a ++ s) = occurrences x s.
Proof.
  intros [r ->] N. induction a as [|y a IH]; [reflexivity|]. cbn [app occurrences starts_with].
  destruct (ceqb_spec c y) as [->|]; [exfalso; apply N; now left|]. cbn [andb]. rewrite IH; [reflexivity|]. intros I. apply N. now right.
Qed.
Lemma checks_occur c s : check_text (c ++ [NL]) c -> count_occ str_dec (checks_in s) c = occurrences (c ++ [NL]) s.
Proof.
  intros Hc. unfold checks_in. remember (length s) as n eqn:En. revert s En.
  induction n as [n IH] using (well_founded_induction lt_wf). intros s ->.
  destruct s as [|ch r].
  - cbn [all_matches count_occ occurrences]. destruct Hc as (_ & nm & -> & _). reflexivity.
  - cbn [all_matches]. destruct (check_at (ch :: r)) as [[x len]|] eqn:E.
    + destruct (proj1 (check_some _ _ _) E) as (b & rest & Es & Hb & Hl). destruct Hb as (-> & nm & -> & Nn & Hn).
      assert (Er : r = (nm ++ $"]" ++ [NL]) ++ rest /\ ch = "["%char).
      { cbn in Es. injection Es as -> ->. split; [|reflexivity]. cbn. now rewrite <- !app_assoc. }
      destruct Er as [Er ->]. rewrite all_matches_skip.
      assert (Sk : skipn (len - 1) r = rest).
      { rewrite Er. subst len. replace (length (($"[" ++ nm ++ $"]") ++ [NL]) - 1) with (length (nm ++ $"]" ++ [NL])).
        - rewrite skipn_app, skipn_all, Nat.sub_diag. reflexivity.
        - rewrite !app_length. cbn [length list_ascii_of_string]. lia. }
      rewrite Sk. assert (Or : occurrences (c ++ [NL]) r = occurrences (c ++ [NL]) rest).
      { rewrite Er. destruct Hc as (_ & nm' & -> & _). apply (occurrences_skip _ "["%char); [eexists; reflexivity|].
        rewrite !in_app_iff. intros [I|[[I|[]]|[I|[]]]]; try discriminate I. rewrite Forall_forall in Hn.
        destruct (Hn _ I) as [A|A]; [discriminate A|]. cbn in A. intuition discriminate. }
      change (count_occ str_dec (($"[" ++ nm ++ $"]") :: all_matches check_at 0 rest) c = (if starts_with (c ++ [NL]) ("["%char :: r) then 1 else 0) + occurrences (c ++ [NL]) r).
      assert (Lr : length rest < length ("["%char :: r)) by (cbn [length]; rewrite Er, app_length; lia).
      rewrite Or, <- (IH (length rest) Lr rest eq_refl).
      destruct (str_dec ($"[" ++ nm ++ $"]") c) as [Ec|Ec].
      * rewrite count_occ_cons_eq by exact Ec. subst c. rewrite Es, <- app_assoc. rewrite app_assoc, starts_with_app. reflexivity.
      * rewrite count_occ_cons_neq by exact Ec. destruct (starts_with (c ++ [NL]) ("["%char :: r)) eqn:St; [|reflexivity].
        exfalso. apply Ec. apply starts_with_iff in St as [r2 E2].
        assert (F : check_at ("["%char :: r) = Some (c, length (c ++ [NL]))) by (apply check_some; eauto). rewrite F in E.
        apply (f_equal (fun o => match o with Some (x, _) => x | None => [] end)) in E. now symmetry.
    + cbn [occurrences]. rewrite (IH (length r) ltac:(cbn; lia) r eq_refl).
      destruct (starts_with (c ++ [NL]) (ch :: r)) eqn:St; [|reflexivity]. apply starts_with_iff in St as [r2 E2].
      assert (F : check_at (ch :: r) = Some (c, length (c ++ [NL]))) by (apply check_some; eauto). congruence.
Qed.
Lemma checks_are s c : In c (checks_in s) -> check_text (c ++ [NL]) c.
Proof.
  intros I. assert (H : pieces check_text s (checks_in s)) by now apply checks_pieces. revert H I. generalize (checks_in s) as l. intros l H.
  induction H as [s N|a b x s l Hb Hm H IH]; [easy|]. intros [<-|I]; [|now apply IH]. destruct Hb as (-> & Hn). split; [reflexivity|exact Hn].
Qed.

(** * Names *)
Lemma base_of_filename path name : base_of path name <-> fs_filename path = name.
Proof.
  unfold base_of, fs_filename. destruct (find_last "/" path) as [i|] eqn:E.
  - destruct (find_last_some _ _ _ E) as [E1 E2]. rewrite Nat.add_1_r. split.
    + intros [N [->|[d ->]]].
      * exfalso. apply N. rewrite E1. apply in_or_app. right. now left.
      * rewrite find_last_app in E by exact N. injection E as <-. change (d ++ "/"%char :: name) with (d ++ ["/"%char] ++ name).
        rewrite app_assoc, skipn_app. replace (S (length d)) with (length (d ++ ["/"%char])) by (rewrite app_length; cbn; lia).
        rewrite skipn_all, Nat.sub_diag. reflexivity.
    + intros <-. split; [exact E2|]. right. exists (firstn i path). exact E1.
  - apply find_last_none in E. split.
    + intros [N [->|[d ->]]]; [reflexivity|]. exfalso. apply E. apply in_or_app. right. now left.
    + intros <-. split; [exact E|now left].
Qed.
Lemma extension_spec path e : e <> [] -> (extension path = e <-> extension_of path e).
Proof.
  intros Ne. unfold extension, extension_of. set (name := fs_filename path). split.
  - destruct (str_eqb_spec name ($"..")) as [En|Nn]; [congruence|]. destruct (find_last "." name) as [[|i]|] eqn:E; try congruence.
    intros <-. destruct (find_last_some _ _ _ E) as [E1 E2]. exists name, (firstn (S i) name).
    split; [now apply base_of_filename|]. split; [exact Nn|]. split; [symmetry; apply firstn_skipn|]. split.
    + intros F. revert E F. generalize name. intros [|c l]; discriminate.
    + exists (skipn (S (S i)) name). split; [|exact E2]. apply (app_inv_head (firstn (S i) name)). rewrite firstn_skipn. exact E1.
  - intros (nm & stem & B & Nn & En & Ns & r & -> & Nr). apply base_of_filename in B. fold name in B. subst nm.
    destruct (str_eqb_spec name ($"..")) as [X|_]; [contradiction|]. rewrite En, find_last_app by exact Nr.
    destruct stem as [|c stem]; [contradiction|]. cbn [length]. rewrite skipn_app. change (S (length stem)) with (length (c :: stem)).
    rewrite skipn_all, Nat.sub_diag. reflexivity.
Qed.

Definition hex_val (c : ascii) : N := if is_digit c then (code c - 48)%N else (code c - 87)%N.
Lemma hex_char_spec v : (v < 16)%N -> hex_val (hex_char v) = v /\ (is_digit (hex_char v) = true \/ In (hex_char v) ($"abcdef")).
Proof.
  intros L. assert (E : exists n, v = N.of_nat n /\ n < 16) by (exists (N.to_nat v); split; lia). destruct E as (n & -> & Ln).
  do 16 (destruct n as [|n]; [cbn; split; [reflexivity|tauto]|]). lia.
Qed.
Lemma hex_digits_length n : forall v, length (hex_digits n v) = n.
Proof. induction n as [|n IH]; intros v; [reflexivity|]. cbn [hex_digits]. rewrite app_length, IH. cbn. lia. Qed.
Lemma hex_digits_chars n : forall v, Forall (fun c => is_digit c = true \/ In c ($"abcdef")) (hex_digits n v).
Proof.
  induction n as [|n IH]; intros v; cbn [hex_digits]; [constructor|]. apply Forall_app. split; [apply IH|]. constructor; [|constructor].
  apply hex_char_spec. now apply N.mod_lt.
Qed.
Lemma hex_digits_value n : forall v, (v < 16 ^ N.of_nat n)%N -> fold_left (fun a c => (16 * a + hex_val c)%N) (hex_digits n v) 0%N = v.
Proof.
  induction n as [|n IH]; intros v L; [cbn in *; lia|]. cbn [hex_digits]. rewrite fold_left_app. cbn [fold_left].
  rewrite IH.
  - rewrite (proj1 (hex_char_spec (v mod 16) ltac:(now apply N.mod_lt))). symmetry. apply N.div_mod'.
  - apply N.div_lt_upper_bound; [easy|]. rewrite Nat2N.inj_succ, N.pow_succ_r' in L. exact L.
Qed.
Lemma to_hex_all v : to_hex v 16 = hex_digits 16 v.
Proof. reflexivity. Qed.
Lemma result_named w : (snd w < 2 ^ 64)%N -> named_result w (result_name w).
Proof.
  intros L. exists (fs_filename (fst w)), (hex_digits 16 (snd w)). split; [now apply base_of_filename|]. split; [reflexivity|].
  split; [apply hex_digits_length|]. split; [apply hex_digits_chars|]. exact (hex_digits_value 16 (snd w) L).
Qed.
Lemma result_name_same w w' : (snd w < 2 ^ 64)%N -> (snd w' < 2 ^ 64)%N ->
  (result_name w = result_name w' <-> fs_filename (fst w) = fs_filename (fst w') /\ snd w = snd w').
Proof.
  intros L L'. unfold result_name. rewrite !to_hex_all. split; [|intros [-> ->]; reflexivity]. intros E.
  assert (Len : length (fs_filename (fst w)) = length (fs_filename (fst w'))).
  { apply (f_equal (@length ascii)) in E. rewrite !app_length, !hex_digits_length in E. cbn in E. lia. }
  apply (app_same_length _ _ _ _ E) in Len as [-> E2]. split; [reflexivity|]. apply app_inv_head in E2.
  rewrite <- (hex_digits_value 16 (snd w) L), <- (hex_digits_value 16 (snd w') L'). now rewrite E2.
Qed.
Lemma result_not_temporary w : ~ temporary (result_name w).
Proof.
  intros [s E]. unfold result_name in E. rewrite to_hex_all in E. cbn [hex_digits] in E. rewrite !app_assoc in E.
  change ($".tmp") with ($".tm" ++ ["p"%char]) in E. rewrite app_assoc in E. apply app_inj_tail in E as [_ E].
  destruct (hex_char_spec (snd w mod 16)) as [_ [H|H]]; [now apply N.mod_lt|rewrite E in H; discriminate|].
  rewrite E in H. cbn in H. intuition discriminate.
Qed.
Lemma tmp_temporary w : temporary (tmp_name w).
Proof. now exists (result_name w). Qed.
Lemma tmp_name_inj w w' : tmp_name w = tmp_name w' -> result_name w = result_name w'.
Proof. apply app_inv_tail. Qed.

(** * Repaired lines *)
Lemma repair_line_spec dirs a b : shorter_line dirs a b <-> b = repair_line dirs a.
Proof.
  assert (D : forall r b, b = drop_prefix ($"./") r <-> exists dot, r = dot ++ b /\ (dot = $"./" \/ dot = [] /\ forall x, b <> $"./" ++ x)).
  { intros r b'. unfold drop_prefix. destruct (starts_with ($"./") r) eqn:E.
    - apply starts_with_iff in E as [x ->]. rewrite skipn_app, skipn_all, Nat.sub_diag. cbn [skipn app]. split.
      + intros ->. exists ($"./"). split; [reflexivity|now left].
      + intros (dot & E & [->|[-> N]]); [apply app_inv_head in E; now symmetry|]. cbn [app] in E. exfalso. now apply (N x).
    - split.
      + intros ->. exists []. split; [reflexivity|]. right. split; [reflexivity|]. intros x ->. now rewrite starts_with_app in E.
      + intros (dot & -> & [->|[-> N]]); [now rewrite starts_with_app in E|reflexivity]. }
  unfold shorter_line, repair_line. destruct (find (fun p => starts_with p a) dirs) as [p|] eqn:E.
  - assert (F : exists before after, dirs = before ++ p :: after /\ (forall e, In e before -> starts_with e a = false) /\ starts_with p a = true).
    { clear -E. induction dirs as [|q dirs IH]; [discriminate|]. cbn in E. destruct (starts_with q a) eqn:S.
      - injection E as ->. exists [], dirs. split; [reflexivity|]. split; [easy|exact S].
      - destruct (IH E) as (b & c & -> & H1 & H2). exists (q :: b), c. split; [reflexivity|]. split; [|exact H2]. intros e [<-|I]; auto. }
    destruct F as (before & after & Ed & Hb & Hp). apply starts_with_iff in Hp as [r Er]. subst a.
    rewrite skipn_app, skipn_all, Nat.sub_diag. cbn [skipn app]. rewrite D. split.
    + intros (d & dot & Ea & [(b2 & a2 & Ed2 & N2)|[-> N2]] & Hd).
      * assert (d = p) as ->.
        { rewrite Ed in Ed2. clear D Ed E. revert b2 Ed2 N2. induction before as [|q before IH]; intros [|q2 b2] Ed2 N2; cbn in Ed2.
          - injection Ed2 as -> _. reflexivity.
          - injection Ed2 as <- _. exfalso. apply (N2 p r); [now left|reflexivity].
          - injection Ed2 as <- _. exfalso. specialize (Hb q (or_introl eq_refl)). rewrite Ea in Hb. now rewrite starts_with_app in Hb.
          - injection Ed2 as <- Ed2. apply (IH (fun e I => Hb e (or_intror I)) b2 Ed2). intros e x I. apply N2. now right. }
        apply app_inv_head in Ea. eauto.
      * exfalso. apply (N2 p r); [|reflexivity]. rewrite Ed. apply in_or_app. right. now left.
    + intros (dot & -> & Hd). exists p, dot. split; [reflexivity|]. split; [|exact Hd]. left. exists before, after. split; [exact Ed|].
      intros e x I Ex. specialize (Hb e I). rewrite Ex in Hb. now rewrite starts_with_app in Hb.
  - assert (N : forall e, In e dirs -> starts_with e a = false) by (intros e I; now apply (find_none _ _ E)).
    rewrite D. split.
    + intros (d & dot & Ea & [(b2 & a2 & Ed2 & N2)|[-> N2]] & Hd); [|eauto].
      exfalso. assert (I : In d dirs) by (rewrite Ed2; apply in_or_app; right; now left).
      assert (Y : starts_with d a = true) by (rewrite Ea; apply starts_with_app). rewrite (N d I) in Y. discriminate.
    + intros (dot & -> & Hd). exists [], dot. split; [reflexivity|]. split; [|exact Hd]. right. split; [reflexivity|].
      intros e x I Ex. specialize (N e I). rewrite Ex in N. now rewrite starts_with_app in N.
Qed.

Lemma repair_shorter bzroot pwd a b : shorter (repair_prefixes bzroot pwd) a b <-> b = repair bzroot pwd a.
Proof.
  unfold repair. set (dirs := repair_prefixes bzroot pwd). split.
  - intros (la & lb & -> & -> & Ha & Hb & Ne & F). rewrite split_join by assumption. f_equal. clear Ha Hb Ne.
    induction F as [|x y la lb Hxy F IH]; [reflexivity|]. cbn. rewrite IH. f_equal. now apply repair_line_spec.
  - intros ->. exists (split NL a), (map (repair_line dirs) (split NL a)). split; [symmetry; apply join_split|]. split; [reflexivity|].
    assert (Ha : Forall (fun l => ~ In NL l) (split NL a)) by (apply Forall_forall; intros l; apply split_pieces).
    split; [exact Ha|]. split.
    + rewrite Forall_map. eapply Forall_impl; [|exact Ha]. intros l N I. apply N.
      assert (H : shorter_line dirs l (repair_line dirs l)) by now apply repair_line_spec.
      destruct H as (d & dot & -> & _). rewrite !in_app_iff. tauto.
    + split; [apply split_not_nil|]. clear Ha. induction (split NL a) as [|l ls IH]; [constructor|]. cbn. constructor; [now apply repair_line_spec|exact IH].
Qed.
