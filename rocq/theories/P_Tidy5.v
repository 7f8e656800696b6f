(** The clang-tidy script: reports after a history, other checkouts, the directory of a configuration. *)
From Coq Require Import NArith Lia Permutation Sorted.
From Verif Require P_Edits.
From Verif Require Import Base OMap M_Printer M_Workspace M_CompDb M_Tidy S_Commands S_Shell S_Tidy P_Tidy P_Tidy2 P_Tidy3 P_Tidy4.

Lemma report_ext s s' files : (forall w, In w files -> get_content_for s w = get_content_for s' w) -> create_report s files = create_report s' files.
Proof.
  intros H. unfold create_report. assert (E : checks_seen s files = checks_seen s' files).
  { unfold checks_seen. f_equal. induction files as [|w files IH]; [reflexivity|]. cbn. rewrite (H w (or_introl eq_refl)). f_equal. apply IH. intros w' I. apply H. now right. }
  assert (F : details s files = details s' files).
  { clear E. unfold details. induction files as [|w files IH]; [reflexivity|]. cbn [flat_map]. rewrite (H w (or_introl eq_refl)). f_equal. apply IH. intros w' I. apply H. now right. }
  now rewrite E, F.
Qed.

Section History.
Variable hash : str -> N.
Lemma nodup_inj {A B} (g : A -> B) l x y : NoDup (map g l) -> In x l -> In y l -> g x = g y -> x = y.
Proof.
  induction l as [|z l IH]; [easy|]. cbn. intros N Ix Iy E. inversion N as [|? ? N1 N2]; subst. destruct Ix as [->|Ix], Iy as [->|Iy]; auto.
  - exfalso. apply N1. rewrite E. now apply in_map.
  - exfalso. apply N1. rewrite <- E. now apply in_map.
Qed.

Lemma report_texts l f s f' r : history hash nothing_there l f -> complete hash s f f' r ->
  exists texts, Forall2 (fun x text => comes_from hash (l ++ [s]) (result_name (item_of hash (se_tree s) x)) text) (of_interest (se_tree s)) texts /\
    r_details r = told_details (combine (map f_path (of_interest (se_tree s))) texts).
Proof.
  intros H C. destruct (complete_history hash _ _ _ _ _ H C) as [-> R]. exists (texts_of (file_at f') (items hash (se_tree s))). split.
  - unfold texts_of, items. rewrite map_map. revert R. generalize (of_interest (se_tree s)). intros xs R. induction xs as [|x xs IH]; [constructor|].
    cbn [map]. constructor; [|apply IH; intros y I; apply R; now right]. destruct (R x (or_introl eq_refl)) as (c & t & F & O). unfold get_content_for. now rewrite F.
  - cbn [create_report r_details]. rewrite details_told. f_equal. f_equal. unfold items. rewrite map_map. reflexivity.
Qed.

Lemma like_new l f s f' r f2 r2 min jobs sched : history hash nothing_there l f -> complete hash s f f' r ->
  complete hash (mkSession (se_tree s) (se_prints s) (se_bzroot s) (se_pwd s) min jobs sched) nothing_there f2 r2 ->
  (forall s' x' x text, In s' l -> In x (of_interest (se_tree s)) -> concerns hash s' x' (result_name (item_of hash (se_tree s) x)) ->
     shorter (dirs_of s') (se_prints s' (f_path x')) text -> shorter (dirs_of s) (se_prints s (f_path x)) text) ->
  r = r2.
Proof.
  intros H C C2 Hf. destruct (complete_history hash _ _ _ _ _ H C) as [-> R].
  destruct (complete_results hash _ _ _ _ nothing_sound C2) as (_ & -> & R2). cbn [se_tree se_prints dirs_of se_bzroot se_pwd] in *.
  apply report_ext. intros w Iw. apply in_map_iff in Iw as (x & <- & Ix).
  destruct (R x Ix) as (c & t & F & s' & x' & Is & Cx & Sh). destruct (R2 x Ix) as (c2 & t2 & F2 & [[X _]|[Sh2 _]]); [discriminate X|].
  cbn [se_tree se_prints dirs_of se_bzroot se_pwd] in *. unfold get_content_for. rewrite F, F2.
  assert (Y : shorter (dirs_of s) (se_prints s (f_path x)) c).
  { apply in_app_iff in Is as [Is|[<-|[]]]; [eapply Hf; eauto|]. destruct Cx as [Ix' En]. assert (x' = x) as ->; [|exact Sh].
    destruct C as (_ & _ & _ & N). unfold items in N. rewrite map_map in N. eapply (nodup_inj _ _ _ _ N); eauto. }
  unfold dirs_of in Y. apply shorter_repair in Y. apply shorter_repair in Sh2. now rewrite Y, Sh2.
Qed.
End History.

(** * Other checkouts *)
Lemma placed_line bzroot pwd l : (forall d r, bzroot <> [] -> d = removelast bzroot ++ $"/" -> line_in pwd l <> d ++ r) ->
  (fst l = false -> forall r, snd l <> pwd ++ $"/" ++ r) ->
  repair_line (repair_prefixes bzroot pwd) (line_in pwd l) = drop_prefix ($"./") (snd l).
Proof.
  intros Hb Hp. destruct l as [loc l]. unfold line_in in *. cbn [fst snd] in *. unfold repair_line. f_equal.
  assert (F : forall p, In p (repair_prefixes bzroot pwd) -> p <> pwd ++ $"/" -> starts_with p (if loc then pwd ++ $"/" ++ l else l) = false).
  { intros p I N. unfold repair_prefixes in I. apply in_app_iff in I as [I|[<-|[]]]; [|congruence]. destruct bzroot as [|c bz]; [destruct I|]. cbn [is_nil] in I. destruct I as [<-|[]].
    destruct (starts_with _ _) eqn:S; [|reflexivity]. exfalso. apply starts_with_iff in S as [r S]. apply (Hb _ r ltac:(discriminate) eq_refl). exact S. }
  assert (G : find (fun p => starts_with p (if loc then pwd ++ $"/" ++ l else l)) (repair_prefixes bzroot pwd) = if loc then Some (pwd ++ $"/") else None).
  { assert (Last : find (fun p => starts_with p (if loc then pwd ++ $"/" ++ l else l)) [pwd ++ $"/"] = if loc then Some (pwd ++ $"/") else None).
    { cbn [find]. destruct loc; [rewrite app_assoc, starts_with_app; reflexivity|]. destruct (starts_with (pwd ++ $"/") l) eqn:S; [|reflexivity].
      exfalso. apply starts_with_iff in S as [r S]. apply (Hp eq_refl r). now rewrite app_assoc. }
    unfold repair_prefixes in *. destruct bzroot as [|c bz]; cbn [is_nil app] in *; [exact Last|]. cbn [find].
    destruct (str_dec (removelast (c :: bz) ++ $"/") (pwd ++ $"/")) as [E|N].
    - rewrite E. cbn [find] in Last. destruct (starts_with (pwd ++ $"/") (if loc then pwd ++ $"/" ++ l else l)); [exact Last|exact Last].
    - rewrite (F _ (or_introl eq_refl) N). exact Last. }
  rewrite G. destruct loc; [|reflexivity]. rewrite app_assoc, skipn_app, skipn_all, Nat.sub_diag. reflexivity.
Qed.
Lemma other_checkout bz1 pwd1 bz2 pwd2 ls b1 b2 :
  ls <> [] -> ~ In NL pwd1 -> ~ In NL pwd2 ->
  (forall l, In l ls -> ~ In NL (snd l) /\
     (forall r, bz1 <> [] -> line_in pwd1 l <> removelast bz1 ++ $"/" ++ r) /\ (forall r, bz2 <> [] -> line_in pwd2 l <> removelast bz2 ++ $"/" ++ r) /\
     (fst l = false -> forall r, snd l <> pwd1 ++ $"/" ++ r /\ snd l <> pwd2 ++ $"/" ++ r)) ->
  shorter (left_out bz1 pwd1) (join NL (map (line_in pwd1) ls)) b1 -> shorter (left_out bz2 pwd2) (join NL (map (line_in pwd2) ls)) b2 -> b1 = b2.
Proof.
  intros Ne N1 N2 H S1 S2. apply shorter_repair in S1, S2. subst b1 b2. unfold repair.
  assert (X : forall pwd, ~ In NL pwd -> split NL (join NL (map (line_in pwd) ls)) = map (line_in pwd) ls).
  { intros pwd N. apply split_join; [destruct ls; [congruence|discriminate]|]. rewrite Forall_map. apply Forall_forall. intros l I. destruct (H l I) as [Nl _].
    unfold line_in. destruct (fst l); [|exact Nl]. rewrite !in_app_iff. intros [A|[[A|[]]|A]]; [contradiction|discriminate A|contradiction]. }
  rewrite (X pwd1 N1), (X pwd2 N2), !map_map. f_equal. apply map_ext_in. intros l I. destruct (H l I) as (_ & H1 & H2 & H3).
  rewrite !placed_line; try reflexivity.
  - intros d r Nb -> E. rewrite <- app_assoc in E. now apply (H2 r Nb).
  - intros Ef r. now apply H3.
  - intros d r Nb -> E. rewrite <- app_assoc in E. now apply (H1 r Nb).
  - intros Ef r. now apply H3.
Qed.

(** * The directory of a configuration *)
Lemma version_told text v : v <> $"UNKNOWN" -> (major_version text = v <-> tells_version text v).
Proof.
  intros Nu. assert (Dg : forall s, ~ In "U"%char (take_while is_digit s)).
  { intros s I. assert (F := take_all is_digit s). rewrite Forall_forall in F. now specialize (F _ I). }
  revert v Nu. induction text as [|c text IH]; intros v Nu.
  - split; [intros E; elim Nu; symmetry; exact E|]. intros (a & r & E & _). destruct a; discriminate E.
  - cbn [major_version]. destruct (without ($"version ") (c :: text)) as [s|] eqn:W.
    + apply without_some in W. destruct (is_nil (take_while is_digit s)) eqn:Nd.
      * (* no digits here *)
        assert (No : forall ch r', c :: text = $"version " ++ ch :: r' -> is_digit ch = false).
        { intros ch r' E. rewrite W in E. apply app_inv_head in E. subst s. cbn in Nd. now destruct (is_digit ch). }
        rewrite IH by exact Nu. split.
        -- intros (a & r & -> & Nv & Fv & Hr & Hm). exists (c :: a), r. split; [reflexivity|]. do 3 (split; [assumption|]). intros [|c' a'] ch r' E D; [rewrite (No ch r' E) in D; discriminate|].
           injection E as _ E. cbn. apply le_n_S. exact (Hm a' ch r' E D).
        -- intros ([|c' a] & r & E & Nv & Fv & Hr & Hm).
           ++ destruct v as [|d v]; [congruence|]. cbn [app] in E. exfalso. inversion Fv as [|? ? Hd _]; subst. rewrite (No d (v ++ r) E) in Hd. discriminate.
           ++ injection E as <- E. exists a, r. split; [exact E|]. do 3 (split; [assumption|]). intros a' ch r' E' D. specialize (Hm (c :: a') ch r'). cbn in Hm. rewrite E' in Hm. specialize (Hm eq_refl D). lia.
      * split.
        -- intros <-. apply is_nil_false in Nd. exists [], (skip_while is_digit s). cbn [app]. split; [rewrite W; f_equal; apply take_skip|]. split; [exact Nd|]. split; [apply take_all|].
           split; [|intros; cbn; lia]. intros ch r' E. clear -E. induction s as [|x s IH]; [discriminate E|]. cbn in E. destruct (is_digit x) eqn:D; [now apply IH|]. now injection E as -> _.
        -- intros (a & r & E & Nv & Fv & Hr & Hm). assert (a = []) as ->.
           { destruct (take_while is_digit s) as [|d ds] eqn:Td; [discriminate Nd|]. assert (Es := take_skip is_digit s). rewrite Td in Es. assert (Fd := take_all is_digit s). rewrite Td in Fd.
             inversion Fd as [|? ? Hd _]; subst. specialize (Hm [] d (ds ++ skip_while is_digit s)). cbn [app] in Hm. rewrite W in Hm. rewrite Es in Hm at 1. cbn [app] in Hm. specialize (Hm eq_refl Hd). destruct a; [reflexivity|cbn in Hm; lia]. }
           cbn [app] in E. rewrite W in E. apply app_inv_head in E. subst s. destruct r as [|ch r].
           ++ rewrite app_nil_r. clear -Fv. induction Fv as [|x v Hx F IH]; [reflexivity|]. cbn. now rewrite Hx, IH.
           ++ apply (take_run is_digit v ch r Fv). eapply Hr; reflexivity.
    + assert (No : forall x, c :: text <> $"version " ++ x) by (intros x E; apply without_some in E; congruence).
      rewrite IH by exact Nu. split.
      * intros (a & r & -> & Nv & Fv & Hr & Hm). exists (c :: a), r. split; [reflexivity|]. do 3 (split; [assumption|]). intros [|c' a'] ch r' E D; [now apply No in E|].
        injection E as _ E. cbn. apply le_n_S. exact (Hm a' ch r' E D).
      * intros ([|c' a] & r & E & Nv & Fv & Hr & Hm); [now apply No in E|].
        injection E as <- E. exists a, r. split; [exact E|]. do 3 (split; [assumption|]). intros a' ch r' E' D. specialize (Hm (c :: a') ch r'). cbn in Hm. rewrite E' in Hm. specialize (Hm eq_refl D). lia.
Qed.
Lemma hex_split m : forall n v, hex_digits (m + n) v = hex_digits m (v / 16 ^ N.of_nat n) ++ hex_digits n v.
Proof.
  intros n. induction n as [|n IH]; intros v.
  - rewrite Nat.add_0_r. cbn. now rewrite N.div_1_r, app_nil_r.
  - rewrite Nat.add_succ_r. cbn [hex_digits]. rewrite IH, <- app_assoc. f_equal. f_equal. rewrite Nat2N.inj_succ, N.pow_succ_r', N.div_div by (try apply N.pow_nonzero; easy). reflexivity.
Qed.
Lemma hex_mod n : forall v, hex_digits n v = hex_digits n (v mod 16 ^ N.of_nat n).
Proof.
  induction n as [|n IH]; intros v; [reflexivity|]. cbn [hex_digits]. rewrite (IH (v / 16)%N), (IH ((v mod 16 ^ N.of_nat (S n)) / 16)%N).
  rewrite Nat2N.inj_succ, N.pow_succ_r'. assert (P : (16 ^ N.of_nat n <> 0)%N) by now apply N.pow_nonzero.
  rewrite (N.mod_mul_r v 16) by easy. f_equal.
  - f_equal. rewrite (N.mul_comm 16), N.div_add by easy. rewrite (N.div_small (v mod 16)) by now apply N.mod_lt. rewrite N.add_0_l. now rewrite N.mod_mod.
  - rewrite (N.mul_comm 16), N.mod_add by easy. now rewrite N.mod_mod.
Qed.
Lemma hex_same n v v' : hex_digits n v = hex_digits n v' <-> (v mod 16 ^ N.of_nat n = v' mod 16 ^ N.of_nat n)%N.
Proof.
  split; [|intros E; now rewrite (hex_mod n v), (hex_mod n v'), E]. intros E. rewrite (hex_mod n v), (hex_mod n v') in E.
  apply (f_equal (fun l => fold_left (fun a c => (16 * a + hex_val c)%N) l 0%N)) in E.
  rewrite !hex_digits_value in E by (apply N.mod_lt; now apply N.pow_nonzero). exact E.
Qed.
Lemma config_same hash v a c v' a' c' : config_dir hash v a c = config_dir hash v' a' c' <->
  major_version v = major_version v' /\ (N.lxor (hash (v ++ a)) (hash c) mod 2 ^ 32 = N.lxor (hash (v' ++ a')) (hash c') mod 2 ^ 32)%N.
Proof.
  unfold config_dir, to_hex. set (x := N.lxor _ _). set (x' := N.lxor (hash (v' ++ a')) _).
  assert (S : forall y, skipn (16 - 8) (hex_digits 16 y) = hex_digits 8 y).
  { intros y. change 16 with (8 + 8) at 2. rewrite hex_split, skipn_app, hex_digits_length. rewrite skipn_all2 by (rewrite hex_digits_length; cbn; lia). reflexivity. }
  rewrite !S. change (2 ^ 32)%N with (16 ^ N.of_nat 8)%N. rewrite <- hex_same. split.
  - intros E. do 2 apply app_inv_head in E.
    assert (L : length (major_version v) = length (major_version v')).
    { apply (f_equal (@length ascii)) in E. rewrite !app_length, !hex_digits_length in E. lia. }
    apply (app_same_length _ _ _ _ E) in L as [-> E2]. split; [reflexivity|]. now apply app_inv_head in E2.
  - intros [-> ->]. reflexivity.
Qed.
Lemma sum_perm l l' : Permutation l l' -> list_sum l = list_sum l'.
Proof. intros P. induction P as [|x l l' P IH|x y l|l l' l'' P IH P' IH']; unfold list_sum in *; cbn; lia. Qed.

(** * What is not done again *)
Lemma complete_fresh hash s f f' r x c t : sound_fs f -> complete hash s f f' r -> Forall (not_before (se_min s)) (se_sched s) ->
  In x (of_interest (se_tree s)) -> file_at f' (result_name (item_of hash (se_tree s) x)) = Some (c, t) -> c <> [] -> (se_min s <= t)%N.
Proof.
  intros S C B I F Nc. destruct (complete_results hash _ _ _ _ S C) as (_ & _ & H). destruct (H x I) as (c' & t' & F' & D). rewrite F in F'. injection F' as <- <-.
  destruct D as [[F0 Nr]|[_ L]]; [|now apply L]. unfold needs_refresh in Nr. rewrite F0 in Nr. destruct c; [congruence|]. cbn in Nr. now apply N.ltb_ge.
Qed.
Lemma work_spec hash t s min w : In w (work_list hash t s min) <->
  In w (items hash t) /\ (s (result_name w) = None \/ exists c time, s (result_name w) = Some (c, time) /\ c <> [] /\ (time < min)%N).
Proof.
  unfold work_list. rewrite filter_In. unfold needs_refresh. destruct (s (result_name w)) as [[c time]|].
  - rewrite andb_true_iff, negb_true_iff, N.ltb_lt, is_nil_false. split; intros [I H]; (split; [exact I|]).
    + right. destruct H. eauto.
    + destruct H as [H|(c' & t' & E & H)]; [discriminate|]. injection E as <- <-. exact H.
  - split; intros [I H]; (split; [exact I|]); auto.
Qed.

(** * The command *)
Lemma quoted_word a d ws : ~ In SQ a -> fold_left shell_step (quoted a) (Some (mkShell d ws None false)) = Some (mkShell d ws (Some a) false).
Proof.
  intros N. unfold quoted. rewrite !fold_left_app. change (fold_left shell_step ($"'") (Some (mkShell d ws None false))) with (Some (mkShell d ws (Some []) true)).
  rewrite P_Edits.step_quoted by exact N. reflexivity.
Qed.
Lemma argv_words argv : forall d ws w, (forall a, In a argv -> ~ In SQ a) ->
  exists ws' w', ws ++ [w] ++ argv = ws' ++ [w'] /\
    fold_left shell_step (flat_map (fun a => $" " ++ quoted a) argv) (Some (mkShell d ws (Some w) false)) = Some (mkShell d ws' (Some w') false).
Proof.
  induction argv as [|a argv IH]; intros d ws w H; cbn [flat_map].
  - exists ws, w. split; reflexivity.
  - destruct (IH d (ws ++ [w]) a ltac:(intros x I; apply H; now right)) as (ws' & w' & E & F). exists ws', w'. split; [rewrite <- E; cbn; now rewrite <- app_assoc|].
    rewrite !fold_left_app. change (fold_left shell_step ($" ") (Some (mkShell d ws (Some w) false))) with (Some (mkShell d (ws ++ [w]) None false)).
    rewrite quoted_word by (apply H; now left). exact F.
Qed.
Lemma end_words d ws w : sh_done (end_command (mkShell d ws (Some w) false)) = d ++ [ws ++ [w]].
Proof. destruct ws; reflexivity. Qed.
Lemma command_runs clang_tidy argv contents w : clang_tidy <> [] -> forallb plain_char clang_tidy = true ->
  ~ In SQ (fst w) -> (forall a, In a argv -> ~ In SQ a) -> ~ In SQ contents ->
  runs_into (command clang_tidy (assemble_args argv) contents w)
    ([clang_tidy; fst w; $"--quiet"; $"--config-file=.clang-tidy"; $"--extra-arg=-Wno-unknown-pragmas"; $"--extra-arg=-Wno-unknown-warning-option"] ++ argv)
    (contents ++ $"/" ++ result_name w ++ $".tmp").
Proof.
  intros N P Nw Na Nc. exists (clang_tidy ++ $" " ++ quoted (fst w) ++ assemble_args argv), ($" " ++ quoted (contents ++ $"/" ++ tmp_name w)). split; [|split].
  - unfold command. rewrite <- !app_assoc. reflexivity.
  - unfold shell_commands, assemble_args. rewrite !fold_left_app. rewrite P_Edits.step_plain_word by assumption.
    change (fold_left shell_step ($" ") (Some (mkShell [] [] (Some clang_tidy) false))) with (Some (mkShell [] [clang_tidy] None false)).
    rewrite quoted_word by exact Nw.
    set (W := [clang_tidy; fst w; $"--quiet"; $"--config-file=.clang-tidy"; $"--extra-arg=-Wno-unknown-pragmas"]).
    change (fold_left shell_step ($" --extra-arg='-Wno-unknown-pragmas' --extra-arg='-Wno-unknown-warning-option'") (fold_left shell_step ($" --quiet '--config-file=.clang-tidy'") (Some (mkShell [] [clang_tidy] (Some (fst w)) false))))
      with (Some (mkShell [] W (Some ($"--extra-arg=-Wno-unknown-warning-option")) false)).
    destruct (argv_words argv [] W ($"--extra-arg=-Wno-unknown-warning-option") Na) as (ws' & w' & E & ->).
    cbn [sh_quote]. rewrite end_words. exact (f_equal (fun l => Some [l]) (eq_sym E)).
  - unfold shell_commands. rewrite fold_left_app. change (fold_left shell_step ($" ") (Some (mkShell [] [] None false))) with (Some (mkShell [] [] None false)).
    rewrite quoted_word; [reflexivity|]. unfold tmp_name, result_name. rewrite !in_app_iff. intros [I|[I|[[I|[I|I]]|I]]]; [contradiction|cbn in I; intuition discriminate| | |  |cbn in I; intuition discriminate].
    + apply Nw. destruct (proj2 (base_of_filename (fst w) _) eq_refl) as [_ [E|[dir E]]]; rewrite E; [exact I|]. apply in_app_iff. right. now right.
    + cbn in I. intuition discriminate.
    + rewrite to_hex_all in I. assert (F := hex_digits_chars 16 (snd w)). rewrite Forall_forall in F. destruct (F _ I) as [D|D]; [discriminate D|]. cbn in D. intuition discriminate.
Qed.
Lemma start_spec exists_ time n : build_env_latest_change exists_ time = inr n <->
  exists_ ($".clang-tidy") = true /\ exists t1 t2, time ($"MODULE.bazel") = Some t1 /\
    (time ($"compile_commands.json") = Some t2 \/ time ($"compile_commands.json") = None /\ time ($"compile_flags.txt") = Some t2) /\
    (t1 <= n)%N /\ (t2 <= n)%N /\ (n = t1 \/ n = t2).
Proof.
  unfold build_env_latest_change. destruct (exists_ ($".clang-tidy")) eqn:Ex; cbn [negb]; [|split; [discriminate|intros [E _]; discriminate E]].
  destruct (time ($"MODULE.bazel")) as [t1|]; [|split; [discriminate|intros (_ & a & b & E & _); discriminate E]].
  assert (M : forall t2 n, inr (N.max t1 t2) = @inr refusal N n <-> (t1 <= n)%N /\ (t2 <= n)%N /\ (n = t1 \/ n = t2)).
  { intros t2 k. split; [intros [= <-]; lia|intros H; f_equal; lia]. }
  destruct (time ($"compile_commands.json")) as [t2|] eqn:Ec.
  - rewrite M. split; [intros H; split; [reflexivity|]; exists t1, t2; auto|]. intros (_ & a & b & Ea & [Eb|[Eb _]] & H); [|discriminate Eb]. injection Ea as <-. injection Eb as <-. exact H.
  - destruct (time ($"compile_flags.txt")) as [t2|].
    + rewrite M. split; [intros H; split; [reflexivity|]; exists t1, t2; auto 6|]. intros (_ & a & b & Ea & [Eb|[_ Eb]] & H); [discriminate Eb|]. injection Ea as <-. injection Eb as <-. exact H.
    + split; [discriminate|]. intros (_ & a & b & _ & [E|[_ E]] & _); discriminate E.
Qed.

(** * The directory of results *)
Lemma path_div_exact d name x : beneath d name x <-> x = path_div d name.
Proof.
  unfold beneath, path_div. destruct (is_nil d || ends_with ($"/") d) eqn:E.
  - split; [|intros ->; left; split; [|reflexivity]; apply orb_true_iff in E as [E|E]; [left; destruct d; [reflexivity|discriminate E]|right; now apply ends_with_iff]]. intros [(_ & X)|(N & S & _)]; [exact X|]. exfalso. apply orb_true_iff in E as [E|E]; [destruct d; [now apply N|discriminate E]|]. apply ends_with_iff in E as (r & ->). exact (S r eq_refl).
  - apply orb_false_iff in E as [E F]. split.
    + intros [([X|(r & X)] & _)|(_ & _ & X)]; [subst; discriminate E| |exact X]. exfalso. assert (Y : ends_with ($"/") d = true) by (apply ends_with_iff; eauto). congruence.
    + intros ->. right. split; [intros ->; discriminate E|]. split; [|reflexivity]. intros r X. assert (Y : ends_with ($"/") d = true) by (apply ends_with_iff; eauto). congruence.
Qed.
Lemma base_exact env exists_ d : cache_base env exists_ d <-> d = cache_base_dir env exists_.
Proof.
  unfold cache_base, cache_base_dir. destruct (env ($"CACHE_DIR")) as [c|] eqn:C.
  - split; [intros [E|(E & _)]; congruence|intros ->; auto].
  - destruct (env ($"HOME")) as [home|] eqn:H.
    + destruct (exists_ (path_div home ($".cache/"))) eqn:X.
      * split.
        -- intros [E|(_ & [(h & Eh & B & _)|(N & _)])]; [discriminate E| |].
           ++ injection Eh as <-. now apply path_div_exact.
           ++ specialize (N home _ eq_refl (proj2 (path_div_exact _ _ _) eq_refl)). congruence.
        -- intros ->. right. split; [reflexivity|]. left. exists home. split; [reflexivity|]. split; [now apply path_div_exact|exact X].
      * split.
        -- intros [E|(_ & [(h & Eh & B & Y)|(_ & T)])]; [discriminate E| |].
           ++ injection Eh as <-. apply path_div_exact in B as ->. congruence.
           ++ destruct T as [T|(T & ->)]; rewrite T; reflexivity.
        -- intros ->. right. split; [reflexivity|]. right. split; [|destruct (env ($"TMPDIR")); auto]. intros h c [= <-] B. apply path_div_exact in B as ->. exact X.
    + split.
      * intros [E|(_ & [(h & Eh & _)|(_ & T)])]; [discriminate E|discriminate Eh|]. destruct T as [T|(T & ->)]; rewrite T; reflexivity.
      * intros ->. right. split; [reflexivity|]. right. split; [discriminate|]. destruct (env ($"TMPDIR")); auto.
Qed.
Lemma path_div_inj d a b : path_div d a = path_div d b -> a = b.
Proof. unfold path_div. destruct (_ || _); intros E; apply app_inv_head in E; [exact E|]. now injection E. Qed.
