(** Property C69: the command line. *)
From Verif Require Import Base OMap M_Types M_Ast M_Workspace M_Project M_Table M_Highlight M_Commands S_Commands P_Commands M_Main S_Main P_Main C_Commands.
Local Open Scope string_scope.
Local Open Scope list_scope.

(** There is at most one way to read a command line. *)
Theorem C69_unique : forall args evs words evs' words', command_line args evs words -> command_line args evs' words' -> evs = evs' /\ words = words'.
Proof. intros args evs words evs' words' H H'. apply command_line_getopt in H. apply command_line_getopt in H'. rewrite H in H'. injection H'. auto. Qed.
Print Assumptions C69_unique.

Lemma same_option {A} (x y : option A) (a : A) : x = Some a -> y = Some a -> x = y.
Proof. congruence. Qed.
Lemma format_of_fun w f f' : w <> [] -> format_of w f -> format_of w f' -> f = f'.
Proof. intros N H H'. apply format_find in H as (g & G & E). apply format_find in H' as (g' & G' & E'). specialize (E N). specialize (E' N). congruence. Qed.
Lemma map_some_inj {A} (l l' : list A) : map Some l = map Some l' -> l = l'.
Proof. revert l'. induction l as [|x l IH]; intros [|y l'] E; try discriminate; auto. injection E as -> E. f_equal. auto. Qed.
(** The options say all there is to know. *)
Theorem C69_meaning_unique : forall evs st st', meaning evs st -> meaning evs st' -> st = st'.
Proof.
  intros evs st st' [A1 A2 A3 A4 A5 A6 A7 A8 A9 A10 A11 A12] [B1 B2 B3 B4 B5 B6 B7 B8 B9 B10 B11 B12].
  assert (D : s_depth st = s_depth st'). { destruct (last_argument "r" evs) as [[n|]|]; congruence. }
  assert (F : s_format st = s_format st').
  { destruct (last_argument "f" evs) as [[w|]|]; try congruence. destruct A7 as [A7 A7'], B7 as [B7 B7']. destruct w as [|c w].
    - rewrite A7', B7' by reflexivity. reflexivity.
    - eapply format_of_fun; eauto. discriminate. }
  assert (C : s_dirs st = s_dirs st'). { apply map_some_inj. congruence. }
  destruct st, st'. cbn in *. congruence.
Qed.
Print Assumptions C69_meaning_unique.

Section Main.
Variable change_dir open_output : list str -> str -> bool.
Notation read_command_line := (read_command_line change_dir open_output).
Notation all_acceptable := (all_acceptable change_dir open_output).
(** A command is run exactly if the command line can be read and all options are acceptable. *)
Theorem C69_reading : forall args st words, read_command_line args = Ret (Continue st, words) <->
  exists evs, command_line args evs words /\ all_acceptable evs /\ meaning evs st.
Proof.
  intros args st words. unfold M_Main.read_command_line. split.
  - destruct (getopt args) as [evs pos] eqn:G. intros E. destruct (handle_options change_dir open_output default_settings evs) as [n| |] eqn:H; try discriminate.
    cbn [bind] in E. injection E as -> ->.
    assert (B : ~ In OptBad evs).
    { clear G. revert H. generalize default_settings. induction evs as [|ev evs IH]; intros s0 H; [intros []|]. cbn [handle_options] in H. intros [->|I].
      - destruct s0. discriminate H.
      - destruct (handle_option _ _ s0 ev) as [[s1|c]| |]; try discriminate. eapply IH; eauto. }
    assert (C := getopt_command_line _ _ _ G B). exists evs. split; [exact C|].
    apply handle_options_spec in H; [tauto|]. eapply command_line_proper; eauto.
  - intros (evs & C & A & M). rewrite (command_line_getopt _ _ _ C).
    destruct (handle_options_accepts change_dir open_output evs (command_line_proper _ _ _ C) A) as [st' H]. rewrite H. cbn [bind].
    apply handle_options_spec in H as [M' _]; [|eapply command_line_proper; eauto]. rewrite (C69_meaning_unique _ _ _ M M'). reflexivity.
Qed.
(** Options can come before or after other words. *)
Definition one_option (g : list str) : Prop :=
  exists w evs, (g = [w] /\ option_word w [] evs []) \/ (exists arg, g = [w; arg] /\ option_word w [arg] evs []).
Lemma one_option_complete g : one_option g -> complete g /\ snd (getopt g) = [].
Proof.
  intros (w & evs & [[-> O]|(arg & -> & O)]).
  - split; [eapply complete_option; [exact O|constructor]|]. erewrite command_line_getopt; [|eapply an_option; [exact O|constructor]]. reflexivity.
  - split; [eapply complete_pair; [exact O|constructor]|]. erewrite command_line_getopt; [|eapply an_option; [exact O|constructor]]. reflexivity.
Qed.
Theorem C69_order : forall before g w after, complete before -> one_option g -> plain_word w ->
  read_command_line (before ++ w :: g ++ after) = read_command_line (before ++ g ++ w :: after).
Proof.
  intros before g w after B G W. unfold M_Main.read_command_line. apply one_option_complete in G as [G N].
  rewrite !(complete_getopt _ B), (complete_getopt _ G (w :: after)), !getopt_word, (complete_getopt _ G after) by auto. cbn [fst snd]. rewrite N. reflexivity.
Qed.
(** "-r0" is the same as no "-r". *)
Theorem C69_zero : forall evs st, last_argument "r" evs = None -> (meaning (evs ++ [Opt "r" (Some ($"0"))]) st <-> meaning evs st).
Proof.
  intros evs st N.
  split; intros [A1 A2 A3 A4 A5 A6 A7 A8 A9 A10 A11 A12]; rewrite ?given_snoc, ?last_argument_snoc, ?arguments_snoc in *;
    repeat match goal with H : context [ceqb ?a ?b] |- _ => let v := eval vm_compute in (ceqb a b) in change (ceqb a b) with v in H end;
    cbv iota in *; rewrite ?orb_false_r, ?app_nil_r in *; constructor; rewrite ?given_snoc, ?last_argument_snoc, ?arguments_snoc;
    repeat match goal with |- context [ceqb ?a ?b] => let v := eval vm_compute in (ceqb a b) in change (ceqb a b) with v end;
    cbv iota; rewrite ?orb_false_r, ?app_nil_r; auto.
  - rewrite N. change (atoi ($"0")) with (Ret 0%Z) in A6. congruence.
  - rewrite N in A6. rewrite A6. reflexivity.
Qed.
(** -E is in the description of "print", but no command line has this effect. *)
Theorem C69_only_errors_refuted : forall args st words, read_command_line args = Ret (Continue st, words) -> s_print_only_errors st = false.
Proof. intros args st words E. apply C69_reading in E as (evs & _ & _ & M). apply M. Qed.

Variable seen_from : list str -> surroundings.
Variable is_terminal : bool.
Variable compile : str -> option finder_fn.
(** All together: nothing at all is done, or the command is run in the directory of the -C options and its output goes where -o says. *)
Theorem C69_program : forall args dest out code, main change_dir open_output seen_from is_terminal compile args = Some (Ret (dest, out, code)) ->
  (dest = None /\ out = [] /\ code <= 1 /\ forall evs words, command_line args evs words -> ~ all_acceptable evs)%nat \/
  exists evs words st status, command_line args evs words /\ all_acceptable evs /\ meaning evs st /\ dest = s_output st /\ code = exit_code status /\
    let s := seen_from (s_dirs st) in
    run_cli (sur_is_directory s) (sur_can_read s) (sur_glob s) (sur_read_file s) (sur_glob_in s) (sur_collect s) (sur_flags s)
      (flags_of is_terminal compile st) words = Some (Ret (out, status)).
Proof.
  intros args dest out code E. unfold main in E. destruct (read_command_line args) as [[[st|c] words]| |] eqn:R; try discriminate.
  - right. destruct (run_cli _ _ _ _ _ _ _ _ _) as [[[o status]| |]|] eqn:X; try discriminate. injection E as <- <- <-.
    apply C69_reading in R as (evs & C & A & M). exists evs, words, st, status. auto 10.
  - left. injection E as <- <- <-. split; [reflexivity|]. split; [reflexivity|]. split.
    + unfold M_Main.read_command_line in R. destruct (getopt args) as [evs pos]. destruct (handle_options _ _ _ evs) as [n| |] eqn:H; try discriminate. cbn [bind] in R.
      injection R as -> ->. revert H. generalize default_settings. induction evs as [|ev evs IH]; intros s0 H; [discriminate|]. cbn [handle_options] in H.
      destruct (handle_option _ _ s0 ev) as [[s1|c']| |] eqn:Ho; try discriminate; cbn [bind] in H; [eauto|]. injection H as ->.
      clear - Ho. destruct s0, ev; cbn [handle_option] in Ho; [|injection Ho as <-; lia].
      repeat match type of Ho with
      | (if ?b then _ else _) = _ => destruct b
      | Ret (if ?b then _ else _) = _ => destruct b
      | Ret (match ?b with _ => _ end) = _ => destruct b
      | bind ?b _ = _ => destruct b; cbn [bind] in Ho
      end; try discriminate Ho; injection Ho as <-; lia.
    + intros evs words' C A. destruct (handle_options_accepts _ _ evs (command_line_proper _ _ _ C) A) as [st H].
      assert (X : exists st, read_command_line args = Ret (Continue st, words')).
      { exists st. unfold M_Main.read_command_line. rewrite (command_line_getopt _ _ _ C), H. reflexivity. }
      destruct X as [st' X]. rewrite R in X. discriminate.
Qed.
(** The exit status tells a wrong directory, file or format from other reasons to stop. *)
Theorem C69_status : forall args before c a after words, command_line args (before ++ Opt c a :: after) words -> all_acceptable before ->
  ~ acceptable change_dir open_output before (Opt c a) -> (c = "r"%char -> forall w, a = Some w -> exists z, atoi w = Ret z) ->
  main change_dir open_output seen_from is_terminal compile args = Some (Ret (None, [], if existsb (ceqb c) ($"Cof") then 1 else 0))%nat.
Proof.
  intros args before c a after words C A N R. unfold main, M_Main.read_command_line. rewrite (command_line_getopt _ _ _ C), handle_app.
  assert (P := command_line_proper _ _ _ C). apply Forall_app in P as [P1 P2]. inversion P2; subst.
  destruct (handle_options_accepts _ _ before P1 A) as [st E]. rewrite E. cbn [bind handle_options]. destruct (handle_options_spec _ _ _ P1 _ E) as [M _].
  rewrite (handle_refuses change_dir open_output before st c a M) by auto. reflexivity.
Qed.
(** What the command is told. *)
Theorem C69_flags : forall evs st, meaning evs st -> let fl := flags_of is_terminal compile st in
  fl_print_ast fl = given "p" evs /\ fl_print_only_errors fl = false /\ fl_elaborate fl = given "e" evs || given "b" evs /\ fl_ignore_keep fl = given "k" evs /\
  fl_depth fl = s_depth st /\ fl_format fl = s_format st /\ fl_color fl = is_terminal /\
  fl_grep fl = match last_argument "g" evs with
               | Some (Some (c :: re)) =>
                   match compile (if given "i" evs then $"((?i)" ++ (c :: re) ++ $")" else $"(" ++ (c :: re) ++ $")") with Some find => Grep find | None => BadGrep end
               | _ => NoGrep
               end.
Proof.
  intros evs st [A1 A2 A3 A4 A5 A6 A7 A8 A9 A10 A11 A12]. unfold flags_of, regex_text. cbn. rewrite A8, A9. repeat split; auto.
  destruct (last_argument "g" evs) as [[[|c re]|]|]; try reflexivity. destruct (given "i" evs); reflexivity.
Qed.
End Main.
Print Assumptions C69_status.
Print Assumptions C69_flags.
Print Assumptions C69_reading.
Print Assumptions C69_order.
Print Assumptions C69_zero.
Print Assumptions C69_only_errors_refuted.
Print Assumptions C69_program.
(** A format can be abbreviated. *)
Theorem C69_formats : forall word, find_format word = match word, abbreviated format_names word with
  | [], _ => Some FmtCsv | _, [f] => Some f | _, _ => None end.
Proof.
  intros [|c word]; [reflexivity|]. destruct (find_format (c :: word)) as [f|] eqn:F.
  - destruct (find_format_some _ _ F) as [(name & I & r & E) _].
    assert (H : In f (abbreviated format_names (c :: word))).
    { unfold abbreviated. apply in_map_iff. exists (name, f). split; auto. apply filter_In. split; auto. cbn [fst]. rewrite E. apply starts_with_app. }
    assert (L := format_abbreviations c word). destruct (abbreviated format_names (c :: word)) as [|x [|y l]]; [destruct H| |cbn in L; lia]. destruct H as [->|[]]. reflexivity.
  - destruct (abbreviated format_names (c :: word)) as [|x [|y l]] eqn:A; try reflexivity. assert (H : In x (abbreviated format_names (c :: word))) by (rewrite A; left; reflexivity).
    apply in_map_iff in H as ((name & f) & <- & H). apply filter_In in H as [I St]. cbn [fst snd] in *. apply starts_with_iff in St as [r St].
    assert (X : format_of (c :: word) f) by (exists name; split; [exact I|exists r; exact St]).
    apply format_find in X as (f' & X & _). congruence.
Qed.
Print Assumptions C69_formats.
(** A number after -r. *)
Theorem C69_number : forall n s, decimal n s -> (Z.of_nat n <= INT_MAX)%Z -> atoi s = Ret (Z.of_nat n).
Proof. exact atoi_decimal. Qed.
Print Assumptions C69_number.
Theorem C69_signed : forall n s, decimal n s -> (Z.of_nat n <= INT_MAX)%Z -> atoi ("+"%char :: s) = Ret (Z.of_nat n) /\ atoi ("-"%char :: s) = Ret (- Z.of_nat n)%Z.
Proof. exact atoi_signed. Qed.
Print Assumptions C69_signed.

Definition all_ok (dirs : list str) (w : str) : bool := true.
Definition some_line (args : list string) : outcome (next_step * list str) := read_command_line all_ok (fun dirs w => negb (str_eqb w ($"no"))) (map (fun s => $s) args).
Example C69_case :
  some_line ["-C"; "a"; "dwyu"; "-evvr2"; "-Cb"; "//x"; "-fj"; "-g"; "-x"; "--"; "-q"] =
    Ret (Continue (mkSettings 2 false false true false 2 FmtJson ($"-x") false false [$"a"; $"b"] None), [$"dwyu"; $"//x"; $"-q"]) /\
  some_line ["-r"; "2"; "print"] = Ret (Continue (mkSettings 0 false false false false INT_MAX FmtNative [] false false [] None), [$"2"; $"print"]) /\
  some_line ["print"; "-E"] = Ret (Return 0, [$"print"]) /\ some_line ["print"; "-fx"] = Ret (Return 1, [$"print"]) /\
  some_line ["print"; "-o"; "no"] = Ret (Return 1, [$"print"]) /\ some_line ["print"; "-o"] = Ret (Return 0, [$"print"]) /\
  some_line ["-o"; "x"; "-o-"; "-f"; ""] = Ret (Continue (mkSettings 0 false false false false 0 FmtCsv [] false false [] None), []).
Proof. vm_compute. auto 10. Qed.
Example C69_order_case : complete [$"dwyu"; $"-f"; $"csv"] /\ one_option [$"-ev"] /\ plain_word ($"//x").
Proof.
  split; [|split].
  - apply complete_word; [right; discriminate|]. eapply (complete_pair ($"-f") ($"csv")); [|constructor]. apply (in_next_word [] "f"%char ($"csv") []); [constructor|cbn; auto].
  - exists ($"-ev"), (flag_events ($"ev")). left. split; [reflexivity|]. apply only_flags; [discriminate|]. repeat constructor; cbn; tauto.
  - right. discriminate.
Qed.
Example C69_status_case : command_line [$"-C"; $"no"] ([] ++ [Opt "C" (Some ($"no"))]) [] /\ ~ acceptable (fun _ _ => false) all_ok [] (Opt "C" (Some ($"no"))).
Proof.
  split.
  - apply getopt_command_line; [reflexivity|]. cbn. intros [X|[]]. discriminate.
  - intros [_ H]. destruct (H _ eq_refl) as [X _]. specialize (X eq_refl). discriminate.
Qed.
Example C69_flags_case : meaning [Opt "g" (Some ($"x")); Opt "i" None; Opt "k" None] (mkSettings 0 false false false true 0 FmtNative ($"x") true false [] None).
Proof. constructor; reflexivity. Qed.
