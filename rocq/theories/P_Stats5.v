(** The statistics of a whole run. *)
From Coq Require Import Lia Permutation.
From Verif Require Import Base OMap M_Types M_Scanner M_Ast M_Parser M_Query M_Elab M_Workspace M_Project P_Project M_DepGraph S_DepGraph P_DepGraph M_Printer M_Table M_Headers
  S_Query S_Headers M_Dwyu S_Dwyu P_Dwyu M_Edits M_Highlight M_Commands S_Commands P_Commands M_Main S_Main P_Main C_Main M_Messages M_ParseErrors M_Told S_Told P_Told P_Told2 P_Told3 P_Told6
  M_Stats S_Stats P_Stats P_Stats2 P_Stats3 P_Stats4.

Lemma shows_same k a b subject n bytes : about k a = about k b -> shows a k subject n bytes -> shows b k subject n bytes.
Proof. intros E. rewrite !shows_iff, E. auto. Qed.
Lemma unmentioned_same k a b : about k a = about k b -> unmentioned a k -> unmentioned b k.
Proof. intros E. rewrite !unmentioned_iff, E. auto. Qed.
Lemma asked_found args cmd pt : asked args cmd pt -> exists word rest, args = word :: rest /\ find_command command_names word = Found cmd /\
  ((rest = [] /\ pt = pattern_always /\ needs_pattern cmd = false) \/ exists arg, rest = [arg] /\ parse_pattern arg = PatOk pt).
Proof.
  intros A. assert (F : forall word, abbreviated command_names word = [cmd] -> find_command command_names word = Found cmd).
  { intros word H. assert (L := find_command_spec command_names word names_sorted). rewrite H in L. destruct (find_command command_names word); try discriminate L; congruence. }
  destruct A as [word cmd A N|word arg cmd pt A P]; exists word; eexists; (split; [reflexivity|]); (split; [now apply F|]); [left|right; eauto].
  split; [reflexivity|]. split; [reflexivity|]. destruct (needs_pattern cmd) eqn:E; [|reflexivity]. exfalso. apply N. destruct cmd; try discriminate E; cbn; auto.
Qed.
Lemma perform_beside read_file flags v texts fl cmd pt w pr g r l : perform_told read_file flags v texts fl cmd pt w pr g = Ret (r, l) -> Forall beside l.
Proof.
  assert (M : forall log, Forall beside (map NTool log)) by (induction log; repeat constructor; assumption).
  unfold perform_told. cbv zeta. destruct cmd.
  all: try (intros E; apply silent_split in E as [_ ->]; constructor).
  - destruct (_ || _).
    + intros E. match type of E with bind ?x _ = _ => destruct x; try discriminate E end. cbn [bind] in E. apply say_split in E as [_ ->]. destruct (fl_grep fl); repeat constructor.
    + intros E. apply say_split in E as [_ ->]. constructor.
  - intros E. match type of E with bind ?x _ = _ => destruct x; try discriminate E end. cbn [bind] in E. apply say_split in E as [_ ->]. destruct (fl_grep fl); repeat constructor.
  - intros E. match type of E with bind ?x _ = _ => destruct x as [[m log]| |]; try discriminate E end. cbn [bind] in E. match type of E with bind ?x _ = _ => destruct x; try discriminate E end. cbn [bind] in E.
    apply say_split in E as [_ ->]. auto.
  - intros E. match type of E with bind ?x _ = _ => destruct x as [[[evs n] log]| |]; try discriminate E end. cbn [bind] in E. apply say_split in E as [_ ->]. auto.
  - intros E. match type of E with bind ?x _ = _ => destruct x; try discriminate E end. cbn [bind] in E. match type of E with bind ?x _ = _ => destruct x; try discriminate E end. cbn [bind] in E.
    apply say_split in E as [_ ->]. auto.
Qed.

Section Run.
Variable is_directory : str -> bool.
Variable can_read : str -> bool.
Variable glob : str -> list str.
Variable read_file : str -> option str.
Variable glob_in : workspace -> package -> list str -> list str -> list str.
Variable collect : workspace -> pattern -> list str.
Variable compilation_flags : workspace -> parsed_project -> pattern -> bool -> outcome str.
Variable looked_at : workspace -> package -> list str -> list str -> nat.
Variable walked : workspace -> pattern -> nat.
Notation prepare_counted := (prepare_counted is_directory can_read glob read_file glob_in collect looked_at walked).
Notation prepare := (prepare is_directory can_read glob read_file glob_in collect).
Notation perform_counted := (perform_counted read_file compilation_flags).
Notation run_command_counted := (run_command_counted is_directory can_read glob read_file glob_in collect compilation_flags looked_at walked).
Notation run_cli_counted := (run_cli_counted is_directory can_read glob read_file glob_in collect compilation_flags looked_at walked).
Notation run_command_told := (run_command_told is_directory can_read glob read_file glob_in collect compilation_flags).
Notation run_cli_told := (run_cli_told is_directory can_read glob read_file glob_in collect compilation_flags).
Notation prepare_told := (prepare_told is_directory can_read glob read_file glob_in collect).
Notation prepared := (prepared can_read read_file glob_in collect walked).
Lemma asked_counted fl args cmd pt : asked args cmd pt -> run_cli_counted fl args = Some (run_command_counted fl cmd pt).
Proof.
  intros A. apply asked_found in A as (word & rest & -> & F & [(-> & -> & N)|(arg & -> & P)]); unfold M_Stats.run_cli_counted; rewrite F; cbv zeta.
  - rewrite N. reflexivity.
  - rewrite P. cbn [is_nil]. rewrite (pattern_not_all _ _ P), andb_false_r. reflexivity.
Qed.
Lemma asked_told v texts fl args cmd pt : asked args cmd pt -> run_cli_told v texts fl args = Some (run_command_told v texts fl cmd pt).
Proof.
  intros A. apply asked_found in A as (word & rest & -> & F & [(-> & -> & N)|(arg & -> & P)]); unfold M_Told.run_cli_told; rewrite F; cbv zeta.
  - rewrite N. reflexivity.
  - rewrite P. cbn [is_nil]. rewrite (pattern_not_all _ _ P), andb_false_r. reflexivity.
Qed.
Notation ran := (ran is_directory can_read glob read_file glob_in collect compilation_flags looked_at walked).
Lemma ran_split fl args cmd pt w pr g works : ran fl args cmd pt w pr g works ->
  exists ws l r, works = ws ++ l /\ prepare_counted fl cmd pt = Ret (Some (w, pr, g), ws) /\ perform_counted fl cmd pt w pr g = Ret (r, l).
Proof.
  intros (A & P & out & st & E). rewrite (asked_counted _ _ _ _ A) in E. apply (f_equal (fun o => match o with Some x => x | None => UB end)) in E. cbn beta iota in E. unfold M_Stats.run_command_counted in E.
  part E. assert (X := E0). apply bare_ret in X. rewrite prepare_bare, P in X. apply ret_inj in X. subst a. cbv iota beta in E. eauto 8.
Qed.
Lemma ran_loading fl args cmd pt w pr g works : ran fl args cmd pt w pr g works ->
  exists ws pr0 pr1, prepared fl cmd pt w pr g ws pr0 pr1 /\ (forall k, In k loading -> about k ws = about k works) /\
  forall verbose texts out st notes, run_cli_told verbose texts fl args = Some (Ret (out, st, notes)) -> loaded empty_project pr ws (nunread notes) (nseen notes).
Proof.
  intros R. assert (A := proj1 R). apply ran_split in R as (ws & l & r & -> & P & Q). assert (P' := P). apply (prepare_counts _ _ _ _ _ _ compilation_flags) in P as (pr0 & pr1 & P & L). exists ws, pr0, pr1. split; [exact P|]. split.
  - intros k I. now rewrite about_app, (tools_apart _ _ _ _ _ _ _ _ _ _ Q k I), app_nil_r.
  - intros verbose texts out st notes E. rewrite (asked_told _ _ _ _ _ _ A) in E. apply (f_equal (fun o => match o with Some x => x | None => UB end)) in E. cbn beta iota in E. unfold M_Told.run_command_told in E.
    chunk E. assert (B : Forall beside l1). { destruct a as [[[w1 pr2] g1]|]; [eapply perform_beside; exact E|chunk E; subst; constructor]. }
    apply beside_none in B as [B1 B2]. subst notes. rewrite nunread_app, nseen_app, B1, B2, !Nat.add_0_r. eapply L. eassumption.
Qed.
Theorem run_read fl args cmd pt w pr g works : ran fl args cmd pt w pr g works ->
  forall verbose texts out st notes, run_cli_told verbose texts fl args = Some (Ret (out, st, notes)) ->
  let parsed := length (pr_files pr) + length (filter about_seen notes) in
  let tried := parsed + length (filter about_unreadable notes) in
  if tried =? 0 then unmentioned works k_read /\ unmentioned works k_parse
  else exists bytes, shows works k_read ($"BUILD files") tried bytes /\ shows works k_parse ($"BUILD files") parsed bytes /\
    (bytes = None <-> parsed = 0) /\ (filter about_seen notes = [] -> 0 < parsed -> bytes = Some (project_size pr)).
Proof.
  intros R verbose texts out st notes E. cbv zeta. apply ran_loading in R as (ws & pr0 & pr1 & _ & S & L). specialize (L _ _ _ _ _ E). fold (nseen notes). fold (nunread notes).
  assert (Z : nseen notes = 0 <-> filter about_seen notes = []) by (unfold nseen; destruct (filter about_seen notes); cbn; split; intros; congruence || discriminate).
  destruct L as [L1 L2 L3 L4 L5 L6 L7 L8 L9]. cbn [empty_project pr_files length] in *. rewrite Nat.add_0_r in *.
  assert (Kr : In k_read loading) by (unfold loading; cbn [In]; auto 10). assert (Kp : In k_parse loading) by (unfold loading; cbn [In]; auto 10).
  destruct (Nat.eqb_spec (length (pr_files pr) + nseen notes + nunread notes) 0) as [H|H].
  - assert (Ar : about k_read ws = []). { destruct (about k_read ws) eqn:X; [reflexivity|]. assert (Y : 0 < total k_read ws) by (apply L8; discriminate). lia. }
    split; (eapply unmentioned_same; [apply S; assumption|]); apply none_unmentioned; [exact Ar|now apply L9].
  - assert (Ar : about k_read ws <> []). { intros X. unfold total in L3. rewrite X in L3. cbn in L3. lia. }
    assert (Ap : about k_parse ws <> []) by (intros X; apply Ar, L9, X).
    exists (match amounts k_read ws with [] => None | a => Some (list_sum a) end). split; [|split; [|split]].
    + eapply shows_same; [apply S; assumption|]. replace (length (pr_files pr) + nseen notes + nunread notes) with (total k_read ws) by lia. now apply headed_shows.
    + eapply shows_same; [apply S; assumption|]. rewrite <- L4, L5. now apply headed_shows.
    + rewrite <- L4, <- L6. destruct (amounts k_read ws); cbn; split; intros; congruence || discriminate.
    + intros X Y. apply Z in X. specialize (L7 X). rewrite <- L4, <- L6 in Y. destruct (amounts k_read ws); [cbn in Y; lia|]. f_equal. exact L7.
Qed.
Theorem run_walk fl args cmd pt w pr g works : ran fl args cmd pt w pr g works ->
  if needs_project cmd pt then shows works k_walk ($"files/directories") (walked w (read_pattern cmd pt)) None else unmentioned works k_walk.
Proof.
  intros R. apply ran_loading in R as (ws & pr0 & pr1 & P & S & _). apply pp_walk in P. assert (K : In k_walk loading) by (unfold loading; cbn [In]; auto 10). rewrite (S _ K) in P.
  destruct (needs_project cmd pt); [apply shows_iff; rewrite P; reflexivity|now apply none_unmentioned].
Qed.
Theorem run_elaborated fl args cmd pt w pr g works : ran fl args cmd pt w pr g works ->
  exists pr0 pr1, read_first read_file glob_in collect fl cmd pt w pr0 pr1 /\ length (pr_files pr0) <= length (pr_files pr) /\
  let n := if elaborate_for cmd (fl_elaborate fl) then length (pr_files pr) else length (pr_files pr) - length (pr_files pr0) in
  if n =? 0 then unmentioned works k_elab else shows works k_elab ($"packages") n None.
Proof.
  intros R. apply ran_loading in R as (ws & pr0 & pr1 & P & S & _). exists pr0, pr1. split; [now apply pp_first in P|]. split; [now apply pp_more in P|]. cbv zeta. apply pp_elab, elaborated_shows in P.
  assert (K : In k_elab loading) by (unfold loading; cbn [In]; auto 10). set (n := if elaborate_for cmd (fl_elaborate fl) then _ else _) in *. clearbody n.
  destruct n; cbn [Nat.eqb]; [eapply unmentioned_same|eapply shows_same]; try exact P; now apply S.
Qed.
Theorem run_rounds fl args cmd pt w pr g works : ran fl args cmd pt w pr g works ->
  exists pr0 pr1, read_first read_file glob_in collect fl cmd pt w pr0 pr1 /\
  if wants_graph cmd && (0 <=? depth_for cmd (fl_depth fl))%Z then
    (exists n, shows works k_rounds ($"rounds") n None /\
      rounds_needed w read_file can_read (glob_in w) (read_pattern cmd pt) (depth_for cmd (fl_depth fl)) pr1 g pr n) /\
    (length (pr_files pr) = length (pr_files pr0) /\ unmentioned works k_exist \/ exists n, shows works k_exist ($"BUILD files") n None /\ length (pr_files pr) - length (pr_files pr0) <= n)
  else pr = pr1 /\ unmentioned works k_rounds /\ unmentioned works k_exist.
Proof.
  intros R. apply ran_loading in R as (ws & pr0 & pr1 & P & S & _). exists pr0, pr1. split; [now apply pp_first in P|].
  assert (Kr : In k_rounds loading) by (unfold loading; cbn [In]; auto 10). assert (Ke : In k_exist loading) by (unfold loading; cbn [In]; auto 10).
  destruct P as [_ _ _ _ M H B X D]. destruct (wants_graph cmd && _).
  - destruct D as (n & D & N). split.
    + exists n. split; [|exact N]. eapply shows_same; [apply S, Kr|]. now apply shows_iff.
    + destruct (about k_exist ws) as [|x l] eqn:Y; [left|right].
      * unfold total in X. rewrite Y in X. cbn in X. split; [lia|]. eapply unmentioned_same; [apply S, Ke|]. now apply none_unmentioned.
      * exists (total k_exist ws). split; [|exact X]. eapply shows_same; [apply S, Ke|]. assert (Z := headed_shows _ _ _ H). rewrite Y, B in Z. apply Z. discriminate.
  - destruct D as (D1 & D2 & ->). split; [reflexivity|]. split; (eapply unmentioned_same; [apply S; eassumption|]); now apply none_unmentioned.
Qed.
(** What the tools count. *)
Lemma ran_tools fl args cmd pt w pr g works : ran fl args cmd pt w pr g works ->
  exists l r, perform_counted fl cmd pt w pr g = Ret (r, l) /\ forall k, ~ In k loading -> about k works = about k l.
Proof.
  intros R. apply ran_split in R as (ws & l & r & -> & P & Q). apply (prepare_counts _ _ _ _ _ _ compilation_flags) in P as (pr0 & pr1 & P & _). exists l, r. split; [exact Q|]. intros k N. apply pp_only in P. rewrite about_app, (only_none _ _ _ P N). reflexivity.
Qed.
Theorem run_dwyu fl args cmd pt w pr g works : ran fl args cmd pt w pr g works ->
  match cmd with
  | CDwyu => (exists n, indexed pr n /\ shows works k_prepare ($"indexed targets") n None) /\
      exists rules contents, matching [$"cc_library"; $"cc_binary"; $"cc_test"] pt (pr_files pr) rules /\ checked_sources w read_file rules contents /\
        forall k, In k [k_source; k_grep] ->
          if is_nil rules then unmentioned works k else shows works k ($"sources") (length contents) (Some (list_sum (map (@length ascii) contents)))
  | _ => forall k, In k [k_prepare; k_source; k_grep] -> unmentioned works k
  end.
Proof.
  intros R. apply ran_tools in R as (l & r & E & S). unfold M_Stats.perform_counted in E. destruct (perform _ _ fl cmd pt w pr g) as [r0| |]; try discriminate. cbn [bind] in E.
  assert (Np : ~ In k_prepare loading) by (unfold loading; other). assert (Ns : ~ In k_source loading) by (unfold loading; other). assert (Ng : ~ In k_grep loading) by (unfold loading; other).
  assert (No : (forall k, In k [k_prepare; k_source; k_grep] -> about k l = []) -> forall k, In k [k_prepare; k_source; k_grep] -> unmentioned works k).
  { intros H k I. apply none_unmentioned. rewrite S; [now apply H|]. cbn [In] in I. destruct I as [<-|[<-|[<-|[]]]]; assumption. }
  destruct cmd; try (apply No; part E; subst; reflexivity).
  - clear No. destruct (dwyu_counted w read_file pr pt) as [d| |] eqn:D; try discriminate. cbn [bind] in E. part E. subst. apply dwyu_counts in D as (n & ws & rules & contents & -> & I & M & (C & G1 & G2 & O)). split.
    + exists n. split; [exact I|]. apply shows_iff. rewrite (S _ Np), about_app, (only_none _ _ _ O) by other. reflexivity.
    + exists rules, contents. split; [exact M|]. split; [exact C|]. intros k K.
      assert (G : grepped k (length rules) contents ws) by (cbn [In] in K; destruct K as [<-|[<-|[]]]; assumption).
      assert (A : about k ws = about k works).
      { cbn [In] in K; destruct K as [<-|[<-|[]]]; rewrite S by assumption; rewrite about_app; reflexivity. }
      apply grepped_shows in G. destruct rules; cbn [length is_nil] in *; [eapply unmentioned_same|eapply shows_same]; eassumption.
  - apply No. destruct (canon_files_counted pt (pr_files pr)); try discriminate. cbn [bind] in E. part E. subst. intros k K. cbn [In] in K. destruct K as [<-|[<-|[<-|[]]]]; reflexivity.
Qed.
Theorem run_canon fl args cmd pt w pr g works : ran fl args cmd pt w pr g works ->
  match cmd with
  | CCanonicalize => exists rules, matching [] pt (pr_files pr) rules /\
      shows works k_canon ($"dependencies") (list_sum (map (fun e => length (entries (list_of (q_deps (snd e))))) rules)) None
  | _ => unmentioned works k_canon
  end.
Proof.
  intros R. apply ran_tools in R as (l & r & E & S). unfold M_Stats.perform_counted in E. destruct (perform _ _ fl cmd pt w pr g) as [r0| |]; try discriminate. cbn [bind] in E.
  assert (N : ~ In k_canon loading) by (unfold loading; other). specialize (S _ N).
  destruct cmd; try (part E; subst; apply none_unmentioned; exact S).
  - destruct (dwyu_counted w read_file pr pt) as [d| |] eqn:D; try discriminate. cbn [bind] in E. part E. subst. apply dwyu_counts in D as (n & ws & rules & contents & -> & _ & _ & (_ & _ & _ & O)).
    apply none_unmentioned. rewrite S, about_app, (only_none _ _ _ O) by other. reflexivity.
  - destruct (canon_files_counted pt (pr_files pr)) as [n| |] eqn:C; try discriminate. cbn [bind] in E. part E. subst. apply canon_files_counts in C as (rules & M & ->). exists rules. split; [exact M|]. apply shows_iff. rewrite S. reflexivity.
Qed.
(** Nothing is counted if nothing is read. *)
Lemma not_ran fl args out st works : run_cli_counted fl args = Some (Ret (out, st, works)) ->
  (forall cmd pt w pr g, ~ ran fl args cmd pt w pr g works) -> works = [].
Proof.
  unfold M_Stats.run_cli_counted. intros E N. destruct args as [|word rest]; [injection E as _ _ <-; reflexivity|].
  assert (L := find_command_spec command_names word names_sorted). destruct (find_command command_names word) as [cmd| |] eqn:F; [|injection E as _ _ <-; reflexivity..].
  assert (A : abbreviated command_names word = [cmd]) by (destruct (abbreviated command_names word) as [|x [|y l]]; try discriminate; injection L as ->; reflexivity).
  assert (G : forall pt, asked (word :: rest) cmd pt -> run_command_counted fl cmd pt = Ret (out, st, works) -> works = []).
  { intros pt As R. assert (R' := R). unfold M_Stats.run_command_counted in R. part R. destruct a as [[[w pr] g]|]; [|part R; subst works; subst].
    - exfalso. apply (N cmd pt w pr g). split; [exact As|]. split; [rewrite <- (prepare_bare is_directory can_read glob read_file glob_in collect looked_at walked), E0; reflexivity|]. exists out, st. rewrite (asked_counted _ _ _ _ As), R'. reflexivity.
    - clear - E0. unfold M_Stats.prepare_counted in E0. part E0. part E. subst. destruct a as [w0|]; [|part E0; subst; reflexivity]. exfalso. cbv zeta in E0.
      part E0. part E0. part E0. destruct a1 as [g1 pr1]. part E0. discriminate. }
  cbv zeta in E. destruct rest as [|arg more].
  - change (is_matchall pattern_always) with true in E. rewrite andb_true_r in E. destruct (needs_pattern cmd) eqn:Np; [injection E as _ _ <-; reflexivity|]. injection E as E. apply (G pattern_always); [|exact E].
    apply as_all; [exact A|]. intros I. destruct cmd; try discriminate Np; cbn [In] in I; intuition discriminate.
  - destruct (parse_pattern arg) as [pt| |] eqn:P; [|injection E as _ _ <-; reflexivity|discriminate]. destruct more as [|x more]; [|injection E as _ _ <-; reflexivity].
    cbn [is_nil] in E. rewrite (pattern_not_all _ _ P), andb_false_r in E. injection E as E. apply (G pt); [|exact E]. now apply as_pattern.
Qed.
End Run.

(** * Lines *)
Lemma msec_said usec : in_msec usec (print_msec usec).
Proof.
  unfold in_msec, print_msec. set (r := usec mod 1000). assert (B : r < 1000) by (apply Nat.mod_upper_bound; lia). clearbody r.
  exists (print_int (Z.of_nat (usec / 1000))), ((if r <? 100 then $"0" else []) ++ (if r <? 10 then $"0" else []) ++ print_int (Z.of_nat r)).
  split; [reflexivity|]. split; [intros H; now apply print_decimal|].
  assert (D : forallb (fun r => (length ((if r <? 100 then $"0" else []) ++ (if r <? 10 then $"0" else []) ++ print_int (Z.of_nat r)) =? 3)
      && forallb is_digit ((if r <? 100 then $"0" else []) ++ (if r <? 10 then $"0" else []) ++ print_int (Z.of_nat r))
      && (fold_left (fun a c => 10 * a + digit c) ((if r <? 100 then $"0" else []) ++ (if r <? 10 then $"0" else []) ++ print_int (Z.of_nat r)) 0 =? r)) (seq 0 1000) = true) by (vm_compute; reflexivity).
  rewrite forallb_forall in D. specialize (D r). rewrite in_seq in D. specialize (D (conj (Nat.le_0_l r) B)). apply andb_prop in D as [D D3]. apply andb_prop in D as [D1 D2].
  apply Nat.eqb_eq in D1, D3. split; [exact D1|]. split; [|exact D3]. apply Forall_forall. now apply forallb_forall.
Qed.
Lemma line_said speed spent e : stat_said speed spent e (stat_line speed spent e).
Proof.
  destruct e as [name [subject n b]]. unfold stat_line, print_stat. cbn [fst snd st_subject st_count st_bytes]. assert (M := msec_said (spent name)). assert (C : forall m, counted m (print_int (Z.of_nat m))) by (intros m H; now apply print_decimal).
  destruct b as [b|]; [destruct (Nat.ltb_spec 0 (spent name))|]; rewrite <- !app_assoc.
  - now apply ss_sized.
  - apply ss_plain; auto. right. lia.
  - apply ss_plain; auto.
Qed.
Theorem main_lines change_dir open_output seen_from looked_at walked is_terminal compile speed spent args lines :
  main_statistics change_dir open_output seen_from looked_at walked is_terminal compile speed spent args = Some (Ret lines) ->
  (exists code words, read_command_line change_dir open_output args = Ret (Return code, words)) /\ lines = [] \/
  exists evs words st out status works, command_line args evs words /\ all_acceptable change_dir open_output evs /\ meaning evs st /\
    (let s := seen_from (s_dirs st) in
     run_cli_counted (sur_is_directory s) (sur_can_read s) (sur_glob s) (sur_read_file s) (sur_glob_in s) (sur_collect s) (sur_flags s)
       (looked_at (s_dirs st)) (walked (s_dirs st)) (flags_of is_terminal compile st) words = Some (Ret (out, status, works))) /\
    if given "v" evs && negb (match status with ExitClarification => true | _ => false end) then Forall2 (stat_said speed spent) (stats_of works) lines else lines = [].
Proof.
  unfold main_statistics. destruct (read_command_line change_dir open_output args) as [[[st|code] words]| |] eqn:R; [| |discriminate..].
  2: { intros E. injection E as <-. left. eauto. }
  cbv zeta. destruct (run_cli_counted _ _ _ _ _ _ _ _ _ _ words) as [[[[out status] works]| |]|] eqn:C; [|discriminate..]. cbn [bind]. intros E. apply (f_equal (fun o => match o with Some x => x | None => UB end)) in E. cbn beta iota in E. apply ret_inj in E.
  right. apply C69_reading in R as (evs & L & A & M). exists evs, words, st, out, status, works. do 4 (split; [assumption|]).
  assert (V : (0 <? s_verbose st) = given "v" evs).
  { rewrite (means_verbose _ _ M). clear. unfold given, arguments. induction evs as [|[c a|] evs IH]; [reflexivity| |exact IH]. cbn [existsb flat_map is_given]. destruct (ceqb c "v"); [reflexivity|exact IH]. }
  subst lines. unfold statistics. rewrite V. destruct status; rewrite ?andb_true_r, ?andb_false_r; cbn [negb]; try reflexivity; destruct (given "v" evs); try reflexivity; induction (stats_of works); constructor; auto using line_said.
Qed.
