(** C89: following dependencies deeper shows more. *)
From Coq Require Import ZArith Lia.
From Verif Require Import Base OMap M_Types M_Scanner M_Ast M_Parser M_Query M_Elab M_Workspace M_Project M_DepGraph S_DepGraph P_DepGraph P_Project
  M_Headers S_Headers P_Headers M_Table S_Table P_Table M_Commands S_Commands P_Commands S_Run P_Run P_Packages C_Commands C_Formats P_Deeper.
Local Open Scope string_scope. Local Open Scope list_scope.

(** Commands whose tables depend on the depth of -r ... *)
Definition table_commands : list command := [CDependsOn; CHasDependents; CListPackages; CListTargets; CLibHeaders].
(** ... and when [d'] is at least as deep as [d]: has-dependents takes 0 and less for no limit. *)
Definition at_least_as_deep (cmd : command) (d d' : Z) : Prop :=
  match cmd with
  | CHasDependents => (0 < d <= d')%Z \/ (d' <= 0 /\ d <= INT_MAX)%Z
  | _ => (d <= d')%Z
  end.

Lemma as_deep cmd d d' : at_least_as_deep cmd d d' -> In cmd table_commands -> (depth_for cmd d <= depth_for cmd d')%Z.
Proof.
  intros A [<-|[<-|[<-|[<-|[<-|[]]]]]]; cbn [at_least_as_deep depth_for] in *; try exact A.
  destruct (Z.leb_spec d 0), (Z.leb_spec d' 0); try lia.
Qed.
Lemma wider d d' pt : (d <= d')%Z -> forall t, match_target (if (0 <? d)%Z then pattern_always else pt) t = true ->
  match_target (if (0 <? d')%Z then pattern_always else pt) t = true.
Proof. intros L t. destruct (Z.ltb_spec 0 d), (Z.ltb_spec 0 d'); try lia; auto. Qed.

Section Run.
Variable is_directory : str -> bool.
Variable can_read : str -> bool.
Variable glob : str -> list str.
Variable read_file : str -> option str.
Variable glob_in : workspace -> package -> list str -> list str -> list str.
Variable collect_build_files : workspace -> pattern -> list str.
Variable compilation_flags : workspace -> parsed_project -> pattern -> bool -> outcome str.
Notation run_command := (run_command is_directory can_read glob read_file glob_in collect_build_files compilation_flags).

Lemma header_rows_more pr pr' pt pt' m m' : (forall t, match_target pt t = true -> match_target pt' t = true) -> incl (pr_files pr) (pr_files pr') ->
  header_to_lib pr false = Ret m -> header_to_lib pr' false = Ret m' ->
  incl (flat_map (fun e => map (fun t => [fst e; target_to_string t]) (filter (match_target pt) (snd e))) m)
       (flat_map (fun e => map (fun t => [fst e; target_to_string t]) (filter (match_target pt') (snd e))) m').
Proof.
  intros P I Hm Hm'. assert (S := headers_sorted _ _ _ Hm). assert (S' := headers_sorted _ _ _ Hm').
  apply header_to_lib_spec in Hm as [Hm _]. apply header_to_lib_spec in Hm' as [Hm' _].
  intros row X. apply in_flat_map in X as ([k ts] & Ik & It). cbn [fst snd] in It. apply in_map_iff in It as (t & <- & It). apply filter_In in It as [It M].
  assert (X : In t (providers m k)) by (apply in_providers; eauto). apply Hm in X as (p & f & h & A & B & ->).
  assert (X : In t (providers m' h)).
  { apply Hm'. exists p, f, h. split; [auto|]. split; [|reflexivity]. clear - B I. destruct B as [rs r lib t x name h A1 A2 A3 A4 A5 A6 A7|].
    - eapply provides_library; eauto. destruct A4 as [A4|(q & g & rs' & r' & Y & Z)]; [left; exact A4|right]. exists q, g, rs', r'. auto.
    - eapply provides_proto; eauto. }
  apply in_providers in X as (ts' & Ik' & It'); auto. apply in_flat_map. exists (h, ts'). split; [exact Ik'|]. cbn [fst snd]. apply in_map_iff. exists t.
  split; [reflexivity|]. apply filter_In. auto.
Qed.

Lemma outputs_in pr m : generated_from_genrule pr false = Ret m -> forall k, In k (keys m) <->
  exists p f rs r t, In (p, f) (pr_files pr) /\ find_targets [$"genrule"] (pf_ast f) = Ret rs /\ In r rs /\ In (k, t) (outputs false f r).
Proof.
  intros E k. destruct (generated_spec _ _ _ E) as (rss & F & H).
  assert (A : In k (keys m) <-> exists t, In (k, t) (flat_map (fun x => flat_map (outputs false (snd (fst x))) (snd x)) (combine (pr_files pr) rss))).
  { rewrite in_keys. split.
    - intros (t & X). apply H in X as (a & b & -> & _). exists t. apply in_or_app. right. left. reflexivity.
    - intros (t & X). assert (Y : exists t', first_with (flat_map (fun x => flat_map (outputs false (snd (fst x))) (snd x)) (combine (pr_files pr) rss)) k t').
      2:{ destruct Y as (t' & Y). exists t'. apply H. exact Y. }
      clear - X. induction (flat_map _ (combine (pr_files pr) rss)) as [|[j u] l IH]; [destruct X|].
      destruct (str_eqb j k) eqn:Ej.
      + apply str_eqb_eq in Ej. subst. exists u, [], l. split; [reflexivity|]. intros y [].
      + destruct X as [[= -> ->]|X]; [rewrite (proj2 (str_eqb_eq k k) eq_refl) in Ej; discriminate|]. destruct (IH X) as (t' & a & b & -> & N).
        exists t', ((j, u) :: a), b. split; [reflexivity|]. intros y [[= -> ->]|Y]; [rewrite (proj2 (str_eqb_eq k k) eq_refl) in Ej; discriminate|]. exact (N _ Y). }
  rewrite A. clear - F. split.
  - intros (t & X). apply in_flat_map in X as ([[p f] rs] & I & X). cbn [fst snd] in X. apply in_flat_map in X as (r & Ir & X).
    exists p, f, rs, r, t. clear - F I Ir X. induction F as [|[q g] rs' l l' H F IH]; [destruct I|]. destruct I as [[= -> -> ->]|I].
    + split; [left; reflexivity|]. auto.
    + destruct (IH I) as (Y & Z). split; [right; exact Y|exact Z].
  - intros (p & f & rs & r & t & I & Fi & Ir & X). exists t. apply in_flat_map. exists ((p, f), rs). split; [|cbn [fst snd]; apply in_flat_map; eauto].
    clear - F I Fi. induction F as [|[q g] rs' l l' H F IH]; [destruct I|]. destruct I as [[= -> ->]|I]; [|right; auto].
    cbn [snd] in H. rewrite Fi in H. injection H as <-. left. reflexivity.
Qed.

Theorem C89_deeper : forall fl cmd pt d d' out out', In cmd table_commands -> at_least_as_deep cmd d d' -> fl_format fl = FmtCsv ->
  run_command (with_depth fl d) cmd pt = Ret (out, ExitSuccess) -> run_command (with_depth fl d') cmd pt = Ret (out', ExitSuccess) ->
  exists headers rows rows', read_csv out = Some (headers :: rows) /\ read_csv out' = Some (headers :: rows') /\ incl rows rows'.
Proof.
  intros fl cmd pt d d' out out' C D Fm E E'. apply run_spec in E as [(_ & _ & X)|(w & pr & g & P & E)]; [discriminate X|].
  apply run_spec in E' as [(_ & _ & X)|(w' & pr' & g' & P' & E')]; [discriminate X|].
  destruct (prepare_same _ _ _ _ _ _ _ _ _ _ _ _ _ _ _ _ _ P P') as (<- & pr0 & OK & G & G'). clear P P'.
  destruct (graph_at_deeper _ _ _ _ _ _ _ _ _ _ _ _ _ OK (as_deep _ _ _ D C) G G') as (OK1 & OK2 & K & I1 & I2). clear G G'.
  assert (If := keeps_files _ _ OK1 OK2 K). unfold perform in E, E'. cbn [with_depth fl_depth fl_format] in E, E'. rewrite Fm in E, E'.
  destruct C as [<-|[<-|[<-|[<-|[<-|[]]]]]]; cbn [depth_for at_least_as_deep] in *.
  - destruct (print_one_to_n _ _ (depends_on g) _ _) as [o| |] eqn:T; try discriminate. destruct (print_one_to_n _ _ (depends_on g') _ _) as [o'| |] eqn:T'; try discriminate.
    injection E as <-. injection E' as <-. apply one_to_n_rows in T. apply one_to_n_rows in T'. do 3 eexists. split; [exact T|]. split; [exact T'|].
    apply pair_rows_more; [apply wider; exact D|]. intros t ds a X Y. eauto.
  - destruct (print_one_to_n _ _ (has_dependents g) _ _) as [o| |] eqn:T; try discriminate. destruct (print_one_to_n _ _ (has_dependents g') _ _) as [o'| |] eqn:T'; try discriminate.
    injection E as <-. injection E' as <-. apply one_to_n_rows in T. apply one_to_n_rows in T'. do 3 eexists. split; [exact T|]. split; [exact T'|].
    apply pair_rows_more; [auto|]. exact I2.
  - destruct (print_packages _ pr) as [o| |] eqn:T; try discriminate. destruct (print_packages _ pr') as [o'| |] eqn:T'; try discriminate.
    injection E as <-. injection E' as <-. apply package_rows in T. apply package_rows in T'. do 3 eexists. split; [exact T|]. split; [exact T'|].
    apply incl_map. exact If.
  - destruct (print_targets _ _ pr) as [o| |] eqn:T; try discriminate. destruct (print_targets _ _ pr') as [o'| |] eqn:T'; try discriminate.
    injection E as <-. injection E' as <-. apply target_csv in T as (ops & A & T). apply target_csv in T' as (ops' & A' & T'). do 3 eexists. split; [exact T|]. split; [exact T'|].
    intros row X. apply in_flat_map in X as (op & X & Y). apply in_flat_map. exists op. split; [|exact Y]. exact (target_ops_more _ _ _ _ _ _ (wider _ _ pt D) If A A' op X).
  - destruct (header_to_lib pr false) as [m| |] eqn:H; try discriminate. destruct (header_to_lib pr' false) as [m'| |] eqn:H'; try discriminate. cbn [bind] in E, E'.
    destruct (print_provided_set _ _ _ m) as [o| |] eqn:T; try discriminate. destruct (print_provided_set _ _ _ m') as [o'| |] eqn:T'; try discriminate.
    injection E as <-. injection E' as <-. apply provided_set_rows in T. apply provided_set_rows in T'. do 3 eexists. split; [exact T|]. split; [exact T'|].
    exact (header_rows_more _ _ _ _ _ _ (wider _ _ pt D) If H H').
Qed.

(** The generated files shown are shown as well, but perhaps as made by another rule. *)
Theorem C89_generated : forall fl pt d d' out out', (d <= d')%Z -> fl_format fl = FmtCsv ->
  run_command (with_depth fl d) CGenruleOutputs pt = Ret (out, ExitSuccess) -> run_command (with_depth fl d') CGenruleOutputs pt = Ret (out', ExitSuccess) ->
  exists headers rows rows', read_csv out = Some (headers :: rows) /\ read_csv out' = Some (headers :: rows') /\
    forall file rule, In [file; rule] rows -> exists rule', In [file; rule'] rows' /\ ((d' <= 0)%Z -> rule' = rule).
Proof.
  intros fl pt d d' out out' D Fm E E'. apply run_spec in E as [(_ & _ & X)|(w & pr & g & P & E)]; [discriminate X|].
  apply run_spec in E' as [(_ & _ & X)|(w' & pr' & g' & P' & E')]; [discriminate X|].
  destruct (prepare_same _ _ _ _ _ _ _ _ _ _ _ _ _ _ _ _ _ P P') as (<- & pr0 & OK & G & G'). clear P P'. cbn [depth_for] in G, G'.
  destruct (graph_at_deeper _ _ _ _ _ _ _ _ _ _ _ _ _ OK D G G') as (OK1 & OK2 & K & I1 & I2).
  assert (If := keeps_files _ _ OK1 OK2 K). unfold perform in E, E'. cbn [with_depth fl_depth fl_format depth_for] in E, E'. rewrite Fm in E, E'.
  destruct (generated_from_genrule pr false) as [m| |] eqn:H; try discriminate. destruct (generated_from_genrule pr' false) as [m'| |] eqn:H'; try discriminate. cbn [bind] in E, E'.
  destruct (print_provided _ _ _ m) as [o| |] eqn:T; try discriminate. destruct (print_provided _ _ _ m') as [o'| |] eqn:T'; try discriminate.
  injection E as <-. injection E' as <-. apply provided_rows in T. apply provided_rows in T'. do 3 eexists. split; [exact T|]. split; [exact T'|].
  assert (Same : (d' <= 0)%Z -> pr = pr').
  { intros Dn. assert (N : forall dd q h, (dd <= 0)%Z -> graph_at can_read read_file glob_in w CGenruleOutputs pt pr0 dd q h -> q = pr0).
    { intros dd q h Ld A. unfold graph_at in A. destruct (wants_graph CGenruleOutputs && _); [|apply A]. destruct A as (todo & A). exact (depth_none _ _ _ _ _ _ _ _ _ _ OK Ld A). }
    rewrite (N _ _ _ Dn G'), (N d _ _ ltac:(lia) G). reflexivity. }
  intros file rule X. apply in_map_iff in X as ([k t] & [= <- <-] & X). apply filter_In in X as [X M]. cbn [fst snd] in *.
  destruct (Z.leb_spec d' 0) as [L|L].
  - specialize (Same L). subst pr'. rewrite H in H'. injection H' as <-. exists (target_to_string t). split; [|auto]. apply in_map_iff. exists (k, t). split; [reflexivity|].
    apply filter_In. split; [exact X|]. cbn [snd]. exact (wider _ _ pt D _ M).
  - assert (Ik : In k (keys m)) by (apply in_map_iff; exists (k, t); auto). apply (outputs_in _ _ H) in Ik as (p & f & rs & r & u & A & B).
    assert (Ik : In k (keys m')) by (apply (outputs_in _ _ H'); exists p, f, rs, r, u; auto). apply in_map_iff in Ik as ([k' t'] & Ek & Ik). cbn [fst] in Ek. subst k'.
    exists (target_to_string t'). split; [|lia]. apply in_map_iff. exists (k, t'). split; [reflexivity|]. apply filter_In. split; [exact Ik|].
    destruct (Z.ltb_spec 0 d'); [reflexivity|lia].
Qed.
End Run.
Print Assumptions C89_deeper.
Print Assumptions C89_generated.

(** Over the files of C67. *)
Definition rows_between (args : list str) (d d' : Z) : Prop := exists h rows rows',
  cli_rows d args = Some (h :: rows) /\ cli_rows d' args = Some (h :: rows') /\ length rows < length rows'.
Example C89_case : with_depth (cli_flags 7) 2 = cli_flags 2 /\
  rows_between [$"depends-on"; $"//a:x"] (-1) 0 /\ rows_between [$"depends-on"; $"//a:x"] 0 1 /\
  rows_between [$"list-p"; $"//a:x"] 0 1 /\ rows_between [$"list-t"; $"//a:x"] 0 1.
Proof. split; [reflexivity|]. repeat split; do 3 eexists; (split; [vm_compute; reflexivity|]); (split; [vm_compute; reflexivity|]); vm_compute; repeat constructor. Qed.

(** Two genrules make the same file: which of them is shown changes with the depth. *)
Definition gen_disk (name : str) : option str :=
  if str_eqb name ($"MODULE.bazel") then Some []
  else if str_eqb name ($"a/b/BUILD") then Some ($"genrule(name = ""g"", outs = [""x""])" ++ [NL] ++ $"cc_library(name = ""l"", deps = [""//a:g""])" ++ [NL])
  else if str_eqb name ($"a/BUILD") then Some ($"genrule(name = ""g"", outs = [""b/x""])" ++ [NL])
  else None.
Definition gen_run (depth : Z) : outcome (str * cli_status) :=
  run_command (fun _ => false) (fun n => match gen_disk n with Some _ => true | None => false end) (fun _ => []) gen_disk (fun w p i e => [])
    (fun _ _ => [$"a/b/BUILD"]) (fun _ _ _ _ => Ret []) (with_depth (cli_flags 0) depth) CGenruleOutputs (match parse_pattern ($"//a/b/...") with PatOk p => p | _ => pattern_always end).
Theorem C89_generated_refuted : exists out out' h rows rows', gen_run 0 = Ret (out, ExitSuccess) /\ gen_run 1 = Ret (out', ExitSuccess) /\
  read_csv out = Some (h :: rows) /\ read_csv out' = Some (h :: rows') /\
  In [$"a/b/x"; $"//a/b:g"] rows /\ ~ In [$"a/b/x"; $"//a/b:g"] rows' /\ In [$"a/b/x"; $"//a:g"] rows'.
Proof.
  do 5 eexists. split; [vm_compute; reflexivity|]. split; [vm_compute; reflexivity|]. split; [vm_compute; reflexivity|]. split; [vm_compute; reflexivity|].
  split; [left; reflexivity|]. split; [|left; reflexivity]. intros [X|[]]. discriminate X.
Qed.
Print Assumptions C89_generated_refuted.
