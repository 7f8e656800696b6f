(** Property C52: the compilation database and the compile flags. *)
From Coq Require Import ZArith Lia.
From Verif Require Import Base OMap M_Types M_Scanner M_Ast M_Query S_Query P_Query S_Elab P_Elab M_Workspace M_Project M_DepGraph S_DepGraph S_Headers P_Headers S_Table P_Table
  M_Commands S_Run P_Run M_CompDb S_CompDb P_CompDb P_CompDb2 P_Print C_Commands C_Scripts T_Parser T_Headers C_Dwyu.
Local Open Scope string_scope.
Local Open Scope list_scope.

(** * Options *)
(** Those the .bazelrc gives to the compiler, from left to right and each once. *)
Theorem C52_options : forall rc opts, bazelrc_options rc = opts <-> bazelrc_says rc opts.
Proof. intros rc opts. split; [intros <-; apply bazelrc_exact|intros H; symmetry; now apply bazelrc_unique]. Qed.
Print Assumptions C52_options.
Example C52_options_case :
  bazelrc_options (Some (nl ["build --cxxopt=-std=c++20 --host_cxxopt=-std=c++20"; "build --cxxopt '-Wall' --cxxopt=O2"; "test --define gtest absl=1"]))
    = [$"-std=c++20"; $"-Wall"; $"-DGTEST_HAS_ABSL=1"] /\
  bazelrc_options (Some (nl ["build --cxxopt ""-O3"" # --define"; "absl=1"])) = [$"-O3"].
Proof. vm_compute. split; reflexivity. Qed.

(** * Directories *)
(** Exactly what the rules ask for, in order; of things with one name the first. *)
Theorem C52_dirs : forall w pr dirs, collect_inc_dirs w pr = Ret dirs -> include_dirs w pr dirs.
Proof. exact dirs_exact. Qed.
Print Assumptions C52_dirs.
Theorem C52_dirs_unique : forall w pr dirs dirs', include_dirs w pr dirs -> include_dirs w pr dirs' -> dirs = dirs'.
Proof. exact include_unique. Qed.
Print Assumptions C52_dirs_unique.
(** Every one has a reason ... *)
Theorem C52_reason : forall w pr dirs d, include_dirs w pr dirs -> In d dirs ->
  d = $"." \/ d = $"bazel-bin" \/
  exists p r, rule_in pr p r /\ (own_dir w p r d \/ is_protobuf p /\ protobuf_dir p d \/ exists proj, needs_project p r proj /\ project_dir w proj d).
Proof. exact dirs_reason. Qed.
Print Assumptions C52_reason.
(** ... and what is needed is there, unless a directory is called like a project. *)
Theorem C52_complete : forall w pr dirs p r d, include_dirs w pr dirs -> no_clash w pr -> rule_in pr p r ->
  own_dir w p r d \/ (exists proj, needs_project p r proj /\ project_dir w proj d) -> In d dirs.
Proof. exact dirs_complete. Qed.
Print Assumptions C52_complete.
Theorem C52_protobuf : forall w pr dirs p r, include_dirs w pr dirs -> no_clash w pr -> rule_in pr p r -> is_protobuf p ->
  exists p' r', rule_in pr p' r' /\ is_protobuf p' /\ forall d, protobuf_dir p' d -> In d dirs.
Proof. exact protobuf_complete. Qed.
Print Assumptions C52_protobuf.

(** * Crashes *)
Theorem C52_defined : forall cwd rc w pr pt as_db, (forall p f, In (p, f) (pr_files pr) -> Forall sound (pf_ast f)) ->
  (write_flags cwd rc w pr pt as_db = UB <-> exists p r, rule_in pr p r /\ crashing p r) /\ write_flags cwd rc w pr pt as_db <> OutOfFuel.
Proof. exact flags_defined. Qed.
Print Assumptions C52_defined.

(** * The entries *)
(** Each file of a matching target has one entry, the first time it comes up. *)
Theorem C52_database : forall cwd rc w pr pt out, write_flags cwd rc w pr pt true = Ret out ->
  exists opts dirs l files, bazelrc_says rc opts /\ include_dirs w pr dirs /\ sources w pt (pr_files pr) l /\ collected (map itself l) files /\
    (quotable cwd -> Forall quotable opts -> Forall quotable dirs -> Forall quotable l ->
     read_value true out = Some (JArray (map (entry_for cwd opts dirs) files)) /\
     read_value false out = match files with [] => Some (JArray []) | _ => None end).
Proof.
  intros cwd rc w pr pt out E. cbn [write_flags] in E. unfold write_compilation_db in E. destruct (collect_inc_dirs w pr) as [dirs| |] eqn:D; try discriminate. cbn [bind] in E.
  destruct (write_files _ _ _ _ _ _) as [[o wr]| |] eqn:W; try discriminate. apply write_files_spec in W as (l & S & -> & _).
  exists (bazelrc_options rc), dirs, l, (unseen [] l). split; [apply bazelrc_exact|]. split; [now apply dirs_exact|]. split; [exact S|]. split; [apply unseen_all|].
  intros Q1 Q2 Q3 Q4. assert (Q5 : Forall quotable (unseen [] l)) by (rewrite Forall_forall in *; intros x X; apply Q4, (unseen_in [] l), X).
  cbn [bind] in E. match type of E with Ret ?x = _ => assert (E' : x = out) by congruence end. rewrite <- E'. now apply db_reads.
Qed.
Print Assumptions C52_database.
Theorem C52_once : forall l files, collected (map itself l) files -> NoDup files /\ forall f, In f files <-> In f l.
Proof.
  intros l files C. rewrite (collected_fun _ _ C _ (unseen_all l)). split; [apply unseen_nodup|]. intros f. rewrite unseen_in. cbn [In]. tauto.
Qed.
Print Assumptions C52_once.
(** The files are those of the matching rules. *)
Theorem C52_sources : forall w pt pr l, sources w pt (pr_files pr) l -> forall file, In file l <->
  exists p f rs r t name, In (p, f) (pr_files pr) /\ match_package pt (pf_package f) = true /\ find_targets source_kinds (pf_ast f) = Ret rs /\ In r rs /\
    named (pf_package f) r t /\ match_target pt t = true /\ (In name (texts (list_of (q_srcs r))) \/ In name (texts (list_of (q_hdrs r)))) /\
    file = fully_qualified_file w (pf_package f) name.
Proof.
  intros w pt pr. induction 1 as [|k f files l M S IH|k f files rs l M F S IH]; intros file.
  - split; [intros []|]. intros (p & f & rs & r & t & name & [] & _).
  - rewrite IH. split; intros (p & f' & rs & r & t & name & I & H); exists p, f', rs, r, t, name; (split; [|exact H]); [right; exact I|].
    destruct I as [E|I]; [|exact I]. injection E as <- <-. destruct H as (H & _). congruence.
  - rewrite in_app_iff, IH, in_flat_map. split.
    + intros [(r & R & I)|(p & f' & rs' & r & t & name & I & H)]; [|exists p, f', rs', r, t, name; split; [right; exact I|exact H]].
      unfold rule_files in I. destruct (qualified_target (pf_package f) (v_text (q_name r))) as [t|] eqn:Q; [|destruct I]. destruct (match_target pt t) eqn:MT; [|destruct I].
      apply in_map_iff in I as (name & <- & I). apply in_app_iff in I. exists k, f, rs, r, t, name. cbn [In]. auto 10.
    + intros (p & f' & rs' & r & t & name & [E|I] & H); [|right; exists p, f', rs', r, t, name; auto]. left. injection E as <- <-.
      destruct H as (_ & F' & R & N & MT & I & ->). rewrite F in F'. injection F' as <-. exists r. split; [exact R|]. unfold rule_files. unfold named in N. rewrite N, MT.
      apply in_map, in_app_iff, I.
Qed.
Print Assumptions C52_sources.
(** The other format: a line for each option and each directory. *)
Theorem C52_flags : forall cwd rc w pr pt out, write_flags cwd rc w pr pt false = Ret out ->
  exists opts dirs, bazelrc_says rc opts /\ include_dirs w pr dirs /\ out = flat_map (fun line => line ++ [NL]) (opts ++ map (fun d => $"-I" ++ d) dirs).
Proof.
  intros cwd rc w pr pt out E. cbn [write_flags] in E. unfold write_compile_flags in E. destruct (collect_inc_dirs w pr) as [dirs| |] eqn:D; try discriminate. cbn [bind] in E.
  exists (bazelrc_options rc), dirs. split; [apply bazelrc_exact|]. split; [now apply dirs_exact|].
  match type of E with Ret ?x = _ => assert (E' : x = out) by congruence end. rewrite <- E', flat_map_app. f_equal. clear.
  induction dirs as [|d dirs IH]; [reflexivity|]. cbn [flat_map map]. rewrite IH, <- app_assoc. reflexivity.
Qed.
Print Assumptions C52_flags.

(** * The commands *)
Section Run.
Variable is_directory : str -> bool.
Variable can_read : str -> bool.
Variable glob : str -> list str.
Variable read_file : str -> option str.
Variable glob_in : workspace -> package -> list str -> list str -> list str.
Variable collect_build_files : workspace -> pattern -> list str.
Variable cwd : str.
Notation run_command := (run_command is_directory can_read glob read_file glob_in collect_build_files (write_flags cwd (read_file ($".bazelrc")))).
Notation the_workspace := (the_workspace is_directory can_read glob read_file).
Notation loaded := (loaded read_file glob_in collect_build_files).
(** They use the files of the pattern and all they depend on, evaluated. *)
Theorem C52_command : forall fl cmd pt out, (cmd = CCompilationDb \/ cmd = CCompileFlags) -> run_command fl cmd pt = Ret (out, ExitSuccess) ->
  exists w pr pr', the_workspace w /\ loaded w pt true pr /\
    (exists g todo, build_graph w read_file can_read (glob_in w) pt (depth_or_all fl) pr = Ret (g, pr', todo)) /\
    exists opts dirs, bazelrc_says (read_file ($".bazelrc")) opts /\ include_dirs w pr' dirs /\
     (cmd = CCompileFlags -> out = flat_map (fun line => line ++ [NL]) (opts ++ map (fun d => $"-I" ++ d) dirs)) /\
     (cmd = CCompilationDb -> exists l files, sources w pt (pr_files pr') l /\ collected (map itself l) files /\
       (quotable cwd -> Forall quotable opts -> Forall quotable dirs -> Forall quotable l ->
        read_value true out = Some (JArray (map (entry_for cwd opts dirs) files)))).
Proof.
  intros fl cmd pt out K E. apply run_spec in E as [(_ & _ & C)|(w & pr & g & P & E)]; [discriminate C|]. apply prepare_spec in P.
  destruct P as (W & pr0 & H & G). exists w, pr0, pr. split; [exact W|].
  assert (X : (0 <=? depth_or_all fl)%Z = true) by (unfold depth_or_all; destruct (Z.leb_spec (fl_depth fl) 0); [reflexivity|apply Z.leb_le; lia]).
  assert (G' : exists g todo, build_graph w read_file can_read (glob_in w) pt (depth_or_all fl) pr0 = Ret (g, pr, todo)).
  { destruct K as [-> | ->]; cbn [wants_graph depth_for andb] in G; change (if (fl_depth fl <=? 0)%Z then INT_MAX else fl_depth fl) with (depth_or_all fl) in G;
      rewrite X in G; destruct G as (todo & B); eauto. }
  split; [destruct K as [-> | ->]; exact H|]. split; [exact G'|]. clear G G' H.
  destruct K as [-> | ->]; cbn [perform] in E.
  - destruct (write_flags cwd _ w pr pt true) as [o| |] eqn:F; try discriminate. cbn [bind] in E. apply ret_pair in E as [<- _].
    apply C52_database in F as (opts & dirs & l & files & A & B & C & D & R). exists opts, dirs. split; [exact A|]. split; [exact B|]. split; [discriminate|].
    intros _. exists l, files. split; [exact C|]. split; [exact D|]. intros. now apply R.
  - destruct (write_flags cwd _ w pr pt false) as [o| |] eqn:F; try discriminate. cbn [bind] in E. apply ret_pair in E as [<- _].
    apply C52_flags in F as (opts & dirs & A & B & C). exists opts, dirs. split; [exact A|]. split; [exact B|]. split; [auto|discriminate].
Qed.
End Run.
Print Assumptions C52_command.

(** * Cases *)
Definition db_project : parsed_project := got empty_project (test_project
  [("//p", ["cc_library(name=""a"", srcs=[""a.cc"", ""x.cc""], hdrs=[""a.h""], includes=[""inc""], deps=["":b"", ""@ext//q:z"", ""@ext//r""])";
            "cc_library(name=""b"", srcs=[""x.cc""], deps=[""@none//q""])"]);
   ("@protobuf//c", ["cc_library(name=""v"", include_prefix=""vv"")"; "proto_library(name=""d"")"])] empty_project).
Definition db_workspace : workspace := [((($"ext", $"1"), $"external/ext"))].
Definition db_pattern : pattern := got_pattern "//p:all".
Example C52_case :
  write_flags ($"/src") (Some ($"--cxxopt=-O3")) db_workspace db_project db_pattern false = Ret (nl
    ["-O3"; "-I."; "-Ibazel-bin"; "-Ip/inc"; "-Iexternal/ext"; "-Ibazel-bin/external/ext";
     "-Ibazel-bin/external/protobuf/c/_virtual_includes/v"; "-Ibazel-bin/external/protobuf/src/google/protobuf/_virtual_includes/protobuf_headers";
     "-Ibazel-bin/external/protobuf/src/google/protobuf/stubs/_virtual_includes/lite"; "-Ibazel-bin/external/protobuf/src/google/protobuf/io/_virtual_includes/io";
     "-Ibazel-bin/external/protobuf/src/google/protobuf/_virtual_includes/d"]) /\
  exists out args, write_flags ($"/src") (Some ($"--cxxopt=-O3")) db_workspace db_project db_pattern true = Ret out /\
    read_value true out = Some (JArray (map (fun f => JObject [($"file", JText f); ($"arguments", JArray (map JText (args ++ [$"-c"; f]))); ($"directory", JText ($"/src"))])
      [$"p/a.cc"; $"p/x.cc"; $"p/a.h"])) /\ read_value false out = None.
Proof.
  split; [vm_compute; reflexivity|]. eexists.
  exists (removelast (removelast (command_for [$"-O3"] (got [] (collect_inc_dirs db_workspace db_project)) ($"p/a.cc")))). split; [vm_compute; reflexivity|].
  split; vm_compute; reflexivity.
Qed.
(** It meets the condition of C52_complete: nothing is called like a project. *)
Definition db_rules (pr : parsed_project) : list (package * result) :=
  flat_map (fun e => map (fun r => (pf_package (snd e), r)) (got [] (find_targets include_kinds (pf_ast (snd e))))) (pr_files pr).
Lemma db_rules_all pr p r : rule_in pr p r -> In (p, r) (db_rules pr).
Proof.
  intros (k & f & rs & I & F & R & ->). apply in_flat_map. exists (k, f). split; [exact I|]. cbn [snd]. rewrite F. apply in_map_iff. exists r. auto.
Qed.
Definition db_own (w : workspace) (p : package) (r : result) : list str :=
  map (fully_qualified_file w p) (texts (list_of (q_includes r)))
  ++ match qualified_target p (v_text (q_name r)) with
     | Some t => [virtual_dir (project p) (path p ++ $"/_virtual_includes/" ++ tname t); virtual_dir (project p) ($"src/google/protobuf/_virtual_includes/" ++ tname t)]
     | None => []
     end
  ++ map (fun rest => virtual_dir (project p) ($"src/google/protobuf/" ++ rest))
       [$"_virtual_includes/protobuf_headers"; $"stubs/_virtual_includes/lite"; $"io/_virtual_includes/io"].
Lemma db_own_all w p r d : own_dir w p r d \/ is_protobuf p /\ protobuf_dir p d -> In d (db_own w p r).
Proof.
  intros H. unfold db_own. rewrite !in_app_iff. destruct H as [H|(_ & rest & I & ->)].
  - destruct H as [i I|t N _|t N _ _]; [left; now apply in_map| |]; right; left; unfold named in N; rewrite N; cbn [In]; auto.
  - right; right. apply in_map_iff. exists rest. auto.
Qed.
Definition db_needs (p : package) (r : result) : list str :=
  flat_map (fun label => match parse_target label p with Some t => [project (tpackage t)] | None => [] end) (texts (list_of (q_deps r))).
Lemma db_needs_all p r proj : needs_project p r proj -> In proj (db_needs p r).
Proof. intros (label & t & I & P & -> & _). apply in_flat_map. exists label. split; [exact I|]. rewrite P. left. reflexivity. Qed.
Definition db_apart (w : workspace) (pr : parsed_project) : bool :=
  let needs := flat_map (fun e => db_needs (fst e) (snd e)) (db_rules pr) in
  forallb (fun d => negb (existsb (str_eqb d) (mark :: needs))) (flat_map (fun e => db_own w (fst e) (snd e)) (db_rules pr)) && negb (existsb (str_eqb mark) needs).
Lemma db_apart_ok w pr : db_apart w pr = true -> no_clash w pr.
Proof.
  unfold db_apart. intros H. apply andb_true_iff in H as [H1 H2]. rewrite forallb_forall in H1.
  assert (N : forall p r proj, rule_in pr p r -> needs_project p r proj -> In proj (flat_map (fun e => db_needs (fst e) (snd e)) (db_rules pr))).
  { intros p r proj R D. apply in_flat_map. exists (p, r). split; [now apply db_rules_all|now apply db_needs_all]. }
  split.
  - intros p r d R D. assert (I : In d (flat_map (fun e => db_own w (fst e) (snd e)) (db_rules pr))).
    { apply in_flat_map. exists (p, r). split; [now apply db_rules_all|now apply db_own_all]. }
    specialize (H1 d I). apply negb_true_iff in H1. assert (X : ~ In d (mark :: flat_map (fun e => db_needs (fst e) (snd e)) (db_rules pr))) by (rewrite <- seen_iff; congruence).
    cbn [In] in X. split; [intros ->; auto|]. intros p' r' R' D'. apply X. right. now apply (N p' r').
  - intros p r R D. apply negb_true_iff in H2. assert (X : ~ In mark (flat_map (fun e => db_needs (fst e) (snd e)) (db_rules pr))) by (rewrite <- seen_iff; congruence).
    apply X. now apply (N p r).
Qed.
Example C52_apart_case : no_clash db_workspace db_project /\ exists p r, rule_in db_project p r /\ needs_project p r ($"@ext") /\ project_dir db_workspace ($"@ext") ($"external/ext").
Proof.
  split; [apply db_apart_ok; vm_compute; reflexivity|].
  set (f := nth 0 (pr_files db_project) (mkPackage [] [], mkFile (mkPackage [] []) [] [] [] [])).
  set (r := nth 0 (got [] (find_targets include_kinds (pf_ast (snd f)))) (empty_result NNull no_view)).
  exists (pf_package (snd f)), r. split; [|split].
  - exists (fst f), (snd f). eexists. split; [vm_compute; auto|]. split; [vm_compute; reflexivity|]. split; [vm_compute; auto|reflexivity].
  - exists ($"@ext//q:z"), (mkTarget (mkPackage ($"@ext") ($"q")) ($"z")). vm_compute. repeat split; auto; discriminate.
  - exists ($"external/ext"). vm_compute. auto.
Qed.
(** It is needed: a directory @ext in the top package hides the project @ext. *)
Definition clash_project : parsed_project := got empty_project (test_project
  [("//", ["cc_library(name=""a"", includes=[""@ext""], deps=[""@ext//q:z""])"])] empty_project).
Example C52_clash_refuted : ~ forall w pr dirs p r d, include_dirs w pr dirs -> rule_in pr p r ->
  own_dir w p r d \/ (exists proj, needs_project p r proj /\ project_dir w proj d) -> In d dirs.
Proof.
  intros H. assert (E : exists dirs, collect_inc_dirs db_workspace clash_project = Ret dirs /\ ~ In ($"external/ext") dirs).
  { eexists. split; [vm_compute; reflexivity|]. cbn [In]. intros X. repeat (destruct X as [X|X]; [discriminate X|]). exact X. }
  destruct E as (dirs & E & N). apply N. clear N. apply dirs_exact in E.
  set (f := nth 0 (pr_files clash_project) (mkPackage [] [], mkFile (mkPackage [] []) [] [] [] [])).
  set (r := nth 0 (got [] (find_targets include_kinds (pf_ast (snd f)))) (empty_result NNull no_view)).
  apply (H db_workspace clash_project dirs (pf_package (snd f)) r _ E).
  - exists (fst f), (snd f). eexists. split; [vm_compute; auto|]. split; [vm_compute; reflexivity|]. split; [vm_compute; auto|reflexivity].
  - right. exists ($"@ext"). split; [|exists ($"external/ext"); vm_compute; auto].
    exists ($"@ext//q:z"), (mkTarget (mkPackage ($"@ext") ($"q")) ($"z")). vm_compute. repeat split; auto; discriminate.
Qed.
(** A library of the main project with an include_prefix: no output but an exception. *)
Definition prefix_project : parsed_project := got empty_project (test_project
  [("//p", ["cc_library(name=""a"", srcs=[""a.cc""], include_prefix=""x"")"])] empty_project).
Theorem C52_crash_refuted : ~ forall cwd rc w pr pt as_db, (forall p f, In (p, f) (pr_files pr) -> Forall sound (pf_ast f)) ->
  (forall p r, rule_in pr p r -> v_text (q_name r) = $"a") -> exists out, write_flags cwd rc w pr pt as_db = Ret out.
Proof.
  intros H. assert (F : exists f, pr_files prefix_project = [(mkPackage [] ($"p"), f)] /\ Forall sound (pf_ast f)).
  { eexists. split; [vm_compute; reflexivity|]. cbn [pf_ast]. repeat constructor. }
  destruct F as (f & F & S).
  assert (N : Forall (fun e => v_text (q_name (snd e)) = $"a") (db_rules prefix_project)) by (vm_compute; repeat constructor).
  assert (U : write_flags [] None [] prefix_project pattern_always true = UB) by (vm_compute; reflexivity).
  destruct (H [] None [] prefix_project pattern_always true) as (out & E); [| |congruence].
  - intros p f' I. rewrite F in I. destruct I as [I|[]]. injection I as _ <-. exact S.
  - intros p r R. apply db_rules_all in R. rewrite Forall_forall in N. exact (N (p, r) R).
Qed.
Print Assumptions C52_crash_refuted.
(** A text with a quote is not readable. *)
Example C52_quote_case : exists out, write_flags ($"/") None [] (example_project ["cc_library(name=""a"", srcs=['x"".cc'])"]) (got_pattern "//p:all") true = Ret out /\
  read_value true out = None.
Proof. eexists. split; [vm_compute; reflexivity|]. vm_compute. reflexivity. Qed.
