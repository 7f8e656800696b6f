(** Property C72: the order in which the operating system lists directories does not matter. *)
From Coq Require Import NArith Permutation.
From Verif Require Import Base OMap M_Types M_Scanner M_Ast M_Parser M_Query M_Elab M_Workspace M_Project M_Walk S_Walk P_GlobFiles S_Run M_Table M_Highlight M_Commands M_System
  S_Order P_Order T_Walk.
Local Open Scope string_scope.
Local Open Scope list_scope.

(** A walk finds the same files, in some order; ... *)
Theorem C72_walk : forall list1 list2 stat want_dir want_file root fuel fuel' files files', same_listing list1 list2 ->
  proper_names list1 -> one_path_each list1 stat want_dir root ->
  collect_files_recursive list1 stat want_dir want_file fuel root = Ret files ->
  collect_files_recursive list2 stat want_dir want_file fuel' root = Ret files' -> Permutation files files'.
Proof. intros list1 list2 stat wd wf root fuel fuel' files files' S. exact (walk_order list1 list2 stat S wd wf root fuel fuel' files files'). Qed.
Print Assumptions C72_walk.
(** ... and so does glob(). *)
Theorem C72_glob : forall list1 list2 stat fuel fuel' w p incl excl names names', same_listing list1 list2 -> proper_names list1 ->
  one_path_each list1 stat all_dirs (fully_qualified_file w p ($".")) ->
  glob_files list1 stat fuel w p incl excl = Ret names -> glob_files list2 stat fuel' w p incl excl = Ret names' -> Permutation names names'.
Proof. exact glob_order. Qed.
Print Assumptions C72_glob.
(** Every command prints the same and has the same exit status, in a file system with finitely many
    directories, if glob() is not used, no directory is reached in two ways and no package has two BUILD
    files. *)
Theorem C72_runs : forall fs l inodes fuel fl args, same_listing (fs_list fs) l -> proper_names (fs_list fs) ->
  inodes_are fs inodes -> length inodes < fuel -> without_glob fs ->
  (forall w pt, the_workspace (is_dir fs) (fs_can_read fs) (fs_glob fs) (fs_content fs) w ->
     pt = pattern_always \/ (exists arg, In arg (tl args) /\ parse_pattern arg = PatOk pt) -> no_second_way fs w pt /\ one_file_each fs w pt) ->
  run_in fuel (listed_as fs l) fl args = run_in fuel fs fl args.
Proof. intros fs l inodes fuel fl args S P F L. exact (run_in_order fs l S P inodes F fuel L fl args). Qed.
Print Assumptions C72_runs.
(** The latter is so for the packages of the main project if no directory has both BUILD and BUILD.bazel,
    except for directories whose names begin with a dot. *)
Theorem C72_packages : forall fs w pt, proper_names (fs_list fs) ->
  pat_project pt = [] -> (forall r, pat_path pt <> "."%char :: r) -> (forall r, pat_path pt <> "/"%char :: r) ->
  (forall f r, has_build_file fs w pt f -> f <> $"./." ++ r) ->
  (forall d e e', file_entry (fs_list fs) (fs_stat fs) d e -> file_entry (fs_list fs) (fs_stat fs) d e' -> d_name e = $"BUILD" -> d_name e' <> $"BUILD.bazel") ->
  one_file_each fs w pt.
Proof. intros fs w pt P. exact (apart fs P w pt). Qed.
Print Assumptions C72_packages.

(** * Cases *)
Definition some_fs (t : table) (s : list (str * (N * bool))) (links : list str) (c : list (str * str)) : file_system :=
  mkFs (lookup t) (lookup s) (fun p => existsb (str_eqb p) links) (fun p => match lookup c p with Some _ => true | None => false end)
    (fun _ => []) (lookup c) ($"/w").
Definition file (n : str) : dirent := mkEntry n DtOther 50.
Definition ab_listed (l : list dirent) : table := [($".", l); ($"./a", [file ($"BUILD")]); ($"./b", [file ($"BUILD.bazel")])].
Definition a_then_b : table := ab_listed [mkEntry ($"a") DtDir 11; file ($"MODULE.bazel"); mkEntry ($"b") DtDir 12].
Definition b_then_a : table := ab_listed [mkEntry ($"b") DtDir 12; mkEntry ($"a") DtDir 11; file ($"MODULE.bazel")].
Definition ab_contents : list (str * str) :=
  [($"MODULE.bazel", []); ($"./a/BUILD", $"cc_library(name = ""x"", deps = [""//b:y""])"); ($"./b/BUILD.bazel", $"cc_library(name = ""y"")")].
Definition csv : flags := mkFlags false false false false 0 FmtCsv NoGrep false.
Definition output (fs : file_system) (args : list str) : option str :=
  match run_in 9 fs csv args with Some (Ret (out, ExitSuccess)) => Some out | _ => None end.
Lemma dirs_of_table t s c links d e i : dir_entry (fs_list (some_fs t s links c)) (fs_stat (some_fs t s links c)) d e i ->
  In i (map (fun x => snd (entry_dir (lookup s) (fst x) (snd x))) (filter (fun x => fst (entry_dir (lookup s) (fst x) (snd x))) (all_entries t))).
Proof.
  intros D. pose proof (proj1 D) as E. pose proof (proj2 (P_Walk.entry_dir_true _ _ d e i E) D) as X. cbn in X. apply in_map_iff. exists (d, e). cbn [fst snd]. rewrite X. split; auto.
  apply filter_In. cbn [fst snd]. rewrite X. split; auto. destruct E as ((l & L & I) & _). apply lookup_in in L. unfold all_entries. apply in_flat_map. exists (d, l). split; auto. cbn. now apply in_map.
Qed.
Definition cab := some_fs a_then_b [] [] ab_contents.
Lemma cab_finite : inodes_are cab [11%N; 12%N].
Proof. intros d e i D. apply dirs_of_table in D. cbn in D. destruct D as [<-|[<-|[]]]; (split; [split; discriminate|cbn; auto]). Qed.
Lemma cab_proper : proper_names (fs_list cab).
Proof. apply proper_table_ok. vm_compute. reflexivity. Qed.
Lemma cab_listing : same_listing (fs_list cab) (lookup b_then_a).
Proof.
  intros d. cbn [fs_list cab some_fs]. unfold lookup, a_then_b, b_then_a, ab_listed. cbn [find fst]. destruct (str_eqb ($".") d).
  - cbn. apply Permutation_sym. change (Permutation ([mkEntry ($"b") DtDir 12] ++ [mkEntry ($"a") DtDir 11; file ($"MODULE.bazel")]) ([mkEntry ($"a") DtDir 11; file ($"MODULE.bazel")] ++ [mkEntry ($"b") DtDir 12])). apply Permutation_app_comm.
  - destruct (str_eqb ($"./a") d); [cbn; auto|]. destruct (str_eqb ($"./b") d); cbn; auto.
Qed.
Lemma cab_one_way w pt : no_second_way cab w pt.
Proof. intros root d e d' e' i _ _ _ D D'. apply (unique_dirs_paths a_then_b [] d e d' e' i); auto. Qed.
Lemma cab_one_file w pt : pat_project pt = [] -> pat_path pt = [] -> is_recursive pt = true -> one_file_each cab w pt.
Proof.
  intros P Q R. apply C72_packages; auto; rewrite ?Q; try discriminate.
  - exact cab_proper.
  - intros f r H E. apply (found_order cab _ cab_listing cab_proper _ cab_finite 9 ltac:(cbn; lia) w pt (cab_one_way w pt)) in H.
    unfold found_build_files, M_Walk.collect_build_files, search_dir in H. rewrite P, Q, R in H. vm_compute in H. subst f. destruct H as [H|[H|[]]]; discriminate H.
  - intros d e e' ((( l & L & I) & _) & _) (((l' & L' & I') & _) & _) N N'. assert (l' = l) as -> by congruence. apply lookup_in in L.
    destruct L as [L|[L|[L|[]]]]; injection L as <- <-; cbn in I, I'.
    + destruct I as [<-|[<-|[<-|[]]]]; discriminate N.
    + destruct I' as [<-|[]]; discriminate N'.
    + destruct I as [<-|[]]; discriminate N.
Qed.
Example C72_case : same_listing (fs_list cab) (lookup b_then_a) /\ proper_names (fs_list cab) /\ inodes_are cab [11%N; 12%N] /\ without_glob cab /\
  (forall w pt, the_workspace (is_dir cab) (fs_can_read cab) (fs_glob cab) (fs_content cab) w ->
     pt = pattern_always \/ (exists arg, In arg (tl [$"depends-on"; $"//..."]) /\ parse_pattern arg = PatOk pt) -> no_second_way cab w pt /\ one_file_each cab w pt) /\
  found_build_files 9 cab [] pattern_always = [$"./a/BUILD"; $"./b/BUILD.bazel"] /\
  found_build_files 9 (listed_as cab (lookup b_then_a)) [] pattern_always = [$"./b/BUILD.bazel"; $"./a/BUILD"] /\
  output cab [$"depends-on"; $"//..."] = Some ($"""library"",""depends-on""" ++ [NL] ++ $"""//a:x"",""//b:y""" ++ [NL]).
Proof.
  split; [exact cab_listing|]. split; [exact cab_proper|]. split; [exact cab_finite|]. split; [|split; [|split; [|split]]].
  - intros f content R X. apply contains_iff in X. apply lookup_in in R. destruct R as [R|[R|[R|[]]]]; injection R as <- <-; vm_compute in X; discriminate X.
  - intros w pt _ H. split; [apply cab_one_way|]. assert (K : pt = pattern_always \/ pt = mkPattern (mkTarget (mkPackage [] []) []) KRecursive).
    { destruct H as [->|(arg & [<-|[]] & E)]; [auto|]; vm_compute in E; injection E as <-; auto. }
    destruct K as [-> | ->]; apply cab_one_file; reflexivity.
  - vm_compute. reflexivity.
  - vm_compute. reflexivity.
  - vm_compute. reflexivity.
Qed.

(** The conditions are needed: the other order gives other output if a directory has both BUILD and
    BUILD.bazel (the one listed first is used); if names of directories differ by a dot in the beginning;
    if there is a link to a directory; and if glob() is used. *)
Lemma reversed_pair dir x y (rest : table) : same_listing (lookup ((dir, [x; y]) :: rest)) (lookup ((dir, [y; x]) :: rest)).
Proof.
  intros d. unfold lookup. cbn [find fst]. destruct (str_eqb dir d).
  - cbn. constructor.
  - destruct (find (fun x => str_eqb (fst x) d) rest) as [[k v]|]; cbn; auto.
Qed.
Definition order_matters (dir : str) (x y : dirent) (rest : table) (s : list (str * (N * bool))) (links : list str) (c : list (str * str)) (fl : flags) (args : list str) : Prop :=
  let fs := some_fs ((dir, [x; y]) :: rest) s links (($"MODULE.bazel", []) :: c) in
  let fs' := listed_as fs (lookup ((dir, [y; x]) :: rest)) in
  same_listing (fs_list fs) (fs_list fs') /\ proper_names (fs_list fs) /\
  exists out out', run_in 9 fs fl args = Some (Ret (out, ExitSuccess)) /\ run_in 9 fs' fl args = Some (Ret (out', ExitSuccess)) /\ out <> out'.
Definition lib (n : str) : str := $"cc_library(name = """ ++ n ++ $""")".
Definition evaluated : flags := mkFlags false false true false 0 FmtCsv NoGrep false.
Theorem C72_exceptions_refuted :
  order_matters ($".") (file ($"BUILD")) (file ($"BUILD.bazel")) [] [] [] [($"./BUILD", lib ($"x")); ($"./BUILD.bazel", lib ($"y"))] csv [$"list-targets"; $"//..."] /\
  order_matters ($".") (mkEntry ($"a") DtDir 11) (mkEntry ($".a") DtDir 12) [($"./a", [file ($"BUILD")]); ($"./.a", [file ($"BUILD")])] [] []
    [($"./a/BUILD", lib ($"x")); ($"./.a/BUILD", lib ($"y"))] csv [$"list-targets"; $"//..."] /\
  order_matters ($".") (mkEntry ($"a") DtLnk 13) (mkEntry ($"b") DtDir 12) [($"./b", [file ($"BUILD")])] [($"./a", (12%N, true))] [$"./a"]
    [($"./b/BUILD", lib ($"x"))] csv [$"list-targets"; $"//..."] /\
  order_matters ($"b/.") (file ($"x.cc")) (file ($"y.cc")) [($"b", [file ($"BUILD"); file ($"x.cc"); file ($"y.cc")])] [] []
    [($"b/BUILD", $"cc_library(name = ""x"", srcs = glob([""*.cc""]))")] evaluated [$"print"; $"//b:x"].
Proof.
  split; [|split; [|split]];
  (split; [apply reversed_pair|]; split; [apply proper_table_ok; vm_compute; reflexivity|]; eexists; eexists; split; [vm_compute; reflexivity|]; split; [vm_compute; reflexivity|]; discriminate).
Qed.
Print Assumptions C72_exceptions_refuted.
