(** Properties C52, C61, C62 and C70 in a whole file system: what the commands are given there. *)
From Coq Require Import NArith ZArith.
From Verif Require Import Base OMap M_Types M_Scanner M_Ast M_Parser M_Query M_Workspace M_Project M_DepGraph M_Walk S_Walk P_GlobFiles M_CompDb S_CompDb M_Commands M_System S_Run S_Table P_Table S_Order P_Order
  T_Walk C_Walk C_Commands C_Scripts C_CompDb C_Order S_Total P_Total C_Packages C_Total.
Local Open Scope string_scope.
Local Open Scope list_scope.

(** glob() in a file of a run gives the files below the package that are selected. *)
Theorem C61_run : forall fs inodes fuel w p incl excl, proper_names (fs_list fs) -> inodes_are fs inodes -> length inodes < fuel ->
  let dir := fully_qualified_file w p ($".") in
  let names := globbed_files fuel fs w p incl excl in
  (forall n, In n names -> below (fs_list fs) (fs_stat fs) dir n /\ selected incl excl n) /\ NoDup names /\
  (one_path_each (fs_list fs) (fs_stat fs) all_dirs dir -> forall n, below (fs_list fs) (fs_stat fs) dir n -> ~ In NL (dir ++ "/"%char :: n) -> selected incl excl n -> In n names).
Proof.
  intros fs inodes fuel w p incl excl P F L dir names. destruct (C73_walks fs inodes fuel w pattern_always p incl excl P F L) as (_ & l & G & E).
  unfold names. rewrite E. exact (C61_glob (fs_list fs) (fs_stat fs) fuel w p incl excl l P G).
Qed.
Print Assumptions C61_run.
(** The BUILD files of a run are those of C62. *)
Theorem C62_run : forall fs inodes fuel w pt, proper_names (fs_list fs) -> inodes_are fs inodes -> length inodes < fuel ->
  (forall f, In f (found_build_files fuel fs w pt) -> has_build_file fs w pt f) /\
  (no_second_way fs w pt -> forall f, has_build_file fs w pt f -> In f (found_build_files fuel fs w pt)).
Proof.
  intros fs inodes fuel w pt P F L. split.
  - intros f. unfold found_build_files. destruct (M_Walk.collect_build_files (fs_list fs) (fs_stat fs) (fs_link fs) fuel w pt) as [l| |] eqn:E; [|intros []..].
    intros I. apply in_map_iff in I as (x & <- & I). destruct (collect_build_spec _ _ _ _ _ _ _ E) as [(_ & ->)|(root & S & A & _)]; [destruct I|].
    apply A in I. destruct I as (d & e & B & Fe & N & X). exists root, d, e. rewrite X. auto.
  - intros U f H.
    assert (R : forall d, match fs_list fs d, fs_list fs d with Some l1, Some l2 => Permutation.Permutation l1 l2 | None, None => True | _, _ => False end)
      by (intros d; destruct (fs_list fs d); [apply Permutation.Permutation_refl|exact Logic.I]).
    pose proof (found_order fs (fs_list fs) R P inodes F fuel L w pt U) as (_ & X). apply X. exact H.
Qed.
Print Assumptions C62_run.
(** The directories of external projects in a run are directories. *)
Theorem C70_run : forall fs r, load_workspace (is_dir fs) (fs_can_read fs) (fs_glob fs) (fs_content fs) = Ret r ->
  (forall d, is_dir fs d = true <-> exists inode, fs_stat fs d = Some (inode, true)) /\
  exists decls, declarations (fs_content fs) [$"WORKSPACE"; $"WORKSPACE.bazel"; $"WORKSPACE.bzlmod"; $"MODULE.bazel"] decls /\
    forall w, r = Some w -> external_projects (is_dir fs) (fs_can_read fs) (fs_glob fs) decls w.
Proof.
  intros fs r E. split.
  - intros d. unfold is_dir, M_Walk.is_directory, path_of. cbn [fp_dir fp_path]. destruct (fs_stat fs d) as [[i b]|].
    + split; [intros ->; eauto|intros (j & X)]. now injection X as _ ->.
    + split; [discriminate|intros (j & X); discriminate].
  - destruct (C_Commands.C70_load _ _ _ _ _ E) as (decls & D & _ & X). eauto.
Qed.
Print Assumptions C70_run.
(** compilation-db and compile-flags in a run. *)
Theorem C52_run : forall fuel fs fl cmd pt out, (cmd = CCompilationDb \/ cmd = CCompileFlags) -> run_here fuel fs fl cmd pt = Ret (out, ExitSuccess) ->
  exists w pr pr', the_workspace (is_dir fs) (fs_can_read fs) (fs_glob fs) (fs_content fs) w /\ C_Commands.loaded (fs_content fs) (globbed_files fuel fs) (found_build_files fuel fs) w pt true pr /\
    (exists g todo, build_graph w (fs_content fs) (fs_can_read fs) (globbed_files fuel fs w) pt (depth_or_all fl) pr = Ret (g, pr', todo)) /\
    exists opts dirs, bazelrc_says (fs_content fs ($".bazelrc")) opts /\ include_dirs w pr' dirs /\
     (cmd = CCompileFlags -> out = flat_map (fun line => line ++ [NL]) (opts ++ map (fun d => $"-I" ++ d) dirs)) /\
     (cmd = CCompilationDb -> exists l files, sources w pt (pr_files pr') l /\ collected (map itself l) files /\
       (quotable (fs_cwd fs) -> Forall quotable opts -> Forall quotable dirs -> Forall quotable l ->
        read_value true out = Some (JArray (map (entry_for (fs_cwd fs) opts dirs) files)))).
Proof.
  intros fuel fs. exact (C52_command (is_dir fs) (fs_can_read fs) (fs_glob fs) (fs_content fs) (globbed_files fuel fs) (found_build_files fuel fs) (fs_cwd fs)).
Qed.
Print Assumptions C52_run.
(** * Cases *)
(** compile-flags with a .bazelrc. *)
Definition flags_files : list (str * str) :=
  [($"MODULE.bazel", []); ($".bazelrc", $"build --cxxopt=-std=c++20"); ($"./a/BUILD", $"cc_library(name = ""x"", srcs = glob([""*.cc""]), includes = [""inc""])")].
Definition flags_fs : file_system :=
  some_fs [($".", [mkEntry ($"a") DtDir 11; file ($"MODULE.bazel")]); ($"./a", [file ($"BUILD"); file ($"x.cc")]); ($"a/.", [file ($"BUILD"); file ($"x.cc")])] [] [] flags_files.
Example C52_run_case : proper_names (fs_list flags_fs) /\ inodes_are flags_fs [11%N] /\
  globbed_files 9 flags_fs [] (mkPackage [] ($"a")) [$"*.cc"] [] = [$"x.cc"] /\ found_build_files 9 flags_fs [] pattern_always = [$"./a/BUILD"] /\
  run_here 9 flags_fs deep CCompileFlags pattern_always = Ret ($"-std=c++20" ++ [NL] ++ $"-I." ++ [NL] ++ $"-Ibazel-bin" ++ [NL] ++ $"-Ia/inc" ++ [NL], ExitSuccess).
Proof.
  split; [apply proper_table_ok; vm_compute; reflexivity|]. split; [|split; [|split]; vm_compute; reflexivity].
  intros d e i D. apply dirs_of_table in D. vm_compute in D. destruct D as [<-|[]]. split; [split; discriminate|now left].
Qed.
(** The directory of an external project. *)
Example C70_run_case : exists w, load_workspace (is_dir foo_fs) (fs_can_read foo_fs) (fs_glob foo_fs) (fs_content foo_fs) = Ret (Some w) /\ w <> [].
Proof. eexists. split; [vm_compute; reflexivity|discriminate]. Qed.
