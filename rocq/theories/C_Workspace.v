(** Properties C28, C48 and C53: where packages are, external projects, aliases. *)
From Verif Require Import Base OMap M_Types S_Labels M_Scanner M_Ast M_Parser M_Query M_Workspace M_Project M_DepGraph
  S_DepGraph S_Workspace P_Workspace P_Project P_Count T_Parser.
Local Open Scope string_scope.
Local Open Scope list_scope.

(** C28. The BUILD file of a package is looked for in the package's directory. *)
Theorem C28_lookup : forall w can_read p d, wf_path (path p) -> dir_of w p d ->
  path_for_package w can_read p =
  if can_read (d ++ $"/BUILD") then Some (d ++ $"/BUILD")
  else if can_read (d ++ $"/BUILD.bazel") then Some (d ++ $"/BUILD.bazel") else None.
Proof. exact lookup_spec. Qed.
Print Assumptions C28_lookup.
(** The files of a package are there as well. *)
Theorem C28_file : forall w p d f, dir_of w p d -> (forall r, f <> ":"%char :: r) ->
  fully_qualified_file w p f = d ++ $"/" ++ f /\ fully_qualified_file w p ($":" ++ f) = d ++ $"/" ++ f.
Proof.
  intros w [pr pa] d f D N.
  assert (C1 : qualified_file (mkPackage pr pa) f = if is_nil pa then f else pa ++ $"/" ++ f).
  { unfold qualified_file. destruct f as [|c r]; [reflexivity|]. destruct (ceqb c ":") eqn:E; [|reflexivity]. apply ceqb_eq in E. subst. now destruct (N r). }
  assert (C2 : qualified_file (mkPackage pr pa) ($":" ++ f) = if is_nil pa then f else pa ++ $"/" ++ f) by reflexivity.
  unfold fully_qualified_file. rewrite C1, C2. clear C1 C2. cbn [project].
  destruct D as [Pr Pa|root Pr F R _ Pa|root Pr F R Pa]; cbn [project path] in *.
  - subst pr. cbn [is_nil app]. destruct pa; [congruence|]. cbn [is_nil]. auto.
  - subst pa. rewrite F. destruct pr; [congruence|]. destruct root; [congruence|]. cbn [is_nil]. rewrite <- app_assoc. auto.
  - rewrite F. destruct pr; [congruence|]. destruct root; [congruence|]. destruct pa; [congruence|]. cbn [is_nil]. rewrite <- !app_assoc. auto.
Qed.
Print Assumptions C28_file.
Theorem C28_file_top : forall w f, (forall r, f <> ":"%char :: r) -> fully_qualified_file w (mkPackage [] []) f = f.
Proof. intros w f N. unfold fully_qualified_file, qualified_file. cbn. destruct f as [|c r]; [reflexivity|]. destruct (ceqb c ":") eqn:E; [|reflexivity]. apply ceqb_eq in E. subst. now destruct (N r). Qed.
Print Assumptions C28_file_top.
(** The package of a file is that of the directory it is in, unless this starts with a
    dot. *)
Theorem C28_package : forall w p d file,
  wf_path (path p) -> (forall r, path p <> "."%char :: r) -> ~ In "/"%char file ->
  dir_of w p d -> package_of_build_file w (d ++ $"/" ++ file) (project p) = Ret (Some p).
Proof. exact package_spec. Qed.
Print Assumptions C28_package.
(** Also as seen from the current directory, ./a/BUILD. *)
Theorem C28_package_here : forall w pa pre file, wf_path pa -> (forall r, pa <> "."%char :: r) -> ~ In "/"%char file ->
  Forall (fun c => c = "."%char \/ c = "/"%char) pre ->
  package_of_build_file w ((pre ++ pa) ++ $"/" ++ file) [] = Ret (Some (mkPackage [] pa)).
Proof. exact package_main. Qed.
Print Assumptions C28_package_here.
(** So that the file found for a package belongs to that package. *)
Theorem C28_roundtrip : forall w can_read p d f,
  wf_path (path p) -> (forall r, path p <> "."%char :: r) -> dir_of w p d ->
  path_for_package w can_read p = Some f -> package_of_build_file w f (project p) = Ret (Some p).
Proof.
  intros w cr p d f W D Di. rewrite (lookup_spec w cr p d W Di).
  destruct (cr (d ++ $"/BUILD")); [|destruct (cr (d ++ $"/BUILD.bazel"))]; intros E; inversion E; subst f.
  - apply (package_spec w p d ($"BUILD")); auto. intros H. vm_compute in H. intuition discriminate.
  - apply (package_spec w p d ($"BUILD.bazel")); auto. intros H. vm_compute in H. intuition discriminate.
Qed.
Print Assumptions C28_roundtrip.
(** Nothing is read for a project that is not in the workspace. *)
Theorem C28_unknown : forall w read_file collect pt pr, pat_project pt <> [] -> find_path_by_project w (pat_project pt) = None ->
  fill_from_pattern w read_file collect pr pt = Ret pr.
Proof. intros w rf col pt pr N F. exact (add_unknown w rf _ _ N F pr). Qed.
Print Assumptions C28_unknown.
Example C28_unknown_case : find_path_by_project [(($"absl", $"1.0"), $"ext/absl~1.0")] ($"@re2") = None.
Proof. reflexivity. Qed.
(** The top package of the main project is looked for at the root of the file system. *)
Theorem C28_top_refuted : forall w can_read,
  path_for_package w can_read (mkPackage [] []) = find can_read [$"/BUILD"; $"/BUILD.bazel"].
Proof. reflexivity. Qed.
Print Assumptions C28_top_refuted.
(** A file below a directory that starts with a dot is taken for one of another
    package. *)
Theorem C28_dot_refuted : forall w,
  package_of_build_file w ($"./.foo/BUILD") [] = Ret (Some (mkPackage [] ($"foo"))) /\
  package_of_build_file w ($"./foo/BUILD") [] = Ret (Some (mkPackage [] ($"foo"))).
Proof. intros w. split; reflexivity. Qed.
Print Assumptions C28_dot_refuted.
Definition some_workspace : workspace :=
  [(($"absl", $"1.0"), $"ext/absl~1.0"); (($"absl", $"2.0"), $"ext/absl~2.0"); (($"re2", []), $"ext/re2")].
Example C28_case : dir_of some_workspace (mkPackage ($"@absl") ($"a/b")) ($"ext/absl~1.0/a/b") /\
  dir_of some_workspace (mkPackage ($"@re2") []) ($"ext/re2") /\ wf_path ($"a/b") /\
  path_for_package some_workspace (str_eqb ($"ext/absl~1.0/a/b/BUILD.bazel")) (mkPackage ($"@absl") ($"a/b")) =
    Some ($"ext/absl~1.0/a/b/BUILD.bazel").
Proof.
  split; [|split; [|split]].
  - apply (dir_external _ (mkPackage ($"@absl") ($"a/b")) ($"ext/absl~1.0")); try discriminate. reflexivity.
  - apply (dir_project _ (mkPackage ($"@re2") []) ($"ext/re2")); try discriminate; try reflexivity.
    intros r E. change ($"ext/re2") with ($"ext/re" ++ ["2"%char]) in E. apply app_inj_tail in E as [_ E]. discriminate.
  - split; [vm_compute; intuition discriminate|]. split; [discriminate|]. split.
    + intros r E. change ($"a/b") with ($"a/" ++ ["b"%char]) in E. apply app_inj_tail in E as [_ E]. discriminate.
    + intros a b E. assert (H : contains ($"//") ($"a/b") = true) by (apply contains_iff; exists a, b; exact E). discriminate.
  - reflexivity.
Qed.

(** C48. A project is found iff it is there; it is the smallest version. *)
Theorem C48_found : forall w name, msorted w -> name <> [] -> forall vp d,
  find_entry_by_project w name = Some (vp, d) <-> first_version w (bare name) vp d.
Proof. exact find_entry_spec. Qed.
Print Assumptions C48_found.
Theorem C48_not_found : forall w name, msorted w -> name <> [] ->
  (find_path_by_project w name = None <-> forall v d, ~ In ((bare name, v), d) w).
Proof. exact find_none_spec. Qed.
Print Assumptions C48_not_found.
Theorem C48_at : forall w name, name <> [] -> (forall r, name <> "@"%char :: r) ->
  find_entry_by_project w ("@"%char :: name) = find_entry_by_project w name.
Proof. exact at_irrelevant. Qed.
Print Assumptions C48_at.
(** Looking into the directory of external projects adds those not known yet and leaves
    the others alone. *)
Theorem C48_augment : forall is_directory glob w, msorted w ->
  let w' := augment_from_external_dir is_directory glob w in
  let dirs := glob (external_base_dir ++ $"/*") in
  msorted w' /\
  (forall n, (forall r, n <> "@"%char :: r) -> known w n -> forall v d, In ((n, v), d) w' <-> In ((n, v), d) w) /\
  (forall vp d, In (vp, d) w' -> In (vp, d) w \/
     In d dirs /\ is_directory d = true /\ vproject_from_dir (fs_filename d) = Some vp) /\
  (forall d vp, In d dirs -> is_directory d = true -> vproject_from_dir (fs_filename d) = Some vp ->
     (forall r, fst vp <> "@"%char :: r) -> known w' (fst vp)).
Proof. exact augment_spec. Qed.
Print Assumptions C48_augment.
(** A directory is that of project name~version, or name. *)
Theorem C48_directory : forall dir n v, vproject_from_dir dir = Some (n, v) <->
  n <> [] /\ ~ In "~"%char n /\ (dir = n ++ $"~" ++ v \/ dir = n /\ v = []).
Proof. exact from_dir_spec. Qed.
Print Assumptions C48_directory.
Theorem C48_augment_lookup : forall is_directory glob w name d, msorted w -> (forall r, bare name <> "@"%char :: r) ->
  find_path_by_project w name = Some d ->
  find_path_by_project (augment_from_external_dir is_directory glob w) name = Some d.
Proof. exact augment_lookup. Qed.
Print Assumptions C48_augment_lookup.
(** Names of projects that start with '@' are not protected. *)
Theorem C48_at_refuted : exists w glob, msorted w /\
  find_path_by_project w ($"@@x") = Some ($"here") /\
  find_path_by_project (augment_from_external_dir (fun _ => true) glob w) ($"@@x") = Some ($"there/@x").
Proof. exists [(($"@x", []), $"here")], (fun _ => [$"there/@x"]). split; [repeat constructor|]. split; reflexivity. Qed.
Print Assumptions C48_at_refuted.
Example C48_case : msorted some_workspace /\
  find_path_by_project some_workspace ($"@absl") = Some ($"ext/absl~1.0") /\
  find_path_by_project some_workspace ($"re") = None /\
  augment_from_external_dir (fun d => negb (str_eqb d ($"e/file"))) (fun _ => [$"e/absl"; $"e/new~3"; $"e/new~2"; $"e/file"; $"e/~no"]) some_workspace =
    [(($"absl", $"1.0"), $"ext/absl~1.0"); (($"absl", $"2.0"), $"ext/absl~2.0"); (($"new", $"3"), $"e/new~3"); (($"re2", []), $"ext/re2")].
Proof. split; [repeat constructor|]. repeat split; reflexivity. Qed.

(** C53. The aliases of a target are those the alias rules declare, once per rule, in
    the order of the files. *)
Theorem C53_aliases : forall pr m, extract_aliased_by pr = Ret m ->
  exists rss, Forall2 (fun pf rs => find_targets [$"alias"] (pf_ast (snd pf)) = Ret rs) (pr_files pr) rss /\
    (forall t, entry m t = flat_map (fun x => flat_map (declared_alias t (pf_package (snd (fst x)))) (snd x))
                             (combine (pr_files pr) rss)) /\
    (forall t, In t (keys m) <-> entry m t <> []).
Proof. exact aliased_by_spec. Qed.
Print Assumptions C53_aliases.
Definition alias_disk (name : str) : option str :=
  Some (nl ["alias(name = ""x"", actual = ""//a:y"")"; "alias(name = ""z"", actual = ""//a:y"")"; "cc_library(name = ""no"", actual = ""//a:y"")";
            "alias(name = ""x"", actual = ""//a:y"")"; "alias(name = ""w"", actual = ""::"")"]).
Example C53_case :
  (do pr <- run_ops [] alias_disk (fun _ => true) (fun _ _ _ => [])
      [AddFileIn ($"b/BUILD") []; AddFileIn ($"a/BUILD") []] empty_project;
   extract_aliased_by pr) =
  Ret [(mkTarget (mkPackage [] ($"a")) ($"y"),
        [mkTarget (mkPackage [] ($"a")) ($"x"); mkTarget (mkPackage [] ($"a")) ($"z"); mkTarget (mkPackage [] ($"a")) ($"x");
         mkTarget (mkPackage [] ($"b")) ($"x"); mkTarget (mkPackage [] ($"b")) ($"z"); mkTarget (mkPackage [] ($"b")) ($"x")])].
Proof. vm_compute. reflexivity. Qed.
