(** Property C88: what list-packages lists. *)
From Coq Require Import NArith ZArith Lia.
From Verif Require Import Base OMap M_Types M_Ast M_Workspace M_Project M_Walk S_Walk M_Table S_Table M_Commands M_System S_Order T_Walk C_Walk C_Order S_Packages P_Packages.
Local Open Scope string_scope. Local Open Scope list_scope.

Definition run_here (fuel : nat) (fs : file_system) : flags -> command -> pattern -> outcome (str * cli_status) :=
  run_command (is_dir fs) (fs_can_read fs) (fs_glob fs) (fs_content fs) (globbed_files fuel fs) (found_build_files fuel fs) (flags_output fs).
(** The labels in the rows of the table. *)
Definition labels (rows : list (list str)) : list str := map (fun row => nth 1 row []) rows.

(** C88: for a pattern of the main project, if dependencies are not followed, there is exactly one row
    for every directory with a BUILD file: those that are there, with a file of it and its label. *)
Theorem C88_packages : forall fs inodes fuel fl pt out,
  proper_names (fs_list fs) -> inodes_are fs inodes -> length inodes < fuel ->
  fl_format fl = FmtCsv -> (fl_depth fl <= 0)%Z ->
  pat_project pt = [] -> plain_start (pat_path pt) -> one_way fs (start_of (pat_path pt)) ->
  (forall names, package_dir fs (is_recursive pt) (start_of (pat_path pt)) names -> not_hidden (pat_path pt) names) ->
  run_here fuel fs fl CListPackages pt = Ret (out, ExitSuccess) ->
  exists rows, read_csv out = Some ([$"bazel-file"; $"package"] :: rows) /\ NoDup (labels rows) /\
    (forall row, In row rows -> exists names file, package_dir fs (is_recursive pt) (start_of (pat_path pt)) names /\
       build_file fs (at_path (start_of (pat_path pt)) names) file /\ row = [file; label_at (pat_path pt) names]) /\
    forall names file, package_dir fs (is_recursive pt) (start_of (pat_path pt)) names ->
      build_file fs (at_path (start_of (pat_path pt)) names) file -> In (label_at (pat_path pt) names) (labels rows).
Proof.
  intros fs inodes fuel fl pt out Pn Fi En Fm D Pj Ps O H E.
  destruct (packages_listed fs Pn inodes Fi fuel En fl pt out Fm D Pj Ps O H E) as (pr & (S & A & B) & R).
  eexists. split; [exact R|]. split; [|split].
  - unfold labels. rewrite map_map. cbn [nth].
    assert (K : forall e e', In e (pr_files pr) -> In e' (pr_files pr) -> package_to_string (fst e) = package_to_string (fst e') -> fst e = fst e').
    { intros [[pj q] f] [[pj' q'] f'] I I' X. destruct (A _ _ I) as (Z & _), (A _ _ I') as (Z' & _). cbn [project] in Z, Z'. subst.
      unfold package_to_string in X. cbn in X. injection X as ->. reflexivity. }
    clear - S K. apply ssorted_nodup in S. unfold keys in S. induction (pr_files pr) as [|e l IH]; [constructor|]. cbn [map] in *. inversion S as [|x y N S']. subst. constructor.
    + intros I. apply in_map_iff in I as (e' & X & I). apply N. apply in_map_iff. exists e'. split; [|exact I]. apply K; [now right|now left|exact X].
    + apply IH; [exact S'|]. intros a b I I'. apply K; now right.
  - intros row I. apply in_map_iff in I as ([p f] & <- & I). destruct (A _ _ I) as (_ & names & P & Bf & L). exists names, (pf_name f).
    split; [exact P|]. split; [exact Bf|]. cbn [fst snd]. rewrite L. reflexivity.
  - intros names file P Bf. destruct (B names file P Bf) as (p & f & I & L). unfold labels. rewrite map_map. cbn [nth]. apply in_map_iff. exists (p, f). auto.
Qed.
Print Assumptions C88_packages.

(** C88: with a directory, list-packages lists the part of all packages that is there and below. *)
Theorem C88_part : forall fs inodes fuel fl fl' pt pt' out out' rows rows' n ns,
  proper_names (fs_list fs) -> inodes_are fs inodes -> length inodes < fuel -> here_is_here fs ->
  fl_format fl = FmtCsv -> (fl_depth fl <= 0)%Z -> fl_format fl' = FmtCsv -> (fl_depth fl' <= 0)%Z ->
  pat_project pt = [] -> pat_path pt = [] -> is_recursive pt = true ->
  pat_project pt' = [] -> pat_path pt' = at_path n ns -> is_recursive pt' = true ->
  plain_start (at_path n ns) -> package_dir fs true ($".") (n :: ns) -> one_way fs ($".") ->
  (forall names, package_dir fs true ($".") names -> not_hidden [] names) ->
  run_here fuel fs fl CListPackages pt = Ret (out, ExitSuccess) -> read_csv out = Some ([$"bazel-file"; $"package"] :: rows) ->
  run_here fuel fs fl' CListPackages pt' = Ret (out', ExitSuccess) -> read_csv out' = Some ([$"bazel-file"; $"package"] :: rows') ->
  forall label, In label (labels rows') <->
    In label (labels rows) /\ (label = $"//" ++ at_path n ns \/ exists r, label = $"//" ++ at_path n ns ++ "/"%char :: r).
Proof.
  intros fs inodes fuel fl fl' pt pt' out out' rows rows' n ns Pn Fi En He Fm D Fm' D' Pj Pp Pr Pj' Pp' Pr' Pl Re O H E R E' R' label.
  pose proof (a_start fs Pn n ns Pl Re) as As.
  destruct (C88_packages fs inodes fuel fl pt out) as (rs & Rs & _ & A & B); auto.
  { rewrite Pp. split; [intros [|]; discriminate|]. split; discriminate. } { rewrite Pp. exact O. } { rewrite Pp, Pr. exact H. }
  destruct (C88_packages fs inodes fuel fl' pt' out') as (rs' & Rs' & _ & A' & B'); auto.
  { rewrite Pp'. exact Pl. } { rewrite Pp', As. exact (part_one_way fs Pn He n ns Pl Re O). }
  { rewrite Pp'. intros names _ X. elim (a_some fs Pn n ns Pl Re X). }
  rewrite R in Rs. injection Rs as <-. rewrite R' in Rs'. injection Rs' as <-. rewrite Pp, Pr in A, B. rewrite Pp', Pr', As in A', B'. cbn [start_of] in A, B.
  assert (At : forall names, at_path (at_path n ns) names = at_path n ns \/ exists r, at_path (at_path n ns) names = at_path n ns ++ "/"%char :: r).
  { intros [|x names]; [left; reflexivity|right]. rewrite (at_slashed (x :: names)). exists (x ++ slashed names). reflexivity. }
  assert (Lb : forall names, label_at (at_path n ns) names = $"//" ++ at_path (at_path n ns) names).
  { intros names. unfold label_at. pose proof (a_some fs Pn n ns Pl Re) as N. destruct (at_path n ns); [congruence|reflexivity]. }
  split.
  - intros I. unfold labels in I. apply in_map_iff in I as (row & <- & I). destruct (A' row I) as (names & file & P & Bf & ->). cbn [nth]. split.
    + rewrite part_label with (fs := fs); auto.
      apply (B _ ($"./" ++ file)); [now apply below_dot|]. apply part_file; auto. exists file. auto.
    + rewrite Lb. destruct (At names) as [-> | (r & ->)]; [left; reflexivity|right; exists r; reflexivity].
  - intros (I & X). unfold labels in I. apply in_map_iff in I as (row & <- & I). destruct (A row I) as (names & file & P & Bf & ->). cbn [nth] in *.
    assert (Y : exists rest, names = (n :: ns) ++ rest).
    { pose proof (names_slash fs _ _ _ Pn Re) as F. pose proof (names_slash fs _ _ _ Pn P) as F'.
      destruct names as [|n' ns'].
      - exfalso. unfold label_at in X. pose proof (a_some fs Pn n ns Pl Re) as N. destruct X as [X|(r & X)]; apply app_inv_head in X; cbn in X; destruct (at_path n ns); congruence || discriminate.
      - unfold label_at in X. destruct X as [X|(r & X)]; apply app_inv_head in X.
        + apply (prefix_names ns ns' n n' []); auto; [exact Logic.I|]. rewrite app_nil_r. exact X.
        + apply (prefix_names ns ns' n n' ("/"%char :: r)); auto. reflexivity. }
    destruct Y as (rest & ->). rewrite <- part_label with (fs := fs); auto.
    assert (P' : package_dir fs true (at_path n ns) rest) by now apply dot_below.
    apply part_file in Bf as (f' & _ & Bf); auto. exact (B' rest f' P' Bf).
Qed.
Print Assumptions C88_part.

(** * Cases *)
(** A file system in which ./ in front of a path does not matter. *)
Fixpoint from_here (p : str) : str :=
  match p with
  | "."%char :: "/"%char :: ((_ :: _) as r) => from_here r
  | _ => p
  end.
Lemma from_here_again p : p <> [] -> from_here ($"./" ++ p) = from_here p.
Proof. destruct p; [congruence|reflexivity]. Qed.
Definition rooted (t : table) (c : list (str * str)) : file_system :=
  mkFs (fun p => lookup t (from_here p)) (fun _ => None) (fun _ => false)
    (fun p => match lookup c (from_here p) with Some _ => true | None => false end) (fun _ => []) (fun p => lookup c (from_here p)) ($"/w").
Lemma rooted_here t c : here_is_here (rooted t c).
Proof. intros p N. cbn [rooted fs_list fs_stat fs_link fs_content]. rewrite (from_here_again p N). auto. Qed.
Definition tree : table :=
  [($".", [file ($"MODULE.bazel"); mkEntry ($"a") DtDir 11; mkEntry ($"c") DtDir 12]);
   ($"a", [file ($"BUILD"); mkEntry ($"b") DtDir 13]); ($"a/b", [file ($"BUILD.bazel"); mkEntry ($"_tmp") DtDir 14]);
   ($"a/b/_tmp", [file ($"BUILD")]); ($"c", [file ($"BUILD"); file ($"x.cc")])].
Definition tree_files : list (str * str) :=
  [($"MODULE.bazel", []); ($"a/BUILD", lib ($"x")); ($"a/b/BUILD.bazel", lib ($"y")); ($"a/b/_tmp/BUILD", lib ($"z")); ($"c/BUILD", lib ($"v"))].
Definition tree_fs := rooted tree tree_files.
Lemma tree_dirs d e i : dir_entry (fs_list tree_fs) (fs_stat tree_fs) d e i ->
  In (from_here d, e, i) [($".", mkEntry ($"a") DtDir 11, 11%N); ($".", mkEntry ($"c") DtDir 12, 12%N); ($"a", mkEntry ($"b") DtDir 13, 13%N);
     ($"a/b", mkEntry ($"_tmp") DtDir 14, 14%N)].
Proof.
  intros (((l & L & I) & _) & [(T & ->)|(_ & X)]); [|discriminate X]. cbn [tree_fs rooted fs_list] in L. apply lookup_in in L.
  destruct L as [L|[L|[L|[L|[L|[]]]]]]; injection L as <- <-; cbn [In] in I;
    repeat (destruct I as [<-|I]; [try discriminate T; cbn; auto 6|]); destruct I.
Qed.
Lemma tree_names names : package_dir tree_fs true ($".") names -> In names [[]; [$"a"]; [$"c"]; [$"a"; $"b"]].
Proof.
  induction 1 as [|names e i _ P IH D L N]; [now left|].
  destruct IH as [<-|[<-|[<-|[<-|[]]]]]; apply tree_dirs in D; cbn [In] in D;
    repeat (destruct D as [D|D]; [try (vm_compute in D; discriminate D); injection D as <- <-; try (elim N; vm_compute; auto; fail); cbn; auto 6|]); destruct D.
Qed.
Lemma tree_one_way : one_way tree_fs ($".").
Proof.
  intros names names' e e' i P P' D D'. apply tree_names in P, P'. apply tree_dirs in D, D'.
  destruct P as [<-|[<-|[<-|[<-|[]]]]]; cbn [In] in D;
    repeat (destruct D as [D|D]; [try (vm_compute in D; discriminate D); injection D as <- <-|]); try (destruct D; fail);
  destruct P' as [<-|[<-|[<-|[<-|[]]]]]; cbn [In] in D';
    repeat (destruct D' as [D'|D']; [try (vm_compute in D'; discriminate D'); injection D' as <-; auto|]); try (destruct D'; fail).
Qed.
Lemma tree_a : package_dir tree_fs true ($".") [$"a"].
Proof.
  apply (PD_below tree_fs true ($".") [] (mkEntry ($"a") DtDir 11) 11%N); [reflexivity|constructor| | |].
  - split; [split; [eexists; split; [reflexivity|cbn; auto]|split; discriminate]|left; auto].
  - intros [T|(T & _)]; discriminate T.
  - cbn. intuition discriminate.
Qed.
Definition everything : pattern := mkPattern (mkTarget (mkPackage [] []) []) KRecursive.
Definition below_a : pattern := mkPattern (mkTarget (mkPackage [] ($"a")) []) KRecursive.
Example C88_case :
  proper_names (fs_list tree_fs) /\ inodes_are tree_fs [11; 12; 13; 14]%N /\ here_is_here tree_fs /\ one_way tree_fs ($".") /\
  package_dir tree_fs true ($".") [$"a"] /\ plain_start (at_path ($"a") []) /\ (forall names, package_dir tree_fs true ($".") names -> not_hidden [] names) /\
  parse_pattern ($"//...") = PatOk everything /\ parse_pattern ($"//a/...") = PatOk below_a /\
  (exists out, run_here 9 tree_fs csv CListPackages everything = Ret (out, ExitSuccess) /\
     read_csv out = Some ([$"bazel-file"; $"package"] :: [[$"./a/BUILD"; $"//a"]; [$"./a/b/BUILD.bazel"; $"//a/b"]; [$"./c/BUILD"; $"//c"]])) /\
  (exists out, run_here 9 tree_fs csv CListPackages below_a = Ret (out, ExitSuccess) /\
     read_csv out = Some ([$"bazel-file"; $"package"] :: [[$"a/BUILD"; $"//a"]; [$"a/b/BUILD.bazel"; $"//a/b"]])).
Proof.
  split. { intros d l L. apply lookup_in in L. destruct L as [L|[L|[L|[L|[L|[]]]]]]; injection L as _ <-; (split; [vm_compute; repeat constructor; cbn; intuition discriminate|]);
    intros e I; cbn [In] in I; repeat (destruct I as [<-|I]; [split; [discriminate|cbn; intuition discriminate]|]); destruct I. }
  split. { intros d e i D. apply tree_dirs in D. cbn [In] in D. repeat (destruct D as [D|D]; [injection D as _ _ <-; split; [split; discriminate|cbn; auto]|]). destruct D. }
  split; [apply rooted_here|]. split; [exact tree_one_way|]. split; [exact tree_a|].
  split. { split; [intros r X; apply (f_equal (@rev ascii)) in X; rewrite rev_app_distr in X; discriminate X|]. split; discriminate. }
  split. { intros names P _. apply tree_names in P. destruct P as [<-|[<-|[<-|[<-|[]]]]]; exact I. }
  split; [vm_compute; reflexivity|]. split; [vm_compute; reflexivity|].
  split; (eexists; split; [vm_compute; reflexivity|vm_compute; reflexivity]).
Qed.
(** Without the condition on names with a dot: the label is another one. *)
Theorem C88_hidden_refuted : exists fs out rows,
  package_dir fs true ($".") [$".github"] /\ build_file fs ($"./.github") ($"./.github/BUILD") /\
  run_here 9 fs csv CListPackages everything = Ret (out, ExitSuccess) /\ read_csv out = Some rows /\
  ~ In ($"//.github") (labels rows) /\ In ($"//github") (labels rows).
Proof.
  exists (rooted [($".", [mkEntry ($".github") DtDir 11]); ($".github", [file ($"BUILD")])] [($"MODULE.bazel", []); ($".github/BUILD", lib ($"x"))]). eexists. eexists.
  split. { apply (PD_below _ true ($".") [] (mkEntry ($".github") DtDir 11) 11%N); [reflexivity|constructor| | |].
    - split; [split; [eexists; split; [reflexivity|cbn; auto]|split; discriminate]|left; auto].
    - intros [T|(T & _)]; discriminate T.
    - cbn. intuition discriminate. }
  split. { exists (file ($"BUILD")), (lib ($"x")). split; [|split; [auto|split; vm_compute; reflexivity]].
    split; [split; [eexists; split; [reflexivity|cbn; auto]|split; discriminate]|]. intros i (_ & [(T & _)|([T|T] & _)]); discriminate T. }
  split; [vm_compute; reflexivity|]. split; [vm_compute; reflexivity|]. split; [cbn; intuition discriminate|cbn; auto].
Qed.
Print Assumptions C88_hidden_refuted.
