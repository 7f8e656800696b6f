(** file-utils_test.cc on the model, and small file systems for examples. *)
From Coq Require Import NArith.
From Verif Require Import Base OMap M_Types M_Ast M_Workspace M_Glob M_Walk S_Walk P_Walk.
Local Open Scope string_scope.
Local Open Scope list_scope.

Example path_from_dirent : let p := path_at ($"foo/bar///") (mkEntry ($"baz") DtDir 0) in
  fp_path p = $"foo/bar/baz" /\ filename p = $"baz" /\ is_directory (fun _ => None) p = true /\ is_symlink (fun _ => true) p = false.
Proof. vm_compute. auto. Qed.
Example path_from_path : let p := path_of ($"foo/bar/baz") in fp_path p = $"foo/bar/baz" /\ filename p = $"baz".
Proof. vm_compute. auto. Qed.

(** A file system given by its directories, with an answer to stat() for some paths. *)
Definition table := list (str * list dirent).
Definition lookup {A} (t : list (str * A)) (p : str) : option A := option_map snd (find (fun x => str_eqb (fst x) p) t).
Lemma lookup_in {A} (t : list (str * A)) p l : lookup t p = Some l -> In (p, l) t.
Proof.
  unfold lookup. destruct (find _ t) as [[q m]|] eqn:E; [|discriminate]. intros [= ->]. apply find_some in E as (I & X). cbn in X. apply str_eqb_eq in X. now subst.
Qed.
Fixpoint nodup_names (l : list str) : bool := match l with [] => true | x :: l => negb (existsb (str_eqb x) l) && nodup_names l end.
Lemma nodup_names_ok l : nodup_names l = true -> NoDup l.
Proof.
  induction l as [|x l IH]; cbn [nodup_names]; intros H; [constructor|]. apply andb_true_iff in H as (H1 & H2). constructor; auto. intros I. apply negb_true_iff in H1.
  rewrite <- not_true_iff_false in H1. apply H1, existsb_exists. exists x. split; auto. now apply str_eqb_eq.
Qed.
Definition proper_table (t : table) : bool :=
  forallb (fun dl => nodup_names (map d_name (snd dl)) && forallb (fun e => negb (is_nil (d_name e)) && negb (contains_char "/" (d_name e))) (snd dl)) t.
Lemma proper_table_ok t : proper_table t = true -> proper_names (lookup t).
Proof.
  intros H d l L. apply lookup_in in L. unfold proper_table in H. rewrite forallb_forall in H. specialize (H _ L). cbn [snd] in H. apply andb_true_iff in H as (H1 & H2). split; [now apply nodup_names_ok|].
  rewrite forallb_forall in H2. intros e I. specialize (H2 e I). apply andb_true_iff in H2 as (H2 & H3). split.
  - intros X. rewrite X in H2. discriminate.
  - apply contains_char_false. now apply negb_true_iff.
Qed.
Definition all_entries (t : table) : list (str * dirent) := flat_map (fun dl => map (pair (fst dl)) (snd dl)) t.
Definition unique_dirs (t : table) (s : list (str * (N * bool))) : bool :=
  let dirs := filter (fun de => fst (entry_dir (lookup s) (fst de) (snd de)) && negb (is_dot (snd de))) (all_entries t) in
  forallb (fun a => forallb (fun b => negb (N.eqb (snd (entry_dir (lookup s) (fst a) (snd a))) (snd (entry_dir (lookup s) (fst b) (snd b))))
     || (str_eqb (fst a) (fst b) && str_eqb (d_name (snd a)) (d_name (snd b)) && match d_type (snd a), d_type (snd b) with DtDir, DtDir | DtLnk, DtLnk | DtUnknown, DtUnknown => true | _, _ => false end)) dirs) dirs.
Lemma unique_dirs_paths t s d e d' e' i : unique_dirs t s = true -> dir_entry (lookup t) (lookup s) d e i -> dir_entry (lookup t) (lookup s) d' e' i -> path_at d e = path_at d' e'.
Proof.
  intros H D D'. unfold unique_dirs in H. rewrite forallb_forall in H.
  assert (G : forall d e i, dir_entry (lookup t) (lookup s) d e i -> In (d, e) (filter (fun de => fst (entry_dir (lookup s) (fst de) (snd de)) && negb (is_dot (snd de))) (all_entries t)) /\ snd (entry_dir (lookup s) d e) = i).
  { clear. intros d e i D. pose proof (proj1 D) as E. pose proof (proj2 (entry_dir_true _ _ d e i E) D) as X. split; [|now rewrite X]. apply filter_In. cbn [fst snd]. rewrite X. cbn [fst].
    destruct E as ((l & L & I) & N). split; [|apply is_dot_spec in N; now rewrite N]. apply lookup_in in L. unfold all_entries. apply in_flat_map. exists (d, l). split; auto. cbn. now apply in_map. }
  destruct (G _ _ _ D) as (I1 & E1). destruct (G _ _ _ D') as (I2 & E2). specialize (H _ I1). rewrite forallb_forall in H. specialize (H _ I2). cbn [fst snd] in H. rewrite E1, E2, N.eqb_refl in H. cbn [negb orb] in H.
  apply andb_true_iff in H as (H & T). apply andb_true_iff in H as (A & B). apply str_eqb_eq in A, B. subst d'. unfold path_at. rewrite B. destruct (d_type e), (d_type e'); try discriminate; reflexivity.
Qed.
Lemma unique_dirs_ok t s want root : unique_dirs t s = true -> one_path_each (lookup t) (lookup s) want root.
Proof. intros H d e d' e' i _ _ D D' _ _. exact (unique_dirs_paths t s d e d' e' i H D D'). Qed.
(** ., with a directory a, in it b with the BUILD file and a source, and some other
    things. *)
Definition fs1 : table :=
  [($".", [mkEntry ($".") DtDir 1; mkEntry ($"..") DtDir 2; mkEntry ($"a") DtDir 10; mkEntry ($"BUILD") DtOther 20; mkEntry ($"x.cc") DtOther 21; mkEntry ($".git") DtDir 11]);
   ($"./a", [mkEntry ($".") DtDir 10; mkEntry ($"..") DtDir 1; mkEntry ($"b") DtUnknown 12; mkEntry ($"x.h") DtOther 22]);
   ($"./a/b", [mkEntry ($".") DtDir 12; mkEntry ($"..") DtDir 10; mkEntry ($"BUILD.bazel") DtOther 23; mkEntry ($"y.cc") DtOther 24; mkEntry ($"y_test.cc") DtLnk 25]);
   ($"./.git", [mkEntry ($"BUILD") DtOther 26])].
Definition stat1 : list (str * (N * bool)) := [($"./a/b", (12%N, true)); ($"./a/b/y_test.cc", (27%N, false))].
(** A link to the directory itself. *)
Definition fs2 : table :=
  [($"r", [mkEntry ($"f") DtOther 20; mkEntry ($"loop") DtLnk 30]); ($"r/loop", [mkEntry ($"f") DtOther 20; mkEntry ($"loop") DtLnk 30])].
Definition stat2 : list (str * (N * bool)) := [($"r/loop", (5%N, true)); ($"r/loop/loop", (5%N, true))].
(** A link before the directory it leads to. *)
Definition fs3 : table :=
  [($".", [mkEntry ($"alias") DtLnk 30; mkEntry ($"lib") DtDir 10]); ($"./lib", [mkEntry ($"BUILD") DtOther 20]); ($"./alias", [mkEntry ($"BUILD") DtOther 20])].
Definition stat3 : list (str * (N * bool)) := [($"./alias", (10%N, true))].
(** The package //a, seen from the directory above. *)
Definition fs5 : table :=
  [($"a/.", [mkEntry ($".") DtDir 10; mkEntry ($"b") DtDir 12; mkEntry ($"x.h") DtOther 22; mkEntry ($"BUILD") DtOther 28]);
   ($"a/./b", [mkEntry ($"BUILD.bazel") DtOther 23; mkEntry ($"y.cc") DtOther 24; mkEntry ($"y_test.cc") DtLnk 25])].
