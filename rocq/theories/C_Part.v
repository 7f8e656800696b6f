(** C90: a directory as the pattern shows the part of the tables that is about it. *)
From Coq Require Import NArith ZArith Lia.
From Verif Require Import Base OMap M_Types M_Scanner M_Ast M_Parser M_Query M_Elab M_Workspace M_Project M_Walk S_Walk M_Table S_Table P_Table M_DepGraph S_DepGraph P_DepGraph
  M_Commands M_System P_Commands S_Run P_Run S_Order P_Order C_Walk C_Order C_Commands S_Packages P_Packages C_Packages P_Deeper P_Part.
Local Open Scope string_scope. Local Open Scope list_scope.

(** The package is at the directory [a] of the main project or below. *)
Definition under (a : str) (p : package) : bool := is_nil (project p) && (str_eqb (path p) a || starts_with (a ++ $"/") (path p)).
(** A file system as it usually is: what C88 needs, and no directory with both a BUILD and a BUILD.bazel. *)
Definition usual (fs : file_system) (inodes : list N) (fuel : nat) : Prop :=
  proper_names (fs_list fs) /\ inodes_are fs inodes /\ length inodes < fuel /\ here_is_here fs /\ one_way fs ($".") /\
  (forall names, package_dir fs true ($".") names -> not_hidden [] names) /\ single_files fs true ($".").
(** The pattern of all there is, and the one of a directory. *)
Definition whole (pt : pattern) : Prop := pat_project pt = [] /\ pat_path pt = [] /\ is_recursive pt = true.
Definition only (a : str) (pt : pattern) : Prop := pat_kind pt = KRecursive /\ pat_project pt = [] /\ pat_path pt = a.

Lemma under_below a p : a <> [] -> is_below a p = under a p.
Proof.
  intros N. destruct p as [pj q]. unfold is_below, under, match_package. cbn [pat_kind pat_target tpackage project path].
  destruct pj as [|c pj]; [|reflexivity]. rewrite (proj2 (str_eqb_eq [] []) eq_refl). cbn [negb is_nil andb]. destruct (is_nil a) eqn:Na; [destruct a; [congruence|discriminate Na]|]. clear N Na.
  revert q. induction a as [|c a IH]; intros q.
  - destruct q as [|d q]; [reflexivity|]. cbn. unfold ceqb. rewrite andb_true_r. apply Ascii.eqb_sym.
  - destruct q as [|d q]; [reflexivity|]. specialize (IH q). cbn [starts_with length nth_error Nat.eqb app]. cbn [str_eqb].
    unfold ceqb in *. rewrite (Ascii.eqb_sym d c). destruct (Ascii.eqb c d); [cbn [andb]; exact IH|reflexivity].
Qed.

Section Run.
Variable fs : file_system.
Variable inodes : list N.
Variable fuel : nat.
Hypothesis Us : usual fs inodes fuel.
Variables (n : str) (ns : list str).
Notation a := (at_path n ns).
Hypothesis plain : plain_start a.
Hypothesis reached : package_dir fs true ($".") (n :: ns).
Variables (pt pt' : pattern).
Hypothesis all_pt : whole pt.
Hypothesis part_pt : only a pt'.
Notation prepare := (prepare (is_dir fs) (fs_can_read fs) (fs_glob fs) (fs_content fs) (globbed_files fuel fs) (found_build_files fuel fs)).

Lemma a_not_empty : a <> [].
Proof. destruct Us as (Pn & _). exact (a_some fs Pn n ns plain reached). Qed.
Lemma prepare_ws fl cmd q w pr g : prepare fl cmd q = Ret (Some (w, pr, g)) -> exists w0, load_workspace (is_dir fs) (fs_can_read fs) (fs_glob fs) (fs_content fs) = Ret (Some w0) /\
  w = augment_from_external_dir (is_dir fs) (fs_glob fs) w0.
Proof.
  unfold M_Commands.prepare. destruct (load_workspace _ _ _ _) as [[w0|]| |]; try discriminate. cbn [bind]. intros E. exists w0. split; [reflexivity|].
  repeat match type of E with bind ?x _ = _ => destruct x as [[? ?]| |] || destruct x as [?| |]; try discriminate E; cbn [bind] in E end. now injection E as <- _ _.
Qed.
Lemma prepared_part fl cmd w pr g w' pr' g' : In cmd [CListTargets; CDependsOn] ->
  prepare fl cmd pt = Ret (Some (w, pr, g)) -> prepare fl cmd pt' = Ret (Some (w', pr', g')) ->
  w' = w /\ exists pr0 pr0', project_ok pr0 /\ project_ok pr0' /\
    pr_files pr0' = map (fun e => (fst e, cut_name (snd e))) (filter (fun e => is_below a (fst e)) (pr_files pr0)) /\
    (forall p f, In (p, f) (pr_files pr0) -> project p = [] /\ exists file, pf_name f = $"./" ++ file) /\
    (if (0 <=? fl_depth fl)%Z then exists todo, build_graph w (fs_content fs) (fs_can_read fs) (globbed_files fuel fs w) pt (fl_depth fl) pr0 = Ret (g, pr, todo) else g = mkGraph [] [] /\ pr = pr0) /\
    (if (0 <=? fl_depth fl)%Z then exists todo, build_graph w (fs_content fs) (fs_can_read fs) (globbed_files fuel fs w) pt' (fl_depth fl) pr0' = Ret (g', pr', todo) else g' = mkGraph [] [] /\ pr' = pr0').
Proof.
  intros C P P'. destruct (prepare_ws _ _ _ _ _ _ P) as (w0 & L & ->). destruct (prepare_ws _ _ _ _ _ _ P') as (w1 & L' & ->). rewrite L in L'. injection L' as <-. split; [reflexivity|].
  apply prepare_spec in P as (_ & pr0 & H & G). apply prepare_spec in P' as (_ & pr0' & H' & G'). exists pr0, pr0'.
  split; [exact (holds_ok _ _ _ _ _ _ _ H)|]. split; [exact (holds_ok _ _ _ _ _ _ _ H')|].
  destruct Us as (U1 & U2 & U3 & U4 & U5 & U6 & U7). destruct all_pt as (A1 & A2 & A3), part_pt as (B1 & B2 & B3).
  assert (B4 : is_recursive pt' = true) by (unfold is_recursive; rewrite B1; reflexivity).
  destruct C as [<-|[<-|[]]]; cbn [needs_project elaborate_for wants_graph depth_for andb] in *;
    destruct (part_project fs U1 inodes U2 fuel U3 U4 n ns plain reached U5 U6 U7 _ pt pt' _ _ _ A1 A2 A3 B2 B3 B4 H H') as (X & Y); auto.
Qed.
Lemma whole_match t : project (tpackage t) = [] -> match_target pt t = true.
Proof.
  destruct all_pt as (A1 & A2 & A3). intros E. unfold match_target, match_package. unfold is_recursive in A3. unfold pat_project in A1. unfold pat_path in A2.
  destruct (pat_kind pt); try discriminate A3; try reflexivity. rewrite E, A1, A2. reflexivity.
Qed.
Lemma part_match t : match_target pt' t = is_below a (tpackage t).
Proof.
  destruct part_pt as (B1 & B2 & B3). unfold match_target, is_below, match_package. unfold pat_project in B2. unfold pat_path in B3. rewrite B1. cbn [pat_kind pat_target tpackage project path].
  rewrite B2, B3. reflexivity.
Qed.
Notation run := (run_here fuel fs).

(** list-targets: the rows for the targets of the directory, in the same order; only the file names are without ./ *)
Theorem C90_list_targets : forall fl out out', fl_format fl = FmtCsv -> (fl_depth fl <= 0)%Z ->
  run fl CListTargets pt = Ret (out, ExitSuccess) -> run fl CListTargets pt' = Ret (out', ExitSuccess) ->
  exists l : list (str * str * target),
    read_csv out = Some ([$"file-location"; $"rule"; $"target"] :: map (fun x => [$"./" ++ fst (fst x); snd (fst x); target_to_string (snd x)]) l) /\
    read_csv out' = Some ([$"file-location"; $"rule"; $"target"] ::
      map (fun x => [fst (fst x); snd (fst x); target_to_string (snd x)]) (filter (fun x => under a (tpackage (snd x))) l)).
Proof.
  intros fl out out' Fm D E E'. apply run_spec in E as [(_ & _ & X)|(w & pr & g & P & E)]; [discriminate X|].
  apply run_spec in E' as [(_ & _ & X)|(w' & pr' & g' & P' & E')]; [discriminate X|].
  destruct (prepared_part _ _ _ _ _ _ _ _ (or_introl eq_refl) P P') as (-> & pr0 & pr0' & OK & OK' & Fi & Nm & G & G').
  assert (pr = pr0). { destruct (0 <=? fl_depth fl)%Z; [destruct G as (todo & G); exact (depth_none _ _ _ _ _ _ _ _ _ _ OK D G)|apply G]. } subst pr0.
  assert (pr' = pr0'). { destruct (0 <=? fl_depth fl)%Z; [destruct G' as (todo & G'); exact (depth_none _ _ _ _ _ _ _ _ _ _ OK' D G')|apply G']. } subst pr0'.
  unfold perform in E, E'. cbn [depth_for] in E, E'. rewrite Fm in E, E'. destruct (Z.ltb_spec 0 (fl_depth fl)) as [X|_]; [lia|].
  destruct (print_targets _ pt pr) as [o| |] eqn:T; try discriminate E. destruct (print_targets _ pt' pr') as [o'| |] eqn:T'; try discriminate E'.
  injection E as <-. injection E' as <-. apply target_csv in T as (ops & A & T). apply target_csv in T' as (ops' & A' & T').
  destruct (tagged_files pt pt' (is_below a)) with (3 := A) as (l & El & Et).
  - intros t B. rewrite part_match. exact B.
  - intros p f I. destruct (Nm p f I) as (Pj & F). split; [|exact F]. intros t <-. apply whole_match. exact Pj.
  - rewrite Fi, Et in A'. injection A' as <-. subst ops. exists l. rewrite T, T'. rewrite (filter_ext (fun x : str * str * target => under a (tpackage (snd x))) (fun x => is_below a (tpackage (snd x)))) by (intros x; symmetry; apply under_below; exact a_not_empty).
    assert (FM : forall (f : str * str * target -> list str) k, flat_map (fun op => entry_rows (entry_of op)) (map (fun x => AddRow (f x)) k) = map f k).
    { intros f k. induction k as [|x k IH]; [reflexivity|]. cbn [map flat_map]. rewrite IH. reflexivity. }
    rewrite !FM. auto.
Qed.

Lemma find_part pr0 pr0' : pr_files pr0' = map (fun e => (fst e, cut_name (snd e))) (filter (fun e => is_below a (fst e)) (pr_files pr0)) -> project_ok pr0 ->
  forall p, find_parsed pr0' p = if is_below a p then option_map cut_name (find_parsed pr0 p) else None.
Proof.
  intros Fi [S _] p. unfold find_parsed. rewrite Fi, find_cut. pose proof (filter_msorted (is_below a) _ S) as Sf.
  destruct (map_find p (filter _ (pr_files pr0))) as [f|] eqn:F.
  - apply map_find_in in F. apply filter_In in F as [F B]. cbn [fst] in B. rewrite B. apply (msorted_find _ _ _ S) in F. rewrite F. reflexivity.
  - destruct (is_below a p) eqn:B; [|reflexivity]. destruct (map_find p (pr_files pr0)) as [f|] eqn:F'; [|reflexivity]. apply map_find_in in F'.
    assert (X : In (p, f) (filter (fun e => is_below a (fst e)) (pr_files pr0))) by (apply filter_In; auto). apply (msorted_find _ _ _ Sf) in X. congruence.
Qed.
Lemma rule_part w pr0 pr0' t r f : find_parsed pr0 (tpackage t) = Some f -> find_parsed pr0' (tpackage t) = Some (cut_name f) ->
  rule_of w (fs_content fs) (fs_can_read fs) (globbed_files fuel fs w) pr0' t r <-> rule_of w (fs_content fs) (fs_can_read fs) (globbed_files fuel fs w) pr0 t r.
Proof.
  intros F F'. unfold rule_of, file_of. rewrite F, F'. split; intros (g & x & y & -> & A & B).
  - exists f, x, y. auto.
  - exists (cut_name f), x, y. auto.
Qed.
(** depends-on: the rows for the targets of the directory, in the same order. *)
Theorem C90_depends_on : forall fl out out', fl_format fl = FmtCsv -> (fl_depth fl <= 0)%Z ->
  run fl CDependsOn pt = Ret (out, ExitSuccess) -> run fl CDependsOn pt' = Ret (out', ExitSuccess) ->
  exists m : list (target * list target),
    read_csv out = Some ([$"library"; $"depends-on"] :: pair_rows m) /\
    read_csv out' = Some ([$"library"; $"depends-on"] :: pair_rows (filter (fun e => under a (tpackage (fst e))) m)).
Proof.
  intros fl out out' Fm D E E'. apply run_spec in E as [(_ & _ & X)|(w & pr & g & P & E)]; [discriminate X|].
  apply run_spec in E' as [(_ & _ & X)|(w' & pr' & g' & P' & E')]; [discriminate X|].
  destruct (prepared_part _ _ _ _ _ _ _ _ (or_intror (or_introl eq_refl)) P P') as (-> & pr0 & pr0' & OK & OK' & Fi & Nm & G & G'). clear P P'.
  unfold perform in E, E'. cbn [depth_for] in E, E'. rewrite Fm in E, E'. destruct (Z.ltb_spec 0 (fl_depth fl)) as [X|_]; [lia|].
  destruct (print_one_to_n _ pt _ _ _) as [o| |] eqn:T; try discriminate E. destruct (print_one_to_n _ pt' _ _ _) as [o'| |] eqn:T'; try discriminate E'.
  injection E as <-. injection E' as <-. apply one_to_n_rows in T. apply one_to_n_rows in T'.
  exists (filter (fun e => match_target pt (fst e)) (depends_on g)). split; [exact T|]. rewrite T'. do 3 f_equal.
  rewrite (filter_ext _ (fun e => is_below a (tpackage (fst e)))) by (intros x; apply part_match).
  rewrite (filter_ext (fun e => under a (tpackage (fst e))) (fun e => is_below a (tpackage (fst e)))) by (intros x; symmetry; apply under_below; exact a_not_empty).
  assert (Bm : forall t, is_below a (tpackage t) = true -> match_target pt t = true).
  { intros t B. apply whole_match. rewrite (under_below _ _ a_not_empty) in B. unfold under in B. apply andb_true_iff in B as [B _]. destruct (project (tpackage t)); [reflexivity|discriminate B]. }
  assert (Fl : filter (fun e => is_below a (tpackage (fst e))) (filter (fun e => match_target pt (fst e)) (depends_on g)) = filter (fun e => is_below a (tpackage (fst e))) (depends_on g)).
  { clear - Bm. induction (depends_on g) as [|e l IH]; [reflexivity|]. cbn [filter]. destruct (is_below a (tpackage (fst e))) eqn:B.
    - rewrite (Bm _ B). cbn [filter]. rewrite B. f_equal. exact IH.
    - destruct (match_target pt (fst e)); [cbn [filter]; rewrite B|]; exact IH. }
  rewrite Fl. clear T T' Fl. destruct (Z.leb_spec 0 (fl_depth fl)) as [L|L]; [|destruct G as (-> & _), G' as (-> & _); reflexivity].
  destruct G as (todo & G), G' as (todo' & G').
  destruct (graph_entries (fs_can_read fs) (fs_content fs) (globbed_files fuel fs) _ _ _ _ _ _ _ OK G) as (S1 & _ & K & _).
  destruct (graph_entries (fs_can_read fs) (fs_content fs) (globbed_files fuel fs) _ _ _ _ _ _ _ OK' G') as (S1' & _ & K' & _).
  pose proof (find_part _ _ Fi OK) as Fp.
  assert (Sf : forall (m : list (target * list target)), msorted m -> msorted (filter (fun e => is_below a (tpackage (fst e))) m)).
  { intros m Sm. unfold msorted in *. replace (keys (filter _ m)) with (filter (fun t => is_below a (tpackage t)) (keys m)); [apply ssorted_filter; exact Sm|].
    clear. unfold keys. induction m as [|[t ds] m IH]; [reflexivity|]. cbn [filter map fst]. destruct (is_below _ _); cbn [map fst]; rewrite IH; reflexivity. }
  assert (Z0 : Z.to_nat (fl_depth fl) = 0) by lia.
  assert (Q : forall t ds, In (t, ds) (depends_on g') <-> In (t, ds) (depends_on g) /\ is_below a (tpackage t) = true).
  { intros t ds. rewrite K, K', Z0. split.
    - intros ((r & R & Ed) & j & J & Re). destruct Re as [t (M & f & rs & r0 & F & Ft & Ir & Nr)|]; [|lia]. rewrite Fp in F. destruct (is_below a (tpackage t)) eqn:B; [|discriminate F].
      destruct (find_parsed pr0 (tpackage t)) as [f0|] eqn:F0; [|discriminate F]. cbn [option_map] in F. injection F as <-.
      split; [|reflexivity]. split; [exists r; split; [|exact Ed]; apply (rule_part w pr0 pr0' t r f0 F0); [rewrite Fp, B, F0; reflexivity|exact R]|].
      exists 0. split; [lia|]. constructor. split; [apply Bm; exact B|]. exists f0, rs, r0. auto.
    - intros (((r & R & Ed) & j & J & Re) & B). destruct Re as [t (M & f & rs & r0 & F & Ft & Ir & Nr)|]; [|lia].
      assert (F' : find_parsed pr0' (tpackage t) = Some (cut_name f)) by (rewrite Fp, B, F; reflexivity).
      split; [exists r; split; [|exact Ed]; apply (rule_part w pr0 pr0' t r f F F'); exact R|]. exists 0. split; [lia|]. constructor. split; [rewrite part_match; exact B|].
      exists (cut_name f), rs, r0. auto. }
  apply omap_ext; [apply Sf; exact S1'|apply Sf; exact S1|]. intros t.
  destruct (map_find t (filter _ (depends_on g))) as [ds|] eqn:F.
  - apply map_find_in in F. apply filter_In in F as [F B]. cbn [fst] in B. apply msorted_find; [apply Sf; exact S1'|]. apply filter_In. split; [apply Q; auto|exact B].
  - destruct (map_find t (filter _ (depends_on g'))) as [ds|] eqn:F'; [|reflexivity]. apply map_find_in in F'. apply filter_In in F' as [F' B]. apply Q in F' as [F' _].
    assert (X : In (t, ds) (filter (fun e => is_below a (tpackage (fst e))) (depends_on g))) by (apply filter_In; auto). apply (msorted_find _ _ _ (Sf _ S1)) in X. congruence.
Qed.
End Run.
Print Assumptions C90_list_targets.
Print Assumptions C90_depends_on.

(** * Cases *)
(** The directories of C88, with dependencies. *)
Definition dep_files : list (str * str) :=
  [($"MODULE.bazel", []); ($"a/BUILD", $"cc_library(name = ""x"", deps = [""//a/b:y"", ""//c:v""])"); ($"a/b/BUILD.bazel", $"cc_library(name = ""y"", deps = [""//c:v""])");
   ($"c/BUILD", $"cc_library(name = ""v"", deps = [""//a/b:y""])")].
Definition dep_fs := rooted tree dep_files.
Lemma dep_dirs names : package_dir dep_fs true ($".") names -> package_dir tree_fs true ($".") names.
Proof. induction 1 as [|names e i R _ IH D L N]; [constructor|]. exact (PD_below tree_fs true ($".") names e i R IH D L N). Qed.
Lemma dirs_dep names : package_dir tree_fs true ($".") names -> package_dir dep_fs true ($".") names.
Proof. induction 1 as [|names e i R _ IH D L N]; [constructor|]. exact (PD_below dep_fs true ($".") names e i R IH D L N). Qed.
Lemma dep_single : single_files dep_fs true ($".").
Proof.
  intros names f f' P (e & c & F & B & -> & R) (e' & c' & F' & B' & -> & R'). apply dep_dirs, tree_names in P. cbn [In] in P.
  destruct P as [<-|[<-|[<-|[<-|[]]]]]; destruct B as [B|B], B' as [B'|B']; rewrite ?B in *; rewrite ?B' in *; auto; vm_compute in R, R'; congruence || discriminate.
Qed.
Example C90_case : usual dep_fs [11; 12; 13; 14]%N 9 /\ plain_start (at_path ($"a") []) /\ package_dir dep_fs true ($".") [$"a"] /\
  whole everything /\ only ($"a") below_a /\
  (exists out, run_here 9 dep_fs csv CListTargets everything = Ret (out, ExitSuccess) /\
     read_csv out = Some ([$"file-location"; $"rule"; $"target"] ::
       [[$"./a/BUILD:1:20:"; $"cc_library"; $"//a:x"]; [$"./a/b/BUILD.bazel:1:20:"; $"cc_library"; $"//a/b:y"]; [$"./c/BUILD:1:20:"; $"cc_library"; $"//c:v"]])) /\
  (exists out, run_here 9 dep_fs csv CListTargets below_a = Ret (out, ExitSuccess) /\
     read_csv out = Some ([$"file-location"; $"rule"; $"target"] ::
       [[$"a/BUILD:1:20:"; $"cc_library"; $"//a:x"]; [$"a/b/BUILD.bazel:1:20:"; $"cc_library"; $"//a/b:y"]])) /\
  (exists out, run_here 9 dep_fs csv CDependsOn everything = Ret (out, ExitSuccess) /\
     read_csv out = Some ([$"library"; $"depends-on"] ::
       [[$"//a:x"; $"//a/b:y"]; [$"//a:x"; $"//c:v"]; [$"//a/b:y"; $"//c:v"]; [$"//c:v"; $"//a/b:y"]])) /\
  (exists out, run_here 9 dep_fs csv CDependsOn below_a = Ret (out, ExitSuccess) /\
     read_csv out = Some ([$"library"; $"depends-on"] :: [[$"//a:x"; $"//a/b:y"]; [$"//a:x"; $"//c:v"]; [$"//a/b:y"; $"//c:v"]])).
Proof.
  destruct C88_case as (A & B & _ & D & E & F & G & _).
  split. { split; [exact A|]. split; [exact B|]. split; [cbn; lia|]. split; [apply rooted_here|].
    split; [intros names names' e e' i P P' X X'; exact (D names names' e e' i (dep_dirs _ P) (dep_dirs _ P') X X')|].
    split; [intros names P; exact (G names (dep_dirs _ P))|exact dep_single]. }
  split; [exact F|]. split; [exact (dirs_dep _ E)|]. split; [repeat split|]. split; [repeat split|].
  repeat split; (eexists; split; [vm_compute; reflexivity|vm_compute; reflexivity]).
Qed.
(** Not so for headers: an alias in the directory for a library elsewhere is shown for the whole only. *)
Definition alias_fs := rooted tree [($"MODULE.bazel", []); ($"a/BUILD", $"alias(name = ""x"", actual = ""//c:v"")"); ($"c/BUILD", $"cc_library(name = ""v"", hdrs = [""v.h""])")].
Theorem C90_headers_refuted : exists out out' rows rows', run_here 9 alias_fs csv CLibHeaders everything = Ret (out, ExitSuccess) /\
  run_here 9 alias_fs csv CLibHeaders below_a = Ret (out', ExitSuccess) /\ read_csv out = Some rows /\ read_csv out' = Some rows' /\
  In [$"c/v.h"; $"//a:x"] rows /\ ~ In [$"c/v.h"; $"//a:x"] rows'.
Proof.
  do 4 eexists. split; [vm_compute; reflexivity|]. split; [vm_compute; reflexivity|]. split; [vm_compute; reflexivity|]. split; [vm_compute; reflexivity|].
  split; [cbn; auto|cbn; intuition discriminate].
Qed.
Print Assumptions C90_headers_refuted.
