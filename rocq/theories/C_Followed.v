(** Property C96: what list-packages and list-targets list when dependencies are followed. *)
From Coq Require Import ZArith Lia.
From Verif Require Import Base OMap M_Types M_Scanner M_Ast M_Parser M_Query M_Elab M_Workspace M_Project P_Project M_DepGraph S_DepGraph P_DepGraph M_Headers S_Headers P_Headers
  M_Table S_Table P_Table M_Commands S_Commands P_Commands S_Run P_Run C_DepGraph C_Commands P_Deeper P_Loaded.
Local Open Scope string_scope. Local Open Scope list_scope.

Lemma target_row_in pt p f : forall rs a, target_rows pt p f rs = Ret a -> forall rule label, (exists l, In (AddRow [l; rule; label]) a) <->
  exists r t, In r rs /\ parse_target ($":" ++ v_text (q_name r)) p = Some t /\ match_target pt t = true /\ rule = v_text (q_rule r) /\ label = target_to_string t.
Proof.
  induction rs as [|r rs IH]; intros a A rule label; cbn [target_rows] in A.
  - injection A as <-. split; [intros (l & [])|intros (r & t & [] & _)].
  - assert (SKIP : (forall t, parse_target ($":" ++ v_text (q_name r)) p = Some t -> match_target pt t = false) -> target_rows pt p f rs = Ret a ->
      (exists l, In (AddRow [l; rule; label]) a) <-> exists r' t, In r' (r :: rs) /\ parse_target ($":" ++ v_text (q_name r')) p = Some t /\ match_target pt t = true /\ rule = v_text (q_rule r') /\ label = target_to_string t).
    { intros N E. rewrite (IH _ E). split; intros (r' & t & I & H & M & Z); exists r', t; [split; [right; exact I|auto]|]. destruct I as [<-|I]; [rewrite (N _ H) in M; discriminate M|auto]. }
    destruct (parse_target ($":" ++ v_text (q_name r)) p) as [t|] eqn:P; [|apply SKIP; [congruence|exact A]]. destruct (match_target pt t) eqn:M; [|apply SKIP; [intros t' [= <-]; exact M|exact A]]. clear SKIP.
    destruct (loc f (q_name r)) as [l| |]; try discriminate A. cbn [bind] in A. destruct (target_rows pt p f rs) as [b| |] eqn:B; try discriminate A. injection A as <-. split.
    + intros (l' & [[= <- <- <-]|I]); [exists r, t; auto using in_eq|]. destruct (proj1 (IH _ eq_refl rule label)) as (r' & t' & I' & Z); [eauto|]. exists r', t'. split; [right; exact I'|exact Z].
    + intros (r' & t' & [<-|I] & Z).
      * destruct Z as (P' & _ & -> & ->). rewrite P in P'. injection P' as <-. exists l. left. reflexivity.
      * destruct (proj2 (IH _ eq_refl rule label)) as (l' & J); [eauto|]. exists l'. right. exact J.
Qed.

Lemma first_exists (l : list (str * target)) k t : In (k, t) l -> exists t', first_with l k t'.
Proof.
  induction l as [|[k' u] l IH]; [intros []|]. intros I. destruct (str_eqb k' k) eqn:E.
  - apply str_eqb_eq in E. subst k'. exists u, [], l. split; [reflexivity|]. intros y [].
  - destruct I as [[= -> ->]|I]; [rewrite (proj2 (str_eqb_eq k k) eq_refl) in E; discriminate E|]. destruct (IH I) as (t' & a & c & -> & N). exists t', ((k', u) :: a), c. split; [reflexivity|].
    intros y [[= -> ->]|J]; [rewrite (proj2 (str_eqb_eq k k) eq_refl) in E; discriminate E|]. exact (N y J).
Qed.
Lemma paired_in {A B C} (R : A -> B -> Prop) (g : A * B -> list C) l l' : Forall2 R l l' -> forall x, In x (flat_map g (combine l l')) <-> exists a b, In a l /\ In (a, b) (combine l l') /\ R a b /\ In x (g (a, b)).
Proof.
  intros F x. rewrite in_flat_map. split; [|intros (a & b & _ & I & _ & J); eauto]. intros ([a b] & I & J). exists a, b. split; [exact (in_combine_l _ _ _ _ I)|]. split; [exact I|]. split; [|exact J].
  clear J. induction F as [|a' b' l l' H _ IH]; [destruct I|]. destruct I as [[= -> ->]|I]; [exact H|exact (IH I)].
Qed.
Lemma paired_all {A B} (R : A -> B -> Prop) l l' : Forall2 R l l' -> forall a, In a l -> exists b, In (a, b) (combine l l') /\ R a b.
Proof. induction 1 as [|a' b' l l' H _ IH]; intros a []; [subst; exists b'; split; [left; reflexivity|exact H]|]. destruct (IH a H0) as (b & I & X). exists b. split; [right; exact I|exact X]. Qed.

Section Run.
Variable is_directory : str -> bool.
Variable can_read : str -> bool.
Variable glob : str -> list str.
Variable read_file : str -> option str.
Variable glob_in : workspace -> package -> list str -> list str -> list str.
Variable collect_build_files : workspace -> pattern -> list str.
Variable compilation_flags : workspace -> parsed_project -> pattern -> bool -> outcome str.
Notation run_command := (run_command is_directory can_read glob read_file glob_in collect_build_files compilation_flags).
Notation the_workspace := (the_workspace is_directory can_read glob read_file).
Notation loaded := (loaded read_file glob_in collect_build_files).

(** [p] is the package of a target at most [depth] steps away from those of the pattern. *)
Definition within (w : workspace) (pr : parsed_project) (pt : pattern) (depth : nat) (p : package) : Prop :=
  exists j t, j <= depth /\ reach w read_file can_read (glob_in w) pr pt j t /\ tpackage t = p.
(** [f] is the BUILD file of [p], which is in the project, or the package of a target within reach. *)
Definition known (w : workspace) (pr : parsed_project) (pt : pattern) (depth : nat) (p : package) (f : parsed_file) : Prop :=
  file_of w read_file can_read (glob_in w) pr p f /\ (In (p, f) (pr_files pr) \/ within w pr pt depth p).

Lemma files_known fl cmd pt w pr g : In cmd [CListPackages; CListTargets] -> (0 <= fl_depth fl)%Z ->
  prepare is_directory can_read glob read_file glob_in collect_build_files fl cmd pt = Ret (Some (w, pr, g)) ->
  the_workspace w /\ exists pr0, loaded w pt (fl_elaborate fl) pr0 /\ msorted (pr_files pr) /\
    (forall p f, In (p, f) (pr_files pr) <-> known w pr0 pt (depth_of fl) p f) /\
    forall p, within w pr0 pt (depth_of fl) p -> ~ In p (keys (pr_files pr)) -> path_for_package w can_read p = None.
Proof.
  intros C D P. apply prepare_spec in P as (W & pr0 & H & G). split; [exact W|]. exists pr0.
  assert (X : loaded w pt (fl_elaborate fl) pr0 /\ exists todo, build_graph w read_file can_read (glob_in w) pt (fl_depth fl) pr0 = Ret (g, pr, todo)).
  { destruct (Z.leb_spec 0 (fl_depth fl)) as [L|L]; [|lia]. apply Z.leb_le in L. destruct C as [<-|[<-|[]]]; cbn [depth_for wants_graph andb] in *; rewrite L in G; (split; [exact H|exact G]). }
  destruct X as (LO & todo & B). split; [exact LO|]. pose proof (holds_ok _ _ _ _ _ _ _ LO) as OK.
  destruct (loaded_spec _ _ _ _ _ OK _ _ _ _ _ B) as (OK' & K & T). split; [apply OK'|].
  assert (FI : forall q p f, project_ok q -> find_parsed q p = Some f <-> In (p, f) (pr_files q)) by (intros q p f [S _]; split; [apply map_find_in|apply msorted_find, S]).
  split.
  - intros p f. rewrite <- (FI pr p f OK'), K, (FI pr0 p f OK). reflexivity.
  - intros p (j & t & L & R & <-) N. apply (T j t L R). unfold find_parsed. destruct (map_find (tpackage t) (pr_files pr)) eqn:F; [|reflexivity].
    elim N. apply in_keys. eauto.
Qed.

(** list-packages: the packages of the pattern, and all packages of targets within reach that have a BUILD file; each once. *)
Theorem C96_list_packages : forall fl pt out, fl_format fl = FmtCsv -> (0 <= fl_depth fl)%Z -> run_command fl CListPackages pt = Ret (out, ExitSuccess) ->
  exists w pr files, the_workspace w /\ loaded w pt (fl_elaborate fl) pr /\
    read_csv out = Some ([$"bazel-file"; $"package"] :: map (fun e => [pf_name (snd e); package_to_string (fst e)]) files) /\
    NoDup (keys files) /\ (forall p f, In (p, f) files <-> known w pr pt (depth_of fl) p f) /\
    forall p, within w pr pt (depth_of fl) p -> ~ In p (keys files) -> path_for_package w can_read p = None.
Proof.
  intros fl pt out Fm D E. apply run_spec in E as [(_ & _ & X)|(w & pr & g & P & E)]; [discriminate X|].
  destruct (files_known fl CListPackages pt w pr g) as (W & pr0 & L & S & K & T); auto; [cbn [In]; auto|]. unfold perform in E. rewrite Fm in E.
  destruct (print_packages _ _) as [o| |] eqn:O; try discriminate E. injection E as <-. apply package_rows in O.
  exists w, pr0, (pr_files pr). split; [exact W|]. split; [exact L|]. split; [exact O|]. split; [apply ssorted_nodup; exact S|]. auto.
Qed.
(** list-targets: the rules in them, with [-r] above 0 whether of the pattern or not. *)
Theorem C96_list_targets : forall fl pt out, fl_format fl = FmtCsv -> (0 <= fl_depth fl)%Z -> run_command fl CListTargets pt = Ret (out, ExitSuccess) ->
  exists w pr rows, the_workspace w /\ loaded w pt (fl_elaborate fl) pr /\ read_csv out = Some ([$"file-location"; $"rule"; $"target"] :: rows) /\
    forall rule label, (exists l, In [l; rule; label] rows) <->
      exists p f rs r t, known w pr pt (depth_of fl) p f /\ find_targets [] (pf_ast f) = Ret rs /\ In r rs /\
        parse_target ($":" ++ v_text (q_name r)) p = Some t /\ shown fl pt t = true /\ rule = v_text (q_rule r) /\ label = target_to_string t.
Proof.
  intros fl pt out Fm D E. apply run_spec in E as [(_ & _ & X)|(w & pr & g & P & E)]; [discriminate X|].
  destruct (files_known fl CListTargets pt w pr g) as (W & pr0 & L & S & K & T); auto; [cbn [In]; auto|]. unfold perform in E. rewrite Fm in E. cbn [depth_for] in E.
  destruct (print_targets _ _ _) as [o| |] eqn:O; try discriminate E. injection E as <-. apply target_csv in O as (ops & A & O).
  eexists w, pr0, _. split; [exact W|]. split; [exact L|]. split; [exact O|]. intros rule label.
  assert (OPS : forall l, In [l; rule; label] (flat_map (fun op => entry_rows (entry_of op)) ops) <-> In (AddRow [l; rule; label]) ops).
  { intros l. rewrite in_flat_map. split.
    - intros (op & I & J). pose proof I as I'. apply (target_rows_of_in _ _ _ A) in I' as (p & f & rs & a & _ & _ & B & I'). destruct (target_rows_plain _ _ _ _ _ B _ I') as (x & y & z & ->).
      cbn in J. destruct J as [J|[]]. injection J as -> -> ->. exact I.
    - intros I. eexists. split; [exact I|]. left. reflexivity. }
  split.
  - intros (l & I). apply OPS in I. apply (target_rows_of_in _ _ _ A) in I as (p & f & rs & a & If & F & B & I).
    destruct (proj1 (target_row_in _ _ _ _ _ B rule label)) as (r & t & Ir & Pt & M & Z); [eauto|]. rewrite shown_eq in M. exists p, f, rs, r, t. split; [apply K, If|auto].
  - intros (p & f & rs & r & t & Kn & F & Ir & Pt & M & Z). apply K in Kn. destruct (target_rows_of_all _ _ _ A p f Kn) as (rs' & a & F' & B). rewrite F in F'. injection F' as <-.
    rewrite <- shown_eq in M. destruct (proj2 (target_row_in _ _ _ _ _ B rule label)) as (l & I); [exists r, t; auto|]. exists l. apply OPS. apply (target_rows_of_in _ _ _ A). exists p, f, rs, a. auto.
Qed.
Lemma followed_known w fl pt pr pr' : (0 <= fl_depth fl)%Z -> loaded w pt (fl_elaborate fl) pr -> followed can_read read_file glob_in w fl pt pr pr' ->
  forall p f, In (p, f) (pr_files pr') <-> known w pr pt (depth_of fl) p f.
Proof.
  intros D L F p f. unfold followed in F. apply Z.leb_le in D. rewrite D in F. destruct F as (g & todo & B). pose proof (holds_ok _ _ _ _ _ _ _ L) as OK.
  destruct (loaded_spec _ _ _ _ _ OK _ _ _ _ _ B) as (OK' & K & _).
  assert (FI : forall q, project_ok q -> find_parsed q p = Some f <-> In (p, f) (pr_files q)) by (intros q [S _]; split; [apply map_find_in|apply msorted_find, S]).
  rewrite <- (FI pr' OK'), K, (FI pr OK). reflexivity.
Qed.
(** lib-headers: the headers that rules in these files provide; aliases in these files count. *)
Theorem C96_lib_headers : forall fl pt out, fl_format fl = FmtCsv -> (0 <= fl_depth fl)%Z -> run_command fl CLibHeaders pt = Ret (out, ExitSuccess) ->
  exists w pr pr' rows, the_workspace w /\ loaded w pt (fl_elaborate fl) pr /\ (forall p f, In (p, f) (pr_files pr') <-> known w pr pt (depth_of fl) p f) /\
    read_csv out = Some ([$"header"; $"providing-rule"] :: rows) /\
    forall row, In row rows <-> exists p f t h, known w pr pt (depth_of fl) p f /\ provides pr' f t h /\ shown fl pt t = true /\ row = [h; target_to_string t].
Proof.
  intros fl pt out Fm D E. apply C67_lib_headers in E as (w & pr & pr' & rows & W & L & F & R & X); [|exact Fm]. pose proof (followed_known _ _ _ _ _ D L F) as K.
  exists w, pr, pr', rows. split; [exact W|]. split; [exact L|]. split; [exact K|]. split; [exact R|]. intros row. rewrite X.
  split; intros (p & f & t & h & I & Z); exists p, f, t, h; (split; [apply K, I|exact Z]).
Qed.
(** genrule-outputs: every row is for an output of a genrule in these files; if all rules are shown, every output has a row; and none has two. *)
Theorem C96_genrule_outputs : forall fl pt out, fl_format fl = FmtCsv -> (0 <= fl_depth fl)%Z -> run_command fl CGenruleOutputs pt = Ret (out, ExitSuccess) ->
  exists w pr rows, the_workspace w /\ loaded w pt (fl_elaborate fl) pr /\ read_csv out = Some ([$"generated-file"; $"providing-rule"] :: rows) /\
    (forall row, In row rows -> exists p f rs r file t, known w pr pt (depth_of fl) p f /\ find_targets [$"genrule"] (pf_ast f) = Ret rs /\ In r rs /\ In (file, t) (outputs false f r) /\
       shown fl pt t = true /\ row = [file; target_to_string t]) /\
    (forall p f rs r file t, known w pr pt (depth_of fl) p f -> find_targets [$"genrule"] (pf_ast f) = Ret rs -> In r rs -> In (file, t) (outputs false f r) ->
       (forall t', shown fl pt t' = true) -> exists rule, In [file; rule] rows) /\
    forall file rule rule', In [file; rule] rows -> In [file; rule'] rows -> rule = rule'.
Proof.
  intros fl pt out Fm D E. apply C67_genrule_outputs in E as (w & pr & pr' & rss & rows & W & L & F & F2 & R & X); [|exact Fm]. pose proof (followed_known _ _ _ _ _ D L F) as K.
  exists w, pr, rows. split; [exact W|]. split; [exact L|]. split; [exact R|]. split; [|split].
  - intros row I. apply X in I as (file & t & S & -> & (a & b & E & _)).
    assert (I : In (file, t) (flat_map (fun x => flat_map (outputs false (snd (fst x))) (snd x)) (combine (pr_files pr') rss))) by (rewrite E; apply in_or_app; right; left; reflexivity).
    apply (paired_in _ _ _ _ F2) in I as ([p f] & rs & I & _ & Q & J). cbn [fst snd] in *. apply in_flat_map in J as (r & Ir & J). exists p, f, rs, r, file, t. split; [apply K, I|auto 8].
  - intros p f rs r file t Kn Q Ir J All. apply K in Kn. destruct (paired_all _ _ _ F2 (p, f) Kn) as (rs' & I & Q'). cbn [fst snd] in Q'. rewrite Q in Q'. injection Q' as <-.
    destruct (first_exists (flat_map (fun x => flat_map (outputs false (snd (fst x))) (snd x)) (combine (pr_files pr') rss)) file t) as (t' & Ft).
    { apply in_flat_map. exists ((p, f), rs). split; [exact I|]. cbn [fst snd]. apply in_flat_map. eauto. }
    exists (target_to_string t'). apply X. exists file, t'. auto.
  - intros file rule rule' I J. apply X in I as (k & t & _ & [= <- ->] & (a & b & E & N)). apply X in J as (k' & t' & _ & [= <- ->] & (a' & b' & E' & N')). f_equal. rewrite E in E'.
    clear - E' N N'. revert a' E' N'. induction a as [|[x u] a IH]; intros [|[x' u'] a'] E N'; cbn [app] in E.
    + congruence.
    + injection E as <- <- _. elim (N' t). left. reflexivity.
    + injection E as -> -> _. elim (N t'). left. reflexivity.
    + injection E as <- <- E. eapply IH; [intros y I; exact (N y (or_intror I))|exact E|intros y I; exact (N' y (or_intror I))].
Qed.
End Run.
Print Assumptions C96_list_packages.
Print Assumptions C96_list_targets.
Print Assumptions C96_lib_headers.
Print Assumptions C96_genrule_outputs.

(** Over the files of C67: //a depends on //b, and that on //c, which has no BUILD file. *)
Example C96_case :
  cli_rows 0 [$"list-p"; $"//a:x"] = Some [[$"bazel-file"; $"package"]; [$"a/BUILD"; $"//a"]] /\
  cli_rows 2 [$"list-p"; $"//a:x"] = Some [[$"bazel-file"; $"package"]; [$"a/BUILD"; $"//a"]; [$"b/BUILD"; $"//b"]] /\
  cli_rows 0 [$"list-t"; $"//a:x"] = Some [[$"file-location"; $"rule"; $"target"]; [$"a/BUILD:1:20:"; $"cc_library"; $"//a:x"]] /\
  option_map (map (fun row => nth 2 row [])) (cli_rows 1 [$"list-t"; $"//a:x"]) = Some [$"target"; $"//a:x"; $"//a:unused"; $"//b:y"; $"//b:z"; $"//b:y"].
Proof. vm_compute. auto. Qed.
(** A library in another package with a header: listed once dependencies are followed, by its alias too. *)
Definition far_disk (name : str) : option str :=
  if str_eqb name ($"MODULE.bazel") then Some []
  else if str_eqb name ($"a/BUILD") then Some ($"cc_library(name = ""x"", deps = [""//b:y""])" ++ [NL])
  else if str_eqb name ($"b/BUILD") then Some ($"cc_library(name = ""y"", hdrs = [""y.h""])" ++ [NL] ++ $"alias(name = ""z"", actual = "":y"")" ++ [NL] ++ $"genrule(name = ""g"", outs = [""o.c""])" ++ [NL] ++ $"genrule(name = ""f"", outs = [""o.c""])" ++ [NL])
  else None.
Definition far_run (cmd : command) (depth : Z) : option (list (list str)) :=
  match run_command (fun _ => false) (fun n => match far_disk n with Some _ => true | None => false end) (fun _ => []) far_disk (fun w p i e => []) (fun w pt => [$"a/BUILD"])
    (fun _ _ _ _ => Ret []) (cli_flags depth) cmd pattern_always with Ret (out, ExitSuccess) => read_csv out | _ => None end.
Example C96_headers_case : far_run CLibHeaders 0 = Some [[$"header"; $"providing-rule"]] /\
  far_run CLibHeaders 1 = Some [[$"header"; $"providing-rule"]; [$"b/y.h"; $"//b:y"]; [$"b/y.h"; $"//b:z"]] /\
  far_run CGenruleOutputs 0 = Some [[$"generated-file"; $"providing-rule"]] /\ far_run CGenruleOutputs 1 = Some [[$"generated-file"; $"providing-rule"]; [$"b/o.c"; $"//b:g"]].
Proof. vm_compute. auto. Qed.
