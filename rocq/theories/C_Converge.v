(** Property C74: following the advice of "depend on what you use" once is enough. *)
From Verif Require Import Base OMap M_Types S_Labels P_Types M_Scanner M_Ast M_Parser M_Query S_Query M_Elab S_Elab M_Workspace M_Project M_DepGraph S_DepGraph
  M_Headers S_Headers M_Includes M_Dwyu S_Dwyu P_Dwyu S_Converge P_Converge T_Parser T_Headers T_Dwyu C_Dwyu.
Local Open Scope string_scope.
Local Open Scope list_scope.

(** C74. When all that is advised has been done, there is nothing more to add or remove. *)
Theorem C74_converges : forall w read_file ignore_keep pr pr' pt ev ev' n n',
  dependency_edits w read_file ignore_keep pr pt = Ret (ev, n) ->
  project_edited ev pr pr' -> distinct pr pt ->
  (forall t d, declared pr t -> declared pr d -> reads_back t d) ->
  dependency_edits w read_file ignore_keep pr' pt = Ret (ev', n') ->
  only_messages ev'.
Proof. exact converges. Qed.
Print Assumptions C74_converges.
(** Labels are understood if names are well-formed, but for those of the main project in
    other projects. *)
Theorem C74_reads_back : forall t d, wf_target t -> wf_target d ->
  (project (tpackage t) = [] \/ project (tpackage d) <> []) -> reads_back t d.
Proof.
  intros t d ((Wt & _) & _) Wd H. unfold reads_back. apply canonical_same_target with (s := target_to_string d); auto.
  - apply label_roundtrip; auto.
  - destruct Wd as (([->|(r & -> & N & _)] & _) & _); [discriminate|]. intros E. injection E as ->. now apply N.
  - destruct Wd as (_ & N & _). unfold target_to_string_rel. destruct (package_eqb (tpackage t) (tpackage d)); [discriminate|]. cbn [negb].
    unfold target_to_string. destruct (str_eqb (package_last_element (tpackage d)) (tname d)) eqn:E.
    + apply str_eqb_eq in E. destruct (tpackage d) as [pj pa]. cbn [path project] in *. destruct pa as [|c pa]; cbn [is_nil].
      * intros ->. apply N. rewrite <- E. reflexivity.
      * unfold package_to_string. cbn. destruct pj; discriminate.
    + unfold package_to_string. destruct (project (tpackage d)); discriminate.
Qed.
Print Assumptions C74_reads_back.

(** The project of C33_case after doing what is said there. *)
Lemma line_marked f dep line : surrounding_line f dep = Ret line -> (keep_comment line = true <-> marked (pf_content f) dep).
Proof.
  intros S. apply line_spec in S. rewrite keep_spec. split.
  - intros K. exists line. auto.
  - intros (l & O & K). now rewrite (on_line_unique _ _ _ _ S O).
Qed.
Definition followed_project : parsed_project := example_project
  ["cc_library(name = ""a"", hdrs = [""h0.h""])"; "cc_library(name = ""b"", hdrs = [""h0.h""])";
   "cc_library(name = ""c"", hdrs = [""h1.h""])"; "cc_library(name = ""d"", hdrs = [""h2.h""])"; "cc_library(name = ""e"")";
   "cc_library(name = ""x"", hdrs = [""h3.h""])"; "cc_library(name = ""y"", hdrs = [""h3.h""])"; "cc_library(name = ""z"", hdrs = [""h4.h""], testonly = 1)";
   "cc_library(name = ""t"", srcs = [""t.cc""], deps = ["; "  "":c"","; "  "":b"","; "  "":e"",  # please keep"; "])"].
Definition example_rules (pr : parsed_project) : list result := got [] (find_targets [] (pf_ast (example_file pr))).
Definition is_proper (n : node) : bool := match n with NCall (NId _) (NList _ _) => true | _ => false end.
Lemma all_proper l : forallb is_proper l = true -> Forall proper_call l.
Proof.
  intros H. apply Forall_forall. intros n I. rewrite forallb_forall in H. specialize (H n I). destruct n; try discriminate. destruct n1; try discriminate.
  destruct n2; try discriminate. repeat eexists.
Qed.
Lemma followed : project_edited plain_events plain_project followed_project.
Proof.
  assert (E : pr_files plain_project = [(mkPackage [] ($"p"), example_file plain_project)]) by (vm_compute; reflexivity).
  assert (E' : pr_files followed_project = [(mkPackage [] ($"p"), example_file followed_project)]) by (vm_compute; reflexivity).
  unfold project_edited. rewrite E, E'. constructor; [|constructor]. cbv beta. cbn [fst snd]. apply conj; [reflexivity|]. unfold file_edited.
  apply conj; [vm_compute; reflexivity|].
  apply conj; [apply all_proper; vm_compute; reflexivity|]. apply conj; [apply all_proper; vm_compute; reflexivity|].
  exists (example_rules plain_project), (example_rules followed_project). apply conj; [vm_compute; reflexivity|]. apply conj; [vm_compute; reflexivity|].
  assert (X : forall rs rs', length rs = length rs' -> (forall i, i < length rs -> rule_edited plain_events (example_file plain_project) (example_file followed_project) (nth i rs (empty_result NNull no_view)) (nth i rs' (empty_result NNull no_view))) ->
    Forall2 (rule_edited plain_events (example_file plain_project) (example_file followed_project)) rs rs').
  { clear. induction rs as [|r rs IH]; intros [|r' rs'] L H; try discriminate; constructor.
    - apply (H 0). cbn. lia.
    - apply IH; [now injection L|]. intros i Hi. apply (H (S i)). cbn. lia. }
  apply X; [vm_compute; reflexivity|]. intros i Hi. change (length (example_rules plain_project)) with 9 in Hi.
  do 8 (destruct i as [|i]; [do 14 (split; [vm_compute; tauto|]); split; [|intros _; vm_compute; reflexivity]; intros _ t Ht; vm_compute in Ht; injection Ht as <-;
    split; [intros l; vm_compute; intuition discriminate|intros d; vm_compute; intros []]|]).
  destruct i as [|i]; [|lia]. do 14 (split; [vm_compute; tauto|]). split; [|intros K; exfalso; apply K; vm_compute; tauto].
  intros _ t Ht. assert (t = T "//p:t") by (vm_compute in Ht; injection Ht as <-; vm_compute; reflexivity). subst t. clear Ht.
  assert (T1 : texts (list_of (q_deps (nth 8 (example_rules plain_project) (empty_result NNull no_view)))) = [$":b"; $":d"; $":e"]) by (vm_compute; reflexivity).
  assert (T2 : texts (list_of (q_deps (nth 8 (example_rules followed_project) (empty_result NNull no_view)))) = [$":c"; $":b"; $":e"]) by (vm_compute; reflexivity).
  split.
  - intros l. rewrite T1, T2. unfold plain_events. cbn [In]. split.
    + intros [<-|[<-|[<-|[]]]].
      * right. right. left. reflexivity.
      * left. split; [left; reflexivity|]. intros [H|[H|[H|[H|[]]]]]; discriminate H.
      * left. split; [right; right; left; reflexivity|]. intros [H|[H|[H|[H|[]]]]]; discriminate H.
    + intros [[[<-|[<-|[<-|[]]]] N]|[H|[H|[H|[H|[]]]]]]; try discriminate H.
      * right. left. reflexivity.
      * exfalso. apply N. left. reflexivity.
      * right. right. left. reflexivity.
      * injection H as <-. left. reflexivity.
  - set (old := entries (list_of (q_deps (nth 8 (example_rules plain_project) (empty_result NNull no_view))))).
    set (new := entries (list_of (q_deps (nth 8 (example_rules followed_project) (empty_result NNull no_view))))).
    assert (Lo : length old = 3) by (vm_compute; reflexivity).
    assert (En : new = [nth 0 new no_view; nth 1 new no_view; nth 2 new no_view]) by (vm_compute; reflexivity).
    intros dep I. rewrite En in I. destruct I as [<-|[<-|[<-|[]]]].
    + left. right. left. vm_compute. reflexivity.
    + right. exists (nth 0 old no_view). apply conj; [apply nth_In; rewrite Lo; repeat constructor|]. apply conj; [vm_compute; reflexivity|].
      intros M. exfalso. destruct (surrounding_line (example_file plain_project) (nth 0 old no_view)) as [line| |] eqn:L; [|vm_compute in L; discriminate L..].
      apply (line_marked _ _ _ L) in M. assert (keep_comment line = false); [|congruence].
      assert (Y : surrounding_line (example_file plain_project) (nth 0 old no_view) = Ret ($"  "":b"",")) by (vm_compute; reflexivity). rewrite L in Y. injection Y as ->. reflexivity.
    + right. exists (nth 2 old no_view). apply conj; [apply nth_In; rewrite Lo; repeat constructor|]. apply conj; [vm_compute; reflexivity|].
      intros _. destruct (surrounding_line (example_file followed_project) (nth 2 new no_view)) as [line| |] eqn:L; [|vm_compute in L; discriminate L..].
      apply (line_marked _ _ _ L).
      assert (Y : surrounding_line (example_file followed_project) (nth 2 new no_view) = Ret ($"  "":e"",  # please keep")) by (vm_compute; reflexivity). rewrite L in Y. injection Y as ->. reflexivity.
Qed.

Lemma declared_plain d : declared plain_project d -> wf_target d /\ tpackage d = mkPackage [] ($"p").
Proof.
  intros (p & f & rs & r & If & Fr & Ir & N).
  assert (E : pr_files plain_project = [(mkPackage [] ($"p"), example_file plain_project)]) by (vm_compute; reflexivity). rewrite E in If.
  destruct If as [If|[]]. apply pair_equal_spec in If as [<- <-].
  assert (X : rs = example_rules plain_project) by (unfold example_rules; rewrite Fr; reflexivity). subst rs. clear Fr E.
  assert (G : forallb (fun r => match qualified_target (pf_package (example_file plain_project)) (v_text (q_name r)) with
     | Some t => package_eqb (tpackage t) (mkPackage [] ($"p")) && negb (is_nil (tname t)) && negb (existsb (ceqb ":") (tname t)) | None => true end) (example_rules plain_project) = true) by (vm_compute; reflexivity).
  rewrite forallb_forall in G. specialize (G r Ir). unfold named in N. rewrite N in G. apply andb_true_iff in G as [G G3]. apply andb_true_iff in G as [G1 G2].
  apply package_eqb_eq in G1. rewrite G1. split; [|reflexivity]. split.
  - rewrite G1. split; [left; reflexivity|]. cbn [path]. split; [intros [H|[]]; discriminate H|]. split; [intros x H; discriminate H|].
    split; [intros x H; destruct x as [|c [|c' x]]; discriminate H|]. intros a b H. destruct a as [|c [|c' a]]; discriminate H.
  - split; [destruct (tname d); [discriminate G2|discriminate]|]. intros I. apply negb_true_iff in G3. 
    assert (C : existsb (ceqb ":") (tname d) = true) by (apply existsb_exists; exists ":"%char; split; [exact I|reflexivity]). rewrite C in G3. discriminate G3.
Qed.
Example C74_case : dependency_edits [] plain_source false plain_project (got_pattern "//p:all") = Ret (plain_events, 9) /\
  project_edited plain_events plain_project followed_project /\
  distinct plain_project (got_pattern "//p:all") /\
  (forall t d, declared plain_project t -> declared plain_project d -> reads_back t d) /\
  dependency_edits [] plain_source false followed_project (got_pattern "//p:all") =
    Ret ([EvAmbiguous (T "//p:t") [T "//p:x"; T "//p:y"]; EvTestonly (T "//p:t") (T "//p:z")], 9).
Proof.
  apply conj; [vm_compute; reflexivity|]. apply conj; [exact followed|]. apply conj; [|apply conj].
  - intros t r f r' f' (p & rs & I1 & _ & F & Ir & N & _) (p' & rs' & I1' & _ & F' & Ir' & N' & _).
    assert (E : pr_files plain_project = [(mkPackage [] ($"p"), example_file plain_project)]) by (vm_compute; reflexivity). rewrite E in I1, I1'.
    destruct I1 as [I1|[]]. destruct I1' as [I1'|[]]. apply pair_equal_spec in I1 as [<- <-]. apply pair_equal_spec in I1' as [<- <-]. split; [|reflexivity].
    rewrite F in F'. injection F' as <-.
    assert (D : NoDup (map (fun r => qualified_target (pf_package (example_file plain_project)) (v_text (q_name r))) rs)).
    { assert (X : rs = got [] (find_targets edited_kinds (pf_ast (example_file plain_project)))) by (rewrite F; reflexivity). rewrite X. clear. vm_compute.
      repeat (constructor; [cbn [In]; intros H; repeat (destruct H as [H|H]; [discriminate H|]); exact H|]). constructor. }
    set (pk := pf_package (example_file plain_project)) in *. clearbody pk. clear - D Ir Ir' N N'. induction rs as [|x rs IH]; [destruct Ir|]. cbn [map] in D. apply NoDup_cons_iff in D as [D1 D2].
    destruct Ir as [->|Ir], Ir' as [->|Ir']; auto; exfalso; apply D1; [rewrite N, <- N'|rewrite N', <- N]; apply in_map_iff; eauto.
  - intros t d Dt Dd. destruct (declared_plain _ Dt) as (Wt & Et). destruct (declared_plain _ Dd) as (Wd & Ed). apply C74_reads_back; auto. left. now rewrite Et.
  - vm_compute. reflexivity.
Qed.

Definition away (deps : string) : parsed_project := got empty_project (test_project
  [("//q", ["cc_library(name = ""x"", hdrs = [""x.h""])"]);
   ("@ext//p", ["cc_library(name = ""t"", srcs = [""t.cc""], deps = [" ++ deps ++ "])"])] empty_project)%string.
Definition away_source (file : str) : option str := if ends_with ($"p/t.cc") file then Some ($"#include ""q/x.h""") else None.
Definition away_file (pr : parsed_project) (i : nat) : parsed_file := snd (nth i (pr_files pr) (mkPackage [] [], mkFile (mkPackage [] []) [] [] [] [])).
Definition away_rule (pr : parsed_project) (i : nat) : result := hd (empty_result NNull no_view) (got [] (find_targets [] (pf_ast (away_file pr i)))).
(** The label of a target in the main project is not understood in another project: it is
    to be added again and again. *)
Theorem C74_label_refuted : exists w read_file pr pr' pt t label n,
  dependency_edits w read_file false pr pt = Ret ([EvAdd t label], n) /\
  project_edited [EvAdd t label] pr pr' /\ distinct pr pt /\
  dependency_edits w read_file false pr' pt = Ret ([EvAdd t label], n).
Proof.
  exists [], away_source, (away ""), (away """//q:x"""), (got_pattern "@ext//..."), (T "@ext//p:t"), ($"//q:x"), 1.
  apply conj; [vm_compute; reflexivity|]. apply conj; [|apply conj].
  - assert (E : forall d, d = "" \/ d = """//q:x""" -> pr_files (away d) = [(mkPackage [] ($"q"), away_file (away d) 0); (mkPackage ($"@ext") ($"p"), away_file (away d) 1)]).
    { intros d [->| ->]; vm_compute; reflexivity. }
    unfold project_edited. rewrite (E "" (or_introl eq_refl)), (E _ (or_intror eq_refl)). clear E.
    constructor; [|constructor; [|constructor]]; cbv beta; cbn [fst snd]; (apply conj; [reflexivity|]); unfold file_edited; (apply conj; [vm_compute; reflexivity|]);
      (apply conj; [apply all_proper; vm_compute; reflexivity|]); (apply conj; [apply all_proper; vm_compute; reflexivity|]).
    + exists [away_rule (away "") 0], [away_rule (away """//q:x""") 0]. apply conj; [vm_compute; reflexivity|]. apply conj; [vm_compute; reflexivity|].
      constructor; [|constructor]. do 14 (split; [vm_compute; tauto|]). split; [|intros _; vm_compute; reflexivity].
      intros _ t Ht. assert (t = T "//q:x") by (vm_compute in Ht; injection Ht as <-; vm_compute; reflexivity). subst t. clear Ht.
      split; [|intros d I; vm_compute in I; destruct I].
      intros l. split; [intros I; vm_compute in I; destruct I|]. intros [[I _]|[I|[]]]; [vm_compute in I; destruct I|discriminate I].
    + exists [away_rule (away "") 1], [away_rule (away """//q:x""") 1]. apply conj; [vm_compute; reflexivity|]. apply conj; [vm_compute; reflexivity|].
      constructor; [|constructor]. do 14 (split; [vm_compute; tauto|]). split; [|intros K; exfalso; apply K; vm_compute; tauto].
      intros _ t Ht. assert (t = T "@ext//p:t") by (vm_compute in Ht; injection Ht as <-; vm_compute; reflexivity). subst t. clear Ht.
      assert (T1 : texts (list_of (q_deps (away_rule (away "") 1))) = []) by (vm_compute; reflexivity).
      assert (T2 : texts (list_of (q_deps (away_rule (away """//q:x""") 1))) = [$"//q:x"]) by (vm_compute; reflexivity).
      split.
      * intros l. rewrite T1, T2. split.
        -- intros [<-|[]]. right. left. reflexivity.
        -- intros [[[] _]|[I|[]]]. injection I as <-. left. reflexivity.
      * intros dep I. apply (in_map v_text) in I. rewrite entries_texts, T2 in I. destruct I as [I|[]]. rewrite <- I. left. left. reflexivity.
  - intros t r f r' f' (p & rs & I1 & M & F & Ir & N & _) (p' & rs' & I1' & M' & F' & Ir' & N' & _).
    assert (E : pr_files (away "") = [(mkPackage [] ($"q"), away_file (away "") 0); (mkPackage ($"@ext") ($"p"), away_file (away "") 1)]) by (vm_compute; reflexivity).
    rewrite E in I1, I1'.
    destruct I1 as [I1|[I1|[]]]; apply pair_equal_spec in I1 as [<- <-]; [vm_compute in M; discriminate M|].
    destruct I1' as [I1'|[I1'|[]]]; apply pair_equal_spec in I1' as [<- <-]; [vm_compute in M'; discriminate M'|]. split; [|reflexivity].
    assert (X : find_targets edited_kinds (pf_ast (away_file (away "") 1)) = Ret [away_rule (away "") 1]) by (vm_compute; reflexivity).
    rewrite X in F, F'. injection F as <-. injection F' as <-. destruct Ir as [<-|[]], Ir' as [<-|[]]. reflexivity.
  - vm_compute. reflexivity.
Qed.
Print Assumptions C74_label_refuted.
