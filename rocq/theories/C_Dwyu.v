(** Properties C31 to C36 and C60: depend on what you use. *)
From Verif Require Import Base OMap M_Types S_Labels M_Scanner M_Ast M_Parser S_Parser P_Parser M_Query S_Query M_Elab S_Elab P_Elab M_Workspace M_Project M_DepGraph S_DepGraph
  M_Headers S_Headers P_Headers M_Includes S_Includes P_Includes M_Dwyu S_Dwyu P_Dwyu T_Parser T_Headers T_Dwyu.
From Coq Require Import Sorted.
Local Open Scope string_scope.
Local Open Scope list_scope.

(** * C36: includes *)
(** The includes found are exactly those the specification describes, each once and in
    the order of the file. *)
Theorem C36_includes : forall content,
  (forall off p, In (off, p) (extract_cc_includes content) <-> included content off p) /\
  StronglySorted lt (map fst (extract_cc_includes content)).
Proof. exact extract_spec. Qed.
Print Assumptions C36_includes.
Example C36_case : let text := nl ["#include ""a.h"""; " # include	""../b/c.hh""  // x"; "const char *s = ""#include "; "#include ""no.h"" "; """;"; "#include ""d.pb.h"""] in
  map snd (extract_cc_includes text) = [$"a.h"; $"../b/c.hh"; $"d.pb.h"] /\ included text 10 ($"a.h").
Proof. split; [vm_compute; reflexivity|]. apply extract_spec. vm_compute. auto. Qed.
(** A quote in a comment hides includes. *)
Theorem C36_comment_refuted : exists content before after name,
  content = before ++ [NL] ++ $"#include """ ++ name ++ $"""" ++ [NL] ++ after /\ ~ In name (map snd (extract_cc_includes content)) /\
  (exists comment, before = $"// " ++ comment /\ ~ In NL comment) /\ In name (map snd (extract_cc_includes ($"#include """ ++ name ++ $"""" ++ [NL] ++ after))).
Proof.
  exists (nl ["// 19"" rack"; "#include ""a.h"""; "int x;"]), ($"// 19"" rack"), (nl ["int x;"]), ($"a.h").
  split; [vm_compute; reflexivity|]. split; [vm_compute; intros []|]. split; [exists ($"19"" rack"); split; [reflexivity|vm_compute; intuition discriminate]|].
  vm_compute. auto.
Qed.
Print Assumptions C36_comment_refuted.

(** * C31: minimizing *)
Theorem C31_minimize : forall sets, (forall s, In s sets -> s <> []) -> exists minimized, minimize sets = Ret minimized /\
  (forall s, In s sets -> exists m, In m minimized /\ forall x, In x m -> In x s) /\
  (forall m, In m minimized -> m <> [] /\ exists s, In s sets /\ forall x, In x m -> In x s) /\
  ForallOrdPairs (fun a b => forall x, In x a -> ~ In x b) minimized.
Proof. exact minimize_spec. Qed.
Print Assumptions C31_minimize.
Example C31_case : minimize [[T "//a"; T "//b"]; [T "//c"; T "//d"]; [T "//b"; T "//c"]; [T "//c"]] = Ret [[T "//b"]; [T "//c"]].
Proof. vm_compute. reflexivity. Qed.

(** * The edits of a target *)
Section C.
Variable w : workspace.
Variable read_file : str -> option str.
Variable ignore_keep : bool.
Variable pr : parsed_project.
(** The events reported for a target with the given rule, in the given file. *)
Definition target_edits (headers : provided_set) (t : target) (details : result) (f : parsed_file) (ev : list event) : Prop :=
  header_to_lib pr true = Ret headers /\
  exists known, known_libraries pr = Ret known /\ create_edits_for_target w read_file ignore_keep headers known t details f = Ret ev.

(** C60. All that is reported is for the cc rules that match the pattern, in order. *)
Theorem C60_matching : forall pt ev n, dependency_edits w read_file ignore_keep pr pt = Ret (ev, n) ->
  exists headers rules evs,
    Forall2 (fun x e => target_edits headers (fst (fst x)) (snd (fst x)) (snd x) e) rules evs /\
    ev = concat evs /\ n = length rules /\
    forall t details f, In (t, details, f) rules <-> edited pr pt t details f.
Proof.
  intros pt ev n E. unfold dependency_edits in E. destruct (header_to_lib pr true) as [headers| |] eqn:Eh; try discriminate. cbn [bind] in E.
  destruct (known_libraries pr) as [known| |] eqn:Ek; try discriminate. cbn [bind] in E.
  destruct (edits_for_files_spec w read_file ignore_keep headers known pt _ _ _ E) as (l & evs & F & -> & -> & H).
  exists headers, l, evs. split; [|split; [auto|split; [auto|exact H]]].
  eapply Forall2_imp; [|exact F]. intros x e Ex. split; auto. exists known. auto.
Qed.
(** ... and there is nothing for other targets. *)
Theorem C60_only : forall pt ev n e, dependency_edits w read_file ignore_keep pr pt = Ret (ev, n) -> In e ev ->
  exists headers t details f ev', edited pr pt t details f /\ target_edits headers t details f ev' /\ In e ev' /\
   match e with
   | EvRemove u _ | EvAdd u _ | EvInvalid u _ | EvAgain u _ _ | EvUnsure u _ | EvAmbiguous u _ | EvTestonly u _ | EvInvisible u _ => u = t
   end.
Proof.
  intros pt ev n e E I. destruct (C60_matching pt ev n E) as (headers & rules & evs & F & -> & _ & H).
  apply in_concat in I as (ev' & I' & I). destruct (Forall2_in_r _ _ _ _ F I') as (((t & details) & f) & Ir & Te). cbn in Te.
  exists headers, t, details, f, ev'. split; [now apply H|]. split; auto. split; auto.
  destruct Te as (_ & known & Ek & Ec). eapply event_target; eauto.
Qed.
(** A report is possible for every project of trees in order whose dependencies are where
    they say. *)
Theorem C60_defined : forall pt, (forall p f, In (p, f) (pr_files pr) -> Forall sound (pf_ast f)) ->
  (forall p f rs r dep off, In (p, f) (pr_files pr) -> find_targets edited_kinds (pf_ast f) = Ret rs -> In r rs ->
     In dep (entries (list_of (q_deps r))) -> v_org dep = InFile off -> off + length (v_text dep) <= length (pf_content f)) ->
  exists r, dependency_edits w read_file ignore_keep pr pt = Ret r.
Proof. intros pt R P. apply dependency_edits_defined; auto. intros p f rs r dep I1 I2 I3 I4 off. eauto. Qed.

Variable headers : provided_set.
Variable t : target.
Variable details : result.
Variable f : parsed_file.
Variable ev : list event.
Hypothesis E : target_edits headers t details f ev.
Local Notation needs := (needs pr w read_file headers t details (pf_package f)).
Local Notation all_accounted := (all_accounted w read_file headers t details (pf_package f)).
Local Notation declares := (declares t details).

(** C32. If no two includes have providers that only partly overlap, a dependency that
    provides something is never removed. *)
Theorem C32_kept : (forall a b, needs a -> needs b -> (forall x, In x a <-> In x b) \/ (forall x, In x a -> ~ In x b)) ->
  forall v label d, needs v -> In d v -> declares label d -> ~ In (EvRemove t label) ev.
Proof. destruct E as (_ & known & K & C). intros H v l d N I (_ & D). eapply kept_spec; eauto. Qed.

(** C33. What is removed is a declared dependency, when all is accounted for, known and
    not needed otherwise, with no comment to keep it. *)
Theorem C33_removed : forall u label, In (EvRemove u label) ev ->
  u = t /\ exists d, declares label d /\ all_accounted /\ plain_library pr d /\
  (ignore_keep = true \/ exists dep line, In dep (entries (list_of (q_deps details))) /\ v_text dep = label /\
     on_line (pf_content f) dep line /\ ~ keeps line).
Proof. destruct E as (_ & known & K & C). intros u l I. eapply removed_spec; eauto. Qed.
(** Everything of that kind that provides nothing is removed. *)
Theorem C33_complete : forall dep d, In dep (entries (list_of (q_deps details))) -> parse_target (v_text dep) (tpackage t) = Some d ->
  all_accounted -> plain_library pr d -> (forall v, needs v -> ~ In d v) ->
  (forall off, v_org dep = InFile off -> off + length (v_text dep) <= length (pf_content f)) ->
  (ignore_keep = true \/ forall line, on_line (pf_content f) dep line -> ~ keeps line) ->
  In (EvRemove t (v_text dep)) ev.
Proof. destruct E as (_ & known & K & C). intros. eapply removed_complete; eauto. Qed.

(** C34. One of the providers of each include is a dependency after the edits, or there
    is a message. *)
Theorem C34_satisfied : forall v, needs v -> exists r, r <> [] /\ (forall x, In x r -> In x v) /\
  ((exists label d, In d r /\ declares label d /\ forall l, parse_target l (tpackage t) = Some d -> ~ In (EvRemove t l) ev) \/
   (exists d, r = [d] /\ In (EvAdd t (target_to_string_rel d (tpackage t))) ev) \/
   (exists d, r = [d] /\ In (EvTestonly t d) ev /\ ~ test_compatible pr t d) \/
   (1 < length r /\ In (EvAmbiguous t r) ev)).
Proof. destruct E as (_ & known & K & C). intros v N. eapply satisfied; eauto. Qed.

(** C35. What is added provides something, may be used, is not only for tests and was not
    there before. *)
Theorem C35_added : forall u label, In (EvAdd u label) ev -> u = t /\ exists d v, label = target_to_string_rel d (tpackage t) /\
  needs v /\ In d v /\ may_use pr t d /\ test_compatible pr t d /\ (forall l, ~ declares l d).
Proof. destruct E as (_ & known & K & C). intros u l I. eapply added_spec; eauto. Qed.
Theorem C35_ambiguous : forall u r, In (EvAmbiguous u r) ev -> u = t /\ 1 < length r /\
  (exists v, needs v /\ forall x, In x r -> In x v) /\ forall l d, declares l d -> ~ In d r.
Proof. destruct E as (_ & known & K & C). intros u l I. eapply ambiguous_spec; eauto. Qed.
End C.
Print Assumptions C60_matching.
Print Assumptions C60_only.
Print Assumptions C60_defined.
Print Assumptions C32_kept.
Print Assumptions C33_removed.
Print Assumptions C33_complete.
Print Assumptions C34_satisfied.
Print Assumptions C35_added.
Print Assumptions C35_ambiguous.

(** * Examples *)
Definition got {A} (d : A) (o : outcome A) : A := match o with Ret a => a | _ => d end.
Definition got_pattern (s : string) : pattern := match parse_pattern ($s) with PatOk pt => pt | _ => pattern_always end.
Definition example_project (lines : list string) : parsed_project := got empty_project (test_project [("//p", lines)] empty_project).
Definition example_file (pr : parsed_project) : parsed_file :=
  match pr_files pr with (_, f) :: _ => f | [] => mkFile (mkPackage [] []) [] [] [] [] end.
(** The last rule of the file, named t. *)
Definition example_rule (pr : parsed_project) : result :=
  last (got [] (find_targets [] (pf_ast (example_file pr)))) (empty_result NNull no_view).
Definition example_needed (rf : str -> option str) (pr : parsed_project) : list (list target) :=
  fst (got ([], false) (needed_by_sources [] rf (got [] (header_to_lib pr true)) (got [] (known_libraries pr)) (T "//p:t") (pf_package (example_file pr))
    (sources (example_rule pr)) (sources (example_rule pr)))).
Local Notation example_needs rf pr :=
  (needs pr [] rf (got [] (header_to_lib pr true)) (T "//p:t") (example_rule pr) (pf_package (example_file pr))).
Lemma example_needs_spec rf pr ak : known_libraries pr = Ret (got [] (known_libraries pr)) ->
  needed_by_sources [] rf (got [] (header_to_lib pr true)) (got [] (known_libraries pr)) (T "//p:t") (pf_package (example_file pr))
    (sources (example_rule pr)) (sources (example_rule pr)) = Ret (example_needed rf pr, ak) ->
  (forall v, In v (example_needed rf pr) -> example_needs rf pr v) /\
  (forall v, example_needs rf pr v -> exists v', In v' (example_needed rf pr) /\ forall x, In x v <-> In x v') /\
  (ak = true <-> all_accounted [] rf (got [] (header_to_lib pr true)) (T "//p:t") (example_rule pr) (pf_package (example_file pr))).
Proof. intros K E. exact (needed_spec _ _ _ _ _ _ _ _ _ _ K E). Qed.

(** C32 without the condition does not hold: both dependencies are good enough for all
    includes, but one is to be replaced. *)
Definition swap_project : parsed_project := example_project
  ["cc_library(name = ""a"", hdrs = [""h0.h""])"; "cc_library(name = ""b"", hdrs = [""h0.h"", ""h2.h""])";
   "cc_library(name = ""c"", hdrs = [""h1.h"", ""h2.h""])"; "cc_library(name = ""d"", hdrs = [""h1.h""])";
   "cc_library(name = ""t"", srcs = [""t.cc""], deps = ["":b"", "":d""])"].
Definition swap_source : str -> option str := source [("p/t.cc", ["#include ""p/h0.h"""; "#include ""p/h1.h"""; "#include ""p/h2.h"""])].
Lemma swap_needed : needed_by_sources [] swap_source (got [] (header_to_lib swap_project true)) (got [] (known_libraries swap_project)) (T "//p:t") (pf_package (example_file swap_project))
    (sources (example_rule swap_project)) (sources (example_rule swap_project)) = Ret (example_needed swap_source swap_project, true) /\
  example_needed swap_source swap_project = [[T "//p:a"; T "//p:b"]; [T "//p:c"; T "//p:d"]; [T "//p:b"; T "//p:c"]] /\
  known_libraries swap_project = Ret (got [] (known_libraries swap_project)).
Proof. vm_compute. auto. Qed.
Theorem C32_swap_refuted : exists w rf pr headers t details f ev label,
  target_edits w rf false pr headers t details f ev /\
  (forall v, needs pr w rf headers t details (pf_package f) v -> exists l d, declares t details l d /\ In d v) /\
  (exists v d, needs pr w rf headers t details (pf_package f) v /\ declares t details label d /\ In d v) /\
  In (EvRemove t label) ev.
Proof.
  exists [], swap_source, swap_project, (got [] (header_to_lib swap_project true)), (T "//p:t"), (example_rule swap_project), (example_file swap_project).
  exists [EvRemove (T "//p:t") ($":d"); EvAdd (T "//p:t") ($":c")], ($":d").
  destruct swap_needed as (E & En & K). destruct (example_needs_spec _ _ _ K E) as (N1 & N2 & _). rewrite En in N1, N2.
  split; [split; [vm_compute; reflexivity|exists (got [] (known_libraries swap_project)); split; [exact K|vm_compute; reflexivity]]|].
  assert (Db : declares (T "//p:t") (example_rule swap_project) ($":b") (T "//p:b")) by (split; [vm_compute; auto|vm_compute; reflexivity]).
  assert (Dd : declares (T "//p:t") (example_rule swap_project) ($":d") (T "//p:d")) by (split; [vm_compute; auto|vm_compute; reflexivity]).
  split; [|split].
  - intros v N. destruct (N2 v N) as (v' & I & S). destruct I as [<-|[<-|[<-|[]]]].
    + exists ($":b"), (T "//p:b"). split; [exact Db|]. apply S. right; left; reflexivity.
    + exists ($":d"), (T "//p:d"). split; [exact Dd|]. apply S. right; left; reflexivity.
    + exists ($":b"), (T "//p:b"). split; [exact Db|]. apply S. left; reflexivity.
  - exists [T "//p:c"; T "//p:d"], (T "//p:d"). split; [apply N1; right; left; reflexivity|]. split; [exact Dd|right; left; reflexivity].
  - left; reflexivity.
Qed.
Print Assumptions C32_swap_refuted.

(** A project where the hypotheses of C32 to C35 hold: two providers of one header, one
    missing dependency and one that is not needed; another one that is kept. *)
Definition plain_project : parsed_project := example_project
  ["cc_library(name = ""a"", hdrs = [""h0.h""])"; "cc_library(name = ""b"", hdrs = [""h0.h""])";
   "cc_library(name = ""c"", hdrs = [""h1.h""])"; "cc_library(name = ""d"", hdrs = [""h2.h""])"; "cc_library(name = ""e"")";
   "cc_library(name = ""x"", hdrs = [""h3.h""])"; "cc_library(name = ""y"", hdrs = [""h3.h""])"; "cc_library(name = ""z"", hdrs = [""h4.h""], testonly = 1)";
   "cc_library(name = ""t"", srcs = [""t.cc""], deps = ["; "  "":b"","; "  "":d"","; "  "":e"",  # please keep"; "])"].
Definition plain_source : str -> option str :=
  source [("p/t.cc", ["#include ""p/h0.h"""; "#include ""p/h1.h"""; "#include ""p/h3.h"""; "#include ""h4.h"""; "#include ""p/h0.h"""])].
Definition plain_events : list event :=
  [EvRemove (T "//p:t") ($":d"); EvAdd (T "//p:t") ($":c"); EvAmbiguous (T "//p:t") [T "//p:x"; T "//p:y"]; EvTestonly (T "//p:t") (T "//p:z")].
Lemma plain_needed : needed_by_sources [] plain_source (got [] (header_to_lib plain_project true)) (got [] (known_libraries plain_project)) (T "//p:t") (pf_package (example_file plain_project))
    (sources (example_rule plain_project)) (sources (example_rule plain_project)) = Ret (example_needed plain_source plain_project, true) /\
  example_needed plain_source plain_project = [[T "//p:a"; T "//p:b"]; [T "//p:c"]; [T "//p:x"; T "//p:y"]; [T "//p:z"]; [T "//p:a"; T "//p:b"]] /\
  known_libraries plain_project = Ret (got [] (known_libraries plain_project)).
Proof. vm_compute. auto. Qed.
Example C33_case : target_edits [] plain_source false plain_project (got [] (header_to_lib plain_project true)) (T "//p:t")
  (example_rule plain_project) (example_file plain_project) plain_events.
Proof. split; [vm_compute; reflexivity|exists (got [] (known_libraries plain_project)); split; vm_compute; reflexivity]. Qed.
Lemma no_common (a b : list target) x : set_inter a b = [] -> In x a -> In x b -> False.
Proof. intros H Ia Ib. assert (C : In x (set_inter a b)) by (apply set_inter_in; auto). rewrite H in C. destruct C. Qed.
Example C32_case : forall a b, example_needs plain_source plain_project a -> example_needs plain_source plain_project b ->
  (forall x, In x a <-> In x b) \/ (forall x, In x a -> ~ In x b).
Proof.
  destruct plain_needed as (E & En & K). destruct (example_needs_spec _ _ _ K E) as (N1 & N2 & _). rewrite En in N1, N2.
  assert (D : forall a b, In a (example_needed plain_source plain_project) -> In b (example_needed plain_source plain_project) ->
    a = b \/ set_inter a b = []).
  { rewrite En. intros a b Ia Ib. destruct Ia as [<-|[<-|[<-|[<-|[<-|[]]]]]], Ib as [<-|[<-|[<-|[<-|[<-|[]]]]]]; auto; right; vm_compute; reflexivity. }
  intros a b Na Nb. destruct (N2 a Na) as (a' & Ia & Sa). destruct (N2 b Nb) as (b' & Ib & Sb). rewrite <- En in Ia, Ib.
  destruct (D _ _ Ia Ib) as [<-|H].
  - left. intros x. rewrite Sa, Sb. tauto.
  - right. intros x J1 J2. apply Sa in J1. apply Sb in J2. exact (no_common _ _ _ H J1 J2).
Qed.
Example C34_case : example_needs plain_source plain_project [T "//p:a"; T "//p:b"] /\ example_needs plain_source plain_project [T "//p:c"] /\
  example_needs plain_source plain_project [T "//p:x"; T "//p:y"] /\ example_needs plain_source plain_project [T "//p:z"] /\
  all_accounted [] plain_source (got [] (header_to_lib plain_project true)) (T "//p:t") (example_rule plain_project) (pf_package (example_file plain_project)).
Proof.
  destruct plain_needed as (E & En & K). destruct (example_needs_spec _ _ _ K E) as (N1 & _ & N3). rewrite En in N1.
  split; [apply N1; left; reflexivity|]. split; [apply N1; right; left; reflexivity|].
  split; [apply N1; right; right; left; reflexivity|]. split; [apply N1; right; right; right; left; reflexivity|]. apply N3. reflexivity.
Qed.
Example C60_case : dependency_edits [] plain_source false plain_project (got_pattern "//p:all") = Ret (plain_events, 9) /\
  dependency_edits [] plain_source false plain_project (got_pattern "//q/...") = Ret ([], 0).
Proof. vm_compute. auto. Qed.

(** A target may be told to depend on itself. *)
Definition self_project : parsed_project := example_project
  ["cc_library(name = ""t"", srcs = [""t.cc""], textual_hdrs = [""t.inc""])"].
Theorem C35_self_refuted : exists w rf pr headers t details f ev,
  target_edits w rf false pr headers t details f ev /\ In (EvAdd t (target_to_string_rel t (tpackage t))) ev.
Proof.
  exists [], (source [("p/t.cc", ["#include ""p/t.inc"""])]), self_project, (got [] (header_to_lib self_project true)), (T "//p:t"), (example_rule self_project), (example_file self_project).
  exists [EvAdd (T "//p:t") ($":t")]. split; [|vm_compute; auto].
  split; [vm_compute; reflexivity|exists (got [] (known_libraries self_project)); split; vm_compute; reflexivity].
Qed.
Print Assumptions C35_self_refuted.
