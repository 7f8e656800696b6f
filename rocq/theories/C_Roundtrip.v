(** Property C19: printing and reading back. *)
From Verif Require Import T_Parser Base OMap M_Types M_Scanner S_Scanner M_Ast M_Parser M_Printer S_Grammar M_Query M_Project M_Commands S_Commands S_Print P_Print
  S_Roundtrip P_Roundtrip S_Reprint P_Reprint P_PrintOutput C_Print.
Local Open Scope string_scope.
Local Open Scope list_scope.

(** C19. Trees that need no parentheses, with names, numbers and strings that can be written, are the same after printing and
    parsing, whatever comments are between them. *)
Theorem C19_trees : forall l text, plain_file l -> written l text ->
  exists l', parse text = Ret (l', []) /\ map erase l' = map erase l.
Proof. exact P_Roundtrip.roundtrip. Qed.
Print Assumptions C19_trees.

(** C19. A file that was parsed is the same after printing and parsing it again, unless there are parentheses, an operator
    without operand or a missing name, strings with both kinds of quotes, or "not" before a name that begins with "in". *)
Theorem C19_files : forall content l text, parse content = Ret (l, []) -> simple_file l -> written l text ->
  exists l', parse text = Ret (l', []) /\ map erase l' = map erase l /\ written l' text.
Proof.
  intros content l text P S W. destruct (reprint content l text P S W) as (l' & P' & E). exists l'. repeat split; auto. exact (written_unplaced l text W l' E).
Qed.
Print Assumptions C19_files.

(** C19. What is printed does not depend on where the parts of the tree were in the file. *)
Theorem C19_places : forall n m, erase m = erase n -> print_node m = print_node n.
Proof. exact print_node_unplaced. Qed.
Print Assumptions C19_places.

(** C19. The output of "print" is a file with the rules that it shows. *)
Theorem C19_output : forall pt only_errors pr out,
  (forall p f, In (p, f) (pr_files pr) -> plain_lines (pf_content f) /\ parse (pf_content f) = Ret (pf_ast f, []) /\ simple_file (pf_ast f) /\
     forall r, In r (shown_results (fun _ => true) only_errors pt p f) -> one_line p f r) ->
  print_project NoGrep false only_errors pt pr = Ret out ->
  exists l, parse out = Ret (l, []) /\
    map erase l = map erase (flat_map (fun '(p, f) => map q_node (shown_results (fun _ => true) only_errors pt p f)) (pr_files pr)).
Proof.
  intros pt oe pr out H E. apply output_read_back.
  - apply C66_rules; [|exact E]. intros p f I. apply (H p f I).
  - intros p f I. destruct (H p f I) as (_ & P & S & O). split; [|exact O]. eapply program_plain; [apply P_Grammar.parse_grammar, P|apply all_lexemes|exact S].
Qed.
Print Assumptions C19_output.

(** Parsed, printed and parsed again it is something else. *)
Definition changed (content : str) : Prop := exists l text, parse content = Ret (l, []) /\ written l text /\
  forall l', parse text = Ret (l', []) -> map erase l' <> map erase l.
Lemma changed_intro content l text r : parse content = Ret (l, []) ->
  match l with [n] => print_node n = Ret text | [n; m] => exists a b, print_node n = Ret a /\ print_node m = Ret b /\ text = (a ++ [NL] ++ b)%list | _ => False end ->
  parse (text ++ [NL]) = r -> (forall l', r = Ret (l', []) -> map erase l' <> map erase l) -> changed content.
Proof.
  intros P W R N. exists l, (text ++ [NL])%list. split; [exact P|]. split; [|intros l'; rewrite R; apply N].
  destruct l as [|n [|m [|k l]]]; [destruct W| | |destruct W].
  - apply (W_tree n text [] [] []); [constructor|exact W|constructor; constructor].
  - destruct W as (a & b & A & B & ->). rewrite <- !app_assoc. apply (W_tree n a [] [m]); [constructor|exact A|]. apply (W_tree m b [] [] []); [constructor|exact B|constructor; constructor].
Qed.
Ltac changes := eapply changed_intro; [vm_compute; reflexivity|cbv iota; first [vm_compute; reflexivity | do 2 eexists; split; [vm_compute; reflexivity|split; [vm_compute; reflexivity|reflexivity]]]|vm_compute; reflexivity|];
  first [discriminate | intros ? X; injection X as <-; vm_compute; discriminate].
(** C19. Each of these is needed. *)
Theorem C19_exceptions_refuted : Forall changed
  [ $"x = (a + b) * c"; $"x = (-a) + b"; $"x = (a if b else c).d"; $"x = a if (b if c) else d"; $"x = (a if b)[1]";
    $"x = !inner"; $"x = 5 .y"; $"x = (-)"; $"x = [a for ,b in c]";
    $"x = ""a\""b'c"""; $"x = """"""a""b"""""""; $"x = (a)" ++ [NL] ++ $"(b) = c" ].
Proof. repeat (apply Forall_cons; [changes|]). apply Forall_nil. Qed.
Print Assumptions C19_exceptions_refuted.

Definition content : str := nl
  [ "# A file";
    "SRCS = [""a.cc"", 'say ""x""', r""\d""] + glob([""*.h""], exclude = [""x.h""])";
    "(u, v) = (17, 0x1f)";
    "cc_library(name = ""ab"", srcs = SRCS[1:], size = 4, deps = select({""c"" : [], ""//d"" : [d for d in D if d]}),";
    "  copts = [""-O%d"" % n if n else not m for (n, m) in OPTS],)";
    "[ cc_test(name = x) for x in [""1"", ""2""]]";
    "X.append(1)" ].
Ltac absent H := cbn in H; repeat (destruct H as [H|H]; [discriminate H|]); destruct H.
Ltac quoted := unfold quotes_ok; let H := fresh in intros H; first [solve [absent H] | clear H; split; [reflexivity|]; let A := fresh in intros ? [A _]; apply nth_error_In in A; solve [absent A]].
Ltac simply := repeat first [exact I | discriminate | quoted | split | intros _; reflexivity | let H := fresh in intros H; discriminate H
  | let s := fresh in let E := fresh in intros _ s E; cbn in E; apply (f_equal (fun o => match o with Some x => x | None => [] end)) in E; cbv iota beta in E; rewrite <- E; reflexivity
  | let X := fresh in intros X; exfalso; destruct X as (? & ? & ? & ? & X); discriminate X].
Ltac wrote := repeat (eapply (W_tree _ _ []); [constructor|vm_compute; reflexivity|]); apply W_end; constructor.
Example C19_case : exists l text, parse content = Ret (l, []) /\ simple_file l /\ written l text /\ length l = 5.
Proof.
  eexists. eexists. split; [vm_compute; reflexivity|]. split; [|split].
  - cbn [simple_file simple first_name last_is_name dangling is_operand v_text]. simply.
  - wrote.
  - reflexivity.
Qed.
(** A file with two rules; the second has a visibility. *)
Definition ruled_file : parsed_file :=
  let content := nl ["cc_library(name = ""ab"")"; "cc_test("; "  name = ""long"", visibility = [""//a:b"", ""//c:d""])"] in
  match parse content with
  | Ret (stmts, errs) => mkFile (mkPackage [] ($"p")) ($"p/BUILD") content stmts errs
  | _ => mkFile (mkPackage [] []) [] [] [] [] end.
Lemma ruled_lines : plain_lines (pf_content ruled_file).
Proof.
  split; [vm_compute; reflexivity|]. intros i H.
  destruct (Compare_dec.le_lt_dec (length (pf_content ruled_file)) i) as [L|L].
  { rewrite (P_Scanner.eof_reached _ _ L) in H. discriminate. }
  assert (X : forallb (fun i => negb (match tok_type (token_at (pf_content ruled_file) i) with TNotIn => true | _ => false end)) (seq 0 (length (pf_content ruled_file))) = true)
    by (vm_compute; reflexivity).
  rewrite forallb_forall in X. assert (Is : In i (seq 0 (length (pf_content ruled_file)))).
  { revert L. generalize (length (pf_content ruled_file)). intros n L. apply in_seq. lia. }
  specialize (X i Is). cbv beta in X. rewrite H in X. discriminate X.
Qed.
Lemma ruled_simple : simple_file (pf_ast ruled_file).
Proof.
  let x := eval vm_compute in (pf_ast ruled_file) in assert (E : pf_ast ruled_file = x) by (vm_compute; reflexivity); rewrite E; clear E.
  cbn [simple_file simple]. simply.
Qed.
Lemma ruled_one_line pt p : p = mkPackage [] ($"p") -> forall r, In r (shown_results (fun _ => true) false pt p ruled_file) -> one_line p ruled_file r.
Proof.
  intros -> r H. unfold one_line.
  assert (X : forallb (fun r => negb (existsb (ceqb NL) (pf_name ruled_file ++ match rule_target (mkPackage [] ($"p")) r with Some t => target_to_string t | None => [] end ++ visibility_note (q_visibility r))))
    (match find_targets_allow_empty [] (pf_ast ruled_file) with Ret rs => rs | _ => [] end) = true) by (vm_compute; reflexivity).
  rewrite forallb_forall in X. unfold shown_results in H. destruct (_ || _) in H; [destruct H|]. destruct (find_targets_allow_empty [] (pf_ast ruled_file)) as [rs| |]; [|destruct H|destruct H].
  apply filter_In in H as [H _]. apply X in H. apply negb_true_iff in H.
  assert (N : forall s a b, existsb (ceqb NL) (a ++ s ++ b) = false -> ~ In NL s).
  { intros s a b E I. assert (existsb (ceqb NL) (a ++ s ++ b) = true); [|congruence]. apply existsb_exists. exists NL. split; [rewrite !in_app_iff; auto|reflexivity]. }
  revert H. generalize (pf_name ruled_file) (visibility_note (q_visibility r)). intros a b H. split; [|split].
  - exact (N a [] _ H).
  - intros t T. rewrite T in H. exact (N _ _ _ H).
  - rewrite app_assoc in H. rewrite <- (app_nil_r b) in H. exact (N _ _ _ H).
Qed.
Definition everything : pattern := match parse_pattern ($"//p/...") with PatOk pt => pt | _ => pattern_always end.
Definition ruled_project : parsed_project := mkProject [(mkPackage [] ($"p"), ruled_file)] 0.
Definition lines_of (o : outcome str) : bool := match o with Ret out => existsb (ceqb NL) out | _ => false end.
Lemma ruled_printed : lines_of (print_project NoGrep false false everything ruled_project) = true.
Proof. vm_cast_no_check (eq_refl true). Qed.
Lemma ruled_parsed : parse (pf_content ruled_file) = Ret (pf_ast ruled_file, []).
Proof. vm_compute. reflexivity. Qed.
Lemma ruled_shown : length (shown_results (fun _ => true) false everything (mkPackage [] ($"p")) ruled_file) = 2%nat.
Proof. vm_compute. reflexivity. Qed.
Lemma one_file (P : package -> parsed_file -> Prop) p f : P p f -> forall q g, In (q, g) (pr_files (mkProject [(p, f)] 0)) -> P q g.
Proof. intros H q g [E|[]]. injection E as <- <-. exact H. Qed.
Lemma some_output (o : outcome str) : lines_of o = true -> exists out, o = Ret out /\ In NL out.
Proof.
  destruct o as [out| |]; try discriminate. intros H. exists out. split; [reflexivity|]. apply existsb_exists in H as (c & I & E). apply ceqb_eq in E. subst c. exact I.
Qed.
Lemma ruled_files : forall p f, In (p, f) (pr_files ruled_project) -> plain_lines (pf_content f) /\ parse (pf_content f) = Ret (pf_ast f, []) /\ simple_file (pf_ast f) /\
     forall r, In r (shown_results (fun _ => true) false everything p f) -> one_line p f r.
Proof.
  apply (one_file (fun p f => plain_lines (pf_content f) /\ parse (pf_content f) = Ret (pf_ast f, []) /\ simple_file (pf_ast f) /\
     forall r, In r (shown_results (fun _ => true) false everything p f) -> one_line p f r)).
  exact (conj ruled_lines (conj ruled_parsed (conj ruled_simple (ruled_one_line everything _ eq_refl)))).
Qed.
Lemma ruled_output : exists out, print_project NoGrep false false everything ruled_project = Ret out /\ In NL out.
Proof. exact (some_output (print_project NoGrep false false everything ruled_project) ruled_printed). Qed.
Example C19_output_case :
  (forall p f, In (p, f) (pr_files ruled_project) -> plain_lines (pf_content f) /\ parse (pf_content f) = Ret (pf_ast f, []) /\ simple_file (pf_ast f) /\
     forall r, In r (shown_results (fun _ => true) false everything p f) -> one_line p f r) /\
  (exists out, print_project NoGrep false false everything ruled_project = Ret out /\ In NL out) /\
  length (shown_results (fun _ => true) false everything (mkPackage [] ($"p")) ruled_file) = 2%nat.
Proof. exact (conj ruled_files (conj ruled_output ruled_shown)). Qed.
