(** Properties C16 (elaboration and queries), C20, C21, C22: elaboration. *)
From Verif Require Import Base M_Scanner M_Ast M_Parser M_Printer S_Parser P_Parser M_Query M_Elab
  S_Elab P_Elab S_Query P_Query T_Parser T_Elab.
Local Open Scope string_scope.
Local Open Scope list_scope.

(** C16. If a file parses without error, then (unless a function that is called has
    the name of a variable, C22) elaboration and queries, before and after it, do
    not read missing nodes, and neither does the extraction of strings from lists
    in the results. *)
Definition queries_defined (stmts : list node) : Prop :=
  forall interest allow, exists rs, find_targets_in interest allow stmts = Ret rs /\
    forall r l, In r rs -> In l (result_lists r) -> exists strs, string_list l = Ret strs.
Theorem C16_elaboration_defined : forall multi_glob content stmts,
  parse content = Ret (stmts, []) ->
  (forall x, In x (flat_map called stmts) -> ~ In x (flat_map assigned stmts)) ->
  exists out, elaborate multi_glob stmts = Ret out /\ queries_defined out.
Proof.
  intros mg content stmts P H.
  destruct (elaborate_defined mg stmts (proj2 (parse_trees _ _ _ P) eq_refl) H) as (out & E & S).
  exists out. split; [exact E|]. intros i a. exact (find_targets_defined i a out S).
Qed.
Print Assumptions C16_elaboration_defined.
Theorem C16_queries_defined : forall content stmts,
  parse content = Ret (stmts, []) -> queries_defined stmts.
Proof.
  intros content stmts P i a. apply find_targets_defined.
  eapply Forall_impl; [|exact (proj2 (parse_trees _ _ _ P) eq_refl)]. exact whole_statement_sound.
Qed.
Print Assumptions C16_queries_defined.
Example C16_elaboration_case :
  match parse (nl ["S = [""a.cc""] + glob([""*.h""])"; "cc_library(name=""l"", srcs = S + [""b.cc""])"]) with
  | Ret (stmts, []) => flat_map called stmts = [$"glob"; $"cc_library"] /\ flat_map assigned stmts = [$"S"]
  | _ => False
  end.
Proof. vm_compute. auto. Qed.

(** C20. The value of the right side of an assignment, and of a keyword argument,
    after elaboration: if an expression has a value v given the statements before
    it, then the elaborated expression is the literal for v. *)
Theorem C20_assigned_value : forall multi_glob stmts out i lhs e rg v,
  elaborate multi_glob stmts = Ret out ->
  nth_error stmts i = Some (NAssign lhs e rg) ->
  value_of (fold_left learn (firstn i stmts) unassigned) e = Some v ->
  exists e', nth_error out i = Some (NAssign lhs e' rg) /\ literal e' v.
Proof. exact assigned_value. Qed.
Print Assumptions C20_assigned_value.
Theorem C20_argument_value : forall multi_glob stmts out i f ty args j k e rg v,
  elaborate multi_glob stmts = Ret out ->
  nth_error stmts i = Some (NCall (NId f) (NList ty args)) ->
  nth_error args j = Some (NAssign k e rg) ->
  (match fold_left learn (firstn i stmts) unassigned (v_text f) with
   | Some (VName h) => h <> $"glob" /\ h <> $"select"
   | _ => False
   end) ->
  value_of (fold_left learn (firstn i stmts) unassigned) e = Some v ->
  exists f' args' e', nth_error out i = Some (NCall f' (NList ty args')) /\
    length args' = length args /\ nth_error args' j = Some (NAssign k e' rg) /\ literal e' v.
Proof. exact argument_value. Qed.
Print Assumptions C20_argument_value.
Example C20_case :
  match parse (nl ["B = ""b"""; "S = [""a"", B + ""c""] + U + [""d""]"; "f(srcs = S + [B])"]) with
  | Ret (stmts, []) =>
      (exists out, elaborate no_glob stmts = Ret out) /\
      match nth_error stmts 2 with
      | Some (NCall _ (NList _ [NAssign _ e _])) =>
          value_of (fold_left learn (firstn 2 stmts) unassigned) e =
          Some (VList LList [VStr ($"a"); VStr ($"bc"); VStr ($"d"); VStr ($"b")])
      | _ => False
      end
  | _ => False
  end.
Proof. vm_compute. split; eauto. Qed.

(** C21. select() with a map is the elaborated value of its first default entry, and
    stays a select() if there is none. *)
Theorem C21_select_default : forall multi_glob level f ty items g n g',
  v_text f = $"select" -> glookup ($"select") g = None ->
  elab multi_glob level (NCall (NId f) (NList ty [NList LMap (map (fun e : view * bool * bool * srange * node =>
     let '(k, t, r, rg, v) := e in NBin TColon (NStr k t r) v rg) items)])) g = Ret (n, g') ->
  match find (fun e => let '(k, _, _, _, _) := e in str_eqb (v_text k) ($"//conditions:default")) items with
  | Some e => elab multi_glob (S level) (snd e) g = Ret (n, g)
  | None => exists args', n = NCall (NId f) args'
  end.
Proof. exact select_literal. Qed.
Print Assumptions C21_select_default.
(** For any arguments: the default entry is searched in the elaborated arguments. *)
Theorem C21_select_any : forall multi_glob level f args g n g',
  v_text f = $"select" -> glookup ($"select") g = None ->
  elab multi_glob level (NCall (NId f) args) g = Ret (n, g') ->
  exists ty args', elab multi_glob (S level) args g = Ret (NList ty args', g) /\ g' = g /\
    n = match default_branch args' with
        | Some r => r
        | None => NCall (NId f) (NList ty args')
        end.
Proof. exact select_spec. Qed.
Print Assumptions C21_select_any.
Example C21_case :
  match parse ($"x = select({""a"" : 1, ""//conditions:default"" : ""v"" + ""w"", ""//conditions:default"" : 3})") with
  | Ret ([NAssign _ (NCall (NId f) (NList ty [NList LMap items])) _], []) =>
      v_text f = $"select" /\ length items = 3 /\
      match elab no_glob 0 (NCall (NId f) (NList ty [NList LMap items])) [] with
      | Ret (NStr v _ _, []) => v_text v = $"vw"
      | _ => False
      end
  | _ => False
  end.
Proof. vm_compute. auto. Qed.

(** C22. The number of statements stays the same; each one stays what it is, up to
    the values of arguments and the right sides of assignments; and one that
    mentions no variable, '+', glob() or select() is not changed at all. *)
Theorem C22_statement_count : forall multi_glob stmts out,
  elaborate multi_glob stmts = Ret out -> length out = length stmts.
Proof. exact statements_kept. Qed.
Print Assumptions C22_statement_count.
Theorem C22_statement_kept : forall multi_glob stmts out i n,
  elaborate multi_glob stmts = Ret out -> nth_error stmts i = Some n ->
  (forall f a, n = NCall f a -> exists v, f = NId v /\
     ~ In (v_text v) (flat_map assigned (firstn i stmts)) /\ v_text v <> $"glob" /\ v_text v <> $"select") ->
  exists n', nth_error out i = Some n' /\ same_statement n n'.
Proof. exact statement_kept. Qed.
Print Assumptions C22_statement_kept.
Theorem C22_untouched : forall multi_glob stmts out i n,
  elaborate multi_glob stmts = Ret out -> nth_error stmts i = Some n ->
  mentions (fun x => existsb (str_eqb x) (flat_map assigned (firstn (S i) stmts))) n = false ->
  nth_error out i = Some n.
Proof. exact statement_untouched. Qed.
Print Assumptions C22_untouched.
Example C22_case :
  match parse (nl ["S = [""a.cc""]"; "f(name = ""x"", srcs = S)"; "g(name = ""y"", n = [1, z])"]) with
  | Ret (stmts, []) =>
      (exists out, elaborate no_glob stmts = Ret out) /\
      match nth_error stmts 2 with
      | Some n => mentions (fun x => existsb (str_eqb x) (flat_map assigned (firstn 3 stmts))) n = false
      | None => False
      end /\
      match nth_error stmts 1 with
      | Some (NCall (NId v) a) => v_text v = $"f" /\ flat_map assigned (firstn 1 stmts) = [$"S"]
      | _ => False
      end
  | _ => False
  end.
Proof. vm_compute. split; eauto. Qed.
(** A function with the name of a variable: the call is read through a node that is
    no identifier. *)
Theorem C22_function_name_refuted : exists content stmts,
  parse content = Ret (stmts, []) /\ elaborate no_glob stmts = UB.
Proof.
  exists (nl ["f = ""a"""; "f(name = ""b"")"]). eexists. split; vm_compute; reflexivity.
Qed.
Print Assumptions C22_function_name_refuted.
