(** Specification of queries for rules, independent of the visitor. *)
From Verif Require Import Base M_Scanner M_Ast M_Query.

(** The calls of a file that count as rules: not inside other calls and not on the
    right of an assignment; in the order of the file. *)
Fixpoint rule_calls (n : node) : list node :=
  match n with
  | NNull | NStr _ _ _ | NInt _ _ | NId _ | NAssign _ _ _ => []
  | NCall _ _ => [n]
  | NUnary _ n => rule_calls n
  | NBin _ l r _ => rule_calls l ++ rule_calls r
  | NList _ l => flat_map rule_calls l
  | NComp _ f => rule_calls f
  | NTernary c p n => rule_calls c ++ rule_calls p ++ rule_calls n
  end.

(** The keyword arguments given in an argument, with their values. *)
Fixpoint kwargs (n : node) : list (str * node) :=
  match n with
  | NNull | NStr _ _ _ | NInt _ _ | NId _ => []
  | NAssign l r _ => match l with NId k => [(v_text k, r)] | _ => [] end
  | NCall _ a => kwargs a
  | NUnary _ n => kwargs n
  | NBin _ l r _ => kwargs l ++ kwargs r
  | NList _ l => flat_map kwargs l
  | NComp _ f => kwargs f
  | NTernary c p n => kwargs c ++ kwargs p ++ kwargs n
  end.

(** The last value of the keyword of the kind selected by [f]. *)
Definition last_value {A} (f : node -> option A) (key : str) (kws : list (str * node)) : option A :=
  hd_error (flat_map (fun kv => if str_eqb (fst kv) key then match f (snd kv) with Some a => [a] | None => [] end else [])
              (rev kws)).
Definition as_text (n : node) : option view :=
  match n with NStr v _ _ => Some v | NInt v _ => Some v | _ => None end.
Definition as_list (n : node) : option (list node) :=
  match n with NList _ l => Some l | _ => None end.
Definition as_flag (n : node) : option bool :=
  match n with
  | NStr _ _ _ => Some false
  | NInt _ z => Some (negb (z =? 0)%Z)
  | NId v => Some (str_eqb (v_text v) ($"True"))
  | _ => None
  end.
Definition text_or_empty (o : option view) : view := match o with Some v => v | None => no_view end.
Definition flag_or_false (o : option bool) : bool := match o with Some b => b | None => false end.

(** A rule as described by its keyword arguments. *)
Definition described (n : node) (rule : view) (kws : list (str * node)) : result :=
  let text k := text_or_empty (last_value as_text ($k) kws) in
  let lst k := last_value as_list ($k) kws in
  let flag k := flag_or_false (last_value as_flag ($k) kws) in
  mkResult n rule (text "name"%string) (text "actual"%string) (text "include_prefix"%string)
    (text "strip_include_prefix"%string) (text "version"%string) (text "repo_name"%string)
    (text "deprecation"%string) (flag "alwayslink"%string) (flag "testonly"%string)
    (lst "srcs"%string) (lst "hdrs"%string) (lst "textual_hdrs"%string) (lst "public_hdrs"%string)
    (lst "deps"%string) (lst "includes"%string) (lst "outs"%string) (lst "visibility"%string).

(** As handed out: the default visibility applies if there is none, and a cc_library
    without headers is linked always. *)
Definition completed (vis : option (list node)) (r : result) : result :=
  mkResult (q_node r) (q_rule r) (q_name r) (q_actual r) (q_include_prefix r) (q_strip_include_prefix r)
    (q_version r) (q_repo_name r) (q_deprecation r)
    (q_alwayslink r || (str_eqb (v_text (q_rule r)) ($"cc_library") &&
                        match q_hdrs r with None | Some [] => true | _ => false end))
    (q_testonly r) (q_srcs r) (q_hdrs r) (q_textual_hdrs r) (q_public_hdrs r) (q_deps r) (q_includes r)
    (q_outs r) (match q_visibility r with Some v => Some v | None => vis end).

(** What is reported for a list of rule calls; [vis] is the default visibility so
    far. *)
Fixpoint reported (interest : list str) (allow_empty : bool) (vis : option (list node))
    (calls : list node) : list result :=
  match calls with
  | NCall (NId f) (NList _ args) as n :: calls =>
      let kws := flat_map kwargs args in
      if str_eqb (v_text f) ($"package") then
        reported interest allow_empty
          (match last_value as_list ($"default_visibility") kws with Some v => Some v | None => vis end) calls
      else
        let r := described n f kws in
        (if is_nil interest || existsb (str_eqb (v_text f)) interest then
           if allow_empty || negb (is_nil (v_text (q_name r))) then [completed vis r] else []
         else [])
        ++ reported interest allow_empty vis calls
  | _ => []
  end.

(** A call with a name and a list of arguments. *)
Definition proper_call (n : node) : Prop :=
  exists f ty args, n = NCall (NId f) (NList ty args).

(** A rule call that matches: not package(), of interest, and with a name. *)
Definition call_keywords (n : node) : list (str * node) :=
  match n with NCall _ (NList _ args) => flat_map kwargs args | _ => [] end.
Definition call_name (n : node) : str := match n with NCall (NId f) _ => v_text f | _ => [] end.
Definition rule_name (n : node) : str :=
  match last_value as_text ($"name") (call_keywords n) with Some v => v_text v | None => [] end.
Definition matching (interest : list str) (allow_empty : bool) (n : node) : bool :=
  negb (str_eqb (call_name n) ($"package")) &&
  (is_nil interest || existsb (str_eqb (call_name n)) interest) &&
  (allow_empty || negb (is_nil (rule_name n))).
(** The keywords of the package() calls. *)
Definition package_keywords (calls : list node) : list (str * node) :=
  flat_map (fun n => if str_eqb (call_name n) ($"package") then call_keywords n else []) calls.
(** All lists of nodes in a result. *)
Definition result_lists (r : result) : list (list node) :=
  flat_map (fun o => match o with Some l => [l] | None => [] end)
    [q_srcs r; q_hdrs r; q_textual_hdrs r; q_public_hdrs r; q_deps r; q_includes r; q_outs r; q_visibility r].
