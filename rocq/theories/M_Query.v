(** Looking for rules in a syntax tree (/repo/bant/explore/query-utils.cc, .h). *)
From Verif Require Import Base M_Scanner M_Ast.

(** ast.h:53-58: the casts; calling one on a null pointer is undefined behaviour. *)
Definition cast_list (n : node) : outcome (option (ltype * list node)) :=
  match n with NNull => UB | NList ty l => Ret (Some (ty, l)) | _ => Ret None end.
(** ast.h:68-88: a Scalar by type() == kString and AsString(). *)
Definition cast_scalar (n : node) : outcome (option (bool * view)) :=
  match n with
  | NNull => UB
  | NStr v _ _ => Ret (Some (true, v))
  | NInt v _ => Ret (Some (false, v))
  | _ => Ret None
  end.
(** ast.h:190; an Assignment is a BinOpNode too. *)
Definition cast_binop (n : node) : outcome (option (toktype * node * node)) :=
  match n with
  | NNull => UB
  | NBin op l r _ => Ret (Some (op, l, r))
  | NAssign l r _ => Ret (Some (TAssign, l, r))
  | _ => Ret None
  end.

(** query-utils.cc:191-206, AppendStringList and ExtractStringList; a null list
    pointer is an empty list here ([opt_elems]). *)
Fixpoint string_list (l : list node) : outcome (list view) :=
  match l with
  | [] => Ret []
  | n :: l =>
      do s <- cast_scalar n;
      do rest <- string_list l;
      match s with
      | Some (_, v) => Ret (if is_nil (v_text v) then rest else v :: rest)
      | None => Ret rest
      end
  end.
Definition opt_elems (l : option (list node)) : list node :=
  match l with Some l => l | None => [] end.
Definition extract_string_list (l : option (list node)) : outcome (list view) :=
  string_list (opt_elems l).

(** query-utils.h:33-62, struct Result.  Lists are None for nullptr; views that were
    never assigned are empty views without location.  Numbers are int64_t assigned
    to bool. *)
Record result := mkResult {
  q_node : node;
  q_rule : view;
  q_name : view;
  q_actual : view;
  q_include_prefix : view;
  q_strip_include_prefix : view;
  q_version : view;
  q_repo_name : view;
  q_deprecation : view;
  q_alwayslink : bool;
  q_testonly : bool;
  q_srcs : option (list node);
  q_hdrs : option (list node);
  q_textual_hdrs : option (list node);
  q_public_hdrs : option (list node);
  q_deps : option (list node);
  q_includes : option (list node);
  q_outs : option (list node);
  q_visibility : option (list node) }.
Definition no_view : view := mkView [] (InFile 0).
Definition empty_result (n : node) (rule : view) : result :=
  mkResult n rule no_view no_view no_view no_view no_view no_view no_view false false
    None None None None None None None None.

(** query-utils.cc:69-73 *)
Inductive relevancy := NotRelevant | UserQuery | PackageInfo.

(** The members of TargetFinder, query-utils.cc:163-175, and the results handed to
    the callback so far, in order. *)
Record finder := mkFinder {
  f_rel : relevancy;
  f_cur : result;
  f_default_visibility : option (list node);
  f_out : list result }.

(** Assignments to fields of the current result; query-utils.cc:92-138. *)
Definition set_scalar (lhs : str) (is_string : bool) (v : view) (int : Z) (r : result) : result :=
  let '(mkResult nd ru na ac ip sp ve rn de al te sr hd th ph dp ic ou vi) := r in
  if str_eqb lhs ($"name") then mkResult nd ru v ac ip sp ve rn de al te sr hd th ph dp ic ou vi
  else if str_eqb lhs ($"alwayslink") then mkResult nd ru na ac ip sp ve rn de (negb (int =? 0)%Z) te sr hd th ph dp ic ou vi
  else if str_eqb lhs ($"testonly") then mkResult nd ru na ac ip sp ve rn de al (negb (int =? 0)%Z) sr hd th ph dp ic ou vi
  else if str_eqb lhs ($"include_prefix") then mkResult nd ru na ac v sp ve rn de al te sr hd th ph dp ic ou vi
  else if str_eqb lhs ($"strip_include_prefix") then mkResult nd ru na ac ip v ve rn de al te sr hd th ph dp ic ou vi
  else if str_eqb lhs ($"version") then mkResult nd ru na ac ip sp v rn de al te sr hd th ph dp ic ou vi
  else if str_eqb lhs ($"repo_name") then mkResult nd ru na ac ip sp ve v de al te sr hd th ph dp ic ou vi
  else if str_eqb lhs ($"actual") then mkResult nd ru na v ip sp ve rn de al te sr hd th ph dp ic ou vi
  else if str_eqb lhs ($"deprecation") then mkResult nd ru na ac ip sp ve rn v al te sr hd th ph dp ic ou vi
  else r.
Definition set_list (lhs : str) (l : list node) (r : result) : result :=
  let '(mkResult nd ru na ac ip sp ve rn de al te sr hd th ph dp ic ou vi) := r in
  if str_eqb lhs ($"hdrs") then mkResult nd ru na ac ip sp ve rn de al te sr (Some l) th ph dp ic ou vi
  else if str_eqb lhs ($"srcs") then mkResult nd ru na ac ip sp ve rn de al te (Some l) hd th ph dp ic ou vi
  else if str_eqb lhs ($"deps") then mkResult nd ru na ac ip sp ve rn de al te sr hd th ph (Some l) ic ou vi
  else if str_eqb lhs ($"includes") then mkResult nd ru na ac ip sp ve rn de al te sr hd th ph dp (Some l) ou vi
  else if str_eqb lhs ($"outs") then mkResult nd ru na ac ip sp ve rn de al te sr hd th ph dp ic (Some l) vi
  else if str_eqb lhs ($"visibility") then mkResult nd ru na ac ip sp ve rn de al te sr hd th ph dp ic ou (Some l)
  else if str_eqb lhs ($"textual_hdrs") then mkResult nd ru na ac ip sp ve rn de al te sr hd (Some l) ph dp ic ou vi
  else if str_eqb lhs ($"public_hdrs") then mkResult nd ru na ac ip sp ve rn de al te sr hd th (Some l) dp ic ou vi
  else r.
Definition set_identifier (lhs : str) (id : str) (r : result) : result :=
  let '(mkResult nd ru na ac ip sp ve rn de al te sr hd th ph dp ic ou vi) := r in
  if str_eqb lhs ($"alwayslink") then mkResult nd ru na ac ip sp ve rn de (str_eqb id ($"True")) te sr hd th ph dp ic ou vi
  else if str_eqb lhs ($"testonly") then mkResult nd ru na ac ip sp ve rn de al (str_eqb id ($"True")) sr hd th ph dp ic ou vi
  else r.

(** query-utils.cc:87-138, ExtractQueryInfo. *)
Definition extract_query_info (lhs value : node) (r : result) : result :=
  match lhs with
  | NId k =>
      match value with
      | NStr v _ _ => set_scalar (v_text k) true v 0 r
      | NInt v z => set_scalar (v_text k) false v z r
      | NList _ l => set_list (v_text k) l r
      | NId i => set_identifier (v_text k) (v_text i) r
      | _ => r
      end
  | _ => r
  end.
(** query-utils.cc:76-84, ExtractPackageInfo. *)
Definition extract_package_info (lhs value : node) (vis : option (list node)) : option (list node) :=
  match lhs, value with
  | NId k, NList _ l => if str_eqb (v_text k) ($"default_visibility") then Some l else vis
  | _, _ => vis
  end.

Section Finder.
Variable of_interest : list str.
Variable allow_empty_name : bool.

(** query-utils.cc:156-161 *)
Definition is_relevant (name : str) : relevancy :=
  if str_eqb name ($"package") then PackageInfo
  else if is_nil of_interest then UserQuery
  else if existsb (str_eqb name) of_interest then UserQuery else NotRelevant.

(** query-utils.cc:140-154, InformCaller. *)
Definition inform_caller (st : finder) : finder :=
  let r := f_cur st in
  if negb allow_empty_name && is_nil (v_text (q_name r)) then st
  else
    let '(mkResult nd ru na ac ip sp ve rn de al te sr hd th ph dp ic ou vi) := r in
    let al := if str_eqb (v_text ru) ($"cc_library") && is_nil (opt_elems hd) then true else al in
    let vi := match vi with None => f_default_visibility st | Some _ => vi end in
    let r := mkResult nd ru na ac ip sp ve rn de al te sr hd th ph dp ic ou vi in
    mkFinder (f_rel st) r (f_default_visibility st) (f_out st ++ [r]).

Section Elements.
Variable visit : node -> finder -> outcome finder.
Fixpoint visit_elems (l : list node) (st : finder) : outcome finder :=
  match l with [] => Ret st | n :: l => do st <- visit n st; visit_elems l st end.
End Elements.

(** query-utils.cc:39-66 and ast.h:337-363, the visitor.  [UB] where the function
    name or the argument list of a call is not of the type it is cast to. *)
Fixpoint visit (n : node) (st : finder) : outcome finder :=
  match n with
  | NNull | NStr _ _ _ | NInt _ _ | NId _ => Ret st
  | NUnary _ n => visit n st
  | NBin _ l r _ => do st <- visit l st; visit r st
  | NList _ elems => visit_elems visit elems st
  | NComp _ f => visit f st
  | NTernary c p n => do st <- visit c st; do st <- visit p st; visit n st
  | NAssign l r _ =>
      Ret (match f_rel st with
           | PackageInfo =>
               mkFinder (f_rel st) (f_cur st) (extract_package_info l r (f_default_visibility st)) (f_out st)
           | UserQuery =>
               mkFinder (f_rel st) (extract_query_info l r (f_cur st)) (f_default_visibility st) (f_out st)
           | NotRelevant => st
           end)
  | NCall id args =>
      match f_rel st with
      | NotRelevant =>
          match id with
          | NId v =>
              let rel := is_relevant (v_text v) in
              match rel with
              | NotRelevant => Ret st
              | _ =>
                  let st := mkFinder rel (empty_result n v) (f_default_visibility st) (f_out st) in
                  match args with
                  | NList _ elems =>
                      do st <- visit_elems visit elems st;
                      let st := match rel with UserQuery => inform_caller st | _ => st end in
                      Ret (mkFinder NotRelevant (f_cur st) (f_default_visibility st) (f_out st))
                  | _ => UB
                  end
              end
          | _ => UB
          end
      | _ => visit args st
      end
  end.

Definition initial_finder : finder :=
  mkFinder NotRelevant (empty_result NNull no_view) None [].
(** query-utils.cc:179-189: FindTargets (without [allow_empty_name]) and
    FindTargetsAllowEmptyName on a file's list of statements: the results in the
    order the callback gets them. *)
Definition find_targets_in (stmts : list node) : outcome (list result) :=
  do st <- visit (NList LList stmts) initial_finder; Ret (f_out st).
End Finder.
Definition find_targets (of_interest : list str) (stmts : list node) : outcome (list result) :=
  find_targets_in of_interest false stmts.
Definition find_targets_allow_empty (of_interest : list str) (stmts : list node) : outcome (list result) :=
  find_targets_in of_interest true stmts.
