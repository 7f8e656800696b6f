(** Model of /repo/bant/types-bazel.{h,cc}: packages, targets, patterns. *)
From Verif Require Import Base OMap M_Regex.

(** types-bazel.h:35-63, struct BazelPackage. *)
Record package := mkPackage { project : str; path : str }.
(** types-bazel.h:69-97, class BazelTarget. *)
Record target := mkTarget { tpackage : package; tname : str }.

(** types-bazel.h:59,86: defaulted operator<=> compares members in order. *)
#[export] Instance package_key : OrdKey package.
Proof.
  refine (key_via (fun p => (project p, path p)) _).
  intros [a b] [c d]; simpl; congruence.
Defined.
#[export] Instance target_key : OrdKey target.
Proof.
  refine (key_via (fun t => (tpackage t, tname t)) _).
  intros [a b] [c d]; simpl; congruence.
Defined.

(** types-bazel.h:61,88: defaulted operator==. *)
Definition package_eqb (a b : package) : bool :=
  str_eqb (project a) (project b) && str_eqb (path a) (path b).
Definition target_eqb (a b : target) : bool :=
  package_eqb (tpackage a) (tpackage b) && str_eqb (tname a) (tname b).

(** types-bazel.cc:36-38, BazelPackage::ToString. *)
Definition package_to_string (p : package) : str := project p ++ $"//" ++ path p.

(** types-bazel.cc:40-46, BazelPackage::QualifiedTarget. *)
Definition qualified_target (p : package) (name : str) : option target :=
  match name with
  | [] => None
  | c :: r =>
      let name := if ceqb c ":" then r else name in
      match name with
      | [] => None
      | _ => Some (mkTarget p name)
      end
  end.

(** types-bazel.cc:48-54, BazelPackage::QualifiedFile. *)
Definition qualified_file (p : package) (relative_file : str) : str :=
  let relative_file :=
    match relative_file with
    | c :: r => if ceqb c ":" then r else relative_file
    | [] => relative_file
    end in
  if is_nil (path p) then relative_file
  else path p ++ $"/" ++ relative_file.

(** types-bazel.cc:69-99, BazelPackage::ParseFrom.  [str.substr(0, npos)] is the
    whole string. *)
Definition parse_package (s : str) : option package :=
  let s := prefix_upto s (find_last ":" s) in
  if length s <? 2 then None
  else
    let '(proj, pth) :=
      if starts_with ($"@") s then
        let proj := prefix_upto s (find_first "/" s) in
        let pth := skipn (length proj) s in
        (if str_eqb proj ($"@") then [] else proj, pth)
      else ([], s) in
    let pth := strip_back "/" (strip_front "/" pth) in
    if contains ($"//") pth then None
    else Some (mkPackage (prefix_upto proj (find_first "~" proj)) pth).

(** types-bazel.cc:101-144, BazelTarget::ParseFrom. *)
Definition parse_target (s : str) (context : package) : option target :=
  match
    match split ":" s with
    | [pkg] =>
        match find_last "/" pkg with
        | Some last_slash => Some (pkg, skipn (last_slash + 1) pkg)
        | None =>
            if starts_with ($"@") pkg then Some (pkg, skipn 1 pkg) else Some ([], s)
        end
    | [pkg; tgt] => Some (pkg, tgt)
    | _ => None
    end
  with
  | None => None
  | Some (pkg, tgt) =>
      if is_nil pkg then Some (mkTarget context tgt)
      else
        match parse_package pkg with
        | None => None
        | Some p =>
            let p := if is_nil (project p) then mkPackage (project context) (path p) else p in
            Some (mkTarget p tgt)
        end
  end.

(** types-bazel.cc:146-158, PackageLastElement.  [substr(1)] on a non-empty
    project cannot throw. *)
Definition package_last_element (p : package) : str :=
  match find_last "/" (path p) with
  | Some pos => skipn (pos + 1) (path p)
  | None =>
      if negb (is_nil (path p)) then path p
      else if negb (is_nil (project p)) then skipn 1 (project p)
      else []
  end.

(** types-bazel.cc:160-168, BazelTarget::ToString. *)
Definition target_to_string (t : target) : str :=
  if str_eqb (package_last_element (tpackage t)) (tname t) then
    if is_nil (path (tpackage t)) then project (tpackage t)
    else package_to_string (tpackage t)
  else package_to_string (tpackage t) ++ $":" ++ tname t.

(** types-bazel.cc:170-174, BazelTarget::ToStringRelativeTo. *)
Definition target_to_string_rel (t : target) (other : package) : str :=
  if negb (package_eqb other (tpackage t)) then target_to_string t
  else $":" ++ tname t.

(** types-bazel.h:134-140, MatchKind, with the compiled regular expression of
    kTargetRegex attached to it. *)
Inductive match_kind :=
| KExact
| KTargetRegex (r : regex)
| KAllTargetInPackage
| KRecursive
| KAlwaysMatch.

(** types-bazel.h:109-149, class BazelPattern. *)
Record pattern := mkPattern { pat_target : target; pat_kind : match_kind }.

(** types-bazel.cc:176, default constructor. *)
Definition pattern_always : pattern :=
  mkPattern (mkTarget (mkPackage [] []) []) KAlwaysMatch.

(** types-bazel.h:122-128. *)
Definition is_recursive (p : pattern) : bool :=
  match pat_kind p with KRecursive | KAlwaysMatch => true | _ => false end.
Definition is_matchall (p : pattern) : bool :=
  match pat_kind p with KAlwaysMatch => true | _ => false end.
Definition pat_path (p : pattern) : str := path (tpackage (pat_target p)).
Definition pat_project (p : pattern) : str := project (tpackage (pat_target p)).

(** types-bazel.cc:202-217, GlobbingToRE2: the text of the expression.  The
    loop is a structural recursion over the glob, [piece] collecting the text
    since the last '*' (reversed); [pos > 0] is [piece <> []]. *)
Fixpoint globbing_text (glob : str) (piece : str) (is_first : bool) : str :=
  match glob with
  | [] => rev piece                      (* line 215: appended unquoted *)
  | c :: g =>
      if ceqb c "*" then
        quote_meta (rev piece)
          ++ (if is_first || negb (is_nil piece) then $".*" else [])
          ++ globbing_text g [] false
      else globbing_text g (c :: piece) is_first
  end.
Definition globbing_to_re2 (glob : str) : re_result :=
  re2_compile (globbing_text glob [] true).

(** Result of parsing a pattern; [PatUnmodelled] if the expression is outside
    the modelled RE2 syntax. *)
Inductive pattern_result :=
| PatOk (p : pattern)
| PatNone                                (* std::nullopt *)
| PatUnmodelled.

(** types-bazel.cc:219-264, BazelPattern::ParseFrom(pattern, context). *)
Definition parse_pattern_in (s : str) (context : package) : pattern_result :=
  match parse_target s context with
  | None => PatNone
  | Some t =>
      let clear p := mkTarget p [] in
      let p := tpackage t in
      if str_eqb (tname t) ($"__pkg__") || str_eqb (tname t) ($"all")
         || str_eqb (tname t) ($"*") then
        PatOk (mkPattern (clear p) KAllTargetInPackage)
      else if str_eqb (tname t) ($"__subpackages__") then
        PatOk (mkPattern (clear p) KRecursive)
      else if str_eqb (path p) ($"...") || ends_with ($"/...") (path p) then
        let n := length (path p) in
        let pth := if 3 <=? n then firstn (if 3 <? n then n - 4 else n - 3) (path p)
                   else path p in
        PatOk (mkPattern (clear (mkPackage (project p) pth)) KRecursive)
      else if str_eqb (tname t) ($"...") then
        if negb (is_nil (path p)) then PatNone
        else PatOk (mkPattern (clear p) KRecursive)
      else if contains_char "*" (tname t) then
        match globbing_to_re2 (tname t) with
        | ReOk r => PatOk (mkPattern (clear p) (KTargetRegex r))
        | ReError => PatNone
        | ReUnmodelled => PatUnmodelled
        end
      else PatOk (mkPattern t KExact)
  end.

(** types-bazel.cc:197-200, BazelPattern::ParseFrom(pattern). *)
Definition parse_pattern (s : str) : pattern_result :=
  parse_pattern_in s (mkPackage [] []).

(** types-bazel.cc:178-195, BazelPattern::ParseVisibility. *)
Definition parse_visibility (s : str) (context : package) : pattern_result :=
  if str_eqb s ($"//visibility:public") then PatOk pattern_always
  else if str_eqb s ($"//visibility:private") then
    match parse_target [] context with
    | None => PatNone
    | Some t => PatOk (mkPattern t KAllTargetInPackage)
    end
  else if negb (ends_with ($"...") s) && negb (ends_with ($"__") s) then
    PatOk pattern_always
  else parse_pattern_in s context.

(** types-bazel.cc:292-313, BazelPattern::Match(package).
    [to_match.at(me.length())] is only evaluated when [me] is a proper prefix,
    hence never throws. *)
Definition match_package (pt : pattern) (p : package) : bool :=
  let me_pkg := tpackage (pat_target pt) in
  match pat_kind pt with
  | KAlwaysMatch => true
  | KExact | KTargetRegex _ | KAllTargetInPackage => package_eqb p me_pkg
  | KRecursive =>
      if negb (str_eqb (project p) (project me_pkg)) then false
      else
        let me := path me_pkg in
        if is_nil me then true
        else starts_with me (path p)
             && ((length me =? length (path p))
                 || match nth_error (path p) (length me) with
                    | Some c => ceqb c "/"
                    | None => false
                    end)
  end.

(** types-bazel.cc:272-290, BazelPattern::Match(target). *)
Definition match_target (pt : pattern) (t : target) : bool :=
  match pat_kind pt with
  | KAlwaysMatch => true
  | KExact => target_eqb t (pat_target pt)
  | KTargetRegex r =>
      if negb (package_eqb (tpackage t) (tpackage (pat_target pt))) then false
      else full_match r (tname t)
  | KAllTargetInPackage => package_eqb (tpackage t) (tpackage (pat_target pt))
  | KRecursive => match_package pt (tpackage t)
  end.
