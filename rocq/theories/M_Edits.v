(** Edits of dependencies: the buildozer script (/repo/bant/tool/edit-callback.cc) and the
    canonicalize command (/repo/bant/tool/canon-targets.cc). *)
From Verif Require Import Base OMap M_Types M_Scanner M_Ast M_Query M_Project M_Dwyu.

(** edit-callback.h:30-34, EditRequest. *)
Inductive edit_request := KRemove | KAdd | KRename.
(** The arguments of an EditCallback, edit-callback.h:47-49. *)
Record edit := mkEdit { e_request : edit_request; e_target : target; e_before : str; e_after : str }.
(** edit-callback.cc:26-44, CreateBuildozerDepsEditCallback: what is written for an edit. *)
Definition buildozer_line (e : edit) : str :=
  match e_request e with
  | KRemove => $"buildozer 'remove deps " ++ e_before e ++ $"' " ++ target_to_string (e_target e) ++ [NL]
  | KAdd => $"buildozer 'add deps " ++ e_after e ++ $"' " ++ target_to_string (e_target e) ++ [NL]
  | KRename =>
      $"buildozer 'replace deps " ++ e_before e ++ $" " ++ e_after e ++ $"' " ++ target_to_string (e_target e) ++ [NL]
  end.
Definition buildozer_script (edits : list edit) : str := flat_map buildozer_line edits.

(** dwyu.cc:496 and 519: the edits among the events of M_Dwyu. *)
Definition edit_of_event (e : event) : list edit :=
  match e with
  | EvRemove t label => [mkEdit KRemove t label []]
  | EvAdd t label => [mkEdit KAdd t [] label]
  | _ => []
  end.
Definition edits_of_events (evs : list event) : list edit := flat_map edit_of_event evs.

(** ** canon-targets.cc *)
(** An edit, or the message about an invalid label of line 58; the location printed with
    it is not modelled. *)
Inductive canon_event := CanonEdit (e : edit) | CanonInvalid (label : str).
(** canon-targets.cc:53-68: one dependency of [self]. *)
Definition canon_dep (p : package) (self : target) (dep : str) : list canon_event :=
  match parse_target dep p with
  | None => [CanonInvalid dep]
  | Some t =>
      if negb (str_eqb dep (target_to_string_rel t p))
      then [CanonEdit (mkEdit KRename self dep (target_to_string_rel t p))] else []
  end.
(** canon-targets.cc:42-51: the rules of a package. *)
Fixpoint canon_rules (pt : pattern) (p : package) (rs : list result) : outcome (list canon_event) :=
  match rs with
  | [] => Ret []
  | r :: rs =>
      match qualified_target p (v_text (q_name r)) with
      | Some self =>
          if match_target pt self then
            do deps <- extract_string_list (q_deps r);
            do evs <- canon_rules pt p rs;
            Ret (flat_map (canon_dep p self) (map v_text deps) ++ evs)
          else canon_rules pt p rs
      | None => canon_rules pt p rs
      end
  end.
(** canon-targets.cc:37-73: the packages. *)
Fixpoint canon_files (pt : pattern) (files : list (package * parsed_file)) : outcome (list canon_event) :=
  match files with
  | [] => Ret []
  | (_, f) :: files =>
      if match_package pt (pf_package f) then
        do rs <- find_targets [] (pf_ast f);
        do evs <- canon_rules pt (pf_package f) rs;
        do evs' <- canon_files pt files;
        Ret (evs ++ evs')
      else canon_files pt files
  end.
(** canon-targets.cc:29-75, CreateCanonicalizeEdits. *)
Definition canonicalize_edits (pr : parsed_project) (pt : pattern) : outcome (list canon_event) :=
  canon_files pt (pr_files pr).
Definition edits_of_canon (evs : list canon_event) : list edit :=
  flat_map (fun e => match e with CanonEdit e => [e] | CanonInvalid _ => [] end) evs.
