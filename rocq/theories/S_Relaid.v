(** A file system in which the layout of files has been changed. *)
From Verif Require Import Base M_Types M_Workspace M_Project M_Commands M_System S_Layout.

(** Each file is as before, or has another layout; [may]: both versions of those are such. *)
Definition relaid (may : str -> Prop) (content content' : str -> option str) : Prop := forall f,
  match content f, content' f with
  | Some c, Some c' => c = c' \/ (reformatted c c' /\ may c /\ may c')
  | None, None => True
  | _, _ => False
  end.
Definition with_content (fs : file_system) (content : str -> option str) : file_system :=
  mkFs (fs_list fs) (fs_stat fs) (fs_link fs) (fs_can_read fs) (fs_glob fs) content (fs_cwd fs).
(** The commands that show where things are in the files. *)
Definition shows_places (fl : flags) (cmd : command) : bool :=
  match cmd with
  | CPrint | CListTargets => true
  | CParse => fl_print_ast fl || fl_print_only_errors fl
  | _ => false
  end.
Definition commanded (args : list str) (cmd : command) : Prop :=
  exists word rest, args = word :: rest /\ find_command command_names word = Found cmd.
