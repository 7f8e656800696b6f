(** Specification for C73: what has to be the case for the program to come to an end without crashing. *)
From Coq Require Import NArith.
From Verif Require Import Base M_Types M_Scanner M_Ast M_Parser M_Query S_Elab M_Workspace M_Project M_DepGraph S_DepGraph S_CompDb M_Walk S_Walk S_Run M_Commands M_Main M_System.

(** The name of a BUILD file. *)
Definition build_name (f : str) : Prop := exists d, f = d ++ $"/BUILD" \/ f = d ++ $"/BUILD.bazel".
(** The BUILD files have no syntax errors, and in these no function that is called has the name of a
    variable; BUILD files that may be read can be read: they are not directories. *)
Definition proper_files (fs : file_system) : Prop :=
  (forall f content, build_name f -> fs_content fs f = Some content -> good_content called assigned content) /\
  (forall f, build_name f -> fs_can_read fs f = true -> exists content, fs_content fs f = Some content).
(** No directory of an external project is written with a slash at the end. *)
Definition workspace_in (fs : file_system) : workspace -> Prop := the_workspace (is_dir fs) (fs_can_read fs) (fs_glob fs) (fs_content fs).
Definition proper_workspace (fs : file_system) : Prop :=
  forall w vp d, workspace_in fs w -> In (vp, d) w -> forall r, d <> r ++ $"/".
(** The file is the BUILD file of the package: it was found for a pattern, or looked up for a dependency. *)
Definition build_file_for (fs : file_system) (w : workspace) (p : package) (f : str) : Prop :=
  (exists proj, package_of_build_file w f proj = Ret (Some p)) \/ path_for_package w (fs_can_read fs) p = Some f.
(** A rule in a BUILD file that has no usable name, or the attribute include_prefix in the
    main project. *)
Definition troublesome_rule (fs : file_system) : Prop :=
  exists w name content stmts tree rs p r, workspace_in fs w /\ build_name name /\ build_file_for fs w p name /\
    fs_content fs name = Some content /\ parse content = Ret (stmts, []) /\
    (exists files, M_Elab.elaborate files stmts = Ret tree) /\ find_targets include_kinds tree = Ret rs /\ In r rs /\ crashing p r.
(** The commands that write compilation flags. *)
Definition about_flags (cmd : command) : bool := match cmd with CCompilationDb | CCompileFlags => true | _ => false end.
(** The decimal number after spaces and a sign is out of the range of int. *)
Definition number_of (digits : str) : Z := fold_left (fun a c => 10 * a + Z.of_nat (nat_of_ascii c - 48))%Z digits 0%Z.
Definition too_big (s : str) : Prop := exists spaces sign digits rest, s = spaces ++ sign ++ digits ++ rest /\
  Forall (fun c => is_space c = true) spaces /\ Forall (fun c => is_digit c = true) digits /\
  ((sign = [] \/ sign = $"+") /\ (2147483647 < number_of digits)%Z \/ sign = $"-" /\ (2147483648 < number_of digits)%Z).
