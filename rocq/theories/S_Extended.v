(** Files with more in them. *)
From Verif Require Import Base M_Scanner M_Ast M_Parser S_Elab S_Layout S_Attributes.

(** The statements of the first text, wherever they are now, and after them some more; the second text is without errors,
    and does not call a variable. *)
Definition extended (c c' : str) : Prop := exists stmts errs stmts' extra,
  parse c = Ret (stmts, errs) /\ parse c' = Ret (stmts' ++ extra, []) /\ map bare stmts = map bare stmts' /\
  forall x, In x (flat_map called (stmts' ++ extra)) -> ~ In x (flat_map assigned (stmts' ++ extra)).
