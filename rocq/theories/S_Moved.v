(** Files in which the rules are in another order. *)
From Coq Require Import Permutation.
From Verif Require Import Base M_Scanner M_Ast M_Parser S_Elab S_Layout S_Attributes.

(** f(name = "name", …) with nothing but attributes, and [f] means just that: it is not one of [taken], nor a function with a meaning of its own. *)
Definition plain_rule (taken : list str) (n : node) (name : str) : Prop := exists f ty args k v raw fmt range,
  n = NCall (NId f) (NList ty args) /\ attributes args /\ In (NAssign (NId k) (NStr v raw fmt) range) args /\ v_text k = $"name" /\ v_text v = name /\
  ~ In (v_text f) ([$"package"; $"glob"; $"select"] ++ taken).
(** A name that is the name of the target. *)
Definition proper_name (s : str) : Prop := match s with [] => False | c :: _ => c <> ":"%char end.
(** Two texts without errors: the same beginning, and then the same rules in another order, each with its own name.
    The beginning may have anything in it, also load(), package() and variables. *)
Definition moved (c c' : str) : Prop := exists before rules before' rules' names,
  parse c = Ret (before ++ rules, []) /\ parse c' = Ret (before' ++ rules', []) /\
  map bare before = map bare before' /\ Permutation (map bare rules) (map bare rules') /\
  Forall2 (plain_rule (flat_map assigned before)) rules names /\ NoDup names /\ Forall proper_name names.
