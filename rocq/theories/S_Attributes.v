(** Files in which the attributes of rules are in another order. *)
From Coq Require Import Permutation.
From Verif Require Import Base M_Scanner M_Ast M_Parser S_Layout.

(** name = value *)
Definition attribute_name (n : node) : option str := match n with NAssign (NId k) _ _ => Some (v_text k) | _ => None end.
(** Nothing but attributes, each of them once. *)
Definition attributes (args : list node) : Prop := exists names, map attribute_name args = map Some names /\ NoDup names.
(** A call with nothing but attributes, and the same call with these in another order. *)
Definition reordered (n n' : node) : Prop := exists f ty args args',
  n = NCall (NId f) (NList ty args) /\ n' = NCall (NId f) (NList ty args') /\ attributes args /\ Permutation args args'.
(** The same statements, wherever they are, but for the order of attributes. *)
Definition node_alike (n n' : node) : Prop := bare n = bare n' \/ reordered (bare n) (bare n').
Definition statements_alike (l l' : list node) : Prop := Forall2 node_alike l l'.
(** The texts of two files with these statements, without errors. *)
Definition rearranged (c c' : str) : Prop := exists l l', parse c = Ret (l, []) /\ parse c' = Ret (l', []) /\ statements_alike l l'.

(** Each file is as before or changed so; [may]: both versions of the changed ones are such. *)
Definition changed (same : str -> str -> Prop) (may : str -> Prop) (content content' : str -> option str) : Prop := forall f,
  match content f, content' f with
  | Some c, Some c' => c = c' \/ (same c c' /\ may c /\ may c')
  | None, None => True
  | _, _ => False
  end.
