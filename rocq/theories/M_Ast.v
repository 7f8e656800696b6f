(** Syntax trees (/repo/bant/frontend/ast.h, ast.cc). *)
From Verif Require Import Base M_Scanner.

(** A std::string_view held by the tree.  Its identity matters for reporting
    locations: it points either into the content of the parsed file, or into text
    assembled by the elaborator that is registered to be located at a range of the
    file (elaboration.cc:141-155, 224-231). *)
Inductive origin :=
| InFile (off : nat)
| Synth (off len : nat).     (* range of the file it is reported as *)
Record view := mkView { v_text : str; v_org : origin }.
Definition token_view (t : token) : view := mkView (tok_text t) (InFile (tok_off t)).


(** The range of the file a node covers (BinOpNode::source_range(), ast.h:196-198):
    a part of the content, by offset and length. *)
Record srange := mkRange { r_off : nat; r_len : nat }.
Definition token_range (t : token) : srange := mkRange (tok_off t) (length (tok_text t)).

(** ast.h:214, List::Type *)
Inductive ltype := LList | LMap | LTuple.
Definition ltype_eqb (a b : ltype) : bool :=
  match a, b with LList, LList => true | LMap, LMap => true | LTuple, LTuple => true | _, _ => false end.

(** ast.h:48-313, the Node classes.  A [Node *] is a [node]; [NNull] is nullptr.
    Pointers of a more special type (BinOpNode, List, Identifier) are [node]s
    too, and code that relies on the type gives [UB] where the node is of another
    kind.  The nodes of the tool form a DAG after elaboration (a variable's value
    is shared by its uses); no node is changed after it became shared, so trees
    are used here. *)
Inductive node :=
| NNull
| NStr (v : view) (triple raw : bool)             (* StringScalar, ast.h:90-112 *)
| NInt (v : view) (z : Z)                         (* IntScalar, ast.h:114-128 *)
| NId (v : view)                                  (* Identifier, ast.h:130-147 *)
| NUnary (op : toktype) (n : node)                (* UnaryExpr, ast.h:149-165 *)
| NBin (op : toktype) (l r : node) (range : srange) (* BinOpNode, ast.h:187-209 *)
| NList (ty : ltype) (elems : list node)          (* List, ast.h:212-236 *)
| NComp (ty : ltype) (for_node : node)            (* ListComprehension, ast.h:239-256 *)
| NTernary (c p n : node)                         (* Ternary, ast.h:258-276 *)
| NAssign (l r : node) (range : srange)             (* Assignment, ast.h:279-297 *)
| NCall (id args : node).                         (* FunCall, ast.h:300-313 *)

Definition is_null (n : node) : bool := match n with NNull => true | _ => false end.

(** Outcome of code that can hit undefined behaviour.  [OutOfFuel] is an artefact
    of the model; it is proved not to occur. *)
Inductive outcome (A : Type) := Ret (a : A) | UB | OutOfFuel.
Arguments Ret {A} a.
Arguments UB {A}.
Arguments OutOfFuel {A}.
Definition bind {A B} (x : outcome A) (f : A -> outcome B) : outcome B :=
  match x with Ret a => f a | UB => UB | OutOfFuel => OutOfFuel end.
Notation "'do' p <- x ; y" := (bind x (fun p => y))
  (at level 60, p pattern, x at level 60, y at level 61, right associativity,
   only parsing).

(** Induction over trees with the element lists. *)
Fixpoint node_ind' (P : node -> Prop)
  (Hnull : P NNull)
  (Hstr : forall v t r, P (NStr v t r))
  (Hint : forall v z, P (NInt v z))
  (Hid : forall v, P (NId v))
  (Hun : forall op n, P n -> P (NUnary op n))
  (Hbin : forall op l r range, P l -> P r -> P (NBin op l r range))
  (Hlist : forall ty elems, Forall P elems -> P (NList ty elems))
  (Hcomp : forall ty f, P f -> P (NComp ty f))
  (Htern : forall c p n, P c -> P p -> P n -> P (NTernary c p n))
  (Hassign : forall l r range, P l -> P r -> P (NAssign l r range))
  (Hcall : forall id args, P id -> P args -> P (NCall id args))
  (n : node) {struct n} : P n :=
  let rec := node_ind' P Hnull Hstr Hint Hid Hun Hbin Hlist Hcomp Htern Hassign Hcall in
  match n with
  | NNull => Hnull
  | NStr v t r => Hstr v t r
  | NInt v z => Hint v z
  | NId v => Hid v
  | NUnary op m => Hun op m (rec m)
  | NBin op l r range => Hbin op l r range (rec l) (rec r)
  | NList ty elems =>
      Hlist ty elems ((fix go (l : list node) : Forall P l :=
                         match l with
                         | [] => Forall_nil P
                         | x :: l => Forall_cons x (rec x) (go l)
                         end) elems)
  | NComp ty f => Hcomp ty f (rec f)
  | NTernary c p m => Htern c p m (rec c) (rec p) (rec m)
  | NAssign l r range => Hassign l r range (rec l) (rec r)
  | NCall id args => Hcall id args (rec id) (rec args)
  end.
