(** Specification vocabulary for elaboration, independent of the elaborator. *)
From Verif Require Import Base M_Scanner M_Ast.

(** Variables assigned somewhere in a tree, outside calls. *)
Fixpoint assigned (n : node) : list str :=
  match n with
  | NNull | NStr _ _ _ | NInt _ _ | NId _ | NCall _ _ => []
  | NUnary _ n => assigned n
  | NBin _ l r _ => assigned l ++ assigned r
  | NList _ l => flat_map assigned l
  | NComp _ f => assigned f
  | NTernary c p n => assigned c ++ assigned p ++ assigned n
  | NAssign l r _ => match l with NId v => [v_text v] | _ => [] end ++ assigned r
  end.

(** Values of expressions: strings, lists, a name without a value, and anything
    else (numbers, calls, conditions, ...). *)
Inductive value :=
| VStr (s : str)
| VList (ty : ltype) (l : list value)
| VName (x : str)
| VOther.

(** The value of '+'.  A list plus something that is not a list is that list. *)
Definition plus_value (a b : value) : value :=
  match a, b with
  | VList t1 l1, VList t2 l2 => if ltype_eqb t1 t2 then VList t1 (l1 ++ l2) else VOther
  | VList t l, _ => VList t l
  | _, VList t l => VList t l
  | VStr s, VStr t => VStr (s ++ t)
  | _, _ => VOther
  end.

(** What is known about variables; None: it has a value that is not described. *)
Definition venv := str -> option value.
Definition unassigned : venv := fun x => Some (VName x).

Fixpoint all_some {A} (l : list (option A)) : option (list A) :=
  match l with
  | [] => Some []
  | Some x :: l => option_map (cons x) (all_some l)
  | None :: _ => None
  end.

(** The value of an expression; None outside the described fragment (calls of
    select and glob, and expressions that contain assignments). *)
Fixpoint value_of (rho : venv) (n : node) : option value :=
  match n with
  | NStr v _ _ => Some (VStr (v_text v))
  | NInt _ _ => Some VOther
  | NId v => rho (v_text v)
  | NList ty l => option_map (VList ty) (all_some (map (value_of rho) l))
  | NBin op l r _ =>
      match op with
      | TPlus =>
          match value_of rho l, value_of rho r with
          | Some a, Some b => Some (plus_value a b)
          | _, _ => None
          end
      | _ => match assigned l ++ assigned r with [] => Some VOther | _ => None end
      end
  | NUnary _ n => match assigned n with [] => Some VOther | _ => None end
  | NTernary c p n => match assigned c ++ assigned p ++ assigned n with [] => Some VOther | _ => None end
  | NComp _ f => match assigned f with [] => Some VOther | _ => None end
  | NCall (NId f) _ =>
      match rho (v_text f) with
      | Some (VName h) => if str_eqb h ($"glob") || str_eqb h ($"select") then None else Some VOther
      | _ => None
      end
  | _ => None
  end.

(** What is known after a statement. *)
Definition forget (xs : list str) (rho : venv) : venv :=
  fun x => if existsb (str_eqb x) xs then None else rho x.
Definition learn (rho : venv) (stmt : node) : venv :=
  match stmt with
  | NAssign (NId x) e _ =>
      fun y => if str_eqb y (v_text x) then value_of rho e else forget (assigned e) rho y
  | _ => forget (assigned stmt) rho
  end.

(** A tree that is a literal of the given value. *)
Inductive literal : node -> value -> Prop :=
| L_str v t r : literal (NStr v t r) (VStr (v_text v))
| L_list ty l vs : Forall2 literal l vs -> literal (NList ty l) (VList ty vs)
| L_name v : literal (NId v) (VName (v_text v))
| L_other n : (match n with NNull | NStr _ _ _ | NList _ _ | NId _ => False | _ => True end) ->
    literal n VOther.

(** The default branch among the maps that are arguments of a select(). *)
Definition map_entries (args : list node) : list (node * node) :=
  flat_map (fun arg =>
    match arg with
    | NList LMap items =>
        flat_map (fun item => match item with NBin TColon k v _ => [(k, v)] | _ => [] end) items
    | _ => []
    end) args.
Definition is_default_key (k : node) : bool :=
  match k with
  | NStr v _ _ | NInt v _ => str_eqb (v_text v) ($"//conditions:default")
  | _ => false
  end.
Definition default_branch (args : list node) : option node :=
  option_map snd (find (fun e => is_default_key (fst e)) (map_entries args)).

(** What the arguments of a glob() give for a keyword, "include" also without it: the
    last one counts. *)
Definition given (keyword : str) (arg : node) : option (list node) :=
  match arg with
  | NList _ l => if str_eqb keyword ($"include") then Some l else None
  | NAssign (NId k) v _ =>
      if str_eqb keyword (v_text k) then Some (match v with NList _ l => l | _ => [] end) else None
  | _ => None
  end.
Fixpoint last_given (keyword : str) (args : list node) : option (list node) :=
  match args with
  | [] => None
  | arg :: args => match last_given keyword args with Some l => Some l | None => given keyword arg end
  end.
Definition texts (l : option (list node)) : list str :=
  flat_map (fun n => match n with
                     | NStr v _ _ | NInt v _ => match v_text v with [] => [] | s => [s] end
                     | _ => []
                     end) (match l with Some l => l | None => [] end).

(** Names of the functions called anywhere in a tree. *)
Fixpoint called (n : node) : list str :=
  match n with
  | NNull | NStr _ _ _ | NInt _ _ | NId _ => []
  | NUnary _ n => called n
  | NBin _ l r _ => called l ++ called r
  | NList _ l => flat_map called l
  | NComp _ f => called f
  | NTernary c p n => called c ++ called p ++ called n
  | NAssign l r _ => called l ++ called r
  | NCall i a => match i with NId v => [v_text v] | _ => [] end ++ called a
  end.

(** Trees that mention nothing elaboration can change: no '+', no glob() or
    select(), and no identifier (other than on the left of an assignment) that
    satisfies [var]. *)
Fixpoint mentions (var : str -> bool) (n : node) : bool :=
  match n with
  | NNull | NStr _ _ _ | NInt _ _ => false
  | NId v => var (v_text v)
  | NUnary _ n => mentions var n
  | NBin op l r _ => match op with TPlus => true | _ => mentions var l || mentions var r end
  | NList _ l => existsb (mentions var) l
  | NComp _ f => mentions var f
  | NTernary c p n => mentions var c || mentions var p || mentions var n
  | NAssign _ r _ => mentions var r
  | NCall i a =>
      match i with
      | NId v => var (v_text v) || str_eqb (v_text v) ($"glob") || str_eqb (v_text v) ($"select")
      | _ => true
      end || mentions var a
  end.

(** Same statement up to the value: same kind, same assigned name or called
    function, same arguments' names. *)
Definition same_arg (a b : node) : Prop :=
  match a with
  | NAssign l _ rg => exists r', b = NAssign l r' rg
  | _ => True
  end.
Definition same_statement (a b : node) : Prop :=
  match a with
  | NAssign l _ rg => exists r', b = NAssign l r' rg
  | NCall i (NList ty args) => exists args', b = NCall i (NList ty args') /\ Forall2 same_arg args args'
  | _ => True
  end.

(** Trees in which nothing is missing where it would be used: both operands of '+',
    keys and values of maps, elements of lists and arguments of calls are there.
    Other operands, parts of conditions and loops and values of keyword arguments
    may be missing, except for the two keyword arguments that glob() reads. *)
Definition missing_value (n : node) : Prop :=
  exists k rg, n = NAssign (NId k) NNull rg /\ v_text k <> $"include" /\ v_text k <> $"exclude".
Definition needs_operands (op : toktype) : bool := match op with TPlus | TColon => true | _ => false end.
Inductive sound : node -> Prop :=
| S_str v t r : sound (NStr v t r)
| S_int v z : sound (NInt v z)
| S_id v : sound (NId v)
| S_unary op n : n = NNull \/ sound n -> sound (NUnary op n)
| S_bin op l r rg : sound l -> sound r -> sound (NBin op l r rg)
| S_operator op l r rg : needs_operands op = false -> l = NNull \/ sound l -> r = NNull \/ sound r -> sound (NBin op l r rg)
| S_slice x a b rg1 rg2 : sound x -> (a = NNull \/ sound a) -> (b = NNull \/ sound b) ->
    sound (NBin TOpenSquare x (NBin TColon a b rg1) rg2)
| S_list ty l : Forall sound l -> sound (NList ty l)
| S_comp ty f : f = NNull \/ chain f -> sound (NComp ty f)
| S_ternary c p n : c = NNull \/ sound c -> p = NNull \/ sound p -> n = NNull \/ sound n -> sound (NTernary c p n)
| S_assign l r rg : sound r -> sound (NAssign l r rg)
| S_call v ty l : Forall (fun a => sound a \/ missing_value a) l -> sound (NCall (NId v) (NList ty l))
with chain : node -> Prop :=
| C_for target vars values rg1 rg2 :
    sound target \/ chain target -> Forall (fun v => v = NNull \/ sound v) vars -> values = NNull \/ sound values ->
    chain (NBin TFor target (NBin TIn (NList LTuple vars) values rg1) rg2).
(** The last statement may also be missing, or miss the value that is assigned. *)
Definition tolerable (n : node) : Prop := n = NNull \/ sound n \/ exists l rg, n = NAssign l NNull rg.
