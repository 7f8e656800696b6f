(** Elaboration of syntax trees (/repo/bant/frontend/elaboration.cc), on top of
    BaseNodeReplacementVisitor (ast.h:387-441).

    The visitor changes nodes in place; here the changed tree is returned.  That is
    the same as long as no node is visited twice: the elaborator is run once per
    file (cli-commands.cc:141, dependency-graph.cc:76-88), a node put in the place
    of another one (the value of a variable, the branch of a select) is not visited
    there, and it was completely visited before. *)
From Verif Require Import Base M_Scanner M_Ast M_Query.

(** elaboration.cc:284, global_variables_; the newest binding first. *)
Definition genv := list (str * node).
Fixpoint glookup (x : str) (g : genv) : option node :=
  match g with
  | [] => None
  | (y, n) :: g => if str_eqb x y then Some n else glookup x g
  end.

(** elaboration.cc:58: the only condition that is set. *)
Definition default_condition : str := $"//conditions:default".

(** Where the location of a text is registered to be: FixedSourceLocator with
    GetLocation() of the given text, parsed-project.cc:217-222. *)
Definition located_at (v : view) : origin :=
  match v_org v with
  | InFile off => Synth off (length (v_text v))
  | o => o
  end.

(** elaboration.cc:161-168: the entries of one map. *)
Fixpoint select_entry (items : list node) : outcome (option node) :=
  match items with
  | [] => Ret None
  | item :: items =>
      do b <- cast_binop item;
      match b with
      | Some (TColon, l, r) =>
          do key <- cast_scalar l;
          match key with
          | Some (_, v) => if str_eqb (v_text v) default_condition then Ret (Some r) else select_entry items
          | None => select_entry items
          end
      | _ => select_entry items
      end
  end.
(** elaboration.cc:157-171, HandleSelect; None for "return fun". *)
Fixpoint handle_select (args : list node) : outcome (option node) :=
  match args with
  | [] => Ret None
  | arg :: args =>
      do m <- cast_list arg;
      match m with
      | Some (LMap, items) =>
          do r <- select_entry items;
          match r with
          | Some n => Ret (Some n)
          | None => handle_select args
          end
      | _ => handle_select args
      end
  end.

(** elaboration.cc:174-191: the include and exclude lists. *)
Fixpoint glob_args (args : list node) (incl excl : option (list node))
  : outcome (option (list node) * option (list node)) :=
  match args with
  | [] => Ret (incl, excl)
  | arg :: args =>
      do l <- cast_list arg;
      match l with
      | Some (_, l) => glob_args args (Some l) excl
      | None =>
          match arg with
          | NAssign (NId k) v _ =>
              if str_eqb (v_text k) ($"include") then
                do l <- cast_list v; glob_args args (option_map snd l) excl
              else if str_eqb (v_text k) ($"exclude") then
                do l <- cast_list v; glob_args args incl (option_map snd l)
              else glob_args args incl excl
          | _ => glob_args args incl excl
          end
      end
  end.

Section Elab.
(** elaboration.cc:236-272, MultiGlob, and the removal of the directory prefix: the
    names, relative to the package, of the files that match.  Modelled separately
    (M_Glob, M_Walk). *)
Variable multi_glob : list str -> list str -> list str.

(** elaboration.cc:173-234, HandleGlob; [id] is the identifier of the call. *)
Definition handle_glob (id : view) (args : list node) : outcome node :=
  do (incl, excl) <- glob_args args None None;
  do i <- extract_string_list incl;
  do e <- extract_string_list excl;
  Ret (NList LList (map (fun s => NStr (mkView s (located_at id)) false false)
         (multi_glob (map v_text i) (map v_text e)))).

(** elaboration.cc:95-127: what is made of a '+' with the given operands. *)
Definition elab_plus (l r : node) (range : srange) : outcome node :=
  do cl <- cast_list l;
  do cr <- cast_list r;
  match cl, cr with
  | Some _, None => Ret l
  | None, Some _ => Ret r
  | Some (t1, e1), Some (t2, e2) =>
      Ret (if ltype_eqb t1 t2 then NList t1 (e1 ++ e2)        (* ConcatLists, :130-139 *)
           else NBin TPlus l r range)
  | None, None =>
      match l, r with
      | NStr a _ _, NStr b _ _ =>                            (* ConcatStrings, :141-155 *)
          Ret (NStr (mkView (v_text a ++ v_text b) (Synth (r_off range) (r_len range))) false false)
      | _, _ => Ret (NBin TPlus l r range)
      end
  end.

Section Elements.
Variable elab : node -> genv -> outcome (node * genv).
(** ast.h:402-407 *)
Fixpoint elab_elems (l : list node) (g : genv) : outcome (list node * genv) :=
  match l with
  | [] => Ret ([], g)
  | n :: l =>
      do (n, g) <- elab n g;
      do (l, g) <- elab_elems l g;
      Ret (n :: l, g)
  end.
End Elements.

(** elaboration.cc:61-127 and ast.h:387-441.  [level] is nest_level_.  The for-node of
    a comprehension is a BinOpNode with operator "for", so that what its walk
    returns is the node itself. *)
Fixpoint elab (level : nat) (n : node) (g : genv) : outcome (node * genv) :=
  match n with
  | NNull => Ret (NNull, g)
  | NStr _ _ _ | NInt _ _ => Ret (n, g)
  | NId v => Ret (match glookup (v_text v) g with Some m => m | None => n end, g)
  | NUnary op n => do (n, g) <- elab level n g; Ret (NUnary op n, g)
  | NBin op l r range =>
      do (l, g) <- elab level l g;
      do (r, g) <- elab level r g;
      match op with
      | TPlus => do n <- elab_plus l r range; Ret (n, g)
      | _ => Ret (NBin op l r range, g)
      end
  | NList ty elems => do (elems, g) <- elab_elems (elab level) elems g; Ret (NList ty elems, g)
  | NComp ty f =>
      do (w, g) <- elab level f g;
      Ret (NComp ty (match w with NBin _ _ _ _ | NAssign _ _ _ => w | _ => f end), g)
  | NTernary c p n =>
      do (c, g) <- elab level c g;
      do (p, g) <- elab level p g;
      do (n, g) <- elab level n g;
      Ret (NTernary c p n, g)
  | NAssign l r range =>
      do (r, g) <- elab level r g;
      Ret (NAssign l r range,
           match level, l with
           | 0, NId v => (v_text v, r) :: g
           | _, _ => g
           end)
  | NCall id args =>
      do (id, g) <- elab (S level) id g;
      do (args, g) <- elab (S level) args g;
      match id with
      | NId v =>
          if str_eqb (v_text v) ($"glob") then
            match args with
            | NList _ l => do n <- handle_glob v l; Ret (n, g)
            | _ => UB
            end
          else if str_eqb (v_text v) ($"select") then
            match args with
            | NList _ l =>
                do n <- handle_select l;
                Ret (match n with Some n => n | None => NCall id args end, g)
            | _ => UB
            end
          else Ret (NCall id args, g)
      | _ => UB
      end
  end.

(** elaboration.cc:290-305: all statements of a file. *)
Definition elaborate (stmts : list node) : outcome (list node) :=
  do (l, _) <- elab_elems (elab 0) stmts []; Ret l.
End Elab.
