(** Property C56: the parser implements the grammar. *)
From Verif Require Import Base M_Scanner S_Scanner M_Ast M_Parser S_Grammar P_Grammar.
Local Open Scope string_scope.
Local Open Scope list_scope.

(** C56. A file is parsed without error exactly if its tokens belong to the grammar,
    and then the tree is the one the grammar gives to them. *)
Theorem C56_parser_is_grammar : forall content stmts,
  parse content = Ret (stmts, []) <-> program (all_tokens content) stmts.
Proof. exact parse_grammar. Qed.
Print Assumptions C56_parser_is_grammar.

(** C56. No file has two trees. *)
Theorem C56_unambiguous : forall content l1 l2,
  program (all_tokens content) l1 -> program (all_tokens content) l2 -> l1 = l2.
Proof. exact program_unique. Qed.
Print Assumptions C56_unambiguous.

Example C56_case :
  let content := $"x = [a if b else -c + d[1:] for a in y]" in
  let t n := token_view (token_at content n) in
  program (all_tokens content)
    [NAssign (NId (t 0))
       (NComp LList
          (NBin TFor
             (NTernary (NId (t 5)) (NId (t 3))
                (NUnary TMinus
                   (NBin TPlus (NId (t 8))
                      (NBin TOpenSquare (NId (t 10))
                         (NBin TColon (NInt (t 12) 1) NNull (mkRange 25 1)) (mkRange 23 1))
                      (mkRange 20 1))))
             (NBin TIn (NList LTuple [NId (t 16)]) (NId (t 18)) (mkRange 31 7)) (mkRange 28 3)))
       (mkRange 0 3)].
Proof. apply C56_parser_is_grammar. vm_compute. reflexivity. Qed.
