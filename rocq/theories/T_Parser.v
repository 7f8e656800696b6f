(** The repository's parser tests (/repo/bant/frontend/parser_test.cc), replayed on
    the model: comparing printed trees as the tests do, with the round trip test
    that runs in each of them. *)
From Verif Require Import Base M_Scanner M_Ast M_Parser M_Printer.

Local Open Scope string_scope.
Local Open Scope list_scope.
Definition nl (l : list string) : str := flat_map (fun s => $s ++ [NL]) l.
Definition V (s : string) : view := mkView ($s) (InFile 0).
Definition R0 : srange := mkRange 0 0.
Definition Str3 (s : string) triple raw := NStr (V s) triple raw.
Definition Str s := Str3 s false false.
Definition Int (z : Z) := NInt (V "") z.
Definition Number (s : string) :=
  match int_from_literal ($s) with Some z => NInt (V s) z | None => NNull end.
Definition Id s := NId (V s).
Definition Op o a b := NBin o a b R0.
Definition Lst l := NList LList l.
Definition Tuple l := NList LTuple l.
Definition Assign' l r := NAssign l r R0.
Definition Assign s r := NAssign (Id s) r R0.
Definition Call s l := NCall (Id s) (Tuple l).
Definition Map l := NList LMap (map (fun p => Op TColon (fst p) (snd p)) l).

Definition parsed (s : str) : outcome str :=
  do (l, errs) <- parse s; match errs with [] => print_node (Lst l) | _ => UB end.
Fixpoint print_stmts (l : list node) : outcome str :=
  match l with
  | [] => Ret []
  | n :: l => do a <- print_node n; do b <- print_stmts l; Ret (a ++ [NL] ++ b)
  end.
(** RoundTripPrintParseAgainTest *)
Definition roundtrip (s : str) : Prop :=
  exists l errs t l' errs',
    parse s = Ret (l, errs) /\ print_stmts l = Ret t /\
    parse t = Ret (l', errs') /\ print_stmts l' = Ret t.
Definition expect (l : list node) (s : list string) : Prop :=
  print_node (Lst l) = parsed (nl s) /\ print_node (Lst l) <> UB /\ roundtrip (nl s).
Ltac check := split; [vm_compute; reflexivity|split; [vm_compute; discriminate|
  do 5 eexists; repeat (split; [vm_compute; reflexivity|]); vm_compute; reflexivity]].

Example parse_empty : parse [] = Ret ([], []) /\ parse ($"# just a with newline" ++ [NL]) = Ret ([], [])
  /\ parse ($"# just a comment without newline") = Ret ([], []).
Proof. vm_compute. auto. Qed.

Example int_conversion :
  parse ($"a=0o123") = Ret ([NAssign (NId (mkView ($"a") (InFile 0)))
     (NInt (mkView ($"0o123") (InFile 2)) 83) (mkRange 0 2)], []) /\
  parse ($"a=0xabc") = Ret ([NAssign (NId (mkView ($"a") (InFile 0)))
     (NInt (mkView ($"0xabc") (InFile 2)) 2748) (mkRange 0 2)], []).
Proof. vm_compute. auto. Qed.

Example assignments : expect
  [Assign "foo" (Str3 "regular_string" false false); Assign "backslash" (Str3 "\\" false false);
   Assign "bar" (Str3 "raw_string" false true); Assign "baz" (Str3 "triple quoted" true false);
   Assign "quux" (Str3 "raw triple quoted" true true)]
  [""; "foo = ""regular_string"""; "backslash = ""\\"""; "bar = r""raw_string""";
   "baz = """"""triple quoted"""""""; "quux = R""""""raw triple quoted"""""""].
Proof. check. Qed.

Example call_on_string : expect
  [Call "funcall" [Op TDot (Str "Some {} str") (Call "format" [Str "baz"])]]
  [""; "funcall(""Some {} str"".format(""baz""))"].
Proof. check. Qed.

Example assignment_to_tuple : expect
  [Assign' (Tuple [Id "a"; Id "b"]) (Tuple [Str "foo"; Str "bar"]);
   Assign' (Tuple [Id "x"; Id "y"]) (Call "foo" [])]
  [""; "(a, b) = (""foo"", ""bar"")"; "(x, y) = foo()"; "#a = ((u, v) = foo())"].
Proof. check. Qed.

Example simple_expressions : expect
  [Assign "a" (Op TPlus (Int 40) (Int 2));
   Assign "b" (Op TDivide (Op TMultiply (Int 30) (Int 7)) (Int 2));
   Assign "c" (Op TDivide (Op TPlus (Int 30) (Int 7)) (Int 2));
   Assign "d" (Op TDivide (Op TPlus (Int 30) (Int 7)) (Int 2));
   Assign "e" (Op TPlus (Int 30) (Op TDivide (Int 7) (Int 2)));
   Assign "f" (NUnary TMinus (Int 30)); Assign "g" (Op TEqualityComparison (Id "a") (Id "b"));
   Assign "h" (NUnary TNot (Op TEqualityComparison (Id "a") (Id "b")));
   Assign "h1" (NUnary TNot (Op TEqualityComparison (Id "a") (Id "b")));
   Assign "i" (Op TNotEqual (Id "a") (Id "b"));
   Assign "j" (Number "0o123"); Assign "k" (Number "0xab")]
  [""; "a = 40 + 2"; "b = 30 * 7 / 2"; "c = 30 + 7 / 2"; "d = (30 + 7) / 2"; "e = 30 + (7 / 2)";
   "f = -30"; "g = a == b"; "h = not (a == b)"; "h1 = !(a == b)"; "i = a != b";
   "j = 0o123  # octal number"; "k = 0xab   # hex number"].
Proof. check. Qed.

Example in_expr : expect
  [Assign "a" (Op TIn (Str "x") (Str "foobax")); Assign "b" (Op TNotIn (Str "x") (Str "foobax"))]
  [""; "a = ""x"" in ""foobax"""; "b = ""x"" not in ""foobax"""].
Proof. check. Qed.

Example array_access : expect
  [Lst [Int 1234]; Assign "a" (Op TOpenSquare (Id "x") (Int 42));
   Assign "b" (Op TOpenSquare (Id "x") (Op TColon (Int 1) (Int 2)));
   Assign "c" (Op TOpenSquare (Id "x") (Op TColon (Int 1) NNull));
   Assign "d" (Op TOpenSquare (Id "x") (Op TColon NNull (Int 2)));
   Assign "e" (Op TOpenSquare (Op TOpenSquare (Id "x") (Int 42)) (Int 17));
   Assign "f" (Id "x"); Lst [Int 5678]; Assign "g" (Op TOpenSquare (Call "h" []) (Int 42))]
  [""; "[1234]      # toplevel array is not an array access"; "a = x[42]"; "b = x[1:2]";
   "c = x[1:]"; "d = x[:2]"; "e = x[42][17]"; "f = x       # Not a x[5678] access";
   "[5678]"; "g = h()[42]"].
Proof. check. Qed.

Example parenthized : expect
  [Assign "foo" (Op TPlus (Str "a") (Str "b")); Assign "fmt" (Op TPercent (Str "a%s") (Str "b"));
   Assign "bar" (Op TPlus (Str "a") (Str "b")); Assign "baz" (Op TPlus (Str "a") (Str "b"))]
  [""; "foo = ""a"" + ""b"""; "fmt = ""a%s"" % ""b"""; "bar = (""a"" + ""b"")";
   "baz = ((((""a"" + ""b""))))"].
Proof. check. Qed.

Example tuple_expressions : expect
  [Assign "empty" (Tuple []); Assign "foo" (Tuple [Str "a"; Str "b"; Str "c"]);
   Assign "bar" (Tuple [Str "a"; Str "b"]); Assign "baz" (Tuple [Str "a"]);
   Assign "qux" (Str "a"); Assign "buz" (Tuple [Str "a"])]
  [""; "empty = ()"; "foo = (""a"", ""b"", ""c"")"; "bar = (""a"", ""b"")"; "baz = (""a"",)";
   "qux = (""a"")"; "buz = ((""a"",))"].
Proof. check. Qed.

Example map_assign : expect
  [Assign "str_map" (Map [(Str "orange", Str "fruit")]); Assign "num_map" (Map [(Str "answer", Int 42)]);
   Assign "id_map" (Map [(Id "SOME_IDENTIFIER", Id "ANOTHER_ID")])]
  [""; "str_map = { ""orange"" : ""fruit"" }"; "num_map = { ""answer"" : 42 }";
   "id_map = { SOME_IDENTIFIER : ANOTHER_ID }"].
Proof. check. Qed.

Example lists : expect
  [Assign "empty" (Lst []); Assign "one" (Lst [Id "a"]); Assign "one_c" (Lst [Id "a"]);
   Assign "two" (Lst [Id "a"; Id "b"]); Assign "two_c" (Lst [Id "a"; Id "b"]);
   Assign "three" (Lst [Id "a"; Id "b"; Id "c"]); Assign "three_c" (Lst [Id "a"; Id "b"; Id "c"])]
  [""; "empty =   []"; "one =     [a]"; "one_c =   [a,]   # Same with trailling comma";
   "two =     [a, b]"; "two_c =   [a, b,]"; "three =   [a, b, c]"; "three_c = [a, b, c,]"].
Proof. check. Qed.

Example simple_function_calls : expect
  [Call "foo" [Str "foo"; Id "k"]; Op TDot (Id "nested") (Call "bar" [Str "baz"; Id "m"]);
   Call "baz" []]
  [""; "foo(""foo"", k)"; "nested.bar(""baz"", m)"; "baz()"].
Proof. check. Qed.

Example parse_function_call : expect
  [Call "foo" [Str "x"; Str3 "y" true false]; Lst [Call "bar" [Str "a"]]]
  [""; "foo(""x"", """"""y"""""")  # Triple quoted-string"; "[bar(""a"")]         # function call"].
Proof. check. Qed.

Definition For a b := Op TFor a b.
Definition In' a b := Op TIn a b.
Example list_comprehension : expect
  [NComp LList (For (Id "i") (In' (Tuple [Id "i"]) (Lst [Str "x"; Str "y"])));
   NComp LList (For (Tuple [Op TPlus (Str "foo") (Id "i")]) (In' (Tuple [Id "i"]) (Lst [Str "a"; Str "b"; Str "c"])));
   NComp LList (For (For (Op TPlus (Id "i") (Id "j")) (In' (Tuple [Id "i"]) (Lst [Str "x"; Str "y"])))
                    (In' (Tuple [Id "j"]) (Lst [Str "a"; Str "b"])));
   NComp LList (For (Op TPlus (Id "i") (Id "j"))
      (In' (Tuple [Id "i"; Id "j"]) (Lst [Tuple [Str "a"; Str "b"]; Tuple [Str "x"; Str "y"]])));
   NComp LList (For (Op TPlus (Id "i") (Id "j"))
      (In' (Tuple [Id "i"; Id "j"]) (Lst [Tuple [Str "a"; Str "b"]; Tuple [Str "x"; Str "y"]])));
   Assign "m" (NComp LMap (For (Op TColon (Id "i") (Str "bar")) (In' (Tuple [Id "i"]) (Lst [Str "x"; Str "y"]))))]
  [""; "  [i for i in [ ""x"", ""y""]]  # simple"; "  ["; "     (""foo"" + i,)  # Comma";
   "     for i in [""a"", ""b"", ""c""]"; "  ]"; "  [i + j for i in [ ""x"", ""y""] for j in [""a"", ""b""]] # nested";
   "  [i + j for i, j in [(""a"", ""b""), (""x"", ""y"")]]"; "  [i + j for (i, j) in [(""a"", ""b""), (""x"", ""y"")]]";
   "  m = { i : ""bar"" for i in [""x"", ""y""]}"].
Proof. check. Qed.

Example comprehension_not_array_access : expect
  [Assign "a" (Op TPlus (Int 42) (Int 8));
   NComp LList (For (Id "f") (In' (Tuple [Id "f"]) (Lst [Int 27])))]
  [""; "a = 42 + 8"; "[ f for f in [27]]"].
Proof. check. Qed.

Example parse_ternary : parsed ($"[foo() if a + b else baz()]") = Ret ($"[[foo() if a + b else baz()]]").
Proof. vm_compute. reflexivity. Qed.
