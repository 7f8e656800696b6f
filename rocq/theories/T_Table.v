(** /repo/bant/util/table-printer_test.cc. *)
From Verif Require Import Base M_Ast M_Table.
Local Open Scope string_scope. Local Open Scope list_scope.

(** PlainTable. *)
Definition plain_table (format : output_format) : outcome str :=
  table_print format [$"foo"; $"bar"] [AddRow [$"short"; $"somevalue"]; AddRow [$"somewhatlongtext"; $"xyz"]].
Example plain_native : plain_table FmtNative = Ret ($"short            somevalue
somewhatlongtext xyz
").
Proof. reflexivity. Qed.
Example plain_sexpr : plain_table FmtSExpr = Ret ($"((""short"" ""somevalue"")
 (""somewhatlongtext"" ""xyz""))
").
Proof. reflexivity. Qed.
Example plain_plist : plain_table FmtPList = Ret ($"((:foo ""short"" :bar ""somevalue"")
 (:foo ""somewhatlongtext"" :bar ""xyz""))
").
Proof. reflexivity. Qed.
Example plain_json : plain_table FmtJson = Ret ($"{""foo"": ""short"", ""bar"": ""somevalue""}
{""foo"": ""somewhatlongtext"", ""bar"": ""xyz""}
").
Proof. reflexivity. Qed.
Example plain_csv : plain_table FmtCsv = Ret ($"""foo"",""bar""
""short"",""somevalue""
""somewhatlongtext"",""xyz""
").
Proof. reflexivity. Qed.

(** TableWithRepeatedLastCol. *)
Definition repeated_table (format : output_format) : outcome str :=
  table_print format [$"foo"; $"bar"]
    [AddRowWithRepeatedLastColumn [$"noval"] []; AddRowWithRepeatedLastColumn [$"oneval"] [$"somevalue"];
     AddRowWithRepeatedLastColumn [$"threeval"] [$"abc"; $"def"; $"xyz"]].
Example repeated_native : repeated_table FmtNative = Ret ($"oneval   somevalue
threeval abc
threeval def
threeval xyz
").
Proof. reflexivity. Qed.
Example repeated_sexpr : repeated_table FmtSExpr = Ret ($"((""noval"" ())
 (""oneval"" (""somevalue""))
 (""threeval"" (""abc""
              ""def""
              ""xyz"")))
").
Proof. reflexivity. Qed.
Example repeated_plist : repeated_table FmtPList = Ret ($"((:foo ""noval"" :bar ())
 (:foo ""oneval"" :bar (""somevalue""))
 (:foo ""threeval"" :bar (""abc""
                        ""def""
                        ""xyz"")))
").
Proof. reflexivity. Qed.
Example repeated_json : repeated_table FmtJson = Ret ($"{""foo"": ""noval"", ""bar"": []}
{""foo"": ""oneval"", ""bar"": [""somevalue""]}
{""foo"": ""threeval"", ""bar"": [""abc"", ""def"", ""xyz""]}
").
Proof. reflexivity. Qed.
Example repeated_csv : repeated_table FmtCsv = Ret ($"""foo"",""bar""
""oneval"",""somevalue""
""threeval"",""abc""
""threeval"",""def""
""threeval"",""xyz""
").
Proof. reflexivity. Qed.
