(** Properties C43 and C44: what tables print. *)
From Coq Require Import NArith.
From Verif Require Import Base M_Ast M_Table S_Table P_Table.
Local Open Scope string_scope. Local Open Scope list_scope.

(** C43: all rows are recovered from CSV, the header being the first of them. *)
Theorem C43_csv : forall headers ops,
  headers <> [] -> (forall op, In op ops -> entry_columns (entry_of op) <> 0) ->
  exists text, table_print FmtCsv headers ops = Ret text /\
    read_csv text = Some (headers :: flat_map (fun op => entry_rows (entry_of op)) ops).
Proof. intros headers ops H1 H2. eexists. split; [reflexivity|]. exact (csv_read headers ops H1 H2). Qed.
Print Assumptions C43_csv.

(** C43: S-expressions contain exactly what was put in. *)
Theorem C43_sexpr : forall headers ops,
  exists text, table_print FmtSExpr headers ops = Ret text /\
    read_sexpr text = Some (Paren (map (fun op => entry_sexpr (entry_of op)) ops)).
Proof. exact sexpr_read. Qed.
Print Assumptions C43_sexpr.

(** C43: property lists have a keyword before every value. *)
Theorem C43_plist : forall headers ops,
  Forall plain_header headers -> (forall op, In op ops -> entry_columns (entry_of op) <= length headers) ->
  exists text, table_print FmtPList headers ops = Ret text /\
    read_sexpr text = Some (Paren (map (fun op => entry_plist headers (entry_of op)) ops)).
Proof. exact plist_read. Qed.
Print Assumptions C43_plist.

(** C43: one line of JSON for each row; it is a valid object with the contents of the row if
    all strings in it are safe, and not valid JSON at all if one of them is not. *)
Theorem C43_json : forall headers ops, (forall op, In op ops -> entry_columns (entry_of op) <= length headers) ->
  exists lines, table_print FmtJson headers ops = Ret (flat_map (fun l => l ++ [NL]) lines) /\
    Forall2 (fun op line => let e := entry_of op in
       ~ In NL line /\
       ((forall s, In s (firstn (entry_columns e) headers ++ entry_cells e) -> json_safe s) ->
        read_json line = Some (entry_json headers e)) /\
       ((exists s, In s (firstn (entry_columns e) headers ++ entry_cells e) /\ ~ json_safe s) ->
        read_json line = None)) ops lines.
Proof. exact json_read. Qed.
Print Assumptions C43_json.

(** C43: so, not every table is printed as JSON. *)
Theorem C43_json_refuted : exists headers row line,
  length row = length headers /\
  table_print FmtJson headers [AddRow row] = Ret (line ++ [NL]) /\ read_json line = None.
Proof.
  exists [$"file"], [$"it's.cc"], ($"{""file"": ""it\'s.cc""}").
  split; [reflexivity|]. split; reflexivity.
Qed.
Print Assumptions C43_json_refuted.

(** C44: the columns of aligned tables.  The start of a column only depends on its number,
    and is one after the widest cell of the column before. *)
Theorem C44_columns : forall format headers ops, format = FmtNative \/ format = FmtGraphviz ->
  headers <> [] -> (forall op, In op ops -> entry_columns (entry_of op) = length headers) ->
  let rows := flat_map (fun op => entry_rows (entry_of op)) ops in
  exists lines, table_print format headers ops = Ret (flat_map (fun l => l ++ [NL]) lines) /\
    Forall2 (aligned_row rows) rows lines.
Proof. exact aligned_print_ok. Qed.
Print Assumptions C44_columns.

(** C44: cells that are words are the words of the line. *)
Theorem C44_words : forall format headers ops, format = FmtNative \/ format = FmtGraphviz ->
  headers <> [] -> (forall op, In op ops -> entry_columns (entry_of op) = length headers) ->
  let rows := flat_map (fun op => entry_rows (entry_of op)) ops in
  (forall row c, In row rows -> In c row -> c <> [] /\ ~ In " "%char c) ->
  exists lines, table_print format headers ops = Ret (flat_map (fun l => l ++ [NL]) lines) /\
    map words lines = rows.
Proof. exact aligned_print_words. Qed.
Print Assumptions C44_words.

(** C44: rows of any other length stop the program. *)
Theorem C44_columns_checked : forall format headers ops op, format = FmtNative \/ format = FmtGraphviz ->
  In op ops -> entry_columns (entry_of op) <> length headers -> table_print format headers ops = UB.
Proof. exact aligned_print_bad. Qed.
Print Assumptions C44_columns_checked.

(** C44: in S-expressions and property lists, the repeated values are below each other. *)
Theorem C44_repeated_below : forall as_plist (headers : list str) printed pre v vs t,
  (as_plist = true -> Forall (fun h : str => ~ In NL h) headers) -> pre <> [] ->
  sexpr_op as_plist headers printed (AddRowWithRepeatedLastColumn pre (v :: vs)) = Ret t ->
  exists first, ~ In NL first /\
    (if printed then t else NL :: "("%char :: t)
    = NL :: first ++ quoted v ++ flat_map (fun v => NL :: repeat " "%char (length first) ++ quoted v) vs ++ $"))".
Proof. exact sexpr_alignment. Qed.
Print Assumptions C44_repeated_below.

(** Cases that meet the hypotheses. *)
Definition ex_headers : list str := [$"file"; $"target"].
Definition ex_ops : list table_op :=
  [AddRow [$"a b"; $"//x:y"]; AddRowWithRepeatedLastColumn [$"c"] [$"//p:q"; $"//p"; $"it's"]; AddRowWithRepeatedLastColumn [$"d"] []].
Example ex_plain : Forall plain_header ex_headers.
Proof.
  apply Forall_forall. intros h Hh c Hc.
  cbn in Hh. destruct Hh as [<-|[<-|[]]]; cbn in Hc; repeat (destruct Hc as [<-|Hc]; [repeat split; discriminate|]); destruct Hc.
Qed.
Example ex_columns : forall op, In op ex_ops -> entry_columns (entry_of op) = length ex_headers.
Proof. intros op H. cbn in H. repeat (destruct H as [<-|H]; [reflexivity|]). destruct H. Qed.
Example ex_read_csv :
  (do t <- table_print FmtCsv ex_headers ex_ops; Ret (read_csv t))
  = Ret (Some [[$"file"; $"target"]; [$"a b"; $"//x:y"]; [$"c"; $"//p:q"]; [$"c"; $"//p"]; [$"c"; $"it's"]]).
Proof. reflexivity. Qed.
Example ex_read_plist :
  (do t <- table_print FmtPList ex_headers ex_ops; Ret (read_sexpr t))
  = Ret (Some (Paren [
      Paren [Word ($":file"); Str ($"a b"); Word ($":target"); Str ($"//x:y")];
      Paren [Word ($":file"); Str ($"c"); Word ($":target"); Paren [Str ($"//p:q"); Str ($"//p"); Str ($"it's")]];
      Paren [Word ($":file"); Str ($"d"); Word ($":target"); Paren []]])).
Proof. reflexivity. Qed.
Example ex_read_json :
  read_json ($"{""file"": ""a\tb"", ""target"": [""x"", ""\""""]}")
  = Some [($"file", JStr [ "a"; "009"; "b" ]%char); ($"target", JArr [$"x"; [DQ]])].
Proof. reflexivity. Qed.
Example ex_starts :
  let rows := flat_map (fun op => entry_rows (entry_of op)) ex_ops in
  (length rows, column_start rows 1) = (4, 4).
Proof. reflexivity. Qed.
(** The readers refuse what is not in the format. *)
Example ex_bad :
  read_csv ($"""a"" ""b""
") = None /\ read_sexpr ($"((""a"")") = None /\ read_json ($"{""a"": ""b"",}") = None
  /\ read_json ($"{""a"": ""\101""}") = None.
Proof. repeat split; reflexivity. Qed.
