(** Property C78: what a user is told about a BUILD file that does not parse. *)
From Verif Require Import Base M_Types M_Scanner S_Scanner M_Ast M_Parser M_Workspace M_Project M_Commands S_Commands M_ParseErrors S_ParseErrors P_ErrLocal P_ParseErrors.
Local Open Scope string_scope.
Local Open Scope list_scope.

(** C78. For each complaint there is one message, in the order the parser met them. It names the file, the place and
    the text of the token complained about, and says what is wrong. *)
Theorem C78_messages : forall f stmts,
  plain_lines (pf_content f) -> parse (pf_content f) = Ret (stmts, pf_errors f) ->
  exists ms, Forall2 (message (pf_name f) (pf_content f)) (rev (pf_errors f)) ms /\ file_messages f = Ret (concat ms).
Proof. exact messages_said. Qed.
Print Assumptions C78_messages.

(** C78. Every complaint is about a token of the file. *)
Theorem C78_about_a_token : forall content stmts errs c,
  parse content = Ret (stmts, errs) -> In c errs -> exists i, e_tok c = token_at content i.
Proof.
  intros content stmts errs c P I. apply complaints_fit in P. rewrite Forall_forall in P.
  destruct (P c I) as [T _]. destruct (in_tokens _ _ _ T) as (i & E & _). exists i. exact E.
Qed.
Print Assumptions C78_about_a_token.

(** C78. The text before the token of the first message is not at fault: it can be continued to a file that parses. *)
Theorem C78_text_before : forall content stmts es t why,
  parse content = Ret (stmts, es ++ [mkComplaint t why]) ->
  exists more stmts', parse (firstn (tok_off t) content ++ more) = Ret (stmts', []).
Proof. exact before_does. Qed.
Print Assumptions C78_text_before.

(** C78. The token of the first message is at fault: no file that starts with the same tokens, up to that one, parses,
    and it gets the same first message. *)
Theorem C78_token_at_fault : forall content content' pre t rest rest' stmts es why,
  all_tokens content = pre ++ t :: rest -> all_tokens content' = pre ++ t :: rest' ->
  parse content = Ret (stmts, es ++ [mkComplaint t why]) ->
  exists stmts' es', parse content' = Ret (stmts', es' ++ [mkComplaint t why]).
Proof. exact first_complaint_local. Qed.
Print Assumptions C78_token_at_fault.

(** C78. The first message gives good advice: whatever [explained] lists for its text can be written, on a new line, at
    the place of the token, and the file can be continued from there to one that parses. *)
Theorem C78_advice : forall content stmts es t why text words w,
  parse content = Ret (stmts, es ++ [mkComplaint t why]) -> explained t why text words -> In w words ->
  exists more stmts', parse (firstn (tok_off t) content ++ [NL; "#"%char; NL] ++ w ++ more) = Ret (stmts', []).
Proof. exact words_do. Qed.
Print Assumptions C78_advice.

(** C78. Two messages also name [']'], and there the advice can be wrong: after [a[] the message is "Expected ':' or
    ']'", and after [a[:] it is "Expected closing ']' of array access", but no file that goes on with [']'] parses. *)
Definition said (content : str) : outcome str :=
  do r <- parse content; file_messages (mkFile (mkPackage [] ($"p")) ($"p/BUILD") content (fst r) (snd r)).
Theorem C78_square_refuted :
  said ($"x = a[)") = Ret ($"p/BUILD:1:7: got ')'; Expected ':' or ']'" ++ [NL]) /\
  forall more stmts, parse ($"x = a[" ++ [NL; "#"%char; NL] ++ $"]" ++ more) <> Ret (stmts, []).
Proof. split; [vm_compute; reflexivity|exact access_wrong]. Qed.
Print Assumptions C78_square_refuted.
Theorem C78_slice_refuted :
  said ($"x = a[:)") = Ret ($"p/BUILD:1:8: got ')'; Expected closing ']' of array access" ++ [NL]) /\
  forall more stmts, parse ($"x = a[:" ++ [NL; "#"%char; NL] ++ $"]" ++ more) <> Ret (stmts, []).
Proof. split; [vm_compute; reflexivity|exact slice_wrong]. Qed.
Print Assumptions C78_slice_refuted.

(** A file with two messages. *)
Definition wrong : str := $"x = [a b" ++ [NL] ++ $"f(3".
Definition wrong_file : parsed_file :=
  match parse wrong with Ret (l, e) => mkFile (mkPackage [] ($"p")) ($"p/BUILD") wrong l e | _ => mkFile (mkPackage [] []) [] [] [] [] end.
Lemma wrong_plain : plain_lines wrong.
Proof.
  split; [vm_compute; reflexivity|]. intros i H.
  destruct (Compare_dec.le_lt_dec (length wrong) i) as [L|L].
  { rewrite (P_Scanner.eof_reached _ _ L) in H. discriminate. }
  assert (X : forallb (fun i => negb (match tok_type (token_at wrong i) with TNotIn => true | _ => false end)) (seq 0 (length wrong)) = true)
    by (vm_compute; reflexivity).
  rewrite forallb_forall in X. assert (Is : In i (seq 0 (length wrong))).
  { revert L. generalize (length wrong). intros k L. apply in_seq. apply (conj (Nat.le_0_l i)), L. }
  specialize (X i Is). cbv beta in X. rewrite H in X. discriminate X.
Qed.
Example C78_case : plain_lines (pf_content wrong_file) /\ parse (pf_content wrong_file) = Ret (pf_ast wrong_file, pf_errors wrong_file) /\
  file_messages wrong_file = Ret ($"p/BUILD:1:8: got 'b'; expected `for`, `]', or `,`'" ++ [NL] ++ $"p/BUILD:2:1: got 'f'; expected `,` or closing `]`" ++ [NL]).
Proof. split; [exact wrong_plain|]. split; vm_compute; reflexivity. Qed.
(** One complaint, and the words it names. *)
Example C78_case_advice : exists stmts t why text words, parse ($"x = {a 'b" ++ [NL] ++ $"f(3") = Ret (stmts, [] ++ [mkComplaint t why]) /\
  explained t why text words /\ In ($":") words /\ firstn (tok_off t) ($"x = {a 'b" ++ [NL] ++ $"f(3") = $"x = {a ".
Proof.
  eexists _, _, _, _, _. split; [vm_compute; reflexivity|]. split; [apply X_map|]. split; [left; reflexivity|vm_compute; reflexivity].
Qed.
(** The text before, and the same tokens with other text after them. *)
Example C78_case_fault : exists pre t rest rest' stmts es why, all_tokens wrong = pre ++ t :: rest /\
  all_tokens ($"x = [a b, c]") = pre ++ t :: rest' /\ parse wrong = Ret (stmts, es ++ [mkComplaint t why]) /\ pre <> [].
Proof.
  exists (firstn 4 (all_tokens wrong)), (nth 4 (all_tokens wrong) (mkToken TEof 0 [] false)), (skipn 5 (all_tokens wrong)), (skipn 5 (all_tokens ($"x = [a b, c]"))),
    (pf_ast wrong_file), (firstn 1 (pf_errors wrong_file)), (RForOrClose TCloseSquare).
  split; [vm_compute; reflexivity|]. split; [vm_compute; reflexivity|]. split; [vm_compute; reflexivity|discriminate].
Qed.
