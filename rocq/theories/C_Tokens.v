(** Property C55: the kind of a token is determined by its text. *)
From Verif Require Import Base M_Scanner S_Scanner S_Tokens P_Tokens.

(** C55. Every token has the text that its kind demands, and the byte after it does
    not belong to it. *)
Theorem C55_token_kinds : forall content n,
  let t := token_at content n in
  let next := nth_error content (tok_off t + length (tok_text t)) in
  kind_text (tok_type t) (tok_text t) next /\ operator_whole (tok_text t) next.
Proof. exact token_kinds. Qed.
Print Assumptions C55_token_kinds.
Example C55_case : map (fun n => tok_type (token_at ($"x<=0x1f not  in ""s"" ?") n)) (seq 0 7) =
  [TIdentifier; TLessEqual; TNumberLiteral; TNotIn; TStringLiteral; TError; TEof].
Proof. reflexivity. Qed.
