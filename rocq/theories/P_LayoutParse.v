(** The parser does not see where its tokens are. *)
From Coq Require Import Lia.
From Verif Require Import Base M_Types M_Scanner S_Scanner M_Ast M_Parser S_Layout P_Parser P_Layout.

Definition psim (ps ps' : pstate) : Prop :=
  map norm_tok (p_toks ps) = map norm_tok (p_toks ps') /\ map bare_complaint (p_errs ps) = map bare_complaint (p_errs ps').
Definition sim (r r' : outcome (node * pstate)) : Prop :=
  match r, r' with
  | UB, _ => True
  | _, UB => True
  | Ret (n, ps), Ret (n', ps') => bare n = bare n' /\ psim ps ps'
  | OutOfFuel, OutOfFuel => True
  | _, _ => False
  end.
Definition bare_prod (p : production) : production :=
  match p with
  | PExpressionLoop n => PExpressionLoop (bare n)
  | PTupleLoop l => PTupleLoop (map bare l)
  | PIfElse n => PIfElse (bare n)
  | PList ty l e x => PList ty (map bare l) e x
  | PComprehensionFor n t x => PComprehensionFor (bare n) (bare t) x
  | PFunCall t => PFunCall (bare_token t)
  | _ => p
  end.

Lemma norm_bare t t' : norm_tok t = norm_tok t' -> bare_token t = bare_token t'.
Proof. unfold norm_tok, bare_token. intros E. injection E as -> -> _. reflexivity. Qed.
Lemma norm_type t t' : norm_tok t = norm_tok t' -> tok_type t = tok_type t'.
Proof. intros E. now injection E. Qed.
Lemma norm_text t t' : norm_tok t = norm_tok t' -> tok_text t = tok_text t'.
Proof. intros E. now injection E. Qed.
Lemma norm_is t t' ty : norm_tok t = norm_tok t' -> is_tok t' ty = is_tok t ty.
Proof. intros E. unfold is_tok. now rewrite (norm_type _ _ E). Qed.
Lemma norm_newline t t' : norm_tok t = norm_tok t' -> is_tok t TOpenSquare = true -> tok_newline t' = tok_newline t.
Proof.
  intros E H. pose proof (norm_type _ _ E) as T. unfold norm_tok in E. injection E as _ _ E. unfold is_tok in H. rewrite <- T, H in E. now symmetry.
Qed.
Lemma norm_view t t' : norm_tok t = norm_tok t' -> bare_view (token_view t) = bare_view (token_view t').
Proof. intros E. unfold token_view, bare_view. cbn. now rewrite (norm_text _ _ E). Qed.
Lemma psim_peek ps ps' : psim ps ps' -> norm_tok (ppeek ps) = norm_tok (ppeek ps').
Proof. intros [H _]. unfold ppeek. destruct (p_toks ps), (p_toks ps'); try discriminate; [reflexivity|]. cbn [map hd] in *. exact (f_equal (hd eof_token) H). Qed.
Lemma psim_next ps ps' : psim ps ps' -> norm_tok (fst (pnext ps)) = norm_tok (fst (pnext ps')) /\ psim (snd (pnext ps)) (snd (pnext ps')).
Proof.
  intros [H E]. unfold pnext. destruct ps as [[|t [|t2 ts]] errs], ps' as [[|t' [|t2' ts']] errs']; cbn [p_toks p_errs map fst snd] in *; try discriminate.
  - split; [reflexivity|split; assumption].
  - split; [exact (f_equal (hd eof_token) H)|split; assumption].
  - split; [exact (f_equal (hd eof_token) H)|]. split; [exact (f_equal (@tl _) H)|exact E].
Qed.
Lemma psim_skip ps ps' : psim ps ps' -> psim (skip ps) (skip ps').
Proof. intros H. apply (psim_next _ _ H). Qed.
Lemma psim_err t t' why ps ps' : norm_tok t = norm_tok t' -> psim ps ps' -> psim (perr t why ps) (perr t' why ps').
Proof. intros N [A B]. split; [exact A|]. cbn [perr p_errs map]. unfold bare_complaint at 1 3. cbn [e_tok e_why]. rewrite B, (norm_bare _ _ N). reflexivity. Qed.
Lemma bare_null n n' : bare n = bare n' -> is_null n' = is_null n.
Proof. destruct n, n'; cbn; intros E; try discriminate; reflexivity. Qed.

Lemma sim_bind r r' f f' : sim r r' -> (forall n n' ps ps', bare n = bare n' -> psim ps ps' -> sim (f (n, ps)) (f' (n', ps'))) -> sim (bind r f) (bind r' f').
Proof.
  intros S F. destruct r as [[n ps]| |], r' as [[n' ps']| |]; cbn [bind sim] in *; auto; try contradiction.
  - destruct S. apply F; assumption.
  - destruct (f (n, ps)) as [[]| |]; exact I.
Qed.
Lemma sim_ret n n' ps ps' : bare n = bare n' -> psim ps ps' -> sim (Ret (n, ps)) (Ret (n', ps')).
Proof. split; assumption. Qed.
Lemma sim_ub r : sim r UB.
Proof. destruct r as [[]| |]; exact I. Qed.
Definition sure {A} (r : outcome A) : Prop := match r with OutOfFuel => False | _ => True end.
Lemma sim_range r r' (f f' : srange -> outcome (node * pstate)) : sure r -> sure r' -> (forall a a', sim (f a) (f' a')) -> sim (bind r f) (bind r' f').
Proof. destruct r, r'; cbn [bind sure]; intros S S' H; try contradiction; try exact I; [apply H|apply sim_ub]. Qed.
Lemma covering_sure a b : sure (covering a b).
Proof. unfold covering. cbv zeta. destruct (_ <=? _); exact I. Qed.
Lemma between_sure a b : sure (between a b).
Proof. unfold between. cbv zeta. destruct (_ <=? _); exact I. Qed.

Section Step.
Variable self : production -> pstate -> outcome (node * pstate).
Variable self' : production -> pstate -> outcome (node * pstate).
Hypothesis IH : forall p p' ps ps', bare_prod p = bare_prod p' -> psim ps ps' -> sim (self p ps) (self' p' ps').

Lemma self_same p ps ps' : psim ps ps' -> sim (self p ps) (self' p ps').
Proof. apply IH. reflexivity. Qed.
Ltac peeked :=
  match goal with
  | H : psim ?a ?b |- context[ppeek ?b] => let N := fresh "N" in pose proof (psim_peek a b H) as N; rewrite ?(norm_is _ _ _ N), <- ?(norm_type _ _ N); generalize dependent (ppeek b); intros
  end.
Ltac go := auto using psim_skip, psim_err, self_same.

Lemma assign_sim lhs lhs' a b a' b' ps ps' : bare lhs = bare lhs' -> psim ps ps' ->
  sim (parse_node_assign_rhs self lhs a b ps) (parse_node_assign_rhs self' lhs' a' b' ps').
Proof.
  intros B P. unfold parse_node_assign_rhs. apply sim_bind; [go|]. intros n n' ps1 ps1' N P1. apply sim_range; [apply covering_sure..|].
  intros r r'. apply sim_ret; [|exact P1]. cbn [bare]. congruence.
Qed.
Lemma exp_or_assign_sim ps ps' : psim ps ps' -> sim (expression_or_assignment self ps) (expression_or_assignment self' ps').
Proof.
  intros P. unfold expression_or_assignment. apply sim_bind; [go|]. clear ps ps' P. intros n n' ps ps' N P. rewrite (bare_null _ _ N).
  destruct (is_null n); [apply sim_ret; auto|]. cbv zeta. rewrite (norm_is _ _ _ (psim_peek _ _ P)).
  destruct n, n'; try discriminate N; try (apply sim_ret; assumption).
  destruct (is_tok (ppeek ps) TAssign); [apply assign_sim; go|apply sim_ret; assumption].
Qed.
Lemma list_sim ty l l' e x ps ps' : map bare l = map bare l' -> psim ps ps' -> sim (parse_list self ty l e x ps) (parse_list self' ty l' e x ps').
Proof.
  intros L P. unfold parse_list. rewrite (norm_is _ _ _ (psim_peek _ _ P)).
  destruct (is_tok (ppeek ps) x); [apply sim_ret; [cbn [bare]; congruence|go]|]. apply sim_bind; [go|]. clear ps ps' P. intros n n' ps ps' N P. cbv zeta.
  assert (L' : map bare (l ++ [n]) = map bare (l' ++ [n'])) by (rewrite !map_app; cbn [map]; congruence).
  rewrite !(norm_is _ _ _ (psim_peek _ _ P)). destruct (is_tok (ppeek ps) TComma); [apply IH; [cbn [bare_prod]; congruence|go]|].
  destruct (is_tok (ppeek ps) x); cbn [negb]; [apply IH; [cbn [bare_prod]; congruence|go]|].
  destruct (psim_next _ _ P) as [T P1]. destruct (pnext ps) as [t ps1], (pnext ps') as [t' ps1']. cbn [fst snd] in *. apply sim_ret; [cbn [bare]; congruence|go].
Qed.
Lemma fun_call_sim t t' ps ps' : bare_token t = bare_token t' -> psim ps ps' -> sim (parse_fun_call self t ps) (parse_fun_call self' t' ps').
Proof.
  intros T P. unfold parse_fun_call. apply sim_bind; [go|]. intros n n' ps1 ps1' N P1. apply sim_ret; [|exact P1]. cbn [bare]. rewrite N. f_equal. f_equal.
  unfold token_view, bare_view. cbn. injection T as _ ->. reflexivity.
Qed.
Lemma if_else_sim n n' ps ps' : bare n = bare n' -> psim ps ps' -> sim (parse_if_else self n ps) (parse_if_else self' n' ps').
Proof.
  intros N P. unfold parse_if_else. apply sim_bind; [go|]. clear ps ps' P. intros c c' ps ps' C P. rewrite (norm_is _ _ _ (psim_peek _ _ P)).
  destruct (is_tok (ppeek ps) TElse).
  - apply sim_bind; [go|]. intros x x' ps1 ps1' X P1. apply sim_ret; [cbn [bare]; congruence|exact P1].
  - apply sim_ret; [cbn [bare]; congruence|exact P].
Qed.
Lemma access_sim ps ps' : psim ps ps' -> sim (parse_array_or_slice_access self ps) (parse_array_or_slice_access self' ps').
Proof.
  intros P. unfold parse_array_or_slice_access. apply sim_bind; [go|]. clear ps ps' P. intros n n' ps ps' N P.
  destruct (psim_next _ _ P) as [T P1]. destruct (pnext ps) as [t ps1], (pnext ps') as [t' ps1']. cbn [fst snd] in *. clear ps ps' P.
  rewrite !(norm_is _ _ _ T), (bare_null _ _ N). destruct (is_tok t TCloseSquare); [apply sim_ret; [exact N|destruct (is_null n); go]|].
  destruct (is_tok t TColon); [|apply sim_ret; go]. apply sim_bind; [go|]. clear ps1 ps1' P1. intros m m' ps ps' M P.
  destruct (psim_next _ _ P) as [T2 P1]. destruct (pnext ps) as [t2 ps1], (pnext ps') as [t2' ps1']. cbn [fst snd] in *. clear ps ps' P.
  rewrite !(norm_is _ _ _ T2), (bare_null _ _ M). destruct (negb (is_tok t2 TCloseSquare)); [apply sim_ret; go|].
  destruct (is_null n && is_null m); [apply sim_ret; go|]. apply sim_ret; [cbn [bare]; congruence|exact P1].
Qed.
Lemma value_sim o ps ps' : psim ps ps' -> sim (parse_value_or_identifier self o ps) (parse_value_or_identifier self' o ps').
Proof.
  intros P. unfold parse_value_or_identifier. cbv zeta. pose proof (psim_peek _ _ P) as T. rewrite <- (norm_type _ _ T).
  destruct (tok_type (ppeek ps)) eqn:TT; try (apply sim_ret; [reflexivity|destruct o; go]); try (go; fail).
  - rewrite (norm_is _ _ _ (psim_peek _ _ (psim_skip _ _ P))). destruct (is_tok (ppeek (skip ps)) TOpenParen).
    + apply IH; [cbn [bare_prod]; f_equal; apply norm_bare, T|go].
    + apply sim_ret; [cbn [bare]; f_equal; apply norm_view, T|go].
  - unfold string_node. rewrite <- (norm_text _ _ T). destruct (string_from_literal (tok_text (ppeek ps))) as [[[[k v] tr] raw]|]; [|exact I].
    cbn [bind]. apply sim_ret; [reflexivity|go].
  - unfold parse_int_from_token. rewrite <- (norm_text _ _ T). destruct (int_from_literal (tok_text (ppeek ps))); apply sim_ret; go. cbn [bare]. f_equal. apply norm_view, T.
Qed.
Lemma expression_sim o ps ps' : psim ps ps' -> sim (parse_expression self o ps) (parse_expression self' o ps').
Proof.
  intros P. unfold parse_expression. cbv zeta. pose proof (psim_peek _ _ P) as T. rewrite <- (norm_type _ _ T). apply sim_bind.
  - destruct (tok_type (ppeek ps)); go; (apply sim_bind; [go|]); intros n n' ps1 ps1' N P1; (apply sim_ret; [cbn [bare]; congruence|exact P1]).
  - clear ps ps' P T. intros n n' ps ps' N P. rewrite (bare_null _ _ N). destruct (is_null n); [apply sim_ret; auto|]. apply IH; [cbn [bare_prod]; congruence|exact P].
Qed.
Lemma expression_loop_sim n n' ps ps' : bare n = bare n' -> psim ps ps' -> sim (parse_expression_loop self n ps) (parse_expression_loop self' n' ps').
Proof.
  intros N P. unfold parse_expression_loop. cbv zeta. pose proof (psim_peek _ _ P) as T. rewrite !(norm_is _ _ _ T), <- (norm_type _ _ T).
  destruct (is_tok (ppeek ps) TIf); [apply IH; [cbn [bare_prod]; congruence|exact P]|].
  destruct (is_binary_operator (tok_type (ppeek ps))).
  - apply sim_bind; [go|]. intros r r' ps1 ps1' R P1. apply sim_ret; [cbn [bare]; congruence|exact P1].
  - destruct (is_tok (ppeek ps) TOpenSquare) eqn:O; [|apply sim_ret; assumption]. rewrite (norm_newline _ _ T O). destruct (tok_newline (ppeek ps)); [apply sim_ret; assumption|].
    apply sim_bind; [go|]. intros r r' ps1 ps1' R P1. apply IH; [cbn [bare_prod bare]; congruence|exact P1].
Qed.
Lemma paren_sim ps ps' : psim ps ps' -> sim (parse_paren_expression_or_tuple self ps) (parse_paren_expression_or_tuple self' ps').
Proof.
  intros P. unfold parse_paren_expression_or_tuple. apply sim_bind; [go|]. clear ps ps' P. intros n n' ps ps' N P. cbv zeta.
  rewrite (norm_is _ _ _ (psim_peek _ _ P)), (bare_null _ _ N). destruct (negb (is_null n) && is_tok (ppeek ps) TCloseParen); [apply sim_ret; go|].
  destruct (is_null n); [|apply IH; [cbn [bare_prod map]; congruence|exact P]].
  destruct (psim_next _ _ P) as [T P1]. destruct (pnext ps) as [t ps1], (pnext ps') as [t' ps1']. cbn [fst snd] in *. rewrite (norm_is _ _ _ T).
  apply sim_ret; [reflexivity|]. destruct (is_tok t TCloseParen); go.
Qed.
Lemma tuple_sim l l' ps ps' : map bare l = map bare l' -> psim ps ps' -> sim (parse_tuple_loop self l ps) (parse_tuple_loop self' l' ps').
Proof.
  intros L P. unfold parse_tuple_loop. destruct (psim_next _ _ P) as [T P1]. destruct (pnext ps) as [t ps1], (pnext ps') as [t' ps1']. cbn [fst snd] in *. clear ps ps' P.
  rewrite !(norm_is _ _ _ T), (norm_is _ _ _ (psim_peek _ _ P1)). destruct (is_tok t TCloseParen); [apply sim_ret; [cbn [bare]; congruence|go]|].
  destruct (negb (is_tok t TComma)); [apply sim_ret; [cbn [bare]; congruence|go]|]. destruct (is_tok (ppeek ps1) TCloseParen); [apply sim_ret; [cbn [bare]; congruence|go]|].
  apply sim_bind; [go|]. intros n n' ps ps' N P. apply IH; [|exact P]. cbn [bare_prod]. rewrite !map_app. cbn [map]. congruence.
Qed.
Lemma map_tuple_sim ps ps' : psim ps ps' -> sim (parse_map_tuple self ps) (parse_map_tuple self' ps').
Proof.
  intros P. unfold parse_map_tuple. apply sim_bind; [go|]. clear ps ps' P. intros n n' ps ps' N P.
  destruct (psim_next _ _ P) as [T P1]. destruct (pnext ps) as [t ps1], (pnext ps') as [t' ps1']. cbn [fst snd] in *. clear ps ps' P.
  rewrite !(norm_is _ _ _ T). destruct (negb (is_tok t TColon)); [apply sim_ret; go|].
  apply sim_bind; [go|]. intros m m' ps ps' M P. apply sim_ret; [cbn [bare]; congruence|exact P].
Qed.
Lemma optional_id_sim ps ps' : psim ps ps' -> sim (parse_optional_identifier ps) (parse_optional_identifier ps').
Proof.
  intros P. unfold parse_optional_identifier. cbv zeta. pose proof (psim_peek _ _ P) as T. rewrite (norm_is _ _ _ T).
  destruct (is_tok (ppeek ps) TIdentifier); apply sim_ret; go. cbn [bare]. f_equal. apply norm_view, T.
Qed.
Lemma list_or_comp_sim ty e ps ps' : psim ps ps' -> sim (parse_list_or_list_comprehension self ty e ps) (parse_list_or_list_comprehension self' ty e ps').
Proof.
  intros P. unfold parse_list_or_list_comprehension. cbv zeta. rewrite (norm_is _ _ _ (psim_peek _ _ P)). destruct (is_tok (ppeek ps) (end_token_for ty)); [apply sim_ret; go|].
  apply sim_bind; [go|]. clear ps ps' P. intros n n' ps ps' N P. rewrite (bare_null _ _ N). destruct (is_null n); [apply sim_ret; go|].
  pose proof (psim_peek _ _ P) as T. rewrite (norm_is _ _ _ T), <- (norm_type _ _ T).
  destruct (tok_type (ppeek ps)); try (apply IH; [cbn [bare_prod map]; congruence|destruct (is_tok (ppeek ps) (end_token_for ty)); go]; fail).
  apply sim_bind; [apply IH; [cbn [bare_prod]; congruence|go]|]. intros f f' ps1 ps1' F P1. apply sim_ret; [cbn [bare]; congruence|exact P1].
Qed.
Lemma comp_for_sim n n' t t' x ps ps' : bare n = bare n' -> bare t = bare t' -> psim ps ps' ->
  sim (parse_comprehension_for self n t x ps) (parse_comprehension_for self' n' t' x ps').
Proof.
  intros N T P. unfold parse_comprehension_for. rewrite (norm_is _ _ _ (psim_peek _ _ P)).
  destruct (psim_next _ _ P) as [K P1]. destruct (is_tok (ppeek ps) TFor); destruct (pnext ps) as [k ps1], (pnext ps') as [k' ps1']; cbn [fst snd] in *; clear ps ps' P.
  - apply sim_bind.
    + rewrite (norm_is _ _ _ (psim_peek _ _ P1)). destruct (is_tok (ppeek ps1) TOpenParen); [|go]. apply sim_bind; [go|]. clear ps1 ps1' P1. intros v v' ps ps' V P.
      destruct (psim_next _ _ P) as [I P1]. destruct (pnext ps) as [i ps1], (pnext ps') as [i' ps1']. cbn [fst snd] in *. rewrite (norm_is _ _ _ I).
      apply sim_ret; [exact V|]. destruct (is_tok i TIn); go.
    + clear ps1 ps1' P1. intros v v' ps ps' V P. apply sim_bind; [go|]. clear ps ps' P. intros w w' ps ps' W P. apply sim_range; [apply between_sure..|]. intros r r'.
      cbv zeta. apply IH; [|exact P]. cbn [bare_prod bare]. congruence.
  - rewrite (norm_is _ _ _ K). destruct (negb (is_tok k x)); apply sim_ret; go.
Qed.
Lemma step_sim p p' ps ps' : bare_prod p = bare_prod p' -> psim ps ps' -> sim (production_step self p ps) (production_step self' p' ps').
Proof.
  intros B P. destruct p, p'; cbn [bare_prod] in B; try discriminate B; cbn [production_step].
  - injection B as ->. apply expression_sim, P.
  - injection B as B. apply expression_loop_sim; assumption.
  - injection B as ->. apply value_sim, P.
  - apply paren_sim, P.
  - injection B as B. apply tuple_sim; assumption.
  - apply access_sim, P.
  - injection B as B. apply if_else_sim; assumption.
  - injection B as ->. destruct e0; cbn [parse_element]; [go|apply exp_or_assign_sim, P|apply map_tuple_sim, P|apply optional_id_sim, P].
  - injection B as -> B -> ->. apply list_sim; assumption.
  - injection B as -> ->. apply list_or_comp_sim, P.
  - injection B as B1 B2 ->. apply comp_for_sim; assumption.
  - apply fun_call_sim; [|exact P]. injection B as B1 B2. unfold bare_token. congruence.
Qed.
End Step.
Lemma run_sim fuel : forall p p' ps ps', bare_prod p = bare_prod p' -> psim ps ps' -> sim (run fuel p ps) (run fuel p' ps').
Proof. induction fuel as [|fuel IH]; intros p p' ps ps' B P; [exact I|]. cbn [run]. apply step_sim; assumption. Qed.

(** * Statements *)
Definition bare_top (r : toplevel) : toplevel := match r with TopStatement n => TopStatement (bare n) | _ => r end.
Definition simt (r r' : outcome (toplevel * pstate)) : Prop :=
  match r, r' with
  | UB, _ => True
  | _, UB => True
  | Ret (n, ps), Ret (n', ps') => bare_top n = bare_top n' /\ psim ps ps'
  | OutOfFuel, OutOfFuel => True
  | _, _ => False
  end.
Lemma simt_ub r : simt r UB.
Proof. destruct r as [[]| |]; exact I. Qed.
Lemma simt_bind r r' f f' : sim r r' -> (forall n n' ps ps', bare n = bare n' -> psim ps ps' -> simt (f (n, ps)) (f' (n', ps'))) -> simt (bind r f) (bind r' f').
Proof.
  intros S F. destruct r as [[n ps]| |], r' as [[n' ps']| |]; cbn [bind sim] in *; auto; try contradiction; try exact I; try apply simt_ub.
  destruct S. apply F; assumption.
Qed.
(** The first token may or may not be on a new line. *)
Definition tsim (ps ps' : pstate) : Prop :=
  tok_type (fst (pnext ps)) = tok_type (fst (pnext ps')) /\ tok_text (fst (pnext ps)) = tok_text (fst (pnext ps')) /\ psim (snd (pnext ps)) (snd (pnext ps')).
Lemma psim_tsim ps ps' : psim ps ps' -> tsim ps ps'.
Proof. intros P. destruct (psim_next _ _ P) as [T P1]. split; [apply norm_type, T|]. split; [apply norm_text, T|exact P1]. Qed.
Lemma psim_err' t t' why ps ps' : tok_type t = tok_type t' -> tok_text t = tok_text t' -> psim ps ps' -> psim (perr t why ps) (perr t' why ps').
Proof. intros A B [C D]. split; [exact C|]. cbn [perr p_errs map]. unfold bare_complaint at 1 3. cbn [e_tok e_why]. unfold bare_token at 1 2. rewrite A, B, D. reflexivity. Qed.
Lemma toplevel_sim fuel ps ps' : tsim ps ps' -> simt (parse_toplevel fuel ps) (parse_toplevel fuel ps').
Proof.
  intros (T & X & P). unfold parse_toplevel. destruct (pnext ps) as [t q], (pnext ps') as [t' q']. cbn [fst snd] in *. clear ps ps'. rewrite <- T.
  assert (V : bare_view (token_view t) = bare_view (token_view t')) by (unfold token_view, bare_view; cbn; now rewrite X).
  destruct (tok_type t) eqn:TT; try (apply conj; [reflexivity|apply psim_err'; congruence||assumption]); try (apply conj; [reflexivity|exact P]).
  - apply simt_bind; [apply run_sim; [reflexivity|exact P]|]. clear q q' P. intros l l' ps ps' L P.
    destruct (psim_next _ _ P) as [A P1]. destruct (pnext ps) as [a q], (pnext ps') as [a' q']. cbn [fst snd] in *. rewrite (norm_is _ _ _ A).
    destruct (negb (is_tok a TAssign)); [apply conj; [reflexivity|apply psim_err; assumption]|].
    apply simt_bind; [apply assign_sim; [apply run_sim|assumption..]|]. intros n n' ps1 ps1' N P2. apply conj; [cbn [bare_top]; congruence|exact P2].
  - apply simt_bind; [apply run_sim; [reflexivity|exact P]|]. intros n n' ps1 ps1' N P2. apply conj; [cbn [bare_top]; congruence|exact P2].
  - destruct (psim_next _ _ P) as [A P1]. destruct (pnext q) as [a r], (pnext q') as [a' r']. cbn [fst snd] in *. rewrite <- (norm_type _ _ A).
    destruct (tok_type a); try (apply conj; [reflexivity|apply psim_err; assumption]).
    + apply simt_bind; [apply run_sim; [cbn [bare_prod]; unfold bare_token; congruence|exact P1]|]. intros n n' ps1 ps1' N P2. apply conj; [cbn [bare_top]; congruence|exact P2].
    + apply simt_bind; [apply run_sim; [reflexivity|exact P1]|]. intros n n' ps1 ps1' N P2. apply conj; [cbn [bare_top bare]; congruence|exact P2].
    + apply simt_bind; [apply assign_sim; [apply run_sim|cbn [bare]; congruence|assumption]|]. intros n n' ps1 ps1' N P2. apply conj; [cbn [bare_top]; congruence|exact P2].
Qed.
Definition siml (r r' : outcome (list node * pstate)) : Prop :=
  match r, r' with
  | UB, _ => True
  | _, UB => True
  | Ret (n, ps), Ret (n', ps') => map bare n = map bare n' /\ psim ps ps'
  | OutOfFuel, OutOfFuel => True
  | _, _ => False
  end.
Lemma siml_ub r : siml r UB.
Proof. destruct r as [[]| |]; exact I. Qed.
Lemma loop_sim rounds fuel : forall l l' ps ps', map bare l = map bare l' -> psim ps ps' \/ (tsim ps ps' /\ p_errs ps = [] /\ p_errs ps' = []) ->
  siml (parse_loop rounds fuel l ps) (parse_loop rounds fuel l' ps').
Proof.
  induction rounds as [|rounds IH]; intros l l' ps ps' L P; [exact I|]. cbn [parse_loop].
  assert (E : match p_errs ps with [] => p_errs ps' = [] | _ :: _ => p_errs ps' <> [] /\ psim ps ps' end).
  { destruct P as [P|(_ & A & B)]; [|rewrite A; exact B]. pose proof P as [_ E]. destruct (p_errs ps), (p_errs ps'); try discriminate E; [reflexivity|split; [discriminate|exact P]]. }
  destruct (p_errs ps).
  - rewrite E. assert (T : tsim ps ps') by (destruct P as [P|[P _]]; [apply psim_tsim, P|exact P]). apply (toplevel_sim fuel) in T.
    destruct (parse_toplevel fuel ps) as [[r q]| |], (parse_toplevel fuel ps') as [[r' q']| |]; cbn [simt bind] in *; try exact I; try contradiction; try apply siml_ub.
    destruct T as [T Q]. destruct r, r'; cbn [bare_top] in T; try discriminate T; [|apply IH; auto|split; assumption].
    apply IH; [|auto]. rewrite !map_app. cbn [map]. congruence.
  - destruct E as [E Q]. destruct (p_errs ps'); [congruence|]. split; assumption.
Qed.
Theorem parse_again c c' : reformatted c c' -> exists l errs l' errs', parse c = Ret (l, errs) /\ parse c' = Ret (l', errs') /\
  map bare l = map bare l' /\ map bare_complaint errs = map bare_complaint errs'.
Proof.
  intros R. destruct (tokens_again c c' R) as (t & t' & ts & ts' & E & E' & TY & TX & TS & LAST).
  destruct (parse_total c) as (l & errs & A), (parse_total c') as (l' & errs' & B). exists l, errs, l', errs'. split; [exact A|]. split; [exact B|].
  unfold parse, parse_tokens in A, B. rewrite E in A. rewrite E' in B.
  assert (LEN : length (t :: ts) = length (t' :: ts')) by (cbn [length]; f_equal; rewrite <- (map_length norm_tok ts), TS; apply map_length).
  rewrite <- LEN in B. unfold parse_fuel in A, B. rewrite <- LEN in B.
  pose proof (loop_sim (2 * length (t :: ts) + 2) (12 * length (t :: ts) + 12) [] [] (mkP (t :: ts) []) (mkP (t' :: ts') []) eq_refl) as S.
  assert (P : psim (mkP (t :: ts) []) (mkP (t' :: ts') []) \/ (tsim (mkP (t :: ts) []) (mkP (t' :: ts') []) /\ p_errs (mkP (t :: ts) []) = [] /\ p_errs (mkP (t' :: ts') []) = [])).
  { destruct ts as [|u ts], ts' as [|u' ts']; try discriminate TS.
    - left. split; [cbn [p_toks map]; rewrite (LAST eq_refl); reflexivity|reflexivity].
    - right. split; [|auto]. split; [exact TY|]. split; [exact TX|]. split; [exact TS|reflexivity]. }
  specialize (S P). destruct (parse_loop _ _ _ (mkP (t :: ts) [])) as [[r q]| |] ; [|discriminate A..]. destruct (parse_loop _ _ _ (mkP (t' :: ts') [])) as [[r' q']| |]; [|discriminate B..].
  cbn [bind] in A, B. injection A as <- <-. injection B as <- <-. destruct S as [S [_ S2]]. auto.
Qed.
