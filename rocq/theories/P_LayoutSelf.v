(** A file whose tokens are not in error is a re-spacing of itself. *)
From Coq Require Import Lia.
From Verif Require Import Base M_Scanner S_Scanner P_Scanner M_Ast M_Parser S_Layout P_Layout.

Lemma words_exist fuel : forall sc, sc_upcoming sc = None -> length (sc_rest sc) < fuel -> exists ws e, sc_rest sc = text_of w_gap ws e /\ gap true e /\
  Forall (fun w => gap false (w_gap w) /\ w_gap' w = w_gap w) ws /\ map tok_text (tokens_from fuel sc) = map w_text ws ++ [[]].
Proof.
  induction fuel as [|fuel IH]; intros sc U L; [lia|]. cbn [tokens_from]. destruct (next sc) as [t sc'] eqn:N. apply next_spec in N as [U' [[-> [G _]]|[g [E [G [T1 [T2 _]]]]]]]; auto.
  - exists [], (sc_rest sc). split; [reflexivity|]. split; [exact G|]. split; [constructor|reflexivity].
  - destruct (toktype_beq (tok_type t) TEof) eqn:B; [apply internal_toktype_dec_bl in B; contradiction|].
    destruct (IH sc' U') as (ws & e & R & GE & F & M).
    { apply (f_equal (@length _)) in E. rewrite !app_length in E. destruct (tok_text t); [congruence|]. cbn [length] in E. lia. }
    exists (mkWord g g (tok_text t) :: ws), e. rewrite text_of_cons, <- R. split; [exact E|]. split; [exact GE|]. split; [constructor; auto|]. cbn [map w_text app]. now rewrite M.
Qed.
Lemma not_alone rest ty p : scan_token ($"not" ++ rest) 0 = (ty, 3, p) -> span_len is_identifier_char rest = 0 /\ consume_optional_in rest = None.
Proof.
  change (scan_token ($"not" ++ rest) 0) with (handle_identifier ($"not" ++ rest) 0). unfold handle_identifier. cbn [app].
  change ($"not" ++ rest) with ("n"%char :: "o"%char :: "t"%char :: rest). cbn [app length Nat.ltb Nat.leb]. change (ceqb "n" "r" || ceqb "n" "R") with false. cbn [andb].
  change (negb (is_identifier_char "n")) with false. cbn iota. cbn [span_len]. change (is_identifier_char "n") with true. change (is_identifier_char "o") with true. change (is_identifier_char "t") with true. cbn iota.
  destruct (span_len is_identifier_char rest) as [|k].
  - cbn [firstn skipn]. change (str_eqb ["n"%char; "o"%char; "t"%char] ($"not")) with true. cbn iota. destruct (consume_optional_in rest) as [k|] eqn:C; [|auto].
    intros E. injection E as _ E _. unfold consume_optional_in in C. destruct (starts_with _ _); [|discriminate]. injection C as <-. lia.
  - intros E. exfalso. repeat (destruct (str_eqb _ _) in E; [try destruct (consume_optional_in _) in E; injection E; intros; lia|]). injection E; intros; lia.
Qed.
Lemma space_in g r : forallb is_space g = true -> starts_with ($"in") r = true -> consume_optional_in (g ++ r) <> None.
Proof.
  intros G H. unfold consume_optional_in. assert (span_len is_space (g ++ r) = length g) as ->.
  { apply span_len_app; [intros c I; rewrite forallb_forall in G; auto|]. destruct r as [|c r]; [reflexivity|]. change ($"in") with ["i"%char; "n"%char] in H. cbn [starts_with] in H.
    destruct (ceqb_spec "i" c) as [<-|]; [reflexivity|discriminate]. }
  rewrite skipn_app, skipn_all, Nat.sub_diag. cbn [app skipn]. rewrite H. discriminate.
Qed.
Lemma kept_self e ws : forall w tys, worded w_gap e (w :: ws) tys -> Forall (fun w => w_gap' w = w_gap w) ws -> kept_apart (w_text w) ws.
Proof.
  induction ws as [|v ws IH]; intros w tys W F; [exact I|]. apply Forall_cons_iff in F as [F FS].
  inversion W as [|? ? ty tys' V NE NF S W']; subst. cbn [kept_apart]. split; [|eapply IH; eauto]. unfold may_follow. rewrite F.
  split; [auto|]. split; [intros _; reflexivity|]. intros U SI. destruct (forallb is_space (w_gap v)) eqn:SP; [|reflexivity]. exfalso.
  destruct (S 0) as [p E]. rewrite U in E. apply not_alone in E as [_ E]. rewrite text_of_cons in E. apply (space_in (w_gap v) (w_text v ++ text_of w_gap ws e) SP); [|exact E].
  clear -SI. revert SI. change ($"in") with ["i"%char; "n"%char]. destruct (w_text v) as [|a [|b t]]; cbn [starts_with app]; [discriminate|destruct (ceqb "i" a); discriminate|auto].
Qed.
Theorem reformatted_self c : (forall t, In t (all_tokens c) -> tok_type t <> TError) -> reformatted c c.
Proof.
  intros NE. destruct (words_exist (S (length c)) (scanner_init c)) as (ws & e & R & GE & F & M); [reflexivity|cbn; lia|]. cbn [scanner_init sc_rest] in R.
  exists ws, e, e. split; [exact R|]. split.
  { rewrite R. unfold text_of, as_after. f_equal. clear -F. induction F as [|w ws [_ E] F IH]; [reflexivity|]. cbn [flat_map]. now rewrite E, IH. }
  split; [exact M|]. split; [exact NE|]. split; [|auto]. split; [eapply Forall_impl; [|exact F]; intros w [G ->]; auto|].
  destruct ws as [|w ws]; [exact I|]. destruct (words_found w_gap e GE (w :: ws) (S (length c)) (scanner_init c)) as [tys W]; auto.
  { eapply Forall_impl; [|exact F]. intros x [G _]. exact G. }
  eapply kept_self; [exact W|]. apply Forall_cons_iff in F as [_ F]. eapply Forall_impl; [|exact F]. intros x [_ E]. exact E.
Qed.
