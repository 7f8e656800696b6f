(** Proofs about glob patterns. *)
From Verif Require Import Base OMap M_Types M_Regex P_Regex M_Glob S_Glob.

Local Notation star := "*"%char.
Local Notation slash := "/"%char.

(** * Text of the expressions *)
Fixpoint file_tokens (p : str) : str :=
  match p with
  | [] => []
  | c :: r =>
      if ceqb c star then
        match r with
        | d :: e :: r' => if ceqb d star && ceqb e slash then $".*/?" ++ file_tokens r' else $"[^/]*" ++ file_tokens r
        | _ => $"[^/]*" ++ file_tokens r
        end
      else quote_char c ++ file_tokens r
  end.
Fixpoint dir_tokens (p : str) : str :=
  match p with
  | [] => []
  | c :: r =>
      if ceqb c star then
        match r with
        | d :: r' => if ceqb d star then $".*/?" ++ dir_tokens r' else $"[^/]*" ++ dir_tokens r
        | _ => $"[^/]*" ++ dir_tokens r
        end
      else quote_char c ++ dir_tokens r
  end.

Lemma quote_head s c r : quote_meta s = c :: r -> c <> star /\ c <> slash.
Proof.
  destruct s as [|x s]; [discriminate|]. unfold quote_meta; cbn [flat_map]. unfold quote_char.
  destruct (ceqb x "000"); [intros H; injection H as <- _; split; discriminate|].
  destruct (needs_no_quote x) eqn:Q; intros H; injection H as <- _; [|split; intros C; discriminate C].
  split; intros ->; vm_compute in Q; discriminate.
Qed.
Lemma starts_head a b c d : starts_with (BSL :: a :: b) (c :: d) = true -> c = BSL /\ exists d', d = a :: d'.
Proof.
  cbn [starts_with]. intros H. apply andb_true_iff in H as [H1 H2]. destruct (ceqb_spec BSL c) as [<-|]; [|discriminate H1]. split; auto.
  destruct d as [|x d]; [discriminate|]. apply andb_true_iff in H2 as [H2 _]. destruct (ceqb_spec a x) as [<-|]; [|discriminate H2]. eauto.
Qed.
(** Nothing is replaced in a quoted character that is not the one looked for. *)
Lemma replace_quote a reps c s : (forall ft, In ft reps -> exists b, fst ft = BSL :: a :: b) -> c <> a -> a <> BSL -> a <> "x"%char ->
  needs_no_quote a = false -> (forall x r, s = x :: r -> x <> a) ->
  replace_all reps (quote_char c ++ s) 0 = quote_char c ++ replace_all reps s 0.
Proof.
  intros R N Na Nx Q H.
  assert (F : forall x r, (x <> BSL \/ forall d r', r = d :: r' -> d <> a) -> find (fun ft => starts_with (fst ft) (x :: r)) reps = None).
  { intros x r D. destruct (find (fun ft => starts_with (fst ft) (x :: r)) reps) as [ft|] eqn:E; auto. apply find_some in E as [I E]. destruct (R ft I) as [b Eb]. assert (E' : starts_with (BSL :: a :: b) (x :: r) = true) by (rewrite <- Eb; exact E).
    apply starts_head in E' as [-> (d' & ->)]. destruct D as [D|D]; [congruence|]. exfalso. eapply D; eauto. }
  unfold quote_char. destruct (ceqb c "000").
  - cbn [app replace_all list_ascii_of_string]. rewrite F by (right; intros d r' E; injection E as <- _; congruence). rewrite !F by (left; discriminate). auto.
  - destruct (needs_no_quote c) eqn:Qc; cbn [app replace_all].
    + rewrite F; [auto|]. left. intros ->. discriminate.
    + rewrite F by (right; intros d r' E; injection E as <- _; auto). rewrite F; [auto|]. right. intros d r' E. eapply H; eauto.
Qed.

Lemma file_text_tokens p : file_text p = file_tokens p.
Proof.
  unfold file_text. remember (length p) as n. assert (L : length p <= n) by lia. clear Heqn. revert p L.
  induction n as [|n IH]; intros p L; destruct p as [|c r]; auto; [cbn in L; lia|]. cbn [length] in L.
  unfold quote_meta. cbn [flat_map]. fold (quote_meta r). cbn [file_tokens]. destruct (ceqb_spec c star) as [->|N].
  - assert (One : (forall q, r <> star :: slash :: q) -> replace_all [($"\*\*\/", $".*/?"); ($"\*", $"[^/]*")] (quote_char star ++ quote_meta r) 0 = $"[^/]*" ++ file_tokens r).
    { intros D. change (quote_char star) with [BSL; star]. cbn [app replace_all]. cbn [find fst].
      assert (X : starts_with ($"\*\*\/") (BSL :: star :: quote_meta r) = false).
      { cbn [starts_with list_ascii_of_string]. change (ceqb "\" BSL) with true. change (ceqb star star) with true. cbn [andb].
        destruct r as [|d r]; auto. unfold quote_meta. cbn [flat_map]. fold (quote_meta r). destruct (ceqb_spec d star) as [->|Nd].
        - change (quote_char star) with [BSL; star]. cbn [app starts_with]. change (ceqb "\" BSL) with true. change (ceqb star star) with true. cbn [andb].
          destruct r as [|e r]; auto. unfold quote_meta. cbn [flat_map]. fold (quote_meta r). unfold quote_char. destruct (ceqb e "000"); auto.
          destruct (needs_no_quote e) eqn:Qe; cbn [app starts_with].
          + destruct (ceqb_spec "\" e) as [<-|]; [discriminate Qe|]. auto.
          + destruct (ceqb_spec "/" e) as [<-|]; [destruct (D r); auto|]. now rewrite andb_false_r.
        - unfold quote_char. destruct (ceqb d "000"); auto. destruct (needs_no_quote d) eqn:Qd; cbn [app starts_with].
          + destruct (ceqb_spec "\" d) as [<-|]; [discriminate Qd|]. auto.
          + destruct (ceqb_spec star d) as [<-|]; [congruence|]. now rewrite andb_false_r. }
      rewrite X. change (starts_with ($"\*") (BSL :: star :: quote_meta r)) with (starts_with [] (quote_meta r)). cbn [starts_with].
      change (length ($"\*") - 1) with 1. cbn [replace_all]. f_equal. apply IH. lia. }
    destruct r as [|d [|e r]]; try (apply One; discriminate). destruct (ceqb_spec d star) as [->|Nd]; cbn [andb]; [|apply One; congruence].
    destruct (ceqb_spec e slash) as [->|Ne]; [|apply One; congruence].
    change (quote_char star ++ quote_meta (star :: slash :: r)) with ($"\*\*\/" ++ quote_meta r). cbn [app list_ascii_of_string replace_all find fst].
    match goal with |- context [starts_with ?a ?b] => assert (Sw : starts_with a b = true) by (vm_compute; destruct (quote_meta r); reflexivity) end.
    cbn [list_ascii_of_string] in Sw |- *. rewrite Sw. rewrite <- (IH r) by (cbn [length] in L; lia). reflexivity.
  - rewrite (replace_quote star); auto; try discriminate.
    + f_equal. apply IH. lia.
    + intros ft [<-|[<-|[]]]; cbn; eauto.
    + intros x s E. now apply quote_head in E.
Qed.

Lemma dir_replace_tokens p : replace_all [($"\*\*", $".*/?"); ($"\*", $"[^/]*")] (quote_meta p) 0 = dir_tokens p.
Proof.
  remember (length p) as n. assert (L : length p <= n) by lia. clear Heqn. revert p L.
  induction n as [|n IH]; intros p L; destruct p as [|c r]; auto; [cbn in L; lia|]. cbn [length] in L.
  unfold quote_meta. cbn [flat_map]. fold (quote_meta r). cbn [dir_tokens]. destruct (ceqb_spec c star) as [->|N].
  - assert (One : (forall q, r <> star :: q) -> replace_all [($"\*\*", $".*/?"); ($"\*", $"[^/]*")] (quote_char star ++ quote_meta r) 0 = $"[^/]*" ++ dir_tokens r).
    { intros D. change (quote_char star) with [BSL; star]. cbn [app replace_all]. cbn [find fst].
      assert (X : starts_with ($"\*\*") (BSL :: star :: quote_meta r) = false).
      { cbn [starts_with list_ascii_of_string]. change (ceqb "\" BSL) with true. change (ceqb star star) with true. cbn [andb].
        destruct r as [|d r]; auto. unfold quote_meta. cbn [flat_map]. fold (quote_meta r). destruct (ceqb_spec d star) as [->|Nd]; [destruct (D r); auto|].
        unfold quote_char. destruct (ceqb d "000"); auto. destruct (needs_no_quote d) eqn:Qd; cbn [app starts_with].
        + destruct (ceqb_spec "\" d) as [<-|]; [discriminate Qd|]. auto.
        + destruct (ceqb_spec star d) as [<-|]; [congruence|]. now rewrite andb_false_r. }
      rewrite X. change (starts_with ($"\*") (BSL :: star :: quote_meta r)) with (starts_with [] (quote_meta r)). cbn [starts_with].
      change (length ($"\*") - 1) with 1. cbn [replace_all]. f_equal. apply IH. lia. }
    destruct r as [|d r]; [apply One; discriminate|]. destruct (ceqb_spec d star) as [->|Nd]; [|apply One; congruence].
    change (quote_char star ++ quote_meta (star :: r)) with ($"\*\*" ++ quote_meta r). cbn [app list_ascii_of_string replace_all find fst].
    match goal with |- context [starts_with ?a ?b] => assert (Sw : starts_with a b = true) by (vm_compute; destruct (quote_meta r); reflexivity) end.
    cbn [list_ascii_of_string] in Sw |- *. rewrite Sw. rewrite <- (IH r) by (cbn [length] in L; lia). reflexivity.
  - rewrite (replace_quote star); auto; try discriminate.
    + f_equal. apply IH. lia.
    + intros ft [<-|[<-|[]]]; cbn; eauto.
    + intros x s E. now apply quote_head in E.
Qed.

(** Grouping what follows a slash. *)
Fixpoint group_tokens (p : str) : str :=
  match p with
  | [] => []
  | c :: r =>
      if ceqb c star then
        match r with
        | d :: r' => if ceqb d star then $".*/?" ++ group_tokens r' else $"[^/]*" ++ group_tokens r
        | _ => $"[^/]*" ++ group_tokens r
        end
      else if ceqb c slash then $"(\/" ++ group_tokens r
      else quote_char c ++ group_tokens r
  end.
Lemma tokens_head p c r : dir_tokens p = c :: r -> c <> slash.
Proof.
  destruct p as [|x p]; [discriminate|]. cbn [dir_tokens]. destruct (ceqb_spec x star) as [->|N].
  - destruct p as [|d p]; [intros H; injection H as <- _; intros C; discriminate C|].
    destruct (ceqb d star); intros H; injection H as <- _; intros C; discriminate C.
  - unfold quote_char. destruct (ceqb x "000"); [intros H; injection H as <- _; intros C; discriminate C|].
    destruct (needs_no_quote x) eqn:Q; intros H; injection H as <- _; [|intros C; discriminate C].
    intros ->; vm_compute in Q; discriminate.
Qed.
Lemma slash_plain u s : (forall c, In c u -> c <> BSL) -> replace_all [($"\/", $"(\/")] (u ++ s) 0 = u ++ replace_all [($"\/", $"(\/")] s 0.
Proof.
  induction u as [|c u IH]; intros H; auto. cbn [app replace_all find fst].
  assert (X : starts_with ($"\/") (c :: u ++ s) = false).
  { cbn [starts_with list_ascii_of_string]. destruct (ceqb_spec "\" c) as [<-|]; auto. destruct (H BSL); cbn; auto. }
  rewrite X. f_equal. apply IH. intros x I. apply H. cbn; auto.
Qed.
Lemma count_plain u s : (forall c, In c u -> c <> BSL) -> count_replaced ($"\/") (u ++ s) 0 = count_replaced ($"\/") s 0.
Proof.
  induction u as [|c u IH]; intros H; auto. cbn [app count_replaced].
  assert (X : starts_with ($"\/") (c :: u ++ s) = false).
  { cbn [starts_with list_ascii_of_string]. destruct (ceqb_spec "\" c) as [<-|]; auto. destruct (H BSL); cbn; auto. }
  rewrite X. apply IH. intros x I. apply H. cbn; auto.
Qed.
Lemma count_quote c s : c <> slash -> (forall x r, s = x :: r -> x <> slash) -> count_replaced ($"\/") (quote_char c ++ s) 0 = count_replaced ($"\/") s 0.
Proof.
  intros N H.
  assert (F : forall x r, (x <> BSL \/ forall d r', r = d :: r' -> d <> slash) -> starts_with ($"\/") (x :: r) = false).
  { intros x r D. destruct (starts_with ($"\/") (x :: r)) eqn:E; auto. change ($"\/") with (BSL :: slash :: []) in E.
    apply starts_head in E as [-> (d' & ->)]. destruct D as [D|D]; [congruence|]. exfalso. eapply D; eauto. }
  unfold quote_char. destruct (ceqb c "000").
  - change ($"\x00" ++ s) with (BSL :: "x"%char :: "0"%char :: "0"%char :: s). cbn [count_replaced].
    rewrite F by (right; intros d r' E; injection E as <- _; discriminate). rewrite !F by (left; discriminate). auto.
  - destruct (needs_no_quote c) eqn:Qc; cbn [app count_replaced].
    + rewrite F; [auto|]. left. intros ->. discriminate.
    + rewrite F by (right; intros d r' E; injection E as <- _; auto). rewrite F; [auto|]. right. intros d r' E. eapply H; eauto.
Qed.
Definition slashes (p : str) : nat := count_char slash p.
Lemma group_tokens_spec p : replace_all [($"\/", $"(\/")] (dir_tokens p) 0 = group_tokens p /\ count_replaced ($"\/") (dir_tokens p) 0 = slashes p.
Proof.
  remember (length p) as n. assert (L : length p <= n) by lia. clear Heqn. revert p L.
  induction n as [|n IH]; intros p L; destruct p as [|c r]; auto; [cbn in L; lia|]. cbn [length] in L.
  cbn [dir_tokens group_tokens]. unfold slashes. cbn [count_char]. fold (slashes r). destruct (ceqb_spec c star) as [->|N].
  - change (ceqb star slash) with false. cbn iota. destruct r as [|d r].
    + auto.
    + destruct (ceqb_spec d star) as [->|Nd].
      * rewrite slash_plain, count_plain by (intros x I C; subst x; cbn in I; intuition discriminate).
        unfold slashes. cbn [count_char]. change (ceqb star slash) with false. cbn iota. fold (slashes r).
        destruct (IH r) as [-> ->]; auto. cbn [length] in L. lia.
      * rewrite slash_plain, count_plain by (intros x I C; subst x; cbn in I; intuition discriminate).
        destruct (IH (d :: r)) as [-> ->]; auto. lia.
  - destruct (ceqb_spec c slash) as [->|Ns].
    + change (quote_char slash ++ dir_tokens r) with (BSL :: slash :: dir_tokens r). cbn [replace_all count_replaced find fst].
      assert (X : starts_with ($"\/") (BSL :: slash :: dir_tokens r) = true) by (vm_compute; destruct (dir_tokens r); reflexivity).
      rewrite X. change (length ($"\/") - 1) with 1. cbn [replace_all count_replaced]. destruct (IH r) as [-> ->]; auto. lia.
    + rewrite (replace_quote slash); auto; try discriminate.
      * rewrite count_quote; auto; [|intros x s E; eapply tokens_head; eauto]. destruct (IH r) as [-> ->]; auto. lia.
      * intros ft [<-|[]]; cbn; eauto.
      * intros x s E. eapply tokens_head; eauto.
Qed.
Lemma dir_text_tokens p : dir_text p = group_tokens p ++ concat (repeat ($")?") (slashes p)).
Proof. unfold dir_text. rewrite dir_replace_tokens. destruct (group_tokens_spec p) as [-> ->]. auto. Qed.

(** * The expressions *)
Fixpoint file_regs (p : str) : list regex :=
  match p with
  | [] => []
  | c :: r =>
      if ceqb c star then
        match r with
        | d :: e :: r' => if ceqb d star && ceqb e slash then RStar RAny :: ROpt (RLit slash) :: file_regs r' else RStar RNotSlash :: file_regs r
        | _ => RStar RNotSlash :: file_regs r
        end
      else RLit c :: file_regs r
  end.
Definition seq_frame (l : list regex) : re_frame := {| fr_alts := []; fr_seq := rev l |}.
Fixpoint dir_regs (p : str) : list regex :=
  match p with
  | [] => []
  | c :: r =>
      if ceqb c star then
        match r with
        | d :: r' => if ceqb d star then RStar RAny :: ROpt (RLit slash) :: dir_regs r' else RStar RNotSlash :: dir_regs r
        | _ => RStar RNotSlash :: dir_regs r
        end
      else if ceqb c slash then [ROpt (close_frame (seq_frame (RLit slash :: dir_regs r)))]
      else RLit c :: dir_regs r
  end.
Definition add_regs (l : list regex) (top : re_frame) : re_frame := {| fr_alts := fr_alts top; fr_seq := rev l ++ fr_seq top |}.
Lemma add_regs_nil top : add_regs [] top = top.
Proof. destruct top; reflexivity. Qed.
Lemma add_regs_app a b top : add_regs (a ++ b) top = add_regs b (add_regs a top).
Proof. unfold add_regs. cbn [fr_alts fr_seq]. rewrite rev_app_distr, <- app_assoc. reflexivity. Qed.
Lemma add_regs_cons a l top : add_regs (a :: l) top = add_regs l (push_atom a top).
Proof. unfold add_regs, push_atom. cbn [fr_alts fr_seq rev]. rewrite <- app_assoc. reflexivity. Qed.

(** Texts whose reading does not depend on a repetition before them. *)
Definition resets (s : str) : Prop := match s with [] => True | c :: _ => c <> "*"%char /\ c <> "+"%char /\ c <> "?"%char end.
Lemma resets_parse s rep rep' top stack : resets s -> re_parse s rep top stack = re_parse s rep' top stack.
Proof.
  destruct s as [|c s]; [reflexivity|]. intros (H1 & H2 & H3). cbn [re_parse].
  destruct (ceqb_spec c "*") as [|_]; [contradiction|]. destruct (ceqb_spec c "+") as [|_]; [contradiction|]. destruct (ceqb_spec c "?") as [|_]; [contradiction|]. reflexivity.
Qed.
Lemma quote_resets c s : resets (quote_char c ++ s).
Proof.
  unfold quote_char. destruct (ceqb c "000"); [repeat split; discriminate|]. destruct (needs_no_quote c) eqn:Q; [|repeat split; discriminate].
  cbn [app resets]. repeat split; intros ->; vm_compute in Q; discriminate.
Qed.
Lemma file_resets p s : resets s -> resets (file_tokens p ++ s).
Proof.
  destruct p as [|c r]; auto. intros _. cbn [file_tokens]. destruct (ceqb c star).
  - destruct r as [|d [|e r]]; try (repeat split; discriminate). destruct (_ && _); repeat split; discriminate.
  - rewrite <- app_assoc. apply quote_resets.
Qed.
Lemma parse_star_notslash s rep top stack : re_parse ($"[^/]*" ++ s) rep top stack = re_parse s true (push_atom (RStar RNotSlash) top) stack.
Proof. reflexivity. Qed.
Lemma parse_dirs s rep top stack : re_parse ($".*/?" ++ s) rep top stack = re_parse s true (push_atom (ROpt (RLit slash)) (push_atom (RStar RAny) top)) stack.
Proof. reflexivity. Qed.
Lemma file_parse p s stack : resets s -> forall rep rep' top, re_parse (file_tokens p ++ s) rep top stack = re_parse s rep' (add_regs (file_regs p) top) stack.
Proof.
  intros Rs. remember (length p) as n. assert (L : length p <= n) by lia. clear Heqn. revert p L.
  induction n as [|n IH]; intros p L rep rep' top; destruct p as [|c r]; try (cbn [length] in L; lia);
    try (cbn [file_tokens file_regs app]; rewrite add_regs_nil; now apply resets_parse).
  cbn [length] in L. cbn [file_tokens file_regs]. destruct (ceqb c star).
  - destruct r as [|d [|e r]].
    + rewrite <- app_assoc, parse_star_notslash, add_regs_cons. apply IH. cbn [length] in *; lia.
    + rewrite <- app_assoc, parse_star_notslash, add_regs_cons. apply IH. cbn [length] in *; lia.
    + destruct (_ && _).
      * rewrite <- app_assoc, parse_dirs, !add_regs_cons. apply IH. cbn [length] in L; lia.
      * rewrite <- app_assoc, parse_star_notslash, add_regs_cons. apply IH. lia.
  - rewrite <- app_assoc, re_parse_quote_char, add_regs_cons. apply IH. lia.
Qed.
Lemma close_resets n s : resets s -> resets (concat (repeat ($")?") n) ++ s).
Proof. destruct n; auto. intros _. cbn. repeat split; discriminate. Qed.
Lemma repeat_end n s : concat (repeat ($")?") (S n)) ++ s = concat (repeat ($")?") n) ++ $")?" ++ s.
Proof. induction n as [|n IH]; [reflexivity|]. cbn [repeat concat] in IH |- *. rewrite <- !app_assoc. rewrite <- IH. now rewrite <- !app_assoc. Qed.
Lemma dir_parse p : forall s stack rep rep' top, resets s ->
  re_parse (group_tokens p ++ concat (repeat ($")?") (slashes p)) ++ s) rep top stack = re_parse s rep' (add_regs (dir_regs p) top) stack.
Proof.
  remember (length p) as n. assert (L : length p <= n) by lia. clear Heqn. revert p L.
  induction n as [|n IH]; intros p L s stack rep rep' top Rs; destruct p as [|c r]; try (cbn [length] in L; lia);
    try (cbn [group_tokens dir_regs app]; rewrite add_regs_nil; now apply resets_parse).
  cbn [length] in L. cbn [group_tokens dir_regs]. unfold slashes. cbn [count_char]. fold (slashes r). destruct (ceqb_spec c star) as [->|N].
  - change (ceqb star slash) with false. cbn [plus]. destruct r as [|d r].
    + rewrite <- app_assoc, parse_star_notslash, add_regs_cons. apply (IH []); auto. cbn; lia.
    + destruct (ceqb_spec d star) as [->|Nd].
      * rewrite <- app_assoc, parse_dirs, !add_regs_cons. unfold slashes. cbn [count_char]. change (ceqb star slash) with false. cbn [plus]. apply (IH r); auto. cbn [length] in L; lia.
      * rewrite <- app_assoc, parse_star_notslash, add_regs_cons. apply IH; auto.  lia.
  - destruct (ceqb_spec c slash) as [->|Ns]; cbn [plus].
    + rewrite repeat_end, <- app_assoc.
      change ($"(\/" ++ group_tokens r ++ concat (repeat ($")?") (slashes r)) ++ $")?" ++ s)
        with ("("%char :: BSL :: slash :: (group_tokens r ++ concat (repeat ($")?") (slashes r)) ++ $")?" ++ s)).
      transitivity (re_parse (group_tokens r ++ concat (repeat ($")?") (slashes r)) ++ $")?" ++ s) false (push_atom (RLit slash) empty_frame) (top :: stack)); [reflexivity|].
      rewrite (IH r) with (rep' := false); [|lia|repeat split; discriminate].
      rewrite add_regs_cons, add_regs_nil. unfold seq_frame. 
      transitivity (re_parse s true (push_atom (ROpt (close_frame (add_regs (dir_regs r) (push_atom (RLit slash) empty_frame)))) top) stack).
      * reflexivity.
      * unfold add_regs, push_atom. cbn [fr_alts fr_seq empty_frame rev]. now apply resets_parse.
    + rewrite <- app_assoc, re_parse_quote_char, add_regs_cons. apply IH; auto. lia.
Qed.

(** * What they match *)
Lemma lang_dirs u v r s : lang_list (RStar RAny :: ROpt (RLit slash) :: r) s -> (forall x, lang_list r x -> v x) -> u = True -> exists a b, s = a ++ b /\ ~ In NL a /\ lang_list r b.
Proof.
  intros H _ _. cbn [lang_list] in H. destruct H as (a & b & -> & Ha & c & d & -> & Hc & Hd). apply lang_any_star in Ha. apply lang_opt in Hc.
  exists (a ++ c), d. rewrite app_assoc. split; auto. split; auto. intros I. apply in_app_or in I as [I|I]; auto.
  destruct Hc as [Hc|Hc]; subst; [|destruct I]. apply lang_lit in Hc. subst. destruct I as [I|[]]. discriminate.
Qed.
Lemma file_lang p : forall s, lang_list (file_regs p) s <-> glob_match p s.
Proof.
  remember (length p) as n. assert (L : length p <= n) by lia. clear Heqn. revert p L.
  induction n as [|n IH]; intros p L s; destruct p as [|c r]; try (cbn [length] in L; lia);
    try (cbn; split; [intros ->; constructor|now inversion 1]).
  cbn [length] in L. cbn [file_regs]. destruct (ceqb_spec c star) as [->|N].
  - assert (One : (forall q, r <> star :: slash :: q) -> (lang_list (RStar RNotSlash :: file_regs r) s <-> glob_match (star :: r) s)).
    { intros D. cbn [lang_list]. split.
      - intros (u & v & -> & H1 & H2). apply lang_notslash_star in H1. apply IH in H2; [|lia]. now apply GM_star.
      - intros H. inversion H; subst; [destruct (D p); auto| |congruence]. exists u, s0. split; auto. split; [now apply lang_notslash_star|]. apply IH; auto. lia. }
    destruct r as [|d [|e r]]; try (apply One; discriminate). destruct (ceqb_spec d star) as [->|Nd]; cbn [andb]; [|apply One; congruence].
    destruct (ceqb_spec e slash) as [->|Ne]; [|apply One; congruence]. cbn [length] in L. split.
    + intros H. apply (lang_dirs True (fun _ => True)) in H as (a & b & -> & Ha & Hb); auto. apply GM_dirs; auto. apply IH; auto. lia.
    + intros H. inversion H as [|? u s0 Hu Hg|? ? ? ? D|]; subst; [|destruct (D r); auto|congruence]. cbn [lang_list]. exists u, s0. split; auto. split; [now apply lang_any_star|].
      exists [], s0. split; auto. split; [apply lang_opt; auto|]. apply IH; auto. lia.
  - cbn [lang_list]. split.
    + intros (u & v & -> & H1 & H2). apply lang_lit in H1. subst u. apply GM_char; auto. apply IH; auto. lia.
    + intros H. inversion H; subst; try congruence. exists [c], s0. split; auto. split; [constructor|]. apply IH; auto. lia.
Qed.
Lemma dir_lang p : forall s, lang_list (dir_regs p) s <-> dir_match p s.
Proof.
  remember (length p) as n. assert (L : length p <= n) by lia. clear Heqn. revert p L.
  induction n as [|n IH]; intros p L s; destruct p as [|c r]; try (cbn [length] in L; lia);
    try (cbn; split; [intros ->; constructor|now inversion 1]).
  cbn [length] in L. cbn [dir_regs]. destruct (ceqb_spec c star) as [->|N].
  - assert (One : (forall q, r <> star :: q) -> (lang_list (RStar RNotSlash :: dir_regs r) s <-> dir_match (star :: r) s)).
    { intros D. cbn [lang_list]. split.
      - intros (u & v & -> & H1 & H2). apply lang_notslash_star in H1. apply IH in H2; [|lia]. now apply DM_star.
      - intros H. inversion H; subst; [destruct (D p); auto| |congruence]. exists u, s0. split; auto. split; [now apply lang_notslash_star|]. apply IH; auto. lia. }
    destruct r as [|d r]; [apply One; discriminate|]. destruct (ceqb_spec d star) as [->|Nd]; [|apply One; congruence]. cbn [length] in L. split.
    + intros H. apply (lang_dirs True (fun _ => True)) in H as (a & b & -> & Ha & Hb); auto. apply DM_dirs; auto. apply IH; auto. lia.
    + intros H. inversion H as [|? u s0 Hu Hg|? ? ? ? D| |]; subst; [|destruct (D r); auto|congruence]. cbn [lang_list]. exists u, s0. split; auto. split; [now apply lang_any_star|].
      exists [], s0. split; auto. split; [apply lang_opt; auto|]. apply IH; auto. lia.
  - destruct (ceqb_spec c slash) as [->|Ns].
    + assert (C : lang_list [ROpt (close_frame (seq_frame (RLit slash :: dir_regs r)))] s <-> s = [] \/ exists v, s = slash :: v /\ lang_list (dir_regs r) v).
      { cbn [lang_list]. assert (X : forall u, lang (close_frame (seq_frame (RLit slash :: dir_regs r))) u <-> exists v, u = slash :: v /\ lang_list (dir_regs r) v).
        { intros u. rewrite close_frame_lang. unfold seq_frame. cbn [fr_alts fr_seq]. rewrite rev_involutive. split.
          - intros [(x & [] & _)|(a & b & -> & Ha & Hb)]. apply lang_lit in Ha. subst a. exists b. split; auto.
          - intros (v & -> & H). right. exists [slash], v. split; auto. split; auto. constructor. }
        split.
        - intros (u & v & -> & Hu & ->). rewrite app_nil_r. apply lang_opt in Hu as [Hu|Hu]; auto. right. now apply X.
        - intros H. exists s, []. rewrite app_nil_r. split; auto. split; auto. apply lang_opt. destruct H as [->|H]; auto. left. now apply X. }
      rewrite C. split.
      * intros [->|(v & -> & H)]; [apply DM_stop|]. apply DM_char; auto. apply IH; auto. lia.
      * intros H. inversion H; subst; auto; try congruence. right. exists s0. split; auto. apply IH; auto. lia.
    + cbn [lang_list]. split.
      * intros (u & v & -> & H1 & H2). apply lang_lit in H1. subst u. apply DM_char; auto. apply IH; auto. lia.
      * intros H. inversion H; subst; try congruence. exists [c], s0. split; auto. split; [constructor|]. apply IH; auto. lia.
Qed.

(** * Alternatives *)
Definition reads_as (t : str) (l : list regex) : Prop :=
  forall s stack rep rep' top, resets s -> re_parse (t ++ s) rep top stack = re_parse s rep' (add_regs l top) stack.
Lemma file_reads p : reads_as (file_text p) (file_regs p).
Proof. intros s stack rep rep' top R. rewrite file_text_tokens. now apply file_parse. Qed.
Lemma dir_reads p : reads_as (dir_text p) (dir_regs p).
Proof. intros s stack rep rep' top R. rewrite dir_text_tokens, <- app_assoc. now apply dir_parse. Qed.
Lemma push_alt_regs l f : fr_seq f = [] -> fr_alts (push_alt (add_regs l f)) = seq_of (rev l) :: fr_alts f /\ fr_seq (push_alt (add_regs l f)) = [].
Proof. intros E. unfold push_alt, add_regs. cbn [fr_seq fr_alts]. rewrite E, app_nil_r. auto. Qed.
Lemma join_parse (A : Type) (text : A -> str) (regs : A -> list regex) (H : forall a, reads_as (text a) (regs a)) (a : A) l : forall top rep, fr_seq top = [] ->
  exists r, re_parse (join_or (map text (a :: l))) rep top [] = ReOk r /\
    forall s, lang r s <-> (exists x, In x (fr_alts top) /\ lang x s) \/ exists b, In b (a :: l) /\ lang_list (regs b) s.
Proof.
  revert a. induction l as [|b l IH]; intros a top rep E.
  - unfold join_or. cbn [map join]. rewrite <- (app_nil_r (text a)), (H a [] [] rep false); [|exact I]. cbn [re_parse]. eexists. split; [reflexivity|].
    intros s. rewrite close_frame_lang. unfold add_regs. cbn [fr_alts fr_seq]. rewrite E, app_nil_r, rev_involutive.
    split; intros [X|X]; auto; right; [exists a; split; auto; now left|]. destruct X as (y & [->|[]] & X). exact X.
  - unfold join_or. cbn [map]. rewrite join_cons2. rewrite (H a _ [] rep false); [|repeat split; discriminate].
    destruct (push_alt_regs (regs a) top E) as (E1 & E2).
    destruct (IH b (push_alt (add_regs (regs a) top)) false E2) as (r & Er & Hr). exists r. split; [exact Er|].
    intros s. rewrite Hr, E1. split.
    + intros [(x & [<-|Ix] & Hx)|(y & Iy & Hy)].
      * right. exists a. split; [now left|]. apply seq_of_lang in Hx. now rewrite rev_involutive in Hx.
      * left; eauto.
      * right. exists y. split; auto. now right.
    + intros [(x & Ix & Hx)|(y & [<-|Iy] & Hy)].
      * left. exists x. split; auto. now right.
      * left. exists (seq_of (rev (regs a))). split; [now left|]. apply seq_of_lang. now rewrite rev_involutive.
      * right; eauto.
Qed.
Lemma compile_join (A : Type) (text : A -> str) (regs : A -> list regex) (H : forall a, reads_as (text a) (regs a)) l :
  exists r, re2_compile (join_or (map text l)) = ReOk r /\ forall s, full_match r s = true <-> (l = [] /\ s = []) \/ exists b, In b l /\ lang_list (regs b) s.
Proof.
  destruct l as [|a l].
  - exists REps. split; [reflexivity|]. intros s. rewrite full_match_lang, lang_eps. split; [auto|]. intros [[_ X]|(b & [] & _)]; auto.
  - destruct (join_parse A text regs H a l empty_frame false eq_refl) as (r & Er & Hr). exists r. split; [exact Er|].
    intros s. rewrite full_match_lang, Hr. cbn [fr_alts empty_frame]. split.
    + intros [(x & [] & _)|X]; auto.
    + intros [[X _]|X]; [discriminate|auto].
Qed.

(** Patterns without '*' match themselves. *)
Lemma glob_match_plain p s : has_star p = false -> (glob_match p s <-> s = p).
Proof.
  unfold has_star. revert s. induction p as [|c p IH]; intros s H.
  - split; [now inversion 1|intros ->; constructor].
  - cbn [contains_char] in H. apply orb_false_iff in H as (H1 & H2). assert (c <> star) by (intros ->; discriminate). split.
    + intros G. inversion G; subst; try congruence. f_equal. now apply IH.
    + intros ->. apply GM_char; auto. now apply IH.
Qed.
Lemma filename_matcher ps s : s <> [] -> (pm_match (make_filename_matcher ps) s = true <-> exists p, In p ps /\ glob_match p s).
Proof.
  intros Ns. unfold pm_match, make_filename_matcher. cbn [pm_verbatim pm_re].
  destruct (compile_join str file_text file_regs file_reads (filter has_star ps)) as (r & -> & Hr). rewrite orb_true_iff, set_mem_in, set_of_list_in, filter_In, Hr.
  split.
  - intros [(I & X)|[(_ & X)|(p & I & X)]]; [|contradiction|].
    + exists s. split; auto. apply glob_match_plain; auto. now apply negb_true_iff in X.
    + apply filter_In in I as (I & _). exists p. split; auto. now apply file_lang.
  - intros (p & I & G). destruct (has_star p) eqn:E.
    + right. right. exists p. split; [now apply filter_In|]. now apply file_lang.
    + left. apply glob_match_plain in G; auto. subst p. split; auto. now rewrite E.
Qed.
Lemma filename_matcher_empty ps : pm_match (make_filename_matcher ps) [] = true <-> (forall p, In p ps -> has_star p = false) \/ exists p, In p ps /\ glob_match p [].
Proof.
  unfold pm_match, make_filename_matcher. cbn [pm_verbatim pm_re].
  destruct (compile_join str file_text file_regs file_reads (filter has_star ps)) as (r & -> & Hr). rewrite orb_true_iff, set_mem_in, set_of_list_in, filter_In, Hr.
  split.
  - intros [(I & X)|[(E & _)|(p & I & X)]].
    + right. exists []. split; auto. constructor.
    + left. intros p Ip. destruct (has_star p) eqn:Ep; auto. assert (J : In p (filter has_star ps)) by now apply filter_In. rewrite E in J. destruct J.
    + apply filter_In in I as (I & _). right. exists p. split; auto. now apply file_lang.
  - intros [E|(p & I & G)].
    + right. left. split; auto. destruct (filter has_star ps) as [|p l] eqn:Ef; auto.
      assert (J : In p (filter has_star ps)) by (rewrite Ef; now left). apply filter_In in J as (J & X). rewrite (E p J) in X. discriminate.
    + destruct (has_star p) eqn:E.
      * right. right. exists p. split; [now apply filter_In|]. now apply file_lang.
      * left. apply glob_match_plain in G; auto. subst p. auto.
Qed.

(** * Directories *)
Lemma reads_same t l1 l2 : reads_as t l1 -> reads_as t l2 -> forall s, lang_list l1 s <-> lang_list l2 s.
Proof.
  intros H1 H2 s. specialize (H1 [] [] false false empty_frame I). specialize (H2 [] [] false false empty_frame I). rewrite H1 in H2. cbn [re_parse] in H2.
  assert (E : close_frame (add_regs l1 empty_frame) = close_frame (add_regs l2 empty_frame)) by congruence.
  assert (X : forall l, lang (close_frame (add_regs l empty_frame)) s <-> lang_list l s).
  { intros l. rewrite close_frame_lang. unfold add_regs. cbn [fr_alts fr_seq empty_frame]. rewrite app_nil_r, rev_involutive. split; [intros [(x & [] & _)|Y]; auto|auto]. }
  rewrite <- X, E, X. reflexivity.
Qed.
Lemma image_list (P : str -> Prop) (T : list str) : (forall t, In t T -> exists d, P d /\ t = dir_text d) -> exists l, T = map dir_text l /\ forall d, In d l -> P d.
Proof.
  induction T as [|t T IH]; intros H.
  - exists []. split; auto. intros d [].
  - destruct IH as (l & -> & Hl); [intros x Ix; apply H; now right|]. destruct (H t) as (d & Pd & ->); [now left|].
    exists (d :: l). split; auto. intros x [<-|Ix]; auto.
Qed.
Lemma dir_match_plain p s : has_star p = false -> (dir_match p s <-> In s (slash_prefixes [] p ++ [p])).
Proof.
  intros H. assert (G : forall pre, dir_match p s <-> In (pre ++ s) (slash_prefixes pre p ++ [pre ++ p])).
  2: { exact (G []). }
  unfold has_star in H. revert s. induction p as [|c p IH]; intros s pre.
  - cbn [slash_prefixes app In]. rewrite app_nil_r. split.
    + inversion 1. left. now rewrite app_nil_r.
    + intros [E|[]]. replace s with (@nil ascii); [constructor|]. rewrite <- (app_nil_r pre) in E at 1. now apply app_inv_head in E.
  - cbn [contains_char existsb] in H. apply orb_false_iff in H as (H1 & H2). assert (N : c <> star) by (intros ->; discriminate). cbn [slash_prefixes].
    assert (X : forall v, dir_match p v <-> In (pre ++ c :: v) (slash_prefixes (pre ++ [c]) p ++ [pre ++ c :: p])).
    { intros v. rewrite (IH H2 v (pre ++ [c])), <- !app_assoc. reflexivity. }
    rewrite <- app_assoc, in_app_iff. split.
    + intros D. inversion D; subst; try congruence.
      * left. change (ceqb slash slash) with true. left. now rewrite app_nil_r.
      * right. now apply X.
    + intros [I|I].
      * destruct (ceqb_spec c slash) as [->|]; [|destruct I]. destruct I as [E|[]]. rewrite <- (app_nil_r pre) in E at 1. apply app_inv_head in E. subst s. constructor.
      * assert (Y : exists v, s = c :: v).
        { clear - I. apply in_app_or in I as [I|[E|[]]].
          - assert (Q : forall z b x, In x (slash_prefixes b z) -> exists v, x = b ++ v).
            { induction z as [|d q IHq]; intros b x J; [destruct J|]. cbn [slash_prefixes] in J. apply in_app_or in J as [J|J].
              - destruct (ceqb d slash); [|destruct J]. destruct J as [<-|[]]. exists []. now rewrite app_nil_r.
              - apply IHq in J as (v & ->). exists ([d] ++ v). now rewrite <- app_assoc. }
            apply Q in I as (v & E). rewrite <- app_assoc in E. apply app_inv_head in E. eauto.
          - apply app_inv_head in E. eauto. }
        destruct Y as (v & ->). apply DM_char; auto. now apply X.
Qed.
Definition dirs_of (p s : str) : Prop := match dir_part p with None => s = [] | Some d => dir_match d s end.
Lemma directory_matcher ps s :
  pm_match (make_directory_matcher ps) s = true <->
  (exists p, In p ps /\ dirs_of p s) \/ (s = [] /\ forall p d, In p ps -> dir_part p = Some d -> has_star d = false).
Proof.
  unfold pm_match, make_directory_matcher. cbn [pm_verbatim pm_re].
  set (P := fun d => exists p, In p ps /\ dir_part p = Some d /\ has_star d = true).
  destruct (image_list P (set_of_list (flat_map dir_re ps))) as (l & El & Hl).
  { intros t I. apply set_of_list_in, in_flat_map in I as (p & Ip & It). unfold dir_re in It. destruct (dir_part p) as [d|] eqn:Ed; [|destruct It].
    destruct (has_star d) eqn:Es; [|destruct It]. destruct It as [<-|[]]. exists d. split; auto. exists p; auto. }
  destruct (compile_join str dir_text dir_regs dir_reads l) as (r & Er & Hr).
  assert (Er' : re2_compile (join_or (set_of_list (flat_map dir_re ps))) = ReOk r) by (rewrite El; exact Er). rewrite Er'. clear Er Er'.
  rewrite orb_true_iff, set_mem_in, set_of_list_in, in_flat_map, Hr. clear Hr.
  assert (Back : forall p d, In p ps -> dir_part p = Some d -> has_star d = true -> exists b, In b l /\ forall s, lang_list (dir_regs b) s <-> lang_list (dir_regs d) s).
  { intros p d Ip Ed Es. assert (It : In (dir_text d) (set_of_list (flat_map dir_re ps))).
    { apply set_of_list_in, in_flat_map. exists p. split; auto. unfold dir_re. rewrite Ed, Es. now left. }
    rewrite El in It. apply in_map_iff in It as (b & Eb & Ib). exists b. split; auto. apply (reads_same (dir_text b)); [apply dir_reads|]. rewrite Eb. apply dir_reads. }
  split.
  - intros [(p & Ip & Is)|[(-> & ->)|(d & Id & L)]].
    + left. exists p. split; auto. unfold dir_verbatim, dirs_of in *. destruct (dir_part p) as [d|]; [|destruct Is as [<-|[]]; auto].
      destruct (has_star d) eqn:Es; [destruct Is|]. now apply dir_match_plain.
    + right. split; auto. intros p d Ip Ed. destruct (has_star d) eqn:Es; auto. destruct (Back p d Ip Ed Es) as (b & [] & _).
    + left. destruct (Hl d Id) as (p & Ip & Ed & _). exists p. split; auto. unfold dirs_of. rewrite Ed. now apply dir_lang.
  - intros [(p & Ip & D)|(-> & N)].
    + unfold dirs_of in D. destruct (dir_part p) as [d|] eqn:Ed.
      * destruct (has_star d) eqn:Es.
        -- destruct (Back p d Ip Ed Es) as (b & Ib & Hb). right. right. exists b. split; auto. apply Hb. now apply dir_lang.
        -- left. exists p. split; auto. unfold dir_verbatim. rewrite Ed, Es. now apply dir_match_plain.
      * left. exists p. split; auto. unfold dir_verbatim. rewrite Ed. now left.
    + right. left. split; auto. destruct l as [|b l]; auto. destruct (Hl b (or_introl eq_refl)) as (p & Ip & Ed & Es). rewrite (N p b Ip Ed) in Es. discriminate.
Qed.

(** * No directory is pruned that contains a match *)
Lemma app_slash u s d r : ~ In slash u -> u ++ s = d ++ slash :: r -> exists d1, d = u ++ d1 /\ s = d1 ++ slash :: r.
Proof.
  revert d. induction u as [|c u IH]; intros d N E; [exists d; auto|]. destruct d as [|e d].
  - cbn [app] in E. destruct N. left. congruence.
  - cbn [app] in E. injection E as -> E. destruct (IH d) as (d1 & -> & ->); auto. { intros I. apply N. now right. } exists d1. auto.
Qed.
Lemma glob_no_slash p s : glob_match p s -> ~ In slash p -> ~ In slash s.
Proof.
  induction 1; intros N; auto.
  - destruct N. cbn. auto.
  - intros I. apply in_app_or in I as [I|I]; auto. revert I. apply IHglob_match. intros J. apply N. now right.
  - intros [E|I]; [apply N; left; auto|]. revert I. apply IHglob_match. intros J. apply N. now right.
Qed.
Lemma dir_more_stars p : forall d, ~ In NL d -> dir_match (star :: p) d -> dir_match (star :: star :: p) d.
Proof.
  remember (length p) as n. assert (L : length p <= n) by lia. clear Heqn. revert p L. induction n as [|n IH]; intros p L d N D; inversion D; subst; try congruence; try (cbn [length] in L; lia).
  - apply DM_dirs; auto. intros I. apply N, in_or_app. auto.
  - apply DM_dirs; [intros I; apply N, in_or_app; auto|]. assert (Ns : ~ In NL s) by (intros I; apply N, in_or_app; auto).
    cbn [length] in L. destruct p0 as [|c q].
    + apply (DM_star [] []); auto. discriminate.
    + destruct (ascii_dec c star) as [->|Nc].
      * apply IH; auto. cbn [length] in L; lia.
      * apply (DM_star (c :: q) []); auto. congruence.
  - apply DM_dirs; auto. intros I. apply N, in_or_app. auto.
Qed.
Lemma dir_prefix p u d : ~ In slash u -> ~ In NL u -> dir_match (star :: p) d -> dir_match (star :: p) (u ++ d).
Proof.
  intros S1 S2 D. inversion D; subst; try congruence; rewrite app_assoc.
  - apply DM_dirs; auto. intros I. apply in_app_or in I as [I|I]; auto.
  - apply DM_star; auto. intros I. apply in_app_or in I as [I|I]; auto.
Qed.
Lemma dirs_complete p f : ~ In slash f -> forall d r, ~ In NL d -> glob_match (p ++ slash :: f) (d ++ slash :: r) -> dir_match p d.
Proof.
  intros Nf. induction p as [|c p IH]; intros d r Nd G.
  - cbn [app] in G. inversion G as [| | |? ? s Nc G1 E1 E2]; subst. destruct d as [|e d]; [constructor|].
    cbn [app] in E2. injection E2 as E2 E3. subst s. apply glob_no_slash in G1; auto. destruct G1. apply in_or_app. right. now left.
  - cbn [app] in G. inversion G as [|q u s Hu G1 E1 E2|q u s Hu D G1 E1 E2|? ? s Nc G1 E1 E2]; subst.
    + destruct p as [|c1 [|c2 p]]; cbn [app] in H; try discriminate.
      * injection H as E0 E. subst. rewrite <- (app_nil_r d). apply DM_dirs; auto. constructor.
      * injection H as E0 E E'. subst. rewrite <- (app_nil_r d). apply DM_dirs; auto. constructor.
    + apply app_slash in E2 as (d1 & -> & ->); auto. assert (Nu : ~ In NL u) by (intros I; apply Nd, in_or_app; auto). assert (Nd1 : ~ In NL d1) by (intros I; apply Nd, in_or_app; auto).
      apply IH in G1; auto. destruct p as [|c q].
      * apply DM_star; auto. discriminate.
      * destruct (ascii_dec c star) as [->|Nc].
        -- apply dir_prefix; auto. apply dir_more_stars; auto.
        -- apply DM_star; auto. congruence.
    + destruct d as [|e d].
      * cbn [app] in E2. injection E2 as E2 E3. subst. constructor.
      * cbn [app] in E2. injection E2 as E2 E3. subst. apply DM_char; auto. apply (IH d r); auto. intros I. apply Nd. now right.
Qed.

(** * Bazel's reading *)
Lemma seg_glob p s : segment_match p s -> ~ In slash p -> ~ In slash s -> glob_match p s.
Proof.
  induction 1; intros Np Ns; [constructor| |].
  - assert (N1 : ~ In slash p) by (intros I; apply Np; now right). apply GM_star; [intros I; apply Ns, in_or_app; auto| |].
    + intros q ->. apply N1. cbn. auto.
    + apply IHsegment_match; auto. intros I. apply Ns, in_or_app; auto.
  - apply GM_char; auto. apply IHsegment_match; intros I; [apply Np|apply Ns]; now right.
Qed.
Lemma seg_glob_dir p s q t : segment_match p s -> ~ In slash p -> ~ In slash s -> ~ In NL s -> glob_match q t -> glob_match (p ++ slash :: q) (s ++ slash :: t).
Proof.
  intros M Np Ns Nn G. revert Np Ns Nn. induction M; intros Np Ns Nn.
  - apply GM_char; auto. discriminate.
  - assert (N1 : ~ In slash p) by (intros I; apply Np; now right). assert (Nu : ~ In slash u) by (intros I; apply Ns, in_or_app; auto).
    assert (Ns1 : ~ In slash s) by (intros I; apply Ns, in_or_app; auto). assert (Nn1 : ~ In NL s) by (intros I; apply Nn, in_or_app; auto).
    destruct p as [|c [|c2 p]].
    + cbn [app]. rewrite <- app_assoc. apply GM_star; auto. discriminate.
    + destruct (ascii_dec c star) as [->|Nc].
      * cbn [app]. replace ((u ++ s) ++ slash :: t) with ((u ++ s ++ [slash]) ++ t) by (now rewrite <- !app_assoc).
        apply GM_dirs; auto. intros I. apply in_app_or in I as [I|I]; [apply Nn, in_or_app; auto|]. apply in_app_or in I as [I|[I|[]]]; [auto|discriminate].
      * cbn [app]. rewrite <- app_assoc. apply GM_star; auto. congruence.
    + cbn [app]. rewrite <- app_assoc. apply GM_star; auto. intros x E. injection E as E1 E2 _. subst. apply N1. cbn; auto.
  - cbn [app]. apply GM_char; auto. apply IHM; intros I; [apply Np|apply Ns|apply Nn]; now right.
Qed.
Lemma path_ends ps ss : path_match ps ss -> forall d, last ps d <> [star; star] -> ps <> [] -> ss <> [].
Proof.
  induction 1; intros d L N; try congruence; try discriminate.
  destruct ps as [|p ps]; [cbn in L; congruence|]. apply (IHpath_match d); [exact L|discriminate].
Qed.
Lemma join_cons c p ps : ps <> [] -> join c (p :: ps) = p ++ c :: join c ps.
Proof. destruct ps; [congruence|reflexivity]. Qed.
Lemma join_in c x ss : (exists s, In s ss /\ In x s) -> In x (join c ss).
Proof.
  induction ss as [|s ss IH]; intros (y & I & J); [destruct I|]. destruct ss as [|s2 ss].
  - destruct I as [->|[]]. exact J.
  - rewrite join_cons2. apply in_or_app. destruct I as [->|I]; auto. right. right. apply IH; eauto.
Qed.
Lemma path_glob ps ss : path_match ps ss -> forall d, ps <> [] -> last ps d <> [star; star] -> (forall p, In p ps -> ~ In slash p) -> (forall s, In s ss -> ~ In slash s /\ ~ In NL s) ->
  glob_match (join slash ps) (join slash ss).
Proof.
  induction 1 as [|ps ss H IH|ps s ss H IH|p ps s ss N M H IH]; intros d Ne L Np Ns; [congruence| | |].
  - destruct ps as [|p ps]; [cbn in L; congruence|]. rewrite join_cons by discriminate. apply (GM_dirs _ []); auto. apply (IH d); auto; [discriminate|]. intros q I. apply Np. now right.
  - destruct ps as [|p ps]; [cbn in L; congruence|]. assert (Nss : ss <> []) by (apply (path_ends _ _ H d); auto).
    rewrite (join_cons slash s) by auto. specialize (IH d Ne L Np (fun x I => Ns x (or_intror I))). rewrite join_cons in * by discriminate. cbn [app] in IH |- *.
    inversion IH as [|q u t Hu G E1 E2|q u t Hu D G E1 E2|? ? ? Nc]; subst; [|destruct (D (join slash (p :: ps))); auto|congruence].
    replace (s ++ slash :: u ++ t) with ((s ++ slash :: u) ++ t) by (now rewrite <- app_assoc). apply GM_dirs; auto.
    intros I. apply in_app_or in I as [I|[I|I]]; [|discriminate|auto]. now apply (Ns s (or_introl eq_refl)).
  - destruct (Ns s (or_introl eq_refl)) as (N1 & N2). specialize (Np p (or_introl eq_refl)) as N3. destruct ps as [|p2 ps].
    + inversion H; subst. cbn [join]. now apply seg_glob.
    + assert (Nss : ss <> []) by (apply (path_ends _ _ H d); [exact L|discriminate]). rewrite (join_cons slash s) by auto. rewrite join_cons by discriminate.
      apply seg_glob_dir; auto. apply (IH d); auto; [discriminate| |]; intros q I; [apply Np|apply Ns]; now right.
Qed.
Lemma bazel_complete p s : bazel_match p s -> ~ In NL s -> last (split slash p) [] <> [star; star] -> glob_match p s.
Proof.
  unfold bazel_match. intros B N L. rewrite <- (join_split slash p), <- (join_split slash s). apply (path_glob _ _ B []); auto.
  - apply split_not_nil.
  - apply split_pieces.
  - intros x I. split; [now apply (split_pieces slash s)|]. intros J. apply N. rewrite <- (join_split slash s). apply join_in. eauto.
Qed.
Lemma split_cons_other c x s : x <> c -> exists p ps, split c s = p :: ps /\ split c (x :: s) = (x :: p) :: ps.
Proof. intros N. cbn [split]. destruct (ceqb_spec x c); [contradiction|]. pose proof (split_not_nil c s). destruct (split c s) as [|p ps]; [congruence|]. eauto. Qed.
Lemma split_prefix c u s : ~ In c u -> exists p ps, split c s = p :: ps /\ split c (u ++ s) = (u ++ p) :: ps.
Proof.
  intros N. induction u as [|x u IH].
  - pose proof (split_not_nil c s). cbn [app]. destruct (split c s) as [|p ps]; [congruence|]. eauto.
  - destruct IH as (p & ps & E1 & E2); [intros I; apply N; now right|]. exists p, ps. split; auto. cbn [app].
    destruct (split_cons_other c x (u ++ s)) as (q & qs & E3 & E4); [intros ->; apply N; now left|]. rewrite E4. rewrite E2 in E3. injection E3 as <- <-. reflexivity.
Qed.
Lemma glob_segments p s : glob_match p s -> contains ($"**/") p = false ->
  exists p1 ps s1 ss, split slash p = p1 :: ps /\ split slash s = s1 :: ss /\ segment_match p1 s1 /\ Forall2 segment_match ps ss.
Proof.
  induction 1 as [|p u s Hu G IH|p u s Hu D G IH|c p s Nc G IH]; intros C.
  - exists [], [], [], []. cbn. do 2 (split; [auto|]). split; constructor.
  - exfalso. rewrite <- not_true_iff_false in C. apply C, contains_iff. exists [], p. reflexivity.
  - cbn [contains] in C. apply orb_false_iff in C as (_ & C). destruct (IH C) as (p1 & ps & s1 & ss & E1 & E2 & S1 & S2).
    destruct (split_cons_other slash star p) as (q & qs & F1 & F2); [discriminate|]. rewrite F1 in E1. injection E1 as -> ->.
    destruct (split_prefix slash u s Hu) as (t & ts & F3 & F4). rewrite F3 in E2. injection E2 as -> ->. exists (star :: p1), ps, (u ++ s1), ss. do 2 (split; [auto|]). split; auto. now constructor.
  - cbn [contains] in C. apply orb_false_iff in C as (_ & C). destruct (IH C) as (p1 & ps & s1 & ss & E1 & E2 & S1 & S2).
    destruct (ascii_dec c slash) as [->|Ns].
    + exists [], (p1 :: ps), [], (s1 :: ss). cbn [split]. change (ceqb slash slash) with true. cbn iota. rewrite E1, E2. do 2 (split; [auto|]). split; [constructor|]. constructor; auto.
    + destruct (split_cons_other slash c p Ns) as (q & qs & F1 & F2). rewrite F1 in E1. injection E1 as -> ->.
      destruct (split_cons_other slash c s Ns) as (t & ts & F3 & F4). rewrite F3 in E2. injection E2 as -> ->. exists (c :: p1), ps, (c :: s1), ss. do 2 (split; [auto|]). split; auto. now constructor.
Qed.
Lemma segments_path ps ss : Forall2 segment_match ps ss -> (forall p, In p ps -> p <> [star; star]) -> path_match ps ss.
Proof. induction 1; intros N; constructor; auto. { apply N. now left. } apply IHForall2. intros q I. apply N. now right. Qed.
Lemma no_dstar_segments p : contains ($"**/") p = false -> last (split slash p) [] <> [star; star] -> forall q, In q (split slash p) -> q <> [star; star].
Proof.
  intros C L q I E. subst q. destruct (in_split _ _ I) as (l1 & l2 & El). destruct l2 as [|x l2].
  - rewrite El, last_last in L. congruence.
  - rewrite <- not_true_iff_false in C. apply C, contains_iff. rewrite <- (join_split slash p), El. clear.
    induction l1 as [|y l1 IH].
    + exists [], (join slash (x :: l2)). reflexivity.
    + destruct IH as (a & b & E). cbn [app]. rewrite join_cons by (destruct l1; discriminate). rewrite E. exists (y ++ slash :: a), b. now rewrite <- app_assoc.
Qed.
Lemma bazel_sound p s : glob_match p s -> contains ($"**/") p = false -> last (split slash p) [] <> [star; star] -> bazel_match p s.
Proof.
  intros G C L. destruct (glob_segments p s G C) as (p1 & ps & s1 & ss & E1 & E2 & S1 & S2). unfold bazel_match.
  apply segments_path; [rewrite E1, E2; constructor; auto|]. now apply no_dstar_segments.
Qed.

(** * The builder *)
(** The patterns a builder was given, include (true) and exclude (false), one call after
    another. *)
Definition add_pattern (g : glob_builder) (c : bool * str) : glob_builder := if fst c then add_include (snd c) g else add_exclude (snd c) g.
Definition built (calls : list (bool * str)) : glob_builder := fold_left add_pattern calls new_glob.
Lemma built_in calls p : (In p (g_include (built calls)) <-> In (true, p) calls) /\ (In p (g_exclude (built calls)) <-> In (false, p) calls).
Proof.
  unfold built. assert (G : forall g, (In p (g_include (fold_left add_pattern calls g)) <-> In p (g_include g) \/ In (true, p) calls) /\ (In p (g_exclude (fold_left add_pattern calls g)) <-> In p (g_exclude g) \/ In (false, p) calls)).
  { induction calls as [|[b q] calls IH]; intros g; [cbn; tauto|]. cbn [fold_left In]. destruct (IH (add_pattern g (b, q))) as (H1 & H2). rewrite H1, H2.
    destruct b; unfold add_pattern; cbn [fst snd add_include add_exclude g_include g_exclude]; rewrite set_insert_in; split; split; intuition (subst; try congruence; auto); left; left; congruence. }
  destruct (G new_glob) as (H1 & H2). rewrite H1, H2. cbn. tauto.
Qed.
Lemma file_predicate_spec calls s : s <> [] ->
  (file_predicate (built calls) s = true <-> (exists p, In (true, p) calls /\ glob_match p s) /\ ~ exists p, In (false, p) calls /\ glob_match p s).
Proof.
  intros N. unfold file_predicate. pose proof (filename_matcher (g_include (built calls)) s N) as H1. pose proof (filename_matcher (g_exclude (built calls)) s N) as H2.
  assert (E1 : (exists p, In p (g_include (built calls)) /\ glob_match p s) <-> exists p, In (true, p) calls /\ glob_match p s).
  { split; intros (p & I & G); exists p; split; auto; now apply built_in. }
  assert (E2 : (exists p, In p (g_exclude (built calls)) /\ glob_match p s) <-> exists p, In (false, p) calls /\ glob_match p s).
  { split; intros (p & I & G); exists p; split; auto; now apply built_in. }
  rewrite E1 in H1. rewrite E2 in H2. rewrite <- H1, <- H2. destruct (pm_match _ s); cbn [negb]; destruct (pm_match _ s); cbn [negb]; intuition congruence.
Qed.
Lemma dirs_of_spec p s : dirs_of p s <-> (~ In slash p /\ s = []) \/ exists d f, p = d ++ slash :: f /\ ~ In slash f /\ dir_match d s.
Proof.
  unfold dirs_of, dir_part. destruct (find_last slash p) as [n|] eqn:E.
  - pose proof (find_last_some _ _ _ E) as (H1 & H2). split.
    + intros D. right. eauto.
    + intros [(N & _)|(d & f & -> & N & D)].
      * destruct N. rewrite H1. apply in_or_app. right. now left.
      * rewrite find_last_app in E by auto. injection E as <-. rewrite firstn_app, firstn_all, Nat.sub_diag. cbn [firstn]. now rewrite app_nil_r.
  - apply find_last_none in E. split; [auto|]. intros [(_ & X)|(d & f & -> & _)]; auto. destruct E. apply in_or_app. right. now left.
Qed.
Lemma directory_predicate_spec calls s :
  directory_predicate (built calls) s = true <->
  (exists p, In (true, p) calls /\ ((~ In slash p /\ s = []) \/ exists d f, p = d ++ slash :: f /\ ~ In slash f /\ dir_match d s)) \/
  (s = [] /\ forall d f, In (true, d ++ slash :: f) calls -> ~ In slash f -> ~ In star d).
Proof.
  unfold directory_predicate. rewrite directory_matcher. split.
  - intros [(p & I & D)|(-> & H)].
    + left. exists p. split; [now apply built_in|]. now apply dirs_of_spec.
    + right. split; auto. intros d f I N. apply contains_char_false. apply (H (d ++ slash :: f)); [now apply built_in|].
      unfold dir_part. rewrite find_last_app by auto. rewrite firstn_app, firstn_all, Nat.sub_diag. cbn [firstn]. now rewrite app_nil_r.
  - intros [(p & I & D)|(-> & H)].
    + left. exists p. split; [now apply built_in|]. now apply dirs_of_spec.
    + right. split; auto. intros p d I E. apply contains_char_false. unfold dir_part in E. destruct (find_last slash p) as [n|] eqn:F; [|discriminate]. injection E as <-.
      destruct (find_last_some _ _ _ F) as (H1 & H2). apply (H _ (skipn (S n) p)); auto. rewrite <- H1. now apply built_in.
Qed.
Lemma directory_complete calls d f : ~ In NL d -> file_predicate (built calls) (d ++ slash :: f) = true -> directory_predicate (built calls) d = true.
Proof.
  intros N H. apply file_predicate_spec in H as ((p & I & G) & _); [|destruct d; discriminate].
  apply directory_predicate_spec. left. exists p. split; auto. right. destruct (find_last slash p) as [n|] eqn:E.
  - destruct (find_last_some _ _ _ E) as (H1 & H2). exists (firstn n p), (skipn (S n) p). do 2 (split; [auto|]). rewrite H1 in G. now apply (dirs_complete _ _ H2 d f N).
  - apply find_last_none in E. exfalso. apply (glob_no_slash _ _ G E). apply in_or_app. right. now left.
Qed.
Lemma built_sorted calls : ssorted (g_include (built calls)) /\ ssorted (g_exclude (built calls)).
Proof.
  unfold built. assert (G : forall g, ssorted (g_include g) /\ ssorted (g_exclude g) -> ssorted (g_include (fold_left add_pattern calls g)) /\ ssorted (g_exclude (fold_left add_pattern calls g))).
  { induction calls as [|[b q] calls IH]; intros g H; auto. cbn [fold_left]. apply IH. destruct H as (H1 & H2).
    destruct b; unfold add_pattern; cbn [fst snd add_include add_exclude g_include g_exclude]; split; auto; now apply set_insert_sorted. }
  apply G. cbn. auto.
Qed.
Lemma built_ext calls calls' : (forall c, In c calls <-> In c calls') -> built calls = built calls'.
Proof.
  intros H. destruct (built_sorted calls) as (A1 & A2). destruct (built_sorted calls') as (B1 & B2).
  assert (E1 : g_include (built calls) = g_include (built calls')).
  { apply ssorted_ext; auto. intros p. rewrite (proj1 (built_in calls p)), (proj1 (built_in calls' p)). apply H. }
  assert (E2 : g_exclude (built calls) = g_exclude (built calls')).
  { apply ssorted_ext; auto. intros p. rewrite (proj2 (built_in calls p)), (proj2 (built_in calls' p)). apply H. }
  destruct (built calls), (built calls'). cbn in *. congruence.
Qed.
