(** Tokens of a file do not depend on what is between them. *)
From Coq Require Import Lia.
From Verif Require Import Base M_Scanner S_Scanner M_Ast M_Parser P_Scanner S_Grammar S_Roundtrip P_Lex S_Layout.
Local Notation gap := S_Scanner.gap.

Definition layout_char (d : ascii) : bool := is_space d || ceqb d BSL || ceqb d "#".
Definition is_quote (d : ascii) : bool := ceqb d DQ || ceqb d SQ.
(** [rest'] ends a token that [rest] ends. *)
Definition follows (rest rest' : str) : Prop :=
  rest' = [] \/ (exists d r, rest' = d :: r /\ layout_char d = true) \/
  (exists d r r', rest = d :: r /\ rest' = d :: r' /\ (is_quote d = true -> r <> [])).

Lemma layout_not_word d : layout_char d = true -> is_identifier_char d = false.
Proof. destruct d as [[] [] [] [] [] [] [] []]; vm_compute; congruence. Qed.
Lemma layout_not_digit d : layout_char d = true -> is_digit d = false /\ is_xdigit d = false /\ ceqb d "." = false /\ ceqb d "=" = false /\
  is_quote d = false /\ ceqb d "x" = false /\ ceqb d "o" = false.
Proof. destruct d as [[] [] [] [] [] [] [] []]; vm_compute; intuition congruence. Qed.

(** What [rest'] begins with is not something [f] likes, if that is so for [rest]. *)
Lemma follows_first (f : ascii -> bool) rest rest' : follows rest rest' -> (forall d, layout_char d = true -> f d = false) ->
  match rest with [] => True | d :: _ => f d = false end -> match rest' with [] => True | d :: _ => f d = false end.
Proof.
  intros [->|[(d & r & -> & L)|(d & r & r' & -> & -> & _)]] H K; auto.
Qed.
Lemma span_again f (x rest rest' : str) : span_len f (x ++ rest) <= length x ->
  (match rest with [] => True | d :: _ => f d = false end -> match rest' with [] => True | d :: _ => f d = false end) ->
  span_len f (x ++ rest') = span_len f (x ++ rest).
Proof.
  revert rest rest'. induction x as [|c x IH]; intros rest rest' L H; cbn [app span_len length] in *.
  - destruct rest as [|d rest]; cbn [span_len] in L |- *.
    + destruct rest' as [|d' rest']; [reflexivity|]. cbn [span_len]. rewrite (H I). reflexivity.
    + destruct (f d) eqn:F; [lia|]. destruct rest' as [|d' rest']; [reflexivity|]. cbn [span_len]. rewrite (H eq_refl). reflexivity.
  - destruct (f c); [|reflexivity]. f_equal. apply IH; [lia|exact H].
Qed.
Lemma firstn_prefix {A} n (x a b : list A) : n <= length x -> firstn n (x ++ a) = firstn n (x ++ b).
Proof. intros H. rewrite !firstn_app. replace (n - length x) with 0 by lia. reflexivity. Qed.
Lemma skipn_prefix {A} n (x a : list A) : n <= length x -> skipn n (x ++ a) = skipn n x ++ a.
Proof. intros H. rewrite skipn_app. replace (n - length x) with 0 by lia. reflexivity. Qed.

Lemma relational_again a b c t rest rest' ty p : handle_relational a b (c :: t ++ rest) = (ty, S (length t), p) -> follows rest rest' ->
  exists p', handle_relational a b (c :: t ++ rest') = (ty, S (length t), p').
Proof.
  intros E F. destruct t as [|d t].
  - cbn [app length] in *. pose proof (follows_first (fun d => ceqb d "=") rest rest' F (fun d L => proj1 (proj2 (proj2 (proj2 (layout_not_digit d L)))))) as K.
    unfold handle_relational in *. destruct rest as [|d rest].
    + specialize (K I). destruct rest' as [|d' rest']; [eauto|]. rewrite K. injection E as <- _. eauto.
    + destruct (ceqb d "="); [discriminate|]. specialize (K eq_refl). destruct rest' as [|d' rest']; [|rewrite K]; injection E as <- _; eauto.
  - unfold handle_relational in *. cbn [app] in *. destruct (ceqb d "="); eauto.
Qed.

Lemma scan_number_again f x rest rest' : forall dot, (forall d, layout_char d = true -> f d = false) -> follows rest rest' ->
  scan_number f (x ++ rest) dot = (true, length x) -> scan_number f (x ++ rest') dot = (true, length x).
Proof.
  induction x as [|c x IH]; intros dot HF F E; cbn [app length] in *.
  - assert (K : match rest with [] => True | d :: _ => f d || ceqb d "." = false end).
    { destruct rest as [|d rest]; [exact I|]. cbn [scan_number] in E. destruct (f d || ceqb d "."); [|reflexivity].
      destruct (ceqb d "." && dot); [discriminate|]. destruct (scan_number f rest _); discriminate. }
    pose proof (follows_first (fun d => f d || ceqb d ".") rest rest' F) as K'.
    specialize (K' (fun d L => match conj (HF d L) (proj1 (proj2 (proj2 (layout_not_digit d L)))) with conj A B => eq_trans (f_equal2 orb A B) eq_refl end) K).
    destruct rest' as [|d' rest']; [reflexivity|]. cbn [scan_number]. rewrite K'. reflexivity.
  - cbn [scan_number] in *. destruct (f c || ceqb c "."); [|discriminate]. destruct (ceqb c "." && dot); [discriminate|].
    destruct (scan_number f (x ++ rest) (dot || ceqb c ".")) as [ok n] eqn:R. injection E as -> ->. rewrite (IH _ HF F R). reflexivity.
Qed.
Lemma number_again c t rest rest' p : handle_number (c :: t ++ rest) = (TNumberLiteral, S (length t), p) -> follows rest rest' ->
  exists p', handle_number (c :: t ++ rest') = (TNumberLiteral, S (length t), p').
Proof.
  intros E F. assert (D : forall d, layout_char d = true -> is_digit d = false) by (intros d L; apply (layout_not_digit d L)).
  assert (X : forall d, layout_char d = true -> is_xdigit d = false) by (intros d L; apply (layout_not_digit d L)).
  assert (G : forall f k (x : str), (forall d, layout_char d = true -> f d = false) -> k + length x = S (length t) ->
     skipn k (c :: t ++ rest) = x ++ rest -> skipn k (c :: t ++ rest') = x ++ rest' ->
     (let '(ok, n) := scan_number f (skipn k (c :: t ++ rest)) false in (if ok then TNumberLiteral else TError, k + n, @nil nat)) = (TNumberLiteral, S (length t), p) ->
     (let '(ok, n) := scan_number f (skipn k (c :: t ++ rest')) false in (if ok then TNumberLiteral else TError, k + n, @nil nat)) = (TNumberLiteral, S (length t), @nil nat)).
  { intros f k x HF LN S1 S2 R. rewrite S1 in R. rewrite S2. destruct (scan_number f (x ++ rest) false) as [ok n] eqn:SN. destruct ok; [|discriminate].
    injection R as R _. assert (n = length x) as -> by lia. rewrite (scan_number_again f x rest rest' false HF F SN). f_equal. f_equal. lia. }
  exists []. unfold handle_number in *. destruct t as [|d t].
  - cbn [app length] in *.
    assert (G1 : (let '(ok, n) := scan_number is_digit (skipn 1 (c :: rest)) false in (if ok then TNumberLiteral else TError, 1 + n, @nil nat)) = (TNumberLiteral, 1, p) ->
      (let '(ok, n) := scan_number is_digit (skipn 1 (c :: rest')) false in (if ok then TNumberLiteral else TError, 1 + n, @nil nat)) = (TNumberLiteral, 1, @nil nat))
      by (apply (G is_digit 1 []); auto).
    assert (E1 : (let '(ok, n) := scan_number is_digit (skipn 1 (c :: rest)) false in (if ok then TNumberLiteral else TError, 1 + n, @nil nat)) = (TNumberLiteral, 1, p)).
    { destruct rest as [|d rest]; [exact E|]. destruct (ceqb c "0"); [|exact E]. destruct (ceqb d "x"); [|destruct (ceqb d "o"); [|exact E]];
      exfalso; match type of E with context [scan_number ?f (skipn 2 ?s)] => destruct (scan_number f (skipn 2 s) false) as [[] n]; injection E; intros; try lia; discriminate end. }
    specialize (G1 E1).
    destruct rest' as [|d' rest']; [exact G1|].
    assert (Q : ceqb c "0" = true -> ceqb d' "x" = false /\ ceqb d' "o" = false).
    { intros Z. destruct F as [F|[(e & r & F & L)|(e & r & r' & F1 & F2 & _)]]; [discriminate| |].
      - injection F as <- <-. destruct (layout_not_digit d' L) as (_ & _ & _ & _ & _ & A & B). auto.
      - injection F2 as <- <-. rewrite F1, Z in E.
        destruct (ceqb d' "x"); [exfalso|split; [reflexivity|]; destruct (ceqb d' "o"); [exfalso|reflexivity]];
        match type of E with context [scan_number ?f (skipn 2 ?s)] => destruct (scan_number f (skipn 2 s) false) as [[] n]; injection E; intros; try lia; discriminate end. }
    destruct (ceqb c "0"); [|exact G1]. destruct (Q eq_refl) as [-> ->]. exact G1.
  - cbn [app] in *. destruct (ceqb c "0").
    + destruct (ceqb d "x"); [apply (G is_xdigit 2 t); cbn [length]; auto|]. destruct (ceqb d "o"); [apply (G is_digit 2 t); cbn [length]; auto|].
      apply (G is_digit 1 (d :: t)); auto.
    + apply (G is_digit 1 (d :: t)); auto.
Qed.

Lemma scan_string_again q tr y rest rest' : forall pos pos' cnt esc n p, scan_string q tr (y ++ rest) pos cnt esc = (true, n, p) -> n < length y ->
  exists p', scan_string q tr (y ++ rest') pos' cnt esc = (true, n, p').
Proof.
  induction y as [|c y IH]; intros pos pos' cnt esc n p E L; cbn [length] in L; [lia|]. cbn [app scan_string] in *.
  destruct (ceqb c q && negb esc && ((if ceqb c q && negb esc then cnt - 1 else if tr then 3 else 1) =? 0)); [injection E as <- _; eauto|].
  destruct (scan_string q tr (y ++ rest) (S pos) _ _) as [[ok m] p1] eqn:R. injection E as -> <- _.
  destruct (IH _ (S pos') _ _ _ _ R ltac:(lia)) as [p2 ->]. eauto.
Qed.
Definition string_triple (q : ascii) (body : str) : bool := match body with a :: b :: _ => ceqb a q && ceqb b q | _ => false end.
Lemma triple_again q y rest rest' : is_quote q = true -> y <> [] -> follows rest rest' ->
  (length y = 1 -> string_triple q (y ++ rest) = false) -> string_triple q (y ++ rest') = string_triple q (y ++ rest).
Proof.
  intros Q N F H. destruct y as [|a [|b y]]; [congruence| |reflexivity]. specialize (H eq_refl). rewrite H. unfold string_triple in *. cbn [app] in *.
  destruct (ceqb a q); [|destruct rest'; reflexivity]. cbn [andb] in *.
  assert (K : match rest' with [] => True | d :: _ => ceqb d q = false end).
  { apply (follows_first (fun d => ceqb d q) rest rest' F); [|destruct rest; auto]. intros d L. destruct (layout_not_digit d L) as (_ & _ & _ & _ & D & _).
    destruct (ceqb_spec d q); [subst; congruence|reflexivity]. }
  destruct rest'; auto.
Qed.
Lemma body_again (pre : str) q y rest rest' pos pos' p : is_quote q = true -> follows rest rest' ->
  (let tr := string_triple q (y ++ rest) in let open := length pre + (if tr then 3 else 1) in
   let '(closed, n, p) := scan_string q tr (skipn open (pre ++ q :: y ++ rest)) (pos + open) (if tr then 3 else 1) false in
   if closed then (TStringLiteral, open + n + 1, p) else (TError, open + n, p)) = (TStringLiteral, length (pre ++ q :: y), p) ->
  exists p', (let tr := string_triple q (y ++ rest') in let open := length pre + (if tr then 3 else 1) in
   let '(closed, n, p) := scan_string q tr (skipn open (pre ++ q :: y ++ rest')) (pos' + open) (if tr then 3 else 1) false in
   if closed then (TStringLiteral, open + n + 1, p) else (TError, open + n, p)) = (TStringLiteral, length (pre ++ q :: y), p').
Proof.
  intros Q F. cbv zeta. rewrite app_length. cbn [length]. intros E.
  destruct (scan_string q (string_triple q (y ++ rest)) _ _ _ _) as [[[] n] p1] eqn:R; [|discriminate]. injection E as E ->.
  assert (N : y <> []) by (intros ->; destruct (string_triple q ([] ++ rest)); cbn [length] in E; lia).
  assert (T : length y = 1 -> string_triple q (y ++ rest) = false) by (intros L; destruct (string_triple q (y ++ rest)); [lia|reflexivity]).
  rewrite (triple_again q y rest rest' Q N F T).
  assert (SK : forall r, skipn (length pre + (if string_triple q (y ++ rest) then 3 else 1)) (pre ++ q :: y ++ r) =
     skipn (if string_triple q (y ++ rest) then 2 else 0) y ++ r).
  { intros r. rewrite skipn_app. rewrite skipn_all2 by lia. replace (length pre + _ - length pre) with (if string_triple q (y ++ rest) then 3 else 1) by lia.
    destruct (string_triple q (y ++ rest)); [|reflexivity]. cbn [app skipn]. destruct y as [|a [|b y]]; [congruence|specialize (T eq_refl); discriminate|reflexivity]. }
  rewrite SK in R. rewrite SK. edestruct scan_string_again as [p2 R2]; [exact R| |rewrite R2; exists p2; f_equal; f_equal; lia].
  rewrite skipn_length. destruct (string_triple q (y ++ rest)); lia.
Qed.
Lemma handle_string_triple s pos : handle_string s pos =
  (let prefix := match s with c :: _ => if ceqb c "r" || ceqb c "R" then 1 else 0 | [] => 0 end in
   match skipn prefix s with
   | [] => (TError, prefix, [])
   | q :: body => let tr := string_triple q body in let open := prefix + (if tr then 3 else 1) in
      let '(closed, n, p) := scan_string q tr (skipn open s) (pos + open) (if tr then 3 else 1) false in
      if closed then (TStringLiteral, open + n + 1, p) else (TError, open + n, p)
   end).
Proof. reflexivity. Qed.
Lemma string_type_only s pos ty k p : handle_string s pos = (ty, k, p) -> ty = TStringLiteral \/ ty = TError.
Proof.
  rewrite handle_string_triple. cbv zeta. destruct (skipn _ s); [intros E; injection E; auto|].
  destruct (scan_string _ _ _ _ _ _) as [[[] n] p1]; intros E; injection E; auto.
Qed.
Lemma plain_string_again c t rest rest' pos pos' ty p : is_quote c = true -> follows rest rest' -> ty <> TError ->
  handle_string (c :: t ++ rest) pos = (ty, S (length t), p) -> exists p', handle_string (c :: t ++ rest') pos' = (ty, S (length t), p').
Proof.
  intros Q F NE E. assert (ty = TStringLiteral) as -> by (destruct (string_type_only _ _ _ _ _ E); congruence).
  rewrite handle_string_triple in *.
  assert (R : ceqb c "r" || ceqb c "R" = false) by (revert Q; destruct c as [[] [] [] [] [] [] [] []]; vm_compute; congruence). rewrite R in *.
  apply (body_again [] c t rest rest' pos pos' p Q F E).
Qed.
Lemma raw_string_again c d t rest rest' pos pos' ty p : ceqb c "r" || ceqb c "R" = true -> is_quote d = true -> follows rest rest' -> ty <> TError ->
  handle_string (c :: d :: t ++ rest) pos = (ty, S (S (length t)), p) -> exists p', handle_string (c :: d :: t ++ rest') pos' = (ty, S (S (length t)), p').
Proof.
  intros R Q F NE E. assert (ty = TStringLiteral) as -> by (destruct (string_type_only _ _ _ _ _ E); congruence).
  rewrite handle_string_triple in *. rewrite R in *. apply (body_again [c] d t rest rest' pos pos' p Q F E).
Qed.
Lemma raw_string_long c d r pos ty k p : ceqb c "r" || ceqb c "R" = true -> ty <> TError -> handle_string (c :: d :: r) pos = (ty, k, p) -> 3 <= k.
Proof.
  intros R NE E. rewrite handle_string_triple in E. rewrite R in E. cbn [skipn] in E. cbv zeta in E.
  destruct (scan_string _ _ _ _ _ _) as [[[] n] p1]; injection E; [|congruence]. intros _ <- _. destruct (string_triple d r); lia.
Qed.

Lemma starts_with_again (u x rest rest' : str) : length u <= length x -> starts_with u (x ++ rest) = starts_with u (x ++ rest').
Proof.
  revert x. induction u as [|a u IH]; intros [|b x] L; cbn [length app starts_with] in *; try reflexivity; try lia. rewrite (IH x) by lia. reflexivity.
Qed.
Lemma span_within f z a b : span_len f (z ++ a) < length z -> span_len f (z ++ b) = span_len f (z ++ a).
Proof.
  induction z as [|c z IH]; intros H; cbn [app length span_len] in *; [lia|]. destruct (f c); [|reflexivity]. f_equal. apply IH. lia.
Qed.
Lemma optional_in_again y rest rest' : consume_optional_in (y ++ rest) = Some (length y) -> consume_optional_in (y ++ rest') = Some (length y).
Proof.
  unfold consume_optional_in. destruct (starts_with ($"in") (skipn (span_len is_space (y ++ rest)) (y ++ rest))) eqn:SW; [|discriminate].
  intros E. injection E as E. rewrite (span_within is_space y rest rest') by lia.
  rewrite skipn_prefix in * by lia. rewrite (starts_with_again _ _ rest' rest), SW by (rewrite skipn_length; change (length ($"in")) with 2; lia). rewrite E. reflexivity.
Qed.

Lemma identifier_again c t rest rest' pos pos' ty p : is_quote c = false -> follows rest rest' -> ty <> TError ->
  (c :: t = $"not" -> consume_optional_in rest' = None) ->
  handle_identifier (c :: t ++ rest) pos = (ty, S (length t), p) -> exists p', handle_identifier (c :: t ++ rest') pos' = (ty, S (length t), p').
Proof.
  intros Q F NE NI E.
  destruct ((2 <? length (c :: t ++ rest)) && (ceqb c "r" || ceqb c "R") && match t ++ rest with d :: _ => ceqb d DQ || ceqb d SQ | [] => false end) eqn:RW.
  - apply andb_true_iff in RW as [RW D]. apply andb_true_iff in RW as [L R]. unfold handle_identifier in E |- *. rewrite L, R, D in E. cbn [andb] in E.
    destruct t as [|d t].
    + exfalso. cbn [app] in *. destruct rest as [|d rest]; [discriminate|]. pose proof (raw_string_long _ _ _ _ _ _ _ R NE E) as LL. cbn [length] in LL. lia.
    + cbn [app] in *. pose proof (raw_string_long _ _ _ _ _ _ _ R NE E) as LL. cbn [length] in LL.
      rewrite R, D. assert (2 <? length (c :: d :: t ++ rest') = true) as -> by (apply Nat.ltb_lt; cbn [length]; rewrite app_length; lia).
      cbn [andb]. apply (raw_string_again c d t rest rest' pos pos' ty p R D F NE E).
  - assert (RW' : (2 <? length (c :: t ++ rest')) && (ceqb c "r" || ceqb c "R") && match t ++ rest' with d :: _ => ceqb d DQ || ceqb d SQ | [] => false end = false).
    { destruct (ceqb c "r" || ceqb c "R") eqn:R; [|rewrite andb_false_r; reflexivity]. rewrite andb_true_r in RW |- *.
      destruct t as [|d t].
      - cbn [app] in *. destruct F as [->|[(d & r & -> & LC)|(d & r & r' & -> & -> & LQ)]]; [apply andb_false_r| |].
        + destruct (layout_not_digit d LC) as (_ & _ & _ & _ & D & _). unfold is_quote in D. rewrite D. apply andb_false_r.
        + fold (is_quote d) in *. destruct (is_quote d); [|apply andb_false_r]. specialize (LQ eq_refl). destruct r; [congruence|]. cbn in RW. discriminate.
      - cbn [app] in *. fold (is_quote d) in *. destruct (is_quote d) eqn:D; [|apply andb_false_r]. exfalso. rewrite andb_true_r in RW. apply Nat.ltb_ge in RW.
        cbn [length] in RW. rewrite app_length in RW. destruct t; [|cbn in RW; lia]. destruct rest; [|cbn in RW; lia].
        unfold handle_identifier in E. cbn [app length] in E. cbn [Nat.ltb Nat.leb andb] in E.
        assert (W : is_identifier_char d = false) by (revert D; destruct d as [[] [] [] [] [] [] [] []]; vm_compute; congruence).
        destruct (negb (is_identifier_char c)); [injection E; congruence|]. cbn [span_len] in E. rewrite W in E.
        assert (CW : is_identifier_char c = true) by (revert R; destruct c as [[] [] [] [] [] [] [] []]; vm_compute; congruence).
        rewrite CW in E. cbn [firstn] in E.
        assert (forall u : str, 2 <= length u -> str_eqb [c] u = false) as SE.
        { intros u LU. destruct (str_eqb_spec [c] u) as [<-|]; [cbn in LU; lia|reflexivity]. }
        rewrite !SE in E by (cbn; lia). injection E; intros; lia. }
    unfold handle_identifier in E |- *. rewrite RW in E. rewrite RW'. clear RW RW'.
    destruct (negb (is_identifier_char c)); [injection E; congruence|].
    change (c :: t ++ rest) with ((c :: t) ++ rest) in E. change (c :: t ++ rest') with ((c :: t) ++ rest'). change (S (length t)) with (length (c :: t)) in E |- *.
    set (x := c :: t) in *. clearbody x. 
    assert (L : span_len is_identifier_char (x ++ rest) <= length x).
    { destruct (str_eqb _ _) in E; [destruct (consume_optional_in _) in E; injection E; lia|].
      repeat (destruct (str_eqb _ _) in E; [injection E; lia|]). injection E; lia. }
    assert (SP : span_len is_identifier_char (x ++ rest') = span_len is_identifier_char (x ++ rest)).
    { apply span_again; [exact L|]. apply follows_first; [exact F|exact layout_not_word]. }
    rewrite SP. rewrite (firstn_prefix _ x rest' rest L).
    destruct (str_eqb_spec (firstn (span_len is_identifier_char (x ++ rest)) (x ++ rest)) ($"not")) as [NT|_].
    + rewrite skipn_prefix in * by lia. set (n := span_len is_identifier_char (x ++ rest)) in *.
      destruct (consume_optional_in (skipn n x ++ rest)) as [k|] eqn:CO.
      * injection E as <- E _. assert (k = length (skipn n x)) as -> by (rewrite skipn_length; lia).
        rewrite (optional_in_again _ _ rest' CO). rewrite E. eauto.
      * injection E as <- E _. rewrite skipn_all2 by lia. cbn [app].
        rewrite NI; [rewrite E; eauto|]. rewrite E, firstn_app, firstn_all, Nat.sub_diag in NT. cbn [firstn] in NT. rewrite app_nil_r in NT. exact NT.
    + repeat (destruct (str_eqb _ _) in E |- *; [injection E as <- -> _; eauto|]). injection E as <- -> _. eauto.
Qed.

Lemma number_type_only s ty k p : handle_number s = (ty, k, p) -> ty = TNumberLiteral \/ ty = TError.
Proof.
  unfold handle_number. destruct s as [|c r]; [intros E; injection E; auto|]. destruct (match r with [] => _ | d :: _ => _ end) as [f k0].
  destruct (scan_number f _ false) as [[] n]; intros E; injection E; auto.
Qed.
Lemma scan_again c t rest rest' pos pos' ty p : follows rest rest' -> ty <> TError -> (c :: t = $"not" -> consume_optional_in rest' = None) ->
  scan_token (c :: t ++ rest) pos = (ty, S (length t), p) -> exists p', scan_token (c :: t ++ rest') pos' = (ty, S (length t), p').
Proof.
  intros F NE NI. unfold scan_token.
  repeat match goal with |- (if ceqb c ?d then (_, 1, _) else _) = _ -> _ => destruct (ceqb c d); [intros E; injection E as <- E0 _; rewrite <- E0; eauto|] end.
  repeat match goal with |- (if ceqb c ?d then _ else _) = _ -> _ => destruct (ceqb c d); [intros E; exact (relational_again _ _ _ _ _ _ _ _ E F)|] end.
  destruct (is_digit c).
  { intros E. assert (ty = TNumberLiteral) as -> by (destruct (number_type_only _ _ _ _ E); congruence). exact (number_again _ _ _ _ _ E F). }
  fold (is_quote c). destruct (is_quote c) eqn:Q; [apply plain_string_again|apply identifier_again]; assumption.
Qed.

(** * Tokens *)
Definition norm_tok (t : token) : token :=
  mkToken (tok_type t) 0 (tok_text t) (if toktype_beq (tok_type t) TOpenSquare then tok_newline t else false).
Definition text_of (sel : word -> str) (ws : list word) (e : str) : str := flat_map (fun w => sel w ++ w_text w) ws ++ e.
Lemma text_of_cons sel w ws e : text_of sel (w :: ws) e = sel w ++ w_text w ++ text_of sel ws e.
Proof. unfold text_of. cbn [flat_map]. rewrite <- !app_assoc. reflexivity. Qed.
Fixpoint norm_toks (sel : word -> str) (ws : list word) (tys : list toktype) : list token :=
  match ws, tys with
  | w :: ws, ty :: tys => mkToken ty 0 (w_text w) (if toktype_beq ty TOpenSquare then has_nl (sel w) else false) :: norm_toks sel ws tys
  | _, _ => []
  end.
(** The words are tokens, in their place in [text_of sel]. *)
Inductive worded (sel : word -> str) (e : str) : list word -> list toktype -> Prop :=
| worded_nil : worded sel e [] []
| worded_cons w ws ty tys : visible (w_text w) -> ty <> TError -> ty <> TEof ->
    (forall pos, exists p, scan_token (w_text w ++ text_of sel ws e) pos = (ty, length (w_text w), p)) -> worded sel e ws tys -> worded sel e (w :: ws) (ty :: tys).

Lemma skip_last g : gap true g -> forall pos, skip_space g pos false = (length g, newline_starts pos g).
Proof.
  induction 1 as [|c g C G IH|body g N G IH|body X N]; intros pos.
  - reflexivity.
  - cbn [skip_space]. assert (is_space c || ceqb c BSL = true) as -> by (destruct C as [->| ->]; [reflexivity|apply orb_true_r]). cbn [orb].
    assert (ceqb c "#" = false) as -> by (apply ceqb_neq; intros ->; destruct C; discriminate). cbn [length newline_starts].
    destruct (ceqb c NL) eqn:NE; rewrite IH by auto; reflexivity.
  - cbn [skip_space]. change (is_space "#" || ceqb "#" BSL || ceqb "#" "#" || false) with true. cbn iota. rewrite skip_comment by exact N. change (ceqb "#" "#") with true. cbn iota.
    rewrite IH. cbn [length newline_starts]. change (ceqb "#" NL) with false. cbn [app]. rewrite newline_starts_app. cbn [newline_starts]. rewrite (newline_starts_none _ body N). rewrite ceqb_refl. cbn [app].
    rewrite app_length. cbn [length]. repeat (f_equal; try lia).
  - cbn [skip_space]. change (is_space "#" || ceqb "#" BSL || ceqb "#" "#" || false) with true. cbn iota. change (ceqb "#" "#") with true. cbn iota.
    assert (K : forall s q, ~ In NL s -> skip_space s q true = (length s, [])).
    { induction s as [|c s IH]; intros q NN; [reflexivity|]. cbn [skip_space]. rewrite orb_true_r. assert (ceqb c NL = false) as -> by (apply ceqb_neq; intros ->; apply NN; left; reflexivity).
      rewrite !IH by (intros I; apply NN; right; exact I). destruct (ceqb c "#"); reflexivity. }
    rewrite K by exact N. cbn [length newline_starts]. change (ceqb "#" NL) with false. rewrite newline_starts_none by exact N. reflexivity.
Qed.
Lemma open_square c t pos k p : scan_token (c :: t) pos = (TOpenSquare, k, p) -> c = "["%char /\ k = 1 /\ p = [].
Proof.
  unfold scan_token.
  repeat match goal with |- (if ceqb c ?d then (_, 1, _) else _) = _ -> _ => destruct (ceqb_spec c d) as [->|]; [intros E; try discriminate; injection E as <- <-; auto|] end.
  repeat match goal with |- (if ceqb c ?d then _ else _) = _ -> _ => destruct (ceqb c d); [intros E; apply relational_type in E as [E|E]; discriminate|] end.
  destruct (is_digit c); [intros E; apply number_type in E as [E|E]; discriminate|].
  destruct (ceqb c DQ || ceqb c SQ); [intros E; apply string_type in E as [E|E]; discriminate|].
  unfold handle_identifier. match goal with |- context[if ?x then handle_string _ _ else _] => destruct x end; [intros E; apply string_type in E as [E|E]; discriminate|].
  repeat match goal with |- context[if ?x then _ else _] => destruct x end; try (intros E; discriminate E). destruct (consume_optional_in _); intros E; discriminate E.
Qed.
(** One step of the scanner over a word. *)
Lemma next_word sc g tx rest ty p : sc_upcoming sc = None -> sc_last_newlines sc = sc_newlines sc -> sc_rest sc = g ++ tx ++ rest -> gap false g -> visible tx ->
  scan_token (tx ++ rest) (sc_off sc + length g) = (ty, length tx, p) -> exists sc',
  next sc = (mkToken ty (sc_off sc + length g) tx (negb (sc_newlines sc =? sc_newlines sc + count_char NL g + length p)), sc') /\
  sc_upcoming sc' = None /\ sc_last_newlines sc' = sc_newlines sc' /\ sc_rest sc' = rest.
Proof.
  intros U L R G V S. unfold next. rewrite U, R. assert (V' : visible (tx ++ rest)) by (destruct V as (c & r & -> & V); exists c, (r ++ rest); auto).
  rewrite (skip_gap g G) by auto. rewrite skipn_app, skipn_all, Nat.sub_diag. cbn [app skipn]. rewrite S, newline_starts_length, L.
  destruct V as (c & r & -> & V). cbn [app] in *. eexists. split.
  - f_equal. f_equal. change (c :: r ++ rest) with ((c :: r) ++ rest). rewrite firstn_app, firstn_all, Nat.sub_diag. cbn [firstn]. now rewrite app_nil_r.
  - cbn [sc_upcoming sc_last_newlines sc_newlines sc_rest]. repeat split. change (c :: r ++ rest) with ((c :: r) ++ rest). rewrite skipn_app, skipn_all, Nat.sub_diag. reflexivity.
Qed.
Lemma flag_has_nl n g : negb (n =? n + count_char NL g + 0) = has_nl g.
Proof.
  rewrite Nat.add_0_r. destruct (has_nl g) eqn:H.
  - apply negb_true_iff, Nat.eqb_neq. assert (count_char NL g <> 0); [|lia]. rewrite count_char_0, <- has_nl_in. congruence.
  - apply negb_false_iff, Nat.eqb_eq. assert (count_char NL g = 0); [|lia]. apply count_char_0. rewrite <- has_nl_in. congruence.
Qed.
Lemma norm_word ty off tx rest n g p pos : visible tx -> scan_token (tx ++ rest) pos = (ty, length tx, p) ->
  norm_tok (mkToken ty off tx (negb (n =? n + count_char NL g + length p))) = mkToken ty 0 tx (if toktype_beq ty TOpenSquare then has_nl g else false).
Proof.
  intros (c & r & -> & _) E. unfold norm_tok. cbn [tok_type tok_text tok_newline]. destruct (toktype_beq ty TOpenSquare) eqn:T; [|reflexivity].
  apply internal_toktype_dec_bl in T as ->. cbn [app] in E. apply open_square in E as (_ & _ & ->). cbn [length]. rewrite flag_has_nl. reflexivity.
Qed.
Lemma next_last sc : sc_upcoming sc = None -> gap true (sc_rest sc) -> exists off sc', next sc = (mkToken TEof off [] false, sc').
Proof. intros U G. unfold next. rewrite U, (skip_last _ G), skipn_all. eauto. Qed.

Lemma worded_tokens sel e ws tys : worded sel e ws tys -> Forall (fun w => gap false (sel w)) ws -> gap true e ->
  forall fuel sc, sc_upcoming sc = None -> sc_last_newlines sc = sc_newlines sc -> sc_rest sc = text_of sel ws e -> length (sc_rest sc) < fuel ->
  map norm_tok (tokens_from fuel sc) = norm_toks sel ws tys ++ [eof_token].
Proof.
  induction 1 as [|w ws ty tys V NE NF S W IH]; intros GS GE [|fuel] sc U L R F; try lia; cbn [tokens_from].
  - destruct (next_last sc U) as (off & sc' & ->); [rewrite R; exact GE|]. reflexivity.
  - apply Forall_cons_iff in GS as [G GS]. rewrite text_of_cons in R. destruct (S (sc_off sc + length (sel w))) as [p E].
    destruct (next_word sc _ _ _ _ _ U L R G V E) as (sc' & -> & U' & L' & R'). cbn [tok_type].
    destruct (toktype_beq ty TEof) eqn:TE; [apply internal_toktype_dec_bl in TE; congruence|]. cbn [map norm_toks app]. f_equal.
    + eapply norm_word; eassumption.
    + apply IH; auto. rewrite R'. rewrite R, !app_length in F. destruct V as (c & r & V & _). rewrite V in F. cbn [length] in F. lia.
Qed.

(** Where a token is does not matter. *)
Lemma scan_string_pos q tr s : forall pos pos' cnt esc, fst (scan_string q tr s pos cnt esc) = fst (scan_string q tr s pos' cnt esc).
Proof.
  induction s as [|c s IH]; intros pos pos' cnt esc; [reflexivity|]. cbn [scan_string].
  destruct (ceqb c q && negb esc && _); [reflexivity|].
  match goal with |- context[scan_string q tr s (S pos) ?a ?b] => specialize (IH (S pos) (S pos') a b) end.
  destruct (scan_string q tr s (S pos) _ _) as [[? ?] ?], (scan_string q tr s (S pos') _ _) as [[? ?] ?]. cbn [fst] in *. now injection IH as -> ->.
Qed.
Lemma handle_string_pos s pos pos' : fst (handle_string s pos) = fst (handle_string s pos').
Proof.
  rewrite !handle_string_triple. cbv zeta. destruct (skipn _ s) as [|q body]; [reflexivity|].
  match goal with |- context[scan_string q ?t ?x (pos + ?o) ?a ?b] => pose proof (scan_string_pos q t x (pos + o) (pos' + o) a b) as H end.
  destruct (scan_string _ _ _ (pos + _) _ _) as [[[] ?] ?], (scan_string _ _ _ (pos' + _) _ _) as [[[] ?] ?]; cbn [fst] in *; try discriminate H; injection H as ->; reflexivity.
Qed.
Lemma scan_token_pos s pos pos' : fst (scan_token s pos) = fst (scan_token s pos').
Proof.
  destruct s as [|c s]; [reflexivity|]. unfold scan_token.
  repeat match goal with |- context[if ?x then (_, 1, []) else _] => destruct x; [reflexivity|] end.
  repeat match goal with |- context[if ?x then handle_relational ?a ?b ?s else _] => destruct x; [reflexivity|] end.
  destruct (is_digit c); [reflexivity|]. destruct (ceqb c DQ || ceqb c SQ); [apply handle_string_pos|].
  unfold handle_identifier. match goal with |- context[if ?x then handle_string _ _ else _] => destruct x end; [apply handle_string_pos|reflexivity].
Qed.
Lemma scans_pos ty tx rest pos p : scan_token (tx ++ rest) pos = (ty, length tx, p) -> scans ty tx rest.
Proof.
  intros E pos'. pose proof (scan_token_pos (tx ++ rest) pos pos') as H. rewrite E in H. destruct (scan_token (tx ++ rest) pos') as [[a b] q].
  cbn [fst] in H. injection H as <- <-. eauto.
Qed.
Lemma next_scanned sc t sc' : sc_upcoming sc = None -> next sc = (t, sc') -> tok_type t <> TEof ->
  visible (tok_text t) /\ scans (tok_type t) (tok_text t) (sc_rest sc') /\ sc_upcoming sc' = None /\ sc_last_newlines sc' = sc_newlines sc'.
Proof.
  unfold next. intros U. rewrite U. destruct (skip_space (sc_rest sc) (sc_off sc) false) as [n p] eqn:SK. apply skip_space_spec in SK as (_ & _ & V & _).
  destruct V as [-> |(c & r & -> & A & B & C)]; [intros E; injection E as <- _; cbn; congruence|].
  destruct (scan_token (c :: r) (sc_off sc + n)) as [[ty k] p'] eqn:S. intros E NE. injection E as <- <-. cbn [tok_type tok_text sc_rest sc_upcoming sc_last_newlines sc_newlines] in *.
  apply scan_token_spec in S as S'; [|exact A]. destruct S' as [((LK & LE) & _) _].
  split; [|split; [|auto]].
  - destruct k as [|k]; [lia|]. cbn [firstn]. exists c, (firstn k r). auto.
  - apply (scans_pos _ _ _ (sc_off sc + n) p'). rewrite firstn_skipn, S. f_equal. f_equal. rewrite firstn_length. lia.
Qed.
Lemma app_split_length {A} (a b c d : list A) : a ++ b = c ++ d -> length a = length c -> a = c /\ b = d.
Proof.
  revert c. induction a as [|x a IH]; intros [|y c] E L; cbn in *; try lia; [auto|]. injection E as -> E. destruct (IH c E) as [-> ->]; [lia|auto].
Qed.
(** The words of a file, from its tokens. *)
Lemma words_found sel e : gap true e -> forall ws fuel sc, Forall (fun w => gap false (sel w)) ws ->
  sc_upcoming sc = None -> sc_rest sc = text_of sel ws e -> length (sc_rest sc) < fuel ->
  map tok_text (tokens_from fuel sc) = map w_text ws ++ [[]] -> (forall t, In t (tokens_from fuel sc) -> tok_type t <> TError) ->
  exists tys, worded sel e ws tys.
Proof.
  intros GE. induction ws as [|w ws IH]; intros [|fuel] sc GS U R F T NE; try lia; [exists []; constructor|].
  cbn [tokens_from] in *. destruct (next sc) as [t sc'] eqn:N. destruct (toktype_beq (tok_type t) TEof) eqn:TE.
  { cbn [map app] in T. injection T as _ T. destruct (map w_text ws); discriminate. }
  assert (NT : tok_type t <> TEof) by (intros E; rewrite E in TE; discriminate).
  destruct (next_scanned sc t sc' U N NT) as (V & S & U' & L'). cbn [map app] in T. injection T as T1 T2.
  apply Forall_cons_iff in GS as [G GS]. rewrite text_of_cons in R.
  assert (R' : sc_rest sc' = text_of sel ws e).
  { apply next_spec in N as [_ [(-> & _)|(g & RG & GG & _)]]; [now elim NT| |exact U]. rewrite RG in R. rewrite <- T1 in R.
    assert (K1 := skip_gap g GG (tok_text t ++ sc_rest sc') 0). assert (K2 := skip_gap (sel w) G (tok_text t ++ text_of sel ws e) 0).
    destruct V as (c & r & V & VV). rewrite V in *.
    rewrite R in K1. rewrite K2 in K1 by (right; exists c, (r ++ text_of sel ws e); auto).
    specialize (K1 (or_intror (ex_intro _ c (ex_intro _ (r ++ sc_rest sc') (conj eq_refl VV))))). injection K1 as K1 _.
    apply app_split_length in R as [_ R]; [|congruence]. apply app_inv_head in R. exact R. }
  destruct (IH fuel sc' GS U' R') as [tys W].
  - rewrite R'. rewrite R, !app_length in F. rewrite <- T1 in F. destruct V as (c & r & V & _). rewrite V in F. cbn [length] in F. lia.
  - exact T2.
  - intros x I. apply NE. right. exact I.
  - exists (tok_type t :: tys). constructor; auto.
    + rewrite <- T1. exact V.
    + apply NE. left. reflexivity.
    + intros pos. rewrite <- T1, <- R'. apply S.
Qed.

(** * Other layout *)
Lemma gap_first at_eof g : gap at_eof g -> g = [] \/ exists d r, g = d :: r /\ layout_char d = true.
Proof.
  destruct 1 as [|c g C G|body g N G|body X N]; [auto|right; exists c, g|right; eexists _, _; split; [reflexivity|reflexivity]..].
  split; [reflexivity|]. unfold layout_char. destruct C as [-> | ->]; reflexivity.
Qed.
(** White space of a gap is followed by its end, a backslash or a comment. *)
Lemma gap_no_in at_eof g : gap at_eof g -> forall r, forallb is_space g = false -> consume_optional_in (g ++ r) = None.
Proof.
  intros G r H. unfold consume_optional_in. enough (K : exists d q, skipn (span_len is_space (g ++ r)) (g ++ r) = d :: q /\ (d = BSL \/ d = "#"%char)).
  { destruct K as (d & q & -> & [-> | ->]); reflexivity. }
  induction G as [|c g C G IH|body g N G IH|body X N]; cbn [forallb app span_len] in *; [discriminate| | |].
  - destruct (is_space c) eqn:S; [cbn [skipn]; apply IH, H|]. destruct C as [C| ->]; [congruence|]. cbn [skipn]. eauto.
  - change (is_space "#") with false. cbn [skipn]. eauto.
  - change (is_space "#") with false. cbn [skipn]. eauto.
Qed.
Lemma spaces_no_in g r : forallb is_space g = true -> (r = [] \/ visible r) -> starts_with ($"in") r = false -> consume_optional_in (g ++ r) = None.
Proof.
  intros G V H. unfold consume_optional_in. assert (span_len is_space (g ++ r) = length g) as ->.
  { apply span_len_app; [intros c I; rewrite forallb_forall in G; auto|]. destruct V as [->|(c & q & -> & A & _)]; auto. }
  rewrite skipn_app, skipn_all, Nat.sub_diag. cbn [app skipn]. rewrite H. reflexivity.
Qed.
Lemma quoted_long c t rest pos ty p : is_quote c = true -> ty <> TError -> scan_token (c :: t ++ rest) pos = (ty, S (length t), p) -> t <> [].
Proof.
  intros Q NE E ->. cbn [app length] in E. assert (S : scan_token (c :: rest) pos = handle_string (c :: rest) pos).
  { unfold is_quote in Q. apply orb_true_iff in Q as [Q|Q]; apply ceqb_eq in Q as ->; reflexivity. }
  rewrite S, handle_string_triple in E. assert (R : ceqb c "r" || ceqb c "R" = false) by (revert Q; destruct c as [[] [] [] [] [] [] [] []]; vm_compute; congruence).
  rewrite R in E. cbn [skipn] in E. cbv zeta in E. destruct (scan_string _ _ _ _ _ _) as [[[] n] p1]; injection E; [intros _ L; destruct (string_triple c rest) in L; lia|congruence].
Qed.
Section Respace.
Variables e e' : str.
Hypothesis GE' : gap true e'.

Lemma worded_follows ws tys u : worded w_gap e ws tys -> Forall (fun w => gap false (w_gap w) /\ gap false (w_gap' w)) ws -> kept_apart u ws ->
  follows (text_of w_gap ws e) (text_of w_gap' ws e').
Proof.
  intros W G K. destruct W as [|w ws ty tys V NE NF S W].
  - unfold text_of. cbn [flat_map app]. destruct (gap_first _ _ GE') as [->|X]; [left; reflexivity|right; left; exact X].
  - rewrite !text_of_cons. apply Forall_cons_iff in G as [[G G'] _]. destruct K as [(K1 & _) _].
    destruct (gap_first _ _ G') as [E|(d & r & E & L)].
    + destruct (w_gap w) as [|a g] eqn:WG; [|elim K1; [discriminate|exact E]]. rewrite E. cbn [app]. destruct V as (c & t & V & _). rewrite V in *. cbn [app].
      right. right. exists c, (t ++ text_of w_gap ws e), (t ++ text_of w_gap' ws e'). split; [reflexivity|]. split; [reflexivity|]. intros Q.
      destruct (S 0) as [p E1]. cbn [app length] in E1. apply quoted_long in E1; auto. destruct t; [congruence|discriminate].
    + rewrite E. right. left. cbn [app]. eauto.
Qed.
Lemma worded_not ws tys u : worded w_gap e ws tys -> Forall (fun w => gap false (w_gap w) /\ gap false (w_gap' w)) ws -> kept_apart u ws -> u = $"not" ->
  consume_optional_in (text_of w_gap' ws e') = None.
Proof.
  intros W G K U. pose proof G as G0. destruct W as [|w ws ty tys V NE NF S W].
  - unfold text_of. cbn [flat_map app]. destruct (forallb is_space e') eqn:F.
    + rewrite <- (app_nil_r e'). apply spaces_no_in; auto.
    + rewrite <- (app_nil_r e'). eapply gap_no_in; eauto.
  - rewrite text_of_cons. apply Forall_cons_iff in G as [[G G'] GS]. destruct K as [(K1 & _ & K3) K].
    destruct (forallb is_space (w_gap' w)) eqn:F; [|eapply gap_no_in; eauto].
    assert (SW : starts_with ($"in") (w_text w) = false) by (destruct (starts_with ($"in") (w_text w)); [specialize (K3 U eq_refl); congruence|reflexivity]).
    apply spaces_no_in; [exact F|right; destruct V as (c & r & -> & V); exists c, (r ++ text_of w_gap' ws e'); auto|].
    destruct V as (c & t & V & _). rewrite V in *. destruct t as [|d t].
    + cbn [app]. pose proof (worded_follows ws tys _ W GS K) as FW. destruct (ceqb_spec "i" c) as [<-|NI]; [|cbn; now rewrite (proj2 (ceqb_neq _ _) NI)].
      assert (N : forall r, text_of w_gap ws e <> "n"%char :: r).
      { intros r X. destruct (S 0) as [p E]. cbn [app length] in E. rewrite X in E. 
        change (scan_token ("i"%char :: "n"%char :: r) 0) with (handle_identifier ("i"%char :: "n"%char :: r) 0) in E. unfold handle_identifier in E.
        change (ceqb "i" "r" || ceqb "i" "R") with false in E. rewrite andb_false_r in E. cbn [andb] in E. change (negb (is_identifier_char "i")) with false in E. cbn iota in E.
        cbn [span_len] in E. change (is_identifier_char "i") with true in E. change (is_identifier_char "n") with true in E. cbn iota in E.
        repeat (destruct (str_eqb _ _) in E; [try destruct (consume_optional_in _) in E; injection E; intros; lia|]). injection E; intros; lia. }
      destruct (text_of w_gap' ws e') as [|d r] eqn:X; [reflexivity|]. destruct (ceqb_spec "n" d) as [<-|ND]; [|cbn; now rewrite (proj2 (ceqb_neq _ _) ND)].
      exfalso. destruct FW as [FW|[(d & q & FW & L)|(d & q & q' & A & B & _)]]; [discriminate|injection FW as <- _; discriminate|]. injection B as <- _. exact (N _ A).
    + change ((c :: d :: t) ++ text_of w_gap' ws e') with ([c; d] ++ (t ++ text_of w_gap' ws e')). rewrite (starts_with_again _ [c; d] _ t); [exact SW|]. change (length ($"in")) with 2. cbn; lia.
Qed.
Lemma worded_again ws : forall tys, worded w_gap e ws tys -> Forall (fun w => gap false (w_gap w) /\ gap false (w_gap' w)) ws ->
  match ws with [] => True | w :: ws => kept_apart (w_text w) ws end -> worded w_gap' e' ws tys.
Proof.
  induction ws as [|w ws IH]; intros tys W G K; inversion W as [|? ? ty tys' V NE NF S W']; subst; [constructor|]. apply Forall_cons_iff in G as [_ G].
  apply worded_cons; [exact V|exact NE|exact NF| |].
  - intros pos. destruct (S 0) as [p E]. destruct V as (c & t & V & _). rewrite V in *. cbn [app length] in E |- *.
    eapply scan_again; [eapply worded_follows; eassumption|exact NE| |exact E]. intros N. eapply worded_not; eassumption.
  - apply IH; auto. destruct ws as [|w2 ws]; [exact I|]. apply K.
Qed.
End Respace.
Lemma norm_toks_again e ws : forall tys, worded w_gap e ws tys -> (forall u, kept_apart u ws -> norm_toks w_gap ws tys = norm_toks w_gap' ws tys).
Proof.
  induction ws as [|w ws IH]; intros tys W u K; inversion W as [|? ? ty tys' V NE NF S W']; subst; [reflexivity|]. destruct K as [(_ & K & _) KS]. cbn [norm_toks].
  f_equal; [|eapply IH; eauto]. destruct (toktype_beq ty TOpenSquare) eqn:T; [|reflexivity]. apply internal_toktype_dec_bl in T as ->. f_equal.
  destruct (S 0) as [p E]. destruct V as (c & t & V & _). rewrite V in *. cbn [app length] in E. apply open_square in E as (-> & L & _). destruct t; [|discriminate].
  specialize (K eq_refl). apply eq_true_iff_eq. rewrite !has_nl_in. exact K.
Qed.
(** Up to places and new lines, the same tokens; brackets after the first token know whether a new line comes before. *)
Definition same_tokens (toks toks' : list token) : Prop :=
  exists t t' ts ts', toks = t :: ts /\ toks' = t' :: ts' /\ tok_type t = tok_type t' /\ tok_text t = tok_text t' /\ map norm_tok ts = map norm_tok ts' /\
    (ts = [] -> norm_tok t = norm_tok t').
Theorem tokens_again c c' : reformatted c c' -> same_tokens (all_tokens c) (all_tokens c').
Proof.
  intros (ws & e & e' & -> & -> & T & NE & [G K] & GE & GE').
  destruct (words_found w_gap e GE ws (S (length (as_before ws e))) (scanner_init (as_before ws e))) as [tys W]; auto.
  { apply Forall_forall. intros w I. rewrite Forall_forall in G. apply G, I. }
  assert (W' := worded_again e e' GE' ws tys W G K).
  assert (A : map norm_tok (all_tokens (as_before ws e)) = norm_toks w_gap ws tys ++ [eof_token]).
  { apply (worded_tokens w_gap e ws tys W); auto. apply Forall_forall. intros w I. rewrite Forall_forall in G. apply G, I. }
  assert (B : map norm_tok (all_tokens (as_after ws e')) = norm_toks w_gap' ws tys ++ [eof_token]).
  { apply (worded_tokens w_gap' e' ws tys W'); auto. apply Forall_forall. intros w I. rewrite Forall_forall in G. apply G, I. }
  set (l := all_tokens (as_before ws e)) in *. set (l' := all_tokens (as_after ws e')) in *. clearbody l l'. clear T NE W'.
  destruct W as [|w ws ty tys V NE NF S W].
  - cbn [norm_toks app] in *. destruct l as [|t [|]], l' as [|t' [|]]; try discriminate. injection A as A1 A2 A3. injection B as B1 B2 B3.
    exists t, t', [], []. repeat split; try congruence. intros _. unfold norm_tok. rewrite A1, A2, B1, B2. reflexivity.
  - cbn [norm_toks app] in *. destruct l as [|t l], l' as [|t' l']; try discriminate. cbn [map] in *. injection A as A1 A2 A3 A4. injection B as B1 B2 B3 B4.
    exists t, t', l, l'. repeat split; try congruence.
    + rewrite A4, B4. f_equal. eapply norm_toks_again; eauto.
    + intros ->. cbn in A4. destruct (norm_toks w_gap ws tys); discriminate.
Qed.
