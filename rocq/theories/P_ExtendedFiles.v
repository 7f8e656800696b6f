(** Proofs for C95: what the files that have grown provide. *)
From Coq Require Import ZArith Lia.
From Verif Require Import Base OMap M_Types M_Scanner M_Ast M_Parser M_Query M_Elab M_Workspace S_Workspace P_Workspace M_Project P_Project M_DepGraph S_DepGraph P_DepGraph M_Headers S_Headers P_Headers
  M_Table S_Table P_Table M_Commands S_Commands P_Commands S_Run P_Run S_Layout P_LayoutMean P_Attributes P_LayoutRules P_Moved P_MovedRun P_Deeper P_Loaded C_Deeper C_Followed S_Extended P_Extended.
Local Open Scope string_scope. Local Open Scope list_scope.

(** Every file is still there, and has grown. *)
Definition all_grow (pr pr' : parsed_project) : Prop := forall p f, In (p, f) (pr_files pr) -> exists f', In (p, f') (pr_files pr') /\ grows_to f f'.
Lemma files_all_grow pr pr' : project_ok pr -> files_grow pr pr' -> all_grow pr pr'.
Proof.
  intros [S _] Q p f I. apply (msorted_find _ _ _ S) in I. specialize (Q p). unfold find_parsed in Q. rewrite I in Q. destruct (map_find p (pr_files pr')) as [f'|] eqn:F; [|destruct Q].
  exists f'. split; [apply map_find_in, F|exact Q].
Qed.
Lemma graphs_all_grow w content content' can_read glob_in pt depth pr0 pr0' g pr todo g' pr' todo' : contents_grow content content' -> files_grow pr0 pr0' -> project_ok pr0 -> project_ok pr0' ->
  build_graph w content can_read glob_in pt depth pr0 = Ret (g, pr, todo) -> build_graph w content' can_read glob_in pt depth pr0' = Ret (g', pr', todo') -> all_grow pr pr'.
Proof.
  intros C Q OK OK' B B'. destruct (loaded_spec _ _ _ _ _ OK _ _ _ _ _ B) as ([S _] & K & _). destruct (loaded_spec _ _ _ _ _ OK' _ _ _ _ _ B') as (_ & K' & _).
  intros p f I. apply (msorted_find _ _ _ S) in I. apply K in I as [F W]. destruct (file_grows _ _ _ _ _ _ _ C Q _ _ F) as (f' & F' & G). exists f'. split; [|exact G].
  apply map_find_in. apply K'. split; [exact F'|]. destruct W as [W|(j & t & L & R & T)].
  - left. specialize (Q p). rewrite W in Q. unfold file_of in F'. destruct (find_parsed pr0' p); [congruence|destruct Q].
  - right. exists j, t. split; [exact L|]. split; [|exact T]. exact (reach_grow _ _ _ _ _ _ _ C Q _ _ _ R).
Qed.

(** * Rules *)
Lemma list_texts o o' : bare_list o = bare_list o' -> texts (list_of o) = texts (list_of o').
Proof. intros E. destruct o as [l|], o' as [l'|]; try discriminate E; [|reflexivity]. injection E as E. exact (texts_bare l l' E). Qed.
Lemma named_alike p r r' t : rule_alike r r' -> named p r t -> named p r' t.
Proof. intros A. unfold named. rewrite (al_name _ _ A). auto. Qed.
Lemma kind_alike r r' : rule_alike r r' -> kind_of r = kind_of r'.
Proof. intros A. unfold kind_of. rewrite (al_rule _ _ A). reflexivity. Qed.
Lemma made_alike p r r' : rule_alike r r' -> made_from p r = made_from p r'.
Proof. intros A. unfold made_from. rewrite (kind_alike _ _ A). f_equal. destruct (kind_of r'); apply list_texts; [apply (al_srcs _ _ A)|apply (al_deps _ _ A)]. Qed.
Lemma lists_alike p r r' h : rule_alike r r' -> lists_header p r h -> lists_header p r' h.
Proof. intros A. unfold lists_header. rewrite (list_texts _ _ (al_hdrs _ _ A)), (list_texts _ _ (al_textual _ _ A)), (list_texts _ _ (al_public _ _ A)). auto. Qed.
Lemma header_name_alike p r r' h n : rule_alike r r' -> header_name p r h n -> header_name p r' h n.
Proof.
  intros A H. destruct H as [N|d name N T D E|N F|dir e name N I W E]; rewrite (al_prefix _ _ A) in *; try rewrite (al_strip _ _ A) in *; try rewrite (list_texts _ _ (al_includes _ _ A)) in *.
  - apply name_prefix, N.
  - eapply name_stripped; eassumption.
  - apply name_full; assumption.
  - eapply name_include; eassumption.
Qed.
Lemma alike_in rs rs' r : rules_grow rs rs' -> In r rs -> exists r', In r' rs' /\ rule_alike r r'.
Proof.
  intros (rs0 & more & A & ->) I. revert I. induction A as [|x y l l' X _ IH]; intros []; [subst x; exists y; split; [left; reflexivity|exact X]|].
  destruct (IH H) as (r' & J & Z). exists r'. split; [right; exact J|exact Z].
Qed.
Lemma alias_grows pr pr' lib t : all_grow pr pr' -> alias_of pr lib t -> alias_of pr' lib t.
Proof.
  intros G (p & f & rs & r & I & F & R & N & P). destruct (G _ _ I) as (f' & I' & [_ Pk T]). destruct (T _ _ F) as (rs' & F' & Gr). destruct (alike_in _ _ _ Gr R) as (r' & R' & A).
  exists p, f', rs', r'. rewrite Pk. rewrite <- (al_actual _ _ A). split; [exact I'|]. split; [exact F'|]. split; [exact R'|]. split; [exact (named_alike _ _ _ _ A N)|exact P].
Qed.
Lemma provides_grow pr pr' f f' t h : all_grow pr pr' -> grows_to f f' -> provides pr f t h -> provides pr' f' t h.
Proof.
  intros G [_ Pk T] H. destruct H as [rs r lib t x name h A1 A2 A3 A4 A5 A6 A7|rs1 rs2 r1 r2 a b lib plib src h A1 A2 A3 A4 A5 A6 A7 A8 A9 A10].
  - destruct (T _ _ A1) as (rs' & F' & Gr). destruct (alike_in _ _ _ Gr A2) as (r' & R' & A). rewrite <- Pk in *.
    eapply provides_library with (lib := lib) (x := x) (name := name); [exact F'|exact R'|exact (named_alike _ _ _ _ A A3)| |exact (lists_alike _ _ _ _ A A5)|exact (header_name_alike _ _ _ _ _ A A6)|exact A7].
    destruct A4 as [A4|A4]; [left; exact A4|right]. eapply alias_grows; eassumption.
  - destruct (T _ _ A1) as (rs1' & F1 & (rs0 & more & Al & E1)). destruct (T _ _ A6) as (rs2' & F2 & Gr). destruct (alike_in _ _ _ Gr A7) as (r2' & R2 & Q). subst rs1. rewrite <- Pk in *.
    apply Forall2_app_inv_l in Al as (a' & b0 & Ha & Hb & ->). inversion Hb as [|? r1' ? b' X Hb']. subst.
    eapply provides_proto with (a := a') (r1 := r1') (b := b' ++ more) (r2 := r2') (plib := plib) (src := src); [exact F1|rewrite <- app_assoc; reflexivity|exact (named_alike _ _ _ _ X A3)| | |exact F2|exact R2|exact (named_alike _ _ _ _ Q A8)| |].
    + rewrite <- (made_alike _ _ _ X). exact A4.
    + intros y I K (u & N) M.
      assert (Y : exists z, In z a /\ rule_alike z y).
      { clear - Ha I. induction Ha as [|z y' l l' Z _ IH]; [destruct I|]. destruct I as [->|I]; [exists z; split; [left; reflexivity|exact Z]|]. destruct (IH I) as (z' & J & W). exists z'. split; [right; exact J|exact W]. }
      destruct Y as (z & Iz & Az). apply (A5 z Iz).
      * rewrite (kind_alike _ _ Az), (kind_alike _ _ X). exact K.
      * exists u. unfold named. rewrite (al_name _ _ Az). exact N.
      * rewrite (made_alike _ _ _ Az). exact M.
    + rewrite <- (list_texts _ _ (al_srcs _ _ Q)). exact A9.
    + rewrite <- (kind_alike _ _ X). exact A10.
Qed.

(** * Rows *)
Lemma header_rows_grow pr pr' pt m m' : all_grow pr pr' -> header_to_lib pr false = Ret m -> header_to_lib pr' false = Ret m' ->
  incl (flat_map (fun e => map (fun t => [fst e; target_to_string t]) (filter (match_target pt) (snd e))) m)
       (flat_map (fun e => map (fun t => [fst e; target_to_string t]) (filter (match_target pt) (snd e))) m').
Proof.
  intros G Hm Hm'. assert (S := headers_sorted _ _ _ Hm). assert (S' := headers_sorted _ _ _ Hm').
  apply header_to_lib_spec in Hm as [Hm _]. apply header_to_lib_spec in Hm' as [Hm' _].
  intros row X. apply in_flat_map in X as ([k ts] & Ik & It). cbn [fst snd] in It. apply in_map_iff in It as (t & <- & It). apply filter_In in It as [It M].
  assert (X : In t (providers m k)) by (apply in_providers; eauto). apply Hm in X as (p & f & h & A & B & ->). destruct (G _ _ A) as (f' & A' & Gf).
  assert (X : In t (providers m' h)) by (apply Hm'; exists p, f', h; split; [exact A'|]; split; [exact (provides_grow _ _ _ _ _ _ G Gf B)|reflexivity]).
  apply in_providers in X as (ts' & Ik' & It'); auto. apply in_flat_map. exists (h, ts'). split; [exact Ik'|]. cbn [fst snd]. apply in_map_iff. exists t.
  split; [reflexivity|]. apply filter_In. auto.
Qed.
Lemma target_rows_grow pr pr' pt ops ops' rule label : all_grow pr pr' -> target_rows_of pt (pr_files pr) = Ret ops -> target_rows_of pt (pr_files pr') = Ret ops' ->
  (exists l, In (AddRow [l; rule; label]) ops) -> exists l, In (AddRow [l; rule; label]) ops'.
Proof.
  intros G A A' (l & I). apply (target_rows_of_in _ _ _ A) in I as (p & f & rs & a & If & F & B & I). destruct (proj1 (target_row_in _ _ _ _ _ B rule label)) as (r & t & Ir & Pt & M & -> & ->); [eauto|].
  destruct (G _ _ If) as (f' & If' & [_ _ T]). destruct (T _ _ F) as (rs' & F' & Gr). destruct (alike_in _ _ _ Gr Ir) as (r' & Ir' & Al). destruct (target_rows_of_all _ _ _ A' p f' If') as (rs2 & b & F2 & B').
  rewrite F' in F2. injection F2 as <-. destruct (proj2 (target_row_in _ _ _ _ _ B' (v_text (q_rule r)) (target_to_string t))) as (l' & I'); [exists r', t; rewrite <- (al_name _ _ Al), <- (al_rule _ _ Al); auto|].
  exists l'. apply (target_rows_of_in _ _ _ A'). exists p, f', rs', b. auto.
Qed.
Lemma aliased_in pr m : extract_aliased_by pr = Ret m -> forall t a, (exists l, In (t, l) m /\ In a l) <->
  exists p f rs r, In (p, f) (pr_files pr) /\ find_targets [$"alias"] (pf_ast f) = Ret rs /\ In r rs /\ In a (declared_alias t (pf_package f) r).
Proof.
  intros E t a. pose proof (aliased_sorted _ _ E) as S. destruct (aliased_by_spec _ _ E) as (rss & F & En & _).
  assert (X : (exists l, In (t, l) m /\ In a l) <-> In a (S_DepGraph.entry m t)).
  { unfold S_DepGraph.entry. split.
    - intros (l & I & J). apply (msorted_find _ _ _ S) in I. rewrite I. exact J.
    - destruct (map_find t m) as [l|] eqn:Z; [|intros []]. intros J. exists l. split; [apply map_find_in, Z|exact J]. }
  rewrite X. specialize (En t). unfold S_DepGraph.entry in *. rewrite En. clear - F. induction F as [|[p f] rs fs rss H _ IH]; cbn [combine flat_map].
  - split; [intros []|intros (? & ? & ? & ? & [] & _)].
  - rewrite in_app_iff, IH. cbn [fst snd] in *. rewrite in_flat_map. split.
    + intros [(r & I & J)|(q & f' & rs' & r & I & Z)]; [exists p, f, rs, r; auto using in_eq|]. exists q, f', rs', r. split; [right; exact I|exact Z].
    + intros (q & f' & rs' & r & [[= <- <-]|I] & Fi & Ir & J); [left; rewrite H in Fi; injection Fi as <-; eauto|]. right. exists q, f', rs', r. auto.
Qed.
Lemma aliased_grow pr pr' m m' t a : all_grow pr pr' -> extract_aliased_by pr = Ret m -> extract_aliased_by pr' = Ret m' ->
  (exists l, In (t, l) m /\ In a l) -> exists l, In (t, l) m' /\ In a l.
Proof.
  intros G E E'. rewrite (aliased_in _ _ E), (aliased_in _ _ E'). intros (p & f & rs & r & I & F & R & D). destruct (G _ _ I) as (f' & I' & [_ Pk T]). destruct (T _ _ F) as (rs' & F' & Gr).
  destruct (alike_in _ _ _ Gr R) as (r' & R' & A). exists p, f', rs', r'. split; [exact I'|]. split; [exact F'|]. split; [exact R'|]. rewrite Pk. unfold declared_alias in *. rewrite <- (al_name _ _ A), <- (al_actual _ _ A). exact D.
Qed.
Lemma outputs_alike sfx f f' r r' : pf_package f' = pf_package f -> rule_alike r r' -> outputs sfx f r = outputs sfx f' r'.
Proof. intros Pk A. unfold outputs. rewrite Pk, (al_name _ _ A), (list_texts _ _ (al_outs _ _ A)). reflexivity. Qed.
Lemma generated_grow pr pr' m m' k : all_grow pr pr' -> generated_from_genrule pr false = Ret m -> generated_from_genrule pr' false = Ret m' -> In k (keys m) -> In k (keys m').
Proof.
  intros G E E' I. apply (outputs_in _ _ E) in I as (p & f & rs & r & t & I & F & R & O). destruct (G _ _ I) as (f' & I' & [_ Pk T]). destruct (T _ _ F) as (rs' & F' & Gr).
  destruct (alike_in _ _ _ Gr R) as (r' & R' & A). apply (outputs_in _ _ E'). exists p, f', rs', r', t. rewrite <- (outputs_alike _ _ _ _ _ Pk A). auto.
Qed.
