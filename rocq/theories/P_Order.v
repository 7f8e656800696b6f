(** Proofs for C72: the order in which directories are listed does not matter. *)
From Coq Require Import NArith Permutation.
From Verif Require Import Base OMap M_Types M_Scanner M_Ast M_Parser S_Parser P_Parser M_Query M_Elab P_Elab S_Locations P_Locations M_Workspace P_Workspace M_Project
  M_DepGraph M_Walk S_Walk P_Walk P_WalkPaths P_GlobFiles S_Run P_Run M_Commands M_System S_Order.

(** * Walks *)
Section Listing.
Variable list1 list2 : str -> option (list dirent).
Variable stat : str -> option (N * bool).
Variable is_link : str -> bool.
Hypothesis same : same_listing list1 list2.
Lemma same_sym : same_listing list2 list1.
Proof. intros d. specialize (same d). destruct (list1 d), (list2 d); auto. now apply Permutation_sym. Qed.
Lemma entry_order1 d e : entry list1 d e -> entry list2 d e.
Proof.
  intros ((l & L & I) & N). split; [|exact N]. specialize (same d). rewrite L in same. destruct (list2 d) as [l2|]; [|destruct same].
  exists l2. split; auto. now apply Permutation_in with l.
Qed.
End Listing.
Section Listings.
Variable list1 list2 : str -> option (list dirent).
Variable stat : str -> option (N * bool).
Variable is_link : str -> bool.
Hypothesis same : same_listing list1 list2.
Lemma entry_order d e : entry list1 d e <-> entry list2 d e.
Proof. split; apply entry_order1; auto. now apply same_sym. Qed.
Lemma dir_entry_order d e i : dir_entry list1 stat d e i <-> dir_entry list2 stat d e i.
Proof. unfold dir_entry. now rewrite entry_order. Qed.
Lemma file_entry_order d e : file_entry list1 stat d e <-> file_entry list2 stat d e.
Proof. unfold file_entry. rewrite entry_order. split; intros (A & B); (split; [exact A|]); intros i D; apply (B i); now apply dir_entry_order. Qed.
Lemma visited_order want root d : visited list1 stat want root d <-> visited list2 stat want root d.
Proof. split; induction 1 as [|d e i V IH D W]; try constructor; apply V_sub with i; auto; now apply dir_entry_order. Qed.
Lemma build_dir_order rec root d : build_dir list1 stat is_link rec root d <-> build_dir list2 stat is_link rec root d.
Proof. split; induction 1 as [|d e i R B IH D L N]; try constructor; apply BD_sub with i; auto; now apply dir_entry_order. Qed.
Lemma proper_order : proper_names list1 -> proper_names list2.
Proof.
  intros P d l L. assert (H := same d). rewrite L in H. destruct (list1 d) as [l1|] eqn:L1; [|destruct H]. destruct (P d l1 L1) as [A B]. split.
  - apply Permutation_NoDup with (map d_name l1); auto. now apply Permutation_map.
  - intros e I. apply B. apply Permutation_in with l; auto. now apply Permutation_sym.
Qed.
Lemma one_path_order want root : one_path_each list1 stat want root -> one_path_each list2 stat want root.
Proof.
  intros O d e d' e' i V V' D D' R W. apply (O d e d' e' i); auto; try (now apply visited_order); now apply dir_entry_order.
Qed.
Lemma below_order root n : below list1 stat root n -> below list2 stat root n.
Proof.
  induction 1 as [root e F|root d e i f D E B IH]; [constructor; now apply file_entry_order|]. apply B_sub with d i; auto. now apply dir_entry_order.
Qed.
Lemma walk_order want_dir want_file root fuel fuel' files files' : proper_names list1 -> one_path_each list1 stat want_dir root ->
  collect_files_recursive list1 stat want_dir want_file fuel root = Ret files ->
  collect_files_recursive list2 stat want_dir want_file fuel' root = Ret files' -> Permutation files files'.
Proof.
  intros P O H H'. assert (N := collect_once list1 stat P want_dir want_file root fuel files H).
  assert (N' := collect_once list2 stat (proper_order P) want_dir want_file root fuel' files' H').
  apply NoDup_Permutation; [now apply NoDup_map_inv in N|now apply NoDup_map_inv in N'|]. intros f. split; intros I.
  - apply (collect_sound _ _ _ _ _ _ _ H) in I as (d & e & V & F & W & ->). apply (collect_complete _ _ _ _ _ _ _ (one_path_order _ _ O) H'); auto; [now apply visited_order|now apply file_entry_order].
  - apply (collect_sound _ _ _ _ _ _ _ H') in I as (d & e & V & F & W & ->). apply (collect_complete _ _ _ _ _ _ _ O H); auto; [now apply visited_order|now apply file_entry_order].
Qed.
End Listings.

(** * Adding BUILD files *)
Lemma omap_ext {K V} `{OrdKey K} (m m' : list (K * V)) : msorted m -> msorted m' -> (forall k, map_find k m = map_find k m') -> m = m'.
Proof.
  unfold msorted. revert m'. induction m as [|[k v] m IH]; intros [|[k' v'] m'] S S' E; auto.
  - specialize (E k'). cbn in E. rewrite keqb_refl in E. discriminate.
  - specialize (E k). cbn in E. rewrite keqb_refl in E. discriminate.
  - destruct S as [F S], S' as [F' S']. assert (k = k') as <-.
    { destruct (klt_total k k') as [L|[?|L]]; auto.
      - exfalso. specialize (E k). cbn in E. rewrite keqb_refl in E. destruct (keqb_spec k k') as [->|N]; [now apply klt_irrefl in L|].
        rewrite (map_find_klt k k' m') in E; auto. discriminate.
      - exfalso. specialize (E k'). cbn in E. rewrite keqb_refl in E. destruct (keqb_spec k' k) as [->|N]; [now apply klt_irrefl in L|].
        rewrite (map_find_klt k' k m) in E; auto. discriminate. }
    assert (v = v') as <-. { specialize (E k). cbn in E. rewrite keqb_refl in E. congruence. }
    f_equal. apply IH; auto. intros x. specialize (E x). cbn in E. destruct (keqb_spec x k) as [Ex|N]; [subst x|exact E].
    transitivity (@None V); [|symmetry]; apply map_find_none; intros I; [|]; [rewrite Forall_forall in F; specialize (F k I)|rewrite Forall_forall in F'; specialize (F' k I)]; now apply (klt_irrefl k).
Qed.
Lemma insert_comm {K V} `{OrdKey K} (k k' : K) (v v' : V) m : msorted m -> k <> k' ->
  map_insert k v (map_insert k' v' m) = map_insert k' v' (map_insert k v m).
Proof.
  intros S N. apply omap_ext; [repeat apply map_insert_sorted; exact S..|]. intros x.
  rewrite !map_insert_find; try exact S; try (apply map_insert_sorted; exact S).
  destruct (map_find x m); auto. destruct (keqb_spec x k) as [E|?], (keqb_spec x k') as [E'|?]; congruence.
Qed.

Section Add.
Variable w : workspace.
Variable read_file : str -> option str.
Variable proj : str.
(** What adding a file does. *)
Inductive effect := EBad | ENone | EErr | EAdd (p : package) (f : parsed_file) (n : nat).
Definition effect_of (name : str) : effect :=
  match package_of_build_file w name proj with
  | Ret None => ENone
  | Ret (Some p) =>
      match read_file name with
      | None => EErr
      | Some content =>
          match parse content with
          | Ret (ast, errs) => EAdd p (mkFile p name content ast errs) (if is_nil errs then 0 else 1)
          | _ => EBad
          end
      end
  | _ => EBad
  end.
Definition apply_effect (e : effect) (pr : parsed_project) : outcome parsed_project :=
  match e with
  | EBad => UB
  | ENone => Ret pr
  | EErr => Ret (mkProject (pr_files pr) (S (pr_error_count pr)))
  | EAdd p f n => Ret (match map_find p (pr_files pr) with
                       | Some _ => pr
                       | None => mkProject (map_insert p f (pr_files pr)) (n + pr_error_count pr)
                       end)
  end.
Lemma package_of_fuel name : package_of_build_file w name proj <> OutOfFuel.
Proof. unfold package_of_build_file. destruct (is_nil proj); [discriminate|]. destruct (find_path_by_project w proj); [|discriminate]. destruct (_ <? _); discriminate. Qed.
Lemma add_effect pr name : add_build_file_in w read_file pr name proj = apply_effect (effect_of name) pr.
Proof.
  unfold add_build_file_in, effect_of. destruct (package_of_build_file w name proj) as [[p|]| |] eqn:E; try reflexivity; [|now apply package_of_fuel in E].
  cbn [bind]. unfold add_build_file. destruct (read_file name) as [c|]; [|reflexivity]. unfold add_build_file_content, find_parsed.
  destruct (parse_total c) as (ast & errs & Pc). rewrite Pc. cbn [apply_effect]. destruct (map_find p (pr_files pr)) as [f|]; [reflexivity|]. cbn [bind].
  destruct (is_nil errs); reflexivity.
Qed.
Lemma apply_sorted e pr pr' : apply_effect e pr = Ret pr' -> msorted (pr_files pr) -> msorted (pr_files pr').
Proof.
  destruct e; cbn; try discriminate; intros [= <-]; auto. destruct (map_find p (pr_files pr)); auto. intros S. now apply map_insert_sorted.
Qed.
Lemma effects_comm e e' pr : msorted (pr_files pr) -> (forall p f n f' n', e = EAdd p f n -> e' = EAdd p f' n' -> e = e') ->
  bind (apply_effect e pr) (apply_effect e') = bind (apply_effect e' pr) (apply_effect e).
Proof.
  intros S H. destruct e as [| | |p f n], e' as [| | |p' f' n']; try reflexivity.
  - cbn. destruct (map_find p' (pr_files pr)); [reflexivity|]. cbn. now rewrite <- plus_n_Sm.
  - cbn. destruct (map_find p (pr_files pr)); [reflexivity|]. cbn. now rewrite <- plus_n_Sm.
  - destruct (keqb_spec p p') as [<-|N]; [rewrite (H p f n f' n'); reflexivity|]. cbn.
    destruct (map_find p (pr_files pr)) as [g|] eqn:F, (map_find p' (pr_files pr)) as [g'|] eqn:F'; cbn; rewrite ?F, ?F'; auto.
    + now rewrite map_insert_find, F by exact S.
    + now rewrite map_insert_find, F' by exact S.
    + rewrite !map_insert_find, F, F' by exact S.
      destruct (keqb_spec p' p); [congruence|]. destruct (keqb_spec p p'); [congruence|]. f_equal. f_equal; [now apply insert_comm|lia].
Qed.
Lemma add_order l l' : Permutation l l' ->
  (forall f f' p, In f l -> In f' l -> package_of_build_file w f proj = Ret (Some p) -> package_of_build_file w f' proj = Ret (Some p) -> f = f') ->
  forall pr, msorted (pr_files pr) -> add_build_files w read_file pr l proj = add_build_files w read_file pr l' proj.
Proof.
  induction 1 as [|x l l' P IH|x y l|l l1 l2 P1 IH1 P2 IH2]; intros H pr S; [reflexivity| | |].
  - cbn [add_build_files]. rewrite add_effect. destruct (apply_effect (effect_of x) pr) as [pr1| |] eqn:E; cbn [bind]; auto. apply IH.
    + intros f f' p I I'. apply H; now right.
    + eapply apply_sorted; eauto.
  - cbn [add_build_files]. rewrite !add_effect.
    assert (C := effects_comm (effect_of y) (effect_of x) pr S).
    assert (C' : bind (apply_effect (effect_of y) pr) (apply_effect (effect_of x)) = bind (apply_effect (effect_of x) pr) (apply_effect (effect_of y))).
    { apply C. clear C. intros p f n f' n' E E'. assert (x = y) as ->; [|reflexivity].
      assert (Px : forall z f n, effect_of z = EAdd p f n -> package_of_build_file w z proj = Ret (Some p)).
      { clear. intros z f n. unfold effect_of. destruct (package_of_build_file w z proj) as [[q|]| |]; try discriminate.
        destruct (read_file z); [|discriminate]. destruct (parse s) as [[a b]| |]; try discriminate. congruence. }
      apply (H x y p); [now right; left|now left|eauto..]. }
    clear C. destruct (apply_effect (effect_of y) pr) as [pr1| |] eqn:E1; destruct (apply_effect (effect_of x) pr) as [pr2| |] eqn:E2; cbn [bind] in *;
      rewrite ?add_effect; auto; try (rewrite C'; reflexivity); try (rewrite <- C'; reflexivity).
  - rewrite IH1 by auto. apply IH2; auto. intros f f' p I I'. apply H; eapply Permutation_in; try apply Permutation_sym; eauto.
Qed.
End Add.

(** * Evaluation without glob() *)
Section NoGlob.
Variable mg mg' : list str -> list str -> list str.
Variable stmts : list node.
Hypothesis ids_in_file : forall id, In id (flat_map idents stmts) -> exists off, v_org id = InFile off.
Hypothesis no_glob : forall id, In id (flat_map idents stmts) -> v_text id <> $"glob".
Notation tracked := (tracked stmts).
Notation tracked_env := (tracked_env stmts).

Lemma elems_same f f' l : forall g, (forall x g, In x l -> tracked_env g -> f x g = f' x g) ->
  (forall x g n' g', In x l -> tracked_env g -> f x g = Ret (n', g') -> tracked n' /\ tracked_env g') ->
  tracked_env g -> elab_elems f l g = elab_elems f' l g.
Proof.
  induction l as [|x l IH]; intros g H K T; [reflexivity|]. cbn [elab_elems]. rewrite <- (H x g (or_introl eq_refl) T).
  destruct (f x g) as [[n g1]| |] eqn:E; cbn [bind]; auto. rewrite (IH g1); auto.
  - intros y g2 I. apply H. now right.
  - intros y g2 n' g' I. apply K. now right.
  - eapply K; eauto. now left.
Qed.
Lemma elab_same n : forall level g, tracked n -> tracked_env g -> elab mg level n g = elab mg' level n g.
Proof.
  induction n as [n IH] using size_ind. intros level g Hn Hg.
  destruct n; cbn [nsize] in IH; cbn [M_Elab.elab]; try reflexivity.
  - rewrite (IH n); auto.
  - apply tracked_bin in Hn as (Hl & Hr & Hp). rewrite <- (IH n1) by (auto; lia). destruct (elab mg level n1 g) as [[a g1]| |] eqn:E; cbn [bind]; auto.
    apply (tracked_elab mg stmts ids_in_file) in E as [A B]; auto. rewrite (IH n2) by (auto; lia). reflexivity.
  - apply tracked_list in Hn. rewrite Forall_forall in Hn.
    rewrite (elems_same (elab mg level) (elab mg' level) elems g); auto.
    + intros x g1 I G. apply (IH x); auto. apply nsize_in in I. lia.
    + intros x g1 n' g' I G. apply (tracked_elab mg stmts ids_in_file); auto.
  - rewrite (IH n); auto.
  - apply tracked_tern in Hn as (H1 & H2 & H3). rewrite <- (IH n1) by (auto; lia). destruct (elab mg level n1 g) as [[a g1]| |] eqn:E; cbn [bind]; auto.
    apply (tracked_elab mg stmts ids_in_file) in E as [A B]; auto. rewrite <- (IH n2) by (auto; lia). destruct (elab mg level n2 g1) as [[a2 g2]| |] eqn:E2; cbn [bind]; auto.
    apply (tracked_elab mg stmts ids_in_file) in E2 as [A2 B2]; auto. rewrite (IH n3) by (auto; lia). reflexivity.
  - apply (tracked_two stmts n1 n2) in Hn as [Hl Hr]; auto. rewrite (IH n2) by (auto; lia). reflexivity.
  - apply (tracked_two stmts n1 n2) in Hn as [Hl Hr]; auto. rewrite <- (IH n1) by (auto; lia). destruct (elab mg (S level) n1 g) as [[a g1]| |] eqn:E; cbn [bind]; auto.
    apply (tracked_elab mg stmts ids_in_file) in E as [A B]; auto. rewrite <- (IH n2) by (auto; lia). destruct (elab mg (S level) n2 g1) as [[a2 g2]| |] eqn:E2; cbn [bind]; auto.
    destruct a; auto. destruct (str_eqb (v_text v) ($"glob")) eqn:Eg; auto. exfalso. apply str_eqb_eq in Eg.
    apply (no_glob v); auto. destruct A as (_ & A & _). apply A. now left.
Qed.
Lemma elaborate_same : elaborate mg stmts = elaborate mg' stmts.
Proof.
  unfold elaborate. assert (T : Forall tracked stmts).
  { rewrite Forall_forall. intros n' Hn. split; [|split; intros x Hx; apply in_flat_map; eauto].
    rewrite Forall_forall. intros v Hv. apply at_place. apply in_flat_map. eauto. }
  rewrite Forall_forall in T. rewrite (elems_same (elab mg 0) (elab mg' 0) stmts []); auto.
  - intros x g I G. apply elab_same; auto.
  - intros x g n' g' I G. apply (tracked_elab mg stmts ids_in_file); auto.
  - intros x m L. discriminate L.
Qed.
End NoGlob.
Lemma parsed_ids content stmts errs id : parse content = Ret (stmts, errs) -> In id (flat_map idents stmts) ->
  exists off, v_org id = InFile off /\ exists a b, content = a ++ v_text id ++ b.
Proof.
  intros P Hid. destruct (parse_trees _ _ _ P) as [L _]. apply in_flat_map in Hid as (m & Hm & Hid). rewrite Forall_forall in L. destruct (L m Hm) as [Lv _].
  rewrite Forall_forall in Lv. apply idents_views in Hid. specialize (Lv id Hid). unfold view_in in Lv. destruct Lv as (off & Ho & Lv).
  destruct Lv as (_ & Lv). exists off. split; auto. exists (firstn off content), (skipn (length (v_text id)) (skipn off content)).
  rewrite <- Lv at 1. now rewrite firstn_skipn, firstn_skipn.
Qed.
Lemma elaborate_no_glob mg mg' content stmts errs : parse content = Ret (stmts, errs) -> (~ exists a b, content = a ++ $"glob" ++ b) ->
  elaborate mg stmts = elaborate mg' stmts.
Proof.
  intros P N. apply elaborate_same.
  - intros id I. destruct (parsed_ids _ _ _ _ P I) as (off & O & _). eauto.
  - intros id I E. destruct (parsed_ids _ _ _ _ P I) as (off & _ & a & b & X). apply N. exists a, b. now rewrite <- E.
Qed.

(** * Projects *)
Section Projects.
Variable w : workspace.
Variable read_file : str -> option str.
Variable can_read : str -> bool.
Variable g1 g2 : package -> list str -> list str -> list str.
Hypothesis no_glob : forall f content, read_file f = Some content -> ~ exists a b, content = a ++ $"glob" ++ b.
(** A file as it was read. *)
Definition fresh (f : parsed_file) : Prop := exists name, read_file name = Some (pf_content f) /\ parse (pf_content f) = Ret (pf_ast f, pf_errors f).
Lemma elaborate_fresh f : fresh f -> elaborate_file g1 f = elaborate_file g2 f.
Proof.
  intros (name & R & P). unfold elaborate_file. now rewrite (elaborate_no_glob (g1 (pf_package f)) (g2 (pf_package f)) _ _ _ P (no_glob _ _ R)).
Qed.
Lemma elaborate_files_fresh l : (forall p f, In (p, f) l -> fresh f) -> elaborate_files g1 l = elaborate_files g2 l.
Proof.
  induction l as [|[p f] l IH]; intros H; [reflexivity|]. cbn [elaborate_files]. rewrite (elaborate_fresh f) by (apply (H p); now left).
  destruct (elaborate_file g2 f); cbn [bind]; auto. rewrite IH; auto. intros q x I. apply (H q). now right.
Qed.
Lemma add_files_fresh proj l : forall pr pr', (forall p f, In (p, f) (pr_files pr) -> fresh f) -> add_build_files w read_file pr l proj = Ret pr' ->
  forall p f, In (p, f) (pr_files pr') -> fresh f.
Proof.
  induction l as [|x l IH]; intros pr pr' H E; cbn [add_build_files] in E; [injection E as <-; exact H|].
  rewrite add_effect in E. destruct (apply_effect (effect_of w read_file proj x) pr) as [pr1| |] eqn:A; cbn [bind] in E; try discriminate.
  apply (IH pr1 pr'); auto. clear IH E. unfold effect_of in A. destruct (package_of_build_file w x proj) as [[q|]| |]; cbn [apply_effect] in A; try discriminate; [|injection A as <-; exact H].
  destruct (read_file x) as [c|] eqn:R; cbn [apply_effect] in A; [|injection A as <-; exact H]. destruct (parse_total c) as (ast & errs & P). rewrite P in A. cbn [apply_effect] in A.
  injection A as <-. destruct (map_find q (pr_files pr)); [exact H|]. cbn [pr_files]. intros p f I.
  assert (K : forall m, In (p, f) (map_insert q (mkFile q x c ast errs) m) -> f = mkFile q x c ast errs \/ In (p, f) m).
  { clear. induction m as [|[k v] m IHm]; cbn [map_insert]; [intros [[= _ <-]|[]]; auto|]. destruct (kcmp q k).
    - auto.
    - intros [[= _ <-]|I]; auto.
    - intros [I|I]; [right; now left|]. destruct (IHm I); auto. right. now right. }
  apply K in I as [->|I]; [|eauto]. exists x. cbn. auto.
Qed.
Lemma parse_missing_same pr p : parse_missing w read_file can_read g1 pr p = parse_missing w read_file can_read g2 pr p.
Proof.
  unfold parse_missing. destruct (find_parsed pr p) eqn:F; [reflexivity|]. destruct (path_for_package w can_read p) as [b|]; [|reflexivity].
  unfold add_build_file. destruct (read_file b) as [c|] eqn:R; [|reflexivity]. unfold add_build_file_content. rewrite F.
  destruct (parse_total c) as (ast & errs & P). rewrite P. cbn [bind]. rewrite elaborate_fresh; [reflexivity|]. exists b. cbn. auto.
Qed.
Lemma find_missing_same want : forall pr, find_and_parse_missing w read_file can_read g1 want pr = find_and_parse_missing w read_file can_read g2 want pr.
Proof.
  induction want as [|p want IH]; intros pr; [reflexivity|]. cbn [find_and_parse_missing]. rewrite parse_missing_same.
  destruct (parse_missing w read_file can_read g2 pr p); cbn [bind]; auto.
Qed.
Lemma rounds_same d : forall g pr todo, rounds w read_file can_read g1 d g pr todo = rounds w read_file can_read g2 d g pr todo.
Proof.
  induction d as [|d IH]; intros g pr todo; cbn [rounds]; unfold run_round; rewrite find_missing_same; [reflexivity|].
  destruct (find_and_parse_missing w read_file can_read g2 _ pr) as [pr1| |]; cbn [bind]; auto.
  destruct (scan_packages pr1 _ _) as [st| |]; cbn [bind]; auto. destruct (is_nil (rd_next st)); auto.
Qed.
End Projects.

(** * Runs *)
Section Runs.
Variable is_directory : str -> bool.
Variable can_read : str -> bool.
Variable glob : str -> list str.
Variable read_file : str -> option str.
Variable glob1 glob2 : workspace -> package -> list str -> list str -> list str.
Variable collect1 collect2 : workspace -> pattern -> list str.
Variable compilation_flags : workspace -> parsed_project -> pattern -> bool -> outcome str.
Hypothesis no_glob : forall f content, read_file f = Some content -> ~ exists a b, content = a ++ $"glob" ++ b.
Theorem run_order fl cmd pt :
  (forall w, the_workspace is_directory can_read glob read_file w -> Permutation (collect1 w (read_for cmd pt)) (collect2 w (read_for cmd pt)) /\
    forall f f' p, In f (collect1 w (read_for cmd pt)) -> In f' (collect1 w (read_for cmd pt)) -> package_of_build_file w f (pat_project (read_for cmd pt)) = Ret (Some p) ->
      package_of_build_file w f' (pat_project (read_for cmd pt)) = Ret (Some p) -> f = f') ->
  run_command is_directory can_read glob read_file glob1 collect1 compilation_flags fl cmd pt =
  run_command is_directory can_read glob read_file glob2 collect2 compilation_flags fl cmd pt.
Proof.
  intros H. unfold run_command, prepare. destruct (load_workspace is_directory can_read glob read_file) as [[w|]| |] eqn:L; cbn [bind]; [|reflexivity..].
  destruct (load_workspace_spec _ _ _ _ _ L) as (decls & D & _ & X). specialize (X w eq_refl).
  specialize (H (augment_from_external_dir is_directory glob w)). destruct H as [P O]; [exists decls, w; auto|].
  set (w' := augment_from_external_dir is_directory glob w) in *. fold (read_for cmd pt). set (dp := read_for cmd pt) in *. unfold fill_from_pattern.
  rewrite (add_order w' read_file (pat_project dp) _ _ P O empty_project I).
  destruct (if needs_project cmd pt then add_build_files w' read_file empty_project (collect2 w' dp) (pat_project dp) else Ret empty_project) as [pr| |] eqn:Ep; cbn [bind]; [|reflexivity..].
  assert (Fr : forall p f, In (p, f) (pr_files pr) -> fresh read_file f).
  { destruct (needs_project cmd pt); [|injection Ep as <-; intros p f []]. eapply add_files_fresh; [|exact Ep]. intros p f []. }
  unfold elaborate_project. rewrite (elaborate_files_fresh read_file (glob1 w') (glob2 w') no_glob _ Fr).
  destruct (if elaborate_for cmd (fl_elaborate fl) then _ else _) as [pr1| |]; cbn [bind]; [|reflexivity..].
  unfold build_graph. destruct (wants_graph cmd && _); [|reflexivity]. destruct (initial_todo dp (pr_files pr1) []) as [todo| |]; cbn [bind]; [|reflexivity..].
  rewrite (rounds_same w' read_file can_read (glob1 w') (glob2 w') no_glob). reflexivity.
Qed.
End Runs.

(** * In a file system *)
Section InFs.
Variable fs : file_system.
Variable l' : str -> option (list dirent).
Hypothesis same : same_listing (fs_list fs) l'.
Hypothesis proper : proper_names (fs_list fs).
Variable inodes : list N.
Hypothesis finite : inodes_are fs inodes.
Variable fuel : nat.
Hypothesis enough : length inodes < fuel.
Lemma walk_ends list stat want_dir want_file root : (forall d e i, dir_entry list stat d e i -> real_inode i /\ In i inodes) ->
  exists files, collect_files_recursive list stat want_dir want_file fuel root = Ret files.
Proof.
  intros H. destruct (collect_ends_inodes list stat want_dir want_file root inodes) as (files & E); [intros d e i _; apply H|].
  exists files. unfold collect_files_recursive in *. eapply walk_fuel_more; [|exact E]. lia.
Qed.
Lemma found_order w pt : no_second_way fs w pt ->
  Permutation (found_build_files fuel fs w pt) (found_build_files fuel (listed_as fs l') w pt) /\
  forall f, In f (found_build_files fuel fs w pt) <-> has_build_file fs w pt f.
Proof.
  intros U. unfold found_build_files. cbn [fs_list fs_stat fs_link listed_as].
  assert (F' : forall d e i, dir_entry l' (fs_stat fs) d e i -> real_inode i /\ In i inodes) by (intros d e i D; apply (finite d e i); now apply (dir_entry_order (fs_list fs) l')).
  destruct (M_Walk.collect_build_files (fs_list fs) (fs_stat fs) (fs_link fs) fuel w pt) as [files| |] eqn:E.
  2,3: exfalso; unfold M_Walk.collect_build_files in E; destruct (search_dir w pt) as [root|]; [|discriminate];
    destruct (walk_ends (fs_list fs) (fs_stat fs) (build_dir_predicate (fs_link fs) (is_recursive pt)) is_build_file root finite) as (x & X); congruence.
  destruct (M_Walk.collect_build_files l' (fs_stat fs) (fs_link fs) fuel w pt) as [files'| |] eqn:E'.
  2,3: exfalso; unfold M_Walk.collect_build_files in E'; destruct (search_dir w pt) as [root|]; [|discriminate];
    destruct (walk_ends l' (fs_stat fs) (build_dir_predicate (fs_link fs) (is_recursive pt)) is_build_file root F') as (x & X); congruence.
  split.
  - apply Permutation_map. unfold M_Walk.collect_build_files in E, E'. destruct (search_dir w pt) as [root|] eqn:Es; [|injection E as <-; injection E' as <-; constructor].
    eapply (walk_order (fs_list fs) l' (fs_stat fs) same); eauto.
    intros d e d' e' i V V' D D' R W. apply build_visited in V. apply build_visited in V'. destruct (is_recursive pt); [|discriminate W]. apply (U root d e d' e' i); auto.
  - intros f. destruct (collect_build_spec _ _ _ _ _ _ _ E) as [(N & ->)|(root & S & A & B)].
    + split; [intros []|]. intros (root & d & e & S & _). congruence.
    + split.
      * intros I. apply in_map_iff in I as (x & <- & I). apply A in I as (d & e & Bd & Fe & Nm & ->). exists root, d, e. auto.
      * intros (root' & d & e & S' & Bd & Fe & Nm & ->). assert (root' = root) as -> by congruence. apply in_map. apply B; [|exists d, e; auto].
        right. intros d1 e1 d2 e2 i B1 B2 D1 D2 _ _. apply (U root d1 e1 d2 e2 i); auto.
Qed.
Theorem run_in_order fl args : without_glob fs ->
  (forall w pt, the_workspace (is_dir fs) (fs_can_read fs) (fs_glob fs) (fs_content fs) w -> pt = pattern_always \/ (exists arg, In arg (tl args) /\ parse_pattern arg = PatOk pt) ->
     no_second_way fs w pt /\ one_file_each fs w pt) ->
  run_in fuel (listed_as fs l') fl args = run_in fuel fs fl args.
Proof.
  intros N H. unfold run_in, run_cli. destruct args as [|word rest]; [reflexivity|]. destruct (find_command command_names word) as [cmd| |]; [|reflexivity..].
  assert (K : forall pt, pt = pattern_always \/ (exists arg, In arg rest /\ parse_pattern arg = PatOk pt) ->
    run_command (is_dir (listed_as fs l')) (fs_can_read (listed_as fs l')) (fs_glob (listed_as fs l')) (fs_content (listed_as fs l')) (globbed_files fuel (listed_as fs l'))
      (found_build_files fuel (listed_as fs l')) (flags_output (listed_as fs l')) fl cmd pt =
    run_command (is_dir fs) (fs_can_read fs) (fs_glob fs) (fs_content fs) (globbed_files fuel fs) (found_build_files fuel fs) (flags_output fs) fl cmd pt).
  { intros pt Hp. symmetry. apply (run_order (is_dir fs) (fs_can_read fs) (fs_glob fs) (fs_content fs)); [exact N|]. intros w Hw.
    assert (Hr : read_for cmd pt = pattern_always \/ (exists arg, In arg rest /\ parse_pattern arg = PatOk (read_for cmd pt))) by (destruct cmd; cbn; auto).
    destruct (H w (read_for cmd pt) Hw Hr) as (U & O). destruct (found_order w (read_for cmd pt) U) as (P & M). split; [exact P|].
    intros f f' p I I'. apply (O f f' p); now apply M. }
  destruct rest as [|arg more].
  - destruct (needs_pattern cmd && is_matchall pattern_always); [reflexivity|]. rewrite K by auto. reflexivity.
  - destruct (parse_pattern arg) as [pt| |] eqn:Ea; [|reflexivity..]. destruct (is_nil more); [|reflexivity]. destruct (needs_pattern cmd && is_matchall pt); [reflexivity|].
    rewrite K; [reflexivity|]. right. exists arg. split; auto. now left.
Qed.
End InFs.
Lemma glob_names_map k l names : glob_names k l = Ret names -> names = map (fun f => skipn k (fp_path f)) l.
Proof.
  revert names. induction l as [|f l IH]; intros names H; cbn [glob_names] in H; [now injection H as <-|].
  destruct (k <? _); [|discriminate]. invb H. injection H as <-. cbn [map]. now rewrite (IH a eq_refl).
Qed.
Theorem glob_order list1 list2 stat fuel fuel' w p incl excl names names' : same_listing list1 list2 -> proper_names list1 ->
  one_path_each list1 stat all_dirs (fully_qualified_file w p ($".")) ->
  glob_files list1 stat fuel w p incl excl = Ret names -> glob_files list2 stat fuel' w p incl excl = Ret names' -> Permutation names names'.
Proof.
  intros S P O H H'. unfold glob_files in H, H'. invb H. invb H'. apply glob_names_map in H, H'. subst. apply Permutation_map.
  unfold multi_glob in E, E0. refine (walk_order list1 list2 stat S _ _ _ _ _ _ _ P _ E E0).
  intros d e d' e' i V V' D D' R W. apply (O d e d' e' i); auto; [revert V|revert V']; apply visited_mono; reflexivity.
Qed.

(** * Packages *)
Section Packages.
Variable fs : file_system.
Hypothesis proper : proper_names (fs_list fs).
Lemma build_dir_path rec root d : build_dir (fs_list fs) (fs_stat fs) (fs_link fs) rec root d ->
  d = root \/ (strip_back "/" d = d /\ exists c r, c <> "/"%char /\ d = strip_back "/" root ++ "/"%char :: c :: r).
Proof.
  induction 1 as [|d e i R B IH D L N]; auto. right. rewrite path_at_path. destruct (dir_name _ _ proper _ _ _ D) as (N1 & N2). split; [now apply name_end|].
  destruct IH as [->|(Ne & c & r & Nc & ->)].
  - destruct (d_name e) as [|c r]; [congruence|]. exists c, r. split; auto. intros ->. apply N2. now left.
  - rewrite Ne, <- app_assoc. cbn [app]. eauto.
Qed.
Lemma build_file_package d e w : (d_name e = $"BUILD" \/ d_name e = $"BUILD.bazel") ->
  package_of_build_file w (fp_path (path_at d e)) [] = Ret (Some (mkPackage [] (strip_dots_slashes (strip_back "/" d)))).
Proof.
  intros N. unfold package_of_build_file. cbn [is_nil]. rewrite path_at_path. unfold target_path_from_build_file. rewrite find_last_app.
  - cbn [prefix_upto]. now rewrite firstn_app_exact.
  - destruct N as [-> | ->]; cbn; intuition discriminate.
Qed.
Theorem apart w pt : pat_project pt = [] -> (forall r, pat_path pt <> "."%char :: r) -> (forall r, pat_path pt <> "/"%char :: r) ->
  (forall f r, has_build_file fs w pt f -> f <> $"./." ++ r) ->
  (forall d e e', file_entry (fs_list fs) (fs_stat fs) d e -> file_entry (fs_list fs) (fs_stat fs) d e' -> d_name e = $"BUILD" -> d_name e' <> $"BUILD.bazel") ->
  one_file_each fs w pt.
Proof.
  intros Pj P1 P2 Hid One f f' p (root & d & e & S & B & F & N & ->) (root' & d' & e' & S' & B' & F' & N' & ->) Q Q'.
  assert (root' = root) as -> by congruence. rewrite Pj in Q, Q'. rewrite build_file_package in Q, Q' by auto.
  assert (D : strip_dots_slashes (strip_back "/" d) = strip_dots_slashes (strip_back "/" d')) by congruence.
  assert (E : d = d').
  { assert (Sd : root = $"." \/ exists c r, root = c :: r /\ c <> "."%char /\ c <> "/"%char).
    { rewrite search_dir_spec in S. unfold pat_project, pat_path in *. rewrite Pj in S. injection S as <-.
      destruct (path (tpackage (pat_target pt))) as [|c r]; auto. right. exists c, r. split; auto. split; intros ->; [now apply (P1 r)|now apply (P2 r)]. }
    destruct Sd as [->|(c & r & -> & C1 & C2)].
    - assert (G : forall d e, build_dir (fs_list fs) (fs_stat fs) (fs_link fs) (is_recursive pt) ($".") d -> file_entry (fs_list fs) (fs_stat fs) d e ->
        (d_name e = $"BUILD" \/ d_name e = $"BUILD.bazel") -> d = $"." /\ strip_dots_slashes (strip_back "/" d) = [] \/
        exists c r, strip_dots_slashes (strip_back "/" d) = c :: r /\ d = $"./" ++ c :: r).
      { clear - proper Hid S. intros d e B F N. destruct (build_dir_path _ _ _ B) as [->|(Ne & c & r & Nc & E)]; [auto|]. right. exists c, r. cbn in E. split; [|exact E].
        rewrite Ne, E. cbn. destruct (ceqb_spec c ".") as [->|Nd]; [exfalso|].
        - apply (Hid (fp_path (path_at d e)) (r ++ "/"%char :: d_name e)); [exists ($"."), d, e; auto|]. rewrite path_at_path. rewrite Ne, E. reflexivity.
        - destruct (ceqb_spec c "/"); [congruence|]. reflexivity. }
      destruct (G _ _ B F N) as [(-> & K)|(c & r & K & ->)], (G _ _ B' F' N') as [(-> & K')|(c' & r' & K' & ->)]; congruence.
    - assert (R : exists q, strip_back "/" (c :: r) = c :: q).
      { destruct (strip_back_repeat "/" (c :: r)) as (n & X). destruct (strip_back "/" (c :: r)) as [|x q]; [|injection X as <- _; eauto].
        cbn in X. destruct n; [discriminate|]. injection X as X _. congruence. }
      destruct R as (q & R). assert (I : forall s, strip_dots_slashes (c :: s) = c :: s).
      { intros s. apply strip_dots_id; intros t X; injection X as X _; congruence. }
      assert (G : forall d, build_dir (fs_list fs) (fs_stat fs) (fs_link fs) (is_recursive pt) (c :: r) d ->
        d = c :: r /\ strip_dots_slashes (strip_back "/" d) = c :: q \/ exists t, strip_dots_slashes (strip_back "/" d) = d /\ d = c :: q ++ "/"%char :: t).
      { clear - proper R I. intros d B. destruct (build_dir_path _ _ _ B) as [->|(Ne & c' & r' & Nc & E)]; [left; split; auto; now rewrite R, I|].
        right. exists (c' :: r'). rewrite Ne. rewrite R in E. cbn [app] in E. split; [|exact E]. rewrite E. apply I. }
      destruct (G _ B) as [(-> & K)|(t & K & ->)], (G _ B') as [(-> & K')|(t' & K' & ->)]; try congruence; rewrite K, K' in D; injection D as D;
        apply (f_equal (@length ascii)) in D; rewrite app_length in D; cbn in D; lia. }
  subst d'. assert (X : d_name e = d_name e').
  { destruct N as [N|N], N' as [N'|N']; try congruence; exfalso; [apply (One d e e')|apply (One d e' e)]; auto. }
  rewrite !path_at_path. congruence.
Qed.
End Packages.
