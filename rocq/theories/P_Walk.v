(** Proofs about walks through a file system. *)
From Coq Require Import NArith.
From Verif Require Import Base OMap M_Types M_Ast M_Workspace M_Glob S_Glob P_Glob M_Walk S_Walk.

Local Notation slash := "/"%char.

(** * Reading *)
Section Reading.
Variable read : nat -> nat -> read_result.
Hypothesis bounded : within_bounds read.
Lemma read_loop_spec rounds : forall k buf n, n <= rounds ->
  (exists s, read_trace read k n s /\ read_loop read rounds k buf n = Ret (buf ++ s, 0)) \/
  (exists b m, 0 < m /\ read_loop read rounds k buf n = Ret (b, m) /\ forall s, ~ read_trace read k n s).
Proof.
  induction rounds as [|rounds IH]; intros k buf n L.
  - assert (n = 0) as -> by lia. left. exists []. rewrite app_nil_r. split; [constructor|reflexivity].
  - cbn [read_loop]. destruct (Nat.eqb_spec n 0) as [->|N].
    + left. exists []. rewrite app_nil_r. split; [constructor|reflexivity].
    + destruct (read k n) as [|b] eqn:E.
      * right. exists buf, n. split; [lia|]. split; auto. intros s T. inversion T; subst; congruence.
      * destruct b as [|c b].
        -- right. exists buf, n. split; [lia|]. split; auto. intros s T. inversion T; subst; [congruence|]. rewrite E in H1. injection H1 as <-. congruence.
        -- pose proof (bounded _ _ _ E) as B. destruct (Nat.ltb_spec n (length (c :: b))) as [X|X]; [lia|].
           destruct (IH (S k) (buf ++ c :: b) (n - length (c :: b))) as [(s & T & R)|(x & m & M & R & T)].
           { cbn [length] in *. lia. }
           ++ left. exists ((c :: b) ++ s). split; [|rewrite R, <- app_assoc; reflexivity]. econstructor; eauto. discriminate.
           ++ right. exists x, m. split; auto. split; auto. intros s T'. inversion T' as [|? ? b' s' Hb Hl Hr Ht E1 E2]; subst; [congruence|].
              assert (b' = c :: b) as -> by congruence. exact (T s' Ht).
Qed.
Lemma trace_unique k n s : read_trace read k n s -> forall s', read_trace read k n s' -> s' = s.
Proof.
  induction 1 as [|k n b s Hb Hl Hr Ht IH]; intros s' T; inversion T; subst; auto.
  - destruct b; [congruence|]. cbn in H0. lia.
  - destruct b; [congruence|]. cbn in Hl. lia.
  - assert (b0 = b) as -> by congruence. f_equal. now apply IH.
Qed.
Lemma read_file_spec size :
  (forall s, read_file_to_string read (Some size) = Ret (Some s) <-> read_trace read 0 size s) /\
  (read_file_to_string read (Some size) = Ret None <-> forall s, ~ read_trace read 0 size s).
Proof.
  unfold read_file_to_string. destruct (read_loop_spec size 0 [] size (le_n _)) as [(s & T & ->)|(b & m & M & -> & T)]; cbn [bind].
  - cbn [app Nat.eqb]. split.
    + intros s'. split; [intros [= <-]; exact T|]. intros T'. f_equal. f_equal. symmetry. eapply trace_unique; eauto.
    + split; [discriminate|]. intros H. destruct (H s T).
  - destruct (Nat.eqb_spec m 0); [lia|]. split.
    + intros s. split; [discriminate|]. intros H. destruct (T s H).
    + split; auto.
Qed.
End Reading.
Lemma trace_length read k n s : read_trace read k n s -> length s = n.
Proof. induction 1; auto. rewrite app_length. lia. Qed.
Lemma delivers_trace content read : delivers content read -> forall n k, n <= length content -> read_trace read k n (skipn (length content - n) content).
Proof.
  intros D n. induction n as [n IH] using lt_wf_ind. intros k L. destruct n as [|n].
  - rewrite Nat.sub_0_r, skipn_all. constructor.
  - destruct (D k (S n)) as (m & M & R); [lia|]. set (rest := skipn (length content - S n) content) in *.
    assert (Lr : length rest = S n) by (unfold rest; rewrite skipn_length; lia).
    rewrite <- (firstn_skipn m rest). assert (Lm : length (firstn m rest) = m) by (rewrite firstn_length; lia).
    apply RT_more; auto; try lia.
    + intros E. rewrite E in Lm. cbn in Lm. lia.
    + rewrite Lm. assert (Es : skipn m rest = skipn (length content - (S n - m)) content).
      { unfold rest. replace (length content - (S n - m)) with (m + (length content - S n)) by lia. generalize (length content - S n). intros a. clear. revert content. induction a as [|a IHa]; intros [|c content].
        - now rewrite Nat.add_0_r.
        - now rewrite Nat.add_0_r.
        - cbn [skipn]. rewrite Nat.add_succ_r. now rewrite !skipn_nil.
        - rewrite Nat.add_succ_r. cbn [skipn]. apply IHa. }
      rewrite Es. apply IH; lia.
Qed.
Lemma delivers_read content read : within_bounds read -> delivers content read -> read_file_to_string read (Some (length content)) = Ret (Some content).
Proof.
  intros B D. apply read_file_spec; auto. pose proof (delivers_trace _ _ D (length content) 0 (le_n _)) as T. now rewrite Nat.sub_diag in T.
Qed.

(** * Walking *)
Lemma valid_inode i : looks_like_valid_inode i = true <-> real_inode i.
Proof.
  unfold looks_like_valid_inode, real_inode. change 4294967295%N with (N.ones 32). rewrite N.land_ones. change (2 ^ 32 - 1)%N with (N.ones 32).
  rewrite andb_true_iff, !negb_true_iff, !N.eqb_neq. reflexivity.
Qed.
Lemma is_dot_spec e : is_dot e = false <-> d_name e <> $"." /\ d_name e <> $"..".
Proof.
  unfold is_dot. rewrite orb_false_iff. rewrite <- !not_true_iff_false, !str_eqb_eq. reflexivity.
Qed.
Section Walk.
Variable readdir : str -> option (list dirent).
Variable stat : str -> option (N * bool).
Notation entry := (entry readdir).
Notation dir_entry := (dir_entry readdir stat).
Notation file_entry := (file_entry readdir stat).
Notation entry_dir := (entry_dir stat).
Lemma entry_dir_true d e i : entry d e -> (entry_dir d e = (true, i) <-> dir_entry d e i).
Proof.
  intros E. unfold M_Walk.entry_dir, S_Walk.dir_entry. destruct (d_type e).
  - split; [intros [= <-]; auto|]. intros (_ & [(_ & ->)|([X|X] & _)]); auto; discriminate.
  - destruct (stat _) as [[j b]|]; split; try discriminate.
    + intros [= -> ->]. auto.
    + intros (_ & [(X & _)|(_ & X)]); [discriminate|]. injection X as -> ->. reflexivity.
    + intros (_ & [(X & _)|(_ & X)]); discriminate.
  - destruct (stat _) as [[j b]|]; split; try discriminate.
    + intros [= -> ->]. auto.
    + intros (_ & [(X & _)|(_ & X)]); [discriminate|]. injection X as -> ->. reflexivity.
    + intros (_ & [(X & _)|(_ & X)]); discriminate.
  - split; [discriminate|]. intros (_ & [(X & _)|([X|X] & _)]); discriminate.
Qed.
Lemma entry_dir_false d e : entry d e -> (fst (entry_dir d e) = false <-> file_entry d e).
Proof.
  intros E. unfold S_Walk.file_entry. destruct (entry_dir d e) as [b i] eqn:X. cbn [fst]. split.
  - intros ->. split; auto. intros j D. apply entry_dir_true in D; auto. congruence.
  - intros (_ & H). destruct b; auto. destruct (H i). now apply entry_dir_true.
Qed.

Section Collect.
Variable want_dir want_file : fpath -> bool.
Notation scan := (scan_entry stat want_dir want_file).
Notation walk_loop := (walk_loop readdir stat want_dir want_file).
Lemma scan_spec cur l : forall w w', fold_left (scan cur) l w = w' ->
  (forall i, In i (ws_seen w) -> In i (ws_seen w')) /\
  (forall i, In i (ws_seen w') -> In i (ws_seen w) \/
     exists e, In e l /\ is_dot e = false /\ entry_dir cur e = (true, i) /\ looks_like_valid_inode i = true /\ (want_dir (path_at cur e) = true -> In (fp_path (path_at cur e)) (ws_work w'))) /\
  (exists new, ws_work w' = ws_work w ++ new /\ forall x, In x new -> exists e i, In e l /\ is_dot e = false /\ entry_dir cur e = (true, i) /\ want_dir (path_at cur e) = true /\ x = fp_path (path_at cur e)) /\
  (exists new, ws_out w' = ws_out w ++ new /\ forall f, In f new <-> exists e, In e l /\ is_dot e = false /\ fst (entry_dir cur e) = false /\ want_file (path_at cur e) = true /\ f = path_at cur e) /\
  (forall e i, In e l -> is_dot e = false -> entry_dir cur e = (true, i) ->
     if looks_like_valid_inode i then In i (ws_seen w') else want_dir (path_at cur e) = true -> In (fp_path (path_at cur e)) (ws_work w')).
Proof.
  induction l as [|e l IH]; intros w w' E.
  - cbn in E. subst w'. split; auto. split; auto. split. { exists []. rewrite app_nil_r. split; auto. intros x []. } split; [|intros e i []].
    exists []. rewrite app_nil_r. split; auto. intros f. split; [intros []|intros (e & [] & _)].
  - cbn [fold_left] in E. apply IH in E as (H1 & H2 & (nw & H3 & H3') & (no & H4 & H4') & H5). clear IH.
    assert (K : forall w1, scan cur w e = w1 ->
      (forall i, In i (ws_seen w) -> In i (ws_seen w1)) /\
      (forall i, In i (ws_seen w1) -> In i (ws_seen w) \/ (is_dot e = false /\ entry_dir cur e = (true, i) /\ looks_like_valid_inode i = true /\ (want_dir (path_at cur e) = true -> In (fp_path (path_at cur e)) (ws_work w1)))) /\
      (exists new, ws_work w1 = ws_work w ++ new /\ forall x, In x new -> exists i, is_dot e = false /\ entry_dir cur e = (true, i) /\ want_dir (path_at cur e) = true /\ x = fp_path (path_at cur e)) /\
      (exists new, ws_out w1 = ws_out w ++ new /\ forall f, In f new <-> is_dot e = false /\ fst (entry_dir cur e) = false /\ want_file (path_at cur e) = true /\ f = path_at cur e) /\
      (forall i, is_dot e = false -> entry_dir cur e = (true, i) ->
        if looks_like_valid_inode i then In i (ws_seen w1) else want_dir (path_at cur e) = true -> In (fp_path (path_at cur e)) (ws_work w1))).
    { intros w1 <-. clear. unfold scan_entry. destruct (is_dot e) eqn:Dot.
      { split; auto. split; auto. split. { exists []. rewrite app_nil_r. split; auto. intros x []. } split; [|discriminate].
        exists []. rewrite app_nil_r. split; auto. intros f. split; [intros []|intros ([=] & _)]. }
      destruct (entry_dir cur e) as [[|] i] eqn:Ed.
      - destruct (looks_like_valid_inode i) eqn:V; cbn [andb].
        + destruct (existsb (N.eqb i) (ws_seen w)) eqn:X.
          * apply existsb_exists in X as (j & Ij & Ej). apply N.eqb_eq in Ej. subst j.
            split; auto. split; auto. split. { exists []. rewrite app_nil_r. split; auto. intros x []. } split.
            { exists []. rewrite app_nil_r. split; auto. intros f. split; [intros []|intros (_ & [=] & _)]. }
            intros j _ [= <-]. now rewrite V.
          * cbn [ws_seen ws_work ws_out]. split. { intros j Ij. now right. } split.
            { intros j [<-|Ij]; auto. right. do 3 (split; [auto|]). intros ->. apply in_or_app. right. now left. }
            split. { destruct (want_dir _) eqn:W; [|exists []; rewrite app_nil_r; split; auto; intros x []]. exists [fp_path (path_at cur e)]. split; auto. intros x [<-|[]]. eauto. }
            split. { exists []. rewrite app_nil_r. split; auto. intros f. split; [intros []|intros (_ & [=] & _)]. }
            intros j _ [= <-]. rewrite V. now left.
        + cbn [ws_seen ws_work ws_out]. split; auto. split; auto.
          split. { destruct (want_dir _) eqn:W; [|exists []; rewrite app_nil_r; split; auto; intros x []]. exists [fp_path (path_at cur e)]. split; auto. intros x [<-|[]]. eauto. }
          split. { exists []. rewrite app_nil_r. split; auto. intros f. split; [intros []|intros (_ & [=] & _)]. }
          intros j _ [= <-]. rewrite V. intros ->. apply in_or_app. right. now left.
      - destruct (want_file _) eqn:W; cbn [ws_seen ws_work ws_out].
        + split; auto. split; auto. split. { exists []. rewrite app_nil_r. split; auto. intros x []. } split; [|discriminate].
          exists [path_at cur e]. split; auto. intros f. split; [intros [<-|[]]; auto|]. intros (_ & _ & _ & ->). now left.
        + split; auto. split; auto. split. { exists []. rewrite app_nil_r. split; auto. intros x []. } split; [|discriminate].
          exists []. rewrite app_nil_r. split; auto. intros f. split; [intros []|intros (_ & _ & [=] & _)]. }
    destruct (K _ eq_refl) as (K1 & K2 & (kw & K3 & K3') & (ko & K4 & K4') & K5). clear K.
    assert (Wk : forall x, In x (ws_work (scan cur w e)) -> In x (ws_work w')) by (intros x Ix; rewrite H3; apply in_or_app; auto).
    split; [auto|]. split.
    { intros i Ii. apply H2 in Ii as [Ii|(x & X1 & X2)]; [|right; exists x; split; [now right|exact X2]].
      apply K2 in Ii as [Ii|(X1 & X2 & X3 & X4)]; auto. right. exists e. split; [now left|]. auto 10. }
    split. { exists (kw ++ nw). rewrite H3, K3, app_assoc. split; auto. intros x Ix. apply in_app_or in Ix as [Ix|Ix].
      - apply K3' in Ix as (i & X). exists e, i. split; [now left|auto].
      - apply H3' in Ix as (x' & i & X1 & X2). exists x', i. split; [now right|auto]. }
    split. { exists (ko ++ no). rewrite H4, K4, app_assoc. split; auto. intros f. rewrite in_app_iff, K4', H4'. split.
      - intros [X|(x & X1 & X2)]; [exists e; split; [now left|exact X]|]. exists x. split; [now right|exact X2].
      - intros (x & [<-|X1] & X2); auto. right. eauto. }
    intros x i [<-|Ix] D X.
    + specialize (K5 i D X). destruct (looks_like_valid_inode i); auto.
    + now apply H5.
Qed.

(** The state of the walk, [done] being the directories looked at so far. *)
Variable root : str.
Notation visited := (visited readdir stat want_dir root).
Record walk_inv (done : list str) (w : wstate) : Prop := {
  wi_root : In root (done ++ ws_work w);
  wi_visited : forall d, In d (done ++ ws_work w) -> visited d;
  wi_dirs : forall d e i, In d done -> dir_entry d e i ->
    if looks_like_valid_inode i then In i (ws_seen w) else want_dir (path_at d e) = true -> In (fp_path (path_at d e)) (done ++ ws_work w);
  wi_seen : forall i, In i (ws_seen w) -> looks_like_valid_inode i = true /\
    exists d e, In d done /\ dir_entry d e i /\ (want_dir (path_at d e) = true -> In (fp_path (path_at d e)) (done ++ ws_work w));
  wi_files : forall f, In f (ws_out w) <-> exists d e, In d done /\ file_entry d e /\ want_file f = true /\ f = path_at d e
}.
Lemma entry_in d l e : readdir d = Some l -> (entry d e <-> In e l /\ is_dot e = false).
Proof.
  intros E. unfold S_Walk.entry. rewrite is_dot_spec. split.
  - intros ((l' & E' & I) & N). assert (l' = l) as -> by congruence. auto.
  - intros (I & N). split; auto. eauto.
Qed.
Lemma walk_inv_step done cur work seen out : walk_inv done (mkWalk seen (cur :: work) out) ->
  walk_inv (done ++ [cur]) (match readdir cur with None => mkWalk seen work out | Some l => fold_left (scan cur) l (mkWalk seen work out) end).
Proof.
  intros [R V D S F]. cbn [ws_seen ws_work ws_out] in *.
  assert (Mv : forall x, In x (done ++ cur :: work) <-> In x ((done ++ [cur]) ++ work)) by (intros x; now rewrite <- app_assoc).
  assert (Vc : visited cur) by (apply V, in_or_app; right; now left).
  destruct (readdir cur) as [l|] eqn:E.
  - remember (fold_left (scan cur) l (mkWalk seen work out)) as w' eqn:Ew. symmetry in Ew. apply scan_spec in Ew as (H1 & H2 & (nw & H3 & H3') & (no & H4 & H4') & H5). cbn [ws_seen ws_work ws_out] in *.
    assert (In1 : forall x, In x (done ++ cur :: work) -> In x ((done ++ [cur]) ++ ws_work w')).
    { intros x Ix. rewrite H3, <- app_assoc. cbn [app]. rewrite !in_app_iff in *. cbn [In] in *. rewrite in_app_iff. tauto. }
    constructor.
    + auto.
    + intros x Ix. rewrite H3, app_assoc, in_app_iff in Ix. destruct Ix as [Ix|Ix]; [apply V; now apply Mv|].
      apply H3' in Ix as (e & i & I1 & I2 & I3 & I4 & ->). assert (En : entry cur e) by (apply (entry_in cur l); auto). apply V_sub with i; auto. now apply entry_dir_true.
    + intros d e i Id De. apply in_app_or in Id as [Id|[<-|[]]].
      * specialize (D d e i Id De). destruct (looks_like_valid_inode i); auto.
      * pose proof (proj1 De) as En. pose proof (proj1 (entry_in cur l e E) En) as (I1 & I2). apply entry_dir_true in De; auto. specialize (H5 e i I1 I2 De).
        destruct (looks_like_valid_inode i); auto. intros W. apply in_or_app. right. auto.
    + intros i Ii. apply H2 in Ii as [Ii|(e & I1 & I2 & I3 & I4 & I5)].
      * destruct (S i Ii) as (Va & d & e & Id & De & W). split; auto. exists d, e. split; [apply in_or_app; auto|]. split; auto.
      * split; auto. exists cur, e. split; [apply in_or_app; right; now left|]. split; [apply entry_dir_true; auto; apply (entry_in cur l); auto|]. intros W. apply in_or_app. right. auto.
    + intros f. rewrite H4, in_app_iff, F, H4'. split.
      * intros [(d & e & Id & X)|(e & I1 & I2 & I3 & I4 & ->)].
        -- exists d, e. split; [apply in_or_app; auto|auto].
        -- exists cur, e. split; [apply in_or_app; right; now left|]. split; auto. apply entry_dir_false; auto. apply (entry_in cur l); auto.
      * intros (d & e & Id & X1 & X2 & ->). apply in_app_or in Id as [Id|[<-|[]]].
        -- left. exists d, e. auto.
        -- right. exists e. pose proof (proj1 X1) as En. pose proof (proj1 (entry_in cur l e E) En) as (I1 & I2). do 2 (split; [auto|]). split; [now apply entry_dir_false|auto].
  - assert (Ne : forall e, ~ entry cur e) by (intros e ((l & X & _) & _); congruence). constructor; cbn [ws_seen ws_work ws_out].
    + now apply Mv.
    + intros x Ix. apply V. now apply Mv.
    + intros d e i Id De. apply in_app_or in Id as [Id|[<-|[]]]; [|destruct (Ne e (proj1 De))]. specialize (D d e i Id De). destruct (looks_like_valid_inode i); auto. intros W. apply Mv. auto.
    + intros i Ii. destruct (S i Ii) as (Va & d & e & Id & De & W). split; auto. exists d, e. split; [apply in_or_app; auto|]. split; auto. intros Wd. apply Mv. auto.
    + intros f. rewrite F. split.
      * intros (d & e & Id & X). exists d, e. split; [apply in_or_app; auto|auto].
      * intros (d & e & Id & X). apply in_app_or in Id as [Id|[<-|[]]]; [exists d, e; auto|]. destruct X as (X & _). destruct (Ne e (proj1 X)).
Qed.
Lemma walk_loop_inv fuel : forall done w out, walk_inv done w -> walk_loop fuel w = Ret out -> exists done' seen, walk_inv done' (mkWalk seen [] out).
Proof.
  induction fuel as [|fuel IH]; intros done [seen work o] out I H; cbn [M_Walk.walk_loop ws_seen ws_work ws_out] in H; destruct work as [|cur work]; try discriminate;
    try (injection H as <-; eauto; fail).
  apply walk_inv_step in I. destruct (readdir cur) as [l|]; eapply IH; eauto.
Qed.
Lemma walk_init : walk_inv [] (mkWalk [] [root] []).
Proof.
  constructor; cbn.
  - auto.
  - intros d [<-|[]]. constructor.
  - intros d e i [].
  - intros i [].
  - intros f. split; [intros []|intros (d & e & [] & _)].
Qed.
Theorem collect_inv fuel out : collect_files_recursive readdir stat want_dir want_file fuel root = Ret out -> exists done seen, walk_inv done (mkWalk seen [] out).
Proof. intros H. exact (walk_loop_inv _ [] _ _ walk_init H). Qed.

Theorem collect_sound fuel out : collect_files_recursive readdir stat want_dir want_file fuel root = Ret out ->
  forall f, In f out -> exists d e, visited d /\ file_entry d e /\ want_file f = true /\ f = path_at d e.
Proof.
  intros H f I. apply collect_inv in H as (done & seen & W). apply (wi_files _ _ W) in I as (d & e & Id & X). exists d, e. split; auto. apply (wi_visited _ _ W), in_or_app. auto.
Qed.
Theorem collect_complete fuel out : one_path_each readdir stat want_dir root -> collect_files_recursive readdir stat want_dir want_file fuel root = Ret out ->
  forall d e, visited d -> file_entry d e -> want_file (path_at d e) = true -> In (path_at d e) out.
Proof.
  intros U H d e V Fe Wf. apply collect_inv in H as (done & seen & W). apply (wi_files _ _ W). exists d, e. split; auto. clear Fe Wf e.
  induction V as [|d e i V IH De Wd].
  - pose proof (wi_root _ _ W) as R. now rewrite app_nil_r in R.
  - pose proof (wi_dirs _ _ W d e i IH De) as X. cbn [ws_seen ws_work] in X. rewrite app_nil_r in X. destruct (looks_like_valid_inode i) eqn:Va; auto.
    apply (wi_seen _ _ W) in X as (_ & d0 & e0 & I0 & De0 & W0). cbn [ws_work] in W0. rewrite app_nil_r in W0.
    assert (E : path_at d e = path_at d0 e0).
    { apply (U d e d0 e0 i); auto; [apply (wi_visited _ _ W), in_or_app; auto|now apply valid_inode]. }
    rewrite E in *. auto.
Qed.
Theorem collect_links fuel out : (forall f, want_dir f = true) -> (forall c e i, dir_entry c e i -> real_inode i) -> same_content readdir stat ->
  collect_files_recursive readdir stat want_dir want_file fuel root = Ret out ->
  forall d e, visited d -> file_entry d e ->
  exists d', same_dir readdir stat want_dir root d d' /\ file_entry d' e /\ (want_file (path_at d' e) = true -> In (path_at d' e) out).
Proof.
  intros All Real Same H d e V Fe. apply collect_inv in H as (done & seen & W).
  assert (K : exists d', In d' done /\ same_dir readdir stat want_dir root d d').
  { clear e Fe. induction V as [|d e i V IH De Wd].
    - exists root. split; [|now left]. pose proof (wi_root _ _ W) as R. now rewrite app_nil_r in R.
    - destruct IH as (d' & Id & S). assert (De' : dir_entry d' e i).
      { destruct S as [<-|(c & x & c' & x' & j & V1 & V2 & D1 & D2 & -> & ->)]; auto. now apply (Same c x c' x' j D1 D2). }
      pose proof (wi_dirs _ _ W d' e i Id De') as X. cbn [ws_seen ws_work] in X. destruct (looks_like_valid_inode i) eqn:Va.
      + apply (wi_seen _ _ W) in X as (_ & d0 & e0 & I0 & De0 & W0). cbn [ws_work] in W0. rewrite app_nil_r in W0. exists (fp_path (path_at d0 e0)). split; [now apply W0|].
        right. exists d, e, d0, e0, i. do 1 (split; [auto|]). split; [apply (wi_visited _ _ W), in_or_app; auto|]. auto.
      + apply Real, valid_inode in De. congruence. }
  destruct K as (d' & Id & S). exists d'. split; auto. assert (Fe' : file_entry d' e).
  { destruct S as [<-|(c & x & c' & x' & j & V1 & V2 & D1 & D2 & -> & ->)]; auto. now apply (Same c x c' x' j D1 D2). }
  split; auto. intros Wf. apply (wi_files _ _ W). exists d', e. auto.
Qed.
End Collect.
End Walk.
