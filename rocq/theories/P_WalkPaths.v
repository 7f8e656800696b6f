(** Proofs about walks: paths, termination, and the uses of walks. *)
From Coq Require Import NArith.
From Verif Require Import Base OMap M_Types M_Ast M_Workspace M_Glob S_Glob P_Glob M_Walk S_Walk P_Walk.

Local Notation slash := "/"%char.
Notation no_end d := (strip_back slash d = d).

(** * Paths *)
Lemma path_at_path d e : fp_path (path_at d e) = strip_back slash d ++ slash :: d_name e.
Proof. unfold path_at, fs_path. destruct (d_type e); reflexivity. Qed.
Lemma path_at_filename d e : filename (path_at d e) = d_name e.
Proof.
  unfold filename. assert (E : fp_name_at (path_at d e) = Some (length (strip_back slash d) + 1)) by (unfold path_at; destruct (d_type e); reflexivity).
  rewrite E, path_at_path, skipn_app. replace (length (strip_back slash d) + 1 - length (strip_back slash d)) with 1 by lia.
  rewrite skipn_all2 by lia. reflexivity.
Qed.
Lemma filename_path s : filename (path_of s) = fs_filename s.
Proof. reflexivity. Qed.
Lemma strip_idem d : no_end (strip_back slash d).
Proof. apply strip_back_id. apply strip_back_notail. Qed.
Lemma name_end p n : n <> [] -> ~ In slash n -> no_end (p ++ slash :: n).
Proof.
  intros N S. apply strip_back_id. intros r E. destruct (exists_last N) as (m & c & ->).
  change (p ++ slash :: m ++ [c]) with (p ++ (slash :: m) ++ [c]) in E. rewrite app_assoc in E. apply app_inj_tail in E as (_ & ->). apply S, in_or_app. right. now left.
Qed.
Lemma last_slash a b a' b' : ~ In slash b -> ~ In slash b' -> a ++ slash :: b = a' ++ slash :: b' -> a = a' /\ b = b'.
Proof.
  intros N N' E. pose proof (find_last_app slash a b N) as F. pose proof (find_last_app slash a' b' N') as F'. rewrite E, F' in F. injection F as F.
  assert (X : a = a').
  { rewrite <- (firstn_all a), <- (firstn_all a'), F. transitivity (firstn (length a) (a ++ slash :: b)); [now rewrite firstn_app, firstn_all, Nat.sub_diag, app_nil_r|].
    rewrite E, <- F. now rewrite firstn_app, firstn_all, Nat.sub_diag, app_nil_r. }
  subst a'. apply app_inv_head in E. split; congruence.
Qed.

Section Paths.
Variable readdir : str -> option (list dirent).
Variable stat : str -> option (N * bool).
Hypothesis proper : proper_names readdir.
Notation entry := (entry readdir).
Notation dir_entry := (dir_entry readdir stat).
Notation file_entry := (file_entry readdir stat).
Notation visited := (visited readdir stat).
Notation below := (below readdir stat).
Lemma entry_name d e : entry d e -> d_name e <> [] /\ ~ In slash (d_name e).
Proof. intros ((l & R & I) & _). now apply (proper d l). Qed.
Lemma dir_name d e i : dir_entry d e i -> d_name e <> [] /\ ~ In slash (d_name e).
Proof. intros (E & _). now apply entry_name in E. Qed.

(** Directories below the start. *)
Lemma visited_path want root d : visited want root d -> d = root \/ no_end d /\ exists r, d = strip_back slash root ++ slash :: r.
Proof.
  induction 1 as [|d e i V IH De W]; auto. right. rewrite path_at_path. destruct (dir_name _ _ _ De) as (N1 & N2). split; [now apply name_end|].
  destruct IH as [->|(Ne & r & ->)]; eauto. rewrite Ne, <- app_assoc. cbn [app]. eauto.
Qed.
Lemma visited_mono want want' root d : (forall f, want f = true -> want' f = true) -> visited want root d -> visited want' root d.
Proof. intros H. induction 1; [constructor|econstructor; eauto]. Qed.

(** * Termination *)
Section Ends.
Variable want_dir want_file : fpath -> bool.
Notation walk_loop := (walk_loop readdir stat want_dir want_file).
Notation scan := (scan_entry stat want_dir want_file).
Lemma scan_work cur l w : exists new, ws_work (fold_left (scan cur) l w) = ws_work w ++ new /\ forall x, In x new -> exists e, In e l /\ x = fp_path (path_at cur e).
Proof.
  destruct (scan_spec stat want_dir want_file cur l w _ eq_refl) as (_ & _ & (new & E & H) & _). exists new. split; auto.
  intros x I. apply H in I as (e & i & I1 & _ & _ & _ & ->). eauto.
Qed.
(** All directories of a level are looked at before those of the next. *)
Definition children (work new : list str) : Prop := forall x, In x new -> exists d e l, In d work /\ readdir d = Some l /\ In e l /\ x = fp_path (path_at d e).
Lemma walk_level_next work : forall next seen out,
  exists seen' out' new, (forall fuel, walk_loop (length work + fuel) (mkWalk seen (work ++ next) out) = walk_loop fuel (mkWalk seen' (next ++ new) out')) /\ children work new.
Proof.
  induction work as [|cur work IH]; intros next seen out.
  - exists seen, out, []. rewrite app_nil_r. split; auto. intros x [].
  - cbn [length plus app M_Walk.walk_loop ws_work ws_seen ws_out]. destruct (readdir cur) as [l|] eqn:R.
    + destruct (scan_work cur l (mkWalk seen (work ++ next) out)) as (n1 & E1 & H1). remember (fold_left (scan cur) l (mkWalk seen (work ++ next) out)) as w1 eqn:Ew.
      destruct w1 as [s1 k1 o1]. cbn [ws_work] in E1. subst k1. rewrite <- app_assoc.
      destruct (IH (next ++ n1) s1 o1) as (s2 & o2 & n2 & E2 & H2). exists s2, o2, (n1 ++ n2). split; [intros fuel; now rewrite E2, <- app_assoc|].
      intros x I. apply in_app_or in I as [I|I].
      * apply H1 in I as (e & I & ->). exists cur, e, l. split; [now left|]. auto.
      * apply H2 in I as (d & e & l' & I & X). exists d, e, l'. split; [now right|]. auto.
    + destruct (IH next seen out) as (s2 & o2 & n2 & E2 & H2). exists s2, o2, n2. split; auto.
      intros x I. apply H2 in I as (d & e & l' & J & X). exists d, e, l'. split; [now right|]. auto.
Qed.
Lemma walk_level work seen out : exists seen' out' new, (forall fuel, walk_loop (length work + fuel) (mkWalk seen work out) = walk_loop fuel (mkWalk seen' new out')) /\ children work new.
Proof. destruct (walk_level_next work [] seen out) as (s & o & n & E & H). rewrite app_nil_r in E. exists s, o, n. auto. Qed.
Lemma children_end work new : children work new -> forall x, In x new -> no_end x.
Proof. intros H x I. apply H in I as (d & e & l & Id & R & Ie & ->). rewrite path_at_path. destruct (proper d l R) as (_ & P). destruct (P e Ie) as (N1 & N2). now apply name_end. Qed.
Lemma ends_by_length (K : nat) : (forall p, K < length p -> readdir p = None) ->
  forall m work, (forall d, In d work -> K < length d + m) -> (forall d, In d work -> no_end d) ->
  forall seen out, exists fuel res, walk_loop fuel (mkWalk seen work out) = Ret res.
Proof.
  intros HK. induction m as [|m IH]; intros work L Ne seen out; destruct (walk_level work seen out) as (s1 & o1 & new & E & H).
  - exists (length work + 0), o1. rewrite E.
    destruct new as [|x new]; [reflexivity|]. destruct (H x (or_introl eq_refl)) as (d & e & l & Id & R & _). rewrite HK in R; [discriminate|]. specialize (L d Id). lia.
  - destruct (IH new) with (seen := s1) (out := o1) as (fuel & res & F).
    + intros x I. apply H in I as (d & e & l & Id & R & Ie & ->). rewrite path_at_path, (Ne d Id), app_length. specialize (L d Id). destruct (proper d l R) as (_ & P). destruct (P e Ie) as (N1 & _).
      destruct (d_name e); [congruence|]. cbn [length]. lia.
    + apply (children_end _ _ H).
    + exists (length work + fuel), res. now rewrite E.
Qed.
Theorem collect_ends (K : nat) root : (forall p, K < length p -> readdir p = None) ->
  exists fuel res, collect_files_recursive readdir stat want_dir want_file fuel root = Ret res.
Proof.
  intros HK. destruct (walk_level [root] [] []) as (s1 & o1 & new & E & H).
  destruct (ends_by_length K HK (S K) new) with (seen := s1) (out := o1) as (fuel & res & F); [intros; lia|apply (children_end _ _ H)|].
  exists (length [root] + fuel), res. unfold collect_files_recursive. now rewrite E.
Qed.
Lemma walk_loop_S fuel w : walk_loop (S fuel) w = match ws_work w with [] => Ret (ws_out w) | cur :: work =>
  walk_loop fuel (match readdir cur with None => mkWalk (ws_seen w) work (ws_out w) | Some l => fold_left (scan cur) l (mkWalk (ws_seen w) work (ws_out w)) end) end.
Proof. cbn [M_Walk.walk_loop]. destruct (ws_work w) as [|cur work]; auto. destruct (readdir cur); reflexivity. Qed.
Lemma walk_fuel_more fuel : forall fuel' w res, fuel <= fuel' -> walk_loop fuel w = Ret res -> walk_loop fuel' w = Ret res.
Proof.
  induction fuel as [|fuel IH]; intros fuel' w res L H.
  - cbn [M_Walk.walk_loop] in H. destruct (ws_work w) eqn:E; [|discriminate]. destruct fuel'; cbn [M_Walk.walk_loop]; now rewrite E.
  - destruct fuel' as [|fuel']; [lia|]. rewrite walk_loop_S in *. destruct (ws_work w) as [|cur work]; auto. apply IH; auto. lia.
Qed.
Theorem collect_fuel root fuel fuel' res res' : collect_files_recursive readdir stat want_dir want_file fuel root = Ret res ->
  collect_files_recursive readdir stat want_dir want_file fuel' root = Ret res' -> res = res'.
Proof.
  unfold collect_files_recursive. intros H H'. apply (walk_fuel_more _ (Nat.max fuel fuel')) in H; [|lia]. apply (walk_fuel_more _ (Nat.max fuel fuel')) in H'; [|lia]. congruence.
Qed.
(** With real inodes each directory is looked at once, but for the start. *)
Lemma scan_pending cur l : forall w, NoDup (ws_seen w) -> (forall e i, In e l -> is_dot e = false -> entry_dir stat cur e = (true, i) -> looks_like_valid_inode i = true) ->
  NoDup (ws_seen (fold_left (scan cur) l w)) /\ length (ws_work (fold_left (scan cur) l w)) + length (ws_seen w) <= length (ws_work w) + length (ws_seen (fold_left (scan cur) l w)).
Proof.
  induction l as [|e l IH]; intros w N V; [cbn; split; auto; lia|]. cbn [fold_left].
  assert (K : NoDup (ws_seen (scan cur w e)) /\ length (ws_work (scan cur w e)) + length (ws_seen w) <= length (ws_work w) + length (ws_seen (scan cur w e))).
  { unfold scan_entry. destruct (is_dot e) eqn:D; [split; auto; lia|]. destruct (entry_dir stat cur e) as [[|] i] eqn:Ed.
    - rewrite (V e i (or_introl eq_refl) D Ed). cbn [andb]. destruct (existsb (N.eqb i) (ws_seen w)) eqn:X; [split; auto; lia|]. cbn [ws_seen ws_work]. split.
      + constructor; auto. intros I. rewrite <- not_true_iff_false in X. apply X, existsb_exists. exists i. split; auto. apply N.eqb_refl.
      + destruct (want_dir _); [rewrite app_length|]; cbn [length]; lia.
    - destruct (want_file _); cbn [ws_seen ws_work]; split; auto; lia. }
  destruct K as (K1 & K2). destruct (IH (scan cur w e) K1) as (H1 & H2). { intros x i I. apply V. now right. } split; auto. lia.
Qed.
Theorem collect_ends_inodes (root : str) (inodes : list N) :
  (forall d e i, visited want_dir root d -> dir_entry d e i -> real_inode i /\ In i inodes) ->
  exists res, collect_files_recursive readdir stat want_dir want_file (S (length inodes)) root = Ret res.
Proof.
  intros HI. unfold collect_files_recursive.
  assert (G : forall fuel done w, walk_inv readdir stat want_dir want_file root done w -> NoDup (ws_seen w) -> length (ws_work w) + length inodes <= fuel + length (ws_seen w) -> exists res, walk_loop fuel w = Ret res).
  { induction fuel as [|fuel IH]; intros done [seen work out] Inv N L; cbn [ws_seen ws_work] in *; destruct work as [|cur work]; try (cbn; eauto; fail).
    - exfalso. assert (length seen <= length inodes); [|cbn [length] in L; lia]. apply NoDup_incl_length; auto. intros i Ii. destruct (wi_seen _ _ _ _ _ _ _ Inv i Ii) as (_ & d & e & Id & De & _).
      apply (HI d e i); auto. apply (wi_visited _ _ _ _ _ _ _ Inv), in_or_app. auto.
    - pose proof (walk_inv_step _ _ _ _ _ _ _ _ _ _ Inv) as Inv'. cbn [M_Walk.walk_loop ws_work ws_seen ws_out]. destruct (readdir cur) as [l|] eqn:R.
      + apply (IH (done ++ [cur])); auto.
        * apply (scan_pending cur l (mkWalk seen work out)); auto. intros e i Ie D Ed. apply valid_inode, (HI cur e i); [apply (wi_visited _ _ _ _ _ _ _ Inv), in_or_app; right; now left|].
          apply entry_dir_true; auto. now apply (entry_in readdir cur l).
        * destruct (scan_pending cur l (mkWalk seen work out)) as (_ & X); auto.
          { intros e i Ie D Ed. apply valid_inode, (HI cur e i); [apply (wi_visited _ _ _ _ _ _ _ Inv), in_or_app; right; now left|]. apply entry_dir_true; auto. now apply (entry_in readdir cur l). }
          cbn [ws_seen ws_work length] in *. lia.
      + apply (IH (done ++ [cur])); auto. cbn [ws_seen ws_work length] in *. lia. }
  apply (G _ [] _ (walk_init readdir stat want_dir want_file root)); cbn; [constructor|lia].
Qed.

(** * No path twice *)
Lemma scan_lists cur l : forall w, exists l1 l2,
  ws_work (fold_left (scan cur) l w) = ws_work w ++ map (fun e => fp_path (path_at cur e)) l1 /\
  ws_out (fold_left (scan cur) l w) = ws_out w ++ map (path_at cur) l2 /\ incl l1 l /\ incl l2 l /\ (NoDup (map d_name l) -> NoDup (map d_name l1) /\ NoDup (map d_name l2)).
Proof.
  induction l as [|e l IH]; intros w.
  - exists [], []. cbn. rewrite !app_nil_r. repeat split; auto; intros x [].
  - cbn [fold_left]. destruct (IH (scan cur w e)) as (l1 & l2 & E1 & E2 & I1 & I2 & N). clear IH.
    assert (Nt : NoDup (map d_name (e :: l)) -> ~ In (d_name e) (map d_name l1) /\ ~ In (d_name e) (map d_name l2) /\ NoDup (map d_name l1) /\ NoDup (map d_name l2)).
    { intros X. cbn [map] in X. inversion X; subst. destruct (N H2). split; [|split]; auto; intros I; apply H1; apply in_map_iff in I as (x & <- & I); apply in_map; auto. }
    assert (Cases : (exists b, ws_work (scan cur w e) = ws_work w ++ (if b : bool then [fp_path (path_at cur e)] else []) /\ ws_out (scan cur w e) = ws_out w) \/
                    (ws_work (scan cur w e) = ws_work w /\ ws_out (scan cur w e) = ws_out w ++ [path_at cur e])).
    { clear. unfold scan_entry. destruct (is_dot e); [left; exists false; rewrite app_nil_r; auto|]. destruct (entry_dir stat cur e) as [[|] i].
      - left. destruct (_ && _); [exists false; rewrite app_nil_r; auto|]. cbn [ws_work ws_out]. destruct (want_dir _); [exists true|exists false; rewrite app_nil_r]; auto.
      - destruct (want_file _); [right; auto|left; exists false; rewrite app_nil_r; auto]. }
    destruct Cases as [([|] & C1 & C2)|(C1 & C2)].
    + exists (e :: l1), l2. rewrite E1, E2, C1, C2, <- app_assoc. split; auto. split; auto. split; [intros x [<-|I]; [now left|right; auto]|]. split; [intros x I; right; auto|].
      intros X. destruct (Nt X) as (A & B & C & D). split; auto. cbn [map]. now constructor.
    + exists l1, l2. rewrite E1, E2, C1, C2, app_nil_r. split; auto. split; auto. split; [intros x I; right; auto|]. split; [intros x I; right; auto|].
      intros X. destruct (Nt X) as (A & B & C & D). auto.
    + exists l1, (e :: l2). rewrite E1, E2, C1, C2, <- app_assoc. split; auto. split; auto. split; [intros x I; right; auto|]. split; [intros x [<-|I]; [now left|right; auto]|].
      intros X. destruct (Nt X) as (A & B & C & D). split; auto. cbn [map]. now constructor.
Qed.
Section Once.
Variable root : str.
Record once_inv (done : list str) (w : wstate) : Prop := {
  oi_dirs : NoDup (done ++ ws_work w);
  oi_out : NoDup (map fp_path (ws_out w));
  oi_from : forall x, In x (done ++ ws_work w) -> x = root \/ exists d e, In d done /\ entry d e /\ x = fp_path (path_at d e);
  oi_out_from : forall f, In f (ws_out w) -> exists d e, In d done /\ entry d e /\ f = path_at d e;
  oi_paths : forall d, In d (done ++ ws_work w) -> d = root \/ no_end d /\ exists r, d = strip_back slash root ++ slash :: r
}.
Lemma path_inj d e d' e' : (d = root \/ no_end d /\ exists r, d = strip_back slash root ++ slash :: r) -> (d' = root \/ no_end d' /\ exists r, d' = strip_back slash root ++ slash :: r) ->
  ~ In slash (d_name e) -> ~ In slash (d_name e') -> fp_path (path_at d e) = fp_path (path_at d' e') -> d = d' /\ d_name e = d_name e'.
Proof.
  intros P P' N N' E. rewrite !path_at_path in E. apply last_slash in E as (E & En); auto. split; auto.
  destruct P as [->|(Ne & r & Er)], P' as [->|(Ne' & r' & Er')]; auto; try congruence.
  - rewrite Ne' in E. rewrite <- E in Er'. apply (f_equal (@length _)) in Er'. rewrite app_length in Er'. cbn [length] in Er'. lia.
  - rewrite Ne in E. rewrite E in Er. apply (f_equal (@length _)) in Er. rewrite app_length in Er. cbn [length] in Er. lia.
Qed.
Lemma NoDup_map_names (A : Type) (f : dirent -> A) l : (forall e e', In e l -> In e' l -> f e = f e' -> d_name e = d_name e') -> NoDup (map d_name l) -> NoDup (map f l).
Proof.
  induction l as [|e l IH]; intros H N; [constructor|]. cbn [map] in *. inversion N; subst. constructor.
  - intros I. apply in_map_iff in I as (x & E & I). apply H2. rewrite <- (H x e); [now apply in_map|now right|now left|auto].
  - apply IH; auto. intros x y Ix Iy. apply H; now right.
Qed.
Lemma NoDup_app_intro (A : Type) (a b : list A) : NoDup a -> NoDup b -> (forall x, In x a -> ~ In x b) -> NoDup (a ++ b).
Proof.
  induction a as [|x a IH]; intros Na Nb D; auto. inversion Na; subst. cbn [app]. constructor.
  - intros I. apply in_app_or in I as [I|I]; auto. apply (D x); [now left|auto].
  - apply IH; auto. intros y I. apply D. now right.
Qed.
Lemma once_step done cur work seen out : once_inv done (mkWalk seen (cur :: work) out) ->
  once_inv (done ++ [cur]) (match readdir cur with None => mkWalk seen work out | Some l => fold_left (scan cur) l (mkWalk seen work out) end).
Proof.
  intros [N No F Fo P]. cbn [ws_seen ws_work ws_out] in *.
  assert (Mv : (done ++ [cur]) ++ work = done ++ cur :: work) by (now rewrite <- app_assoc).
  assert (Weak : forall d, In d done -> In d (done ++ [cur])) by (intros; apply in_or_app; auto).
  assert (Nc : ~ In cur done) by (intros I; apply NoDup_remove_2 in N; apply N, in_or_app; auto).
  destruct (readdir cur) as [l|] eqn:R.
  - destruct (scan_lists cur l (mkWalk seen work out)) as (l1 & l2 & E1 & E2 & I1 & I2 & Nn). cbn [ws_work ws_out] in *.
    destruct (proper cur l R) as (Nl & Pl). destruct (Nn Nl) as (Nl1 & Nl2).
    assert (Pc : cur = root \/ no_end cur /\ exists r, cur = strip_back slash root ++ slash :: r) by (apply P, in_or_app; right; now left).
    assert (Dot1 : forall e, In e l1 -> ~ In slash (d_name e)) by (intros e I; apply Pl; auto).
    assert (Dot2 : forall e, In e l2 -> ~ In slash (d_name e)) by (intros e I; apply Pl; auto).
    destruct (scan_spec stat want_dir want_file cur l (mkWalk seen work out) _ eq_refl) as (_ & _ & (nw & W1 & W2) & (no & O1 & O2) & _). cbn [ws_work ws_out] in *.
    assert (nw = map (fun e => fp_path (path_at cur e)) l1) as -> by (rewrite E1 in W1; now apply app_inv_head in W1).
    assert (no = map (path_at cur) l2) as -> by (rewrite E2 in O1; now apply app_inv_head in O1).
    assert (Pn : forall x, In x (map (fun e => fp_path (path_at cur e)) l1) -> no_end x /\ exists r, x = strip_back slash root ++ slash :: r).
    { intros x I. apply in_map_iff in I as (e & <- & I). rewrite path_at_path. split; [apply name_end; auto; now apply Pl, I1|]. destruct Pc as [->|(Ne & r & Er)]; eauto.
      rewrite Ne, Er, <- app_assoc. cbn [app]. eauto. }
    constructor.
    + rewrite E1, app_assoc, Mv. apply NoDup_app_intro; auto.
      * apply NoDup_map_names; auto. intros e e' Ie Ie' X. apply (path_inj cur e cur e') in X as (_ & X); auto.
      * intros x Ix I. destruct (Pn x I) as (Ne & r & Er). apply in_map_iff in I as (e & <- & I). apply F in Ix as [Ix|(d & e' & Id & Ee & Ix)].
        -- rewrite Er in Ix. destruct (strip_back_repeat slash root) as (n & En). rewrite En in Ix at 2. apply app_inv_head in Ix. destruct n as [|n]; [discriminate|]. cbn [repeat] in Ix. injection Ix as Ix.
           rewrite path_at_path in Er. destruct (Pl e (I1 e I)) as (X1 & X2). rewrite Ix in Er. assert (Z : exists c, slash :: repeat slash n = c ++ [slash]).
           { exists (repeat slash n). clear. induction n as [|n IH]; auto. cbn [repeat app] in *. now rewrite <- IH. }
           destruct Z as (c & Z). rewrite Z, app_assoc in Er. destruct (exists_last X1) as (m & y & Ey). rewrite Ey in Er. change (slash :: m ++ [y]) with ((slash :: m) ++ [y]) in Er.
           rewrite app_assoc in Er. apply app_inj_tail in Er as (_ & ->). apply X2. rewrite Ey. apply in_or_app. right. now left.
        -- apply path_inj in Ix as (<- & _); auto.
           ++ apply P, in_or_app. auto.
           ++ apply entry_name in Ee. tauto.
    + rewrite E2, map_app, map_map. apply NoDup_app_intro; auto.
      * apply NoDup_map_names; auto. intros e e' Ie Ie' X. apply (path_inj cur e cur e') in X as (_ & X); auto.
      * intros x Ix I. apply in_map_iff in Ix as (f & <- & Ix). apply in_map_iff in I as (e & X & I). apply Fo in Ix as (d & e' & Id & Ee & ->). symmetry in X. apply path_inj in X as (-> & _); auto.
        -- apply P, in_or_app. auto.
        -- apply entry_name in Ee. tauto.
    + intros x I. rewrite E1, app_assoc, Mv in I. apply in_app_or in I as [I|I].
      * apply F in I as [->|(d & e & Id & Ee & ->)]; auto. right. exists d, e. auto.
      * right. apply W2 in I as (e & i & Ie & De & _ & _ & ->). exists cur, e. split; [apply in_or_app; right; now left|]. split; auto. now apply (entry_in readdir cur l).
    + intros f I. rewrite E2 in I. apply in_app_or in I as [I|I].
      * apply Fo in I as (d & e & Id & Ee & ->). exists d, e. auto.
      * apply O2 in I as (e & Ie & De & _ & _ & ->). exists cur, e. split; [apply in_or_app; right; now left|]. split; auto. now apply (entry_in readdir cur l).
    + intros d I. rewrite E1, app_assoc, Mv in I. apply in_app_or in I as [I|I]; [now apply P|]. right. now apply Pn.
  - constructor; cbn [ws_work ws_out]; rewrite ?Mv; auto.
    + intros x I. destruct (F x I) as [->|(d & e & Id & X)]; auto. right. exists d, e. split; auto.
    + intros f I. destruct (Fo f I) as (d & e & Id & X). exists d, e. split; auto.
Qed.
Theorem collect_once fuel out : collect_files_recursive readdir stat want_dir want_file fuel root = Ret out -> NoDup (map fp_path out).
Proof.
  unfold collect_files_recursive. assert (I : once_inv [] (mkWalk [] [root] [])).
  { constructor; cbn; auto.
    - repeat constructor. intros [].
    - constructor.
    - intros x [<-|[]]. auto.
    - intros f [].
    - intros d [<-|[]]. auto. }
  revert I. generalize (mkWalk [] [root] []) as w. generalize (@nil str) as done. induction fuel as [|fuel IH]; intros done [seen work o] I H; cbn [M_Walk.walk_loop ws_seen ws_work ws_out] in H; destruct work as [|cur work]; try discriminate;
    try (injection H as <-; exact (oi_out _ _ I)).
  apply once_step in I. destruct (readdir cur) as [l|]; eapply IH; eauto.
Qed.
End Once.
End Ends.
End Paths.
