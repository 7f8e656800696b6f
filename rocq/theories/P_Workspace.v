(** Proofs for C28, C48 and C53. *)
From Verif Require Import Base OMap M_Types S_Labels P_Types M_Scanner M_Ast M_Parser M_Query M_Workspace M_Project M_DepGraph
  S_DepGraph P_DepGraph S_Workspace.

(** * Looking up projects *)
Lemma vp_not_lt name v : ~ klt (name, v) ((name, []) : vproject).
Proof. unfold klt. cbn. unfold pcmp. cbn [fst snd]. rewrite kcmp_refl. destruct v; discriminate. Qed.
Lemma lower_bound_hd (w : workspace) k vp d : msorted w -> In (vp, d) w -> ~ klt vp k ->
  exists vp0 d0 r, snd (lower_bound k w) = (vp0, d0) :: r /\ (vp0 = vp \/ klt vp0 vp).
Proof.
  intros S I N. rewrite <- (lower_bound_app k w) in I. apply in_app_iff in I as [I|I].
  - apply lower_bound_before in I. contradiction.
  - assert (Ss : msorted (snd (lower_bound k w))).
    { rewrite <- (lower_bound_app k w) in S. revert S. generalize (fst (lower_bound k w)) (snd (lower_bound k w)).
      unfold msorted, keys. intros a b. induction a as [|x a IH]; cbn; [auto|]. intros [_ S]. auto. }
    destruct (snd (lower_bound k w)) as [|[vp0 d0] r]; [destruct I|]. exists vp0, d0, r. split; [reflexivity|].
    destruct I as [I|I]; [left; congruence|right].
    unfold msorted in Ss. cbn in Ss. destruct Ss as [F _]. rewrite Forall_forall in F. apply F.
    apply in_map_iff. exists (vp, d). auto.
Qed.
Definition from_project (n : str) (w : workspace) : workspace := snd (lower_bound ((n, []) : vproject) w).
Lemma find_entry_eq c r w : find_entry_by_project w (c :: r) =
  match from_project (bare (c :: r)) w with
  | [] => None
  | (vp, p) :: _ => if negb (str_eqb (fst vp) (bare (c :: r))) then None else Some (vp, p)
  end.
Proof. reflexivity. Qed.
Lemma from_project_hd (w : workspace) n v d : msorted w -> In ((n, v), d) w ->
  exists vp0 d0 r, from_project n w = (vp0, d0) :: r /\ (vp0 = (n, v) \/ klt vp0 ((n, v) : vproject)).
Proof. intros S I. apply (lower_bound_hd w (n, []) (n, v) d S I). apply vp_not_lt. Qed.
Lemma from_project_in (w : workspace) n x : In x (from_project n w) -> In x w.
Proof. intros I. rewrite <- (lower_bound_app ((n, []) : vproject) w). apply in_app_iff. right. exact I. Qed.
Lemma vp_lt a v b u : klt ((a, v) : vproject) ((b, u) : vproject) <-> klt a b \/ a = b /\ klt v u.
Proof.
  unfold klt at 1. change (kcmp ((a, v) : vproject) ((b, u) : vproject)) with
    (match kcmp a b with Eq => kcmp v u | c => c end).
  destruct (kcmp a b) eqn:C.
  - apply kcmp_eq in C. subst. split; [right; auto|]. intros [L|[_ L]]; [exfalso; exact (klt_irrefl _ L)|exact L].
  - split; [left; exact C|reflexivity].
  - split; [discriminate|]. apply kcmp_gt in C. intros [L|[-> _]]; exfalso; [exact (klt_asym _ _ C L)|exact (klt_irrefl _ C)].
Qed.
Theorem find_entry_spec w name : msorted w -> name <> [] -> forall vp d,
  find_entry_by_project w name = Some (vp, d) <-> first_version w (bare name) vp d.
Proof.
  intros S N vp d. destruct name as [|c r]; [contradiction|]. rewrite find_entry_eq.
  remember (bare (c :: r)) as n eqn:En. clear En N c r. split.
  - destruct (from_project n w) as [|[vp0 d0] rest] eqn:L; [discriminate|].
    destruct (str_eqb_spec (fst vp0) n) as [e|ne]; cbn [negb]; [|discriminate].
    intros E; inversion E; subst vp0 d0; clear E. split; [|split; [exact e|]].
    + apply (from_project_in w n). rewrite L. left. reflexivity.
    + intros v d' I. destruct (from_project_hd w n v d' S I) as (vp1 & d1 & r1 & L1 & O).
      rewrite L in L1. injection L1 as <- <- <-. destruct vp as [pn v0]. cbn [fst snd] in *. subst pn.
      destruct O as [O|O]; [left; congruence|]. apply vp_lt in O as [O|[_ O]]; [|right; exact O].
      exfalso. exact (klt_irrefl _ O).
  - intros (I & Fn & Min). destruct vp as [pn v]. cbn [fst snd] in *. subst pn.
    destruct (from_project_hd w n v d S I) as ([pn v1] & d1 & r1 & L1 & O). rewrite L1.
    assert (I1 : In ((pn, v1), d1) w) by (apply (from_project_in w n); rewrite L1; left; reflexivity).
    assert (N1 : ~ klt ((pn, v1) : vproject) (n, [])).
    { apply (lower_bound_after ((n, []) : vproject) w (pn, v1) d1 S). unfold from_project in L1. rewrite L1. left. reflexivity. }
    assert (Pn : pn = n).
    { destruct O as [O|O]; [congruence|]. apply vp_lt in O as [O|[O _]]; [|exact O].
      exfalso. apply N1. apply vp_lt. left. exact O. }
    subst pn. cbn [fst]. rewrite str_eqb_refl. cbn [negb].
    assert (v1 = v).
    { destruct O as [O|O]; [congruence|]. apply vp_lt in O as [O|[_ O]]; [exfalso; exact (klt_irrefl _ O)|].
      destruct (Min v1 d1 I1) as [e|L]; [congruence|]. exfalso. exact (klt_asym _ _ O L). }
    subst v1. f_equal. f_equal.
    apply msorted_find in I; [|exact S]. apply msorted_find in I1; [|exact S].
    apply some_inj. exact (eq_trans (eq_sym I1) I).
Qed.
Lemma smallest_version (w : workspace) n : (exists v d, In ((n, v), d) w) ->
  exists vp d, first_version w n vp d.
Proof.
  assert (H : forall m : workspace, (exists v d, In ((n, v), d) m) ->
    exists v d, In ((n, v), d) m /\ forall v' d', In ((n, v'), d') m -> not_later v v').
  { induction m as [|[[pn v] d] m IH]; intros (v0 & d0 & I); [destruct I|].
    destruct (str_eqb_spec pn n) as [->|N].
    - destruct (existsb (fun x => str_eqb (fst (fst x)) n) m) eqn:Ex.
      + apply existsb_exists in Ex as ([[pn v1] d1] & I1 & e). cbn in e. apply str_eqb_eq in e. subst pn.
        destruct IH as (v2 & d2 & I2 & M2); [eauto|]. destruct (klt_total v v2) as [L|[->|L]].
        * exists v, d. split; [left; reflexivity|]. intros v' d' [E|I']; [inversion E; left; reflexivity|].
          destruct (M2 _ _ I') as [->|L']; [right; exact L|right; eapply klt_trans; eauto].
        * exists v2, d. split; [left; reflexivity|]. intros v' d' [E|I']; [inversion E; left; reflexivity|eauto].
        * exists v2, d2. split; [right; exact I2|]. intros v' d' [E|I']; [inversion E; subst; right; exact L|eauto].
      + exists v, d. split; [left; reflexivity|]. intros v' d' [E|I']; [inversion E; left; reflexivity|].
        exfalso. assert (X : existsb (fun x : vproject * str => str_eqb (fst (fst x)) n) m = true).
        { apply existsb_exists. exists ((n, v'), d'). split; [exact I'|]. apply str_eqb_refl. }
        discriminate (eq_trans (eq_sym Ex) X).
    - destruct IH as (v2 & d2 & I2 & M2).
      { destruct I as [E|I]; [inversion E; congruence|eauto]. }
      exists v2, d2. split; [right; exact I2|]. intros v' d' [E|I']; [inversion E; congruence|eauto]. }
  intros Ex. destruct (H w Ex) as (v & d & I & M). exists (n, v), d. split; [exact I|]. split; [reflexivity|exact M].
Qed.
Theorem find_none_spec w name : msorted w -> name <> [] ->
  (find_path_by_project w name = None <-> forall v d, ~ In ((bare name, v), d) w).
Proof.
  intros S N. unfold find_path_by_project. destruct (find_entry_by_project w name) as [[vp d]|] eqn:E; cbn [option_map].
  - split; [discriminate|]. intros H. apply find_entry_spec in E; [|assumption..].
    destruct E as (I & Fn & _). destruct vp as [pn v]. cbn in Fn. subst pn. exfalso. exact (H v d I).
  - split; [|reflexivity]. intros _ v d I.
    destruct (smallest_version w (bare name)) as (vp & d' & F); [eauto|].
    apply find_entry_spec in F; [congruence|assumption..].
Qed.
Theorem at_irrelevant w name : name <> [] -> (forall r, name <> "@"%char :: r) ->
  find_entry_by_project w ("@"%char :: name) = find_entry_by_project w name.
Proof.
  destruct name as [|c r]; [contradiction|]. intros _ H. cbn [find_entry_by_project].
  destruct (ceqb_spec c "@") as [->|N]; [exfalso; exact (H r eq_refl)|]. reflexivity.
Qed.

(** * Adding the projects of a directory *)
Section Augment.
Variable is_directory : str -> bool.
Variable glob : str -> list str.

Lemma map_set_sorted (m : workspace) k d : msorted m -> msorted (map_set k d m).
Proof. unfold map_set. apply map_update_sorted. Qed.
Lemma map_set_in (m : workspace) k d k' d' : msorted m ->
  In (k', d') (map_set k d m) <-> (k' = k /\ d' = d) \/ (k' <> k /\ In (k', d') m).
Proof.
  intros S. split.
  - intros I. apply msorted_find in I; [|apply map_set_sorted; exact S]. rewrite map_set_find in I by exact S.
    destruct (keqb_spec k' k) as [->|N]; [left; inversion I; auto|right; split; [exact N|apply map_find_in; exact I]].
  - intros H. apply map_find_in. rewrite map_set_find by exact S. destruct H as [[-> ->]|[N I]].
    + rewrite keqb_refl. reflexivity.
    + apply keqb_neq in N. rewrite N. apply msorted_find; assumption.
Qed.
(** A project [n] is known. *)
Definition known (w : workspace) (n : str) : Prop := exists v d, In ((n, v), d) w.
Lemma from_dir_nonempty dir vp : vproject_from_dir dir = Some vp -> fst vp <> [].
Proof.
  unfold vproject_from_dir. destruct dir as [|c r]; [discriminate|]. cbn [is_nil].
  destruct (find_first "~" (c :: r)) as [[|i]|]; intros E; inversion E; discriminate.
Qed.
Lemma augment_step_spec w dir : msorted w ->
  msorted (augment_step is_directory w dir) /\
  (forall n, (forall r, n <> "@"%char :: r) -> known w n -> forall v d,
     In ((n, v), d) (augment_step is_directory w dir) <-> In ((n, v), d) w) /\
  (forall vp d, In (vp, d) (augment_step is_directory w dir) ->
     In (vp, d) w \/ d = dir /\ is_directory dir = true /\ vproject_from_dir (fs_filename dir) = Some vp) /\
  (forall n, known w n -> known (augment_step is_directory w dir) n) /\
  (is_directory dir = true -> forall vp, vproject_from_dir (fs_filename dir) = Some vp ->
     (forall r, fst vp <> "@"%char :: r) -> known (augment_step is_directory w dir) (fst vp)).
Proof.
  intros S. unfold augment_step. destruct (is_directory dir) eqn:D; cbn [negb].
  2:{ split; [exact S|]. split; [tauto|]. split; [auto|]. split; [auto|discriminate]. }
  destruct (vproject_from_dir (fs_filename dir)) as [vp|] eqn:V.
  2:{ split; [exact S|]. split; [tauto|]. split; [auto|]. split; [auto|discriminate]. }
  pose proof (from_dir_nonempty _ _ V) as Ne.
  destruct (find_path_by_project w (fst vp)) as [d0|] eqn:F.
  - split; [exact S|]. split; [tauto|]. split; [auto|]. split; [auto|]. intros _ vp' E At. inversion E; subst vp'.
    unfold find_path_by_project in F. destruct (find_entry_by_project w (fst vp)) as [[vp1 d1]|] eqn:Fe; [|discriminate].
    apply find_entry_spec in Fe; [|assumption..]. destruct Fe as (I & Fn & _).
    assert (B : bare (fst vp) = fst vp).
    { destruct (fst vp) as [|c r]; [reflexivity|]. cbn. destruct (ceqb_spec c "@") as [->|Nc]; [exfalso; exact (At r eq_refl)|reflexivity]. }
    rewrite B in Fn. destruct vp1 as [pn v1]. cbn in Fn. subst pn. exists v1, d1. exact I.
  - pose proof (proj1 (find_none_spec w (fst vp) S Ne) F) as No.
    split; [apply map_set_sorted; exact S|]. split; [|split; [|split]].
    + intros n At (v0 & d0 & I0) v d. rewrite map_set_in by exact S.
      assert (Nn : n <> fst vp).
      { intros ->. apply (No v0 d0). destruct (fst vp) as [|c r]; [exact I0|]. cbn.
        destruct (ceqb_spec c "@") as [->|Nc]; [exfalso; exact (At r eq_refl)|exact I0]. }
      split.
      * intros [[E _]|[_ I]]; [|exact I]. exfalso. apply Nn. rewrite <- E. reflexivity.
      * intros I. right. split; [|exact I]. intros E. apply Nn. rewrite <- E. reflexivity.
    + intros vp' d I. apply map_set_in in I; [|exact S]. destruct I as [[-> ->]|[_ I]]; auto.
    + intros n (v & d & I). destruct (key_dec (n, v) vp) as [e|N].
      * exists v, dir. apply map_set_in; [exact S|]. left. auto.
      * exists v, d. apply map_set_in; [exact S|]. right. auto.
    + intros _ vp' E _. inversion E; subst vp'. exists (snd vp), dir. apply map_set_in; [exact S|]. left.
      split; [symmetry; apply surjective_pairing|reflexivity].
Qed.
Theorem augment_spec w : msorted w ->
  let w' := augment_from_external_dir is_directory glob w in
  let dirs := glob (external_base_dir ++ $"/*") in
  msorted w' /\
  (forall n, (forall r, n <> "@"%char :: r) -> known w n -> forall v d, In ((n, v), d) w' <-> In ((n, v), d) w) /\
  (forall vp d, In (vp, d) w' -> In (vp, d) w \/
     In d dirs /\ is_directory d = true /\ vproject_from_dir (fs_filename d) = Some vp) /\
  (forall d vp, In d dirs -> is_directory d = true -> vproject_from_dir (fs_filename d) = Some vp ->
     (forall r, fst vp <> "@"%char :: r) -> known w' (fst vp)).
Proof.
  unfold augment_from_external_dir. cbn zeta. generalize (glob (external_base_dir ++ $"/*")). intros dirs. revert w.
  assert (K : forall dirs w n, msorted w -> known w n -> known (fold_left (augment_step is_directory) dirs w) n).
  { induction dirs0 as [|d dirs0 IH]; intros w n S Kn; cbn [fold_left]; [exact Kn|].
    apply IH; [apply augment_step_spec; exact S|]. apply (augment_step_spec w d S); exact Kn. }
  induction dirs as [|dir dirs IH]; intros w S; cbn [fold_left].
  - split; [exact S|]. split; [tauto|]. split; [auto|]. intros d vp [].
  - destruct (augment_step_spec w dir S) as (S1 & Ke & Nw & Kn & Ad).
    destruct (IH _ S1) as (S2 & Ke2 & Nw2 & Ad2). split; [exact S2|]. split; [|split].
    + intros n At Hk v d. rewrite Ke2; [|exact At|apply Kn; exact Hk]. apply Ke; assumption.
    + intros vp d I. destruct (Nw2 vp d I) as [I1|(I1 & H1 & H2)].
      * destruct (Nw vp d I1) as [I0|(-> & H1 & H2)]; [left; exact I0|right]. split; [left; reflexivity|]. auto.
      * right. split; [right; exact I1|]. auto.
    + intros d vp [->|I] Di V At; [|eapply Ad2; eauto].
      apply K; [exact S1|]. apply Ad; assumption.
Qed.
Corollary augment_lookup w name d : msorted w -> (forall r, bare name <> "@"%char :: r) ->
  find_path_by_project w name = Some d ->
  find_path_by_project (augment_from_external_dir is_directory glob w) name = Some d.
Proof.
  intros S At F. destruct (augment_spec w S) as (S' & Ke & _ & _). cbn zeta in *.
  assert (N : name <> []) by (intros ->; discriminate).
  unfold find_path_by_project in *. destruct (find_entry_by_project w name) as [[vp d0]|] eqn:E; [|discriminate].
  inversion F; subst d0. apply find_entry_spec in E; [|assumption..]. destruct E as (I & Fn & Min).
  assert (Kn : known w (bare name)).
  { destruct vp as [pn v]. cbn in Fn. subst pn. exists v, d. exact I. }
  assert (E' : find_entry_by_project (augment_from_external_dir is_directory glob w) name = Some (vp, d)).
  { apply find_entry_spec; [assumption..|]. destruct vp as [pn v]. cbn in Fn. subst pn.
    split; [apply (Ke _ At Kn); exact I|]. split; [reflexivity|].
    intros v' d' I'. apply (Min v' d'). apply (Ke _ At Kn). exact I'. }
  rewrite E'. reflexivity.
Qed.
End Augment.

(** The project of a directory. *)
Theorem from_dir_spec dir n v : vproject_from_dir dir = Some (n, v) <->
  n <> [] /\ ~ In "~"%char n /\ (dir = n ++ $"~" ++ v \/ dir = n /\ v = []).
Proof.
  unfold vproject_from_dir. split.
  - destruct (is_nil dir) eqn:Ed; [discriminate|]. apply is_nil_false in Ed.
    destruct (find_first "~" dir) as [i|] eqn:F.
    + destruct (proj1 (find_first_some _ _ _) F) as (Sp & Ni).
      destruct i as [|i]; [discriminate|]. intros E; inversion E; subst; clear E.
      split; [|split; [exact Ni|left]].
      * destruct dir; [contradiction|discriminate].
      * rewrite Nat.add_1_r. exact Sp.
    + intros E; inversion E; subst; clear E. apply find_first_none in F. auto.
  - intros (Nn & Nt & D). assert (Nd : dir <> []).
    { destruct D as [->|[-> _]]; [destruct n; discriminate|exact Nn]. }
    apply is_nil_false in Nd. rewrite Nd. destruct D as [->|[-> ->]].
    + change ($"~" ++ v) with ("~"%char :: v). rewrite find_first_app by exact Nt.
      destruct n as [|c n]; [contradiction|]. cbn [length].
      change (S (length n)) with (length (c :: n)) at 1. rewrite firstn_app_exact.
      replace (S (length n) + 1) with (S (length (c :: n))) by (cbn; lia). rewrite skipn_S_app. reflexivity.
    + apply find_first_none in Nt. rewrite Nt. reflexivity.
Qed.

(** * Where packages are *)
Section Located.
Variable w : workspace.
Variable can_read : str -> bool.
Lemma no_tail_slash_app a b : b <> [] -> (forall r, b <> r ++ ["/"%char]) -> forall r, a ++ b <> r ++ ["/"%char].
Proof.
  intros N H r E. destruct (exists_last N) as (b' & x & ->). rewrite app_assoc in E.
  apply app_inj_tail in E as [_ ->]. exact (H b' eq_refl).
Qed.
Theorem lookup_spec p d : wf_path (path p) -> dir_of w p d ->
  path_for_package w can_read p =
  if can_read (d ++ $"/BUILD") then Some (d ++ $"/BUILD")
  else if can_read (d ++ $"/BUILD.bazel") then Some (d ++ $"/BUILD.bazel") else None.
Proof.
  intros (_ & _ & Tl & _) D. unfold path_for_package, fs_path.
  assert (E : match (if is_nil (project p) then Some [] else find_path_by_project w (project p)) with
              | Some start => Some (if is_nil (path p) then start else (if is_nil start then start else start ++ $"/") ++ path p)
              | None => None end = Some d /\ strip_back "/" d = d).
  { destruct D as [Pr Pa|root Pr F Nr Tr Pa|root Pr F Nr Pa].
    - rewrite Pr. cbn [is_nil]. apply is_nil_false in Pa. rewrite Pa. split; [reflexivity|apply strip_back_id; exact Tl].
    - apply is_nil_false in Pr. rewrite Pr, F, Pa. cbn [is_nil]. split; [reflexivity|apply strip_back_id; exact Tr].
    - apply is_nil_false in Pr, Nr. pose proof Pa as Pa'. apply is_nil_false in Pa'. rewrite Pr, F, Nr, Pa', <- app_assoc.
      split; [reflexivity|]. apply strip_back_id. intros r. rewrite app_assoc. apply no_tail_slash_app; assumption. }
  destruct E as [E S].
  destruct (if is_nil (project p) then Some [] else find_path_by_project w (project p)) as [start|]; [|discriminate].
  apply some_inj in E. rewrite E, S. cbn [find]. reflexivity.
Qed.
Lemma strip_dots_app pre s : Forall (fun c => c = "."%char \/ c = "/"%char) pre ->
  strip_dots_slashes (pre ++ s) = strip_dots_slashes s.
Proof. induction 1 as [|c pre [->| ->] _ IH]; cbn; auto. Qed.
Lemma strip_dots_id s : (forall r, s <> "."%char :: r) -> (forall r, s <> "/"%char :: r) -> strip_dots_slashes s = s.
Proof.
  destruct s as [|c s]; intros H K; cbn; [reflexivity|].
  destruct (ceqb_spec c ".") as [->|N]; [exfalso; exact (H s eq_refl)|].
  destruct (ceqb_spec c "/") as [->|N']; [exfalso; exact (K s eq_refl)|]. reflexivity.
Qed.
Lemma find_last_sep a b : ~ In "/"%char b -> find_last "/" (a ++ "/"%char :: b) = Some (length a).
Proof. intros H. apply find_last_app. exact H. Qed.
Lemma path_of_file pre s file : Forall (fun c => c = "."%char \/ c = "/"%char) pre ->
  (forall r, s <> "."%char :: r) -> (forall r, s <> "/"%char :: r) -> ~ In "/"%char file ->
  target_path_from_build_file ((pre ++ s) ++ "/"%char :: file) = s.
Proof.
  intros P D S F. unfold target_path_from_build_file. rewrite find_last_sep by exact F. cbn [prefix_upto].
  rewrite firstn_app_exact, strip_dots_app by exact P. apply strip_dots_id; assumption.
Qed.
(** From the current directory. *)
Theorem package_main pa pre file : wf_path pa -> (forall r, pa <> "."%char :: r) -> ~ In "/"%char file ->
  Forall (fun c => c = "."%char \/ c = "/"%char) pre ->
  package_of_build_file w ((pre ++ pa) ++ $"/" ++ file) [] = Ret (Some (mkPackage [] pa)).
Proof.
  intros (_ & Hd & _ & _) D F P. unfold package_of_build_file. cbn [is_nil]. do 3 f_equal.
  apply (path_of_file pre pa file); auto.
Qed.
Theorem package_spec p d file : wf_path (path p) -> (forall r, path p <> "."%char :: r) -> ~ In "/"%char file ->
  dir_of w p d -> package_of_build_file w (d ++ $"/" ++ file) (project p) = Ret (Some p).
Proof.
  intros Wf D F Di. pose proof Wf as (_ & Hd & _ & _). destruct p as [pj pa]. cbn [project path] in *.
  destruct Di as [Pr Pa|root Pr Fi Nr Tr Pa|root Pr Fi Nr Pa]; cbn [project path] in *.
  - subst pj. apply (package_main pa [] file); auto.
  - subst pa. unfold package_of_build_file. pose proof Pr as Pr'. apply is_nil_false in Pr'. rewrite Pr', Fi.
    rewrite app_length. replace (length root + length ($"/" ++ file) <? length root) with false
      by (symmetry; apply Nat.ltb_ge; lia).
    rewrite skipn_app_exact. do 3 f_equal. apply (path_of_file [] [] file); auto; discriminate.
  - unfold package_of_build_file. pose proof Pr as Pr'. apply is_nil_false in Pr'. rewrite Pr', Fi.
    rewrite <- !app_assoc, app_length.
    match goal with |- context [?a + ?b <? ?a] => replace (a + b <? a) with false by (symmetry; apply Nat.ltb_ge; lia) end.
    rewrite skipn_app_exact. do 3 f_equal. rewrite app_assoc. apply (path_of_file ($"/") pa file); auto.
    constructor; [right; reflexivity|constructor].
Qed.
End Located.

(** * Aliases *)
Lemma entry_update (m : list (target * list target)) k x t : msorted m ->
  entry (map_update k [] (fun l => l ++ [x]) m) t = entry m t ++ (if target_eqb k t then [x] else []).
Proof.
  intros S. unfold entry. rewrite map_update_find by exact S. destruct (keqb_spec t k) as [e|N].
  - subst. rewrite (proj2 (target_eqb_eq k k) eq_refl). destruct (map_find k m); reflexivity.
  - replace (target_eqb k t) with false.
    + rewrite app_nil_r. reflexivity.
    + symmetry. apply not_true_iff_false. intros E. apply target_eqb_eq in E. congruence.
Qed.
Definition no_empty (m : list (target * list target)) : Prop := forall t l, map_find t m = Some l -> l <> [].
Lemma alias_rules_spec p rs : forall m, msorted m -> no_empty m ->
  let m' := fold_left (alias_rule p) rs m in
  msorted m' /\ no_empty m' /\ forall t, entry m' t = entry m t ++ flat_map (declared_alias t p) rs.
Proof.
  induction rs as [|r rs IH]; intros m S Ne; cbn zeta; cbn [fold_left flat_map].
  - split; [exact S|]. split; [exact Ne|]. intros t. rewrite app_nil_r. reflexivity.
  - assert (H : msorted (alias_rule p m r) /\ no_empty (alias_rule p m r) /\
                forall t, entry (alias_rule p m r) t = entry m t ++ declared_alias t p r).
    { unfold alias_rule, declared_alias.
      destruct (qualified_target p (v_text (q_name r))) as [a|];
        [|split; [exact S|]; split; [exact Ne|]; intros; rewrite app_nil_r; reflexivity].
      destruct (parse_target (v_text (q_actual r)) p) as [k|];
        [|split; [exact S|]; split; [exact Ne|]; intros; rewrite app_nil_r; reflexivity].
      split; [apply map_update_sorted; exact S|]. split; [|intros t; apply entry_update; exact S].
      intros t l F. rewrite map_update_find in F by exact S. destruct (keqb_spec t k) as [e|N]; [|eauto].
      inversion F. intros E0. destruct (map_find k m) as [[|]|]; discriminate. }
    destruct H as (S1 & N1 & E1). destruct (IH _ S1 N1) as (S2 & N2 & E2).
    split; [exact S2|]. split; [exact N2|]. intros t. rewrite E2, E1, <- app_assoc. reflexivity.
Qed.
Theorem aliased_by_spec pr m : extract_aliased_by pr = Ret m ->
  exists rss, Forall2 (fun pf rs => find_targets [$"alias"] (pf_ast (snd pf)) = Ret rs) (pr_files pr) rss /\
    (forall t, entry m t = flat_map (fun x => flat_map (declared_alias t (pf_package (snd (fst x)))) (snd x))
                             (combine (pr_files pr) rss)) /\
    (forall t, In t (keys m) <-> entry m t <> []).
Proof.
  unfold extract_aliased_by.
  assert (H : forall files m0 m, msorted m0 -> no_empty m0 -> aliases_in files m0 = Ret m ->
    msorted m /\ no_empty m /\
    exists rss, Forall2 (fun pf rs => find_targets [$"alias"] (pf_ast (snd pf)) = Ret rs) files rss /\
    forall t, entry m t = entry m0 t ++ flat_map (fun x => flat_map (declared_alias t (pf_package (snd (fst x)))) (snd x))
                             (combine files rss)).
  { induction files as [|[p f] files IH]; intros m0 m1 S Ne E; cbn [aliases_in] in E.
    - inversion E; subst. split; [exact S|]. split; [exact Ne|]. exists []. split; [constructor|].
      intros t. cbn. rewrite app_nil_r. reflexivity.
    - destruct (find_targets [$"alias"] (pf_ast f)) as [rs| |] eqn:Fr; cbn [bind] in E; try discriminate.
      destruct (alias_rules_spec (pf_package f) rs m0 S Ne) as (S1 & N1 & E1).
      destruct (IH _ _ S1 N1 E) as (S2 & N2 & rss & F2 & E2). split; [exact S2|]. split; [exact N2|].
      exists (rs :: rss). split; [constructor; [exact Fr|exact F2]|].
      intros t. rewrite E2, E1, <- app_assoc. reflexivity. }
  intros E. destruct (H (pr_files pr) [] m) as (_ & Ne & rss & F2 & Et); [exact I|intros t l; discriminate|exact E|].
  exists rss. split; [exact F2|]. split; [exact Et|].
  intros t. rewrite in_keys. unfold entry. split.
  - intros (l & F). rewrite F. eapply Ne; eauto.
  - destruct (map_find t m); [eauto|congruence].
Qed.
