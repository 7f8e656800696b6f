(** Proofs for C90. *)
From Coq Require Import NArith ZArith Lia.
From Verif Require Import Base OMap M_Types M_Scanner M_Ast M_Parser P_Parser M_Query M_Elab M_Workspace M_Project M_Walk S_Walk P_Walk M_Table S_Table M_DepGraph S_DepGraph P_DepGraph
  M_Commands M_System P_Commands S_Run P_Run S_Order P_Order C_Walk C_Order S_Packages P_Packages.
Local Open Scope string_scope. Local Open Scope list_scope.

(** The package of a directory. *)
Definition package_at (path : str) (names : list str) : package :=
  mkPackage [] (match path, names with [], n :: names => at_path n names | _, _ => at_path path names end).
(** No directory has two files that make it a package. *)
Definition single_files (fs : file_system) (recursive : bool) (root : str) : Prop := forall names f f',
  package_dir fs recursive root names -> build_file fs (at_path root names) f -> build_file fs (at_path root names) f' -> f = f'.

Definition plain_name (x : str) : Prop := ~ In "/"%char x.
Lemma slashed_inj l : forall l', Forall plain_name l -> Forall plain_name l' -> slashed l = slashed l' -> l = l'.
Proof.
  induction l as [|x l IH]; intros [|x' l'] F F' E; try discriminate E; [reflexivity|]. cbn [slashed flat_map app] in E. injection E as E. fold (slashed l) (slashed l') in E.
  inversion F; inversion F'; subst. apply head_word in E as (-> & E); auto; try apply slashed_next. f_equal. auto.
Qed.

Section Packages.
Variable fs : file_system.
Hypothesis proper : proper_names (fs_list fs).
Variable inodes : list N.
Hypothesis finite : inodes_are fs inodes.
Variable fuel : nat.
Hypothesis enough : length inodes < fuel.

Lemma package_at_inj rec path names names' : package_dir fs rec (start_of path) names -> package_dir fs rec (start_of path) names' ->
  package_at path names = package_at path names' -> names = names'.
Proof.
  intros P P' E. injection E as E. pose proof (names_slash _ _ _ _ proper P) as F. pose proof (names_slash _ _ _ _ proper P') as F'.
  pose proof (first_name fs proper _ _ _ P) as N. pose proof (first_name fs proper _ _ _ P') as N'.
  destruct path as [|c r].
  - destruct names as [|n ns], names' as [|n' ns']; [reflexivity| | |]; cbn beta iota in E.
    + destruct N' as (N' & _). destruct n' as [|c n']; [congruence|]. destruct (at_first (c :: n') ns' c n' eq_refl) as (t & X). rewrite X in E. discriminate E.
    + destruct N as (N & _). destruct n as [|c n]; [congruence|]. destruct (at_first (c :: n) ns c n eq_refl) as (t & X). rewrite X in E. discriminate E.
    + rewrite !at_slashed in E. inversion F; inversion F'; subst. apply head_word in E as (-> & E); auto; try apply slashed_next. f_equal. apply slashed_inj; auto.
  - rewrite !at_slashed in E. apply app_inv_head in E. apply slashed_inj; auto.
Qed.
Lemma label_package path names p : project p = [] -> package_to_string p = label_at path names -> p = package_at path names.
Proof.
  destruct p as [pj q]. cbn [project]. intros -> E. unfold package_to_string, label_at in E. cbn [project M_Types.path app] in E. unfold package_at. f_equal.
  injection E as E. exact E.
Qed.
Lemma exact_project w pt pr eval : pat_project pt = [] -> plain_start (pat_path pt) -> one_way fs (start_of (pat_path pt)) ->
  (forall names, package_dir fs (is_recursive pt) (start_of (pat_path pt)) names -> not_hidden (pat_path pt) names) ->
  single_files fs (is_recursive pt) (start_of (pat_path pt)) ->
  holds_files w (fs_content fs) (globbed_files fuel fs w) (found_build_files fuel fs w pt) (pat_project pt) eval pr ->
  forall p f, In (p, f) (pr_files pr) <-> exists names file content stmts errs ast, package_dir fs (is_recursive pt) (start_of (pat_path pt)) names /\
    build_file fs (at_path (start_of (pat_path pt)) names) file /\ fs_content fs file = Some content /\ parse content = Ret (stmts, errs) /\
    (if eval then elaborate (globbed_files fuel fs w p) stmts = Ret ast else ast = stmts) /\ p = package_at (pat_path pt) names /\ f = mkFile p file content ast errs.
Proof.
  intros Pj Ps O H Sg (S & Hf) p f. pose proof (start_end _ Ps) as R. pose proof (search_main w pt Pj) as Sd.
  pose proof (in_order fs proper inodes finite fuel enough w pt (one_way_second fs proper w pt _ Pj R Sd O)) as F.
  assert (Q : forall names e, package_dir fs (is_recursive pt) (start_of (pat_path pt)) names -> (d_name e = $"BUILD" \/ d_name e = $"BUILD.bazel") ->
    package_of_build_file w (fp_path (path_at (at_path (start_of (pat_path pt)) names) e)) (pat_project pt) = Ret (Some (package_at (pat_path pt) names))).
  { intros names e P N. rewrite Pj. rewrite build_file_package by exact N. do 2 f_equal. apply label_package; [reflexivity|].
    unfold package_to_string. cbn [project M_Types.path app]. exact (stripped_path fs proper _ _ _ Ps P (H _ P)). }
  assert (K : forall name p', In name (found_build_files fuel fs w pt) -> package_of_build_file w name (pat_project pt) = Ret (Some p') -> forall content, fs_content fs name = Some content ->
    exists names, package_dir fs (is_recursive pt) (start_of (pat_path pt)) names /\ build_file fs (at_path (start_of (pat_path pt)) names) name /\ p' = package_at (pat_path pt) names).
  { intros name p' I Pk content Rd. apply F in I as (root & d & e & Sr & B & Fe & N & ->). assert (root = start_of (pat_path pt)) as -> by congruence.
    destruct (build_package fs proper _ _ _ R B) as (names & P & ->). rewrite (Q names e P N) in Pk. injection Pk as <-. exists names. split; [exact P|]. split; [|reflexivity].
    exists e, content. split; [exact Fe|]. split; [exact N|]. split; [exact (path_here fs proper _ _ _ _ R P)|exact Rd]. }
  rewrite Hf. split.
  - intros (name & content & st & er & ast & (a & b & E & Pk & Rd & _) & Pc & Ev & ->).
    assert (I : In name (found_build_files fuel fs w pt)) by (rewrite E; apply in_or_app; right; left; reflexivity).
    destruct (K name p I Pk content Rd) as (names & P & Bf & Ep). exists names, name, content, st, er, ast. auto 8.
  - intros (names & file & content & st & er & ast & P & Bf & Rd & Pc & Ev & Ep & ->). subst p.
    destruct (file_for_some w (fs_content fs) (pat_project pt) (package_at (pat_path pt) names) (found_build_files fuel fs w pt)) as (n & c & Ff).
    { destruct Bf as (e & content' & Fe & N & -> & Rd'). exists (at_path (start_of (pat_path pt)) names ++ "/"%char :: d_name e), content. split; [|split; [|exact Rd]].
      - apply F. exists (start_of (pat_path pt)), (at_path (start_of (pat_path pt)) names), e. split; [exact Sd|]. split; [exact (package_build fs proper _ _ _ R P)|].
        split; [exact Fe|]. split; [exact N|]. symmetry. exact (path_here fs proper _ _ _ _ R P).
      - rewrite <- (path_here fs proper _ _ _ e R P). apply Q; auto. }
    exists n, c, st, er, ast. assert (X : n = file /\ c = content).
    { destruct Ff as (a & b & E & Pk & Rn & _). assert (I : In n (found_build_files fuel fs w pt)) by (rewrite E; apply in_or_app; right; left; reflexivity).
      destruct (K n _ I Pk c Rn) as (names' & P' & Bf' & Ep'). apply package_at_inj with (1 := P) (2 := P') in Ep'. subst names'.
      assert (n = file) as -> by exact (Sg _ _ _ P Bf' Bf). split; [reflexivity|congruence]. }
    destruct X as (-> & ->). auto.
Qed.
End Packages.

(** * The project of a directory is a part of the project *)
(** Without the ./ at the beginning of the name. *)
Definition cut_name (f : parsed_file) : parsed_file := mkFile (pf_package f) (skipn 2 (pf_name f)) (pf_content f) (pf_ast f) (pf_errors f).
(** In the directory [a] or below. *)
Definition is_below (a : str) (p : package) : bool := match_package (mkPattern (mkTarget (mkPackage [] a) []) KRecursive) p.

Lemma filter_keys {V} (g : package -> bool) (l : list (package * V)) : keys (filter (fun e => g (fst e)) l) = filter g (keys l).
Proof. induction l as [|[k v] l IH]; [reflexivity|]. unfold keys in *. cbn [filter map fst]. destruct (g k); cbn [map fst]; rewrite <- IH; reflexivity. Qed.
Lemma filter_msorted {V} (g : package -> bool) (l : list (package * V)) : msorted l -> msorted (filter (fun e => g (fst e)) l).
Proof. unfold msorted. rewrite filter_keys. apply ssorted_filter. Qed.

Section Part.
Variable fs : file_system.
Hypothesis proper : proper_names (fs_list fs).
Variable inodes : list N.
Hypothesis finite : inodes_are fs inodes.
Variable fuel : nat.
Hypothesis enough : length inodes < fuel.
Hypothesis here : here_is_here fs.
Variables (n : str) (ns : list str).
Notation a := (at_path n ns).
Hypothesis plain : plain_start a.
Hypothesis reached : package_dir fs true ($".") (n :: ns).
Hypothesis ways : one_way fs ($".").
Hypothesis hidden : forall names, package_dir fs true ($".") names -> not_hidden [] names.
Hypothesis single : single_files fs true ($".").

Lemma part_package names : package_at a names = package_at [] ((n :: ns) ++ names).
Proof.
  unfold package_at. cbn [app]. rewrite at_app. f_equal. pose proof (a_some fs proper n ns plain reached). destruct a; [congruence|reflexivity].
Qed.
Lemma below_spec q : is_below a (mkPackage [] q) = true <-> q = a \/ exists r, q = a ++ "/"%char :: r.
Proof.
  pose proof (a_some fs proper n ns plain reached) as N. unfold is_below, match_package. cbn [pat_kind pat_target tpackage project M_Types.path]. rewrite (proj2 (str_eqb_eq [] []) eq_refl). cbn [negb].
  destruct (is_nil a) eqn:Na; [destruct a; [congruence|discriminate Na]|]. clear Na N. revert q. generalize a as u. clear. induction u as [|c u IH]; intros q.
  - cbn [starts_with length]. destruct q as [|d q]; cbn; [intuition|]. split.
    + intros E. right. exists q. apply Ascii.eqb_eq in E. subst. reflexivity.
    + intros [E|(r & E)]; [discriminate E|]. injection E as -> ->. reflexivity.
  - destruct q as [|d q]; [cbn; split; [discriminate|intros [E|(r & E)]; discriminate E]|]. cbn [starts_with length nth_error Nat.eqb].
    unfold ceqb in *. destruct (Ascii.eqb_spec c d) as [<-|Ne].
    + cbn [andb]. rewrite IH. split; (intros [->|(r & ->)]; [left; reflexivity|right; exists r; reflexivity]) || idtac.
      intros [E|(r & E)]; injection E as ->; [left; reflexivity|right; exists r; reflexivity].
    + cbn [andb]. split; [discriminate|]. intros [E|(r & E)]; injection E as -> _; congruence.
Qed.
Lemma names_below names : package_dir fs true ($".") names -> is_below a (package_at [] names) = true <-> exists rest, names = (n :: ns) ++ rest.
Proof.
  intros P. unfold package_at. pose proof (names_slash fs _ _ _ proper reached) as F. pose proof (names_slash fs _ _ _ proper P) as F'. rewrite below_spec. split.
  - intros X. destruct names as [|n' ns'].
    + exfalso. pose proof (a_some fs proper n ns plain reached) as N. cbn in X. destruct X as [X|(r & X)]; destruct a; congruence || discriminate X.
    + destruct X as [X|(r & X)].
      * apply (prefix_names ns ns' n n' []); auto; [exact Logic.I|]. rewrite app_nil_r. exact X.
      * apply (prefix_names ns ns' n n' ("/"%char :: r)); auto. reflexivity.
  - intros (rest & ->). cbn [app]. rewrite at_app. destruct rest as [|x rest]; [left; reflexivity|right]. rewrite (at_slashed (x :: rest)). exists (x ++ slashed rest). reflexivity.
Qed.

Lemma find_cut (l : list (package * parsed_file)) p :
  map_find p (map (fun e => (fst e, cut_name (snd e))) l) = option_map cut_name (map_find p l).
Proof. induction l as [|[k v] l IH]; [reflexivity|]. cbn [map map_find fst snd]. rewrite IH. destruct (keqb p k); reflexivity. Qed.

Lemma part_project w pt pt' pr pr' eval :
  pat_project pt = [] -> pat_path pt = [] -> is_recursive pt = true -> pat_project pt' = [] -> pat_path pt' = a -> is_recursive pt' = true ->
  holds_files w (fs_content fs) (globbed_files fuel fs w) (found_build_files fuel fs w pt) (pat_project pt) eval pr ->
  holds_files w (fs_content fs) (globbed_files fuel fs w) (found_build_files fuel fs w pt') (pat_project pt') eval pr' ->
  pr_files pr' = map (fun e => (fst e, cut_name (snd e))) (filter (fun e => is_below a (fst e)) (pr_files pr)) /\
  forall p f, In (p, f) (pr_files pr) -> project p = [] /\ exists file, pf_name f = $"./" ++ file.
Proof.
  intros Pj Pp Pr Pj' Pp' Pr' H H'.
  pose proof (a_start fs proper n ns plain reached) as As.
  assert (E : forall p f, In (p, f) (pr_files pr) <-> exists names file content stmts errs ast, package_dir fs true ($".") names /\
    build_file fs (at_path ($".") names) file /\ fs_content fs file = Some content /\ parse content = Ret (stmts, errs) /\
    (if eval then elaborate (globbed_files fuel fs w p) stmts = Ret ast else ast = stmts) /\ p = package_at [] names /\ f = mkFile p file content ast errs).
  { intros p f. rewrite (exact_project fs proper inodes finite fuel enough w pt pr eval); auto; rewrite ?Pp, ?Pr; cbn [start_of]; auto; [reflexivity|].
    split; [intros [|]; discriminate|]. split; discriminate. }
  assert (E' : forall p f, In (p, f) (pr_files pr') <-> exists names file content stmts errs ast, package_dir fs true a names /\
    build_file fs (at_path a names) file /\ fs_content fs file = Some content /\ parse content = Ret (stmts, errs) /\
    (if eval then elaborate (globbed_files fuel fs w p) stmts = Ret ast else ast = stmts) /\ p = package_at a names /\ f = mkFile p file content ast errs).
  { intros p f. rewrite (exact_project fs proper inodes finite fuel enough w pt' pr' eval); auto; rewrite ?Pp', ?Pr', ?As; auto; [reflexivity| | |].
    - exact (part_one_way fs proper here n ns plain reached ways).
    - intros names _ X. elim (a_some fs proper n ns plain reached X).
    - intros names f1 f2 P B1 B2. assert (X : $"./" ++ f1 = $"./" ++ f2); [|injection X as ->; reflexivity].
      apply (single _ _ _ (below_dot fs proper here n ns plain reached _ P)); apply part_file; auto; eauto. }
  split.
  2:{ intros p f I. apply E in I as (names & file & content & st & er & ast & P & B & _ & _ & _ & -> & ->). split; [reflexivity|]. cbn [pf_name].
    destruct B as (e & c & _ & _ & -> & _). destruct names as [|x names]; [exists (d_name e); reflexivity|].
    change (at_path ($".") (x :: names)) with (at_path ($"./" ++ x) names). rewrite at_prefix. eexists. rewrite <- app_assoc. reflexivity. }
  destruct H as (S & _), H' as (S' & _). apply omap_ext; [exact S'| |].
  - unfold msorted, keys. rewrite map_map. cbn [fst]. change (msorted (filter (fun e => is_below a (fst e)) (pr_files pr))). apply filter_msorted. exact S.
  - assert (Sf : msorted (filter (fun e => is_below a (fst e)) (pr_files pr))) by (apply filter_msorted; exact S).
    assert (G : forall p f', In (p, f') (pr_files pr') <-> exists f, In (p, f) (pr_files pr) /\ is_below a p = true /\ f' = cut_name f).
    { intros p f'. rewrite E'. split.
      - intros (names & file & content & st & er & ast & P & B & Rd & Pc & Ev & -> & ->). exists (mkFile (package_at a names) ($"./" ++ file) content ast er).
        split; [|split; [|reflexivity]].
        + apply E. exists ((n :: ns) ++ names), ($"./" ++ file), content, st, er, ast. split; [exact (below_dot fs proper here n ns plain reached _ P)|].
          split; [apply part_file; auto; eauto|]. split; [|rewrite part_package; rewrite part_package in Ev; auto].
          destruct (here file) as (_ & _ & _ & ->); [|exact Rd]. destruct B as (e & c & _ & _ & -> & _). destruct (at_path a names); discriminate.
        + rewrite part_package. apply names_below; [exact (below_dot fs proper here n ns plain reached _ P)|]. eauto.
      - intros (f & I & Bl & ->). apply E in I as (names & file & content & st & er & ast & P & B & Rd & Pc & Ev & -> & ->).
        apply (names_below _ P) in Bl as (rest & ->). assert (P' : package_dir fs true a rest) by (apply (dot_below fs proper here n ns plain reached); exact P).
        apply part_file in B as (f' & -> & B); auto. exists rest, f', content, st, er, ast. split; [exact P'|]. split; [exact B|].
        split; [|rewrite part_package; auto]. destruct (here f') as (_ & _ & _ & <-); [|exact Rd]. destruct B as (e & c & _ & _ & -> & _). destruct (at_path a rest); discriminate. }
    intros p. rewrite find_cut. destruct (map_find p (filter _ (pr_files pr))) as [f|] eqn:F.
    + cbn [option_map]. apply map_find_in in F. apply filter_In in F as [F Bl]. apply msorted_find; [exact S'|]. apply G. exists f. auto.
    + cbn [option_map]. destruct (map_find p (pr_files pr')) as [f'|] eqn:F'; [|reflexivity]. apply map_find_in in F'. apply G in F' as (f & I & Bl & _).
      assert (X : In (p, f) (filter (fun e => is_below a (fst e)) (pr_files pr))) by (apply filter_In; auto). apply (msorted_find _ _ _ Sf) in X. congruence.
Qed.
End Part.

(** * Runs *)
Definition part_row (x : str * str * target) : list str := [fst (fst x); snd (fst x); target_to_string (snd x)].
Definition full_row (x : str * str * target) : list str := [$"./" ++ fst (fst x); snd (fst x); target_to_string (snd x)].
Lemma cut_loc f v file : pf_name f = $"./" ++ file -> match loc f v with
  | Ret s => exists l, s = $"./" ++ l /\ loc (cut_name f) v = Ret l
  | x => loc (cut_name f) v = match x with Ret s => Ret s | UB => UB | OutOfFuel => OutOfFuel end
  end.
Proof.
  intros N. unfold loc. unfold cut_name at 1 2 3 4 5. cbn [pf_content pf_name]. rewrite N.
  destruct (v_org v) as [off|off len]; (destruct (Nat.ltb _ _); [reflexivity|]); (destruct (get_range _ _ _); [|reflexivity]); eexists; (split; [|reflexivity]); reflexivity.
Qed.
Lemma tagged_rows pt pt' p f file : pf_name f = $"./" ++ file -> (forall t, tpackage t = p -> match_target pt t = true) -> (forall t, tpackage t = p -> match_target pt' t = true) ->
  forall rs ops, target_rows pt p f rs = Ret ops -> exists l, ops = map (fun x => AddRow (full_row x)) l /\ Forall (fun x => tpackage (snd x) = p) l /\
    target_rows pt' p (cut_name f) rs = Ret (map (fun x => AddRow (part_row x)) l).
Proof.
  intros N M M'. induction rs as [|r rs IH]; intros ops E; cbn [target_rows] in E |- *.
  - injection E as <-. exists []. repeat split. constructor.
  - rewrite colon_target in E |- *. destruct (contains_char _ _); [auto|]. rewrite M in E by reflexivity. rewrite M' by reflexivity.
    pose proof (cut_loc f (q_name r) file N) as C. destruct (loc f (q_name r)) as [s| |]; try discriminate E. destruct C as (l & -> & ->). cbn [bind] in E |- *.
    destruct (target_rows pt p f rs) as [o| |]; try discriminate E. injection E as <-. destruct (IH _ eq_refl) as (k & -> & F & ->).
    exists ((l, v_text (q_rule r), mkTarget p (v_text (q_name r))) :: k). split; [reflexivity|]. split; [constructor; [reflexivity|exact F]|]. reflexivity.
Qed.
Lemma tagged_none pt p f file : pf_name f = $"./" ++ file -> (forall t, tpackage t = p -> match_target pt t = true) ->
  forall rs ops, target_rows pt p f rs = Ret ops -> exists l, ops = map (fun x => AddRow (full_row x)) l /\ Forall (fun x => tpackage (snd x) = p) l.
Proof. intros N M rs ops E. destruct (tagged_rows pt pt p f file N M M rs ops E) as (l & A & B & _). eauto. Qed.
Lemma filter_all {A} (g : A -> bool) l : Forall (fun x => g x = true) l -> filter g l = l.
Proof. induction 1 as [|x l H _ IH]; [reflexivity|]. cbn [filter]. rewrite H, IH. reflexivity. Qed.
Lemma filter_none {A} (g : A -> bool) l : Forall (fun x => g x = false) l -> filter g l = [].
Proof. induction 1 as [|x l H _ IH]; [reflexivity|]. cbn [filter]. rewrite H. exact IH. Qed.
Lemma tagged_files pt pt' (below : package -> bool) :
  (forall t, below (tpackage t) = true -> match_target pt' t = true) ->
  forall files, (forall p f, In (p, f) files -> (forall t, tpackage t = p -> match_target pt t = true) /\ exists file, pf_name f = $"./" ++ file) ->
  forall ops, target_rows_of pt files = Ret ops ->
  exists l, ops = map (fun x => AddRow (full_row x)) l /\
    target_rows_of pt' (map (fun e => (fst e, cut_name (snd e))) (filter (fun e => below (fst e)) files)) =
      Ret (map (fun x => AddRow (part_row x)) (filter (fun x => below (tpackage (snd x))) l)).
Proof.
  intros M'. induction files as [|[p f] files IH]; intros H ops E; cbn [target_rows_of] in E.
  - injection E as <-. exists []. auto.
  - destruct (H p f (or_introl eq_refl)) as (M & file & N). destruct (find_targets [] (pf_ast f)) as [rs| |] eqn:Fi; try discriminate E. cbn [bind] in E.
    destruct (target_rows pt p f rs) as [o| |] eqn:T; try discriminate E. cbn [bind] in E. destruct (target_rows_of pt files) as [os| |]; try discriminate E. injection E as <-.
    destruct (IH (fun q g I => H q g (or_intror I)) _ eq_refl) as (l & -> & El). cbn [filter fst]. destruct (below p) eqn:B.
    + destruct (tagged_rows pt pt' p f file N M) with (2 := T) as (k & -> & F & Tk). { intros t <-. apply M'. exact B. }
      exists (k ++ l). split; [symmetry; apply map_app|]. cbn [map fst snd target_rows_of]. replace (pf_ast (cut_name f)) with (pf_ast f) by reflexivity. rewrite Fi. cbn [bind]. rewrite Tk. cbn [bind].
      rewrite El. cbn [bind]. rewrite filter_app, map_app. do 3 f_equal. symmetry. apply filter_all. eapply Forall_impl; [|exact F]. intros x ->. exact B.
    + destruct (tagged_none pt p f file N M _ _ T) as (k & -> & F). exists (k ++ l). split; [symmetry; apply map_app|]. rewrite El, filter_app.
      rewrite (filter_none _ k); [reflexivity|]. eapply Forall_impl; [|exact F]. intros x ->. exact B.
Qed.
