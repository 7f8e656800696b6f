(** Proofs about the messages of dwyu. *)
From Coq Require Import Sorted.
From Verif Require Import Base OMap M_Types M_Scanner S_Scanner P_Scanner M_Ast M_Parser S_Parser P_Parser M_Query S_Query P_Query M_Elab S_Elab P_Elab S_Locations P_Locations
  M_Workspace M_Project P_Project M_DepGraph S_DepGraph M_Headers S_Headers P_Headers M_Includes S_Includes P_Includes M_Dwyu S_Dwyu P_Dwyu M_Edits M_Printer M_Highlight
  M_Commands S_Commands P_Commands M_Messages S_Messages.

(** * part_of *)
Lemma part_refl {A} (l : list A) : part_of l l.
Proof. induction l; constructor; auto. Qed.
Lemma part_empty {A} (l : list A) : part_of [] l.
Proof. induction l; constructor; auto. Qed.
Lemma part_app {A} (a a' b b' : list A) : part_of a a' -> part_of b b' -> part_of (a ++ b) (a' ++ b').
Proof. induction 1; cbn [app]; intros; auto; constructor; auto. Qed.
Lemma part_in {A} (a b : list A) x : part_of a b -> In x a -> In x b.
Proof. induction 1; cbn [In]; auto. intros [<-|I]; auto. Qed.

Tactic Notation "step" hyp(E) "as" simple_intropattern(p) "by" ident(H) :=
  match type of E with
  | bind ?x _ = Ret _ => destruct x as [p| |] eqn:H; cbn [bind] in E; try discriminate
  end.

(** * Messages do not change what is done *)
Lemma genfiles_erase f sfx t gs : forall m m' told, genfiles_told f sfx t gs m = Ret (m', told) ->
  m' = fold_left (fun m x => map_insert (key_transform (qualified_file (pf_package f) x) sfx) t m) (map v_text gs) m.
Proof.
  induction gs as [|g gs IH]; intros m m' told E; cbn [genfiles_told] in E; [now injection E as <- _|].
  step E as tl by S. step E as [m1 told1] by S0. injection E as <- _. cbn [map fold_left]. now apply IH in S0.
Qed.
Lemma genrules_erase f sfx rs : forall m m' told, genrules_told f sfx rs m = Ret (m', told) -> genrules (pf_package f) sfx rs m = Ret m'.
Proof.
  induction rs as [|r rs IH]; intros m m' told E; cbn [genrules_told genrules] in *; [now injection E as <- _|].
  step E as gs by S. step E as [m1 told1] by S0. step E as [m2 told2] by S1. injection E as <- _. cbn [bind].
  apply IH in S1. rewrite <- S1. f_equal. destruct (qualified_target _ _); [now apply genfiles_erase in S0|now injection S0 as <- _].
Qed.
Lemma genrules_of_files_erase sfx files : forall m m' told, genrules_of_files_told sfx files m = Ret (m', told) -> genrules_of_files sfx files m = Ret m'.
Proof.
  induction files as [|[p f] files IH]; intros m m' told E; cbn [genrules_of_files_told genrules_of_files] in *; [now injection E as <- _|].
  step E as rs by S. step E as [m1 told1] by S0. step E as [m2 told2] by S1. injection E as <- _. cbn [bind].
  apply genrules_erase in S0. rewrite S0. cbn [bind]. now apply IH in S1.
Qed.

Section Same.
Variable w : workspace.
Variable read_file : str -> option str.
Variable ignore_keep : bool.
Variable verbose : nat.
Variable color : bool.
Variable headers : provided_set.
Variable generated : provided.
Variable known : list (target * result).

Lemma try_erase ls file : forall g, option_map (fun x => snd (fst x)) (try_locations_at read_file ls file g) = try_locations read_file ls file.
Proof. induction ls as [|l ls IH]; intros g; cbn [try_locations_at try_locations]; auto. destruct (read_file (l ++ file)); auto. Qed.
Lemma check_deps_erase t f ak deps : forall nd ch nd' ev told, check_deps_told ignore_keep verbose known t f ak deps nd ch = Ret (nd', ev, told) ->
  check_deps ignore_keep known t f ak deps nd ch = Ret (nd', ev).
Proof.
  induction deps as [|d deps IH]; intros nd ch nd' ev told E; cbn [check_deps_told check_deps] in *; [now injection E as <- <- _|].
  step E as [[n1 c1] e1] by S. step E as tl by S0. step E as [[n2 e2] t2] by S1. injection E as <- <- _. cbn [bind]. apply IH in S1. rewrite S1. reflexivity.
Qed.
Lemma create_edits_erase t details f ev told : create_edits_told w read_file ignore_keep verbose color headers generated known t details f = Ret (ev, told) ->
  create_edits_for_target w read_file ignore_keep headers known t details f = Ret ev.
Proof.
  unfold create_edits_told, create_edits_for_target. intros E. step E as a by S. step E as b by S0. rewrite map_app in E. step E as [nd ak] by S1. step E as ts by S2.
  step E as mn by S3. step E as ds by S4. step E as [[n1 e1] t1] by S5. step E as e2 by S6. step E as t2 by S7. injection E as <- _. cbn [bind].
  rewrite S1. cbn [bind]. rewrite S3. cbn [bind]. apply check_deps_erase in S5. rewrite S5. cbn [bind]. rewrite S6. reflexivity.
Qed.
Lemma rules_erase pt f rs : forall ev n told, rules_told w read_file ignore_keep verbose color headers generated known pt f rs = Ret (ev, n, told) ->
  edits_for_rules w read_file ignore_keep headers known pt f rs = Ret (ev, n).
Proof.
  induction rs as [|r rs IH]; intros ev n told E; cbn [rules_told edits_for_rules] in *; [now injection E as <- <- _|].
  destruct (qualified_target _ _); [|eauto]. destruct (match_target _ _); [|eauto].
  step E as [e1 t1] by S. step E as [[e2 n2] t2] by S0. injection E as <- <- _. apply create_edits_erase in S. rewrite S. cbn [bind].
  rewrite (IH _ _ _ eq_refl). reflexivity.
Qed.
Lemma files_erase pt files : forall ev n told, files_told w read_file ignore_keep verbose color headers generated known pt files = Ret (ev, n, told) ->
  edits_for_files w read_file ignore_keep headers known pt files = Ret (ev, n).
Proof.
  induction files as [|[p f] files IH]; intros ev n told E; cbn [files_told edits_for_files] in *; [now injection E as <- <- _|].
  destruct (match_package _ _); [|eauto].
  step E as rs by S. step E as [[e1 n1] t1] by S0. step E as [[e2 n2] t2] by S1. injection E as <- <- _. cbn [bind]. apply rules_erase in S0. rewrite S0. cbn [bind].
  rewrite (IH _ _ _ eq_refl). reflexivity.
Qed.
End Same.
Theorem told_same w rf ik v c pr pt ev n log : dependency_edits_told w rf ik v c pr pt = Ret (ev, n, log) -> dependency_edits w rf ik pr pt = Ret (ev, n).
Proof.
  unfold dependency_edits_told, dependency_edits. intros E. step E as hd by S. step E as [g t1] by S0. step E as kn by S1. step E as [[e2 n2] t2] by S2. injection E as <- <- _.
  cbn [bind]. now apply files_erase in S2.
Qed.

(** * Where includes are *)
Lemma path_no_quote p : header_path p -> ~ In DQ p.
Proof.
  intros (n & name & exts & -> & _ & Fn & Fe) I. apply in_app_or in I as [I|I].
  - apply in_concat in I as (x & Ix & I). apply repeat_spec in Ix. subst x. vm_compute in I. intuition discriminate.
  - apply in_app_or in I as [I|I].
    + rewrite Forall_forall in Fn. destruct (Fn _ I) as [[L|L]|[L|L]]; vm_compute in L; intuition (try discriminate; try congruence).
    + apply in_concat in I as (x & Ix & I). apply in_map_iff in Ix as (e & <- & Ie). destruct I as [C|I]; [discriminate|].
      destruct (Fe e Ie) as [_ F]. rewrite Forall_forall in F. destruct (F _ I) as [L|L]; vm_compute in L; intuition congruence.
Qed.
Lemma included_parts content off p : included content off p -> exists a b, content = a ++ DQ :: p ++ DQ :: b /\ off = length a + 1 /\ ~ In DQ p.
Proof.
  intros (before & w1 & w2 & w3 & after & -> & _ & _ & _ & _ & _ & _ & Hp & ->).
  exists (before ++ w1 ++ $"#" ++ w2 ++ $"include" ++ w3), after. split; [now rewrite <- !app_assoc|]. split; [|now apply path_no_quote].
  rewrite !app_length. cbn [length]. lia.
Qed.
Lemma firstn_front {A} (a b : list A) : firstn (length a) (a ++ b) = a.
Proof. now rewrite firstn_app, Nat.sub_diag, firstn_all, app_nil_r. Qed.
Lemma included_ordered content off p off' p' : included content off p -> included content off' p' -> off <= off' -> off + length p <= off' + length p'.
Proof.
  intros A B L. apply included_parts in A as (a & b & E & -> & N). apply included_parts in B as (a' & b' & E' & -> & _).
  destruct (Nat.le_gt_cases (length a + 1 + length p) (length a' + 1 + length p')); auto. exfalso.
  assert (Q : nth_error content (length a') = Some DQ).
  { rewrite E'. rewrite nth_error_app2 by lia. now rewrite Nat.sub_diag. }
  destruct (Nat.eq_dec (length a) (length a')) as [e|Ne].
  - assert (EE := E'). rewrite E in EE. assert (a = a') as ->.
    { rewrite <- (firstn_front a (DQ :: p ++ DQ :: b)), <- (firstn_front a' (DQ :: p' ++ DQ :: b')), EE, e. reflexivity. }
    apply app_inv_head in EE. injection EE as EE. assert (K : nth_error (p ++ DQ :: b) (length p') = Some DQ).
    { rewrite EE, nth_error_app2, Nat.sub_diag; auto. }
    rewrite nth_error_app1 in K by lia. apply nth_error_In in K. contradiction.
  - rewrite E in Q. rewrite nth_error_app2 in Q by lia. destruct (length a' - length a) as [|k] eqn:K; [lia|]. cbn [nth_error] in Q.
    rewrite nth_error_app1 in Q by lia. apply nth_error_In in Q. contradiction.
Qed.
Lemma last_in {A} (l : list A) d : l <> [] -> In (last l d) l.
Proof. induction l as [|x l IH]; [congruence|]. intros _. destruct l as [|y l]; [left; auto|]. right. apply IH. discriminate. Qed.
Lemma sorted_last (l : list (nat * str)) d x : StronglySorted lt (map fst l) -> In x l -> fst x <= fst (last l d).
Proof.
  induction l as [|y l IH]; [intros _ []|]. intros S I. cbn [map] in S. inversion S as [|? ? Sl F]; subst. destruct l as [|z l].
  - destruct I as [<-|[]]. auto.
  - change (last (y :: z :: l) d) with (last (z :: l) d). destruct I as [<-|I]; [|auto].
    rewrite Forall_forall in F. assert (fst y < fst (last (z :: l) d)); [|lia]. apply F. apply in_map. apply last_in. discriminate.
Qed.
Lemma print_range_place content off len l1 c1 l2 c2 : (Z.of_nat (length content) < 2147483647)%Z -> off + len <= length content ->
  is_position content off (mkLC l1 c1) -> is_position content (off + len) (mkLC l2 c2) ->
  place content off len (print_lc_range (mkLC l1 c1, mkLC l2 c2)).
Proof.
  intros Sz Le P1 P2.
  assert (B1 : l1 + c1 <= length content) by (apply (position_bound _ off); [lia|exact P1]).
  assert (B2 : l2 + c2 <= length content) by (apply (position_bound _ (off + len)); [lia|exact P2]).
  exists l1, c1, l2, c2, (print_int (Z.of_nat (l1 + 1))), (print_int (Z.of_nat (c1 + 1))), (print_int (Z.of_nat (l2 + 1))), (print_int (Z.of_nat c2)).
  split; [exact P1|]. split; [exact P2|]. do 4 (split; [apply print_decimal; lia|]).
  unfold print_lc_range, print_position. rewrite !Nat2Z.inj_add. change (Z.of_nat 1) with 1%Z.
  replace (Z.of_nat c2 - 1 + 1)%Z with (Z.of_nat c2) by lia. rewrite <- !app_assoc. do 3 f_equal.
  destruct (Z.eqb_spec (Z.of_nat l1) (Z.of_nat l2)), (Nat.eqb_spec l1 l2); try lia; [|rewrite <- ?app_assoc; reflexivity].
  destruct (Z.ltb_spec (Z.of_nat c1) (Z.of_nat c2 - 1)), (Nat.ltb_spec (c1 + 1) c2); try lia; rewrite <- ?app_assoc; reflexivity.
Qed.
Lemma included_bound content off p : included content off p -> off + length p <= length content.
Proof. intros A. apply included_parts in A as (a & b & -> & -> & _). rewrite !app_length. cbn [length]. rewrite app_length. cbn [length]. lia. Qed.
Lemma source_loc_spec name content off inc : (Z.of_nat (length content) < 2147483647)%Z -> In (off, inc) (extract_cc_includes content) ->
  exists l, source_loc name content (extract_cc_includes content) off (length inc) = Ret l /\ seen_at name content off inc l.
Proof.
  intros Sz I. destruct (extract_spec content) as [X S]. assert (In0 := I). apply X in I. assert (B := included_bound _ _ _ I).
  unfold source_loc. destruct (Nat.ltb_spec (length content) (off + length inc)); [lia|].
  set (all := extract_cc_includes content) in *.
  destruct (last all (0, [])) as [lo li] eqn:El. assert (Il : In (lo, li) all).
  { rewrite <- El. apply last_in. intros E. rewrite E in In0. destruct In0. }
  assert (K : include_lines content all = line_map_of (firstn (lo + length li) content)).
  { unfold include_lines. rewrite El. destruct all; [destruct In0|reflexivity]. }
  rewrite K. assert (off <= lo) by (change lo with (fst (lo, li)); rewrite <- El; change off with (fst (off, inc)); apply sorted_last; auto).
  apply X in Il. assert (O := included_ordered _ _ _ _ _ I Il H0). assert (Bl := included_bound _ _ _ Il).
  unfold get_range. destruct (get_pos_true (firstn (lo + length li) content) off) as [[l1 c1] [-> P1]]; [rewrite firstn_length; lia|].
  destruct (get_pos_true (firstn (lo + length li) content) (off + length inc)) as [[l2 c2] [-> P2]]; [rewrite firstn_length; lia|].
  eexists. split; [reflexivity|]. eexists. split; [reflexivity|]. apply print_range_place; auto.
  - eapply is_position_firstn; [|exact P1]. lia.
  - eapply is_position_firstn; [|exact P2]. lia.
Qed.
