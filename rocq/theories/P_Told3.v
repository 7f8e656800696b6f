(** What is said of syntax errors, and what a graph misses. *)
From Coq Require Import Lia Permutation.
From Verif Require Import Base OMap M_Types M_Scanner M_Ast M_Parser M_Query M_Elab M_Workspace M_Project P_Project M_DepGraph S_DepGraph P_DepGraph
  S_Run P_Run M_Commands S_Commands P_Commands M_ParseErrors S_ParseErrors P_ParseErrors M_Told S_Told P_Told P_Told2.

(** * Syntax errors *)
Definition text_of (f : parsed_file) : str := match file_messages f with Ret t => t | _ => [] end.
Definition file_note (f : parsed_file) : list note := match pf_errors f with [] => [] | _ => [NSyntax (pf_name f) (text_of f)] end.
Definition notes_of (files : list (package * parsed_file)) : list note := flat_map (fun e => file_note (snd e)) files.
Lemma notes_perm l l' : Permutation l l' -> Permutation (notes_of l) (notes_of l').
Proof. apply Permutation_flat_map. Qed.
Lemma insert_perm p f (l : list (package * parsed_file)) : map_find p l = None -> Permutation (map_insert p f l) ((p, f) :: l).
Proof.
  induction l as [|[k x] l IH]; cbn [map_find map_insert]; [reflexivity|]. unfold keqb. destruct (kcmp p k); [discriminate|reflexivity|]. intros H.
  rewrite (IH H). apply perm_swap.
Qed.
Lemma set_insert_perm p f f' (l : list (package * parsed_file)) : map_find p l = None -> Permutation (map_set p f' (map_insert p f l)) ((p, f') :: l).
Proof.
  unfold map_set. induction l as [|[k x] l IH]; cbn [map_find map_insert].
  - intros _. cbn [map_update]. rewrite kcmp_refl. reflexivity.
  - unfold keqb. destruct (kcmp p k) eqn:C; [discriminate| |].
    + intros _. cbn [map_update]. rewrite kcmp_refl. reflexivity.
    + intros H. cbn [map_update]. rewrite C. rewrite (IH H). apply perm_swap.
Qed.
Definition same_text (f f' : parsed_file) : Prop := pf_name f' = pf_name f /\ pf_content f' = pf_content f /\ pf_errors f' = pf_errors f.
Lemma same_note f f' : same_text f f' -> file_note f' = file_note f.
Proof. intros (A & B & C). unfold file_note, text_of, file_messages. now rewrite A, B, C. Qed.
Lemma elaborate_same gi f f' : elaborate_file gi f = Ret f' -> same_text f f' /\ pf_package f' = pf_package f.
Proof. unfold elaborate_file. destruct (elaborate _ _); try discriminate. cbn [bind]. intros [= <-]. repeat split. Qed.
Lemma elaborate_files_same gi l : forall l', elaborate_files gi l = Ret l' -> Forall2 (fun e e' => fst e' = fst e /\ same_text (snd e) (snd e')) l l'.
Proof.
  induction l as [|[p f] l IH]; intros l' E; cbn [elaborate_files] in E; [injection E as <-; constructor|].
  destruct (elaborate_file gi f) as [f'| |] eqn:F; try discriminate. cbn [bind] in E. destruct (elaborate_files gi l) as [l2| |]; try discriminate. cbn [bind] in E. injection E as <-.
  constructor; [|auto]. apply elaborate_same in F as [F _]. auto.
Qed.
Lemma same_notes l l' : Forall2 (fun e e' : package * parsed_file => fst e' = fst e /\ same_text (snd e) (snd e')) l l' -> notes_of l' = notes_of l.
Proof. induction 1 as [|[p f] [p' f'] l l' [_ S] _ IH]; [reflexivity|]. unfold notes_of in *. cbn [flat_map snd] in *. now rewrite IH, (same_note _ _ S). Qed.
Lemma syntax_own f text : file_messages f = Ret text ->
  filter about_syntax (if is_nil (pf_errors f) then [] else [NSyntax (pf_name f) text]) = file_note f.
Proof. unfold file_note, text_of. intros ->. destruct (pf_errors f); reflexivity. Qed.

Section Loading.
Variable w : workspace.
Variable read_file : str -> option str.
Variable can_read : str -> bool.
Variable glob_in : package -> list str -> list str -> list str.
(** The files are parsed from what is read. *)
Definition from_read (pr : parsed_project) : Prop := forall p f, In (p, f) (pr_files pr) ->
  read_file (pf_name f) = Some (pf_content f) /\ exists stmts, parse (pf_content f) = Ret (stmts, pf_errors f).
Definition adds (pr pr' : parsed_project) (l : list note) : Prop :=
  Permutation (notes_of (pr_files pr) ++ filter about_syntax l) (notes_of (pr_files pr')) /\ (from_read pr -> from_read pr').
Lemma adds_refl pr : adds pr pr [].
Proof. split; [cbn [filter]; now rewrite app_nil_r|auto]. Qed.
Lemma adds_trans a b c l l' : adds a b l -> adds b c l' -> adds a c (l ++ l').
Proof. intros [A A'] [B B']. split; [|auto]. rewrite filter_app, app_assoc, A. exact B. Qed.
Lemma adds_other pr l : (forall n, In n l -> about_syntax n = false) -> adds pr pr l.
Proof.
  intros H. split; [|auto]. assert (X : filter about_syntax l = []); [|rewrite X, app_nil_r; reflexivity].
  induction l as [|n l IH]; [reflexivity|]. cbn [filter]. rewrite (H n (or_introl eq_refl)). apply IH. intros m I. apply H. now right.
Qed.
Lemma add_content_adds pr p name content pr' f l : read_file name = Some content -> add_content_told pr p name content = Ret (pr', f, l) ->
  adds pr pr' l /\ match find_parsed pr p with
                   | Some f0 => pr' = pr /\ f = f0
                   | None => pr_files pr' = map_insert p f (pr_files pr) /\ adds pr (mkProject ((p, f) :: pr_files pr) 0) l
                   end.
Proof.
  intros R E. unfold add_content_told in E. destruct (find_parsed pr p) as [f0|] eqn:F.
  - chunk E. apply pair_equal_spec in E0 as [-> ->]. subst l. split; [|auto]. apply adds_other. intros n [<-|[]]. reflexivity.
  - destruct (parse content) as [[ast errs]| |] eqn:P; try discriminate. cbn [bind] in E. cbv zeta in E. destruct (file_messages _) as [text| |] eqn:M in E; try discriminate. cbn [bind] in E.
    chunk E. apply pair_equal_spec in E0 as [-> ->]. assert (X := syntax_own _ _ M). cbn [pf_errors pf_name] in X. rewrite <- Q in X.
    assert (K : adds pr (mkProject ((p, mkFile p name content ast errs) :: pr_files pr) 0) l).
    { split; cbn [pr_files].
      - rewrite X. unfold notes_of. cbn [flat_map snd]. apply Permutation_app_comm.
      - intros H q g I. cbn [pr_files] in I. destruct I as [I|I]; [injection I as <- <-; cbn [pf_name pf_content pf_errors]; split; [exact R|eauto]|eapply H; eauto]. }
    split; [|split; [reflexivity|exact K]]. destruct K as [K1 K2]. split; cbn [pr_files] in *.
    + rewrite K1. apply notes_perm. symmetry. apply insert_perm. exact F.
    + intros H q g I. apply (K2 H q g). cbn [pr_files] in *. eapply Permutation_in; [apply insert_perm; exact F|exact I].
Qed.
Lemma add_file_adds pr name p pr' f l : add_file_told read_file pr name p = Ret (pr', f, l) ->
  adds pr pr' l /\ forall f', f = Some f' -> find_parsed pr p = None -> pr_files pr' = map_insert p f' (pr_files pr) /\ adds pr (mkProject ((p, f') :: pr_files pr) 0) l.
Proof.
  unfold add_file_told. destruct (read_file name) as [content|] eqn:R; intros E.
  - chunk E. destruct a as [pr1 f1]. chunk E. apply pair_equal_spec in E1 as [-> ->]. subst l l1. rewrite app_nil_r. destruct (add_content_adds _ _ _ _ _ _ _ R E0) as [A B]. split; [exact A|].
    intros f' [= <-] N. rewrite N in B. exact B.
  - chunk E. apply pair_equal_spec in E0 as [-> ->]. subst l. split; [|discriminate]. apply (adds_other pr). intros n [<-|[]]. reflexivity.
Qed.
Lemma add_file_in_adds pr x proj pr' l : add_file_in_told w read_file pr x proj = Ret (pr', l) -> adds pr pr' l.
Proof.
  unfold add_file_in_told. intros E. chunk E. chunk E0. subst l0. cbn [app] in Q. subst l1. destruct a as [p|].
  - chunk E. destruct a as [pr1 f1]. chunk E. subst l1 l pr'. rewrite app_nil_r. apply (add_file_adds _ _ _ _ _ _ E1).
  - chunk E. subst. apply adds_other. intros n [<-|[]]. reflexivity.
Qed.
Lemma add_files_adds files proj : forall pr pr' l, add_files_told w read_file pr files proj = Ret (pr', l) -> adds pr pr' l.
Proof.
  induction files as [|x files IH]; intros pr pr' l E; cbn [add_files_told] in E; [chunk E; subst; apply adds_refl|].
  chunk E. subst l. eapply adds_trans; [eapply add_file_in_adds; exact E0|eapply IH; exact E].
Qed.
Lemma fill_adds collect pt pr pr' l : fill_told w read_file collect pr pt = Ret (pr', l) -> adds pr pr' l.
Proof.
  unfold fill_told. cbv zeta. intros E. chunk E. chunk E0. chunk E. chunk E. subst. eapply adds_trans; [|eapply adds_trans; [eapply add_files_adds; eassumption|]].
  - apply adds_other. intros n I. destruct (_ && _) in I; [destruct I as [<-|[]]; reflexivity|destruct I].
  - apply adds_other. intros n I. destruct (is_nil _) in I; [destruct I as [<-|[]]; reflexivity|destruct I].
Qed.
Lemma elaborate_adds gi pr pr' : elaborate_project gi pr = Ret pr' -> adds pr pr' [].
Proof.
  unfold elaborate_project. destruct (elaborate_files gi (pr_files pr)) as [l| |] eqn:E; try discriminate. cbn [bind]. intros [= <-]. apply elaborate_files_same in E. split; cbn [pr_files filter].
  - rewrite app_nil_r, (same_notes _ _ E). reflexivity.
  - intros H p f I. cbn [pr_files] in I. clear - E H I.
    assert (X : forall l0 l1, Forall2 (fun e e' : package * parsed_file => fst e' = fst e /\ same_text (snd e) (snd e')) l0 l1 -> In (p, f) l1 -> exists f0, In (p, f0) l0 /\ same_text f0 f).
    { induction 1 as [|[q g] [q' g'] l0 l1 [Q S] _ IH]; intros J; [destruct J|]. cbn [fst snd] in *. destruct J as [J|J]; [injection J as -> ->; exists g; subst; split; [now left|exact S]|].
      destruct (IH J) as (f0 & J1 & J2). exists f0. split; [now right|exact J2]. }
    destruct (X _ _ E I) as (f0 & J & (N & C & Er)). rewrite N, C, Er. eapply H; eauto.
Qed.
Lemma parse_missing_adds pr errs p pr' errs' l : parse_missing_told w read_file can_read glob_in (pr, errs) p = Ret (pr', errs', l) ->
  adds pr pr' l /\ Forall (fun n => about_syntax n = true) l /\
  forall q, In q errs' <-> In q errs \/ q = p /\ find_parsed pr p = None /\ path_for_package w can_read p = None.
Proof.
  unfold parse_missing_told. destruct (find_parsed pr p) as [f0|] eqn:F; intros E.
  { chunk E. apply pair_equal_spec in E0 as [-> ->]. subst l. split; [apply adds_refl|]. split; [constructor|]. intros q. split; [auto|]. intros [H|(_ & H & _)]; [exact H|discriminate]. }
  destruct (path_for_package w can_read p) as [name|] eqn:Pa.
  2: { chunk E. apply pair_equal_spec in E0 as [-> ->]. subst l. split; [apply adds_refl|]. split; [constructor|]. intros q. rewrite set_insert_in. tauto. }
  chunk E. destruct a as [pr1 [f|]]; [|discriminate]. chunk E. chunk E1. chunk E. apply pair_equal_spec in E2 as [-> ->]. subst l l1 l2 l3. cbn [app]. rewrite app_nil_r.
  destruct (add_file_adds _ _ _ _ _ _ E0) as [_ B]. destruct (B f eq_refl F) as [Ef K]. apply elaborate_same in E1 as [St Pk]. split; [|split].
  - destruct K as [K1 K2]. split; cbn [pr_files] in *.
    + rewrite K1. unfold notes_of. cbn [flat_map snd]. rewrite <- (same_note _ _ St). rewrite Ef. symmetry.
      etransitivity; [apply notes_perm, set_insert_perm; exact F|reflexivity].
    + intros H q g I. rewrite Ef in I. eapply Permutation_in in I; [|apply set_insert_perm; exact F]. destruct I as [I|I]; [|eapply H; eauto]. injection I as <- <-.
      destruct St as (N & C & Er). rewrite N, C, Er. apply (K2 H p). cbn [pr_files]. now left.
  - unfold add_file_told in E0. destruct (read_file name); [|discriminate]. chunk E0. destruct a0 as [pr2 f2]. chunk E0. subst. rewrite app_nil_r.
    unfold add_content_told in E. rewrite F in E. destruct (parse _) as [[ast er]| |]; try discriminate. cbn [bind] in E. cbv zeta in E. destruct (file_messages _) in E; try discriminate. cbn [bind] in E.
    chunk E. subst. destruct (is_nil er); repeat constructor.
  - intros q. split; [auto|]. intros [H|(_ & _ & H)]; [exact H|discriminate].
Qed.
Lemma find_missing_adds want : forall pr errs pr' errs' l, find_missing_told w read_file can_read glob_in want (pr, errs) = Ret (pr', errs', l) ->
  adds pr pr' l /\ Forall (fun n => about_syntax n = true) l.
Proof.
  induction want as [|p want IH]; intros pr errs pr' errs' l E; cbn [find_missing_told] in E; [chunk E; apply pair_equal_spec in E0 as [-> ->]; subst l; split; [apply adds_refl|constructor]|].
  chunk E. destruct a as [pr1 errs1]. subst l. apply parse_missing_adds in E0 as (A & B & _). apply IH in E as [A' B']. split; [eapply adds_trans; eauto|apply Forall_app; auto].
Qed.
Lemma round_adds g pr mi todo g' pr' mi' todo' l : round_told w read_file can_read glob_in g pr mi todo = Ret (g', pr', mi', todo', l) ->
  adds pr pr' l /\ Forall (fun n => about_syntax n = true) l.
Proof.
  unfold round_told. cbv zeta. intros E. chunk E. destruct a as [pr1 errs1]. chunk E. chunk E1. chunk E. apply pair_equal_spec in E2 as [E2 ->]. apply pair_equal_spec in E2 as [E2 ->]. apply pair_equal_spec in E2 as [-> ->].
  subst. cbn [app]. rewrite app_nil_r. eapply find_missing_adds; eauto.
Qed.
Lemma rounds_adds depth : forall g pr mi todo g' pr' mi' todo' l, rounds_told w read_file can_read glob_in depth g pr mi todo = Ret (g', pr', mi', todo', l) ->
  adds pr pr' l /\ Forall (fun n => about_syntax n = true) l.
Proof.
  induction depth as [|depth IH]; intros g pr mi todo g' pr' mi' todo' l E; cbn [rounds_told] in E; chunk E; destruct a as [[[g1 pr1] mi1] todo1]; subst l; apply round_adds in E0 as [A B].
  - chunk E. apply pair_equal_spec in E0 as [E0 ->]. apply pair_equal_spec in E0 as [E0 ->]. apply pair_equal_spec in E0 as [-> ->]. subst l1. rewrite app_nil_r. auto.
  - destruct (is_nil todo1).
    + chunk E. apply pair_equal_spec in E0 as [E0 ->]. apply pair_equal_spec in E0 as [E0 ->]. apply pair_equal_spec in E0 as [-> ->]. subst l1. rewrite app_nil_r. auto.
    + apply IH in E as [A' B']. split; [eapply adds_trans; eauto|apply Forall_app; auto].
Qed.
End Loading.
Lemma notes_said pr : (forall p f, In (p, f) (pr_files pr) -> plain_lines (pf_content f) /\ exists stmts, parse (pf_content f) = Ret (stmts, pf_errors f)) ->
  syntax_notes pr (notes_of (pr_files pr)).
Proof.
  unfold syntax_notes. intros H. induction (pr_files pr) as [|[p f] l IH]; [constructor|]. unfold notes_of in *. cbn [map snd filter flat_map].
  specialize (IH (fun q g I => H q g (or_intror I))). destruct (H p f (or_introl eq_refl)) as (Pl & stmts & P). unfold file_note at 1.
  destruct (pf_errors f) as [|e es] eqn:Er; [exact IH|]. cbn [app]. constructor; [|exact IH]. exists (text_of f). split; [|reflexivity].
  destruct (file_messages_defined f stmts) as (t & T); [rewrite Er; exact P|]. unfold text_of. rewrite T. rewrite <- Er in P. exact (text_said f stmts t Pl P T).
Qed.
