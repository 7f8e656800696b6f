(** Proofs about the messages of dwyu: genrules, all the files, that all can be said, and -v. *)
From Coq Require Import Sorted.
From Verif Require Import Base OMap M_Types M_Scanner S_Scanner P_Scanner M_Ast M_Parser S_Parser P_Parser M_Query S_Query P_Query M_Elab S_Elab P_Elab S_Locations P_Locations
  M_Workspace M_Project P_Project M_DepGraph S_DepGraph M_Headers S_Headers P_Headers M_Includes S_Includes P_Includes M_Dwyu S_Dwyu P_Dwyu M_Edits M_Printer M_Highlight
  M_Commands S_Commands P_Commands M_Messages S_Messages P_Messages P_DepGraph P_Messages2 C_Locations P_Total.

(** * Genrules *)
Definition keeps_all (m m' : provided) : Prop := msorted m' /\ forall k t, map_find k m = Some t -> map_find k m' = Some t.
Lemma keeps_trans a b c : keeps_all a b -> keeps_all b c -> keeps_all a c.
Proof. intros [_ H] [O H']. split; auto. Qed.
Lemma keeps_insert k t m : msorted m -> keeps_all m (map_insert k t m) /\ (map_find k m = None -> map_find k (map_insert k t m) = Some t).
Proof.
  intros O. split; [split; [now apply map_insert_sorted|]|].
  - intros k' t' F. rewrite map_insert_find by auto. now rewrite F.
  - intros F. rewrite map_insert_find, F by auto. assert (K : keqb k k = true) by now apply keqb_eq. now rewrite K.
Qed.

Definition again_in (final : provided) (f : parsed_file) (t : target) (out : view) (other : target) : Prop :=
  project (pf_package f) = [] /\ map_find (qualified_file (pf_package f) (v_text out)) final = Some other /\ other <> t.
Lemma genfiles_keeps f t outs : forall m m' told, msorted m -> genfiles_told f false t outs m = Ret (m', told) -> keeps_all m m'.
Proof.
  induction outs as [|g outs IH]; intros m m' told O E; cbn [genfiles_told] in E.
  - injection E as <- <-. split; auto.
  - cbv zeta in E. step E as ms by S. step E as [m1 ms1] by S0. injection E as <- <-.
    destruct (keeps_insert (key_transform (qualified_file (pf_package f) (v_text g)) false) t m O) as [K _].
    eapply keeps_trans; [exact K|]. eapply IH; [apply K|exact S0].
Qed.
Lemma genfiles_told_spec f t outs : plain_lines (pf_content f) -> forall m m' told final, msorted m ->
  genfiles_told f false t outs m = Ret (m', told) -> keeps_all m' final ->
  (forall s, In s told -> exists out other, In out outs /\ again_in final f t out other /\ again_said f t out other s) /\
  (forall out other, In out outs -> again_in final f t out other -> exists s, In s told /\ again_said f t out other s).
Proof.
  intros Pl. induction outs as [|g outs IH]; intros m m' told final O E K; cbn [genfiles_told] in E.
  - injection E as <- <-. split; [intros s []|intros out other []].
  - cbv zeta in E. step E as ms by S. step E as [m1 ms1] by S0. injection E as <- <-.
    change (key_transform (qualified_file (pf_package f) (v_text g)) false) with (qualified_file (pf_package f) (v_text g)) in *.
    set (k := qualified_file (pf_package f) (v_text g)) in *.
    destruct (keeps_insert k t m O) as [Ki Kn].
    assert (K1 : keeps_all (map_insert k t m) final) by (eapply keeps_trans; [eapply genfiles_keeps; [apply Ki|exact S0]|exact K]).
    destruct (IH _ _ _ final (proj1 Ki) S0 K) as [A B].
    assert (H : (forall s, In s ms -> exists other, again_in final f t g other /\ again_said f t g other s) /\
                (forall other, again_in final f t g other -> exists s, In s ms /\ again_said f t g other s)).
    { destruct (map_find k m) as [o|] eqn:F.
      - assert (Fo : map_find k final = Some o) by (apply K1, Ki, F).
        destruct (negb (target_eqb t o) && is_nil (project (pf_package f)))%bool eqn:C.
        + step S as l by L. apply ret_eq in S. subst ms. apply loc_spec in L; [|auto]. apply andb_true_iff in C as [C1 C2].
          apply negb_true_iff in C1. assert (N : o <> t) by (intros ->; rewrite (proj2 (target_eqb_eq t t) eq_refl) in C1; discriminate).
          assert (Pj : project (pf_package f) = []) by (destruct (project (pf_package f)); [auto|discriminate]).
          split.
          * intros s [<-|[]]. exists o. split; [split; auto|]. exists l. auto.
          * intros other (_ & Fx & _). assert (other = o) by (unfold k in Fo; congruence). subst other. eexists. split; [left; reflexivity|]. exists l. auto.
        + apply ret_eq in S. subst ms. split; [intros s []|]. intros other (Pj & Fx & N). exfalso. assert (other = o) by (unfold k in Fo; congruence). subst other.
          rewrite Pj in C. cbn [is_nil] in C. rewrite andb_true_r in C. apply negb_false_iff, target_eqb_eq in C. congruence.
      - apply ret_eq in S. subst ms. split; [intros s []|]. intros other (Pj & Fx & N). exfalso.
        assert (Fo : map_find k final = Some t) by (apply K1, Kn; auto). unfold k in Fo. congruence. }
    destruct H as [H1 H2]. split.
    + intros s I. apply in_app_iff in I as [I|I].
      * destruct (H1 s I) as (other & X & Y). exists g, other. cbn; auto.
      * destruct (A s I) as (out & other & X & Y). exists out, other. cbn; auto.
    + intros out other [<-|I] Ag.
      * destruct (H2 other Ag) as (s & X & Y). exists s. rewrite in_app_iff. auto.
      * destruct (B out other I Ag) as (s & X & Y). exists s. rewrite in_app_iff. auto.
Qed.
Definition out_of (f : parsed_file) (rs : list result) (t : target) (out : view) : Prop :=
  exists r, In r rs /\ qualified_target (pf_package f) (v_text (q_name r)) = Some t /\ In out (entries (list_of (q_outs r))).
Lemma genrules_keeps f rs : forall m m' told, msorted m -> genrules_told f false rs m = Ret (m', told) -> keeps_all m m'.
Proof.
  induction rs as [|r rs IH]; intros m m' told O E; cbn [genrules_told] in E; [injection E as <- <-; split; auto|].
  step E as vs by S. step E as [m1 ms1] by S0. step E as [m2 ms2] by S1. injection E as <- <-.
  assert (K : keeps_all m m1).
  { destruct (qualified_target _ _); [eapply genfiles_keeps; eauto|]. injection S0 as <- <-. split; auto. }
  eapply keeps_trans; [exact K|]. eapply IH; [apply K|exact S1].
Qed.
Lemma genrules_told_spec f rs : plain_lines (pf_content f) -> forall m m' told final, msorted m ->
  genrules_told f false rs m = Ret (m', told) -> keeps_all m' final ->
  (forall s, In s told -> exists t out other, out_of f rs t out /\ again_in final f t out other /\ again_said f t out other s) /\
  (forall t out other, out_of f rs t out -> again_in final f t out other -> exists s, In s told /\ again_said f t out other s).
Proof.
  intros Pl. induction rs as [|r rs IH]; intros m m' told final O E K; cbn [genrules_told] in E.
  - injection E as <- <-. split; [intros s []|]. intros t out other (r & [] & _).
  - step E as vs by S. step E as [m1 ms1] by S0. step E as [m2 ms2] by S1. injection E as <- <-. apply extract_entries in S. subst vs.
    assert (K1 : keeps_all m m1).
    { destruct (qualified_target _ _); [eapply genfiles_keeps; eauto|]. injection S0 as <- <-. split; auto. }
    destruct (IH _ _ _ final (proj1 K1) S1 K) as [A B].
    assert (K2 : keeps_all m1 final) by (eapply keeps_trans; [eapply genrules_keeps; [apply K1|exact S1]|exact K]).
    destruct (qualified_target (pf_package f) (v_text (q_name r))) as [t0|] eqn:Q.
    + destruct (genfiles_told_spec f t0 _ Pl _ _ _ final O S0 K2) as [A0 B0]. split.
      * intros s I. apply in_app_iff in I as [I|I].
        -- destruct (A0 s I) as (out & other & X & Y). exists t0, out, other. split; [|auto]. exists r. cbn; auto.
        -- destruct (A s I) as (t & out & other & (r' & X1 & X2) & Y). exists t, out, other. split; [|auto]. exists r'. cbn; auto.
      * intros t out other (r' & [<-|I] & Q' & Io) Ag.
        -- assert (t = t0) by congruence. subst t. destruct (B0 out other Io Ag) as (s & X & Y). exists s. rewrite in_app_iff. auto.
        -- destruct (B t out other) as (s & X & Y); [exists r'; auto|auto|]. exists s. rewrite in_app_iff. auto.
    + injection S0 as <- <-. cbn [app]. split.
      * intros s I. destruct (A s I) as (t & out & other & (r' & X1 & X2) & Y). exists t, out, other. split; [|auto]. exists r'. cbn; auto.
      * intros t out other (r' & [<-|I] & Q' & Io) Ag; [congruence|]. apply (B t out other); auto. exists r'. auto.
Qed.
Lemma genfiles_all_told_spec files : (forall q f, In (q, f) files -> plain_lines (pf_content f)) -> forall m m' told, msorted m ->
  genrules_of_files_told false files m = Ret (m', told) -> keeps_all m m' /\ forall final, keeps_all m' final ->
  (forall s, In s told -> exists q f rs t out other, In (q, f) files /\ find_targets [$"genrule"] (pf_ast f) = Ret rs /\ out_of f rs t out /\
     again_in final f t out other /\ again_said f t out other s) /\
  (forall q f rs t out other, In (q, f) files -> find_targets [$"genrule"] (pf_ast f) = Ret rs -> out_of f rs t out -> again_in final f t out other ->
     exists s, In s told /\ again_said f t out other s).
Proof.
  induction files as [|[q f] files IH]; intros Pl m m' told O E; cbn [genrules_of_files_told] in E.
  - injection E as <- <-. split; [split; auto|]. intros final K. split; [intros s []|]. intros q f rs t out other [].
  - step E as rs by S. step E as [m1 ms1] by S0. step E as [m2 ms2] by S1. injection E as <- <-.
    assert (K1 : keeps_all m m1) by (eapply genrules_keeps; eauto).
    destruct (IH (fun q f I => Pl q f (or_intror I)) _ _ _ (proj1 K1) S1) as [K2 H]. split; [eapply keeps_trans; eauto|].
    intros final K. destruct (H final K) as [A B].
    destruct (genrules_told_spec f rs (Pl q f (or_introl eq_refl)) _ _ _ final O S0 (keeps_trans _ _ _ K2 K)) as [A0 B0]. split.
    + intros s I. apply in_app_iff in I as [I|I].
      * destruct (A0 s I) as (t & out & other & X & Y). exists q, f, rs, t, out, other. cbn; auto.
      * destruct (A s I) as (q' & f' & rs' & t & out & other & X & Y). exists q', f', rs', t, out, other. cbn; auto.
    + intros q' f' rs' t out other [I|I] Fr Oo Ag.
      * injection I as <- <-. assert (rs' = rs) by congruence. subst rs'. destruct (B0 t out other Oo Ag) as (s & X & Y). exists s. rewrite in_app_iff. auto.
      * destruct (B q' f' rs' t out other I Fr Oo Ag) as (s & X & Y). exists s. rewrite in_app_iff. auto.
Qed.
Lemma again_spec pr generated told : (forall q f, In (q, f) (pr_files pr) -> plain_lines (pf_content f)) ->
  generated_from_genrule_told pr false = Ret (generated, told) ->
  (forall s, In s told -> exists f t out other, made_again pr generated f t out other /\ again_said f t out other s) /\
  (forall f t out other, made_again pr generated f t out other -> exists s, In s told /\ again_said f t out other s).
Proof.
  intros Pl E. destruct (genfiles_all_told_spec _ Pl [] generated told) as [[O _] H]; [exact I|exact E|].
  destruct (H generated) as [A B]; [split; auto|]. split.
  - intros s J. destruct (A s J) as (q & f & rs & t & out & other & I1 & F & (r & I2 & Q & I3) & (P & M & N) & Sd). exists f, t, out, other. split; [|auto].
    split; [auto|]. split; [|auto]. exists q, rs, r. auto.
  - intros f t out other (P & (q & rs & r & I1 & F & I2 & Q & I3) & M & N). eapply (B q f rs); eauto; [exists r; auto|split; auto].
Qed.

(** * All the targets *)
Section Run.
Variable w : workspace.
Variable read_file : str -> option str.
Variable ignore_keep : bool.
Variable verbose : nat.
Variable color : bool.
Variable headers : provided_set.
Variable generated : provided.
Variable known : list (target * result).
Variable pt : pattern.
Local Notation told_of x := (create_edits_told w read_file ignore_keep verbose color headers generated known (fst (fst x)) (snd (fst x)) (snd x)).
Lemma rules_told_spec f rs : forall ev n log, rules_told w read_file ignore_keep verbose color headers generated known pt f rs = Ret (ev, n, log) ->
  exists l evs mss, Forall2 (fun x y => told_of x = Ret y) l (combine evs mss) /\ length evs = length l /\ length mss = length l /\
   ev = concat evs /\ n = length l /\ log = concat mss /\
   forall t r g, In (t, r, g) l <-> g = f /\ In r rs /\ qualified_target (pf_package f) (v_text (q_name r)) = Some t /\ match_target pt t = true.
Proof.
  induction rs as [|r rs IH]; intros ev n log E; cbn [rules_told] in E.
  - injection E as <- <- <-. exists [], [], []. repeat split; try constructor; intros; try contradiction; tauto.
  - destruct (qualified_target (pf_package f) (v_text (q_name r))) as [t|] eqn:Et; [destruct (match_target pt t) eqn:Em|].
    + step E as [e ms] by S. step E as [[e' n'] ms'] by S0. injection E as <- <- <-.
      destruct (IH _ _ _ eq_refl) as (l & evs & mss & F & L1 & L2 & -> & -> & -> & H). exists ((t, r, f) :: l), (e :: evs), (ms :: mss).
      split; [constructor; auto|]. split; [cbn; auto|]. split; [cbn; auto|]. split; [auto|]. split; [auto|]. split; [auto|].
      intros t' r' g. cbn [In]. rewrite H. split.
      * intros [X|X]; [injection X as <- <- <-; auto 10|tauto].
      * intros (-> & [<-|I] & H1 & H2); [left; congruence|right; auto].
    + destruct (IH _ _ _ E) as (l & evs & mss & F & L1 & L2 & -> & -> & -> & H). exists l, evs, mss. repeat split; auto; rewrite H in *; cbn [In]; try tauto.
      intros (-> & [<-|I] & H1 & H2); [congruence|auto].
    + destruct (IH _ _ _ E) as (l & evs & mss & F & L1 & L2 & -> & -> & -> & H). exists l, evs, mss. repeat split; auto; rewrite H in *; cbn [In]; try tauto.
      intros (-> & [<-|I] & H1 & H2); [congruence|auto].
Qed.
Lemma combine_app {A B} (a b : list A) (c d : list B) : length a = length c -> combine (a ++ b) (c ++ d) = combine a c ++ combine b d.
Proof. revert c. induction a as [|x a IH]; intros [|y c] L; try discriminate; cbn; auto. f_equal. apply IH. now injection L. Qed.
Lemma files_told_spec files : forall ev n log, files_told w read_file ignore_keep verbose color headers generated known pt files = Ret (ev, n, log) ->
  exists l evs mss, Forall2 (fun x y => told_of x = Ret y) l (combine evs mss) /\ length evs = length l /\ length mss = length l /\
   ev = concat evs /\ n = length l /\ log = concat mss /\
   forall t r f, In (t, r, f) l <-> exists p rs, In (p, f) files /\ match_package pt (pf_package f) = true /\
     find_targets edited_kinds (pf_ast f) = Ret rs /\ In r rs /\
     qualified_target (pf_package f) (v_text (q_name r)) = Some t /\ match_target pt t = true.
Proof.
  induction files as [|[p f] files IH]; intros ev n log E; cbn [files_told] in E.
  - injection E as <- <- <-. exists [], [], []. repeat split; try constructor; intros; try contradiction. destruct H as (p & rs & [] & _).
  - destruct (match_package pt (pf_package f)) eqn:Em.
    + step E as rs by Er. step E as [[e1 n1] g1] by E1. step E as [[e2 n2] g2] by E2. injection E as <- <- <-.
      destruct (rules_told_spec _ _ _ _ _ E1) as (l1 & v1 & s1 & F1 & L1 & M1 & -> & -> & -> & H1).
      destruct (IH _ _ _ eq_refl) as (l2 & v2 & s2 & F2 & L2 & M2 & -> & -> & -> & H2).
      exists (l1 ++ l2), (v1 ++ v2), (s1 ++ s2). split; [rewrite combine_app by congruence; now apply Forall2_app|].
      split; [rewrite !app_length; congruence|]. split; [rewrite !app_length; congruence|].
      split; [now rewrite concat_app|]. split; [now rewrite app_length|]. split; [now rewrite concat_app|].
      intros t r g. rewrite in_app_iff, H1, H2. split.
      * intros [(-> & I & Q & M)|(p' & rs' & I & M & X)].
        -- exists p, rs. cbn; auto 10.
        -- exists p', rs'. cbn; tauto.
      * intros (p' & rs' & [I|I] & M & Fr & Ir & Q & Mt).
        -- injection I as <- <-. left. assert (rs' = rs) by (unfold edited_kinds in Fr; congruence). subst. auto.
        -- right. exists p', rs'. auto 10.
    + destruct (IH _ _ _ E) as (l & evs & mss & F & L1 & L2 & -> & -> & -> & H). exists l, evs, mss. repeat split; auto; rewrite H in *.
      * intros (p' & rs & I & X). exists p', rs. cbn; tauto.
      * intros (p' & rs & [I|I] & M & X); [injection I as <- <-; congruence|]. exists p', rs. tauto.
Qed.
End Run.
