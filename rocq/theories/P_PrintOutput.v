(** The output of "print" is a file with the rules it shows. *)
From Coq Require Import Lia.
From Verif Require Import Base OMap M_Types M_Scanner S_Scanner M_Ast M_Parser M_Printer S_Grammar P_Grammar M_Query S_Query P_Query M_Project M_DepGraph
  M_Commands S_Commands S_Print P_Print S_Roundtrip P_Roundtrip S_Reprint P_Reprint.
Local Open Scope list_scope.

Lemma rule_calls_plain : (forall d n, plain d n -> Forall plain_closed (rule_calls n)) /\ (forall n, plain_operand n -> Forall plain_closed (rule_calls n)) /\
  (forall n, plain_bound n -> Forall plain_closed (rule_calls n)) /\ (forall k l, plain_items k l -> Forall plain_closed (flat_map rule_calls l)) /\
  (forall k n, plain_item k n -> Forall plain_closed (rule_calls n)) /\ (forall k n, plain_for k n -> Forall plain_closed (rule_calls n)).
Proof.
  assert (V : forall vars, Forall variable_name vars -> flat_map rule_calls vars = []) by (induction 1 as [|n l (v & -> & _) _ IH]; [reflexivity|exact IH]).
  apply (plain_ind_all (fun d n _ => Forall plain_closed (rule_calls n)) (fun n _ => Forall plain_closed (rule_calls n)) (fun n _ => Forall plain_closed (rule_calls n))
    (fun k l _ => Forall plain_closed (flat_map rule_calls l)) (fun k n _ => Forall plain_closed (rule_calls n)) (fun k n _ => Forall plain_closed (rule_calls n))); intros; cbn [rule_calls flat_map app];
    rewrite ?Forall_app; try (rewrite V by assumption); auto.
  constructor; [|constructor]. apply X_call_statement; auto.
Qed.
Lemma file_calls_plain l : plain_file l -> Forall plain_closed (flat_map rule_calls l).
Proof.
  destruct rule_calls_plain as (A & _ & _ & C & _ & F).
  induction 1 as [|n l P _ IH|n l P _ _ IH]; [constructor| |]; cbn [flat_map]; apply Forall_app; (split; [|exact IH]).
  - destruct P; cbn [rule_calls]; eauto. constructor; [|constructor]. apply X_call_statement; auto.
  - destruct P; cbn [rule_calls app]; try constructor. eauto.
Qed.
Lemma plain_proper n : plain_closed n -> proper_call n \/ (forall f a, n <> NCall f a).
Proof. intros [v args _ _| |]; [left; do 3 eexists; reflexivity|right; discriminate|right; discriminate]. Qed.
Lemma rule_calls_calls : forall n c, In c (rule_calls n) -> exists f a, c = NCall f a.
Proof.
  induction n using node_ind'; intros x Hx; cbn [rule_calls] in Hx; try (destruct Hx; fail); rewrite ?in_app_iff in Hx; try (intuition auto; fail).
  - apply in_flat_map in Hx as (y & Iy & Hx). rewrite Forall_forall in H. eapply H; eauto.
  - destruct Hx as [<-|[]]. eauto.
Qed.
Lemma file_proper l : Forall plain_closed (flat_map rule_calls l) -> Forall proper_call (flat_map rule_calls l).
Proof.
  rewrite !Forall_forall. intros H c I. destruct (plain_proper c (H c I)) as [P|P]; [exact P|]. apply in_flat_map in I as (n & _ & I). apply rule_calls_calls in I as (f & a & ->). destruct (P f a eq_refl).
Qed.
Lemma decimal_line n s : decimal n s -> ~ In NL s.
Proof. intros (_ & D & _) I. rewrite Forall_forall in D. apply D in I. discriminate. Qed.
Lemma place_line content off len s : place content off len s -> ~ In NL s.
Proof.
  intros (l1 & c1 & l2 & c2 & a & b & c & d & _ & _ & A & B & C & D & ->). apply decimal_line in A, B, C, D. rewrite !in_app_iff. intros H.
  assert (~ In NL ($":")) by (cbn; intuition discriminate). assert (~ In NL ($"-")) by (cbn; intuition discriminate).
  destruct (l1 =? l2); [destruct (c1 + 1 <? c2)|]; rewrite ?in_app_iff in H; cbn [In] in H; tauto.
Qed.
Lemma rule_written p f r s l rest : shown_rule p f r s -> one_line p f r -> written l rest -> written (q_node r :: l) (s ++ rest).
Proof.
  intros (id & args & at_place & text & N & (pl & -> & PL) & P & ->) (O1 & O2 & O3) W.
  assert (~ In NL pl) as O4 by (destruct (v_org id); eapply place_line; eauto).
  set (head := ($" " ++ (pf_name f ++ $":" ++ pl) ++ (match rule_target p r with Some t => $" " ++ target_to_string t | None => [] end) ++ visibility_note (q_visibility r)) : str).
  replace ((_ : str) ++ rest) with ((("#"%char :: head ++ [NL]) ++ text ++ NL :: rest) : str).
  2: { unfold head. cbn [app]. rewrite <- !app_assoc. cbn [app]. rewrite <- !app_assoc. reflexivity. }
  apply W_tree; [|rewrite N in *; exact P|exact W].
  change ("#"%char :: head ++ [NL]) with ("#"%char :: head ++ NL :: []). apply gap_comment; [|constructor].
  unfold head. rewrite !in_app_iff. assert (~ In NL ($":")) by (cbn; intuition discriminate). assert (~ In NL ($" ")) by (cbn; intuition discriminate).
  destruct (rule_target p r) as [t|]; rewrite ?in_app_iff; [specialize (O2 t eq_refl)|]; cbn [In] in *; tauto.
Qed.
Lemma shown_written wanted oe pt files s : shown_rules wanted oe pt files s ->
  (forall p f r, In (p, f) files -> In r (shown_results wanted oe pt p f) -> one_line p f r) -> written (flat_map (fun '(p, f) => map q_node (shown_results wanted oe pt p f)) files) s.
Proof.
  induction 1 as [|p f files s N H IH|p f files rs rules s E M F R H IH]; intros O.
  - constructor. constructor.
  - cbn [flat_map]. unfold shown_results at 1. assert ((oe && is_nil (pf_errors f)) || negb (match_package pt p) = true) as ->. { destruct N as [[-> ->]| ->]; [reflexivity|apply orb_true_r]. }
    cbn [map app]. apply IH. intros. eapply O; [right|]; eauto.
  - cbn [flat_map]. assert (shown_results wanted oe pt p f = filter (fun r => selected pt p r && wanted r) rs) as K.
    { unfold shown_results. assert ((oe && is_nil (pf_errors f)) || negb (match_package pt p) = false) as ->. { rewrite M. cbn [negb]. rewrite orb_false_r. destruct oe; [|reflexivity]. destruct (pf_errors f); [destruct (E eq_refl eq_refl)|reflexivity]. } rewrite F. reflexivity. }
    assert (forall r, In r (filter (fun r => selected pt p r && wanted r) rs) -> one_line p f r) as O'. { intros r I. apply O; [left; reflexivity|]. rewrite K. exact I. }
    rewrite K. clear K F. induction R as [|r t rs' rules' S R IHR]; [apply IH; intros; eapply O; [right|]; eauto|]. cbn [map app concat]. rewrite <- app_assoc. apply rule_written with (p := p) (f := f); auto.
    + apply O'. left. reflexivity.
    + apply IHR. intros; apply O'; right; assumption.
Qed.
Lemma closed_file l : Forall plain_closed l -> plain_file l.
Proof. induction 1; [constructor|apply X_closed; auto]. Qed.
Theorem output_read_back wanted oe pt files s : shown_rules wanted oe pt files s ->
  (forall p f, In (p, f) files -> plain_file (pf_ast f) /\ forall r, In r (shown_results wanted oe pt p f) -> one_line p f r) ->
  exists l, parse s = Ret (l, []) /\ map erase l = map erase (flat_map (fun '(p, f) => map q_node (shown_results wanted oe pt p f)) files).
Proof.
  intros H C. apply roundtrip.
  - apply closed_file. rewrite Forall_forall. intros n I. apply in_flat_map in I as ((p & f) & If & I). destruct (C p f If) as [P _]. apply file_calls_plain in P.
    unfold shown_results in I. destruct (_ || _); [destruct I|]. destruct (find_targets_allow_empty [] (pf_ast f)) as [rs| |] eqn:F; [|destruct I|destruct I].
    apply in_map_iff in I as (r & <- & I). apply filter_In in I as [I _]. pose proof (find_targets_once [] true _ rs (file_proper _ P) F) as K.
    rewrite Forall_forall in P. apply P. apply (in_map q_node) in I. rewrite K in I. apply filter_In in I as [I _]. exact I.
  - apply shown_written; [exact H|]. intros p f r I. apply (proj2 (C p f I)).
Qed.
