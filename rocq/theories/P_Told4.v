(** What a dependency graph misses. *)
From Coq Require Import Lia Permutation.
From Verif Require Import Base OMap M_Types M_Scanner M_Ast M_Parser M_Query M_Elab M_Workspace M_Project P_Project M_DepGraph S_DepGraph P_DepGraph M_Headers P_Headers
  M_Commands M_ParseErrors M_Told S_Told P_Told P_Told2 P_Told3.

Lemma insert_all_sorted ts : forall s, ssorted s -> ssorted (insert_all ts s).
Proof. unfold insert_all. induction ts as [|t ts IH]; intros s S; cbn [fold_left]; [exact S|]. apply IH. now apply set_insert_sorted. Qed.

Section P.
Variable w : workspace.
Variable read_file : str -> option str.
Variable can_read : str -> bool.
Variable glob_in : package -> list str -> list str -> list str.
Variable pr0 : parsed_project.
Hypothesis ok0 : project_ok pr0.
Notation exists_target := (exists_target w read_file can_read glob_in pr0).
Notation depends := (depends w read_file can_read glob_in pr0).
Notation grown := (grown w read_file can_read glob_in pr0).
Notation path_for_package := (path_for_package w can_read).
Definition no_file (p : package) : Prop := find_parsed pr0 p = None /\ path_for_package p = None.
Lemma no_file_grown pr p : grown pr -> (find_parsed pr p = None /\ path_for_package p = None <-> no_file p).
Proof.
  intros (OK & FI & EX). unfold no_file. split; intros [A B]; (split; [|exact B]).
  - destruct (find_parsed pr0 p) as [f|] eqn:F; [|reflexivity]. rewrite (EX _ _ F) in A. discriminate.
  - destruct (find_parsed pr p) as [f|] eqn:F; [|reflexivity]. specialize (FI _ _ F). unfold file_of in FI. rewrite A in FI. destruct FI as (n & c & s & e & a & P & _). congruence.
Qed.
Lemma no_file_none t : no_file (tpackage t) -> ~ exists_target t.
Proof. intros [A B] (r & f & a & b & F & _). unfold file_of in F. rewrite A in F. destruct F as (n & c & s & e & x & P & _). congruence. Qed.

Lemma find_missing_errs want : forall pr errs pr' errs' l, grown pr -> find_missing_told w read_file can_read glob_in want (pr, errs) = Ret (pr', errs', l) ->
  (forall q, In q errs' <-> In q errs \/ In q want /\ no_file q) /\ (ssorted errs -> ssorted errs').
Proof.
  induction want as [|p want IH]; intros pr errs pr' errs' l G E; cbn [find_missing_told] in E.
  { chunk E. apply pair_equal_spec in E0 as [-> ->]. split; [intros q; cbn [In]; tauto|auto]. }
  chunk E. destruct a as [pr1 errs1]. assert (P := plain_ret _ _ _ E0). assert (M := parse_missing_plain w read_file can_read glob_in pr errs p). rewrite P in M. cbn [bind fst] in M. symmetry in M.
  destruct (parse_missing_step w read_file can_read glob_in pr0 pr p pr1 G M) as (G1 & _).
  assert (So : ssorted errs -> ssorted errs1).
  { unfold parse_missing_told in E0. destruct (find_parsed pr p); [chunk E0; apply pair_equal_spec in E1 as [-> ->]; auto|]. destruct (path_for_package p).
    - chunk E0. destruct a as [pr2 [f|]]; [|discriminate]. chunk E0. chunk E0. apply pair_equal_spec in E3 as [_ ->]. auto.
    - chunk E0. apply pair_equal_spec in E1 as [_ ->]. apply set_insert_sorted. }
  apply parse_missing_adds in E0 as (_ & _ & H). destruct (IH _ _ _ _ _ G1 E) as [H' So']. split; [|auto]. intros q. rewrite H', H. cbn [In]. split.
  - intros [[A|(-> & A)]|[A B]]; auto. right. split; [auto|]. now apply (no_file_grown pr).
  - intros [A|[[<-|A] B]]; auto. left. right. split; [reflexivity|]. now apply (no_file_grown pr).
Qed.
(** What is left of the targets of a round. *)
Lemma left_spec g pr todo pr1 st : grown pr -> gsorted g -> converse g -> (forall t, In t todo -> ~ In t (keys (depends_on g))) ->
  find_and_parse_missing w read_file can_read glob_in (set_of_list (map tpackage todo)) pr = Ret pr1 ->
  scan_packages pr1 (set_of_list (map tpackage todo)) (mkRound g todo []) = Ret st ->
  forall t, In t (rd_todo st) <-> In t todo /\ ~ exists_target t.
Proof.
  intros G So C Dj E1 E2 t. set (scan := set_of_list (map tpackage todo)) in *. assert (Pf := parsed_file_of w read_file can_read glob_in pr0 _ _ _ G E1).
  assert (Sc : forall t, In t todo -> In (tpackage t) scan) by (intros x I; apply set_of_list_in; now apply in_map).
  destruct (scan_inv w read_file can_read glob_in pr0 g todo Dj pr1 scan _ st (inv_init w read_file can_read glob_in pr0 g todo Dj So C)) as (Iv & Mo & Un).
  { intros p f I. apply Pf. exact I. }
  { exact E2. }
  destruct Iv as [So' To Ke Kp Nw Nx Cv]. split.
  - intros I. assert (J := I). apply To in J as [J _]. split; [exact J|]. exact (Un t I (Sc t J)).
  - intros [I N]. apply To. split; [exact I|]. intros K. destruct (Ke t K) as [K'|_]; [exact (Dj t I K')|].
    apply in_keys in K as (ds & K). destruct (Nw t ds K (Dj t I)) as (r & R & _). apply N. exists r. exact R.
Qed.

Section Rounds.
Variable pt : pattern.
Notation reach := (reach w read_file can_read glob_in pr0 pt).
Notation rinv := (rinv w read_file can_read glob_in pr0 pt).
(** After k rounds. *)
Record minv (k : nat) (g : graph) (mi : missing) (todo : list target) : Prop := mkMinv {
  m_sorted : ssorted (mi_targets mi) /\ ssorted (mi_packages mi);
  m_targets : forall t, In t (mi_targets mi) <-> ~ exists_target t /\ exists j, j < k /\ reach j t;
  m_all : forall t, reach k t -> ~ exists_target t -> In t (mi_targets mi) \/ In t todo;
  m_closed : forall s d, In s (keys (depends_on g)) -> depends s d -> ~ exists_target d -> In d (mi_targets mi) \/ In d todo;
  m_packages : forall p, In p (mi_packages mi) <-> no_file p /\ exists t, In t (mi_targets mi) /\ tpackage t = p
}.
Lemma start_exists t : reach 0 t -> exists_target t.
Proof.
  intros R. inversion R as [t' M|]; subst. destruct M as (_ & f & rs & r & F & Ft & I & N).
  assert (K : exists a r b, rs = a ++ r :: b /\ names t r /\ forall r', In r' a -> ~ names t r').
  { clear Ft F. induction rs as [|x rs IH]; [destruct I|]. assert (Dn : names t x \/ ~ names t x) by (unfold names; destruct (qualified_target (tpackage t) (v_text (q_name x))) as [u|]; [destruct (key_dec u t) as [->|Ne]; [now left|right; congruence]|right; discriminate]). destruct Dn as [E|E].
    - exists [], x, rs. split; [reflexivity|]. split; [exact E|intros ? []].
    - destruct I as [->|I]; [contradiction|]. destruct (IH I) as (a & y & b & -> & Y & L). exists (x :: a), y, b. split; [reflexivity|]. split; [exact Y|]. intros r' [<-|J]; [exact E|auto]. }
  destruct K as (a & y & b & -> & Y & L). exists y, f, a, b. split; [|auto]. unfold file_of. rewrite F. reflexivity.
Qed.
Lemma minv_start todo : initial_todo pt (pr_files pr0) [] = Ret todo -> minv 0 (mkGraph [] []) (mkMissing [] []) todo.
Proof.
  intros E. constructor; cbn [mi_targets mi_packages depends_on keys map In].
  - split; exact I.
  - intros t. split; [intros []|]. intros (_ & j & L & _). lia.
  - intros t R N. exfalso. exact (N (start_exists t R)).
  - intros s d [].
  - intros p. split; [intros []|]. intros (_ & t & [] & _).
Qed.
Lemma minv_round k g pr mi todo g' pr' mi' todo' l : rinv k g pr todo -> minv k g mi todo ->
  round_told w read_file can_read glob_in g pr mi todo = Ret (g', pr', mi', todo', l) ->
  rinv (S k) g' pr' todo' /\ minv (S k) g' mi' todo'.
Proof.
  intros R M E. assert (Pl := plain_ret _ _ _ E). assert (Rd := round_plain w read_file can_read glob_in g pr mi todo). rewrite Pl in Rd. cbn [bind] in Rd. symmetry in Rd.
  assert (R' := rinv_round w read_file can_read glob_in pr0 pt _ _ _ _ _ _ _ R Rd). split; [exact R'|].
  destruct (round_spec w read_file can_read glob_in pr0 _ _ _ _ _ _ (v_grown _ _ _ _ _ _ _ _ _ _ R) (v_sorted _ _ _ _ _ _ _ _ _ _ R) (v_conv _ _ _ _ _ _ _ _ _ _ R) (v_disj _ _ _ _ _ _ _ _ _ _ R) Rd) as (_ & _ & _ & _ & Ks & _ & _ & Nx).
  unfold round_told in E. cbv zeta in E. chunk E. destruct a as [pr1 errs]. chunk E. chunk E1. chunk E. clear Q Q0 Q1 l Pl.
  apply pair_equal_spec in E2 as [E2 ->]. apply pair_equal_spec in E2 as [E2 ->]. apply pair_equal_spec in E2 as [-> ->].
  assert (Fm := find_missing_plain w read_file can_read glob_in (set_of_list (map tpackage todo)) pr (mi_packages mi)). rewrite (plain_ret _ _ _ E0) in Fm. cbn [bind fst] in Fm. symmetry in Fm.
  assert (L := left_spec g pr todo pr1 a (v_grown _ _ _ _ _ _ _ _ _ _ R) (v_sorted _ _ _ _ _ _ _ _ _ _ R) (v_conv _ _ _ _ _ _ _ _ _ _ R) (v_disj _ _ _ _ _ _ _ _ _ _ R) Fm E1).
  destruct (find_missing_errs _ _ _ _ _ _ (v_grown _ _ _ _ _ _ _ _ _ _ R) E0) as [Er Es].
  destruct M as [[S1 S2] Mt Ma Mc Mp].
  assert (T : forall t, In t (insert_all (rd_todo a) (mi_targets mi)) <-> In t (mi_targets mi) \/ In t todo /\ ~ exists_target t).
  { intros t. rewrite insert_all_in, L. tauto. }
  assert (Cl : forall s d, In s (keys (depends_on (rd_graph a))) -> depends s d -> ~ exists_target d ->
    In d (insert_all (rd_todo a) (mi_targets mi)) \/ In d (rd_next a)).
  { intros s d Hs D N. apply Ks in Hs as [Hs|[Hs _]].
    - destruct (Mc s d Hs D N) as [H|H]; left; apply T; auto.
    - destruct (in_dec key_dec d todo) as [H|H]; [left; apply T; auto|]. right. apply Nx. split; [|split; [exact H|exists s; auto]].
      intros K. apply (v_keys _ _ _ _ _ _ _ _ _ _ R) in K as [K _]. contradiction. }
  constructor; cbn [mi_targets mi_packages].
  - split; [now apply insert_all_sorted|auto].
  - intros t. rewrite T, Mt. split.
    + intros [(N & j & Lj & Rj)|[I N]]; (split; [exact N|]); [exists j; split; [lia|exact Rj]|]. exists k. split; [lia|]. exact (v_todo _ _ _ _ _ _ _ _ _ _ R t I).
    + intros (N & j & Lj & Rj). destruct (Nat.eq_dec j k) as [->|Ne].
      * destruct (Ma t Rj N) as [H|H]; [left; now apply Mt|right; auto].
      * left. split; [exact N|]. exists j. split; [lia|exact Rj].
  - intros d Rj N. inversion Rj as [|n s x Rs D]; subst. eapply Cl; eauto. apply (v_keys _ _ _ _ _ _ _ _ _ _ R').
    assert (X : exists_target s) by (destruct D as (ds & (r & Rr & _) & _); exists r; exact Rr). split; [exact X|]. exists k. split; [lia|exact Rs].
  - exact Cl.
  - intros p. rewrite Er, Mp, set_of_list_in, in_map_iff. split.
    + intros [(N & t & I & P)|((t & P & I) & N)]; (split; [exact N|]); exists t; (split; [|exact P]); apply T; [auto|]. right. split; [exact I|]. apply no_file_none. rewrite P. exact N.
    + intros (N & t & I & P). apply T in I as [I|[I _]]; [left|right]; [split; [exact N|]|split; [|exact N]]; exists t; auto.
Qed.
Lemma rounds_minv depth : forall k g pr mi todo g' pr' mi' todo' l, rinv k g pr todo -> minv k g mi todo ->
  rounds_told w read_file can_read glob_in depth g pr mi todo = Ret (g', pr', mi', todo', l) ->
  exists n, k < n <= k + depth + 1 /\ rinv n g' pr' todo' /\ minv n g' mi' todo' /\ (todo' = [] \/ n = k + depth + 1).
Proof.
  induction depth as [|depth IH]; intros k g pr mi todo g' pr' mi' todo' l R M E; cbn [rounds_told] in E; chunk E; destruct a as [[[g1 pr1] mi1] todo1];
    destruct (minv_round _ _ _ _ _ _ _ _ _ _ R M E0) as [R1 M1].
  - chunk E. apply pair_equal_spec in E1 as [E1 ->]. apply pair_equal_spec in E1 as [E1 ->]. apply pair_equal_spec in E1 as [-> ->]. exists (S k). split; [lia|]. split; [exact R1|]. split; [exact M1|]. right. lia.
  - destruct (is_nil todo1) eqn:Nt.
    + chunk E. apply pair_equal_spec in E1 as [E1 ->]. apply pair_equal_spec in E1 as [E1 ->]. apply pair_equal_spec in E1 as [-> ->]. exists (S k). split; [lia|]. split; [exact R1|]. split; [exact M1|]. left. now apply is_nil_true.
    + destruct (IH _ _ _ _ _ _ _ _ _ _ R1 M1 E) as (n & L & H & H' & D). exists n. split; [lia|]. split; [exact H|]. split; [exact H'|]. destruct D as [D|D]; [auto|right; lia].
Qed.
Lemma minv_final depth n g pr mi todo : 0 < n <= depth + 1 -> rinv n g pr todo -> minv n g mi todo -> todo = [] \/ n = depth + 1 ->
  forall t, In t (mi_targets mi) <-> ~ exists_target t /\ exists j, j <= depth /\ reach j t.
Proof.
  intros L R M D t. rewrite (m_targets _ _ _ _ M). split; intros (N & j & Lj & Rj); (split; [exact N|]); [exists j; split; [lia|exact Rj]|].
  destruct D as [->| ->]; [|exists j; split; [lia|exact Rj]].
  destruct (Nat.lt_ge_cases j n) as [H|H]; [exists j; auto|]. inversion Rj as [|i s x Rs Ds]; subst; [lia|].
  assert (X : exists_target s) by (destruct Ds as (ds & (r & Rr & _) & _); exists r; exact Rr).
  assert (K : In s (keys (depends_on g))) by (apply (rinv_complete _ _ _ _ _ _ _ _ _ R); [lia|eauto]).
  destruct (m_closed _ _ _ _ M s t K Ds N) as [I|[]]. apply (m_targets _ _ _ _ M) in I as (_ & j' & L' & R'). eauto.
Qed.
End Rounds.

Lemma print_list_listing title l : print_list (title ++ [NL]) l = listing title l.
Proof. unfold print_list, listing. rewrite flat_map_concat_map, <- app_assoc. reflexivity. Qed.
Theorem graph_misses verbose pt depth g pr l : graph_told w read_file can_read glob_in verbose pt depth pr0 = Ret (g, pr, l) ->
  exists syntax targets packages, ssorted targets /\ ssorted packages /\
    (forall t, In t targets <-> ~ exists_target t /\ exists j, j <= Z.to_nat depth /\ reach w read_file can_read glob_in pr0 pt j t) /\
    (forall p, In p packages <-> no_file p /\ exists t, In t targets /\ tpackage t = p) /\
    Forall (fun n => about_syntax n = true) syntax /\ adds read_file pr0 pr syntax /\
    l = syntax ++ (if 0 <? verbose then
           (match packages with [] => [] | _ => [NMissingPackages (listing ($"Dependcy graph: Did not find these packages") (map package_to_string packages))] end) ++
           (match targets with [] => [] | _ => [NMissingTargets (listing ($"Dependency graph: Did not find these targets") (map target_to_string targets))] end)
         else []).
Proof.
  unfold graph_told. intros E. chunk E. chunk E0. subst l0. cbn [app] in Q. chunk E. destruct a0 as [[[g1 pr1] mi] todo]. chunk E. apply pair_equal_spec in E2 as [-> ->].
  destruct (rounds_minv pt _ _ _ _ _ _ _ _ _ _ _ (rinv_start w read_file can_read glob_in pr0 ok0 pt _ E0) (minv_start pt _ E0) E1) as (n & L & R & M & D).
  destruct (rounds_adds _ _ _ _ _ _ _ _ _ _ _ _ _ _ E1) as [A B]. exists l0, (mi_targets mi), (mi_packages mi).
  split; [apply M|]. split; [apply M|]. split; [apply (minv_final pt (Z.to_nat depth) n g1 pr1 mi todo); auto|]. split; [apply M|]. split; [exact B|]. split; [exact A|].
  subst. f_equal. destruct (0 <? verbose); [|reflexivity]. f_equal.
  - destruct (mi_packages mi) as [|p ps]; [reflexivity|]. cbn [is_nil]. now rewrite print_list_listing.
  - destruct (mi_targets mi) as [|p ps]; [reflexivity|]. cbn [is_nil]. now rewrite print_list_listing.
Qed.
End P.
