(** The clang-tidy script: what any schedule leaves, and any history of runs. *)
From Coq Require Import NArith Lia Permutation.
From Verif Require Import Base OMap M_Tidy S_Tidy P_Tidy P_Tidy2.

Lemma left_out_prefixes bzroot pwd : left_out bzroot pwd = repair_prefixes bzroot pwd.
Proof. destruct bzroot; reflexivity. Qed.
Lemma shorter_repair bzroot pwd a b : shorter (left_out bzroot pwd) a b <-> b = repair bzroot pwd a.
Proof. rewrite left_out_prefixes. apply repair_shorter. Qed.
Lemma always l : Forall (not_before 0) l.
Proof. apply Forall_forall. intros [k a] _. destruct a; cbn; auto; lia. Qed.

(** Wherever a run is stopped. *)
Lemma run_crash prints bzroot pwd jobs queue f sched m :
  sound_fs f -> NoDup (map result_name queue) -> run prints bzroot pwd (start jobs queue f) sched = Some m ->
  m_aborted m = false /\ sound_fs (m_files m) /\
  forall n, file_at (m_files m) n = file_at f n \/
    exists w, In w queue /\ (n = result_name w ++ $".tmp" \/ n = result_name w /\ exists t, has_result prints bzroot pwd (m_files m) w t).
Proof.
  intros S N E. destruct (started_inv prints bzroot pwd 0 jobs queue f N sched m S (always _) E) as [VA VS _ _ _ _ _ VN].
  split; [exact VA|]. split; [exact VS|]. intros n. destruct (VN n) as [H|(w & I & [H|(-> & t & H & _)])]; [now left|right..].
  - exists w. split; [exact I|]. left. exact H.
  - exists w. split; [exact I|]. right. split; [reflexivity|]. exists t, (repair bzroot pwd (prints (fst w))). split; [exact H|]. now apply shorter_repair.
Qed.

(** Every item is handed out once. *)
Lemma run_items prints bzroot pwd T jobs queue f sched m :
  sound_fs f -> NoDup (map result_name queue) -> Forall (not_before T) sched -> run prints bzroot pwd (start jobs queue f) sched = Some m ->
  m_queue m = skipn (length (filter takes sched)) queue /\
  exists done lost, Permutation queue (m_queue m ++ flat_map busy_with (m_workers m) ++ done ++ lost) /\
    length lost = length (filter interrupts sched) /\
    forall w, In w done -> file_at (m_files m) (result_name w ++ $".tmp") = None /\ exists t, (T <= t)%N /\ has_result prints bzroot pwd (m_files m) w t.
Proof.
  intros S N B E. destruct (started_inv prints bzroot pwd T jobs queue f N sched m S B E) as [_ _ _ VQ (done & lost & VP & VD & VL) _ _ _].
  split; [exact VQ|]. exists done, lost. split; [exact VP|]. split; [exact VL|]. intros w I. rewrite Forall_forall in VD. destruct (VD w I) as [F1 (t & F2 & F3)].
  split; [unfold file_at; change (result_name w ++ $".tmp") with (tmp_name w); now rewrite F1|]. exists t. split; [exact F3|]. exists (repair bzroot pwd (prints (fst w))).
  split; [exact F2|]. now apply shorter_repair.
Qed.

(** At the end. *)
Lemma run_end prints bzroot pwd T jobs queue f sched m :
  sound_fs f -> NoDup (map result_name queue) -> Forall (not_before T) sched -> run prints bzroot pwd (start jobs queue f) sched = Some m ->
  (forall k, In k (m_workers m) -> k = WGone) -> length (filter interrupts sched) < jobs ->
  exists lost, length lost = length (filter interrupts sched) /\
    forall w, In w queue -> In w lost \/
      (file_at (m_files m) (result_name w ++ $".tmp") = None /\ exists t, (T <= t)%N /\ has_result prints bzroot pwd (m_files m) w t).
Proof.
  intros S N B E G L. destruct (run_items _ _ _ _ _ _ _ _ _ S N B E) as (_ & done & lost & P & Ll & D).
  destruct (started_inv prints bzroot pwd T jobs queue f N sched m S B E) as [_ _ VJ _ _ _ VG _].
  assert (Q : m_queue m = []).
  { destruct (m_queue m) as [|w q] eqn:Eq; [reflexivity|]. exfalso. assert (X : count_gone (m_workers m) = jobs).
    { rewrite <- VJ. unfold count_gone. f_equal. clear -G. induction (m_workers m) as [|k l IH]; [reflexivity|]. cbn.
      rewrite (G k (or_introl eq_refl)). cbn. f_equal. apply IH. intros k' I. apply G. now right. }
    assert (Y := VG ltac:(discriminate)). lia. }
  assert (H : flat_map busy_with (m_workers m) = []).
  { clear -G. induction (m_workers m) as [|k l IH]; [reflexivity|]. cbn. rewrite (G k (or_introl eq_refl)). cbn. apply IH. intros k' I. apply G. now right. }
  rewrite Q, H in P. cbn [app] in P. exists lost. split; [exact Ll|]. intros w I. apply (Permutation_in _ P) in I. apply in_app_iff in I as [I|I]; [right; now apply D|now left].
Qed.

(** A run can always go on, and to the end. *)
Definition rank (prints : str -> str) (k : worker) : nat :=
  match k with
  | WGone => 0 | WIdle => 1 | WStored _ => 2
  | WStoring _ _ [] => 3 | WStoring _ _ _ => 4 | WHolding _ _ => 5 | WEnded _ => 6
  | WPrinting w _ p => if str_eqb p (prints (fst w)) then 7 else 8
  | WTaken _ => 9
  end.
Lemma goes_on prints bzroot pwd m k :
  wok prints bzroot pwd 0 (m_files m) k -> k <> WGone ->
  exists a k' q' f' ab, worker_step prints bzroot pwd a k (m_queue m) (m_files m) = Some (k', q', f', ab) /\ interrupts (0, a) = false /\
    rank prints k' + 9 * length q' < rank prints k + 9 * length (m_queue m).
Proof.
  intros W N. destruct k as [ |w|w i p|w|w t|w i r|w| ]; [| | | | | | |congruence].
  - destruct (m_queue m) as [|w q].
    + exists ALeave. do 4 eexists. split; [reflexivity|]. split; [reflexivity|]. cbn. lia.
    + exists ATake. do 4 eexists. split; [reflexivity|]. split; [reflexivity|]. cbn. lia.
  - exists (AOpen 0). cbn [worker_step]. destruct (open_for_writing _ _ _) as [i f']. do 4 eexists. split; [reflexivity|]. split; [reflexivity|]. cbn. destruct (prints (fst w)); cbn; lia.
  - destruct W as (D & Dt & r & Er). destruct (str_eqb p (prints (fst w))) eqn:P.
    + exists AEnd. cbn [worker_step]. rewrite P. do 4 eexists. split; [reflexivity|]. split; [reflexivity|]. cbn. rewrite P. lia.
    + exists (APrint r 0). cbn [worker_step]. assert (X : starts_with (p ++ r) (prints (fst w)) = true) by (apply starts_with_iff; exists []; now rewrite app_nil_r).
      rewrite X. do 4 eexists. split; [reflexivity|]. split; [reflexivity|]. cbn [rank]. rewrite P, <- Er, str_eqb_refl. lia.
  - exists ARead. cbn [worker_step]. do 4 eexists. split; [reflexivity|]. split; [reflexivity|]. cbn. lia.
  - exists (ACreate 0). cbn [worker_step]. destruct (open_for_writing _ _ _) as [i f']. do 4 eexists. split; [reflexivity|]. split; [reflexivity|]. cbn. destruct (repair bzroot pwd t); lia.
  - destruct r as [|c r].
    + exists AClose. cbn [worker_step is_nil]. do 4 eexists. split; [reflexivity|]. split; [reflexivity|]. cbn. lia.
    + exists (AStore (c :: r) 0). cbn [worker_step]. assert (X : starts_with (c :: r) (c :: r) = true) by (apply starts_with_iff; exists []; now rewrite app_nil_r).
      rewrite X. do 4 eexists. split; [reflexivity|]. split; [reflexivity|]. rewrite skipn_all. cbn. lia.
  - exists ARename. cbn [worker_step]. destruct (rename_file _ _ _); do 4 eexists; (split; [reflexivity|]); (split; [reflexivity|]); cbn; lia.
Qed.
Definition ranks (prints : str -> str) (m : machine) : nat := list_sum (map (rank prints) (m_workers m)) + 9 * length (m_queue m).
Lemma step_on prints bzroot pwd jobs queue f sched m who k :
  sound_fs f -> NoDup (map result_name queue) -> run prints bzroot pwd (start jobs queue f) sched = Some m ->
  nth_error (m_workers m) who = Some k -> k <> WGone ->
  exists a m', step prints bzroot pwd m who a = Some m' /\ interrupts (who, a) = false /\ ranks prints m' < ranks prints m.
Proof.
  intros S N E Nk Ng. destruct (started_inv prints bzroot pwd 0 jobs queue f N sched m S (always _) E) as [VA VS _ _ _ VW _ _].
  assert (W : wok prints bzroot pwd 0 (m_files m) k) by (rewrite Forall_forall in VW; apply VW; eapply nth_error_In; eauto).
  destruct (goes_on prints bzroot pwd m k W Ng) as (a & k' & q' & f' & ab & St & Ia & R).
  exists a. unfold step. rewrite VA, Nk, St. eexists. split; [reflexivity|]. split; [exact Ia|]. unfold ranks. cbn [m_workers m_queue].
  apply nth_error_split in Nk as (l1 & l2 & -> & <-). rewrite set_nth_split, !map_app, !list_sum_app. cbn [map list_sum fold_right]. unfold list_sum in *. lia.
Qed.
Lemma run_app prints bzroot pwd a : forall m b m1, run prints bzroot pwd m a = Some m1 -> run prints bzroot pwd m (a ++ b) = run prints bzroot pwd m1 b.
Proof.
  induction a as [|[who x] a IH]; intros m b m1; cbn; [intros [= ->]; reflexivity|]. destruct (step prints bzroot pwd m who x); [apply IH|discriminate].
Qed.
Lemma run_finish prints bzroot pwd jobs queue f : sound_fs f -> NoDup (map result_name queue) -> forall n sched m, ranks prints m <= n ->
  run prints bzroot pwd (start jobs queue f) sched = Some m ->
  exists more m', run prints bzroot pwd (start jobs queue f) (sched ++ more) = Some m' /\ existsb interrupts more = false /\ forall k, In k (m_workers m') -> k = WGone.
Proof.
  intros S N. induction n as [|n IH]; intros sched m L E.
  - exists [], m. rewrite app_nil_r. split; [exact E|]. split; [reflexivity|]. intros k I. apply In_nth_error in I as [who I].
    destruct k eqn:Ek; try reflexivity; exfalso; destruct (step_on _ _ _ _ _ _ _ _ _ _ S N E I ltac:(discriminate)) as (a & m' & _ & _ & R); lia.
  - destruct (forallb gone (m_workers m)) eqn:G.
    + exists [], m. rewrite app_nil_r. split; [exact E|]. split; [reflexivity|]. intros k I. rewrite forallb_forall in G. specialize (G k I). destruct k; easy.
    + assert (X : exists who k, nth_error (m_workers m) who = Some k /\ k <> WGone).
      { clear -G. induction (m_workers m) as [|k l IH]; [discriminate|]. cbn in G. destruct (gone k) eqn:Gk.
        - destruct (IH G) as (who & k' & H1 & H2). exists (Datatypes.S who), k'. now split.
        - exists 0, k. split; [reflexivity|]. intros ->. discriminate. }
      destruct X as (who & k & Nk & Ng). destruct (step_on _ _ _ _ _ _ _ _ _ _ S N E Nk Ng) as (a & m1 & St & Ia & R).
      destruct (IH (sched ++ [(who, a)]) m1) as (more & m' & E' & In' & G'); [lia|rewrite (run_app _ _ _ _ _ _ _ E); cbn; now rewrite St|].
      exists ((who, a) :: more), m'. rewrite <- app_assoc in E'. split; [exact E'|]. split; [|exact G']. cbn. now rewrite Ia.
Qed.

(** * Histories *)
Section History.
Variable hash : str -> N.

Lemma work_nodup t s n : NoDup (map result_name (items hash t)) -> NoDup (map result_name (work_list hash t s n)).
Proof.
  unfold work_list. generalize (items hash t). intros l. induction l as [|w l IH]; cbn; intros N; [constructor|]. inversion N as [|? ? N1 N2]; subst.
  destruct (needs_refresh s n w); cbn; [|auto]. constructor; [|auto]. intros I. apply N1. apply in_map_iff in I as (x & <- & I). apply filter_In in I as [I _]. now apply in_map.
Qed.
Lemma item_concerns s x : In x (of_interest (se_tree s)) -> concerns hash s x (result_name (item_of hash (se_tree s) x)).
Proof. now split. Qed.
Lemma in_items s w : In w (items hash (se_tree s)) -> exists x, In x (of_interest (se_tree s)) /\ w = item_of hash (se_tree s) x /\ fst w = f_path x.
Proof. intros I. apply in_map_iff in I as (x & <- & I). eauto. Qed.

Notation origin := (comes_from hash).

Lemma session_files s f m : sound_fs f -> NoDup (map result_name (items hash (se_tree s))) ->
  run (se_prints s) (se_bzroot s) (se_pwd s) (start (se_jobs s) (work_list hash (se_tree s) (file_at f) (se_min s)) f) (se_sched s) = Some m ->
  sound_fs (m_files m) /\ forall n c t, ~ temporary n -> file_at (m_files m) n = Some (c, t) -> file_at f n = Some (c, t) \/ origin [s] n c.
Proof.
  intros S N E. destruct (run_crash _ _ _ _ _ _ _ _ S (work_nodup _ _ _ N) E) as (_ & S' & H). split; [exact S'|]. intros n c t Nt F.
  destruct (H n) as [X|(w & I & [->|(-> & t' & text & X & Sh)])]; [left; congruence|exfalso; apply Nt; now exists (result_name w)|].
  right. apply filter_In in I as [I _]. destruct (in_items _ _ I) as (x & Ix & -> & _). exists s, x. split; [now left|]. split; [now apply item_concerns|].
  rewrite X in F. injection F as <- _. exact Sh.
Qed.
Lemma history_origin f l f' : history hash f l f' -> sound_fs f ->
  sound_fs f' /\ forall n c t, ~ temporary n -> file_at f' n = Some (c, t) -> file_at f n = Some (c, t) \/ origin l n c.
Proof.
  intros H. induction H as [f|f s m l f' N E H IH]; intros S; [split; [exact S|auto]|].
  destruct (session_files _ _ _ S N E) as [S1 H1]. destruct (IH S1) as [S2 H2]. split; [exact S2|]. intros n c t Nt F.
  destruct (H2 n c t Nt F) as [F1|(s' & x & I & C)]; [|right; exists s', x; split; [now right|exact C]].
  destruct (H1 n c t Nt F1) as [F0|(s' & x & [<-|[]] & C)]; [now left|]. right. exists s, x. split; [now left|exact C].
Qed.
Lemma nothing_sound : sound_fs nothing_there.
Proof. split; intros; discriminate. Qed.
Lemma history_results l f n c t : history hash nothing_there l f -> ~ temporary n -> file_at f n = Some (c, t) -> origin l n c.
Proof.
  intros H Nt F. destruct (history_origin _ _ _ H nothing_sound) as [_ X]. destruct (X n c t Nt F) as [Y|Y]; [discriminate Y|exact Y].
Qed.

(** A session that is complete leaves a result for each file. *)
Lemma complete_results s f f' r : sound_fs f -> complete hash s f f' r ->
  sound_fs f' /\ r = create_report (file_at f') (items hash (se_tree s)) /\
  forall x, In x (of_interest (se_tree s)) -> let w := item_of hash (se_tree s) x in
    exists c t, file_at f' (result_name w) = Some (c, t) /\ (file_at f (result_name w) = Some (c, t) /\ needs_refresh (file_at f) (se_min s) w = false
                                                       \/ shorter (dirs_of s) (se_prints s (f_path x)) c /\ (Forall (not_before (se_min s)) (se_sched s) -> (se_min s <= t)%N)).
Proof.
  intros S (E & J & In' & N). unfold invocation in E. destruct (run _ _ _ _ _) as [m|] eqn:R; [|discriminate E].
  destruct (m_aborted m || negb (all_gone m)) eqn:A; [discriminate E|]. injection E as <- <-. apply orb_false_iff in A as [_ A]. apply negb_false_iff in A.
  assert (G : forall k, In k (m_workers m) -> k = WGone). { intros k I. unfold all_gone in A. rewrite forallb_forall in A. specialize (A k I). destruct k; easy. }
  assert (NI : filter interrupts (se_sched s) = []). { clear -In'. induction (se_sched s) as [|a l IH]; [reflexivity|]. cbn in *. destruct (interrupts a); [discriminate|auto]. }
  destruct (run_crash _ _ _ _ _ _ _ _ S (work_nodup _ _ _ N) R) as (_ & S' & Hc). split; [exact S'|]. split; [reflexivity|].
  intros x Ix w. destruct (needs_refresh (file_at f) (se_min s) w) eqn:Nr.
  - assert (Iw : In w (work_list hash (se_tree s) (file_at f) (se_min s))) by (apply filter_In; split; [now apply in_map|exact Nr]).
    assert (D : forall T, Forall (not_before T) (se_sched s) -> exists t, (T <= t)%N /\ has_result (se_prints s) (se_bzroot s) (se_pwd s) (m_files m) w t).
    { intros T B. destruct (run_end _ _ _ T _ _ _ _ _ S (work_nodup _ _ _ N) B R G ltac:(rewrite NI; exact J)) as (lost & Ll & H). rewrite NI in Ll. destruct lost; [|discriminate].
      destruct (H w Iw) as [[]|(_ & X)]. exact X. }
    destruct (D 0%N (always _)) as (t & _ & c & F & Sh). exists c, t. split; [exact F|]. right. split; [exact Sh|]. intros B.
    destruct (D (se_min s) B) as (t' & L & c' & F' & _). rewrite F in F'. now injection F' as _ <-.
  - unfold needs_refresh in Nr. destruct (file_at f (result_name w)) as [[c t]|] eqn:F; [|discriminate Nr]. exists c, t.
    assert (X : file_at (m_files m) (result_name w) = Some (c, t)); [|split; [exact X|left; split; reflexivity]].
    destruct (Hc (result_name w)) as [X|(w' & I & [X|(X & _)])]; [congruence|exfalso|exfalso].
    + apply (result_not_temporary w). now exists (result_name w').
    + apply filter_In in I as [I Nr']. unfold needs_refresh in Nr'. rewrite <- X, F in Nr'. congruence.
Qed.
Lemma complete_again s f f' r : sound_fs f -> complete hash s f f' r -> Forall (not_before (se_min s)) (se_sched s) ->
  work_list hash (se_tree s) (file_at f') (se_min s) = [].
Proof.
  intros S C B. destruct (complete_results _ _ _ _ S C) as (_ & _ & H). unfold work_list. 
  assert (X : forall w, In w (items hash (se_tree s)) -> needs_refresh (file_at f') (se_min s) w = false).
  { intros w I. destruct (in_items _ _ I) as (x & Ix & -> & _). destruct (H x Ix) as (c & t & F & [[F0 Nr]|[_ L]]).
    - unfold needs_refresh in *. now rewrite F, F0 in *.
    - unfold needs_refresh. rewrite F. specialize (L B). apply N.ltb_ge in L. rewrite L. apply andb_false_r. }
  clear H C. induction (items hash (se_tree s)) as [|w l IH]; [reflexivity|]. cbn. rewrite (X w (or_introl eq_refl)). apply IH. intros w' I. apply X. now right.
Qed.
Lemma complete_history l f s f' r : history hash nothing_there l f -> complete hash s f f' r ->
  r = create_report (file_at f') (items hash (se_tree s)) /\
  forall x, In x (of_interest (se_tree s)) -> exists c t, file_at f' (result_name (item_of hash (se_tree s) x)) = Some (c, t) /\
    origin (l ++ [s]) (result_name (item_of hash (se_tree s) x)) c.
Proof.
  intros H C. destruct (history_origin _ _ _ H nothing_sound) as [S _]. destruct (complete_results _ _ _ _ S C) as (_ & E & R). split; [exact E|].
  intros x Ix. destruct (R x Ix) as (c & t & F & X). exists c, t. split; [exact F|]. destruct X as [[F0 _]|[Sh _]].
  - destruct (history_results _ _ _ _ _ H (result_not_temporary _) F0) as (s' & x' & I & Y). exists s', x'. split; [apply in_or_app; now left|exact Y].
  - exists s, x. split; [apply in_or_app; right; now left|]. split; [now apply item_concerns|exact Sh].
Qed.
End History.
