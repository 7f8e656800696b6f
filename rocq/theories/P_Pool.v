(** Proofs about the thread pool. *)
From Coq Require Import Permutation Lia.
From Verif Require Import Base M_Pool S_Pool.

(** * The steps, with the worker in the middle *)
Lemma update_mid l1 x l2 y : update (length l1) y (l1 ++ x :: l2) = l1 ++ y :: l2.
Proof. induction l1 as [|z l1 IH]; [reflexivity|]. cbn. now rewrite IH. Qed.
Lemma nth_mid {A} (l1 : list A) x l2 : nth_error (l1 ++ x :: l2) (length l1) = Some x.
Proof. rewrite nth_error_app2, Nat.sub_diag by lia. reflexivity. Qed.
Lemma nth_split_at {A} (l : list A) i x : nth_error l i = Some x -> exists l1 l2, l = l1 ++ x :: l2 /\ length l1 = i.
Proof. apply nth_error_split. Qed.
Lemma nth_other {A} (l1 : list A) x y l2 j : j <> length l1 -> nth_error (l1 ++ x :: l2) j = nth_error (l1 ++ y :: l2) j.
Proof.
  intros N. destruct (Nat.lt_ge_cases j (length l1)); [rewrite !nth_error_app1 by auto; reflexivity|]. rewrite !nth_error_app2 by auto.
  destruct (j - length l1) eqn:E; [lia|reflexivity].
Qed.
Definition at_job (j : job) : wpos := match j with JLook line => WLook line | JCancel => WCancel PLock end.
Inductive step : bool -> pool -> pool -> Prop :=
| s_spawn o q e ws rest ph p st f : step false (mkPool o q e ws (MSpawn :: rest) ph p st f) (mkPool o q e (ws ++ [WLock]) rest PLock p st f)
| s_join o q e l1 l2 rest ph p st f : step false (mkPool o q e (l1 ++ WDone :: l2) (MJoin (length l1) :: rest) ph p st f) (mkPool o q e (l1 ++ WDone :: l2) rest PLock p st f)
| s_mlock q e ws c rest p st f : step false (mkPool None q e ws (MCall c :: rest) PLock p st f) (mkPool (Some Main) q e ws (MCall c :: rest) PAct p st f)
| s_push o q e ws j rest p st f : step false (mkPool o q e ws (MCall (CExec j) :: rest) PAct p st f) (mkPool o (q ++ [j]) e ws (MCall (CExec j) :: rest) PUnlock (p ++ [j]) st f)
| s_mcancel o q e ws rest p st f : step false (mkPool o q e ws (MCall CCancel :: rest) PAct p st f) (mkPool o q true ws (MCall CCancel :: rest) PUnlock p st f)
| s_munlock o q e ws c rest p st f : step false (mkPool o q e ws (MCall c :: rest) PUnlock p st f) (mkPool None q e ws (MCall c :: rest) PNotify p st f)
| s_one o q e l1 l2 j rest p st f : step false (mkPool o q e (l1 ++ WSleep :: l2) (MCall (CExec j) :: rest) PNotify p st f) (mkPool o q e (l1 ++ WLock :: l2) rest PLock p st f)
| s_none o q e ws j rest p st f : existsb is_asleep ws = false -> step false (mkPool o q e ws (MCall (CExec j) :: rest) PNotify p st f) (mkPool o q e ws rest PLock p st f)
| s_mall o q e ws rest p st f : step false (mkPool o q e ws (MCall CCancel :: rest) PNotify p st f) (mkPool o q e (wake_all ws) rest PLock p st f)
| s_lock q e l1 l2 m ph p st f : step false (mkPool None q e (l1 ++ WLock :: l2) m ph p st f) (mkPool (Some (Worker (length l1))) q e (l1 ++ WCheck :: l2) m ph p st f)
| s_exit o q l1 l2 m ph p st f : step false (mkPool o q true (l1 ++ WCheck :: l2) m ph p st f) (mkPool None q true (l1 ++ WDone :: l2) m ph p st f)
| s_sleep o l1 l2 m ph p st f : step false (mkPool o [] false (l1 ++ WCheck :: l2) m ph p st f) (mkPool None [] false (l1 ++ WSleep :: l2) m ph p st f)
| s_pop o j q l1 l2 m ph p st f : step false (mkPool o (j :: q) false (l1 ++ WCheck :: l2) m ph p st f) (mkPool None q false (l1 ++ at_job j :: l2) m ph p (st ++ [j]) f)
| s_look o q e line l1 l2 m ph p st f : step false (mkPool o q e (l1 ++ WLook line :: l2) m ph p st f) (mkPool o q e (l1 ++ WLock :: l2) m ph p st (f ++ [JLook line]))
| s_clock q e l1 l2 m ph p st f : step false (mkPool None q e (l1 ++ WCancel PLock :: l2) m ph p st f) (mkPool (Some (Worker (length l1))) q e (l1 ++ WCancel PAct :: l2) m ph p st f)
| s_ccancel o q e l1 l2 m ph p st f : step false (mkPool o q e (l1 ++ WCancel PAct :: l2) m ph p st f) (mkPool o q true (l1 ++ WCancel PUnlock :: l2) m ph p st f)
| s_cunlock o q e l1 l2 m ph p st f : step false (mkPool o q e (l1 ++ WCancel PUnlock :: l2) m ph p st f) (mkPool None q e (l1 ++ WCancel PNotify :: l2) m ph p st f)
| s_call o q e l1 l2 m ph p st f : step false (mkPool o q e (l1 ++ WCancel PNotify :: l2) m ph p st f) (mkPool o q e (wake_all l1 ++ WLock :: wake_all l2) m ph p st (f ++ [JCancel]))
| s_wake o q e l1 l2 m ph p st f : step true (mkPool o q e (l1 ++ WSleep :: l2) m ph p st f) (mkPool o q e (l1 ++ WLock :: l2) m ph p st f).
Lemma wake_all_app a b : wake_all (a ++ b) = wake_all a ++ wake_all b.
Proof. apply map_app. Qed.
Lemma move_step ev s s' : move ev s = Some s' -> step (spurious ev) s s'.
Proof.
  destruct s as [o q e ws t ph p st f]. destruct ev as [[|i] pick|i]; cbn [move].
  - unfold main_step. cbn [todo mphase workers]. destruct t as [|[|c|i] rest]; try discriminate.
    + intros E. injection E as <-. apply s_spawn.
    + destruct ph; cbn [call_step owner queue exiting workers todo mphase pushed started finished].
      * destruct o; [discriminate|]. intros E. injection E as <-. apply s_mlock.
      * destruct c; intros E; injection E as <-; [apply s_push|apply s_mcancel].
      * intros E. injection E as <-. apply s_munlock.
      * destruct c as [j|].
        -- unfold wake_one. destruct (existsb is_asleep ws) eqn:A; cbn [option_map].
           ++ destruct (nth_error ws pick) as [[]|] eqn:N; try discriminate. cbn [option_map]. intros E. injection E as <-.
              apply nth_split_at in N as (l1 & l2 & -> & <-). cbn [with_workers with_main]. rewrite update_mid. apply s_one.
           ++ intros E. injection E as <-. now apply s_none.
        -- intros E. injection E as <-. apply s_mall.
    + destruct (nth_error ws i) as [[]|] eqn:N; try discriminate. intros E. injection E as <-. apply nth_split_at in N as (l1 & l2 & -> & <-). apply s_join.
  - unfold worker_step. cbn [workers]. destruct (nth_error ws i) as [x|] eqn:N; [|discriminate]. apply nth_split_at in N as (l1 & l2 & -> & <-).
    destruct x as [| | |line|ph'|]; try discriminate; cbn [owner exiting queue].
    + destruct o; [discriminate|]. rewrite update_mid. intros E. injection E as <-. apply s_lock.
    + destruct e; rewrite ?update_mid.
      * intros E. injection E as <-. apply s_exit.
      * destruct q as [|j q]; rewrite ?update_mid; intros E; injection E as <-; [apply s_sleep|]. apply s_pop.
    + rewrite update_mid. intros E. injection E as <-. apply s_look.
    + destruct ph'; cbn [call_step owner].
      * destruct o; [discriminate|]. cbn [with_owner workers]. rewrite update_mid. intros E. injection E as <-. apply s_clock.
      * cbn [workers]. rewrite update_mid. intros E. injection E as <-. apply s_ccancel.
      * cbn [with_owner workers]. rewrite update_mid. intros E. injection E as <-. apply s_cunlock.
      * cbn [with_workers workers]. rewrite wake_all_app. cbn [wake_all map is_asleep].
        replace (length l1) with (length (wake_all l1)) by apply map_length. intros E. injection E as <-. rewrite update_mid. apply s_call.
  - cbn [workers]. destruct (nth_error ws i) as [[]|] eqn:N; try discriminate. apply nth_split_at in N as (l1 & l2 & -> & <-). rewrite update_mid.
    intros E. injection E as <-. apply s_wake.
Qed.

(** * Who has the lock *)
Definition crit_pos (x : wpos) : bool := match x with WCheck | WCancel PAct | WCancel PUnlock => true | _ => false end.
Definition main_crit (m : list mop) (ph : phase) : bool :=
  match m, ph with MCall _ :: _, PAct | MCall _ :: _, PUnlock => true | _, _ => false end.
Definition wc (ws : list wpos) (i : nat) : Prop := exists x, nth_error ws i = Some x /\ crit_pos x = true.
Lemma critical_main s : critical s Main <-> main_crit (todo s) (mphase s) = true.
Proof.
  split.
  - intros H. inversion H as [c rest E P| |]. rewrite E. destruct P as [-> | ->]; reflexivity.
  - destruct (todo s) as [|[|c|] rest] eqn:T; try discriminate. destruct (mphase s) eqn:P; try discriminate; intros _; econstructor; eauto.
Qed.
Lemma critical_worker s i : critical s (Worker i) <-> wc (workers s) i.
Proof.
  split.
  - intros H. inversion H as [|j N|j ph N P]; subst; eexists; (split; [exact N|]); [reflexivity|]. destruct P as [-> | ->]; reflexivity.
  - intros (x & N & C). destruct x as [| | |l|ph|]; try discriminate; [now apply checking|]. destruct ph; try discriminate; eapply cancelling; eauto.
Qed.
Definition others (l1 l2 : list wpos) (i : nat) : Prop := i <> length l1 /\ wc (l1 ++ WDone :: l2) i.
Lemma wc_mid l1 x l2 i : wc (l1 ++ x :: l2) i <-> (i = length l1 /\ crit_pos x = true) \/ others l1 l2 i.
Proof.
  unfold others, wc. destruct (Nat.eq_dec i (length l1)) as [->|N].
  - rewrite nth_mid. split; [intros (y & E & C); injection E as <-; auto|]. intros [(_ & C)|(N & _)]; [eauto|congruence].
  - rewrite (nth_other _ x WDone) by exact N. tauto.
Qed.
Lemma wake_crit ws i : wc (wake_all ws) i <-> wc ws i.
Proof.
  unfold wc, wake_all. rewrite nth_error_map. destruct (nth_error ws i) as [x|]; cbn; [|split; intros (y & E & _); discriminate].
  split; intros (y & E & C); injection E as <-; exists (if is_asleep x then WLock else x); destruct x; try discriminate; cbn in *; eauto.
Qed.
Lemma others_wake l1 l2 i : others (wake_all l1) (wake_all l2) i <-> others l1 l2 i.
Proof.
  unfold others. rewrite <- (wake_crit (l1 ++ WDone :: l2)), wake_all_app. unfold wake_all. rewrite map_length. reflexivity.
Qed.
Lemma wc_new ws i : wc (ws ++ [WLock]) i <-> wc ws i.
Proof.
  unfold wc. destruct (Nat.lt_ge_cases i (length ws)).
  - rewrite nth_error_app1 by auto. reflexivity.
  - rewrite nth_error_app2 by auto. rewrite (proj2 (nth_error_None ws i)) by auto. split; [|intros (x & E & _); discriminate].
    intros (x & E & C). destruct (i - length ws) as [|[|n]]; try discriminate. injection E as <-. discriminate.
Qed.
Definition own_ok (s : pool) : Prop :=
  (main_crit (todo s) (mphase s) = true <-> owner s = Some Main) /\ forall i, wc (workers s) i <-> owner s = Some (Worker i).
Lemma own_step b s s' : step b s s' -> own_ok s -> own_ok s'.
Proof.
  assert (PL : forall m, main_crit m PLock = true <-> False) by (intros [|[]]; cbn; intuition discriminate).
  assert (PN : forall m, main_crit m PNotify = true <-> False) by (intros [|[]]; cbn; intuition discriminate).
  assert (WN : forall i j, Some (Worker i) = Some (Worker j) <-> i = j) by (intros; split; congruence).
  assert (JN : forall j, crit_pos (at_job j) = false) by (intros []; reflexivity).
  (* the thread that acts has the lock *)
  assert (OW : forall o l1 x l2 m ph, crit_pos x = true ->
    (main_crit m ph = true <-> o = Some Main) /\ (forall i, wc (l1 ++ x :: l2) i <-> o = Some (Worker i)) -> o = Some (Worker (length l1))).
  { intros o l1 x l2 m ph C (_ & B). apply B. apply wc_mid. auto. }
  destruct 1; unfold own_ok; cbn [owner workers todo mphase]; intros AB;
    try (match type of AB with context [?l1 ++ ?x :: ?l2] => let H := fresh in assert (H := OW _ _ _ _ _ _ (eq_refl : crit_pos x = true) AB); subst o end);
    try (let H := fresh in assert (H : o = Some Main) by (apply AB; reflexivity); subst o);
    destruct AB as (A & B); (split; [try clear B|intros i; specialize (B i); try clear A]);
    try (rewrite wc_new; exact B);
    rewrite ?wc_mid, ?wake_crit, ?others_wake, ?PL, ?PN, ?JN in *; cbn [crit_pos main_crit] in *; rewrite ?WN in *;
    unfold wake_all in *; rewrite ?map_length in *;
    try (intuition congruence).
  all: try (unfold others in *; intuition congruence).
Qed.

(** * The main thread *)
Definition joins (i count : nat) : list mop := map MJoin (seq i count).
Definition calls (jobs : list job) : list mop := map (fun j => MCall (CExec j)) jobs.
Inductive main_ok (count : nat) (jobs : list job) (ws : list wpos) (e : bool) : list mop -> phase -> list job -> Prop :=
| ok_spawn k : length ws + S k = count -> main_ok count jobs ws e (repeat MSpawn (S k) ++ calls jobs ++ MCall CCancel :: joins 0 count) PLock []
| ok_before done j rest ph : length ws = count -> jobs = done ++ j :: rest -> ph = PLock \/ ph = PAct ->
    main_ok count jobs ws e (MCall (CExec j) :: calls rest ++ MCall CCancel :: joins 0 count) ph done
| ok_after done j rest ph : length ws = count -> jobs = done ++ j :: rest -> ph = PUnlock \/ ph = PNotify ->
    main_ok count jobs ws e (MCall (CExec j) :: calls rest ++ MCall CCancel :: joins 0 count) ph (done ++ [j])
| ok_end ph : length ws = count -> (ph = PUnlock \/ ph = PNotify -> e = true) -> main_ok count jobs ws e (MCall CCancel :: joins 0 count) ph jobs
| ok_join i : length ws = count -> i <= count -> e = true -> (forall k, k < i -> nth_error ws k = Some WDone) ->
    main_ok count jobs ws e (joins i (count - i)) PLock jobs.
Lemma main_ok_workers count jobs ws ws' e e' m ph p : main_ok count jobs ws e m ph p -> length ws' = length ws -> (e = true -> e' = true) ->
  (forall k, nth_error ws k = Some WDone -> nth_error ws' k = Some WDone) -> main_ok count jobs ws' e' m ph p.
Proof.
  intros H L E D. destruct H; [apply ok_spawn|apply ok_before|apply ok_after|apply ok_end|apply ok_join]; auto; congruence.
Qed.
Lemma main_next count jobs ws e done rest : length ws = count -> jobs = done ++ rest ->
  main_ok count jobs ws e (calls rest ++ MCall CCancel :: joins 0 count) PLock done.
Proof.
  intros L E. destruct rest as [|j rest]; cbn [calls map app].
  - rewrite app_nil_r in E. subst done. apply ok_end; [exact L|]. intros [|]; discriminate.
  - apply ok_before; auto.
Qed.
Lemma done_mid l1 x l2 y k : x <> WDone -> nth_error (l1 ++ x :: l2) k = Some WDone -> nth_error (l1 ++ y :: l2) k = Some WDone.
Proof.
  intros N E. destruct (Nat.eq_dec k (length l1)) as [->|D]; [rewrite nth_mid in E; congruence|]. now rewrite (nth_other _ y x).
Qed.
Lemma done_wake ws k : nth_error ws k = Some WDone -> nth_error (wake_all ws) k = Some WDone.
Proof. intros E. unfold wake_all. rewrite nth_error_map, E. reflexivity. Qed.
Lemma mid_length {A} (l1 : list A) x l2 y : length (l1 ++ y :: l2) = length (l1 ++ x :: l2).
Proof. rewrite !app_length. reflexivity. Qed.
Lemma wake_length ws : length (wake_all ws) = length ws.
Proof. apply map_length. Qed.
Ltac bad := try match goal with X : ?a = _ \/ ?a = _ |- _ => destruct X; discriminate end.
Ltac bad2 := match goal with X : joins ?i ?n = _ :: _ |- _ => unfold joins in X; destruct n; discriminate X end.
Lemma main_step_ok count jobs b s s' : step b s s' -> main_ok count jobs (workers s) (exiting s) (todo s) (mphase s) (pushed s) ->
  main_ok count jobs (workers s') (exiting s') (todo s') (mphase s') (pushed s').
Proof.
  destruct 1; cbn [workers exiting todo mphase pushed]; intros M;
    try (eapply main_ok_workers; [exact M|apply mid_length|auto|intros k; apply done_mid; discriminate]).
  - inversion M; subst.
    + destruct k as [|k]; cbn [repeat app].
      * apply main_next; [rewrite app_length; cbn; lia|reflexivity].
      * apply ok_spawn. rewrite app_length. cbn [length]. lia.
    + bad2.
  - inversion M as [| | | |i L I E D Ej]; subst. unfold joins in Ej. destruct (length (l1 ++ WDone :: l2) - i) as [|n] eqn:N; [discriminate|]. cbn [seq map] in Ej.
    injection Ej as Ei <-. subst i. replace n with (length (l1 ++ WDone :: l2) - S (length l1)) by lia.
    apply ok_join; auto; [rewrite app_length; cbn; lia|]. intros k K. destruct (Nat.eq_dec k (length l1)) as [->|]; [apply nth_mid|]. apply D. lia.
  - inversion M; subst; bad.
    + apply ok_before; auto.
    + apply ok_end; [auto|]. intros [|]; discriminate.
    + bad2.
  - inversion M; subst; bad. apply ok_after; auto.
  - inversion M; subst. apply ok_end; auto.
  - inversion M; subst; bad; [apply ok_after; auto|apply ok_end; auto].
  - inversion M; subst; bad.
    apply main_next; [rewrite !app_length; reflexivity|]. rewrite <- app_assoc. reflexivity.
  - inversion M; subst; bad. apply main_next; [reflexivity|]. rewrite <- app_assoc. reflexivity.
  - inversion M; subst. rewrite <- (wake_length ws). rewrite <- (Nat.sub_0_r (length (wake_all ws))) at 2. apply ok_join; auto; [lia|]. intros k K. lia.
  - eapply main_ok_workers; [exact M|rewrite !app_length; cbn [length]; rewrite !wake_length; reflexivity|auto|]. intros k E. apply (done_mid _ (WCancel PNotify)); [discriminate|].
    apply done_wake in E. rewrite wake_all_app in E. exact E.
Qed.

(** * Queue, sleep, and the rest *)
Definition tells_all (x : wpos) : bool := match x with WCancel PUnlock | WCancel PNotify => true | _ => false end.
Definition main_tells (m : list mop) (ph : phase) : bool :=
  match m, ph with MCall CCancel :: _, PUnlock | MCall CCancel :: _, PNotify => true | _, _ => false end.
Definition main_cancelled (m : list mop) (ph : phase) : bool :=
  match m with MCall CCancel :: _ => match ph with PUnlock | PNotify => true | _ => false end | MJoin _ :: _ | [] => true | _ => false end.
Record inv (count : nat) (jobs : list job) (s : pool) : Prop := mkInv {
  i_own : own_ok s;
  i_main : main_ok count jobs (workers s) (exiting s) (todo s) (mphase s) (pushed s);
  i_fifo : pushed s = started s ++ queue s;
  i_once : Permutation (started s) (finished s ++ running s);
  i_told : exiting s = true -> existsb is_asleep (workers s) = true -> main_tells (todo s) (mphase s) || existsb tells_all (workers s) = true;
  i_work : exiting s = false -> existsb is_asleep (workers s) = true -> length (queue s) <= count_looking s + (if notifying s then 1 else 0);
  i_done : In WDone (workers s) -> exiting s = true;
  i_cancel : In JCancel (finished s) -> exiting s = true;
  i_tells : existsb tells_all (workers s) = true -> exiting s = true;
  i_why : exiting s = true -> In JCancel (started s) \/ main_cancelled (todo s) (mphase s) = true
}.
Lemma existsb_mid {A} (f : A -> bool) l1 x l2 : existsb f (l1 ++ x :: l2) = existsb f l1 || f x || existsb f l2.
Proof. rewrite existsb_app. cbn. now rewrite orb_assoc. Qed.
Lemma wake_none ws : existsb is_asleep (wake_all ws) = false.
Proof. induction ws as [|x ws IH]; [reflexivity|]. cbn. fold (wake_all ws). rewrite IH. destruct x; reflexivity. Qed.
Lemma wake_tells ws : existsb tells_all (wake_all ws) = existsb tells_all ws.
Proof. induction ws as [|x ws IH]; [reflexivity|]. cbn. fold (wake_all ws). rewrite IH. destruct x; reflexivity. Qed.
Lemma wake_jobs ws : flat_map job_of (wake_all ws) = flat_map job_of ws.
Proof. induction ws as [|x ws IH]; [reflexivity|]. cbn. fold (wake_all ws). rewrite IH. destruct x; reflexivity. Qed.
Lemma wake_done ws : In WDone (wake_all ws) <-> In WDone ws.
Proof.
  unfold wake_all. rewrite in_map_iff. split; [intros (x & E & I); destruct x; try discriminate; exact I|]. intros I. exists WDone. auto.
Qed.
Lemma once_step b s s' : step b s s' -> Permutation (started s) (finished s ++ running s) -> Permutation (started s') (finished s' ++ running s').
Proof.
  unfold running. destruct 1; cbn [started finished workers]; rewrite ?flat_map_app; cbn [flat_map job_of]; rewrite ?app_nil_r, ?wake_jobs; cbn [app]; auto.
  - intros P. transitivity ((f ++ flat_map job_of l1 ++ flat_map job_of l2) ++ [j]); [apply Permutation_app_tail; exact P|].
    replace (job_of (at_job j)) with [j] by (destruct j; reflexivity). rewrite <- !app_assoc. apply Permutation_app_head, Permutation_app_head.
    apply Permutation_app_comm.
  - intros P. rewrite P, <- app_assoc. apply Permutation_app_head, (Permutation_sym (Permutation_middle (flat_map job_of l1) (flat_map job_of l2) (JLook line))).
  - intros P. rewrite P, <- app_assoc. apply Permutation_app_head, (Permutation_sym (Permutation_middle (flat_map job_of l1) (flat_map job_of l2) JCancel)).
Qed.
Lemma fifo_step b s s' : step b s s' -> pushed s = started s ++ queue s -> pushed s' = started s' ++ queue s'.
Proof.
  destruct 1; cbn [started pushed queue]; auto; intros ->; rewrite <- app_assoc; reflexivity.
Qed.
Lemma told_step b s s' : step b s s' ->
  (exiting s = true -> existsb is_asleep (workers s) = true -> main_tells (todo s) (mphase s) || existsb tells_all (workers s) = true) ->
  exiting s' = true -> existsb is_asleep (workers s') = true -> main_tells (todo s') (mphase s') || existsb tells_all (workers s') = true.
Proof.
  destruct 1; cbn [exiting workers todo mphase]; rewrite ?existsb_mid, ?existsb_app, ?wake_none, ?wake_tells; cbn [is_asleep tells_all existsb orb];
    rewrite ?orb_false_r, ?orb_true_r; auto; try discriminate.
  all: try (destruct j; cbn; rewrite ?orb_false_r; auto; fail).
  all: try (destruct c; cbn; auto; fail).
  all: replace (main_tells rest PLock) with false by (destruct rest as [|[|[]|]]; reflexivity); cbn [main_tells]; auto.
Qed.
Lemma in_mid {A} (z : A) l1 x l2 : In z (l1 ++ x :: l2) <-> In z l1 \/ x = z \/ In z l2.
Proof. rewrite in_app_iff. reflexivity. Qed.
Lemma work_step b s s' : step b s s' ->
  (exiting s = false -> existsb is_asleep (workers s) = true -> length (queue s) <= count_looking s + (if notifying s then 1 else 0)) ->
  exiting s' = false -> existsb is_asleep (workers s') = true -> length (queue s') <= count_looking s' + (if notifying s' then 1 else 0).
Proof.
  assert (PL : forall o q e ws m p st f, notifying (mkPool o q e ws m PLock p st f) = false) by (intros; unfold notifying; cbn; destruct m as [|[|[]|]]; reflexivity).
  unfold count_looking. destruct 1; cbn [exiting workers queue]; rewrite ?existsb_mid, ?existsb_app, ?wake_none, ?PL;
    rewrite ?filter_app, ?app_length; cbn [filter looking length is_asleep existsb orb]; rewrite ?orb_false_r, ?orb_true_r; try discriminate;
    try (rewrite H; discriminate);
    try (replace (is_asleep (at_job j)) with false by (destruct j; reflexivity); replace (looking (at_job j)) with false by (destruct j; reflexivity);
         rewrite !orb_false_r; cbn [length]);
    intros K E A; unfold notifying in *; cbn [todo mphase] in *; try (match goal with c : call |- _ => destruct c end);
    try (specialize (K E A)); try (specialize (K E eq_refl)); try discriminate; rewrite ?app_length in *; cbn [length] in *;
    repeat match goal with |- context [match ?x with _ => _ end] => is_var x; destruct x end; try lia.
Qed.
Lemma flags_step count jobs b s s' : step b s s' -> inv count jobs s ->
  (In WDone (workers s') -> exiting s' = true) /\ (In JCancel (finished s') -> exiting s' = true) /\ (existsb tells_all (workers s') = true -> exiting s' = true) /\
  (exiting s' = true -> In JCancel (started s') \/ main_cancelled (todo s') (mphase s') = true).
Proof.
  intros H [_ M _ P _ _ D C T W].
  assert (JN : forall i n, main_cancelled (joins i n) PLock = true) by (intros i [|n]; reflexivity).
  split; [|split; [|split]].
  - clear M P C T W. destruct H; cbn [exiting workers] in *; rewrite ?in_mid, ?in_app_iff, ?wake_done in *; cbn [In] in *; try (destruct j; cbn [at_job] in *);
      intuition congruence.
  - clear M P W D. destruct H; cbn [exiting finished workers] in *; rewrite ?existsb_mid, ?in_app_iff in *; cbn [tells_all In] in *; rewrite ?orb_true_r in *; auto.
    intros [I|[I|[]]]; [auto|discriminate].
  - clear M P W D C. destruct H; cbn [exiting workers] in *; rewrite ?existsb_mid, ?existsb_app, ?wake_tells in *; cbn [tells_all existsb] in *;
      rewrite ?orb_false_r, ?orb_true_r in *; auto.
    replace (tells_all (at_job j)) with false by (destruct j; reflexivity). rewrite orb_false_r. exact T.
  - clear D C T. destruct H; cbn [exiting started todo mphase finished workers pushed] in *; auto.
    + intros E. destruct (W E) as [I|I]; [auto|discriminate].
    + intros _. right. inversion M as [| | | |i L I E D Ej]; subst. unfold joins in Ej. destruct (length (l1 ++ WDone :: l2) - i) as [|n]; [discriminate|].
      cbn [seq map] in Ej. injection Ej as _ <-. apply JN.
    + intros E. destruct (W E) as [I|I]; [auto|discriminate].
    + intros E. destruct (W E) as [I|I]; [auto|discriminate].
    + intros _. right. inversion M; subst. apply JN.
    + discriminate.
    + intros _. left. apply (Permutation_in _ (Permutation_sym P)). rewrite in_app_iff. unfold running. cbn [workers]. rewrite flat_map_app, in_app_iff. cbn. auto.
Qed.
Lemma inv_step count jobs b s s' : step b s s' -> inv count jobs s -> inv count jobs s'.
Proof.
  intros H I. destruct (flags_step _ _ _ _ _ H I) as (A & B & C & D). destruct I. split; auto.
  - eapply own_step; eauto.
  - eapply main_step_ok; eauto.
  - eapply fifo_step; eauto.
  - eapply once_step; eauto.
  - eapply told_step; eauto.
  - eapply work_step; eauto.
Qed.
Lemma inv_start count jobs : inv count jobs (new_pool count jobs).
Proof.
  split; cbn; auto; try tauto; try discriminate.
  - split; cbn.
    + destruct count; [destruct jobs|]; cbn; split; discriminate.
    + intros i. unfold wc. split; [|discriminate]. intros (x & E & _). destruct i; discriminate.
  - destruct count as [|k]; [apply main_next; reflexivity|]. apply (ok_spawn (S k) jobs [] false k). reflexivity.
Qed.
Theorem inv_reachable count jobs s : reachable (new_pool count jobs) s -> inv count jobs s.
Proof.
  intros (es & E). assert (I := inv_start count jobs). revert E I. generalize (new_pool count jobs). induction es as [|e es IH]; intros s0 E I; cbn [moves] in E.
  - injection E as <-. exact I.
  - destruct (move e s0) as [s1|] eqn:M; [|discriminate]. apply (IH s1 E). eapply inv_step; [apply (move_step _ _ _ M)|exact I].
Qed.

(** * What follows *)
Theorem pool_exclusion count jobs s t u : reachable (new_pool count jobs) s -> critical s t -> critical s u -> t = u.
Proof.
  intros R A B. destruct (i_own _ _ _ (inv_reachable _ _ _ R)) as (M & W).
  assert (G : forall t, critical s t -> owner s = Some t) by (intros [|i]; rewrite ?critical_main, ?critical_worker; [apply M|apply W]).
  apply G in A, B. congruence.
Qed.
Theorem pool_guarded t pick s s' : move (Step t pick) s = Some s' -> queue s' <> queue s \/ exiting s' <> exiting s \/ started s' <> started s -> critical s t.
Proof.
  destruct t as [|i]; cbn [move].
  - unfold main_step. destruct (todo s) as [|[|c|i] rest] eqn:T; try discriminate.
    + intros E. injection E as <-. cbn. tauto.
    + rewrite critical_main, T. unfold call_step. destruct (mphase s); auto.
      * destruct (owner s); [discriminate|]. intros E. injection E as <-. cbn. tauto.
      * destruct c; [destruct (wake_one _ _); [|discriminate]|]; intros E; injection E as <-; cbn; tauto.
    + destruct (nth_error (workers s) i) as [[]|]; try discriminate. intros E. injection E as <-. cbn. tauto.
  - unfold worker_step. rewrite critical_worker. unfold wc. destruct (nth_error (workers s) i) as [x|]; [|discriminate].
    destruct x as [| | |line|ph|]; try discriminate; [destruct (owner s); [discriminate|]| | |].
    + intros E. injection E as <-. cbn. tauto.
    + intros _ _. exists WCheck. auto.
    + intros E. injection E as <-. cbn. tauto.
    + unfold call_step. destruct ph; [destruct (owner s); [discriminate|]| | |]; try (intros _ _; eexists; split; reflexivity); intros E; injection E as <-; cbn; tauto.
Qed.
Theorem pool_order count jobs s : reachable (new_pool count jobs) s -> pushed s = started s ++ queue s /\ exists later, jobs = pushed s ++ later.
Proof.
  intros R. apply inv_reachable in R. split; [apply R|]. destruct (i_main _ _ _ R); [exists jobs; reflexivity|eauto| |exists []; now rewrite app_nil_r|exists []; now rewrite app_nil_r].
  exists rest. rewrite <- app_assoc. assumption.
Qed.
Theorem pool_once count jobs s : reachable (new_pool count jobs) s -> Permutation (started s) (finished s ++ running s).
Proof. intros R. apply (inv_reachable _ _ _ R). Qed.
Lemma step_exiting b s s' : step b s s' -> exiting s = true -> exiting s' = true /\ started s' = started s.
Proof. destruct 1; cbn; auto; discriminate. Qed.
Theorem pool_cancelled s s' : reachable s s' -> exiting s = true -> exiting s' = true /\ started s' = started s.
Proof.
  intros (es & E). revert s E. induction es as [|e es IH]; intros s E X; cbn [moves] in E; [injection E as <-; auto|].
  destruct (move e s) as [s1|] eqn:M; [|discriminate]. destruct (step_exiting _ _ _ (move_step _ _ _ M) X) as [X1 S1]. destruct (IH s1 E X1) as [X2 S2]. split; congruence.
Qed.
Theorem pool_reason count jobs s : reachable (new_pool count jobs) s -> exiting s = true -> In JCancel (started s) \/ pushed s = jobs /\ main_cancelled (todo s) (mphase s) = true.
Proof.
  intros R X. apply inv_reachable in R. destruct (i_why _ _ _ R X) as [H|H]; [auto|]. right. split; [|exact H].
  destruct (i_main _ _ _ R); cbn in H; try discriminate; reflexivity.
Qed.
Lemma sleeper ws : existsb is_asleep ws = true <-> exists i, nth_error ws i = Some WSleep.
Proof.
  rewrite existsb_exists. split.
  - intros (x & I & E). destruct x; try discriminate. apply In_nth_error in I. exact I.
  - intros (i & N). exists WSleep. split; [eapply nth_error_In; eauto|reflexivity].
Qed.
Theorem pool_busy count jobs s i : reachable (new_pool count jobs) s -> asleep s i -> exiting s = false ->
  length (queue s) <= count_looking s + (if notifying s then 1 else 0).
Proof. intros R A X. apply (i_work _ _ _ (inv_reachable _ _ _ R) X). apply sleeper. eauto. Qed.
(** Workers that cannot go on by themselves. *)
Definition resting (x : wpos) : Prop := x = WSleep \/ x = WDone.
Lemma worker_rests s i x : nth_error (workers s) i = Some x -> own_ok s -> (forall pick, worker_step i pick s = None) -> owner s = None \/ owner s = Some Main ->
  resting x \/ owner s = Some Main /\ (x = WLock \/ x = WCancel PLock).
Proof.
  intros N O H OW. specialize (H 0). unfold worker_step in H. rewrite N in H. destruct x as [| | |line|ph|]; unfold resting; auto; try discriminate.
  - destruct OW as [OW|OW]; rewrite OW in H; [discriminate|]. auto.
  - destruct (exiting s); [discriminate|]. destruct (queue s); discriminate.
  - unfold call_step in H. destruct ph; try discriminate. destruct OW as [OW|OW]; rewrite OW in H; [discriminate|]. auto.
Qed.
Lemma owner_moves count jobs s t : inv count jobs s -> owner s = Some t -> exists s', move (Step t 0) s = Some s'.
Proof.
  intros I E. destruct (i_own _ _ _ I) as (M & W). destruct t as [|i]; cbn [move].
  - apply M in E. unfold main_step. destruct (todo s) as [|[|c|] rest]; try discriminate. unfold call_step. destruct (mphase s); try discriminate; eauto.
  - apply W in E as (x & N & C). unfold worker_step. rewrite N. destruct x as [| | |line|ph|]; try discriminate.
    + destruct (exiting s); [eauto|]. destruct (queue s); eauto.
    + unfold call_step. destruct ph; try discriminate; eauto.
Qed.
Theorem pool_progress count jobs s : reachable (new_pool count jobs) s -> over s \/ can_go_on s.
Proof.
  intros R. apply inv_reachable in R. unfold can_go_on. destruct (owner s) as [t|] eqn:OW; [right; destruct (owner_moves _ _ _ _ R OW); eauto|].
  assert (D : (forall i, worker_step i 0 s = None) \/ exists i s', worker_step i 0 s = Some s').
  { assert (G : forall n, (forall i, i < n -> worker_step i 0 s = None) \/ exists i s', worker_step i 0 s = Some s').
    { induction n as [|n [IH|IH]]; [left; lia| |auto]. destruct (worker_step n 0 s) as [s'|] eqn:E; [eauto|]. left. intros i L.
      destruct (Nat.eq_dec i n) as [->|]; [exact E|apply IH; lia]. }
    destruct (G (length (workers s))) as [H|H]; [left|auto]. intros i. destruct (Nat.lt_ge_cases i (length (workers s))); [auto|].
    unfold worker_step. rewrite (proj2 (nth_error_None _ _)); auto. }
  destruct D as [D|(i & s' & D)]; [|right; exists (Worker i), 0, s'; exact D].
  assert (RS : forall i x, nth_error (workers s) i = Some x -> resting x).
  { intros i x N. destruct (worker_rests s i x N (i_own _ _ _ R)) as [H|(H & _)]; auto; [|congruence]. intros pick. specialize (D i). unfold worker_step in *. rewrite N in *.
    destruct x as [| | |line|ph|]; auto. }
  assert (NT : existsb tells_all (workers s) = false).
  { destruct (existsb tells_all (workers s)) eqn:E; [|reflexivity]. apply existsb_exists in E as (x & I & T). apply In_nth_error in I as (i & N).
    destruct (RS i x N) as [-> | ->]; discriminate. }
  assert (M := i_main _ _ _ R). inversion M as [k L Et Ep Eq|done j rest ph L Ej Ph Et Ep Eq|done j rest ph L Ej Ph Et Ep Eq|ph L X Et Ep Eq|i L Li X Dn Et Ep Eq].
  - right. exists Main, 0. cbn [move]. unfold main_step. rewrite <- Et. eauto.
  - right. exists Main, 0. cbn [move]. unfold main_step. rewrite <- Et. destruct Ph as [-> | ->]; unfold call_step; [rewrite OW|]; eauto.
  - right. destruct Ph as [Ph|Ph].
    + exists Main, 0. cbn [move]. unfold main_step. rewrite <- Et, Ph. unfold call_step. eauto.
    + destruct (existsb is_asleep (workers s)) eqn:A.
      * assert (A' := A). apply sleeper in A' as (i & N). exists Main, i. cbn [move]. unfold main_step. rewrite <- Et, Ph. unfold call_step, wake_one. rewrite A, N. cbn [option_map]. eauto.
      * exists Main, 0. cbn [move]. unfold main_step. rewrite <- Et, Ph. unfold call_step, wake_one. rewrite A. cbn [option_map]. eauto.
  - right. exists Main, 0. cbn [move]. unfold main_step. rewrite <- Et. unfold call_step. rewrite OW. destruct (mphase s); eauto.
  - destruct (Nat.eq_dec i count) as [->|Ni].
    + left. split; [rewrite <- Et, Nat.sub_diag; reflexivity|]. intros k x N. assert (k < count) by (rewrite <- L; apply nth_error_Some; congruence). rewrite Dn in N by auto. congruence.
    + right. destruct (nth_error (workers s) i) as [x|] eqn:N; [|apply nth_error_None in N; lia].
      assert (x = WDone).
      { destruct (RS i x N) as [-> | ->]; [|reflexivity]. exfalso. assert (T := i_told _ _ _ R X). rewrite NT, (proj2 (sleeper _)) in T by eauto.
        rewrite <- Et, <- Ep in T. unfold joins in T. destruct (count - i); cbn in T; specialize (T eq_refl); discriminate. }
      subst x. exists Main, 0. cbn [move]. unfold main_step. rewrite <- Et. unfold joins. destruct (count - i) eqn:E; [lia|]. cbn [seq map]. rewrite N. eauto.
Qed.
Theorem pool_end count jobs s : reachable (new_pool count jobs) s -> over s -> Permutation (finished s) (started s) /\ pushed s = jobs.
Proof.
  intros R (T & D). apply inv_reachable in R. split.
  - rewrite (i_once _ _ _ R). unfold running. replace (flat_map job_of (workers s)) with (@nil job); [now rewrite app_nil_r|].
    clear - D. induction (workers s) as [|x l IH]; [reflexivity|]. cbn [flat_map]. rewrite (D 0 x eq_refl). cbn. apply IH. intros i y N. apply (D (S i) y N).
  - assert (M := i_main _ _ _ R). rewrite T in M. inversion M; auto.
Qed.
(** At rest. *)
Lemma all_rest count jobs s : inv count jobs s -> workers_wait s -> mphase s = PLock -> forall i x, nth_error (workers s) i = Some x -> resting x.
Proof.
  intros R WW MP i x N.
  assert (OW : owner s = None).
  { destruct (owner s) as [[|k]|] eqn:OW; [| |reflexivity].
    - apply (i_own _ _ _ R) in OW. rewrite MP in OW. destruct (todo s) as [|[]]; discriminate.
    - destruct (owner_moves _ _ _ _ R OW) as (s' & E). cbn [move] in E. rewrite WW in E. discriminate. }
  destruct (worker_rests s i x N (i_own _ _ _ R)) as [H|(H & _)]; auto; congruence.
Qed.
Lemma resting_run ws : (forall i x, nth_error ws i = Some x -> resting x) -> flat_map job_of ws = [] /\ filter looking ws = [] /\ existsb tells_all ws = false.
Proof.
  induction ws as [|x l IH]; intros H; [auto|]. cbn [flat_map filter existsb]. destruct (H 0 x eq_refl) as [-> | ->]; cbn; apply IH; intros i y N; apply (H (S i) y N).
Qed.
Theorem pool_rest count jobs s : reachable (new_pool count jobs) s -> workers_wait s -> mphase s = PLock -> workers s <> [] ->
  (exiting s = true /\ forall i x, nth_error (workers s) i = Some x -> x = WDone) \/
  (exiting s = false /\ (forall i x, nth_error (workers s) i = Some x -> x = WSleep) /\ queue s = [] /\ Permutation (finished s) (pushed s)).
Proof.
  intros R WW MP NE. apply inv_reachable in R. assert (AR := all_rest _ _ _ R WW MP). destruct (resting_run _ AR) as (RN & LK & TL).
  destruct (exiting s) eqn:X.
  - left. split; [reflexivity|]. intros i x N. destruct (AR i x N) as [-> | ->]; [|reflexivity]. exfalso.
    assert (T := i_told _ _ _ R X). rewrite TL, (proj2 (sleeper _)), MP in T by eauto. specialize (T eq_refl). cbn in T. destruct (todo s) as [|[|[]|]]; discriminate.
  - right. split; [reflexivity|].
    assert (AS : forall i x, nth_error (workers s) i = Some x -> x = WSleep).
    { intros i x N. destruct (AR i x N) as [-> | ->]; [reflexivity|]. rewrite (i_done _ _ _ R) in X; [discriminate|]. eapply nth_error_In; eauto. }
    assert (Q : queue s = []).
    { assert (L := i_work _ _ _ R X). destruct (workers s) as [|x ws] eqn:E; [congruence|]. rewrite <- E in L. rewrite (proj2 (sleeper _)) in L.
      - specialize (L eq_refl). unfold count_looking, notifying in L. rewrite E, LK, MP in L. destruct (queue s); [reflexivity|].
        destruct (todo s) as [|[|[]|]]; cbn in L; lia.
      - exists 0. rewrite E. rewrite (AS 0 x); reflexivity. }
    split; [exact AS|]. split; [exact Q|]. rewrite (i_fifo _ _ _ R), Q, app_nil_r, (i_once _ _ _ R). unfold running. rewrite RN, app_nil_r. reflexivity.
Qed.
Theorem pool_leaves count jobs s : reachable (new_pool count jobs) s -> workers_wait s -> mphase s = PLock -> In JCancel (pushed s) ->
  forall i x, nth_error (workers s) i = Some x -> x = WDone.
Proof.
  intros R WW MP C i x N. destruct (pool_rest _ _ _ R WW MP) as [(_ & D)|(X & _ & _ & F)]; [destruct (workers s); [destruct i|]; discriminate|eauto|].
  apply inv_reachable in R. apply (Permutation_in _ (Permutation_sym F)) in C. apply (i_cancel _ _ _ R) in C. congruence.
Qed.

(** * Termination *)
Definition pos_weight (count : nat) (x : wpos) : nat :=
  match x with
  | WSleep | WDone => 0 | WCheck => 1 | WLock => 2 | WLook _ => 3
  | WCancel PNotify => 2 * count + 3 | WCancel PUnlock => 2 * count + 4 | WCancel PAct => 2 * count + 5 | WCancel PLock => 2 * count + 6
  end.
Definition job_weight (count : nat) (j : job) : nat := match j with JLook _ => 3 | JCancel => 2 * count + 6 end.
Definition op_weight (count : nat) (ph : phase) (o : mop) : nat :=
  match o with
  | MSpawn => 3 | MJoin _ => 1
  | MCall (CExec j) => match ph with PLock => 6 + job_weight count j | PAct => 5 + job_weight count j | PUnlock => 4 | PNotify => 3 end
  | MCall CCancel => match ph with PLock => 2 * count + 4 | PAct => 2 * count + 3 | PUnlock => 2 * count + 2 | PNotify => 2 * count + 1 end
  end.
Definition sum_of {A} (f : A -> nat) (l : list A) : nat := list_sum (map f l).
Lemma sum_app {A} (f : A -> nat) a b : sum_of f (a ++ b) = sum_of f a + sum_of f b.
Proof. unfold sum_of. now rewrite map_app, list_sum_app. Qed.
Lemma sum_cons {A} (f : A -> nat) a b : sum_of f (a :: b) = f a + sum_of f b.
Proof. reflexivity. Qed.
Definition main_weight (count : nat) (m : list mop) (ph : phase) : nat :=
  match m with [] => 0 | o :: rest => op_weight count ph o + sum_of (op_weight count PLock) rest end.
Lemma main_weight_lock count m : main_weight count m PLock = sum_of (op_weight count PLock) m.
Proof. destruct m; reflexivity. Qed.
Definition weight (count : nat) (s : pool) : nat :=
  sum_of (pos_weight count) (workers s) + sum_of (job_weight count) (queue s) + main_weight count (todo s) (mphase s).
Lemma wake_weight count ws : sum_of (pos_weight count) (wake_all ws) <= sum_of (pos_weight count) ws + 2 * length ws.
Proof. induction ws as [|x l IH]; [cbn; lia|]. cbn [wake_all map length] in *. fold (wake_all l). rewrite !sum_cons. destruct x; cbn [is_asleep pos_weight]; lia. Qed.
Lemma main_count count jobs ws e m ph p : main_ok count jobs ws e m ph p -> length ws <= count.
Proof. destruct 1; lia. Qed.
Lemma weight_step count jobs b s s' : step b s s' -> inv count jobs s -> weight count s' + 1 <= weight count s + (if b then 3 else 0).
Proof.
  intros H I. assert (L := main_count _ _ _ _ _ _ _ (i_main _ _ _ I)). clear I. unfold weight.
  destruct H; cbn [workers queue todo mphase] in *; rewrite ?main_weight_lock; cbn [main_weight]; rewrite ?sum_app, ?sum_cons; cbn [op_weight];
    try (change (sum_of (pos_weight count) []) with 0); try (change (sum_of (job_weight count) []) with 0); cbn [pos_weight]; try lia.
  - destruct c; lia.
  - destruct c; lia.
  - assert (W := wake_weight count ws). lia.
  - destruct j; cbn [at_job pos_weight job_weight]; lia.
  - assert (W1 := wake_weight count l1). assert (W2 := wake_weight count l2). rewrite app_length in L. cbn [length] in L. lia.
Qed.
Definition count_spurious (es : list event) : nat := length (filter spurious es).
Lemma weight_moves count jobs es : forall s s', inv count jobs s -> moves es s = Some s' -> length es + weight count s' <= weight count s + 3 * count_spurious es.
Proof.
  induction es as [|e es IH]; intros s s' I E; cbn [moves] in E.
  - injection E as <-. cbn. lia.
  - destruct (move e s) as [s1|] eqn:M; [|discriminate]. apply move_step in M. assert (W := weight_step _ _ _ _ _ M I). assert (I1 := inv_step _ _ _ _ _ M I).
    specialize (IH _ _ I1 E). unfold count_spurious in *. cbn [length filter]. destruct (spurious e); cbn [length]; lia.
Qed.
Lemma weight_start count jobs : weight count (new_pool count jobs) = work count jobs.
Proof.
  unfold weight, new_pool, work. cbn [workers queue todo mphase]. rewrite main_weight_lock, !sum_app, sum_cons. cbn [op_weight].
  assert (A : forall n, sum_of (op_weight count PLock) (repeat MSpawn n) = 3 * n) by (induction n as [|n IH]; [reflexivity|]; cbn [repeat]; rewrite sum_cons, IH; cbn [op_weight]; lia).
  assert (B : forall i n, sum_of (op_weight count PLock) (map MJoin (seq i n)) = n) by (intros i n; revert i; induction n as [|n IH]; intros i; [reflexivity|]; cbn [seq map]; rewrite sum_cons, IH; reflexivity).
  rewrite A, B.
  assert (C : sum_of (op_weight count PLock) (map (fun j => MCall (CExec j)) jobs) = list_sum (map (fun j => match j with JLook _ => 9 | JCancel => 2 * count + 12 end) jobs)).
  { unfold sum_of. rewrite map_map. f_equal. apply map_ext. intros []; cbn [op_weight job_weight]; lia. }
  rewrite C. cbn. lia.
Qed.
Theorem pool_terminates count jobs es s : moves es (new_pool count jobs) = Some s -> length es <= work count jobs + 3 * length (filter spurious es).
Proof.
  intros E. assert (W := weight_moves count jobs es _ _ (inv_start count jobs) E). rewrite weight_start in W. unfold count_spurious in W. lia.
Qed.

(** * The whole *)
Theorem pool_reason_todo count jobs s : reachable (new_pool count jobs) s -> exiting s = true ->
  In JCancel (started s) \/ pushed s = jobs /\ forall o, In o (todo s) -> o = MCall CCancel \/ exists i, o = MJoin i.
Proof.
  intros R X. destruct (pool_reason _ _ _ R X) as [H|(E & H)]; [auto|]. right. split; [exact E|].
  assert (JI : forall o i n, In o (joins i n) -> exists k, o = MJoin k) by (intros o i n I; apply in_map_iff in I as (k & <- & _); eauto).
  apply inv_reachable in R. destruct (i_main _ _ _ R) as [k|done j rest ph|done j rest ph|ph L X'|i L]; cbn in H; try discriminate; intros o I.
  - destruct I as [<-|I]; [auto|]. right. eapply JI; eauto.
  - right. eapply JI; eauto.
Qed.
Theorem pool_end_jobs count jobs s : reachable (new_pool count jobs) s -> over s -> Permutation (finished s) (started s) /\ jobs = started s ++ queue s.
Proof.
  intros R O. destruct (pool_end _ _ _ R O) as (P & E). split; [exact P|]. destruct (pool_order _ _ _ R) as (F & _). congruence.
Qed.
Lemma last_job {A} (x : A) l a b : l ++ [x] = a ++ b -> ~ In x l -> In x a -> a = l ++ [x] /\ b = [].
Proof.
  intros E N I. destruct b as [|y b] using rev_ind; [rewrite app_nil_r in E; auto|]. clear IHb. rewrite app_assoc in E. apply app_inj_tail in E as (E & _).
  exfalso. apply N. rewrite E. apply in_app_iff. auto.
Qed.
Theorem pool_all count content s : reachable (new_pool count (cache_jobs content)) s -> In JCancel (finished s) -> started s = cache_jobs content /\ queue s = [].
Proof.
  intros R C. destruct (pool_order _ _ _ R) as (F & later & E). assert (P := pool_once _ _ _ R).
  assert (I : In JCancel (started s)) by (apply (Permutation_in _ (Permutation_sym P)), in_app_iff; auto).
  rewrite F, <- app_assoc in E. unfold cache_jobs in E. apply last_job in E as (-> & E); auto.
  - split; [reflexivity|]. apply app_eq_nil in E. tauto.
  - rewrite in_flat_map. intros (line & _ & J). destruct line as [|c [|d l]]; cbn [line_job In] in J; try tauto. destruct (_ || _); cbn in J; intuition discriminate.
Qed.
(** Left alone after all calls, the workers do all jobs. *)
Theorem prewarm_all content s rest : reachable (prewarm content) s -> workers_wait s -> mphase s = PLock -> todo s = MCall CCancel :: rest -> Permutation (finished s) (cache_jobs content).
Proof.
  intros R WW MP T. unfold prewarm in R. pose proof (inv_reachable _ _ _ R) as V.
  assert (W : length (workers s) = kPrewarmParallelism /\ pushed s = cache_jobs content).
  { assert (K := i_main _ _ _ V). rewrite T, MP in K. inversion K; subst; auto. }
  destruct W as [W P]. assert (N : workers s <> []) by (intros E; rewrite E in W; discriminate W).
  destruct (pool_rest _ _ _ R WW MP N) as [(X & D)|(_ & _ & _ & F)]; [|congruence].
  assert (C : In JCancel (started s)).
  { destruct (i_why _ _ _ V X) as [C|C]; [exact C|]. rewrite T, MP in C. discriminate C. }
  assert (Z : running s = []).
  { unfold running. assert (A : forall x, In x (workers s) -> job_of x = []) by (intros x I; apply In_nth_error in I as (i & I); rewrite (D _ _ I); reflexivity).
    clear - A. induction (workers s) as [|y k IHk]; [reflexivity|]. cbn [flat_map]. rewrite (A y (or_introl eq_refl)). apply IHk. intros z I. apply A. now right. }
  pose proof (pool_once _ _ _ R) as O. rewrite Z, app_nil_r in O. destruct (pool_all _ _ _ R) as (S & _); [exact (Permutation_in _ O C)|]. rewrite <- S. now apply Permutation_sym.
Qed.
