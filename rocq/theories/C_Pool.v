(** C50, C71: the thread pool of the prewarming and its file. *)
From Coq Require Import Permutation NArith.
From Verif Require Import Base M_Pool S_Pool P_Pool P_PoolFile.
Local Open Scope string_scope. Local Open Scope list_scope.

(** * C50 *)
(** Two threads are never both between lock() and unlock(), and only there the queue and the flag change and jobs are taken. *)
Theorem C50_exclusion : forall count jobs s t u,
  reachable (new_pool count jobs) s -> critical s t -> critical s u -> t = u.
Proof. exact pool_exclusion. Qed.
Print Assumptions C50_exclusion.
Theorem C50_guarded : forall t pick s s', move (Step t pick) s = Some s' ->
  queue s' <> queue s \/ exiting s' <> exiting s \/ started s' <> started s -> critical s t.
Proof. exact pool_guarded. Qed.
Print Assumptions C50_guarded.
(** Jobs start in the order in which they were queued, ... *)
Theorem C50_order : forall count jobs s, reachable (new_pool count jobs) s ->
  pushed s = started s ++ queue s /\ exists later, jobs = pushed s ++ later.
Proof. exact pool_order. Qed.
Print Assumptions C50_order.
(** ... and each one that started has finished once or is being worked on by one worker. *)
Theorem C50_once : forall count jobs s, reachable (new_pool count jobs) s -> Permutation (started s) (finished s ++ running s).
Proof. exact pool_once. Qed.
Print Assumptions C50_once.
(** Nothing starts once cancelled. *)
Theorem C50_cancelled : forall s s', reachable s s' -> exiting s = true -> exiting s' = true /\ started s' = started s.
Proof. exact pool_cancelled. Qed.
Print Assumptions C50_cancelled.
(** It is only cancelled by the cancelling job, or by the destructor. *)
Theorem C50_reason : forall count jobs s, reachable (new_pool count jobs) s -> exiting s = true ->
  In JCancel (started s) \/ pushed s = jobs /\ forall o, In o (todo s) -> o = MCall CCancel \/ exists i, o = MJoin i.
Proof. exact pool_reason_todo. Qed.
Print Assumptions C50_reason.
(** When the destructor is done, the started jobs are finished, once each, and they are the first ones; all of them if the
    cancelling one, the last, was among them. *)
Theorem C50_end : forall count jobs s, reachable (new_pool count jobs) s -> over s ->
  Permutation (finished s) (started s) /\ jobs = started s ++ queue s.
Proof. exact pool_end_jobs. Qed.
Print Assumptions C50_end.
Theorem C50_all : forall count content s, reachable (new_pool count (cache_jobs content)) s ->
  In JCancel (finished s) -> started s = cache_jobs content /\ queue s = [].
Proof. exact pool_all. Qed.
Print Assumptions C50_all.
(** Some thread can always go on, without wake-ups for no reason, until the destructor is done; ... *)
Theorem C50_progress : forall count jobs s, reachable (new_pool count jobs) s -> over s \/ can_go_on s.
Proof. exact pool_progress. Qed.
Print Assumptions C50_progress.
(** ... and they cannot go on for ever. *)
Theorem C50_terminates : forall count jobs es s, moves es (new_pool count jobs) = Some s ->
  length es <= work count jobs + 3 * length (filter spurious es).
Proof. exact pool_terminates. Qed.
Print Assumptions C50_terminates.
(** No wake-up is lost: while a worker sleeps, each queued job has a worker that is about to look, or is about to be announced. *)
Theorem C50_busy : forall count jobs s i, reachable (new_pool count jobs) s -> asleep s i -> exiting s = false ->
  length (queue s) <= count_looking s + (if notifying s then 1 else 0).
Proof. exact pool_busy. Qed.
Print Assumptions C50_busy.
(** If the main thread does something else and the workers cannot go on, they have either all returned, or all sleep and
    everything queued is done; once the cancelling job is queued, they have all returned. *)
Theorem C50_rest : forall count jobs s, reachable (new_pool count jobs) s -> workers_wait s -> mphase s = PLock -> workers s <> [] ->
  (exiting s = true /\ forall i x, nth_error (workers s) i = Some x -> x = WDone) \/
  (exiting s = false /\ (forall i x, nth_error (workers s) i = Some x -> x = WSleep) /\ queue s = [] /\ Permutation (finished s) (pushed s)).
Proof. exact pool_rest. Qed.
Print Assumptions C50_rest.
Theorem C50_leaves : forall count jobs s, reachable (new_pool count jobs) s -> workers_wait s -> mphase s = PLock -> In JCancel (pushed s) ->
  forall i x, nth_error (workers s) i = Some x -> x = WDone.
Proof. exact pool_leaves. Qed.
Print Assumptions C50_leaves.
(** Whatever is in the file: if the workers get to the point where they cannot go on before the program ends, everything in it has been looked at. *)
Theorem C50_prewarm : forall content s rest, reachable (prewarm content) s -> workers_wait s -> mphase s = PLock -> todo s = MCall CCancel :: rest ->
  Permutation (finished s) (cache_jobs content).
Proof. exact prewarm_all. Qed.
Print Assumptions C50_prewarm.

(** ** Cases *)
Definition main_goes (n : nat) : list event := repeat (Step Main 0) n.
Definition worker_goes (i n : nat) : list event := repeat (Step (Worker i) 0) n.
Definition two_files : list job := [JLook ($"Fa"); JLook ($"Db"); JCancel].
(** Both workers start and sleep; the main thread queues the jobs one by one and wakes the first; the destructor finds nothing left to do. *)
Definition one_by_one : list event :=
  main_goes 1 ++ worker_goes 0 2 ++ main_goes 1 ++ worker_goes 1 2 ++ main_goes 4 ++ worker_goes 0 5 ++ main_goes 4 ++ worker_goes 0 5 ++ main_goes 4
  ++ worker_goes 0 6 ++ worker_goes 1 2 ++ worker_goes 0 2 ++ main_goes 6.
Example C50_one_by_one : moves one_by_one (new_pool 2 two_files) = Some (mkPool None [] true [WDone; WDone] [] PLock two_files two_files two_files).
Proof. vm_compute. reflexivity. Qed.
Example C50_one_by_one_over : exists s, reachable (new_pool 2 two_files) s /\ over s /\ In JCancel (finished s).
Proof.
  eexists. split; [exists one_by_one; apply C50_one_by_one|]. split; [|vm_compute; auto]. split; [reflexivity|].
  intros [|[|i]] x; cbn; intros E; try congruence. destruct i; discriminate.
Qed.
(** The jobs overlap and finish in the other order. *)
Definition overlapping : list event :=
  main_goes 14 ++ worker_goes 0 2 ++ worker_goes 1 3 ++ worker_goes 0 1.
Example C50_overlapping : option_map (fun s => (started s, finished s, queue s)) (moves overlapping (new_pool 2 two_files)) =
  Some ([JLook ($"Fa"); JLook ($"Db")], [JLook ($"Db"); JLook ($"Fa")], [JCancel]).
Proof. vm_compute. reflexivity. Qed.
(** The program is over before the jobs are: the rest is dropped. *)
Definition early_end : list event := main_goes 14 ++ worker_goes 0 2 ++ main_goes 4 ++ worker_goes 1 2 ++ worker_goes 0 3 ++ main_goes 2.
Example C50_early_end : moves early_end (new_pool 2 two_files) =
  Some (mkPool None [JLook ($"Db"); JCancel] true [WDone; WDone] [] PLock two_files [JLook ($"Fa")] [JLook ($"Fa")]).
Proof. vm_compute. reflexivity. Qed.
(** A worker sleeps while the main thread has queued a job it has not announced yet. *)
Definition not_announced : list event := main_goes 1 ++ worker_goes 0 2 ++ main_goes 3.
Example C50_not_announced : exists s, moves not_announced (new_pool 2 two_files) = Some s /\ asleep s 0 /\ exiting s = false /\ length (queue s) = 1 /\ notifying s = true /\ critical s Main.
Proof.
  eexists. split; [vm_compute; reflexivity|]. repeat split; try reflexivity. eapply main_critical; [reflexivity|auto].
Qed.
(** All sleep after the first job; a wake-up for no reason changes nothing for good. *)
Definition all_asleep : list event := main_goes 1 ++ worker_goes 0 2 ++ main_goes 1 ++ worker_goes 1 2 ++ main_goes 4 ++ worker_goes 0 5 ++ [Spurious 1] ++ worker_goes 1 2.
Example C50_all_asleep : exists s, moves all_asleep (new_pool 2 two_files) = Some s /\ workers_wait s /\ mphase s = PLock /\ workers s = [WSleep; WSleep] /\ exiting s = false /\ finished s = [JLook ($"Fa")].
Proof.
  eexists. split; [vm_compute; reflexivity|]. split; [|auto]. intros [|[|i]] pick; [reflexivity..|]. unfold worker_step. cbn. destruct i; reflexivity.
Qed.
(** After the cancelling job the workers leave without the destructor. *)
Definition left_alone : list event := main_goes 14 ++ worker_goes 0 14 ++ worker_goes 1 2.
Example C50_left_alone : exists s, moves left_alone (new_pool 2 two_files) = Some s /\ workers_wait s /\ mphase s = PLock /\ In JCancel (pushed s) /\ workers s = [WDone; WDone] /\ todo s <> [].
Proof.
  eexists. split; [vm_compute; reflexivity|]. split; [|cbn; repeat split; auto; discriminate]. intros [|[|i]] pick; [reflexivity..|]. unfold worker_step. cbn. destruct i; reflexivity.
Qed.

(** All threads of the prewarming: they start, the file is read, the first one looks at everything, then all leave. *)
Definition leave_all : list event := flat_map (fun i => worker_goes i 2) (seq 1 31).
Definition warm_events : list event := main_goes (32 + 4 * 3) ++ worker_goes 0 14 ++ leave_all.
Example C50_prewarm_case : exists s rest, moves warm_events (prewarm ($"Fa" ++ [NL] ++ $"Db" ++ [NL])) = Some s /\ workers_wait s /\ mphase s = PLock /\ todo s = MCall CCancel :: rest /\ finished s = two_files.
Proof.
  eexists. eexists. split; [vm_compute; reflexivity|]. split; [|repeat split; try reflexivity]. intros i pick. do 32 (destruct i as [|i]; [reflexivity|]). unfold worker_step. cbn. destruct i; reflexivity.
Qed.

(** * C71 *)
(** Whatever is in the file: a job for each line that names something, in order, and one that cancels; nothing else. *)
Theorem C71_jobs : forall content, exists lines, lines_of content lines /\ jobs_of lines (cache_jobs content).
Proof. exact cache_jobs_spec. Qed.
Print Assumptions C71_jobs.
(** The next run looks at what this one has looked at, once each, in the order in which it was first looked at. *)
Theorem C71_roundtrip : forall accesses first, firsts accesses first ->
  (forall a, In a accesses -> ~ In NL (name_of a) /\ name_of a <> []) ->
  cache_jobs (cache_after accesses) = map (fun a => JLook (line_of a)) first ++ [JCancel].
Proof. exact cache_roundtrip. Qed.
Print Assumptions C71_roundtrip.
Theorem C71_once : forall accesses, exists first, firsts accesses first /\ NoDup (map name_of first) /\
  forall n, In n (map name_of first) <-> In n (map name_of accesses).
Proof. intros l. destruct (firsts_exist l) as (r & F). exists r. split; [exact F|apply firsts_once, F]. Qed.
Print Assumptions C71_once.
(** Options for verbosity and values for the place of output or the working directory do not count, the order of arguments neither. *)
Theorem C71_arguments : forall args rest, counts args rest <-> cache_args args = rest.
Proof. exact cache_args_spec. Qed.
Print Assumptions C71_arguments.
Theorem C71_order : forall hash cwd args1 args2 rest1 rest2, counts args1 rest1 -> counts args2 rest2 -> Permutation rest1 rest2 ->
  cache_id hash cwd args1 = cache_id hash cwd args2.
Proof. intros hash cwd a1 a2 r1 r2 C1 C2 P. apply cache_args_spec in C1, C2. subst. now apply cache_id_order. Qed.
Print Assumptions C71_order.
Theorem C71_bound : forall hash cwd args, (cache_id hash cwd args < 2 ^ 32)%N.
Proof. exact cache_id_bound. Qed.
Print Assumptions C71_bound.
(** The comment says that the name is unique for the arguments; it is not, whatever the hash: an argument that is there twice
    does not count. *)
Theorem C71_unique_refuted : exists args1 args2, args1 <> args2 /\ ~ Permutation args1 args2 /\ forall hash cwd, cache_id hash cwd args1 = cache_id hash cwd args2.
Proof.
  exists [$"lib-headers"; $"//a"; $"//a"], [$"lib-headers"; $"//b"; $"//b"]. split; [discriminate|]. split.
  - intros P. assert (I : In ($"//a") [$"lib-headers"; $"//b"; $"//b"]) by (apply (Permutation_in _ P); cbn; auto). cbn in I. intuition discriminate.
  - intros hash cwd. unfold cache_id. vm_compute cache_args. cbn [map fold_left]. now rewrite !N.lxor_assoc, !N.lxor_nilpotent.
Qed.
Print Assumptions C71_unique_refuted.
Example C71_case :
  let accesses := [AFile ($"BUILD"); ADir ($"lib"); AFile ($"lib/BUILD"); AFile ($"BUILD"); AFile ($"lib")] in
  cache_after accesses = $"FBUILD" ++ [NL] ++ $"Dlib" ++ [NL] ++ $"Flib/BUILD" ++ [NL] /\
  cache_jobs (cache_after accesses) = [JLook ($"FBUILD"); JLook ($"Dlib"); JLook ($"Flib/BUILD"); JCancel].
Proof. vm_compute. auto. Qed.
Example C71_case_first : firsts [AFile ($"BUILD"); ADir ($"lib"); AFile ($"BUILD"); AFile ($"lib")] [AFile ($"BUILD"); ADir ($"lib")].
Proof.
  apply (firsts_again [_; _; _]); [cbn; auto|]. apply (firsts_again [_; _]); [cbn; auto|]. apply (firsts_new [_] [_]); [cbn; intuition discriminate|].
  apply (firsts_new [] []); [cbn; auto|]. constructor.
Qed.
(** A file that was damaged. *)
Example C71_damaged : cache_jobs ($"F" ++ [NL] ++ $"Xlib" ++ [NL; NL] ++ $"Da") = [JLook ($"Da"); JCancel].
Proof. vm_compute. reflexivity. Qed.
Example C71_arguments_case : cache_args [$"print"; $"-v"; $"-f"; $"json"; $"-g"; $"x"; $"-o"] = [$"print"; $"-g"; $"x"].
Proof. vm_compute. reflexivity. Qed.
