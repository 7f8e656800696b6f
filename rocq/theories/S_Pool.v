(** Specification of the thread pool. *)
From Coq Require Import Permutation.
From Verif Require Import Base M_Pool.

Definition reachable (s0 s : pool) : Prop := exists es, moves es s0 = Some s.
(** Threads between lock() and unlock(). *)
Inductive critical (s : pool) : thread -> Prop :=
| main_critical c rest : todo s = MCall c :: rest -> (mphase s = PAct \/ mphase s = PUnlock) -> critical s Main
| checking i : nth_error (workers s) i = Some WCheck -> critical s (Worker i)
| cancelling i ph : nth_error (workers s) i = Some (WCancel ph) -> (ph = PAct \/ ph = PUnlock) -> critical s (Worker i).
(** The jobs being worked on. *)
Definition job_of (x : wpos) : list job := match x with WLook line => [JLook line] | WCancel _ => [JCancel] | _ => [] end.
Definition running (s : pool) : list job := flat_map job_of (workers s).
Definition asleep (s : pool) (i : nat) : Prop := nth_error (workers s) i = Some WSleep.
(** Workers about to look for work. *)
Definition looking (x : wpos) : bool := match x with WLock | WCheck => true | _ => false end.
Definition count_looking (s : pool) : nat := length (filter looking (workers s)).
(** The main thread has queued a job and is about to notify. *)
Definition notifying (s : pool) : bool :=
  match todo s, mphase s with MCall (CExec _) :: _, PUnlock | MCall (CExec _) :: _, PNotify => true | _, _ => false end.
(** The destructor is done. *)
Definition over (s : pool) : Prop := todo s = [] /\ forall i x, nth_error (workers s) i = Some x -> x = WDone.
(** The threads that are not asleep for good: some thread can go on. *)
Definition can_go_on (s : pool) : Prop := exists t pick s', move (Step t pick) s = Some s'.
Definition workers_wait (s : pool) : Prop := forall i pick, worker_step i pick s = None.
(** How many steps a pool takes at most. *)
Definition work (count : nat) (jobs : list job) : nat :=
  6 * count + 4 + list_sum (map (fun j => match j with JLook _ => 9 | JCancel => 2 * count + 12 end) jobs).
Definition spurious (e : event) : bool := match e with Spurious _ => true | _ => false end.

(** The cache: lines for the names looked at, in order; of one name only the first. *)
Definition name_of (a : access) : str := match a with AFile f | ADir f => f end.
Definition line_of (a : access) : str := match a with AFile f => "F"%char :: f | ADir f => "D"%char :: f end.
Inductive firsts : list access -> list access -> Prop :=
| firsts_nil : firsts [] []
| firsts_again l r a : In (name_of a) (map name_of l) -> firsts l r -> firsts (l ++ [a]) r
| firsts_new l r a : ~ In (name_of a) (map name_of l) -> firsts l r -> firsts (l ++ [a]) (r ++ [a]).
(** The lines of a file; the last one needs no newline. *)
Inductive lines_of : str -> list str -> Prop :=
| no_lines : lines_of [] []
| last_line l : l <> [] -> ~ In NL l -> lines_of l [l]
| next_line l s ls : ~ In NL l -> lines_of s ls -> lines_of (l ++ NL :: s) (l :: ls).
(** Lines that name something to look at. *)
Definition looks_at (line : str) : Prop := exists name, name <> [] /\ (line = "F"%char :: name \/ line = "D"%char :: name).
Inductive jobs_of : list str -> list job -> Prop :=
| jobs_end : jobs_of [] [JCancel]
| jobs_look line ls js : looks_at line -> jobs_of ls js -> jobs_of (line :: ls) (JLook line :: js)
| jobs_skip line ls js : ~ looks_at line -> jobs_of ls js -> jobs_of (line :: ls) js.
(** Options that make no difference to what is looked at. *)
Definition quiet_option (a : str) : Prop := a = $"-v" \/ a = $"-q" \/ a = $"-vq" \/ a = $"-qv" \/ a = $"-k".
Definition option_with_value (a : str) : Prop := a = $"-C" \/ a = $"-o" \/ a = $"-f".
Inductive counts : list str -> list str -> Prop :=
| counts_nil : counts [] []
| counts_quiet a l r : quiet_option a -> counts l r -> counts (a :: l) r
| counts_value a b l r : option_with_value a -> counts l r -> counts (a :: b :: l) r
| counts_last a : option_with_value a -> counts [a] []
| counts_other a l r : ~ quiet_option a -> ~ option_with_value a -> counts l r -> counts (a :: l) (a :: r).
