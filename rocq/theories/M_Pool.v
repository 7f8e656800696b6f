(** The thread pool of the prewarming (/repo/bant/util/filesystem-prewarm-cache.cc).

    Threads take turns at any point; a state says where each of them is.  Unlocking right after the queue was
    changed by a worker is one step with the change (nobody else can see the state in between).
    std::condition_variable: wait() gives up the lock and sleeps in one step, can wake up for no reason,
    and takes the lock again before it returns. *)
From Coq Require Import NArith.
From Verif Require Import Base.

Inductive thread := Main | Worker (i : nat).
(** filesystem-prewarm-cache.cc:131-145: a job looks at a file or directory named by a line of the cache, and the last one
    cancels. *)
Inductive job := JLook (line : str) | JCancel.
(** filesystem-prewarm-cache.cc:63-75, ExecAsync and CancelAllWork. *)
Inductive call := CExec (j : job) | CCancel.
(** Where a thread is in such a call: to lock, to change something, to unlock, to notify. *)
Inductive phase := PLock | PAct | PUnlock | PNotify.
(** Where a worker is (Runner, filesystem-prewarm-cache.cc:78-88): to lock (at the start of the loop or after waking up), to look at the condition, asleep, in a
    job, returned. *)
Inductive wpos := WLock | WCheck | WSleep | WLook (line : str) | WCancel (ph : phase) | WDone.
(** What the main thread does with the pool: constructor, calls, destructor. *)
Inductive mop := MSpawn | MCall (c : call) | MJoin (i : nat).
Record pool := mkPool {
  owner : option thread;       (* lock_ *)
  queue : list job;            (* work_queue_ *)
  exiting : bool;              (* exiting_ *)
  workers : list wpos;         (* threads_ *)
  todo : list mop; mphase : phase;  (* the main thread *)
  pushed : list job; started : list job; finished : list job  (* for the record *)
}.

Fixpoint update (i : nat) (x : wpos) (l : list wpos) : list wpos :=
  match l, i with
  | [], _ => []
  | _ :: l, 0 => x :: l
  | y :: l, S i => y :: update i x l
  end.
Definition is_asleep (x : wpos) : bool := match x with WSleep => true | _ => false end.
(** notify_one: one that sleeps, if there is one; [pick] says which. *)
Definition wake_one (pick : nat) (l : list wpos) : option (list wpos) :=
  if existsb is_asleep l
  then match nth_error l pick with Some WSleep => Some (update pick WLock l) | _ => None end
  else Some l.
(** notify_all. *)
Definition wake_all (l : list wpos) : list wpos := map (fun x => if is_asleep x then WLock else x) l.

Definition with_owner (o : option thread) (s : pool) : pool :=
  mkPool o (queue s) (exiting s) (workers s) (todo s) (mphase s) (pushed s) (started s) (finished s).
Definition with_workers (l : list wpos) (s : pool) : pool :=
  mkPool (owner s) (queue s) (exiting s) l (todo s) (mphase s) (pushed s) (started s) (finished s).
Definition with_main (t : list mop) (ph : phase) (s : pool) : pool :=
  mkPool (owner s) (queue s) (exiting s) (workers s) t ph (pushed s) (started s) (finished s).
Definition finish (j : job) (s : pool) : pool :=
  mkPool (owner s) (queue s) (exiting s) (workers s) (todo s) (mphase s) (pushed s) (started s) (finished s ++ [j]).
(** filesystem-prewarm-cache.cc:63-75: a step of a call; None if the thread has to wait.  The new phase is None
    at the end of the call. *)
Definition call_step (t : thread) (c : call) (ph : phase) (pick : nat) (s : pool) : option (pool * option phase) :=
  match ph with
  | PLock => match owner s with None => Some (with_owner (Some t) s, Some PAct) | Some _ => None end
  | PAct =>
      Some (match c with
            | CExec j => mkPool (owner s) (queue s ++ [j]) (exiting s) (workers s) (todo s) (mphase s) (pushed s ++ [j]) (started s) (finished s)
            | CCancel => mkPool (owner s) (queue s) true (workers s) (todo s) (mphase s) (pushed s) (started s) (finished s)
            end, Some PUnlock)
  | PUnlock => Some (with_owner None s, Some PNotify)
  | PNotify =>
      match c with
      | CExec _ => option_map (fun l => (with_workers l s, None)) (wake_one pick (workers s))
      | CCancel => Some (with_workers (wake_all (workers s)) s, None)
      end
  end.
(** A step of the main thread; join() waits for the end of a thread. *)
Definition main_step (pick : nat) (s : pool) : option pool :=
  match todo s with
  | [] => None
  | MSpawn :: rest => Some (with_main rest PLock (with_workers (workers s ++ [WLock]) s))
  | MCall c :: rest =>
      match call_step Main c (mphase s) pick s with
      | None => None
      | Some (s', Some ph) => Some (with_main (MCall c :: rest) ph s')
      | Some (s', None) => Some (with_main rest PLock s')
      end
  | MJoin i :: rest =>
      match nth_error (workers s) i with
      | Some WDone => Some (with_main rest PLock s)
      | _ => None
      end
  end.
(** A step of worker [i]: filesystem-prewarm-cache.cc:78-88, Runner. *)
Definition worker_step (i : nat) (pick : nat) (s : pool) : option pool :=
  match nth_error (workers s) i with
  | None | Some WDone | Some WSleep => None
  | Some WLock =>
      match owner s with
      | None => Some (with_workers (update i WCheck (workers s)) (with_owner (Some (Worker i)) s))
      | Some _ => None
      end
  | Some WCheck =>
      if exiting s then Some (with_workers (update i WDone (workers s)) (with_owner None s))
      else match queue s with
           | [] => Some (with_workers (update i WSleep (workers s)) (with_owner None s))
           | j :: rest =>
               Some (mkPool None rest (exiting s) (update i (match j with JLook line => WLook line | JCancel => WCancel PLock end) (workers s))
                       (todo s) (mphase s) (pushed s) (started s ++ [j]) (finished s))
           end
  | Some (WLook line) => Some (finish (JLook line) (with_workers (update i WLock (workers s)) s))
  | Some (WCancel ph) =>
      match call_step (Worker i) CCancel ph pick s with
      | None => None
      | Some (s', Some ph) => Some (with_workers (update i (WCancel ph) (workers s')) s')
      | Some (s', None) => Some (finish JCancel (with_workers (update i WLock (workers s')) s'))
      end
  end.
Inductive event := Step (t : thread) (pick : nat) | Spurious (i : nat).
Definition move (e : event) (s : pool) : option pool :=
  match e with
  | Step Main pick => main_step pick s
  | Step (Worker i) pick => worker_step i pick s
  | Spurious i => match nth_error (workers s) i with Some WSleep => Some (with_workers (update i WLock (workers s)) s) | _ => None end
  end.
(** The constructor, one ExecAsync after the other, and the destructor. *)
Definition new_pool (count : nat) (jobs : list job) : pool :=
  mkPool None [] false [] (repeat MSpawn count ++ map (fun j => MCall (CExec j)) jobs ++ MCall CCancel :: map MJoin (seq 0 count)) PLock [] [] [].
Fixpoint moves (es : list event) (s : pool) : option pool :=
  match es with
  | [] => Some s
  | e :: es => match move e s with Some s => moves es s | None => None end
  end.

(** * The cache file *)
(** std::getline until the end. *)
Fixpoint getlines (s : str) (cur : str) : list str :=
  match s with
  | [] => if is_nil cur then [] else [cur]
  | c :: s => if ceqb c NL then cur :: getlines s [] else getlines s (cur ++ [c])
  end.
(** filesystem-prewarm-cache.cc:123-148: the jobs of the file, and the cancelling one. *)
Definition line_job (line : str) : list job :=
  match line with
  | c :: _ :: _ => if ceqb c "F" || ceqb c "D" then [JLook line] else []
  | _ => []
  end.
Definition cache_jobs (content : str) : list job := flat_map line_job (getlines content []) ++ [JCancel].
Definition kPrewarmParallelism : nat := 32.
Definition prewarm (content : str) : pool := new_pool kPrewarmParallelism (cache_jobs content).
(** filesystem-prewarm-cache.cc:105-111, FileWasAccessed, DirWasAccessed: what is written and which names have been seen. *)
Record recorder := mkRec { rec_out : str; rec_seen : list str }.
Inductive access := AFile (name : str) | ADir (name : str).
Definition write_prefixed (prefix : ascii) (f : str) (r : recorder) : recorder :=
  if existsb (str_eqb f) (rec_seen r) then r else mkRec (rec_out r ++ prefix :: f ++ [NL]) (f :: rec_seen r).
Definition record (a : access) (r : recorder) : recorder :=
  match a with AFile f => write_prefixed "F" f r | ADir f => write_prefixed "D" f r end.
Definition cache_after (l : list access) : str := rec_out (fold_left (fun r a => record a r) l (mkRec [] [])).
(** filesystem-prewarm-cache.cc:170-190: the arguments that count for the name of the file. *)
Fixpoint cache_args (args : list str) : list str :=
  match args with
  | [] => []
  | a :: args =>
      if existsb (str_eqb a) [$"-v"; $"-q"; $"-vq"; $"-qv"; $"-k"] then cache_args args
      else if existsb (str_eqb a) [$"-C"; $"-o"; $"-f"] then match args with [] => [] | _ :: args => cache_args args end
      else a :: cache_args args
  end.
(** filesystem-prewarm-cache.cc:166-190: the number in the name of the file; [hash] is std::hash, [cwd] the working
    directory, [args] the arguments without the name of the program. *)
Definition cache_id (hash : str -> N) (cwd : str) (args : list str) : N :=
  N.land (fold_left N.lxor (map hash (cache_args args)) (hash cwd)) 4294967295.
