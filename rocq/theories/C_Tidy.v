(** Properties C82 to C86: the script that runs clang-tidy on what has changed. *)
From Coq Require Import NArith Lia Permutation Sorted.
From Verif Require Import Base OMap M_Workspace S_Commands S_Shell M_Tidy S_Tidy P_Tidy P_Tidy2 P_Tidy3 P_Tidy4 P_Tidy5.
Local Open Scope string_scope.
Local Open Scope list_scope.

(** * C82: threads, and being stopped *)
(** Whatever the threads did in whatever order, and wherever they are: a file of the directory is as
    before, or one that ends with .tmp, or a result of all that clang-tidy printed. *)
Theorem C82_crash prints bzroot pwd jobs queue f sched m :
  sound_fs f -> NoDup (map result_name queue) -> run prints bzroot pwd (start jobs queue f) sched = Some m ->
  m_aborted m = false /\ sound_fs (m_files m) /\
  forall n, file_at (m_files m) n = file_at f n \/
    exists w, In w queue /\ (n = result_name w ++ $".tmp" \/ n = result_name w /\ exists t, has_result prints bzroot pwd (m_files m) w t).
Proof. exact (run_crash prints bzroot pwd jobs queue f sched m). Qed.
Print Assumptions C82_crash.

(** Every item is waiting, or one thread is busy with it, or its result is there, or it was interrupted. *)
Theorem C82_items prints bzroot pwd T jobs queue f sched m :
  sound_fs f -> NoDup (map result_name queue) -> Forall (not_before T) sched -> run prints bzroot pwd (start jobs queue f) sched = Some m ->
  m_queue m = skipn (length (filter takes sched)) queue /\
  exists done lost, Permutation queue (m_queue m ++ flat_map busy_with (m_workers m) ++ done ++ lost) /\
    length lost = length (filter interrupts sched) /\
    forall w, In w done -> file_at (m_files m) (result_name w ++ $".tmp") = None /\ exists t, (T <= t)%N /\ has_result prints bzroot pwd (m_files m) w t.
Proof. exact (run_items prints bzroot pwd T jobs queue f sched m). Qed.
Print Assumptions C82_items.

(** When all threads are gone, all results are there but for those that were interrupted. *)
Theorem C82_end prints bzroot pwd T jobs queue f sched m :
  sound_fs f -> NoDup (map result_name queue) -> Forall (not_before T) sched -> run prints bzroot pwd (start jobs queue f) sched = Some m ->
  (forall k, In k (m_workers m) -> k = WGone) -> length (filter interrupts sched) < jobs ->
  exists lost, length lost = length (filter interrupts sched) /\
    forall w, In w queue -> In w lost \/
      (file_at (m_files m) (result_name w ++ $".tmp") = None /\ exists t, (T <= t)%N /\ has_result prints bzroot pwd (m_files m) w t).
Proof. exact (run_end prints bzroot pwd T jobs queue f sched m). Qed.
Print Assumptions C82_end.

(** A thread that is not gone can always do something, and each run can come to its end. *)
Theorem C82_goes_on prints bzroot pwd jobs queue f sched m :
  sound_fs f -> NoDup (map result_name queue) -> run prints bzroot pwd (start jobs queue f) sched = Some m ->
  (forall who k, nth_error (m_workers m) who = Some k -> k <> WGone -> exists a m', step prints bzroot pwd m who a = Some m' /\ interrupts (who, a) = false) /\
  exists more m', run prints bzroot pwd (start jobs queue f) (sched ++ more) = Some m' /\ existsb interrupts more = false /\
    forall k, In k (m_workers m') -> k = WGone.
Proof.
  intros S N R. split.
  - intros who k E Nk. destruct (step_on _ _ _ _ _ _ _ _ _ _ S N R E Nk) as (a & m' & H & I & _). eauto.
  - exact (run_finish prints bzroot pwd jobs queue f S N _ sched m (le_n _) R).
Qed.
Print Assumptions C82_goes_on.

Definition complain : str -> str := fun p => $"/home/b/" ++ p ++ $":1: warning: this [some-check]" ++ [NL].
Definition one (who : nat) (w : item) (text : str) : schedule :=
  [(who, ATake); (who, AOpen 5); (who, APrint (complain (fst w)) 5); (who, AEnd); (who, ARead); (who, ACreate 6); (who, AStore text 6); (who, AClose)]%N.
Definition two_files : list item := [($"a/x.h", 255%N); ($"b/y.cc", 16%N)].
Definition said (p : str) : str := p ++ $":1: warning: this [some-check]" ++ [NL].

(** If two items have the same name of a result, threads get in each other's way: the program is
    aborted, or an empty result is kept though clang-tidy complained of both. *)
Theorem C82_twins_refuted :
  exists queue sched sched' m m',
    map result_name queue = [$"x.h-0000000000000005"; $"x.h-0000000000000005"] /\
    run complain [] ($"/home/b") (start 2 queue nothing_there) sched = Some m /\ m_aborted m = true /\
    run complain [] ($"/home/b") (start 2 queue nothing_there) sched' = Some m' /\ m_aborted m' = false /\
    (forall k, In k (m_workers m') -> k = WGone) /\ existsb interrupts sched' = false /\
    option_map fst (file_at (m_files m') ($"x.h-0000000000000005")) = Some [] /\ forall p, complain p <> [].
Proof.
  set (a := ($"a/x.h", 5%N)). set (b := ($"b/x.h", 5%N)).
  exists [a; b], (one 0 a (said (fst a)) ++ one 1 b (said (fst b)) ++ [(0, ARename); (1, ARename)]),
    (one 0 a (said (fst a)) ++ [(1, ATake); (1, AOpen 7%N); (0, ARename); (0, ALeave); (1, APrint (complain (fst b)) 7%N); (1, AEnd); (1, ARead); (1, ACreate 8%N); (1, AClose); (1, ARename); (1, ALeave)]).
  eexists _, _. split; [vm_compute; reflexivity|]. split; [vm_compute; reflexivity|]. split; [vm_compute; reflexivity|]. split; [vm_compute; reflexivity|].
  split; [vm_compute; reflexivity|]. split; [|split; [vm_compute; reflexivity|split; [vm_compute; reflexivity|intros p; discriminate]]].
  intros k I. vm_compute in I. destruct I as [<-|[<-|[]]]; reflexivity.
Qed.
Print Assumptions C82_twins_refuted.

(** Two threads; the one has finished, the other is interrupted while clang-tidy prints. *)
Definition mixed : schedule :=
  one 1 ($"a/x.h", 255%N) (said ($"a/x.h")) ++ [(0, ATake); (0, AOpen 7%N); (0, APrint ($"/home") 7%N); (1, ARename); (1, ALeave)].
Example C82_case :
  sound_fs nothing_there /\ NoDup (map result_name two_files) /\ Forall (not_before 5) mixed /\
  exists m, run complain [] ($"/home/b") (start 2 two_files nothing_there) mixed = Some m /\
    file_at (m_files m) ($"x.h-00000000000000ff") = Some (said ($"a/x.h"), 6%N) /\
    file_at (m_files m) ($"y.cc-0000000000000010.tmp") = Some ($"/home", 7%N) /\ file_at (m_files m) ($"y.cc-0000000000000010") = None /\
    m_workers m = [WPrinting ($"b/y.cc", 16%N) 1 ($"/home"); WGone].
Proof.
  split; [exact nothing_sound|]. split; [vm_compute; repeat constructor; cbn; intuition discriminate|].
  split; [unfold mixed; repeat (constructor; [cbn; lia|]); constructor|].
  eexists. split; [vm_compute; reflexivity|]. repeat split.
Qed.
Example C82_end_case :
  let sched := mixed ++ [(0, AInterrupt)] in
  exists m, run complain [] ($"/home/b") (start 2 two_files nothing_there) sched = Some m /\
    (forall k, In k (m_workers m) -> k = WGone) /\ length (filter interrupts sched) < 2 /\ Forall (not_before 5) sched.
Proof.
  eexists. split; [vm_compute; reflexivity|]. split; [intros k [<-|[<-|[]]]; reflexivity|]. split; [cbn; lia|]. unfold mixed. repeat (constructor; [cbn; lia|]). constructor.
Qed.

(** * C83: any sessions, one after the other *)
(** A result is what clang-tidy said, all of it, in one of the sessions so far for a file of that name and hash. *)
Theorem C83_results hash l f n c t :
  history hash nothing_there l f -> ~ temporary n -> file_at f n = Some (c, t) -> comes_from hash l n c.
Proof. exact (history_results hash l f n c t). Qed.
Print Assumptions C83_results.

(** The report of a session that came to its end is of such texts, one for each file. *)
Theorem C83_report hash l f s f' r : history hash nothing_there l f -> complete hash s f f' r ->
  exists texts, Forall2 (fun x text => comes_from hash (l ++ [s]) (result_name (item_of hash (se_tree s) x)) text) (of_interest (se_tree s)) texts /\
    r_details r = told_details (combine (map f_path (of_interest (se_tree s))) texts).
Proof. exact (report_texts hash l f s f' r). Qed.
Print Assumptions C83_report.

(** If clang-tidy would say the same of all files that have the same name and hash, the report is that of a session
    that starts with nothing. *)
Theorem C83_like_new hash l f s f' r f2 r2 min jobs sched : history hash nothing_there l f -> complete hash s f f' r ->
  complete hash (mkSession (se_tree s) (se_prints s) (se_bzroot s) (se_pwd s) min jobs sched) nothing_there f2 r2 ->
  (forall s' x' x text, In s' l -> In x (of_interest (se_tree s)) -> concerns hash s' x' (result_name (item_of hash (se_tree s) x)) ->
     shorter (dirs_of s') (se_prints s' (f_path x')) text -> shorter (dirs_of s) (se_prints s (f_path x)) text) ->
  r = r2.
Proof. exact (like_new hash l f s f' r f2 r2 min jobs sched). Qed.
Print Assumptions C83_like_new.

(** After that, with nothing changed, there is nothing to do. *)
Theorem C83_again hash s f f' r : sound_fs f -> complete hash s f f' r -> Forall (not_before (se_min s)) (se_sched s) ->
  work_list hash (se_tree s) (file_at f') (se_min s) = [].
Proof. exact (complete_again hash s f f' r). Qed.
Print Assumptions C83_again.

(** To be done are the files without a result, and those with complaints from before the build was changed. *)
Theorem C83_work hash t s min w : In w (work_list hash t s min) <->
  In w (items hash t) /\ (s (result_name w) = None \/ exists c time, s (result_name w) = Some (c, time) /\ c <> [] /\ (time < min)%N).
Proof. exact (work_spec hash t s min w). Qed.
Print Assumptions C83_work.
(** So no complaint of a report is older than the last change of the build. *)
Theorem C83_fresh hash s f f' r x c t : sound_fs f -> complete hash s f f' r -> Forall (not_before (se_min s)) (se_sched s) ->
  In x (of_interest (se_tree s)) -> file_at f' (result_name (item_of hash (se_tree s) x)) = Some (c, t) -> c <> [] -> (se_min s <= t)%N.
Proof. exact (complete_fresh hash s f f' r x c t). Qed.
Print Assumptions C83_fresh.

(** A hash of 64 bits for the examples: the bytes as digits. *)
Definition simple_hash (s : str) : N := (fold_left (fun h c => (h * 257 + code c + 1)) s 7 mod 2 ^ 64)%N.
Lemma simple_small s : (simple_hash s < 2 ^ 64)%N. Proof. apply N.mod_lt. discriminate. Qed.
Definition inc (h : str) : str := $"#include " ++ [DQ] ++ h ++ [DQ; NL].
Definition tree1 : tree := [mkFound ($"a/x.h") true (Some ($"int x;")); mkFound ($"b/y.cc") true (Some (inc ($"a/x.h"))); mkFound ($"z.txt") true None].
Definition tree2 : tree := [mkFound ($"a/x.h") true (Some ($"int z;")); mkFound ($"b/y.cc") true (Some (inc ($"a/x.h"))); mkFound ($"z.txt") true None].
Definition all_of (who : nat) (p : str) : schedule := one who (p, 0%N) (said p) ++ [(who, ARename)].
Definition first_time : session := mkSession tree1 complain [] ($"/home/b") 3 1 (all_of 0 ($"a/x.h") ++ [(0, ATake); (0, AOpen 7%N)]).
Definition second_time : session := mkSession tree1 complain [] ($"/home/b") 3 2 (all_of 0 ($"b/y.cc") ++ [(0, ALeave); (1, ALeave)]).
Definition from_nothing : session := mkSession tree1 complain [] ($"/home/b") 0 1 (all_of 0 ($"a/x.h") ++ all_of 0 ($"b/y.cc") ++ [(0, ALeave)]).
(** The first session is stopped; the second one has one file less to do. *)
Definition after_first : fsys :=
  match run complain [] ($"/home/b") (start 1 (work_list simple_hash tree1 (file_at nothing_there) 3) nothing_there) (se_sched first_time) with
  | Some m => m_files m
  | None => nothing_there
  end.
Example C83_case :
  history simple_hash nothing_there [first_time] after_first /\
  exists f' r f2, complete simple_hash second_time after_first f' r /\ Forall (not_before (se_min second_time)) (se_sched second_time) /\
    complete simple_hash from_nothing nothing_there f2 r /\
    r_details r = $"a/x.h:" ++ [NL] ++ said ($"a/x.h") ++ $"b/y.cc:" ++ [NL] ++ said ($"b/y.cc") /\ r_success r = false.
Proof.
  assert (N : NoDup (map result_name (items simple_hash tree1))) by (vm_compute; repeat constructor; cbn; intuition discriminate).
  split.
  - unfold after_first. destruct (run complain [] ($"/home/b") (start 1 (work_list simple_hash tree1 (file_at nothing_there) 3) nothing_there) (se_sched first_time)) as [m|] eqn:E.
    + eapply history_more; [exact N|exact E|constructor].
    + exfalso. revert E. vm_compute. discriminate.
  - assert (I2 : exists f' r, invocation simple_hash complain [] ($"/home/b") tree1 3 2 (se_sched second_time) after_first = Some (f', r) /\
        r_details r = $"a/x.h:" ++ [NL] ++ said ($"a/x.h") ++ $"b/y.cc:" ++ [NL] ++ said ($"b/y.cc") /\ r_success r = false /\
        exists f2, invocation simple_hash complain [] ($"/home/b") tree1 0 1 (se_sched from_nothing) nothing_there = Some (f2, r)).
    { eexists _, _. split; [vm_compute; reflexivity|]. split; [vm_compute; reflexivity|]. split; [reflexivity|]. eexists. vm_compute. reflexivity. }
    destruct I2 as (f' & r & I2 & D & S & f2 & I3). exists f', r, f2. split; [|split; [|split; [|split; [exact D|exact S]]]].
    + split; [exact I2|]. split; [cbn; lia|]. split; [vm_compute; reflexivity|exact N].
    + unfold second_time, all_of, one. cbn [se_sched se_min app]. repeat (constructor; [cbn; lia|]). constructor.
    + split; [exact I3|]. split; [cbn; lia|]. split; [vm_compute; reflexivity|exact N].
Qed.

(** * C84: for which files clang-tidy runs again *)
Theorem C84_name hash t x : (forall s, (hash s < 2 ^ 64)%N) -> named_result (item_of hash t x) (result_name (item_of hash t x)).
Proof. intros H. exact (name_is hash H t x). Qed.
Print Assumptions C84_name.

Lemma is_header_spec x : is_header x = true <-> f_regular x = true /\ (forall d r, In d [$".git/"; $".github/"; $"build/"] -> f_path x <> d ++ r) /\
  exists e, In e [$".h"; $".hpp"; $".hxx"; $".inl"] /\ extension_of (f_path x) e.
Proof. unfold is_header. rewrite andb_true_iff, eligible_spec, include_extension. tauto. Qed.
Lemma even_odd n : Nat.odd n = false <-> Nat.Even n.
Proof. rewrite <- Nat.negb_even, negb_false_iff. apply Nat.even_spec. Qed.

(** A header changes.  For another file the result is looked for under the same name as before just if it mentions a
    header with that last path element an even number of times. *)
Theorem C84_header hash a b path c c' x base headers : (forall s, (hash s < 2 ^ 64)%N) -> hash c <> hash c' ->
  (forall d r, In d [$".git/"; $".github/"; $"build/"] -> path <> d ++ r) ->
  (exists e, In e [$".h"; $".hpp"; $".hxx"; $".inl"] /\ extension_of path e) -> base_of path base -> pieces include_text (content_of x) headers ->
  (result_name (item_of hash (a ++ mkFound path true (Some c) :: b) x) = result_name (item_of hash (a ++ mkFound path true (Some c') :: b) x) <->
   Nat.Even (mentions base headers)).
Proof.
  intros H Nc Hx He Hb Hp. apply base_of_filename in Hb as <-. apply included_pieces in Hp as ->. rewrite (replaced_other hash H a b path c c' x).
  assert (T : is_header (mkFound path true (Some c)) = true) by (apply is_header_spec; repeat split; assumption).
  rewrite T. cbn [andb]. rewrite even_odd. tauto.
Qed.
Print Assumptions C84_header.

(** A file changes, but not what it includes.  Its own result is looked for under another name, unless it is a header
    that mentions its own last path element an odd number of times. *)
Theorem C84_own hash a b path c c' base headers : (forall s, (hash s < 2 ^ 64)%N) -> hash c <> hash c' ->
  (forall d r, In d [$".git/"; $".github/"; $"build/"] -> path <> d ++ r) -> base_of path base ->
  pieces include_text c headers -> pieces include_text c' headers ->
  let h := mkFound path true (Some c) in let h' := mkFound path true (Some c') in
  (result_name (item_of hash (a ++ h :: b) h) = result_name (item_of hash (a ++ h' :: b) h') <->
   (exists e, In e [$".h"; $".hpp"; $".hxx"; $".inl"] /\ extension_of path e) /\ Nat.Odd (mentions base headers)).
Proof.
  intros H Nc Hx Hb Hp Hp' h h'. apply base_of_filename in Hb as <-. apply included_pieces in Hp, Hp'. subst h h'.
  rewrite (replaced_own hash H a b path c c' ltac:(congruence)), <- Hp, andb_true_iff, is_header_spec, Nat.odd_spec. cbn [f_regular f_path]. tauto.
Qed.
Print Assumptions C84_own.

(** A file that is not a header has nothing to do with other files. *)
Theorem C84_source hash a b path c c' x : (forall s, (hash s < 2 ^ 64)%N) ->
  ~ (exists e, In e [$".h"; $".hpp"; $".hxx"; $".inl"] /\ extension_of path e) ->
  result_name (item_of hash (a ++ mkFound path true (Some c) :: b) x) = result_name (item_of hash (a ++ mkFound path true (Some c') :: b) x).
Proof.
  intros H N. apply (replaced_other hash H a b path c c' x). left. destruct (is_header (mkFound path true (Some c))) eqn:E; [|reflexivity].
  apply is_header_spec in E as (_ & _ & E). contradiction.
Qed.
Print Assumptions C84_source.

(** Results of two files, now or at another time, are the same file just if the names of the files and the hashes are. *)
Theorem C84_same hash t x t' x' base base' : (forall s, (hash s < 2 ^ 64)%N) -> base_of (f_path x) base -> base_of (f_path x') base' ->
  (result_name (item_of hash t x) = result_name (item_of hash t' x') <-> base = base' /\ snd (item_of hash t x) = snd (item_of hash t' x')).
Proof.
  intros H Hb Hb'. apply base_of_filename in Hb as <-, Hb' as <-. apply result_name_same; apply (file_hash_small hash H).
Qed.
Print Assumptions C84_same.

(** Two headers of the same name are included, and one of them changes: nobody notices.  The same if a
    header includes another one of its own name, and changes. *)
Theorem C84_unnoticed_refuted :
  exists (hash : str -> N) t t' x h h', (forall s, (hash s < 2 ^ 64)%N) /\ included (content_of x) = [$"bant/workspace.h"; $"bant/tool/workspace.h"] /\
    In x t /\ In x t' /\ In h t /\ In h' t' /\ f_path h = $"bant/tool/workspace.h" /\ f_path h' = f_path h /\ hash (content_of h) <> hash (content_of h') /\
    result_name (item_of hash t x) = result_name (item_of hash t' x) /\ result_name (item_of hash t h) = result_name (item_of hash t' h').
Proof.
  set (x := mkFound ($"bant/cli-commands.cc") true (Some (inc ($"bant/workspace.h") ++ inc ($"bant/tool/workspace.h")))).
  set (w := mkFound ($"bant/workspace.h") true (Some ($"struct Workspace;"))).
  set (h := mkFound ($"bant/tool/workspace.h") true (Some (inc ($"bant/workspace.h") ++ $"int f(int);"))).
  set (h' := mkFound ($"bant/tool/workspace.h") true (Some (inc ($"bant/workspace.h") ++ $"int f(char);"))).
  exists simple_hash, [w; h; x], [w; h'; x], x, h, h'. split; [exact simple_small|]. split; [vm_compute; reflexivity|]. do 4 (split; [cbn; tauto|]). do 2 (split; [reflexivity|]).
  split; [vm_compute; discriminate|]. split; vm_compute; reflexivity.
Qed.
Print Assumptions C84_unnoticed_refuted.

(** The hypotheses: a header that one file includes. *)
Example C84_case :
  extension_of ($"a/x.h") ($".h") /\ base_of ($"a/x.h") ($"x.h") /\ pieces include_text (inc ($"a/x.h")) [$"a/x.h"] /\
  simple_hash ($"int x;") <> simple_hash ($"int z;") /\ pieces include_text ($"int x;") [] /\ pieces include_text ($"int z;") [] /\
  map result_name (work_list simple_hash tree2 (fun n => if existsb (str_eqb n) (map result_name (items simple_hash tree1)) then Some ([], 0%N) else None) 0) = map result_name (items simple_hash tree2) /\
  length (items simple_hash tree2) = 2%nat.
Proof.
  split; [apply extension_spec; [discriminate|vm_compute; reflexivity]|]. split; [apply base_of_filename; vm_compute; reflexivity|].
  split; [apply included_pieces; vm_compute; reflexivity|]. split; [vm_compute; discriminate|].
  split; [apply included_pieces; vm_compute; reflexivity|]. split; [apply included_pieces; vm_compute; reflexivity|]. split; vm_compute; reflexivity.
Qed.

(** * C85: the report *)
Theorem C85_report s files :
  exists texts counts,
    Forall2 (fun w text => (exists t, s (result_name w) = Some (text, t)) \/ s (result_name w) = None /\ text = []) files texts /\
    StronglySorted in_order counts /\
    (forall c n, In (c, n) counts <-> check_text (c ++ [NL]) c /\ 0 < n /\ n = list_sum (map (occurrences (c ++ [NL])) texts)) /\
    r_details (create_report s files) = told_details (combine (map fst files) texts) /\
    (r_success (create_report s files) = true <-> counts = []) /\
    ((forall c n, In (c, n) counts -> (Z.of_nat n <= 2147483647)%Z) ->
     exists lines, r_summary (create_report s files) = concat lines /\ Forall2 (fun e line => told_line (fst e) (snd e) line) counts lines).
Proof.
  exists (texts_of s files), (by_count (checks_seen s files)). split.
  - unfold texts_of. induction files as [|w files IH]; [constructor|]. cbn [map]. constructor; [|exact IH]. unfold get_content_for.
    destruct (s (result_name w)) as [[c t]|]; [left; eauto|right; auto].
  - split; [apply by_count_sorted, seen_sorted|]. split; [intros c n; apply by_count_in|]. split; [cbn [create_report r_details]; apply details_told|].
    split; [apply success_iff|]. intros L. exists (map summary_line (by_count (checks_seen s files))). split; [cbn [create_report r_summary]; apply flat_map_concat_map|].
    induction (by_count (checks_seen s files)) as [|[c n] l IH]; [constructor|]. cbn [map]. constructor; [apply summary_told; apply (L c); now left|].
    apply IH. intros c' n' I. apply (L c'). now right.
Qed.
Print Assumptions C85_report.

(** The summary, and whether there was something, are the same in whatever order the files were found. *)
Theorem C85_order s files files' : Permutation files files' ->
  r_summary (create_report s files) = r_summary (create_report s files') /\ r_success (create_report s files) = r_success (create_report s files').
Proof.
  intros P. assert (E : by_count (checks_seen s files) = by_count (checks_seen s files')).
  { apply sorted_same; [apply by_count_sorted, seen_sorted|apply by_count_sorted, seen_sorted|]. intros [c n]. rewrite !by_count_in.
    assert (Q : Permutation (map (occurrences (c ++ [NL])) (texts_of s files)) (map (occurrences (c ++ [NL])) (texts_of s files'))) by (unfold texts_of; now repeat apply Permutation_map).
    assert (S : list_sum (map (occurrences (c ++ [NL])) (texts_of s files)) = list_sum (map (occurrences (c ++ [NL])) (texts_of s files'))) by now apply sum_perm.
    rewrite S. tauto. }
  split; [cbn [create_report r_summary]; now rewrite E|]. apply Bool.eq_iff_eq_true. rewrite !success_iff, E. tauto.
Qed.
Print Assumptions C85_order.

(** The script says that all is well though there is a complaint: a check with a digit in its name, or two names, is not counted. *)
Theorem C85_uncounted_refuted :
  exists s w text, s (result_name w) = Some (text, 0%N) /\ text = $"a.cc:1: warning: do not [cert-dcl03-c]" ++ [NL] ++ $"a.cc:2: warning: nor [a-b,c-d]" ++ [NL] /\
    r_success (create_report s [w]) = true /\ r_details (create_report s [w]) <> [].
Proof.
  exists (fun _ => Some ($"a.cc:1: warning: do not [cert-dcl03-c]" ++ [NL] ++ $"a.cc:2: warning: nor [a-b,c-d]" ++ [NL], 0%N)), ($"a.cc", 1%N).
  eexists. split; [reflexivity|]. split; [reflexivity|]. split; [vm_compute; reflexivity|]. vm_compute. discriminate.
Qed.
Print Assumptions C85_uncounted_refuted.

Example C85_case :
  let texts := [$"x [b-check]" ++ [NL] ++ $"y [a.check]" ++ [NL] ++ $"z [b-check]" ++ [NL]; $"[not] here [c-check]" ++ [NL]; []] in
  let files := [($"a.cc", 0%N); ($"b.h", 1%N); ($"c.h", 2%N)] in
  let s := fun n => map_find n (combine (map result_name files) (map (fun t => (t, 0%N)) texts)) in
  create_report s files = mkReport ($"a.cc:" ++ [NL] ++ nth 0 texts [] ++ $"b.h:" ++ [NL] ++ nth 1 texts [])
    ($"    2 [b-check]" ++ [NL] ++ $"    1 [a.check]" ++ [NL] ++ $"    1 [c-check]" ++ [NL]) false.
Proof. vm_compute. reflexivity. Qed.

(** * C86: which files, which lines, which directory *)
Theorem C86_files t x : In x (of_interest t) <-> In x t /\ f_regular x = true /\ (forall d r, In d [$".git/"; $".github/"; $"build/"] -> f_path x <> d ++ r) /\
  exists e, In e [$".cc"; $".cpp"; $".cxx"; $".h"; $".hpp"; $".hxx"; $".inl"] /\ extension_of (f_path x) e.
Proof. exact (of_interest_spec t x). Qed.
Print Assumptions C86_files.

Theorem C86_includes content l : pieces include_text content l <-> l = included content.
Proof. exact (included_pieces content l). Qed.
Print Assumptions C86_includes.

Theorem C86_lines bzroot pwd a b : shorter (left_out bzroot pwd) a b <-> b = repair bzroot pwd a.
Proof. exact (shorter_repair bzroot pwd a b). Qed.
Print Assumptions C86_lines.

(** The result does not depend on where the project is checked out. *)
Theorem C86_checkout bz1 pwd1 bz2 pwd2 ls b1 b2 :
  ls <> [] -> ~ In NL pwd1 -> ~ In NL pwd2 ->
  (forall l, In l ls -> ~ In NL (snd l) /\
     (forall r, bz1 <> [] -> line_in pwd1 l <> removelast bz1 ++ $"/" ++ r) /\ (forall r, bz2 <> [] -> line_in pwd2 l <> removelast bz2 ++ $"/" ++ r) /\
     (fst l = false -> forall r, snd l <> pwd1 ++ $"/" ++ r /\ snd l <> pwd2 ++ $"/" ++ r)) ->
  shorter (left_out bz1 pwd1) (join NL (map (line_in pwd1) ls)) b1 -> shorter (left_out bz2 pwd2) (join NL (map (line_in pwd2) ls)) b2 -> b1 = b2.
Proof. exact (other_checkout bz1 pwd1 bz2 pwd2 ls b1 b2). Qed.
Print Assumptions C86_checkout.

Theorem C86_version text v : v <> $"UNKNOWN" -> (major_version text = v <-> tells_version text v).
Proof. exact (version_told text v). Qed.
Print Assumptions C86_version.

(** Two configurations share a directory just if the major version is the same, and 32 bits of the hash are. *)
Theorem C86_directory hash v a c v' a' c' : config_dir hash v a c = config_dir hash v' a' c' <->
  major_version v = major_version v' /\ (N.lxor (hash (v ++ a)) (hash c) mod 2 ^ 32 = N.lxor (hash (v' ++ a')) (hash c') mod 2 ^ 32)%N.
Proof. exact (config_same hash v a c v' a' c'). Qed.
Print Assumptions C86_directory.

(** Whatever the names of the file and the arguments are, the shell runs the command that is meant; if there is no quote in them. *)
Theorem C86_command clang_tidy argv contents w : clang_tidy <> [] -> forallb plain_char clang_tidy = true ->
  ~ In SQ (fst w) -> (forall a, In a argv -> ~ In SQ a) -> ~ In SQ contents ->
  runs_into (command clang_tidy (assemble_args argv) contents w)
    ([clang_tidy; fst w; $"--quiet"; $"--config-file=.clang-tidy"; $"--extra-arg=-Wno-unknown-pragmas"; $"--extra-arg=-Wno-unknown-warning-option"] ++ argv)
    (contents ++ $"/" ++ result_name w ++ $".tmp").
Proof. exact (command_runs clang_tidy argv contents w). Qed.
Print Assumptions C86_command.
Example C86_command_case :
  let w := ($"bant/a file; $(rm).cc", 255%N) in
  forallb plain_char ($"clang-tidy-18") = true /\ ~ In SQ (fst w) /\ ~ In SQ ($"--fix") /\
  command ($"clang-tidy-18") (assemble_args [$"--fix"]) ($"/tmp/c") w = $"clang-tidy-18 'bant/a file; $(rm).cc' --quiet '--config-file=.clang-tidy' --extra-arg='-Wno-unknown-pragmas' --extra-arg='-Wno-unknown-warning-option' '--fix'> '/tmp/c/a file; $(rm).cc-00000000000000ff.tmp' 2>/dev/null".
Proof. repeat split; try (vm_compute; reflexivity); cbn; intuition discriminate. Qed.

(** The directory of results is in the one for such things; in the same environment two configurations share it just if they share its name. *)
Theorem C86_place env exists_ hash v a c : exists base sub, cache_base env exists_ base /\ (forall base', cache_base env exists_ base' -> base' = base) /\
  beneath base ($"clang-tidy") sub /\ beneath sub (config_dir hash v a c) (project_cache_dir env exists_ hash v a c).
Proof.
  exists (cache_base_dir env exists_), (path_div (cache_base_dir env exists_) ($"clang-tidy")). split; [now apply base_exact|]. split; [intros b; apply base_exact|]. split; now apply path_div_exact.
Qed.
Print Assumptions C86_place.
Theorem C86_shared env exists_ hash v a c v' a' c' : project_cache_dir env exists_ hash v a c = project_cache_dir env exists_ hash v' a' c' <->
  config_dir hash v a c = config_dir hash v' a' c'.
Proof. unfold project_cache_dir. split; [apply path_div_inj|congruence]. Qed.
Print Assumptions C86_shared.
Example C86_place_case : project_cache_dir (fun x => if str_eqb x ($"HOME") then Some ($"/home/me") else None) (fun d => str_eqb d ($"/home/me/.cache/")) (fun _ => 7%N) ($"LLVM version 18.1") [] [] =
  $"/home/me/.cache/clang-tidy/bant_v18_00000000".
Proof. reflexivity. Qed.

(** The script works if there is a configuration, the file of the project's top and a compilation database; the later
    change of the last two is the change of the build. *)
Theorem C86_start exists_ time n : build_env_latest_change exists_ time = inr n <->
  exists_ ($".clang-tidy") = true /\ exists t1 t2, time ($"MODULE.bazel") = Some t1 /\
    (time ($"compile_commands.json") = Some t2 \/ time ($"compile_commands.json") = None /\ time ($"compile_flags.txt") = Some t2) /\
    (t1 <= n)%N /\ (t2 <= n)%N /\ (n = t1 \/ n = t2).
Proof. exact (start_spec exists_ time n). Qed.
Print Assumptions C86_start.
Example C86_start_case : build_env_latest_change (fun _ => true) (fun f => if str_eqb f ($"MODULE.bazel") then Some 5%N else if str_eqb f ($"compile_flags.txt") then Some 7%N else None) = inr 7%N.
Proof. reflexivity. Qed.

Example C86_case :
  map f_path (of_interest ([mkFound ($"build/x.cc") true None; mkFound ($"builder/x.cc") true None; mkFound ($".h") true None; mkFound ($"a.b/c") true None;
    mkFound ($"a.pb.h") true None; mkFound ($"d.cc") false None; mkFound ($"e.cc.txt") true None])) = [$"builder/x.cc"; $"a.pb.h"] /\
  included (inc ($"a/b.h") ++ $"  #  include   " ++ [DQ] ++ $"c-d_e.hpp" ++ [DQ] ++ $"#include <f.h>" ++ inc ($"a.pb.h") ++ $"// " ++ inc ($"g.h")) = [$"a/b.h"; $"c-d_e.hpp"; $"g.h"] /\
  repair ($"/cache/execroot/bant" ++ [NL]) ($"/home/b") ($"/cache/execroot/bant/./x.h:1: /home/b/" ++ [NL] ++ $"/home/b/y.h:2" ++ [NL] ++ $"././z.h") =
    $"x.h:1: /home/b/" ++ [NL] ++ $"y.h:2" ++ [NL] ++ $"./z.h" /\
  config_dir simple_hash ($"Some LLVM version 18.1.8" ++ [NL]) ($" --quiet") ($"Checks: all") = $"bant_v18_1e89c9c1".
Proof. repeat split; vm_compute; reflexivity. Qed.
Example C86_checkout_case :
  let ls := [(true, $"a/x.h:1: warning: w [c]"); (false, $"  int x;"); (false, [])] in
  shorter (left_out [] ($"/home/a")) (join NL (map (line_in ($"/home/a")) ls)) ($"a/x.h:1: warning: w [c]" ++ [NL] ++ $"  int x;" ++ [NL]) /\
  forall l, In l ls -> ~ In NL (snd l) /\ (fst l = false -> forall r, snd l <> $"/home/a" ++ $"/" ++ r /\ snd l <> $"/home/b" ++ $"/" ++ r).
Proof.
  cbn zeta. split; [apply shorter_repair; vm_compute; reflexivity|]. intros l [<-|[<-|[<-|[]]]]; (split; [cbn; intuition discriminate|]); intros E; try discriminate E; intros r; split; discriminate.
Qed.
