(** Properties C40 to C42: memory. *)
From Coq Require Import NArith.
From Verif Require Import Base OMap M_Ast M_Arena S_Arena P_Arena.

(** * C40: the arena *)
(** Whatever is allocated, the regions have the sizes asked for, lie in blocks of the
    arena, and have no byte in common. *)
Theorem C40_regions : forall new_block block_size sizes regions a, fresh new_block ->
  arena_run new_block sizes (arena_new block_size) = (regions, a) ->
  map snd regions = sizes /\ ForallOrdPairs disjoint regions /\ ForallOrdPairs disjoint (a_blocks a) /\
  forall r, In r regions -> exists b, In b (a_blocks a) /\ inside r b.
Proof. intros nb bl sizes regions a F. exact (arena_spec nb F bl sizes regions a). Qed.
Print Assumptions C40_regions.
(** Later allocations leave the blocks, and with them the regions, where they are. *)
Theorem C40_stable : forall new_block block_size sizes sizes' r a r' a', fresh new_block ->
  arena_run new_block sizes (arena_new block_size) = (r, a) -> arena_run new_block sizes' a = (r', a') ->
  arena_run new_block (sizes ++ sizes') (arena_new block_size) = (r ++ r', a') /\ exists bs, a_blocks a' = a_blocks a ++ bs.
Proof. intros nb bl s s' r a r' a' F. exact (arena_blocks nb F s s' bl r a r' a'). Qed.
Print Assumptions C40_stable.
(** The bytes and allocations are counted; there is at most one block for each
    allocation, none smaller than the size of blocks. *)
Theorem C40_count : forall new_block block_size sizes regions a,
  arena_run new_block sizes (arena_new block_size) = (regions, a) ->
  a_total_bytes a = list_sum sizes /\ a_total_allocations a = length sizes /\
  length (a_blocks a) <= length sizes /\ Forall (fun b => block_size <= snd b) (a_blocks a).
Proof.
  intros nb bl sizes regions a E. destruct (arena_count nb sizes (arena_new bl) regions a 0) as (A & B & C & D & F); auto; [split; [cbn; lia|constructor]|]. rewrite C in F. auto.
Qed.
Print Assumptions C40_count.
(** Blocks one after the other. *)
Definition next_free (blocks : list (nat * nat)) (n : nat) : nat := fold_right (fun b m => Nat.max (fst b + snd b) m) 16 blocks.
Lemma next_free_fresh : fresh next_free.
Proof.
  intros blocks n b I x. cbn [fst snd]. enough (fst b + snd b <= next_free blocks n) by lia. unfold next_free. induction blocks as [|c l IH]; [destruct I|]. destruct I as [->|I]; cbn [fold_right]; [lia|]. specialize (IH I). lia.
Qed.
Example C40_case : fresh next_free /\
  fst (arena_run next_free [10; 50; 8; 200; 30; 0; 30] (arena_new 64)) = [(16, 10); (26, 50); (80, 8); (144, 200); (344, 30); (374, 0); (374, 30)] /\
  a_blocks (snd (arena_run next_free [10; 50; 8; 200; 30; 0; 30] (arena_new 64))) = [(16, 64); (80, 64); (144, 200); (344, 64)].
Proof. split; [exact next_free_fresh|]. vm_compute. auto. Qed.
(** Alignment is not taken care of: after a string of 3 bytes, an object that needs an
    address divisible by 8 does not get one, even where blocks have one. *)
Theorem C40_alignment_refuted : exists new_block, fresh new_block /\ (forall blocks n, exists k, new_block blocks n = 8 * k) /\
  exists regions a, arena_run new_block [3; 8] (arena_new 64) = (regions, a) /\
    exists p, nth_error regions 1 = Some (p, 8) /\ forall k, p <> 8 * k.
Proof.
  exists (fun blocks n => 8 * S (next_free blocks n)). split; [|split].
  - intros blocks n b I x. cbn [fst snd]. enough (fst b + snd b <= next_free blocks n) by lia. unfold next_free. induction blocks as [|c l IH]; [destruct I|]. destruct I as [->|I]; cbn [fold_right]; [lia|]. specialize (IH I). lia.
  - eauto.
  - do 2 eexists. split; [vm_compute; reflexivity|]. eexists. split; [reflexivity|]. intros k. lia.
Qed.
Print Assumptions C40_alignment_refuted.

(** * C41: ArenaDeque *)
(** Whatever is appended and assigned, the container behaves as a list: size(),
    iteration, operator[], and references that were returned by Append(), which stay
    valid.  An index that is too big is not detected. *)
Theorem C41_list : forall (T : Type) min max (ops : list (deque_op T)), block_sizes min max ->
  exists refs d, deque_run min max ops [] (deque_new min) = Ret (refs, d) /\
  let xs := list_run ops [] in
  d_size d = length xs /\ length refs = length xs /\ elements min max d = Ret (combine refs xs) /\
  (forall i, index min max i d = match nth_error xs i with Some v => Ret v | None => UB end) /\
  (forall i r, nth_error refs i = Some r -> exists v, nth_error xs i = Some v /\ heap_get (d_heap d) r = Ret v).
Proof. intros T min max ops S. exact (deque_spec min max S ops). Qed.
Print Assumptions C41_list.
Example C41_case : block_sizes 1 64 /\ block_sizes 3 96 /\ block_sizes 5 2 /\
  let ops := [OAppend 10; OAppend 11; OAssign 0 7; OAppend 12; OAppend 13; OAssign 2 8; OAppend 14] in
  list_run ops [] = [7; 11; 8; 13; 14] /\
  match deque_run 1 2 ops [] (deque_new 1) with
  | Ret (_, d) => length (d_heap d) = 3 /\ elements 1 2 d = Ret [((0, 0), 7); ((1, 0), 11); ((1, 1), 8); ((2, 0), 13); ((2, 1), 14)]
  | _ => False
  end.
Proof. split; [|split; [|split]]; [repeat split; lia..|]. vm_compute. auto. Qed.
(** Appending while iterating does not work: the end that a loop remembers may be passed. *)
Theorem C41_stale_end_refuted : exists (refs refs' : list ref) (d d' : deque nat),
  deque_run 1 64 [OAppend 1] [] (deque_new 1) = Ret (refs, d) /\
  deque_run 1 64 [OAppend 2; OAppend 3; OAppend 4] refs d = Ret (refs', d') /\
  iterate 1 64 100 (d_heap d') begin_ (end_ 1 d) = UB.
Proof. do 4 eexists. do 2 (split; [vm_compute; reflexivity|]). vm_compute. reflexivity. Qed.
Print Assumptions C41_stale_end_refuted.

(** * C42: DisjointRangeMap *)
(** What is found is the value of a range that contains the one asked for; ... *)
Theorem C42_sound : forall (V : Type) l q (v : V), find_by_subrange q (range_map_of l) = Some v -> exists r, In (r, v) l /\ range_in q r.
Proof. intros V. exact range_sound. Qed.
Print Assumptions C42_sound.
(** ... if they are disjoint and not empty, it is found from every part of it, also empty
    ones, except for the empty one at its beginning. *)
Theorem C42_complete : forall (V : Type) l q r (v : V), ForallOrdPairs (fun a b => apart (fst a) (fst b)) l -> (forall x, In x l -> nonempty (fst x)) ->
  In (r, v) l -> range_in q r -> fst r < snd q -> find_by_subrange q (range_map_of l) = Some v.
Proof. intros V. exact range_complete. Qed.
Print Assumptions C42_complete.
(** Insert() tells whether there was a range with the same end. *)
Theorem C42_insert : forall (V : Type) l r (v : V), fst (range_insert r v (range_map_of l)) = true <-> forall x, In x l -> snd (fst x) <> snd r.
Proof. intros V. exact range_new. Qed.
Print Assumptions C42_insert.
Example C42_case : let l := [((20, 30), 1); ((5, 12), 2); ((12, 15), 3)] in
  ForallOrdPairs (fun a b : (nat * nat) * nat => apart (fst a) (fst b)) l /\ (forall x, In x l -> nonempty (fst x)) /\
  find_by_subrange (7, 9) (range_map_of l) = Some 2 /\ find_by_subrange (12, 13) (range_map_of l) = Some 3 /\ find_by_subrange (9, 13) (range_map_of l) = None.
Proof.
  cbn zeta. split; [repeat constructor; unfold apart; cbn; lia|]. split; [|vm_compute; auto]. intros x [<-|[<-|[<-|[]]]]; unfold nonempty; cbn; lia.
Qed.
(** The empty range at the beginning of one that follows another without a gap is taken
    for a part of the other one. *)
Theorem C42_empty_refuted : exists l q r (v w : nat), ForallOrdPairs (fun a b : (nat * nat) * nat => apart (fst a) (fst b)) l /\ (forall x, In x l -> nonempty (fst x)) /\
  In (r, v) l /\ range_in q r /\ fst q = fst r /\ find_by_subrange q (range_map_of l) = Some w /\ v <> w.
Proof.
  exists [((20, 30), 1); ((5, 12), 2); ((12, 15), 3)], (12, 12), (12, 15), 3, 2.
  split; [repeat constructor; unfold apart; cbn; lia|]. split; [intros x [<-|[<-|[<-|[]]]]; unfold nonempty; cbn; lia|]. split; [cbn; auto|]. split; [unfold range_in; cbn; lia|]. auto.
Qed.
Print Assumptions C42_empty_refuted.
