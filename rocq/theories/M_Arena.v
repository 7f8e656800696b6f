(** Memory: Arena (/repo/bant/util/arena.h), ArenaDeque (/repo/bant/util/
    arena-container.h), and DisjointRangeMap (/repo/bant/util/disjoint-range-map.h). *)
From Coq Require Import NArith.
From Verif Require Import Base OMap M_Ast.

(** * Arena *)
Section Arena.
(** The address that new char[n] gives, with the blocks that exist (address and size). *)
Variable new_block : list (nat * nat) -> nat -> nat.

(** arena.h:66-79: the members; pos_ and end_ are None for nullptr.  verbose_ and the
    message at the end are left out. *)
Record arena := mkArena {
  a_block_size : nat;
  a_blocks : list (nat * nat);
  a_pos_end : option (nat * nat);
  a_total_bytes : nat;
  a_total_allocations : nat
}.
(** arena.h:33; a negative block size, which is not used, is not modelled. *)
Definition arena_new (block_size : nat) : arena := mkArena block_size [] None 0 0.
(** arena.h:66-70, NewBlock. *)
Definition arena_new_block (request : nat) (a : arena) : arena * (nat * nat) :=
  let buffer := new_block (a_blocks a) request in
  (mkArena (a_block_size a) (a_blocks a ++ [(buffer, request)]) (Some (buffer, buffer + request)) (a_total_bytes a) (a_total_allocations a),
   (buffer, buffer + request)).
(** arena.h:37-46, Alloc: the address returned. *)
Definition arena_alloc (size : nat) (a : arena) : nat * arena :=
  let fits := match a_pos_end a with None => false | Some (pos, end_) => negb (end_ - pos <? size) end in
  let '(a, (pos, end_)) :=
    match a_pos_end a, fits with
    | Some pe, true => (a, pe)
    | _, _ => arena_new_block (Nat.max size (a_block_size a)) a
    end in
  (pos, mkArena (a_block_size a) (a_blocks a) (Some (pos + size, end_)) (a_total_bytes a + size) (S (a_total_allocations a))).
(** A history of allocations: where each one is. *)
Fixpoint arena_run (sizes : list nat) (a : arena) : list (nat * nat) * arena :=
  match sizes with
  | [] => ([], a)
  | size :: sizes =>
      let (start, a) := arena_alloc size a in
      let (r, a) := arena_run sizes a in
      ((start, size) :: r, a)
  end.
End Arena.

(** * ArenaDeque *)
Section Deque.
Context {T : Type}.
(** The template arguments. *)
Variable MIN_BLOCK_SIZE MAX_BLOCK_SIZE : nat.

(** arena-container.h:40-43, Block: next and the values, None for those not initialised.
    Pointers to blocks are their positions in a list, 0 being top_; only the blocks of one
    container are modelled, which share no memory with others (Arena). *)
Record block := mkBlock { b_next : option nat; b_value : list (option T) }.
(** Conversion to uint16_t. *)
Definition uint16 (n : nat) : nat := N.to_nat (N.of_nat n mod 65536).
(** arena-container.h:118-122.  size_shift is a uint8_t that stays below 16; the size is
    a uint16_t. *)
Definition block_size (size_shift : nat) : nat := uint16 (MIN_BLOCK_SIZE * 2 ^ size_shift).
(** arena-container.h:123-128, AdvanceNextBounded: the new size_shift; the size is
    computed as int. *)
Definition advance (size_shift : nat) : nat :=
  if MIN_BLOCK_SIZE * 2 ^ (size_shift + 1) <=? MAX_BLOCK_SIZE then S size_shift else size_shift.
(** arena-container.h:111-116 and block_size_. *)
Record deque := mkDeque { d_size : nat; d_heap : list block; d_current : nat; d_next_pos : nat; d_shift : nat }.
(** arena-container.h:50 *)
Definition deque_new : deque := mkDeque 0 [mkBlock None (repeat None MIN_BLOCK_SIZE)] 0 0 0.

Fixpoint update {A} (i : nat) (x : A) (l : list A) : list A :=
  match l, i with
  | [], _ => []
  | _ :: l, 0 => x :: l
  | y :: l, S i => y :: update i x l
  end.
(** A reference to a value: its block and position. *)
Definition ref := (nat * nat)%type.
(** Writing and reading; outside of a block or, for reading, before it is initialised
    this is undefined. *)
Definition heap_set (h : list block) (r : ref) (v : T) : outcome (list block) :=
  match nth_error h (fst r) with
  | None => UB
  | Some b => if snd r <? length (b_value b) then Ret (update (fst r) (mkBlock (b_next b) (update (snd r) (Some v) (b_value b))) h) else UB
  end.
Definition heap_get (h : list block) (r : ref) : outcome T :=
  match nth_error h (fst r) with
  | None => UB
  | Some b => match nth_error (b_value b) (snd r) with Some (Some v) => Ret v | _ => UB end
  end.
(** arena-container.h:52-69, Append; the block is as long as was asked for. *)
Definition append (value : T) (d : deque) : outcome (ref * deque) :=
  do d' <-
    (if block_size (d_shift d) <=? d_next_pos d then
       let shift := advance (d_shift d) in
       let new_N := block_size shift in
       match nth_error (d_heap d) (d_current d) with
       | None => UB
       | Some b =>
           if new_N <? MIN_BLOCK_SIZE then UB
           else
             let next := length (d_heap d) in
             Ret (mkDeque (d_size d) (update (d_current d) (mkBlock (Some next) (b_value b)) (d_heap d) ++ [mkBlock None (repeat None (MIN_BLOCK_SIZE + (new_N - MIN_BLOCK_SIZE)))])
                    next 0 shift)
       end
     else Ret d);
  let location := (d_current d', d_next_pos d') in
  do h <- heap_set (d_heap d') location value;
  Ret (location, mkDeque (S (d_size d')) h (d_current d') (uint16 (d_next_pos d' + 1)) (d_shift d')).

(** arena-container.h:72-81, operator[]; the number of rounds is limited by [fuel]. *)
Fixpoint index_loop (fuel : nat) (h : list block) (pos : nat) (b : nat) (shift : nat) : outcome T :=
  if block_size shift <=? pos then
    match fuel with
    | 0 => OutOfFuel
    | S fuel =>
        match nth_error h b with
        | Some (mkBlock (Some n) _) => index_loop fuel h (pos - block_size shift) n (advance shift)
        | _ => UB
        end
    end
  else heap_get h (b, pos).
Definition index (pos : nat) (d : deque) : outcome T := index_loop (S pos) (d_heap d) pos 0 0.

(** arena-container.h:86-105, iterator: block_ (None for nullptr), pos_, block_size_. *)
Record iter := mkIter { i_block : option nat; i_pos : nat; i_shift : nat }.
Definition iter_get (h : list block) (i : iter) : outcome T :=
  match i_block i with None => UB | Some b => heap_get h (b, i_pos i) end.
Definition iter_next (h : list block) (i : iter) : outcome iter :=
  if block_size (i_shift i) <=? i_pos i + 1 then
    match i_block i with
    | None => UB
    | Some b => match nth_error h b with None => UB | Some b => Ret (mkIter (b_next b) 0 (advance (i_shift i))) end
    end
  else Ret (mkIter (i_block i) (i_pos i + 1) (i_shift i)).
Definition iter_eqb (a b : iter) : bool :=
  match i_block a, i_block b with
  | None, None => true
  | Some x, Some y => x =? y
  | _, _ => false
  end && (i_pos a =? i_pos b).
(** arena-container.h:107-112 *)
Definition begin_ : iter := mkIter (Some 0) 0 0.
Definition end_ (d : deque) : iter :=
  if d_next_pos d =? block_size (d_shift d) then mkIter None 0 0 else mkIter (Some (d_current d)) (d_next_pos d) 0.
(** A range-based for loop: the references and their values. *)
Fixpoint iterate (fuel : nat) (h : list block) (i e : iter) : outcome (list (ref * T)) :=
  if iter_eqb i e then Ret []
  else
    match fuel with
    | 0 => OutOfFuel
    | S fuel =>
        do v <- iter_get h i;
        do n <- iter_next h i;
        do l <- iterate fuel h n e;
        Ret ((match i_block i with Some b => b | None => 0 end, i_pos i, v) :: l)
    end.
Definition elements (d : deque) : outcome (list (ref * T)) := iterate (d_size d) (d_heap d) begin_ (end_ d).

(** A history: appending, and assigning to an element through the reference that the
    given Append() returned. *)
Inductive deque_op := OAppend (v : T) | OAssign (i : nat) (v : T).
Fixpoint deque_run (ops : list deque_op) (refs : list ref) (d : deque) : outcome (list ref * deque) :=
  match ops with
  | [] => Ret (refs, d)
  | OAppend v :: ops => do (r, d) <- append v d; deque_run ops (refs ++ [r]) d
  | OAssign i v :: ops =>
      match nth_error refs i with
      | None => deque_run ops refs d
      | Some r => do h <- heap_set (d_heap d) r v; deque_run ops refs (mkDeque (d_size d) h (d_current d) (d_next_pos d) (d_shift d))
      end
  end.
End Deque.
Arguments block T : clear implicits.
Arguments deque T : clear implicits.
Arguments deque_op T : clear implicits.

(** * DisjointRangeMap *)
Section Ranges.
Context {V : Type}.
(** disjoint-range-map.h:51-54; iterators of ranges are addresses. *)
Definition range_map := list (nat * (nat * V)).
(** disjoint-range-map.h:34-37, Insert: the range and its value; whether it was new. *)
Definition range_insert (key : nat * nat) (v : V) (m : range_map) : bool * range_map :=
  (match map_find (snd key) m with None => true | Some _ => false end, map_insert (snd key) (fst key, v) m).
(** disjoint-range-map.h:40-46, FindBySubrange. *)
Definition find_by_subrange (subrange : nat * nat) (m : range_map) : option V :=
  match snd (lower_bound (snd subrange) m) with
  | [] => None
  | (_, (b, v)) :: _ => if fst subrange <? b then None else Some v
  end.
Definition range_map_of (l : list ((nat * nat) * V)) : range_map :=
  fold_left (fun m kv => snd (range_insert (fst kv) (snd kv) m)) l [].
End Ranges.
Arguments range_map V : clear implicits.
