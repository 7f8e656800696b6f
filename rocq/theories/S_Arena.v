(** Specification of memory. *)
From Coq Require Import NArith.
From Verif Require Import Base M_Arena.

(** Regions of memory are given by address and size. *)
Definition disjoint (r s : nat * nat) : Prop := forall x, ~ (fst r <= x < fst r + snd r /\ fst s <= x < fst s + snd s).
Definition inside (r s : nat * nat) : Prop := fst s <= fst r /\ fst r + snd r <= fst s + snd s.
(** The system gives memory that is not in use. *)
Definition fresh (new_block : list (nat * nat) -> nat -> nat) : Prop :=
  forall blocks n b, In b blocks -> disjoint b (new_block blocks n, n).

(** Lists with elements that can be replaced. *)
Section Lists.
Context {T : Type}.
Fixpoint replace (i : nat) (x : T) (l : list T) : list T :=
  match l with
  | [] => []
  | y :: l => match i with 0 => x :: l | S i => y :: replace i x l end
  end.
Fixpoint list_run (ops : list (deque_op T)) (l : list T) : list T :=
  match ops with
  | [] => l
  | OAppend v :: ops => list_run ops (l ++ [v])
  | OAssign i v :: ops => list_run ops (replace i v l)
  end.
End Lists.
(** Sizes a uint16_t can hold, and a block of at least one. *)
Definition block_sizes (min max : nat) : Prop := 0 < min /\ (N.of_nat min < 65536)%N /\ (N.of_nat max < 65536)%N.

(** Ranges are given by begin and end. *)
Definition range_in (r s : nat * nat) : Prop := fst s <= fst r /\ snd r <= snd s.
Definition apart (r s : nat * nat) : Prop := snd r <= fst s \/ snd s <= fst r.
Definition nonempty (r : nat * nat) : Prop := fst r < snd r.
