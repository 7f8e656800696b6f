(** arena-container_test.cc and disjoint-range-map_test.cc on the model. *)
From Coq Require Import NArith.
From Verif Require Import Base OMap M_Ast M_Arena.

(** ArenaDeque, SimpleOps: after each of 300 calls of Append(), iteration and operator[]
    give the values. *)
Definition beq_nats (a b : list nat) : bool := if list_eq_dec Nat.eq_dec a b then true else false.
Fixpoint simple_ops (n i : nat) (d : deque nat) : bool :=
  match n with
  | 0 => true
  | S n =>
      match append 3 96 i d with
      | Ret (_, d) =>
          match elements 3 96 d with
          | Ret l => beq_nats (map snd l) (seq 0 (S i))
          | _ => false
          end &&
          forallb (fun j => match index 3 96 j d with Ret v => v =? j | _ => false end) (seq 0 i) &&
          simple_ops n (S i) d
      | _ => false
      end
  end.
Example deque_simple_ops : simple_ops 300 0 (deque_new 3) = true.
Proof. vm_compute. reflexivity. Qed.

(** DisjointRangeMap, RangeLookups: "Hello world", "Another text" and "Yet another
    substring" somewhere. *)
Definition values : list (nat * nat) := [(200, 211); (100, 112); (150, 171)].
Definition subrange_map : range_map nat := range_map_of (combine values [0; 1; 2]).
Definition sub (r : nat * nat) (pos len : nat) : nat * nat := (fst r + pos, Nat.min (snd r) (fst r + pos + len)).
Example range_lookups : forallb (fun i =>
  match nth_error values i with
  | None => false
  | Some v => forallb (fun q => match find_by_subrange q subrange_map with Some j => j =? i | None => false end)
                [v; sub v 0 3; sub v 0 0; sub v 3 7; sub v 8 0; sub v 5 100]
  end) [0; 1; 2] = true /\ find_by_subrange (300, 316) subrange_map = None.
Proof. vm_compute. auto. Qed.
