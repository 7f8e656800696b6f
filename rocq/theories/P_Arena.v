(** Proofs about memory. *)
From Coq Require Import NArith.
From Verif Require Import Base OMap M_Ast M_Arena S_Arena.

(** * Arena *)
Lemma fop_snoc {A} (R : A -> A -> Prop) l x : ForallOrdPairs R l -> (forall y, In y l -> R y x) -> ForallOrdPairs R (l ++ [x]).
Proof.
  intros F. induction F as [|y l Hy F IH]; intros H; cbn [app].
  - repeat constructor.
  - constructor; [|apply IH; intros z I; apply H; now right]. apply Forall_app. split; auto. constructor; auto. apply H. now left.
Qed.
Lemma fop_snoc_inv {A} (R : A -> A -> Prop) l x : ForallOrdPairs R (l ++ [x]) -> ForallOrdPairs R l /\ forall y, In y l -> R y x.
Proof.
  induction l as [|y l IH]; cbn [app]; intros F; [split; [constructor|intros y []]|].
  inversion F as [|? ? H F']; subst. apply IH in F' as (F' & G). apply Forall_app in H as (H1 & H2). inversion H2; subst. split; [now constructor|].
  intros z [<-|I]; auto.
Qed.
Lemma disjoint_inside r s r' s' : disjoint r s -> inside r' r -> inside s' s -> disjoint r' s'.
Proof. unfold disjoint, inside. intros D I J x H. apply (D x). lia. Qed.
Lemma inside_trans r s t : inside r s -> inside s t -> inside r t.
Proof. unfold inside. lia. Qed.

Section Arena.
Variable new_block : list (nat * nat) -> nat -> nat.
Hypothesis fresh_blocks : fresh new_block.
Notation alloc := (arena_alloc new_block).
Notation run := (arena_run new_block).

(** [out] are the regions given away so far. *)
Record arena_inv (out : list (nat * nat)) (a : arena) : Prop := {
  ai_blocks : ForallOrdPairs disjoint (a_blocks a);
  ai_pos : match a_pos_end a with
           | None => a_blocks a = [] /\ out = []
           | Some (pos, e) => exists bs b n, a_blocks a = bs ++ [(b, n)] /\ b <= pos <= e /\ e = b + n /\
               forall r, In r out -> inside r (b, pos - b) \/ exists s, In s bs /\ inside r s
           end;
  ai_disjoint : ForallOrdPairs disjoint out
}.
(** With room for [size] bytes at [pos]. *)
Lemma arena_bump out bl bs b n pos e size t k : ForallOrdPairs disjoint (bs ++ [(b, n)]) -> b <= pos -> pos + size <= e -> e = b + n ->
  (forall r, In r out -> inside r (b, pos - b) \/ exists s, In s bs /\ inside r s) -> ForallOrdPairs disjoint out ->
  arena_inv (out ++ [(pos, size)]) (mkArena bl (bs ++ [(b, n)]) (Some (pos + size, e)) t k).
Proof.
  intros B L1 L2 -> I D. constructor; cbn [a_blocks a_pos_end]; auto.
  - exists bs, b, n. do 3 (split; [auto; lia|]). intros r J. apply in_app_or in J as [J|[<-|[]]].
    + destruct (I r J) as [X|X]; auto. left. unfold inside in *. cbn [fst snd] in *. lia.
    + left. unfold inside. cbn [fst snd]. lia.
  - apply fop_snoc; auto. intros r J. destruct (I r J) as [X|(s & Is & X)].
    + unfold inside, disjoint in *. cbn [fst snd] in *. lia.
    + apply (disjoint_inside s (b, n)); auto; [now apply fop_snoc_inv in B as (_ & B); apply B|]. unfold inside. cbn [fst snd]. lia.
Qed.
Lemma arena_alloc_inv out a size p a' : arena_inv out a -> alloc size a = (p, a') -> arena_inv (out ++ [(p, size)]) a' /\ exists bs, a_blocks a' = a_blocks a ++ bs.
Proof.
  intros [B P D] E. unfold arena_alloc in E. destruct a as [bl blocks pe t k]. cbn [a_block_size a_blocks a_pos_end a_total_bytes a_total_allocations] in *.
  assert (N : forall r, In r out -> exists s, In s blocks /\ inside r s).
  { intros r I. destruct pe as [[pos e]|]; [|destruct P as (-> & ->); destruct I]. destruct P as (bs & b & n & -> & L & -> & X). destruct (X r I) as [Y|(s & Is & Y)].
    - exists (b, n). split; [apply in_or_app; right; now left|]. unfold inside in *. cbn [fst snd] in *. lia.
    - exists s. split; auto. apply in_or_app. auto. }
  assert (New : arena_new_block new_block (Nat.max size bl) (mkArena bl blocks pe t k) =
     (mkArena bl (blocks ++ [(new_block blocks (Nat.max size bl), Nat.max size bl)]) (Some (new_block blocks (Nat.max size bl), new_block blocks (Nat.max size bl) + Nat.max size bl)) t k, (new_block blocks (Nat.max size bl), new_block blocks (Nat.max size bl) + Nat.max size bl))) by reflexivity.
  assert (G : arena_inv (out ++ [(new_block blocks (Nat.max size bl), size)]) (mkArena bl (blocks ++ [(new_block blocks (Nat.max size bl), Nat.max size bl)]) (Some (new_block blocks (Nat.max size bl) + size, new_block blocks (Nat.max size bl) + Nat.max size bl)) (t + size) (S k))).
  { apply arena_bump; auto; try lia. apply fop_snoc; auto. }
  destruct pe as [[pos e]|].
  - destruct (Nat.ltb_spec (e - pos) size) as [Lt|Ge]; cbn [negb] in E.
    + rewrite New in E. cbn [a_block_size a_blocks a_total_bytes a_total_allocations] in E. injection E as <- <-. split; auto. cbn. eauto.
    + injection E as <- <-. destruct P as (bs & b & n & -> & L & Ee & X). split; [|exists []; now rewrite app_nil_r]. apply arena_bump; auto; lia.
  - rewrite New in E. cbn [a_block_size a_blocks a_total_bytes a_total_allocations] in E. injection E as <- <-. split; auto. cbn. eauto.
Qed.
Lemma arena_run_inv sizes : forall out a regions a', arena_inv out a -> run sizes a = (regions, a') ->
  arena_inv (out ++ regions) a' /\ map snd regions = sizes /\ exists bs, a_blocks a' = a_blocks a ++ bs.
Proof.
  induction sizes as [|size sizes IH]; intros out a regions a' I E; cbn [arena_run] in E.
  - injection E as <- <-. rewrite app_nil_r. split; auto. split; auto. exists []. now rewrite app_nil_r.
  - destruct (alloc size a) as [p a1] eqn:E1. destruct (run sizes a1) as [r a2] eqn:E2. injection E as <- <-.
    destruct (arena_alloc_inv out a size p a1 I E1) as (I1 & bs1 & B1). destruct (IH _ _ _ _ I1 E2) as (I2 & M & bs2 & B2). rewrite <- app_assoc in I2.
    split; auto. cbn [map snd]. split; [congruence|]. exists (bs1 ++ bs2). now rewrite B2, B1, app_assoc.
Qed.
Lemma arena_new_inv bl : arena_inv [] (arena_new bl).
Proof. constructor; cbn; auto; constructor. Qed.
Theorem arena_spec bl sizes regions a : run sizes (arena_new bl) = (regions, a) ->
  map snd regions = sizes /\ ForallOrdPairs disjoint regions /\ ForallOrdPairs disjoint (a_blocks a) /\
  forall r, In r regions -> exists b, In b (a_blocks a) /\ inside r b.
Proof.
  intros E. destruct (arena_run_inv sizes [] _ _ _ (arena_new_inv bl) E) as ([B P D] & M & _). cbn [app] in *. do 3 (split; [auto|]).
  intros r I. destruct (a_pos_end a) as [[pos e]|]; [|destruct P as (_ & ->); destruct I]. destruct P as (bs & b & n & -> & L & -> & X). destruct (X r I) as [Y|(s & Is & Y)].
  - exists (b, n). split; [apply in_or_app; right; now left|]. unfold inside in *. cbn [fst snd] in *. lia.
  - exists s. split; auto. apply in_or_app. auto.
Qed.
(** Blocks stay. *)
Theorem arena_blocks sizes sizes' bl r a r' a' : run sizes (arena_new bl) = (r, a) -> run sizes' a = (r', a') ->
  run (sizes ++ sizes') (arena_new bl) = (r ++ r', a') /\ exists bs, a_blocks a' = a_blocks a ++ bs.
Proof.
  intros E E'. split.
  - revert E. generalize (arena_new bl) as a0. revert r. induction sizes as [|s sizes IH]; intros r a0 E; cbn [app arena_run] in *.
    + injection E as <- <-. exact E'.
    + destruct (alloc s a0) as [p a1]. destruct (run sizes a1) as [r1 a2] eqn:E2. injection E as <- <-. rewrite (IH r1 a1 E2). reflexivity.
  - destruct (arena_run_inv sizes [] _ _ _ (arena_new_inv bl) E) as (I & _). cbn [app] in I. exact (proj2 (proj2 (arena_run_inv sizes' r a r' a' I E'))).
Qed.
(** What is counted, and how many blocks there are. *)
Definition blocks_ok (a : arena) (n : nat) : Prop :=
  length (a_blocks a) <= n /\ Forall (fun b => a_block_size a <= snd b) (a_blocks a).
Lemma arena_count sizes : forall a regions a' n, blocks_ok a n -> run sizes a = (regions, a') ->
  a_total_bytes a' = a_total_bytes a + list_sum sizes /\ a_total_allocations a' = a_total_allocations a + length sizes /\ a_block_size a' = a_block_size a /\ blocks_ok a' (n + length sizes).
Proof.
  induction sizes as [|size sizes IH]; intros a regions a' n B E; cbn [arena_run] in E.
  - injection E as <- <-. cbn [list_sum fold_right length]. rewrite !Nat.add_0_r. auto.
  - destruct (alloc size a) as [p a1] eqn:E1. destruct (run sizes a1) as [r a2] eqn:E2. injection E as <- <-.
    assert (X : a_total_bytes a1 = a_total_bytes a + size /\ a_total_allocations a1 = S (a_total_allocations a) /\ a_block_size a1 = a_block_size a /\ blocks_ok a1 (S n)).
    { unfold arena_alloc in E1. destruct a as [bl blocks pe t k]. unfold blocks_ok, arena_new_block in *. cbn [a_block_size a_blocks a_pos_end a_total_bytes a_total_allocations] in *.
      assert (Y : length (blocks ++ [(new_block blocks (Nat.max size bl), Nat.max size bl)]) <= S n /\ Forall (fun b => bl <= snd b) (blocks ++ [(new_block blocks (Nat.max size bl), Nat.max size bl)])).
      { rewrite app_length. cbn [length]. split; [lia|]. apply Forall_app. split; [apply B|]. repeat constructor. cbn. lia. }
      destruct pe as [[pos e]|]; [destruct (negb (e - pos <? size))|]; injection E1 as <- <-; cbn [a_block_size a_blocks a_pos_end a_total_bytes a_total_allocations]; do 3 (split; [auto|]); auto. destruct B; split; auto; lia. }
    destruct X as (X1 & X2 & X3 & X4). destruct (IH _ _ _ _ X4 E2) as (Y1 & Y2 & Y3 & Y4). cbn [list_sum fold_right length]. fold (list_sum sizes). replace (n + S (length sizes)) with (S n + length sizes) by lia.
    repeat split; try congruence; try lia; apply Y4.
Qed.
End Arena.

(** * ArenaDeque *)
Lemma uint16_small n : (N.of_nat n < 65536)%N -> uint16 n = n.
Proof. intros L. unfold uint16. rewrite N.mod_small by auto. apply Nat2N.id. Qed.
Lemma update_app {A} (l m : list A) x y : update (length l) x (l ++ y :: m) = l ++ x :: m.
Proof. induction l as [|z l IH]; cbn [length app update]; [reflexivity|]. now rewrite IH. Qed.
Lemma update_left {A} (l m : list A) i x : i < length l -> update i x (l ++ m) = update i x l ++ m.
Proof. revert i. induction l as [|z l IH]; intros [|i] L; cbn [length app update] in *; auto; try lia. now rewrite IH by lia. Qed.
Lemma update_map {A B} (f : A -> B) (l : list A) i x : update i (f x) (map f l) = map f (replace i x l).
Proof. revert i. induction l as [|z l IH]; intros [|i]; cbn [map update replace]; auto. now rewrite IH. Qed.
Lemma nth_middle' {A} (l m : list A) x : nth_error (l ++ x :: m) (length l) = Some x.
Proof. induction l; auto. Qed.
Lemma replace_length {T} i (x : T) l : length (replace i x l) = length l.
Proof. revert i. induction l as [|y l IH]; intros [|i]; cbn [replace length]; auto. Qed.
Lemma replace_left {A} (l m : list A) i x : i < length l -> replace i x (l ++ m) = replace i x l ++ m.
Proof. revert i. induction l as [|z l IH]; intros [|i] L; cbn [length app replace] in *; auto; try lia. now rewrite IH by lia. Qed.
Lemma replace_right {A} (l m : list A) i x : replace (length l + i) x (l ++ m) = l ++ replace i x m.
Proof. induction l as [|z l IH]; cbn [length app replace Nat.add]; auto. now rewrite IH. Qed.
Lemma skipn_nth {A} (l : list A) p x : nth_error l p = Some x -> skipn p l = x :: skipn (S p) l.
Proof. revert p. induction l as [|y l IH]; intros [|p] E; cbn [nth_error skipn] in *; try discriminate; [congruence|]. rewrite (IH p E). reflexivity. Qed.
Lemma nth_error_seq n : forall s i, i < n -> nth_error (seq s n) i = Some (s + i).
Proof. induction n as [|n IH]; intros s [|i] L; cbn [seq nth_error]; try lia; [f_equal; lia|]. rewrite IH by lia. f_equal. lia. Qed.

Section Deque.
Context {T : Type}.
Variable min max : nat.
Hypothesis sizes : block_sizes min max.
Notation bsize := (block_size min).
Notation adv := (advance min max).
Notation append := (@append T min max).

Fixpoint sh (i : nat) : nat := match i with 0 => 0 | S i => adv (sh i) end.
Definition cap (i : nat) : nat := min * 2 ^ sh i.
Lemma cap_bound i : (N.of_nat (cap i) < 65536)%N.
Proof.
  destruct sizes as (P & Lmin & Lmax). unfold cap. induction i as [|i IH]; cbn [sh]; [cbn; now rewrite Nat.mul_1_r|].
  unfold advance. destruct (Nat.leb_spec (min * 2 ^ (sh i + 1)) max); auto. rewrite <- (Nat.add_1_r (sh i)). lia.
Qed.
Lemma cap_size i : bsize (sh i) = cap i.
Proof. unfold block_size. apply uint16_small, cap_bound. Qed.
Lemma cap_min i : min <= cap i.
Proof. unfold cap. pose proof (Nat.pow_nonzero 2 (sh i)). nia. Qed.
Lemma cap_pos i : 0 < cap i.
Proof. pose proof (cap_min i). destruct sizes. lia. Qed.

(** The blocks for given elements: full ones and the last one. *)
Fixpoint chain (k : nat) (ls : list (list T)) (l : list T) : list (block T) :=
  match ls with
  | [] => [mkBlock None (map Some l ++ repeat None (cap k - length l))]
  | c :: ls => mkBlock (Some (S k)) (map Some c) :: chain (S k) ls l
  end.
Fixpoint filled (k : nat) (ls : list (list T)) : Prop := match ls with [] => True | c :: ls => length c = cap k /\ filled (S k) ls end.
Definition content (ls : list (list T)) (l : list T) : list T := concat ls ++ l.
(** Where the elements are. *)
Fixpoint places (k : nat) (ls : list (list T)) (l : list T) : list ref :=
  match ls with
  | [] => map (pair k) (seq 0 (length l))
  | c :: ls => map (pair k) (seq 0 (length c)) ++ places (S k) ls l
  end.
Lemma places_length ls : forall k l, length (places k ls l) = length (content ls l).
Proof.
  unfold content. induction ls as [|c ls IH]; intros k l; cbn [places concat app]; [now rewrite map_length, seq_length|].
  rewrite app_length, map_length, seq_length, IH, <- app_assoc, (app_length c). reflexivity.
Qed.
Lemma places_lt ls k l i r : nth_error (places k ls l) i = Some r -> i < length (content ls l).
Proof. intros E. rewrite <- (places_length ls k l). apply nth_error_Some. now rewrite E. Qed.
Lemma chain_length ls : forall k l, length (chain k ls l) = S (length ls).
Proof. induction ls; intros k l; cbn [chain length]; auto. Qed.
Lemma chain_at_last k l (pre : list (block T)) : length pre = k -> nth_error (pre ++ chain k [] l) k = Some (mkBlock None (map Some l ++ repeat None (cap k - length l))).
Proof. intros <-. apply nth_middle'. Qed.
Lemma chain_at_full k c ls l (pre : list (block T)) : length pre = k -> nth_error (pre ++ chain k (c :: ls) l) k = Some (mkBlock (Some (S k)) (map Some c)).
Proof. intros <-. apply nth_middle'. Qed.
Lemma content_cons c ls l : content (c :: ls) l = c ++ content ls l.
Proof. unfold content. cbn [concat]. now rewrite app_assoc. Qed.

Lemma place_get ls : forall k l pre i r, length pre = k -> filled k ls -> nth_error (places k ls l) i = Some r ->
  exists v, nth_error (content ls l) i = Some v /\ heap_get (pre ++ chain k ls l) r = Ret v.
Proof.
  induction ls as [|c ls IH]; intros k l pre i r Lp F E.
  - assert (Li : i < length l) by (exact (places_lt [] k l i r E)).
    cbn [places] in E. rewrite nth_error_map, nth_error_seq in E by auto. injection E as <-. destruct (nth_error l i) as [v|] eqn:Ev; [|apply nth_error_None in Ev; lia].
    exists v. split; auto. unfold heap_get. cbn [fst snd chain]. rewrite <- Lp, nth_middle'. cbn [b_value]. rewrite nth_error_app1 by (rewrite map_length; lia). cbn [Nat.add]. now rewrite nth_error_map, Ev.
  - destruct F as (Fc & F). rewrite content_cons. cbn [places] in E. destruct (Nat.lt_ge_cases i (length c)) as [L|L].
    + rewrite nth_error_app1 in E by (rewrite map_length, seq_length; auto). rewrite nth_error_map, nth_error_seq in E by auto. injection E as <-.
      rewrite nth_error_app1 by auto. destruct (nth_error c i) as [v|] eqn:Ev; [|apply nth_error_None in Ev; lia]. exists v. split; auto.
      unfold heap_get. cbn [fst snd chain]. rewrite <- Lp, nth_middle'. cbn [b_value Nat.add]. now rewrite nth_error_map, Ev.
    + rewrite nth_error_app2 in E by (rewrite map_length, seq_length; auto). rewrite map_length, seq_length in E. rewrite nth_error_app2 by auto.
      destruct (IH (S k) l (pre ++ [mkBlock (Some (S k)) (map Some c)]) (i - length c) r) as (v & Ev & G); auto.
      { rewrite app_length. cbn. lia. }
      exists v. split; auto. rewrite <- app_assoc in G. exact G.
Qed.
Lemma place_set ls : forall k l pre i r v, length pre = k -> filled k ls -> nth_error (places k ls l) i = Some r ->
  exists ls' l', heap_set (pre ++ chain k ls l) r v = Ret (pre ++ chain k ls' l') /\ content ls' l' = replace i v (content ls l) /\
    filled k ls' /\ length ls' = length ls /\ length l' = length l /\ places k ls' l' = places k ls l.
Proof.
  induction ls as [|c ls IH]; intros k l pre i r v Lp F E.
  - assert (Li : i < length l) by (exact (places_lt [] k l i r E)).
    cbn [places] in E. rewrite nth_error_map, nth_error_seq in E by auto. injection E as <-.
    exists [], (replace i v l). cbn [filled]. rewrite replace_length. split; [|do 4 (split; [auto|]); cbn [places]; now rewrite replace_length].
    unfold heap_set. cbn [fst snd chain Nat.add]. rewrite <- Lp, nth_middle'. cbn [b_value b_next]. rewrite app_length, map_length. destruct (Nat.ltb_spec i (length l + length (repeat (@None T) (cap (length pre) - length l)))); [|lia].
    rewrite update_app, update_left by (rewrite map_length; lia). now rewrite (update_map Some), replace_length.
  - destruct F as (Fc & F). cbn [places] in E. destruct (Nat.lt_ge_cases i (length c)) as [L|L].
    + rewrite nth_error_app1 in E by (rewrite map_length, seq_length; auto). rewrite nth_error_map, nth_error_seq in E by auto. injection E as <-.
      exists (replace i v c :: ls), l. rewrite !content_cons, replace_left by auto. cbn [filled length places]. rewrite !replace_length.
      split; [|do 4 (split; [auto|]); auto]. unfold heap_set. cbn [fst snd chain Nat.add]. rewrite <- Lp, nth_middle'. cbn [b_value b_next]. rewrite map_length. destruct (Nat.ltb_spec i (length c)); [|lia].
      now rewrite update_app, (update_map Some).
    + rewrite nth_error_app2 in E by (rewrite map_length, seq_length; auto). rewrite map_length, seq_length in E.
      destruct (IH (S k) l (pre ++ [mkBlock (Some (S k)) (map Some c)]) (i - length c) r v) as (ls' & l' & G & C & F' & L1 & L2 & P); auto.
      { rewrite app_length. cbn. lia. }
      exists (c :: ls'), l'. rewrite !content_cons. replace i with (length c + (i - length c)) at 1 by lia. rewrite replace_right, <- C. cbn [filled length places chain]. rewrite <- !app_assoc in G.
      rewrite P. do 5 (split; [auto|]). auto.
Qed.
(** The place after the last element. *)
Lemma set_next ls : forall k l pre v, length pre = k -> length l < cap (k + length ls) ->
  heap_set (pre ++ chain k ls l) (k + length ls, length l) v = Ret (pre ++ chain k ls (l ++ [v])).
Proof.
  induction ls as [|c ls IH]; intros k l pre v Lp L.
  - cbn [length] in *. rewrite Nat.add_0_r in *. unfold heap_set. cbn [fst snd chain]. rewrite <- Lp, nth_middle'. cbn [b_value b_next]. rewrite app_length, map_length, repeat_length, Lp.
    destruct (Nat.ltb_spec (length l) (length l + (cap k - length l))); [|lia]. rewrite <- Lp, update_app, Lp. rewrite map_app, app_length. cbn [map length]. rewrite <- app_assoc. cbn [app].
    replace (cap k - length l) with (S (cap k - (length l + 1))) by lia. cbn [repeat]. do 4 f_equal. rewrite <- (map_length Some l) at 1. now rewrite update_app.
  - cbn [chain]. specialize (IH (S k) l (pre ++ [mkBlock (Some (S k)) (map Some c)]) v). cbn [length] in *. replace (k + S (length ls)) with (S k + length ls) in * by lia.
    rewrite <- !app_assoc in IH. apply IH; auto. rewrite app_length. cbn. lia.
Qed.
(** A new block after the last one, when that is full. *)
Lemma chain_grow ls : forall k l pre, length pre = k -> length l = cap (k + length ls) ->
  exists b, nth_error (pre ++ chain k ls l) (k + length ls) = Some b /\
    update (k + length ls) (mkBlock (Some (S (k + length ls))) (b_value b)) (pre ++ chain k ls l) ++ [mkBlock None (repeat None (cap (S (k + length ls))))] = pre ++ chain k (ls ++ [l]) [].
Proof.
  induction ls as [|c ls IH]; intros k l pre Lp L.
  - subst k. cbn [length] in *. rewrite Nat.add_0_r in *. cbn [chain app]. rewrite nth_middle'. eexists. split; [reflexivity|]. cbn [b_value]. rewrite update_app, <- app_assoc. cbn [app length map].
    replace (cap (length pre) - length l) with 0 by lia. cbn [repeat]. now rewrite app_nil_r, Nat.sub_0_r.
  - cbn [chain app length]. destruct (IH (S k) l (pre ++ [mkBlock (Some (S k)) (map Some c)])) as (b & N & E).
    + rewrite app_length. cbn. lia.
    + cbn [length] in L. rewrite L. f_equal. lia.
    + rewrite <- !app_assoc in *. cbn [app] in *. replace (k + S (length ls)) with (S k + length ls) by lia. eauto.
Qed.
Lemma places_snoc ls : forall k l v, places k ls (l ++ [v]) = places k ls l ++ [(k + length ls, length l)].
Proof.
  induction ls as [|c ls IH]; intros k l v; cbn [places length].
  - rewrite app_length, seq_app, map_app, Nat.add_0_r. reflexivity.
  - rewrite IH, app_assoc. now replace (k + S (length ls)) with (S k + length ls) by lia.
Qed.
Lemma places_grow ls : forall k l, places k (ls ++ [l]) [] = places k ls l.
Proof. induction ls as [|c ls IH]; intros k l; cbn [places app]; [cbn; now rewrite app_nil_r|]. now rewrite IH. Qed.
Lemma filled_snoc ls : forall k l, filled k ls -> length l = cap (k + length ls) -> filled k (ls ++ [l]).
Proof.
  induction ls as [|c ls IH]; intros k l F L; cbn [filled app length] in *; [rewrite Nat.add_0_r in L; auto|]. split; [apply F|]. apply IH; [apply F|]. rewrite L. f_equal. lia.
Qed.

Definition deque_inv (refs : list ref) (xs : list T) (d : deque T) : Prop := exists ls l,
  content ls l = xs /\ places 0 ls l = refs /\ d = mkDeque (length xs) (chain 0 ls l) (length ls) (length l) (sh (length ls)) /\
  filled 0 ls /\ length l <= cap (length ls).
Lemma deque_inv_new : deque_inv [] [] (deque_new min).
Proof.
  exists [], []. cbn [filled length]. do 2 (split; [reflexivity|]). split; [|split; [auto|pose proof (cap_pos 0); lia]].
  unfold deque_new. cbn [chain map length app sh]. unfold cap. cbn [sh Nat.pow]. now rewrite Nat.mul_1_r, Nat.sub_0_r.
Qed.
Lemma content_snoc ls l v : content ls (l ++ [v]) = content ls l ++ [v].
Proof. unfold content. now rewrite app_assoc. Qed.
Lemma append_inv refs xs d v : deque_inv refs xs d -> exists r d', append v d = Ret (r, d') /\ deque_inv (refs ++ [r]) (xs ++ [v]) d'.
Proof.
  intros (ls & l & <- & <- & -> & F & L). unfold M_Arena.append. cbn [d_shift d_next_pos d_heap d_current d_size]. rewrite !cap_size.
  assert (K : forall ls l, filled 0 ls -> length l < cap (length ls) ->
    (do h <- heap_set (chain 0 ls l) (length ls, length l) v; Ret ((length ls, length l), mkDeque (S (length (content ls l))) h (length ls) (uint16 (length l + 1)) (sh (length ls)))) =
    Ret ((length ls, length l), mkDeque (length (content ls (l ++ [v]))) (chain 0 ls (l ++ [v])) (length ls) (length (l ++ [v])) (sh (length ls)))).
  { clear F L ls l. intros ls l F L. pose proof (set_next ls 0 l [] v eq_refl L) as E. cbn [app Nat.add] in E. rewrite E. cbn [bind]. rewrite content_snoc, !app_length. cbn [length].
    rewrite uint16_small; [do 3 f_equal; lia|]. pose proof (cap_bound (length ls)). lia. }
  destruct (Nat.leb_spec (cap (length ls)) (length l)) as [G|G].
  - change (adv (sh (length ls))) with (sh (S (length ls))). rewrite cap_size.
    assert (El : length l = cap (0 + length ls)) by (cbn [Nat.add]; lia). destruct (chain_grow ls 0 l [] eq_refl El) as (b & N & E). cbn [app Nat.add] in N, E. rewrite N.
    pose proof (cap_min (S (length ls))) as M. destruct (Nat.ltb_spec (cap (S (length ls))) min); [lia|]. rewrite chain_length.
    replace (min + (cap (S (length ls)) - min)) with (cap (S (length ls))) by lia. rewrite E. cbn [bind d_shift d_next_pos d_heap d_current d_size].
    assert (F' : filled 0 (ls ++ [l])) by (now apply filled_snoc). assert (Ll : length (ls ++ [l]) = S (length ls)) by (rewrite app_length; cbn; lia).
    assert (Cl : content (ls ++ [l]) [] = content ls l) by (unfold content; rewrite concat_app; cbn; now rewrite !app_nil_r).
    specialize (K (ls ++ [l]) [] F'). rewrite Ll, Cl in K. cbn [length app] in K. rewrite K by apply cap_pos.
    eexists _, _. split; [reflexivity|]. exists (ls ++ [l]), [v]. rewrite Ll. change [v] with ([] ++ [v]). rewrite content_snoc, Cl, places_snoc, places_grow, Ll.
    do 3 (split; [auto|]). split; auto. pose proof (cap_pos (S (length ls))). cbn [length app]. lia.
  - cbn [bind d_shift d_next_pos d_heap d_current d_size]. rewrite K by auto. eexists _, _. split; [reflexivity|]. exists ls, (l ++ [v]). rewrite content_snoc, places_snoc.
    do 3 (split; [auto|]). split; auto. rewrite app_length. cbn. lia.
Qed.
Lemma assign_inv refs xs d i r v : deque_inv refs xs d -> nth_error refs i = Some r ->
  exists h, heap_set (d_heap d) r v = Ret h /\ deque_inv refs (replace i v xs) (mkDeque (d_size d) h (d_current d) (d_next_pos d) (d_shift d)).
Proof.
  intros (ls & l & <- & <- & -> & F & L) E. cbn [d_heap d_size d_current d_next_pos d_shift].
  destruct (place_set ls 0 l [] i r v eq_refl F E) as (ls' & l' & G & C & F' & L1 & L2 & P). cbn [app] in G. rewrite G. eexists. split; [reflexivity|].
  exists ls', l'. rewrite replace_length, L1, L2. auto 10.
Qed.
Lemma deque_run_inv ops : forall refs xs d, deque_inv refs xs d -> exists refs' d', deque_run min max ops refs d = Ret (refs', d') /\ deque_inv refs' (list_run ops xs) d'.
Proof.
  induction ops as [|[v|i v] ops IH]; intros refs xs d I; cbn [deque_run list_run]; [eauto| |].
  - destruct (append_inv _ _ _ v I) as (r & d' & -> & I'). cbn [bind]. apply IH, I'.
  - destruct (nth_error refs i) as [r|] eqn:E.
    + destruct (assign_inv _ _ _ i r v I E) as (h & -> & I'). cbn [bind]. apply IH, I'.
    + apply IH. replace (replace i v xs) with xs; auto. apply nth_error_None in E. destruct I as (ls & l & <- & <- & _). rewrite places_length in E.
      revert E. generalize (content ls l). clear. intros xs. revert i. induction xs as [|x xs IH]; intros [|i] L; cbn [replace length] in *; auto; [lia|]. now rewrite <- IH by lia.
Qed.

(** Iterating *)
Definition stop (k : nat) (ls : list (list T)) (l : list T) : iter :=
  if length l =? cap (k + length ls) then mkIter None 0 0 else mkIter (Some (k + length ls)) (length l) 0.
Lemma iterate_last n : forall fuel k l pre p, n = length l - p -> length pre = k -> length l <= cap k -> p <= length l -> (p < length l \/ length l < cap k) -> n <= fuel ->
  iterate min max fuel (pre ++ chain k [] l) (mkIter (Some k) p (sh k)) (stop k [] l) = Ret (combine (skipn p (places k [] l)) (skipn p l)).
Proof.
  induction n as [|n IH]; intros fuel k l pre p En Lp L1 L2 L3 Lf.
  - assert (p = length l) as -> by lia. rewrite (skipn_all l), combine_nil. unfold stop. cbn [length]. rewrite Nat.add_0_r. destruct (Nat.eqb_spec (length l) (cap k)); [lia|].
    destruct fuel; cbn [iterate iter_eqb i_block i_pos]; unfold iter_eqb; cbn [i_block i_pos]; now rewrite !Nat.eqb_refl.
  - assert (L : p < length l) by lia. destruct (nth_error l p) as [v|] eqn:Ev; [|apply nth_error_None in Ev; lia]. destruct fuel as [|fuel]; [lia|]. cbn [iterate].
    assert (Ne : iter_eqb (mkIter (Some k) p (sh k)) (stop k [] l) = false).
    { unfold iter_eqb, stop. cbn [length]. rewrite Nat.add_0_r. destruct (Nat.eqb_spec (length l) (cap k)); cbn [i_block i_pos]; auto. rewrite Nat.eqb_refl. apply Nat.eqb_neq. lia. }
    rewrite Ne. assert (Ep : nth_error (places k [] l) p = Some (k, p)) by (cbn [places]; rewrite nth_error_map, nth_error_seq by auto; reflexivity).
    destruct (place_get [] k l pre p (k, p) Lp I Ep) as (v' & Ev' & G). assert (v' = v) as -> by (cbn in Ev'; congruence). unfold iter_get. cbn [i_block i_pos]. rewrite G. cbn [bind].
    rewrite (skipn_nth _ _ _ Ep), (skipn_nth _ _ _ Ev). cbn [combine]. unfold iter_next. cbn [i_block i_pos i_shift]. rewrite cap_size.
    destruct (Nat.leb_spec (cap k) (p + 1)) as [X|X].
    + rewrite chain_at_last by auto. cbn [bind b_next]. assert (S p = length l) as Y by lia. rewrite Y, (skipn_all l), combine_nil.
      assert (Z : stop k [] l = mkIter None 0 0). { unfold stop. cbn [length]. rewrite Nat.add_0_r. destruct (Nat.eqb_spec (length l) (cap k)); auto. lia. }
      rewrite Z. destruct fuel; reflexivity.
    + cbn [bind]. replace (p + 1) with (S p) by lia. rewrite (IH fuel k l pre (S p)) by (auto; lia). reflexivity.
Qed.
Lemma iterate_all ls : forall fuel k l pre p, length pre = k -> filled k ls -> length l <= cap (k + length ls) ->
  match ls with [] => p <= length l /\ (p < length l \/ length l < cap k) | c :: _ => p < length c end -> length (content ls l) - p <= fuel ->
  iterate min max fuel (pre ++ chain k ls l) (mkIter (Some k) p (sh k)) (stop k ls l) = Ret (combine (skipn p (places k ls l)) (skipn p (content ls l))).
Proof.
  induction ls as [|c ls IH]; intros fuel k l pre p Lp F Ll Hp Lf.
  - cbn [length] in Ll. rewrite Nat.add_0_r in Ll. unfold content. cbn [concat app]. apply (iterate_last (length l - p)); auto; tauto.
  - destruct F as (Fc & F). remember (length c - p) as n eqn:En. revert fuel p Hp Lf En. induction n as [|n IHn]; intros fuel p Hp Lf En; [lia|].
    destruct (nth_error c p) as [v|] eqn:Ev; [|apply nth_error_None in Ev; lia].
    assert (Ev1 : nth_error (content (c :: ls) l) p = Some v) by (rewrite content_cons, nth_error_app1 by auto; auto).
    assert (Lc : length (content (c :: ls) l) = length c + length (content ls l)) by (now rewrite content_cons, app_length).
    destruct fuel as [|fuel]; [lia|]. cbn [iterate].
    assert (Ne : iter_eqb (mkIter (Some k) p (sh k)) (stop k (c :: ls) l) = false).
    { unfold iter_eqb, stop. destruct (length l =? cap (k + length (c :: ls))); cbn [i_block i_pos]; auto. cbn [length]. destruct (Nat.eqb_spec k (k + S (length ls))); [lia|]. reflexivity. }
    rewrite Ne. assert (Ep : nth_error (places k (c :: ls) l) p = Some (k, p)).
    { cbn [places]. rewrite nth_error_app1 by (rewrite map_length, seq_length; auto). rewrite nth_error_map, nth_error_seq by auto. reflexivity. }
    destruct (place_get (c :: ls) k l pre p (k, p) Lp (conj Fc F) Ep) as (v' & Ev' & G). assert (v' = v) as -> by congruence. unfold iter_get. cbn [i_block i_pos]. rewrite G. cbn [bind].
    rewrite (skipn_nth _ _ _ Ep), (skipn_nth _ _ _ Ev1). cbn [combine]. unfold iter_next. cbn [i_block i_pos i_shift]. rewrite cap_size.
    destruct (Nat.leb_spec (cap k) (p + 1)) as [X|X].
    + rewrite chain_at_full by auto. cbn [bind b_next chain]. change (adv (sh k)) with (sh (S k)).
      assert (Y : stop k (c :: ls) l = stop (S k) ls l) by (unfold stop; cbn [length]; now replace (k + S (length ls)) with (S k + length ls) by lia). rewrite Y.
      cbn [length] in Ll. replace (k + S (length ls)) with (S k + length ls) in Ll by lia.
      pose proof (IH fuel (S k) l (pre ++ [mkBlock (Some (S k)) (map Some c)]) 0) as H. rewrite <- app_assoc in H. cbn [app skipn] in H. rewrite H; auto; try lia.
      * cbn [bind]. rewrite content_cons. cbn [places]. assert (S p = length c) as Z by lia. rewrite Z.
        rewrite (skipn_app (length c) c), skipn_all, Nat.sub_diag. rewrite skipn_app, map_length, seq_length, Nat.sub_diag, skipn_all2 by (rewrite map_length, seq_length; lia). reflexivity.
      * rewrite app_length. cbn. lia.
      * destruct ls as [|c' ls]; [pose proof (cap_pos (S k)); lia|]. destruct F as (Fc' & _). pose proof (cap_pos (S k)). lia.
    + cbn [bind]. replace (p + 1) with (S p) by lia. rewrite IHn by lia. reflexivity.
Qed.
Lemma index_spec ls : forall fuel k l pre pos, length pre = k -> filled k ls -> length l <= cap (k + length ls) -> pos < length (content ls l) -> pos < fuel ->
  exists v, nth_error (content ls l) pos = Some v /\ index_loop min max fuel (pre ++ chain k ls l) pos k (sh k) = Ret v.
Proof.
  induction ls as [|c ls IH]; intros fuel k l pre pos Lp F Ll L Lf.
  - unfold content in *. cbn [concat app length] in *. rewrite Nat.add_0_r in Ll. destruct (place_get [] k l pre pos (k, pos) Lp I) as (v & Ev & G).
    { cbn [places]. rewrite nth_error_map, nth_error_seq by auto. reflexivity. }
    exists v. split; auto. destruct fuel; cbn [index_loop]; rewrite cap_size; (destruct (Nat.leb_spec (cap k) pos); [lia|exact G]).
  - destruct F as (Fc & F). rewrite content_cons in *. rewrite app_length in L. destruct fuel as [|fuel]; [lia|]. cbn [index_loop]. rewrite cap_size. destruct (Nat.leb_spec (cap k) pos) as [X|X].
    + rewrite chain_at_full by auto. cbn [chain]. change (adv (sh k)) with (sh (S k)). rewrite nth_error_app2 by lia. rewrite Fc.
      pose proof (cap_pos k). pose proof (IH fuel (S k) l (pre ++ [mkBlock (Some (S k)) (map Some c)]) (pos - cap k)) as H'. rewrite <- app_assoc in H'. apply H'; auto; try lia.
      * rewrite app_length. cbn. lia.
      * cbn [length] in Ll. replace (S k + length ls) with (k + S (length ls)) by lia. auto.
    + destruct (place_get (c :: ls) k l pre pos (k, pos) Lp (conj Fc F)) as (v & Ev & G).
      { cbn [places]. rewrite nth_error_app1 by (rewrite map_length, seq_length; lia). rewrite nth_error_map, nth_error_seq by lia. reflexivity. }
      rewrite content_cons in Ev. eauto.
Qed.
Lemma index_out ls : forall fuel k l pre pos, length pre = k -> filled k ls -> length (content ls l) <= pos -> pos < fuel ->
  index_loop min max fuel (pre ++ chain k ls l) pos k (sh k) = UB.
Proof.
  induction ls as [|c ls IH]; intros fuel k l pre pos Lp F L Lf; (destruct fuel as [|fuel]; [lia|]); cbn [index_loop]; rewrite cap_size.
  - unfold content in L. cbn [concat app] in L. destruct (Nat.leb_spec (cap k) pos) as [X|X]; [now rewrite chain_at_last|]. unfold heap_get. cbn [fst snd]. rewrite chain_at_last by auto. cbn [b_value].
    rewrite nth_error_app2 by (rewrite map_length; auto). rewrite map_length. destruct (nth_error (repeat None (cap k - length l)) (pos - length l)) as [o|] eqn:E; auto. apply nth_error_In, repeat_spec in E. now subst.
  - destruct F as (Fc & F). rewrite content_cons, app_length in L. destruct (Nat.leb_spec (cap k) pos) as [X|X]; [|lia]. rewrite chain_at_full by auto. change (adv (sh k)) with (sh (S k)). pose proof (cap_pos k).
    pose proof (IH fuel (S k) l (pre ++ [mkBlock (Some (S k)) (map Some c)]) (pos - cap k)) as H'. rewrite <- app_assoc in H'. apply H'; auto; try lia. rewrite app_length. cbn. lia.
Qed.
Theorem deque_spec (ops : list (deque_op T)) : exists refs d, deque_run min max ops [] (deque_new min) = Ret (refs, d) /\
  let xs := list_run ops [] in
  d_size d = length xs /\ length refs = length xs /\ elements min max d = Ret (combine refs xs) /\
  (forall i, index min max i d = match nth_error xs i with Some v => Ret v | None => UB end) /\
  (forall i r, nth_error refs i = Some r -> exists v, nth_error xs i = Some v /\ heap_get (d_heap d) r = Ret v).
Proof.
  destruct (deque_run_inv ops [] [] _ deque_inv_new) as (refs & d & E & ls & l & C & P & D & F & L). exists refs, d. split; auto. cbn zeta. rewrite <- C, <- P. rewrite D. cbn [d_size d_heap].
  rewrite C. split; auto. rewrite <- C. split; [apply places_length|]. split; [|split].
  - unfold elements. cbn [d_size d_heap]. unfold end_. cbn [d_next_pos d_shift d_current]. rewrite cap_size. pose proof (iterate_all ls (length (content ls l)) 0 l [] 0) as H. cbn [app skipn Nat.add sh] in H.
    unfold begin_. unfold stop in H. cbn [Nat.add] in H. rewrite C in *. rewrite H; auto; try lia. destruct ls as [|c ls]; [pose proof (cap_pos 0); lia|]. destruct F as (Fc & _). pose proof (cap_pos 0). lia.
  - intros i. destruct (nth_error (content ls l) i) as [v|] eqn:Ev; unfold index; cbn [d_heap]; [|apply nth_error_None in Ev; apply (index_out ls (S i) 0 l []); auto].
    destruct (index_spec ls (S i) 0 l [] i eq_refl F) as (v' & Ev' & G); auto; [apply nth_error_Some; congruence|]. cbn [app sh] in G. rewrite G. congruence.
  - intros i r Er. destruct (place_get ls 0 l [] i r eq_refl F Er) as (v & Ev & G). eauto.
Qed.
End Deque.

(** * DisjointRangeMap *)
Section Ranges.
Context {V : Type}.
Implicit Types (l : list ((nat * nat) * V)) (m : range_map V).
Lemma range_build l : forall m, msorted m -> let m' := fold_left (fun m kv => snd (range_insert (fst kv) (snd kv) m)) l m in
  msorted m' /\
  forall e bv, map_find e m' = Some bv <->
    map_find e m = Some bv \/ (map_find e m = None /\ exists l1 r l2, l = l1 ++ r :: l2 /\ snd (fst r) = e /\ (fst (fst r), snd r) = bv /\ forall x, In x l1 -> snd (fst x) <> e).
Proof.
  induction l as [|[[b e0] v] l IH]; intros m S; cbn [fold_left]; cbn zeta.
  - split; auto. intros e bv. split; auto. intros [H|(_ & l1 & r & l2 & E & _)]; auto. destruct l1; discriminate.
  - cbn [range_insert fst snd]. destruct (IH (map_insert e0 (b, v) m) (map_insert_sorted _ _ _ S)) as (S' & H). split; auto. intros e bv. rewrite H, map_insert_find by auto. clear IH H S'.
    destruct (map_find e m) as [w|] eqn:E.
    + split; [intros [A|(A & _)]; auto; discriminate|intros [A|(A & _)]; auto; discriminate].
    + destruct (keqb_spec e e0) as [->|N].
      * split.
        -- intros [[= <-]|([=] & _)]. right. split; auto. exists [], (b, e0, v), l. cbn. do 3 (split; [auto|]). intros x [].
        -- intros [[=]|(_ & l1 & r & l2 & X & Y & Z & W)]. left. destruct l1 as [|a l1]; cbn [app] in X; injection X as <- ->; [now rewrite <- Z|]. destruct (W (b, e0, v)); [now left|reflexivity].
      * split.
        -- intros [[=]|(_ & l1 & r & l2 & -> & Y & Z & W)]. right. split; auto. exists ((b, e0, v) :: l1), r, l2. do 3 (split; [auto|]). intros x [<-|I]; auto.
        -- intros [[=]|(_ & l1 & r & l2 & X & Y & Z & W)]. right. split; auto. destruct l1 as [|a l1]; cbn [app] in X; injection X as <- ->; [cbn in Y; congruence|]. exists l1, r, l2. do 3 (split; [auto|]). intros x I. apply W. now right.
Qed.
Lemma range_map_spec l : msorted (range_map_of l) /\ forall e bv, map_find e (range_map_of l) = Some bv <->
  exists l1 r l2, l = l1 ++ r :: l2 /\ snd (fst r) = e /\ (fst (fst r), snd r) = bv /\ forall x, In x l1 -> snd (fst x) <> e.
Proof.
  destruct (range_build l [] I) as (S & B). split; [exact S|]. intros e bv. unfold range_map_of. rewrite B. split; [intros [[=]|(_ & H)]; auto|]. intros H. right. split; auto.
Qed.
Lemma lower_first k m x : msorted m -> hd_error (snd (lower_bound k m)) = Some x ->
  In x m /\ k <= fst x /\ forall e bv, map_find e m = Some bv -> k <= e -> fst x <= e.
Proof.
  intros S H. destruct (snd (lower_bound k m)) as [|y r] eqn:E; [discriminate|]. cbn in H. injection H as ->.
  pose proof (lower_bound_app k m) as A. rewrite E in A. assert (I : In x m) by (rewrite <- A; apply in_or_app; right; now left). split; auto. destruct x as [kx vx]. cbn [fst]. split.
  - assert (X : In (kx, vx) (snd (lower_bound k m))) by (rewrite E; now left). apply lower_bound_after in X; auto. unfold klt, kcmp in X. cbn in X. destruct (Nat.lt_ge_cases kx k) as [L|L]; auto. destruct X. now apply Nat.compare_lt_iff.
  - intros e bv F L. apply map_find_in in F. rewrite <- A in F. apply in_app_or in F as [F|F].
    + apply lower_bound_before in F. unfold klt, kcmp in F. cbn in F. apply Nat.compare_lt_iff in F. lia.
    + destruct F as [[= -> _]|F]; auto. unfold msorted, keys in S. rewrite <- A, map_app in S. clear - S F. induction (fst (lower_bound k m)) as [|z t IH]; cbn [map app] in S.
      * destruct S as (S & _). rewrite Forall_forall in S. specialize (S e). cbn in S. enough (klt kx e) as K by (unfold klt, kcmp in K; cbn in K; apply Nat.compare_lt_iff in K; lia). apply S. apply in_map_iff. exists (e, bv). auto.
      * apply IH, S.
Qed.
Theorem range_sound l q v : find_by_subrange q (range_map_of l) = Some v -> exists r, In (r, v) l /\ range_in q r.
Proof.
  unfold find_by_subrange. intros H. destruct (range_map_spec l) as (S & B). set (m := range_map_of l) in *.
  destruct (snd (lower_bound (snd q) m)) as [|[e [b w]] r] eqn:E; [discriminate|]. destruct (lower_first (snd q) m (e, (b, w)) S) as (I & L & _); [now rewrite E|]. cbn [fst] in L.
  destruct (Nat.ltb_spec (fst q) b) as [X|X]; [discriminate|]. injection H as ->. apply msorted_find in I; auto. apply B in I as (l1 & r0 & l2 & -> & Y & Z & _).
  exists (fst r0). injection Z as Z1 Z2. destruct r0 as [r1 v1]. cbn [fst snd] in *. subst. split; [apply in_or_app; right; now left|]. split; auto.
Qed.
Theorem range_complete l q r v : ForallOrdPairs (fun a b => apart (fst a) (fst b)) l -> (forall x, In x l -> nonempty (fst x)) ->
  In (r, v) l -> range_in q r -> fst r < snd q -> find_by_subrange q (range_map_of l) = Some v.
Proof.
  intros D N I (Q1 & Q2) Q3.
  assert (Ap : forall x y, In x l -> In y l -> x = y \/ apart (fst x) (fst y)).
  { clear - D. induction D as [|a l Ha D IH]; [intros x y []|]. rewrite Forall_forall in Ha. intros x y [<-|X] [<-|Y]; auto. right. specialize (Ha x X). unfold apart in *. tauto. }
  assert (Uq : forall x, In x l -> snd (fst x) = snd r -> x = (r, v)).
  { intros x X E. destruct (Ap x (r, v) X I) as [A|A]; auto. exfalso. pose proof (N x X) as N1. pose proof (N _ I) as N2. unfold apart, nonempty in *. cbn [fst snd] in *. lia. }
  unfold find_by_subrange. destruct (range_map_spec l) as (S & B). set (m := range_map_of l) in *.
  assert (F : map_find (snd r) m = Some (fst r, v)).
  { apply B. destruct (in_split _ _ I) as (l1 & l2 & E). clear - I Uq E.
    assert (X : exists l1 x l2, l = l1 ++ x :: l2 /\ snd (fst x) = snd r /\ forall y, In y l1 -> snd (fst y) <> snd r).
    { clear E Uq l1 l2. induction l as [|a l IH]; [destruct I|]. destruct (Nat.eq_dec (snd (fst a)) (snd r)) as [E|E]; [exists [], a, l; auto|].
      destruct I as [->|I]; [cbn in E; congruence|]. destruct (IH I) as (l1 & x & l2 & -> & A & C). exists (a :: l1), x, l2. split; auto. split; auto. intros y [<-|J]; auto. }
    destruct X as (k1 & x & k2 & El & Ex & Fx). exists k1, x, k2. split; auto. split; auto. split; auto. rewrite (Uq x); auto. rewrite El. apply in_or_app. right. now left. }
  destruct (hd_error (snd (lower_bound (snd q) m))) as [x|] eqn:E.
  - destruct (lower_first _ _ _ S E) as (Ix & L & Min). pose proof (Min _ _ F Q2) as L2. destruct x as [e [b w]]. cbn [fst] in *. apply msorted_find in Ix; auto.
    destruct (Nat.eq_dec e (snd r)) as [->|Ne].
    + rewrite F in Ix. injection Ix as <- <-. destruct (snd (lower_bound (snd q) m)) as [|y t]; [discriminate|]. cbn in E. injection E as ->. destruct (Nat.ltb_spec (fst q) (fst r)); [lia|reflexivity].
    + exfalso. apply B in Ix as (l1 & r0 & l2 & El & Y & Z & _). injection Z as Z1 Z2. assert (Ir : In r0 l) by (rewrite El; apply in_or_app; right; now left).
      pose proof (N r0 Ir) as N1. destruct (Ap r0 (r, v) Ir I) as [A|A]; [subst r0; cbn in Y; congruence|]. unfold apart, nonempty in *. cbn [fst snd] in *. lia.
  - exfalso. destruct (snd (lower_bound (snd q) m)) eqn:E'; [|discriminate]. pose proof (lower_bound_app (snd q) m) as A. rewrite E', app_nil_r in A.
    apply map_find_in in F. rewrite <- A in F. apply lower_bound_before in F. unfold klt, kcmp in F. cbn in F. apply Nat.compare_lt_iff in F. lia.
Qed.
Theorem range_new l r v : fst (range_insert r v (range_map_of l)) = true <-> forall x, In x l -> snd (fst x) <> snd r.
Proof.
  unfold range_insert. cbn [fst]. destruct (range_map_spec l) as (S & B). set (m := range_map_of l) in *. destruct (map_find (snd r) m) as [bv|] eqn:E.
  - split; [discriminate|]. intros H. apply B in E as (l1 & r0 & l2 & -> & Y & _). destruct (H r0); auto. apply in_or_app. right. now left.
  - split; auto. intros _ x Ix Ex. assert (X : exists l1 x l2, l = l1 ++ x :: l2 /\ snd (fst x) = snd r /\ forall y, In y l1 -> snd (fst y) <> snd r).
    { clear - Ix Ex. induction l as [|a l IH]; [destruct Ix|]. destruct (Nat.eq_dec (snd (fst a)) (snd r)) as [E|E]; [exists [], a, l; auto|].
      destruct Ix as [->|Ix]; [cbn in E; congruence|]. destruct (IH Ix) as (l1 & y & l2 & -> & A & C). exists (a :: l1), y, l2. split; auto. split; auto. intros z [<-|J]; auto. }
    destruct X as (k1 & y & k2 & El & Ey & Fy). assert (F : map_find (snd r) m = Some (fst (fst y), snd y)) by (apply B; exists k1, y, k2; auto). congruence.
Qed.
End Ranges.
