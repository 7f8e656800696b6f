(** Ordered containers: [absl::btree_map], [absl::btree_set], [std::set],
    [std::map] are modelled as association lists sorted strictly by key. *)
From Verif Require Import Base.

(** Total orders with decidable comparison ([operator<=>] of the key type). *)
Class OrdKey (K : Type) := {
  kcmp : K -> K -> comparison;
  kcmp_eq : forall a b, kcmp a b = Eq <-> a = b;
  kcmp_opp : forall a b, kcmp b a = CompOpp (kcmp a b);
  kcmp_trans : forall a b c, kcmp a b = Lt -> kcmp b c = Lt -> kcmp a c = Lt
}.

Section KeyFacts.
  Context {K : Type} `{OrdKey K}.
  Definition klt (a b : K) : Prop := kcmp a b = Lt.
  Definition kltb (a b : K) : bool := match kcmp a b with Lt => true | _ => false end.
  Definition keqb (a b : K) : bool := match kcmp a b with Eq => true | _ => false end.
  Lemma kcmp_refl a : kcmp a a = Eq.
  Proof. apply kcmp_eq; reflexivity. Qed.
  Lemma keqb_eq a b : keqb a b = true <-> a = b.
  Proof. unfold keqb. rewrite <- kcmp_eq. destruct (kcmp a b); split; congruence. Qed.
  Lemma keqb_refl a : keqb a a = true.
  Proof. apply keqb_eq; reflexivity. Qed.
  Lemma keqb_neq a b : keqb a b = false <-> a <> b.
  Proof.
    rewrite <- keqb_eq. destruct (keqb a b); split; congruence.
  Qed.
  Lemma keqb_spec a b : reflect (a = b) (keqb a b).
  Proof. destruct (keqb a b) eqn:E; constructor; [apply keqb_eq | apply keqb_neq]; auto. Qed.
  Lemma kltb_lt a b : kltb a b = true <-> klt a b.
  Proof. unfold kltb, klt. destruct (kcmp a b); split; congruence. Qed.
  Lemma klt_irrefl a : ~ klt a a.
  Proof. unfold klt. rewrite kcmp_refl. discriminate. Qed.
  Lemma klt_trans a b c : klt a b -> klt b c -> klt a c.
  Proof. apply kcmp_trans. Qed.
  Lemma kcmp_gt a b : kcmp a b = Gt <-> klt b a.
  Proof. unfold klt. rewrite (kcmp_opp a b). destruct (kcmp a b); simpl; split; congruence. Qed.
  Lemma klt_neq a b : klt a b -> a <> b.
  Proof. intros L ->. apply (klt_irrefl b L). Qed.
  Lemma klt_total a b : klt a b \/ a = b \/ klt b a.
  Proof.
    destruct (kcmp a b) eqn:E.
    - right; left. apply kcmp_eq; auto.
    - left. exact E.
    - right; right. apply kcmp_gt; auto.
  Qed.
  Lemma klt_asym a b : klt a b -> ~ klt b a.
  Proof. intros A B. apply (klt_irrefl a). eapply klt_trans; eauto. Qed.
  Definition key_dec (a b : K) : {a = b} + {a <> b}.
  Proof. destruct (keqb a b) eqn:E; [left; apply keqb_eq | right; apply keqb_neq]; auto. Defined.
End KeyFacts.

(** Instances: bytes, sequences (lexicographic), pairs, numbers. *)
#[export] Program Instance ascii_key : OrdKey ascii := {
  kcmp := fun a b => N.compare (N_of_ascii a) (N_of_ascii b)
}.
Next Obligation.
  rewrite N.compare_eq_iff. split; [|congruence]. intros E.
  rewrite <- (ascii_N_embedding a), <- (ascii_N_embedding b). congruence.
Qed.
Next Obligation. rewrite N.compare_antisym. reflexivity. Qed.
Next Obligation.
  rewrite N.compare_lt_iff in *. eapply N.lt_trans; eauto.
Qed.

#[export] Program Instance nat_key : OrdKey nat := { kcmp := Nat.compare }.
Next Obligation. apply Nat.compare_eq_iff. Qed.
Next Obligation. apply Nat.compare_antisym. Qed.
Next Obligation. rewrite Nat.compare_lt_iff in *. lia. Qed.

Fixpoint lex {A} (cmp : A -> A -> comparison) (a b : list A) : comparison :=
  match a, b with
  | [], [] => Eq
  | [], _ => Lt
  | _, [] => Gt
  | x :: a', y :: b' =>
      match cmp x y with Eq => lex cmp a' b' | c => c end
  end.

#[export] Program Instance list_key {A} `{OrdKey A} : OrdKey (list A) := {
  kcmp := lex kcmp
}.
Next Obligation.
  revert b. induction a as [|x a IH]; intros [|y b]; simpl; split; intro E;
    try discriminate; auto.
  - destruct (kcmp x y) eqn:C; try discriminate. apply kcmp_eq in C.
    apply IH in E. congruence.
  - inversion E; subst. rewrite kcmp_refl. apply IH. reflexivity.
Qed.
Next Obligation.
  revert b. induction a as [|x a IH]; intros [|y b]; simpl; auto.
  rewrite (kcmp_opp x y). destruct (kcmp x y); simpl; auto.
Qed.
Next Obligation.
  revert b c H0 H1. induction a as [|x a IH]; intros [|y b] [|z c]; simpl; intros L1 L2;
    try discriminate; auto.
  destruct (kcmp x y) eqn:C1; try discriminate.
  - apply kcmp_eq in C1. subst. destruct (kcmp y z); auto. eapply IH; eauto.
  - destruct (kcmp y z) eqn:C2; try discriminate.
    + apply kcmp_eq in C2. subst. rewrite C1. auto.
    + rewrite (kcmp_trans _ _ _ C1 C2). auto.
Qed.

Definition pcmp {A B} `{OrdKey A} `{OrdKey B} (p q : A * B) : comparison :=
  match kcmp (fst p) (fst q) with Eq => kcmp (snd p) (snd q) | c => c end.

Section PairKey.
  Context {A B : Type} `{OrdKey A} `{OrdKey B}.
  Lemma pcmp_eq (p q : A * B) : pcmp p q = Eq <-> p = q.
  Proof.
    destruct p as [a b], q as [a' b']. unfold pcmp; simpl.
    destruct (kcmp a a') eqn:C.
    - apply kcmp_eq in C. subst. rewrite kcmp_eq. split; congruence.
    - split; [discriminate|]. intros E. inversion E; subst. rewrite kcmp_refl in C. discriminate.
    - split; [discriminate|]. intros E. inversion E; subst. rewrite kcmp_refl in C. discriminate.
  Qed.
  Lemma pcmp_opp (p q : A * B) : pcmp q p = CompOpp (pcmp p q).
  Proof.
    unfold pcmp. rewrite (kcmp_opp (fst p) (fst q)).
    destruct (kcmp (fst p) (fst q)); simpl; auto. apply kcmp_opp.
  Qed.
  Lemma pcmp_trans (p q r : A * B) : pcmp p q = Lt -> pcmp q r = Lt -> pcmp p r = Lt.
  Proof.
    destruct p as [a b], q as [a' b'], r as [a'' b'']. unfold pcmp; simpl.
    destruct (kcmp a a') eqn:C1; try discriminate.
    - apply kcmp_eq in C1. subst. destruct (kcmp a' a'') eqn:C2; auto.
      apply kcmp_trans.
    - intros _. destruct (kcmp a' a'') eqn:C2; try discriminate.
      + apply kcmp_eq in C2. subst. rewrite C1. auto.
      + rewrite (kcmp_trans _ _ _ C1 C2). auto.
  Qed.
End PairKey.

#[export] Instance pair_key {A B} `{OrdKey A} `{OrdKey B} : OrdKey (A * B) := {
  kcmp := pcmp; kcmp_eq := pcmp_eq; kcmp_opp := pcmp_opp; kcmp_trans := pcmp_trans
}.

(** Keys equal through an injection into an ordered type. *)
Program Definition key_via {A B} `{OrdKey B} (f : A -> B)
  (inj : forall x y, f x = f y -> x = y) : OrdKey A := {|
  kcmp := fun a b => kcmp (f a) (f b)
|}.
Next Obligation. rewrite kcmp_eq. split; [apply inj | congruence]. Qed.
Next Obligation. apply kcmp_opp. Qed.
Next Obligation. eapply kcmp_trans; eauto. Qed.

(** * Sorted sets *)
Section Sets.
  Context {K : Type} `{OrdKey K}.

  Fixpoint ssorted (l : list K) : Prop :=
    match l with
    | [] => True
    | x :: r => Forall (klt x) r /\ ssorted r
    end.

  (** insert(): no effect if present *)
  Fixpoint set_insert (k : K) (l : list K) : list K :=
    match l with
    | [] => [k]
    | x :: r => match kcmp k x with
                | Lt => k :: l
                | Eq => l
                | Gt => x :: set_insert k r
                end
    end.
  (** count() / contains() *)
  Definition set_mem (k : K) (l : list K) : bool := existsb (keqb k) l.
  (** erase(key) *)
  Definition set_erase (k : K) (l : list K) : list K := filter (fun x => negb (keqb k x)) l.
  (** std::set_intersection / set_difference of sorted ranges *)
  Definition set_inter (a b : list K) : list K := filter (fun x => set_mem x b) a.
  Definition set_diff (a b : list K) : list K := filter (fun x => negb (set_mem x b)) a.
  Definition set_of_list (l : list K) : list K := fold_left (fun s k => set_insert k s) l [].

  Lemma set_mem_in k l : set_mem k l = true <-> In k l.
  Proof.
    unfold set_mem. rewrite existsb_exists. split.
    - intros [x [I E]]. apply keqb_eq in E. subst. auto.
    - intros I. exists k. rewrite keqb_refl. auto.
  Qed.
  Lemma set_mem_false k l : set_mem k l = false <-> ~ In k l.
  Proof. rewrite <- set_mem_in. destruct (set_mem k l); split; congruence. Qed.

  Lemma set_insert_in k l x : In x (set_insert k l) <-> x = k \/ In x l.
  Proof.
    induction l as [|y l IH]; simpl; [intuition|].
    destruct (kcmp k y) eqn:C; simpl.
    - apply kcmp_eq in C. subst. intuition.
    - intuition.
    - rewrite IH. intuition.
  Qed.

  Lemma Forall_klt_trans a b l : klt a b -> Forall (klt b) l -> Forall (klt a) l.
  Proof. intros L. apply Forall_impl. intros c. apply klt_trans; auto. Qed.

  Lemma set_insert_sorted k l : ssorted l -> ssorted (set_insert k l).
  Proof.
    induction l as [|y l IH]; simpl; intros S; [repeat constructor|].
    destruct S as [F S]. destruct (kcmp k y) eqn:C; simpl.
    - auto.
    - split; auto. constructor; auto. eapply Forall_klt_trans; eauto.
    - split; auto. apply Forall_forall. intros x I. apply set_insert_in in I as [->|I].
      + apply kcmp_gt; auto.
      + rewrite Forall_forall in F. auto.
  Qed.

  Lemma ssorted_filter f l : ssorted l -> ssorted (filter f l).
  Proof.
    induction l as [|x l IH]; simpl; auto. intros [F S]. destruct (f x); simpl; auto.
    split; auto. rewrite Forall_forall in *. intros y I. apply filter_In in I as [I _]. auto.
  Qed.

  Lemma ssorted_nodup l : ssorted l -> NoDup l.
  Proof.
    induction l as [|x l IH]; intros S; constructor; destruct S as [F S]; auto.
    intros I. rewrite Forall_forall in F. apply (klt_irrefl x). auto.
  Qed.

  Lemma set_inter_in a b x : In x (set_inter a b) <-> In x a /\ In x b.
  Proof. unfold set_inter. rewrite filter_In, set_mem_in. tauto. Qed.
  Lemma set_diff_in a b x : In x (set_diff a b) <-> In x a /\ ~ In x b.
  Proof.
    unfold set_diff. rewrite filter_In, negb_true_iff, set_mem_false. tauto.
  Qed.
  Lemma set_erase_in k l x : In x (set_erase k l) <-> In x l /\ x <> k.
  Proof.
    unfold set_erase. rewrite filter_In, negb_true_iff, keqb_neq.
    intuition congruence.
  Qed.

  Lemma set_of_list_in l x : In x (set_of_list l) <-> In x l.
  Proof.
    unfold set_of_list.
    assert (G : forall s, In x (fold_left (fun s k => set_insert k s) l s) <-> In x s \/ In x l).
    { induction l as [|y l IH]; simpl; intros s; [tauto|].
      rewrite IH, set_insert_in. intuition. }
    rewrite G. simpl. tauto.
  Qed.
  Lemma set_of_list_sorted l : ssorted (set_of_list l).
  Proof.
    unfold set_of_list.
    assert (G : forall s, ssorted s -> ssorted (fold_left (fun s k => set_insert k s) l s)).
    { induction l as [|y l IH]; simpl; intros s S; auto. apply IH. apply set_insert_sorted; auto. }
    apply G. simpl. auto.
  Qed.

  (** Two strictly sorted lists with the same elements are equal. *)
  Lemma ssorted_ext a b :
    ssorted a -> ssorted b -> (forall x, In x a <-> In x b) -> a = b.
  Proof.
    revert b. induction a as [|x a IH]; intros [|y b] Sa Sb E; auto.
    - exfalso. apply (E y). simpl. auto.
    - exfalso. apply (E x). simpl. auto.
    - destruct Sa as [Fa Sa], Sb as [Fb Sb]. rewrite Forall_forall in Fa, Fb.
      assert (x = y).
      { destruct (proj1 (E x)) as [?|I1]; simpl; auto.
        destruct (proj2 (E y)) as [?|I2]; simpl; auto.
        exfalso. apply (klt_asym x y); auto. }
      subst y. f_equal. apply IH; auto. intros z. split; intros I.
      + destruct (proj1 (E z)) as [?|I1]; simpl; auto. subst z.
        exfalso. apply (klt_irrefl x); auto.
      + destruct (proj2 (E z)) as [?|I1]; simpl; auto. subst z.
        exfalso. apply (klt_irrefl x); auto.
  Qed.
End Sets.

(** * Sorted maps *)
Section Maps.
  Context {K V : Type} `{OrdKey K}.

  Definition omap := list (K * V).
  Definition keys (m : list (K * V)) : list K := map fst m.
  Definition msorted (m : list (K * V)) : Prop := ssorted (keys m).

  (** find() *)
  Fixpoint map_find (k : K) (m : list (K * V)) : option V :=
    match m with
    | [] => None
    | (x, v) :: r => if keqb k x then Some v else map_find k r
    end.
  (** insert({k, v}): keeps the old value if the key is present *)
  Fixpoint map_insert (k : K) (v : V) (m : list (K * V)) : list (K * V) :=
    match m with
    | [] => [(k, v)]
    | (x, w) :: r => match kcmp k x with
                     | Lt => (k, v) :: m
                     | Eq => m
                     | Gt => (x, w) :: map_insert k v r
                     end
    end.
  (** m[k] = f(m[k]): modify, starting from [d] if absent *)
  Fixpoint map_update (k : K) (d : V) (f : V -> V) (m : list (K * V)) : list (K * V) :=
    match m with
    | [] => [(k, f d)]
    | (x, w) :: r => match kcmp k x with
                     | Lt => (k, f d) :: m
                     | Eq => (x, f w) :: r
                     | Gt => (x, w) :: map_update k d f r
                     end
    end.
  Definition map_set (k : K) (v : V) (m : list (K * V)) : list (K * V) :=
    map_update k v (fun _ => v) m.
  (** lower_bound(k): splits in the part before the iterator and from it on *)
  Fixpoint lower_bound (k : K) (m : list (K * V)) : list (K * V) * list (K * V) :=
    match m with
    | [] => ([], [])
    | (x, w) :: r =>
        if kltb x k then let (b, a) := lower_bound k r in ((x, w) :: b, a)
        else ([], m)
    end.

  Lemma map_find_in k m v : map_find k m = Some v -> In (k, v) m.
  Proof.
    induction m as [|[x w] m IH]; simpl; [discriminate|].
    destruct (keqb_spec k x) as [->|N]; intros E; [inversion E; auto|auto].
  Qed.
  Lemma map_find_none k m : map_find k m = None <-> ~ In k (keys m).
  Proof.
    induction m as [|[x w] m IH]; simpl; [tauto|].
    destruct (keqb_spec k x) as [->|N].
    - split; [discriminate|intros C; exfalso; auto].
    - rewrite IH. intuition.
  Qed.
  Lemma map_find_some_key k m v : map_find k m = Some v -> In k (keys m).
  Proof. intros E. apply map_find_in in E. unfold keys. apply in_map_iff. exists (k, v). auto. Qed.
  Lemma in_keys k m : In k (keys m) <-> exists v, map_find k m = Some v.
  Proof.
    destruct (map_find k m) eqn:E.
    - split; eauto. intros _. eapply map_find_some_key; eauto.
    - apply map_find_none in E. split; [contradiction|intros [v C]; discriminate].
  Qed.
  Lemma msorted_find k v m : msorted m -> In (k, v) m -> map_find k m = Some v.
  Proof.
    induction m as [|[x w] m IH]; simpl; [tauto|]. intros [F S] I.
    destruct I as [E|I].
    - inversion E; subst. rewrite keqb_refl. reflexivity.
    - destruct (keqb_spec k x) as [->|N]; auto.
      exfalso. rewrite Forall_forall in F. apply (klt_irrefl x). apply F.
      apply in_map_iff. exists (x, v). auto.
  Qed.

  Lemma map_insert_keys k v m x : In x (keys (map_insert k v m)) <-> x = k \/ In x (keys m).
  Proof.
    induction m as [|[y w] m IH]; simpl; [intuition|].
    destruct (kcmp k y) eqn:C; simpl.
    - apply kcmp_eq in C. subst. intuition.
    - intuition.
    - rewrite IH. intuition.
  Qed.
  Lemma map_update_keys k d f m x : In x (keys (map_update k d f m)) <-> x = k \/ In x (keys m).
  Proof.
    induction m as [|[y w] m IH]; simpl; [intuition|].
    destruct (kcmp k y) eqn:C; simpl.
    - apply kcmp_eq in C. subst. intuition.
    - intuition.
    - rewrite IH. intuition.
  Qed.
  Lemma map_insert_sorted k v m : msorted m -> msorted (map_insert k v m).
  Proof.
    unfold msorted. induction m as [|[y w] m IH]; simpl; intros S; [repeat constructor|].
    destruct S as [F S]. destruct (kcmp k y) eqn:C; simpl; auto.
    - split; auto. constructor; auto. eapply Forall_klt_trans; eauto.
    - split; auto. apply Forall_forall. intros x I. apply map_insert_keys in I as [->|I].
      + apply kcmp_gt; auto.
      + rewrite Forall_forall in F. auto.
  Qed.
  Lemma map_update_sorted k d f m : msorted m -> msorted (map_update k d f m).
  Proof.
    unfold msorted. induction m as [|[y w] m IH]; simpl; intros S; [repeat constructor|].
    destruct S as [F S]. destruct (kcmp k y) eqn:C; simpl; auto.
    - split; auto. constructor; auto. eapply Forall_klt_trans; eauto.
    - split; auto. apply Forall_forall. intros x I. apply map_update_keys in I as [->|I].
      + apply kcmp_gt; auto.
      + rewrite Forall_forall in F. auto.
  Qed.

  Lemma map_find_klt k x m : Forall (klt x) (keys m) -> klt k x -> map_find k m = None.
  Proof.
    intros F L. apply map_find_none. intros I. rewrite Forall_forall in F.
    apply (klt_asym k x); auto.
  Qed.

  Lemma map_insert_find k v m x :
    msorted m ->
    map_find x (map_insert k v m) =
      match map_find x m with
      | Some w => Some w
      | None => if keqb x k then Some v else None
      end.
  Proof.
    unfold msorted. induction m as [|[y w] m IH]; simpl; intros S.
    - destruct (keqb x k); reflexivity.
    - destruct S as [F S]. destruct (kcmp k y) eqn:C; simpl.
      + apply kcmp_eq in C. subst y. destruct (keqb_spec x k); auto.
        destruct (map_find x m); reflexivity.
      + destruct (keqb_spec x k) as [e|N].
        * subst x. destruct (keqb_spec k y) as [e|N].
          { subst y. rewrite kcmp_refl in C. discriminate. }
          rewrite (map_find_klt k y m); auto.
        * destruct (keqb x y); auto. destruct (map_find x m); reflexivity.
      + destruct (keqb_spec x y); auto.
  Qed.

  Lemma map_update_find k d f m x :
    msorted m ->
    map_find x (map_update k d f m) =
      if keqb x k then Some (f (match map_find k m with Some w => w | None => d end))
      else map_find x m.
  Proof.
    unfold msorted. induction m as [|[y w] m IH]; simpl; intros S.
    - destruct (keqb x k); reflexivity.
    - destruct S as [F S]. destruct (kcmp k y) eqn:C; simpl.
      + apply kcmp_eq in C. subst y. rewrite keqb_refl. destruct (keqb_spec x k); auto.
      + destruct (keqb_spec x k) as [e|N].
        * subst x. destruct (keqb_spec k y) as [e|N].
          { subst y. rewrite kcmp_refl in C. discriminate. }
          rewrite (map_find_klt k y m); auto.
        * destruct (keqb x y); auto.
      + assert (Nk : keqb k y = false).
        { apply keqb_neq. intros ->. rewrite kcmp_refl in C. discriminate. }
        rewrite Nk. destruct (keqb_spec x y) as [e|N]; auto. subst x.
        destruct (keqb_spec y k) as [e|N]; auto. subst y.
        rewrite keqb_refl in Nk. discriminate.
  Qed.

  Lemma map_set_find k v m x :
    msorted m -> map_find x (map_set k v m) = if keqb x k then Some v else map_find x m.
  Proof. intros S. unfold map_set. rewrite map_update_find; auto. Qed.

  Lemma lower_bound_app k m : fst (lower_bound k m) ++ snd (lower_bound k m) = m.
  Proof.
    induction m as [|[x w] m IH]; simpl; auto.
    destruct (kltb x k); simpl; auto. destruct (lower_bound k m); simpl in *. congruence.
  Qed.
  Lemma lower_bound_before k m x v : In (x, v) (fst (lower_bound k m)) -> klt x k.
  Proof.
    induction m as [|[y w] m IH]; simpl; [tauto|].
    destruct (kltb y k) eqn:E; simpl; [|tauto].
    destruct (lower_bound k m); simpl in *. intros [I|I]; auto.
    inversion I; subst. apply kltb_lt; auto.
  Qed.
  Lemma lower_bound_after k m x v :
    msorted m -> In (x, v) (snd (lower_bound k m)) -> ~ klt x k.
  Proof.
    unfold msorted. induction m as [|[y w] m IH]; simpl; [tauto|]. intros [F S].
    destruct (kltb y k) eqn:E; simpl.
    - destruct (lower_bound k m); simpl in *. auto.
    - assert (Ny : ~ klt y k) by (rewrite <- kltb_lt; congruence).
      intros [I|I].
      + inversion I; subst. auto.
      + intros L. apply Ny. apply klt_trans with x; auto.
        rewrite Forall_forall in F. apply F. apply in_map_iff. exists (x, v). auto.
  Qed.
End Maps.

Arguments omap : clear implicits.
