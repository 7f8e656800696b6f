(** Byte strings and the string primitives the C++ code uses.

    A [std::string] / [std::string_view] is a [list ascii]; one [ascii] is one
    byte.  The functions below model the members of [std::string_view] and the
    [absl] string helpers that /repo/bant calls (they are not defined in /repo;
    their documented behaviour is transcribed here). *)
From Coq Require Export String Ascii Arith Lia Bool NArith ZArith List.
Export ListNotations.

Definition str := list ascii.

(** String literals: [$ "abc"] is the byte list of "abc". *)
Notation "$ s" := (list_ascii_of_string s%string) (at level 1, format "$ s").

Definition ch (n : nat) : ascii := ascii_of_nat n.
Definition NL : ascii := "010"%char.
Definition DQ : ascii := """"%char.
Definition SQ : ascii := "'"%char.
Definition BSL : ascii := "\"%char.

Definition ceqb (a b : ascii) : bool := Ascii.eqb a b.
#[global] Arguments ceqb !_ !_.
Lemma ceqb_eq a b : ceqb a b = true <-> a = b.
Proof. apply Ascii.eqb_eq. Qed.
Lemma ceqb_neq a b : ceqb a b = false <-> a <> b.
Proof. apply Ascii.eqb_neq. Qed.
Lemma ceqb_refl a : ceqb a a = true.
Proof. apply Ascii.eqb_refl. Qed.
Lemma ceqb_spec a b : reflect (a = b) (ceqb a b).
Proof. apply Ascii.eqb_spec. Qed.

(** Unsigned value of a byte. *)
Definition code (c : ascii) : N := N_of_ascii c.

Definition in_range (lo hi : ascii) (c : ascii) : bool :=
  (code lo <=? code c)%N && (code c <=? code hi)%N.

(** isspace() in the C locale. *)
Definition is_space (c : ascii) : bool :=
  ceqb c " " || in_range "009" "013" c.
(** isdigit() / isalpha() / isalnum() / isxdigit() in the C locale. *)
Definition is_digit (c : ascii) : bool := in_range "0" "9" c.
Definition is_lower (c : ascii) : bool := in_range "a" "z" c.
Definition is_upper (c : ascii) : bool := in_range "A" "Z" c.
Definition is_alpha (c : ascii) : bool := is_lower c || is_upper c.
Definition is_alnum (c : ascii) : bool := is_alpha c || is_digit c.
Definition is_xdigit (c : ascii) : bool :=
  is_digit c || in_range "a" "f" c || in_range "A" "F" c.

(** operator== on strings *)
Fixpoint str_eqb (a b : str) : bool :=
  match a, b with
  | [], [] => true
  | x :: a', y :: b' => ceqb x y && str_eqb a' b'
  | _, _ => false
  end.

Lemma str_eqb_eq a b : str_eqb a b = true <-> a = b.
Proof.
  revert b; induction a as [|x a IH]; intros [|y b]; simpl; split; intro H;
    try discriminate; try reflexivity.
  - apply andb_true_iff in H as [H1 H2]. apply ceqb_eq in H1. apply IH in H2.
    congruence.
  - inversion H; subst. rewrite ceqb_refl. apply IH. reflexivity.
Qed.
Lemma str_eqb_refl a : str_eqb a a = true.
Proof. apply str_eqb_eq; reflexivity. Qed.
Lemma str_eqb_neq a b : str_eqb a b = false <-> a <> b.
Proof.
  split; intro H.
  - intros ->. rewrite str_eqb_refl in H. discriminate.
  - destruct (str_eqb a b) eqn:E; auto. apply str_eqb_eq in E. contradiction.
Qed.
Lemma str_eqb_spec a b : reflect (a = b) (str_eqb a b).
Proof.
  destruct (str_eqb a b) eqn:E; constructor;
    [apply str_eqb_eq | apply str_eqb_neq]; auto.
Qed.

Definition str_dec (a b : str) : {a = b} + {a <> b} := list_eq_dec ascii_dec a b.

(** empty() *)
Definition is_nil {A} (l : list A) : bool :=
  match l with [] => true | _ => false end.

Lemma is_nil_true {A} (l : list A) : is_nil l = true <-> l = [].
Proof. destruct l; simpl; split; congruence. Qed.
Lemma is_nil_false {A} (l : list A) : is_nil l = false <-> l <> [].
Proof. destruct l; simpl; split; congruence. Qed.

(** starts_with / ends_with *)
Fixpoint starts_with (p s : str) : bool :=
  match p, s with
  | [], _ => true
  | _, [] => false
  | x :: p', y :: s' => ceqb x y && starts_with p' s'
  end.

Lemma starts_with_iff p s : starts_with p s = true <-> exists r, s = p ++ r.
Proof.
  revert s; induction p as [|x p IH]; intros s; simpl.
  - split; eauto.
  - destruct s as [|y s].
    + split; [discriminate | intros [r H]; discriminate].
    + rewrite andb_true_iff, ceqb_eq, IH. split.
      * intros [-> [r ->]]. eauto.
      * intros [r H]. inversion H; subst. eauto.
Qed.

Lemma starts_with_app p r : starts_with p (p ++ r) = true.
Proof. apply starts_with_iff; eauto. Qed.

Lemma starts_with_skipn p s :
  starts_with p s = true -> s = p ++ skipn (length p) s.
Proof.
  intros H. apply starts_with_iff in H as [r ->].
  rewrite skipn_app, skipn_all, Nat.sub_diag. reflexivity.
Qed.

Definition ends_with (suf s : str) : bool := starts_with (rev suf) (rev s).

Lemma ends_with_iff suf s : ends_with suf s = true <-> exists r, s = r ++ suf.
Proof.
  unfold ends_with. rewrite starts_with_iff. split; intros [r H].
  - exists (rev r). rewrite <- (rev_involutive s), H, rev_app_distr, rev_involutive.
    reflexivity.
  - exists (rev r). subst s. apply rev_app_distr.
Qed.

(** find_first_of(c) for a single character: [None] is npos. *)
Fixpoint find_first (c : ascii) (s : str) : option nat :=
  match s with
  | [] => None
  | x :: s' => if ceqb x c then Some 0 else option_map S (find_first c s')
  end.

Lemma find_first_none c s : find_first c s = None <-> ~ In c s.
Proof.
  induction s as [|x s IH]; simpl; [tauto|].
  destruct (ceqb_spec x c) as [->|N].
  - split; [discriminate | intros H; exfalso; auto].
  - destruct (find_first c s) as [i|] eqn:E; simpl.
    + split; [discriminate|]. intros H. exfalso. apply H. right.
      destruct (in_dec ascii_dec c s) as [I|I]; auto. apply IH in I. discriminate.
    + split; auto. intros _ [H|H]; [congruence|]. apply IH in H; auto.
Qed.

Lemma find_first_some c s i :
  find_first c s = Some i <->
  s = firstn i s ++ c :: skipn (S i) s /\ ~ In c (firstn i s).
Proof.
  revert i; induction s as [|x s IH]; intros i; simpl.
  - split; [discriminate|]. intros [H _]. destruct i; discriminate.
  - destruct (ceqb_spec x c) as [->|N].
    + split.
      * intros [= <-]. simpl. auto.
      * intros [H1 H2]. destruct i as [|i]; auto. exfalso. apply H2. simpl. auto.
    + split.
      * destruct (find_first c s) as [j|] eqn:E; simpl; [|discriminate].
        intros [= <-]. simpl. destruct (proj1 (IH j) eq_refl) as [H1 H2].
        split; [f_equal; exact H1|]. intros [H|H]; auto.
      * destruct i as [|i]; simpl; intros [H1 H2].
        { inversion H1. contradiction. }
        injection H1 as H3.
        assert (F : find_first c s = Some i) by (apply IH; auto).
        rewrite F. reflexivity.
Qed.

Lemma find_first_app c a b :
  ~ In c a -> find_first c (a ++ c :: b) = Some (length a).
Proof.
  induction a as [|x a IH]; simpl; intros H.
  - rewrite ceqb_refl. reflexivity.
  - destruct (ceqb_spec x c) as [->|N]; [exfalso; auto|].
    rewrite IH; auto.
Qed.

Lemma find_first_lt c s i : find_first c s = Some i -> i < length s.
Proof.
  revert i; induction s as [|x s IH]; simpl; intros i H; [discriminate|].
  destruct (ceqb x c); [inversion H; lia|].
  destruct (find_first c s) as [j|]; simpl in H; inversion H; subst.
  specialize (IH j eq_refl). lia.
Qed.

(** find_last_of(c) *)
Fixpoint find_last (c : ascii) (s : str) : option nat :=
  match s with
  | [] => None
  | x :: s' =>
      match find_last c s' with
      | Some i => Some (S i)
      | None => if ceqb x c then Some 0 else None
      end
  end.

Lemma find_last_none c s : find_last c s = None <-> ~ In c s.
Proof.
  induction s as [|x s IH]; simpl; [tauto|].
  destruct (find_last c s) as [i|] eqn:E.
  - split; [discriminate|]. intros H. exfalso. apply H. right.
    destruct (in_dec ascii_dec c s) as [I|I]; auto. apply IH in I. discriminate.
  - destruct (ceqb_spec x c) as [->|N].
    + split; [discriminate | intros H; exfalso; auto].
    + split; auto. intros _ [H|H]; [congruence|]. apply IH in H; auto.
Qed.

Lemma find_last_some c s i :
  find_last c s = Some i ->
  s = firstn i s ++ c :: skipn (S i) s /\ ~ In c (skipn (S i) s).
Proof.
  revert i; induction s as [|x s IH]; intros i; simpl; [discriminate|].
  destruct (find_last c s) as [j|] eqn:E.
  - intros [= <-]. specialize (IH j eq_refl) as [H1 H2]. simpl.
    split; [f_equal; exact H1 | exact H2].
  - destruct (ceqb_spec x c) as [->|N]; [|discriminate].
    intros [= <-]. simpl. split; auto. apply find_last_none; auto.
Qed.

Lemma find_last_app c a b :
  ~ In c b -> find_last c (a ++ c :: b) = Some (length a).
Proof.
  intros H. induction a as [|x a IH]; simpl.
  - apply find_last_none in H. rewrite H, ceqb_refl. reflexivity.
  - rewrite IH. reflexivity.
Qed.

(** substr(pos, n) and substr(0, npos-able) *)
Definition substr (s : str) (pos n : nat) : str := firstn n (skipn pos s).
Definition prefix_upto (s : str) (n : option nat) : str :=
  match n with Some i => firstn i s | None => s end.

(** absl::StrSplit(s, c) *)
Fixpoint split (c : ascii) (s : str) : list str :=
  match s with
  | [] => [[]]
  | x :: s' =>
      if ceqb x c then [] :: split c s'
      else match split c s' with
           | p :: ps => (x :: p) :: ps
           | [] => [[x]]
           end
  end.

Lemma split_not_nil c s : split c s <> [].
Proof.
  destruct s as [|x s]; simpl; [discriminate|].
  destruct (ceqb x c); [discriminate|]. destruct (split c s); discriminate.
Qed.

Lemma split_notin c s : ~ In c s -> split c s = [s].
Proof.
  induction s as [|x s IH]; simpl; intros H; auto.
  destruct (ceqb_spec x c) as [->|N]; [exfalso; auto|].
  rewrite IH; auto.
Qed.

Lemma split_app c a b :
  ~ In c a -> split c (a ++ c :: b) = a :: split c b.
Proof.
  induction a as [|x a IH]; simpl; intros H.
  - rewrite ceqb_refl. reflexivity.
  - destruct (ceqb_spec x c) as [->|N]; [exfalso; auto|].
    rewrite IH; auto.
Qed.

Lemma split_length_1 c s : length (split c s) = 1 <-> ~ In c s.
Proof.
  split.
  - induction s as [|x s IH]; simpl; auto.
    destruct (ceqb_spec x c) as [->|N]; simpl.
    + pose proof (split_not_nil c s). destruct (split c s); [congruence|].
      simpl. lia.
    + pose proof (split_not_nil c s). destruct (split c s); [congruence|].
      simpl. intros H1 [H2|H2]; [congruence|]. apply IH in H2; auto.
  - intros H. rewrite split_notin; auto.
Qed.

Lemma split_pieces c s p : In p (split c s) -> ~ In c p.
Proof.
  revert p; induction s as [|x s IH]; simpl; intros p.
  - intros [<-|[]]; auto.
  - destruct (ceqb_spec x c) as [->|N].
    + intros [<-|H]; auto.
    + destruct (split c s) as [|q qs] eqn:E.
      * exfalso. apply (split_not_nil c s E).
      * intros [<-|H]; [|apply IH; simpl; auto].
        intros [H|H]; [congruence|]. apply (IH q); simpl; auto.
Qed.

(** absl::StrJoin(parts, sep) with a one character separator. *)
Fixpoint join (c : ascii) (l : list str) : str :=
  match l with
  | [] => []
  | [p] => p
  | p :: ps => p ++ c :: join c ps
  end.

Lemma join_cons2 c p q r : join c (p :: q :: r) = p ++ c :: join c (q :: r).
Proof. reflexivity. Qed.

Lemma join_split c s : join c (split c s) = s.
Proof.
  induction s as [|x s IH]; simpl; auto.
  destruct (ceqb_spec x c) as [->|N].
  - pose proof (split_not_nil c s). destruct (split c s) as [|p ps] eqn:E; [congruence|].
    change (c :: join c (p :: ps) = c :: s). rewrite IH. reflexivity.
  - pose proof (split_not_nil c s). destruct (split c s) as [|p ps] eqn:E; [congruence|].
    destruct ps as [|q qs].
    + simpl in *. congruence.
    + rewrite join_cons2 in *. simpl. f_equal. exact IH.
Qed.

Lemma split_join c l :
  l <> [] -> Forall (fun p => ~ In c p) l -> split c (join c l) = l.
Proof.
  induction l as [|p l IH]; intros H F; [congruence|].
  inversion F; subst. destruct l as [|q l].
  - simpl. apply split_notin; auto.
  - rewrite join_cons2, split_app by auto. f_equal. apply IH; auto. discriminate.
Qed.

Lemma split_two c s a b : split c s = [a; b] -> s = a ++ c :: b.
Proof. intros H. rewrite <- (join_split c s), H. reflexivity. Qed.
Lemma split_one c s a : split c s = [a] -> s = a.
Proof. intros H. rewrite <- (join_split c s), H. reflexivity. Qed.

Lemma split_inj c s t : split c s = split c t -> s = t.
Proof. intros H. rewrite <- (join_split c s), H, join_split. reflexivity. Qed.

(** absl::StrContains(s, needle) *)
Fixpoint contains (needle s : str) : bool :=
  starts_with needle s ||
  match s with [] => false | _ :: s' => contains needle s' end.

Lemma contains_iff n s : contains n s = true <-> exists a b, s = a ++ n ++ b.
Proof.
  induction s as [|x s IH]; simpl.
  - rewrite orb_false_r, starts_with_iff. split.
    + intros [r H]. exists [], r. auto.
    + intros [a [b H]]. exists b. destruct a; [auto|discriminate].
  - rewrite orb_true_iff, starts_with_iff, IH. split.
    + intros [[r H]|[a [b H]]]; [exists [], r; auto | exists (x :: a), b; subst; auto].
    + intros [[|y a] [b H]]; [left; exists b; auto|].
      inversion H; subst. right. eauto.
Qed.

Definition contains_char (c : ascii) (s : str) : bool := existsb (ceqb c) s.
Lemma contains_char_iff c s : contains_char c s = true <-> In c s.
Proof.
  unfold contains_char. rewrite existsb_exists. split.
  - intros [x [H1 H2]]. apply ceqb_eq in H2. subst. auto.
  - intros H. exists c. rewrite ceqb_refl. auto.
Qed.
Lemma contains_char_false c s : contains_char c s = false <-> ~ In c s.
Proof.
  rewrite <- contains_char_iff. destruct (contains_char c s); split; congruence.
Qed.

(** while (s.front() == c) s.remove_prefix(1) *)
Fixpoint strip_front (c : ascii) (s : str) : str :=
  match s with
  | x :: s' => if ceqb x c then strip_front c s' else s
  | [] => []
  end.
(** while (s.back() == c) s.remove_suffix(1) *)
Definition strip_back (c : ascii) (s : str) : str := rev (strip_front c (rev s)).

Lemma strip_front_id c s : (forall r, s <> c :: r) -> strip_front c s = s.
Proof.
  destruct s as [|x s]; simpl; auto. intros H.
  destruct (ceqb_spec x c) as [->|N]; auto. exfalso. apply (H s). reflexivity.
Qed.

Lemma strip_front_nohead c s r : strip_front c s <> c :: r.
Proof.
  induction s as [|x s IH]; simpl; [discriminate|].
  destruct (ceqb_spec x c) as [->|N]; auto. congruence.
Qed.

Lemma strip_front_repeat c s : exists n, s = repeat c n ++ strip_front c s.
Proof.
  induction s as [|x s IH]; simpl; [exists 0; auto|].
  destruct (ceqb_spec x c) as [->|N].
  - destruct IH as [n H]. exists (S n). simpl. congruence.
  - exists 0. reflexivity.
Qed.

Lemma strip_back_id c s : (forall r, s <> r ++ [c]) -> strip_back c s = s.
Proof.
  intros H. unfold strip_back. rewrite strip_front_id; [apply rev_involutive|].
  intros r Hr. apply (H (rev r)). rewrite <- (rev_involutive s), Hr. reflexivity.
Qed.

Lemma strip_back_notail c s r : strip_back c s <> r ++ [c].
Proof.
  unfold strip_back. intros H.
  apply (f_equal (@rev ascii)) in H. rewrite rev_involutive, rev_app_distr in H.
  apply (strip_front_nohead c (rev s) (rev r)). exact H.
Qed.

Lemma repeat_app_swap {A} (x : A) n l : repeat x n ++ x :: l = x :: repeat x n ++ l.
Proof. induction n; simpl; congruence. Qed.

Lemma rev_repeat {A} (x : A) n : rev (repeat x n) = repeat x n.
Proof.
  induction n; simpl; auto. rewrite IHn.
  rewrite <- (app_nil_r (repeat x n)) at 2. rewrite <- repeat_app_swap. reflexivity.
Qed.

Lemma strip_back_repeat c s : exists n, s = strip_back c s ++ repeat c n.
Proof.
  unfold strip_back. destruct (strip_front_repeat c (rev s)) as [n H].
  exists n. rewrite <- (rev_involutive s) at 1. rewrite H at 1.
  rewrite rev_app_distr, rev_repeat. reflexivity.
Qed.

Lemma in_strip_front c s x : In x (strip_front c s) -> In x s.
Proof.
  destruct (strip_front_repeat c s) as [n H]. intros I. rewrite H.
  apply in_or_app; auto.
Qed.
Lemma in_strip_back c s x : In x (strip_back c s) -> In x s.
Proof.
  destruct (strip_back_repeat c s) as [n H]. intros I. rewrite H.
  apply in_or_app; auto.
Qed.

(** count of a character *)
Fixpoint count_char (c : ascii) (s : str) : nat :=
  match s with
  | [] => 0
  | x :: s' => (if ceqb x c then 1 else 0) + count_char c s'
  end.

Lemma count_char_app c a b : count_char c (a ++ b) = count_char c a + count_char c b.
Proof. induction a; simpl; auto. rewrite IHa. lia. Qed.

Lemma count_char_0 c s : count_char c s = 0 <-> ~ In c s.
Proof.
  induction s as [|x s IH]; simpl; [tauto|].
  destruct (ceqb_spec x c) as [->|N]; split; intro H; try lia.
  - exfalso; auto.
  - simpl in H. intros [E|E]; [congruence|]. apply IH in E; auto.
  - simpl. apply IH. auto.
Qed.

(** firstn/skipn helpers *)
Lemma firstn_app_exact {A} (a b : list A) : firstn (length a) (a ++ b) = a.
Proof. rewrite firstn_app, firstn_all, Nat.sub_diag. simpl. apply app_nil_r. Qed.
Lemma skipn_app_exact {A} (a b : list A) : skipn (length a) (a ++ b) = b.
Proof. rewrite skipn_app, skipn_all, Nat.sub_diag. reflexivity. Qed.
Lemma skipn_S_app {A} (a b : list A) x : skipn (S (length a)) (a ++ x :: b) = b.
Proof.
  change (a ++ x :: b) with (a ++ [x] ++ b). rewrite app_assoc.
  replace (S (length a)) with (length (a ++ [x])).
  - apply skipn_app_exact.
  - rewrite app_length. simpl. lia.
Qed.
