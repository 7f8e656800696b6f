(** The clang-tidy script: what the names of results depend on, and the report. *)
From Coq Require Import NArith Lia Permutation Sorted.
From Verif Require Import Base OMap M_Printer M_Workspace M_Tidy S_Commands P_Commands S_Tidy P_Tidy.

(** * Files *)
Definition header_extensions : list str := [$".h"; $".hpp"; $".hxx"; $".inl"].
Lemma existsb_str e l : existsb (str_eqb e) l = true <-> In e l.
Proof. rewrite existsb_exists. split; [intros (x & I & E); apply str_eqb_eq in E; now subst|]. intros I. exists e. split; [exact I|apply str_eqb_refl]. Qed.
Lemma extension_in path l : ~ In [] l -> (existsb (str_eqb (extension path)) l = true <-> exists e, In e l /\ extension_of path e).
Proof.
  intros N. rewrite existsb_str. split.
  - intros I. exists (extension path). split; [exact I|]. apply extension_spec; [intros E; now rewrite E in I|reflexivity].
  - intros (e & I & X). apply extension_spec in X; [now rewrite X|]. intros ->. contradiction.
Qed.
Lemma include_extension path : is_include_extension (extension path) = true <-> exists e, In e [$".h"; $".hpp"; $".hxx"; $".inl"] /\ extension_of path e.
Proof. apply extension_in. cbn. intuition discriminate. Qed.
Lemma considered path : consider_extension (extension path) = true <->
  exists e, In e [$".cc"; $".cpp"; $".cxx"; $".h"; $".hpp"; $".hxx"; $".inl"] /\ extension_of path e.
Proof.
  rewrite <- extension_in by (cbn; intuition discriminate). unfold consider_extension, is_include_extension.
  rewrite <- existsb_app. reflexivity.
Qed.
Lemma eligible_spec x : eligible x = true <-> f_regular x = true /\ forall d r, In d [$".git/"; $".github/"; $"build/"] -> f_path x <> d ++ r.
Proof.
  unfold eligible. rewrite andb_true_iff, negb_true_iff. split; intros [R H]; (split; [exact R|]).
  - intros d r I E. assert (X : existsb (fun d => starts_with d (f_path x)) [$".git/"; $".github/"; $"build/"] = true); [|rewrite X in H; discriminate].
    apply existsb_exists. exists d. split; [exact I|]. rewrite E. apply starts_with_app.
  - destruct (existsb _ _) eqn:E; [|reflexivity]. apply existsb_exists in E as (d & I & S). apply starts_with_iff in S as [r S]. now elim (H d r I).
Qed.
Lemma of_interest_spec t x : In x (of_interest t) <-> In x t /\ f_regular x = true /\ (forall d r, In d [$".git/"; $".github/"; $"build/"] -> f_path x <> d ++ r) /\
  exists e, In e [$".cc"; $".cpp"; $".cxx"; $".h"; $".hpp"; $".hxx"; $".inl"] /\ extension_of (f_path x) e.
Proof. unfold of_interest. rewrite filter_In, andb_true_iff, eligible_spec, considered. tauto. Qed.

(** * Hashes *)
Section Hash.
Variable hash : str -> N.
Hypothesis small : forall s, (hash s < 2 ^ 64)%N.

Definition is_header (x : found) : bool := eligible x && is_include_extension (extension (f_path x)).
Definition own (base : str) (x : found) : N := if is_header x && str_eqb (fs_filename (f_path x)) base then hash (content_of x) else 0%N.
Definition hx (base : str) (t : tree) : N := fold_right (fun x h => N.lxor (own base x) h) 0%N t.
Lemma hx_app base a b : hx base (a ++ b) = N.lxor (hx base a) (hx base b).
Proof. induction a as [|x a IH]; [reflexivity|]. cbn [app hx fold_right]. fold (hx base (a ++ b)). rewrite IH, <- N.lxor_assoc. reflexivity. Qed.

Definition get (base : str) (m : list (str * N)) : N := match map_find base m with Some v => v | None => 0%N end.
Lemma add_header_get base m x : msorted m -> msorted (add_header hash m x) /\ get base (add_header hash m x) = N.lxor (get base m) (own base x).
Proof.
  intros S. unfold add_header, own, get. fold (is_header x). destruct (is_header x); cbn [andb].
  - split; [now apply map_update_sorted|]. rewrite map_update_find by exact S. destruct (str_eqb_spec (fs_filename (f_path x)) base) as [->|N].
    + rewrite keqb_refl. reflexivity.
    + destruct (keqb_spec base (fs_filename (f_path x))) as [E|_]; [congruence|]. now rewrite N.lxor_0_r.
  - split; [exact S|]. now rewrite N.lxor_0_r.
Qed.
Lemma headers_get base t : get base (header_hashes hash t) = hx base t.
Proof.
  unfold header_hashes. assert (X : forall t m, msorted m -> get base (fold_left (add_header hash) t m) = N.lxor (get base m) (hx base t)).
  { clear t. induction t as [|x t IH]; intros m S; cbn; [now rewrite N.lxor_0_r|]. destruct (add_header_get base m x S) as [S' E]. rewrite IH by exact S'. now rewrite E, N.lxor_assoc. }
  rewrite X by exact I. unfold get. cbn. apply N.lxor_0_l.
Qed.
Definition ix (t : tree) (l : list str) : N := fold_right (fun h a => N.lxor (hx (fs_filename h) t) a) 0%N l.
Lemma file_hash_ix t c : file_hash hash (header_hashes hash t) c = N.lxor (hash c) (ix t (included c)).
Proof.
  unfold file_hash. generalize (hash c). induction (included c) as [|h l IH]; intros v; cbn; [now rewrite N.lxor_0_r|]. rewrite IH, <- N.lxor_assoc. f_equal.
  unfold add_include_hash. rewrite <- headers_get. unfold get. destruct (map_find (fs_filename h) (header_hashes hash t)); [reflexivity|now rewrite N.lxor_0_r].
Qed.
Lemma lxor_small a b : (a < 2 ^ 64)%N -> (b < 2 ^ 64)%N -> (N.lxor a b < 2 ^ 64)%N.
Proof.
  intros A B. destruct (N.eq_dec (N.lxor a b) 0) as [->|Z]; [reflexivity|]. apply N.log2_lt_pow2; [lia|].
  eapply N.le_lt_trans; [apply N.log2_lxor|]. apply N.max_lub_lt.
  - destruct (N.eq_dec a 0) as [->|]; [reflexivity|]. apply N.log2_lt_pow2; lia.
  - destruct (N.eq_dec b 0) as [->|]; [reflexivity|]. apply N.log2_lt_pow2; lia.
Qed.
Lemma own_small base x : (own base x < 2 ^ 64)%N.
Proof. unfold own. destruct (_ && _); [apply small|reflexivity]. Qed.
Lemma hx_small base t : (hx base t < 2 ^ 64)%N.
Proof. induction t as [|x t IH]; [reflexivity|]. cbn [hx fold_right]. apply lxor_small; [apply own_small|exact IH]. Qed.
Lemma file_hash_small t c : (file_hash hash (header_hashes hash t) c < 2 ^ 64)%N.
Proof.
  rewrite file_hash_ix. apply lxor_small; [apply small|]. induction (included c) as [|h l IH]; [reflexivity|]. cbn [ix fold_right]. apply lxor_small; [apply hx_small|exact IH].
Qed.
Lemma name_same t x t' x' : result_name (item_of hash t x) = result_name (item_of hash t' x') <->
  fs_filename (f_path x) = fs_filename (f_path x') /\
  N.lxor (hash (content_of x)) (ix t (included (content_of x))) = N.lxor (hash (content_of x')) (ix t' (included (content_of x'))).
Proof. rewrite result_name_same by apply file_hash_small. unfold item_of. cbn [fst snd]. now rewrite !file_hash_ix. Qed.
Lemma name_is t x : named_result (item_of hash t x) (result_name (item_of hash t x)).
Proof. apply result_named, file_hash_small. Qed.

(** A file is replaced. *)
Lemma split_mid c a b : split c (a ++ c :: b) = split c a ++ split c b.
Proof.
  induction a as [|x a IH]; cbn [app split]; [now rewrite ceqb_refl|]. rewrite IH. destruct (ceqb x c); [reflexivity|].
  assert (N := split_not_nil c a). destruct (split c a); [congruence|reflexivity].
Qed.
Lemma filename_last h : fs_filename h = last (split "/" h) [].
Proof.
  destruct (proj2 (base_of_filename h _) eq_refl) as [N [E|[d E]]]; set (n := fs_filename h) in *.
  - now rewrite E, split_notin by exact N.
  - rewrite E, split_mid, (split_notin "/" n N). now rewrite last_last.
Qed.

Lemma lxor_cancel a d : N.lxor a d = a <-> d = 0%N.
Proof.
  split; [|intros ->; apply N.lxor_0_r]. intros E. apply (f_equal (N.lxor a)) in E. rewrite <- N.lxor_assoc, N.lxor_nilpotent, N.lxor_0_l in E. exact E.
Qed.
Section Replaced.
Variable a b : tree.
Variable path c c' : str.
Notation h := (mkFound path true (Some c)).
Notation h' := (mkFound path true (Some c')).
Notation t := (a ++ h :: b).
Notation t' := (a ++ h' :: b).
Notation d := (N.lxor (hash c) (hash c')).
Lemma replaced_hx n : hx n t' = N.lxor (hx n t) (if is_header h && str_eqb (fs_filename path) n then d else 0%N).
Proof.
  rewrite !hx_app. cbn [hx fold_right]. fold (hx n b). unfold own. change (is_header h') with (is_header h). cbn [f_path content_of f_content].
  rewrite !N.lxor_assoc. f_equal. destruct (is_header h && str_eqb (fs_filename path) n); [|now rewrite N.lxor_0_r].
  rewrite (N.lxor_comm (hx n b) d), <- N.lxor_assoc. f_equal. now rewrite <- N.lxor_assoc, N.lxor_nilpotent, N.lxor_0_l.
Qed.
Lemma replaced_ix l : ix t' l = N.lxor (ix t l) (if is_header h && Nat.odd (mentions (fs_filename path) l) then d else 0%N).
Proof.
  induction l as [|x l IH]; [cbn; now rewrite andb_false_r|]. cbn [ix fold_right]. fold (ix t l) (ix t' l). rewrite IH, replaced_hx.
  unfold mentions. cbn [filter]. rewrite <- filename_last. fold (mentions (fs_filename path) l).
  assert (S : str_eqb (fs_filename x) (fs_filename path) = str_eqb (fs_filename path) (fs_filename x)).
  { destruct (str_eqb_spec (fs_filename x) (fs_filename path)), (str_eqb_spec (fs_filename path) (fs_filename x)); congruence. }
  rewrite S. rewrite !N.lxor_assoc. f_equal. rewrite <- N.lxor_assoc, (N.lxor_comm _ (ix t l)), N.lxor_assoc. f_equal.
  destruct (is_header h); cbn [andb]; [|reflexivity]. destruct (str_eqb (fs_filename path) (fs_filename x)); cbn [length].
  - rewrite Nat.odd_succ, <- Nat.negb_odd. fold (mentions (fs_filename path) l). destruct (Nat.odd (mentions (fs_filename path) l)); cbn [negb]; [now rewrite N.lxor_nilpotent|now rewrite N.lxor_0_r].
  - apply N.lxor_0_l.
Qed.
Lemma differ : d = 0%N <-> hash c = hash c'.
Proof. split; [apply N.lxor_eq|intros ->; apply N.lxor_nilpotent]. Qed.
Lemma replaced_other x : result_name (item_of hash t x) = result_name (item_of hash t' x) <->
  is_header h && Nat.odd (mentions (fs_filename path) (included (content_of x))) = false \/ hash c = hash c'.
Proof.
  rewrite name_same, replaced_ix, <- N.lxor_assoc. split.
  - intros [_ E]. symmetry in E. apply lxor_cancel in E. destruct (is_header h && _); [right; now apply differ|now left].
  - intros H. split; [reflexivity|]. symmetry. apply lxor_cancel. destruct H as [->|H]; [reflexivity|]. apply differ in H. now destruct (is_header h && _).
Qed.
Lemma replaced_own : included c = included c' ->
  (result_name (item_of hash t h) = result_name (item_of hash t' h') <->
   is_header h && Nat.odd (mentions (fs_filename path) (included c)) = true \/ hash c = hash c').
Proof.
  intros I. rewrite name_same. cbn [content_of f_content f_path]. rewrite <- I, replaced_ix. set (X := ix t (included c)).
  assert (E : N.lxor (hash c') (N.lxor X (if is_header h && Nat.odd (mentions (fs_filename path) (included c)) then d else 0%N)) =
              N.lxor (N.lxor (hash c) X) (if is_header h && Nat.odd (mentions (fs_filename path) (included c)) then 0%N else d)).
  { destruct (is_header h && _).
    - rewrite N.lxor_0_r, (N.lxor_comm X), (N.lxor_comm (hash c)), <- !N.lxor_assoc, N.lxor_nilpotent, N.lxor_0_l. reflexivity.
    - rewrite N.lxor_0_r, (N.lxor_comm (hash c) X), N.lxor_assoc, <- (N.lxor_assoc (hash c)), N.lxor_nilpotent, N.lxor_0_l. apply N.lxor_comm. }
  rewrite E. split.
  - intros [_ F]. symmetry in F. apply lxor_cancel in F. destruct (is_header h && _); [now left|right; now apply differ].
  - intros H. split; [reflexivity|]. symmetry. apply lxor_cancel. destruct H as [->|H]; [reflexivity|]. apply differ in H. now destruct (is_header h && _).
Qed.
End Replaced.
End Hash.

(** * The report *)
Definition get_nat (c : str) (m : list (str * nat)) : nat := match map_find c m with Some n => n | None => 0 end.
Lemma tally_find c l : forall m, msorted m -> msorted (fold_left tally l m) /\
  (forall n, map_find c (fold_left tally l m) = Some n <-> 0 < count_occ str_dec l c /\ n = count_occ str_dec l c + get_nat c m \/ count_occ str_dec l c = 0 /\ map_find c m = Some n).
Proof.
  induction l as [|x l IH]; intros m S; cbn [fold_left count_occ].
  - split; [exact S|]. intros n. split; [intros E; right; now split|]. intros [[E _]|[_ E]]; [lia|exact E].
  - assert (S' : msorted (tally m x)) by now apply map_update_sorted. destruct (IH _ S') as [S2 H]. split; [exact S2|]. intros n. rewrite H. unfold get_nat, tally.
    rewrite map_update_find by exact S. destruct (str_dec x c) as [->|N].
    + rewrite keqb_refl. destruct (map_find c m) as [w|]; split.
      * intros [[_ ->]|[-> [= <-]]]; left; split; lia.
      * intros [[_ ->]|[E _]]; [|lia]. destruct (count_occ str_dec l c) eqn:C; [right; split; [reflexivity|f_equal; lia]|left; split; lia].
      * intros [[_ ->]|[-> [= <-]]]; left; split; lia.
      * intros [[_ ->]|[E _]]; [|lia]. destruct (count_occ str_dec l c) eqn:C; [right; split; [reflexivity|f_equal; lia]|left; split; lia].
    + destruct (keqb_spec c x) as [E|_]; [congruence|]. reflexivity.
Qed.
Lemma seen_find s files c n : map_find c (checks_seen s files) = Some n <->
  0 < n /\ n = count_occ str_dec (flat_map (fun w => checks_in (get_content_for s w)) files) c.
Proof.
  unfold checks_seen. destruct (tally_find c (flat_map (fun w => checks_in (get_content_for s w)) files) [] I) as [_ H]. rewrite H. unfold get_nat. cbn [map_find].
  rewrite Nat.add_0_r. split; [intros [[E ->]|[_ E]]; [now split|discriminate]|]. intros [E ->]. left. now split.
Qed.
Lemma seen_sorted s files : msorted (checks_seen s files).
Proof. now apply (tally_find []). Qed.

(** The order. *)
Lemma insert_perm e l : Permutation (insert_by_count e l) (e :: l).
Proof. induction l as [|x l IH]; [reflexivity|]. cbn [insert_by_count]. destruct (snd e <? snd x); [|reflexivity]. rewrite IH. apply perm_swap. Qed.
Lemma by_count_perm l : Permutation (by_count l) l.
Proof. induction l as [|x l IH]; cbn; [reflexivity|]. rewrite insert_perm. now apply perm_skip. Qed.
Lemma insert_sorted e l : StronglySorted in_order l -> (forall x, In x l -> klt (fst e) (fst x)) -> StronglySorted in_order (insert_by_count e l).
Proof.
  induction l as [|x l IH]; intros S K; [repeat constructor|]. cbn [insert_by_count]. apply StronglySorted_inv in S as [S F]. destruct (Nat.ltb_spec (snd e) (snd x)) as [L|L].
  - constructor; [apply IH; [exact S|]; intros y I; apply K; now right|]. apply (proj2 (Forall_forall _ _)). intros y I. apply (Permutation_in _ (insert_perm e l)) in I as [<-|I]; [now left|].
    rewrite Forall_forall in F. now apply F.
  - constructor; [constructor; [exact S|exact F]|]. assert (X : in_order e x).
    { unfold in_order. destruct (Nat.eq_dec (snd e) (snd x)) as [E|]; [right; split; [exact E|apply K; now left]|left; lia]. }
    constructor; [exact X|]. rewrite Forall_forall in F |- *. intros y I. unfold in_order in *. specialize (F y I). specialize (K y (or_intror I)).
    destruct X as [X|[X1 X2]], F as [F|[F1 F2]]; [left; lia|left; lia|left; lia|right; split; [lia|exact K]].
Qed.
Lemma by_count_sorted l : msorted l -> StronglySorted in_order (by_count l).
Proof.
  induction l as [|[k n] l IH]; intros S; [constructor|]. cbn [by_count fold_right]. destruct S as [F S]. apply insert_sorted; [now apply IH|].
  intros x I. apply (Permutation_in _ (by_count_perm l)) in I. rewrite Forall_forall in F. apply F. now apply in_map.
Qed.
Lemma sorted_same l : forall l', StronglySorted in_order l -> StronglySorted in_order l' -> (forall x, In x l <-> In x l') -> l = l'.
Proof.
  assert (A : forall x y : str * nat, in_order x y -> in_order y x -> False).
  { intros x y [H|[H1 H2]] [K|[K1 K2]]; try lia. apply (klt_irrefl (fst x)). eapply klt_trans; eauto. }
  induction l as [|x l IH]; intros [|y l'] S S' H.
  - reflexivity.
  - exfalso. apply (H y). now left.
  - exfalso. apply (H x). now left.
  - apply StronglySorted_inv in S as [S F]. apply StronglySorted_inv in S' as [S' F']. rewrite Forall_forall in F, F'.
    assert (x = y) as ->.
    { destruct (proj1 (H x) (or_introl eq_refl)) as [E|I]; [congruence|]. destruct (proj2 (H y) (or_introl eq_refl)) as [E|I']; [exact E|].
      exfalso. apply (A x y); auto. }
    f_equal. apply IH; auto. intros z. split; intros I.
    + destruct (proj1 (H z) (or_intror I)) as [<-|I']; [|exact I']. exfalso. apply (A y y); auto.
    + destruct (proj2 (H z) (or_intror I)) as [<-|I']; [|exact I']. exfalso. apply (A y y); auto.
Qed.

Definition texts_of (s : store) (files : list item) : list str := map (get_content_for s) files.
Lemma count_texts s files c : check_text (c ++ [NL]) c ->
  count_occ str_dec (flat_map (fun w => checks_in (get_content_for s w)) files) c = list_sum (map (occurrences (c ++ [NL])) (texts_of s files)).
Proof.
  intros H. unfold texts_of. induction files as [|w files IH]; [reflexivity|]. cbn [flat_map map list_sum fold_right]. rewrite count_occ_app, IH, checks_occur by exact H. reflexivity.
Qed.
Lemma by_count_in s files c n : In (c, n) (by_count (checks_seen s files)) <->
  check_text (c ++ [NL]) c /\ 0 < n /\ n = list_sum (map (occurrences (c ++ [NL])) (texts_of s files)).
Proof.
  assert (P := by_count_perm (checks_seen s files)).
  assert (Q : In (c, n) (by_count (checks_seen s files)) <-> map_find c (checks_seen s files) = Some n).
  { split; intros H; [apply msorted_find; [apply seen_sorted|]; now apply (Permutation_in _ P)|]. apply (Permutation_in _ (Permutation_sym P)). now apply map_find_in. }
  rewrite Q, seen_find. split.
  - intros [L E]. assert (C : check_text (c ++ [NL]) c).
    { rewrite E in L. apply count_occ_In in L. apply in_flat_map in L as (w & _ & I). eapply checks_are; eauto. }
    split; [exact C|]. split; [exact L|]. now rewrite <- count_texts.
  - intros (C & L & E). split; [exact L|]. now rewrite count_texts.
Qed.
Lemma summary_told e : (Z.of_nat (snd e) <= 2147483647)%Z -> told_line (fst e) (snd e) (summary_line e).
Proof.
  intros L. unfold told_line, summary_line. eexists _, _. split; [reflexivity|]. split; [now apply print_decimal|]. split; [|apply repeat_length].
  apply Forall_forall. intros c I. symmetry. now apply repeat_spec in I.
Qed.
Lemma details_told s files : details s files = told_details (combine (map fst files) (texts_of s files)).
Proof.
  unfold details, told_details, texts_of. induction files as [|w files IH]; [reflexivity|]. cbn [flat_map map combine fst snd]. rewrite IH. f_equal.
  destruct (get_content_for s w); reflexivity.
Qed.
Lemma success_iff s files : r_success (create_report s files) = true <-> by_count (checks_seen s files) = [].
Proof.
  cbn. rewrite is_nil_true. assert (P := by_count_perm (checks_seen s files)). split; intros E; rewrite E in *; [reflexivity|]. now apply Permutation_nil in P.
Qed.
