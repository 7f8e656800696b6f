(** Proofs about the file with the names to look at. *)
From Coq Require Import Permutation Lia NArith.
From Verif Require Import Base M_Pool S_Pool.

Lemma getlines_app l s cur : ~ In NL l -> getlines (l ++ NL :: s) cur = (cur ++ l) :: getlines s [].
Proof.
  revert cur. induction l as [|c l IH]; intros cur N; cbn [app getlines].
  - rewrite ceqb_refl, app_nil_r. reflexivity.
  - assert (ceqb c NL = false) as -> by (apply ceqb_neq; intros ->; apply N; left; reflexivity). rewrite IH; [now rewrite <- app_assoc|].
    intros I. apply N. now right.
Qed.
Lemma getlines_last l cur : ~ In NL l -> getlines l cur = if is_nil (cur ++ l) then [] else [cur ++ l].
Proof.
  revert cur. induction l as [|c l IH]; intros cur N; cbn [getlines]; [now rewrite app_nil_r|].
  assert (ceqb c NL = false) as -> by (apply ceqb_neq; intros ->; apply N; left; reflexivity). rewrite IH; [now rewrite <- app_assoc|].
  intros I. apply N. now right.
Qed.
Theorem getlines_spec s ls : lines_of s ls -> getlines s [] = ls.
Proof.
  induction 1 as [|l E N|l s ls N H IH]; [reflexivity| |].
  - rewrite getlines_last by auto. destruct l; [congruence|reflexivity].
  - rewrite getlines_app by auto. now rewrite IH.
Qed.
Lemma lines_exist s : exists ls, lines_of s ls.
Proof.
  induction s as [|c s (ls & IH)]; [exists []; constructor|]. destruct (ceqb c NL) eqn:E.
  - apply ceqb_eq in E. subst c. exists ([] :: ls). apply (next_line [] s ls); auto.
  - assert (c <> NL) by (now apply ceqb_neq). inversion IH as [|l H1 H2|l s' ls' H1 H2]; subst.
    + exists [[c]]. apply last_line; [discriminate|]. intros [I|[]]. congruence.
    + exists [c :: s]. apply last_line; [discriminate|]. intros [I|I]; auto.
    + exists ((c :: l) :: ls'). apply (next_line (c :: l) s' ls'); auto. intros [I|I]; auto.
Qed.
Lemma looks_job line : (looks_at line /\ line_job line = [JLook line]) \/ (~ looks_at line /\ line_job line = []).
Proof.
  destruct line as [|c [|d l]]; cbn [line_job].
  - right. split; [|reflexivity]. intros (n & _ & [E|E]); discriminate.
  - right. split; [|reflexivity]. intros (n & N & [E|E]); injection E as _ <-; congruence.
  - destruct (ceqb c "F") eqn:F; [apply ceqb_eq in F; subst c|].
    + left. split; [|reflexivity]. exists (d :: l). split; [discriminate|auto].
    + destruct (ceqb c "D") eqn:D; [apply ceqb_eq in D; subst c|]; cbn [orb].
      * left. split; [|reflexivity]. exists (d :: l). split; [discriminate|auto].
      * right. split; [|reflexivity]. apply ceqb_neq in F, D. intros (n & _ & [E|E]); congruence.
Qed.
Lemma line_jobs_spec ls : jobs_of ls (flat_map line_job ls ++ [JCancel]).
Proof.
  induction ls as [|line ls IH]; [constructor|]. cbn [flat_map]. destruct (looks_job line) as [(L & ->)|(L & ->)]; cbn [app]; constructor; auto.
Qed.
Theorem cache_jobs_spec s : exists ls, lines_of s ls /\ jobs_of ls (cache_jobs s).
Proof. destruct (lines_exist s) as (ls & H). exists ls. split; [exact H|]. unfold cache_jobs. rewrite (getlines_spec _ _ H). apply line_jobs_spec. Qed.

(** * Round trip *)
Definition written (l : list access) : str := flat_map (fun a => line_of a ++ [NL]) l.
Lemma firsts_names l r : firsts l r -> forall n, In n (map name_of r) <-> In n (map name_of l).
Proof.
  induction 1 as [|l r a I H IH|l r a I H IH]; intros n; [reflexivity| |]; rewrite ?map_app, ?in_app_iff; rewrite IH; cbn.
  - split; [auto|]. intros [|[<-|[]]]; auto.
  - reflexivity.
Qed.
Lemma recorded l r : firsts l r -> exists seen, fold_left (fun q a => record a q) l (mkRec [] []) = mkRec (written r) seen /\ forall n, In n seen <-> In n (map name_of l).
Proof.
  assert (SP : forall f seen, existsb (str_eqb f) seen = true <-> In f seen).
  { intros f seen. rewrite existsb_exists. split; [intros (x & I & E); apply str_eqb_eq in E; now subst|]. intros I. exists f. split; [exact I|apply str_eqb_refl]. }
  assert (RC : forall a q, record a q = if existsb (str_eqb (name_of a)) (rec_seen q) then q else mkRec (rec_out q ++ line_of a ++ [NL]) (name_of a :: rec_seen q)).
  { intros [f|f] q; reflexivity. }
  induction 1 as [|l r a I H (seen & E & S)|l r a I H (seen & E & S)].
  - exists []. split; [reflexivity|]. reflexivity.
  - exists seen. rewrite fold_left_app, E. cbn [fold_left]. rewrite RC. cbn [rec_seen rec_out]. rewrite (proj2 (SP _ _)) by (apply S; exact I). split; [reflexivity|].
    intros n. rewrite map_app, in_app_iff, S. cbn. split; [auto|]. intros [|[<-|[]]]; auto.
  - exists (name_of a :: seen). rewrite fold_left_app, E. cbn [fold_left]. rewrite RC. cbn [rec_seen rec_out].
    destruct (existsb (str_eqb (name_of a)) seen) eqn:X; [apply SP, S in X; contradiction|]. split.
    + f_equal. unfold written. rewrite flat_map_app. cbn. now rewrite app_nil_r.
    + intros n. rewrite map_app, in_app_iff. cbn [In map]. rewrite S. tauto.
Qed.
Lemma firsts_in l r a : firsts l r -> In a r -> In a l.
Proof. induction 1 as [|l r b I H IH|l r b I H IH]; [auto| |]; rewrite ?in_app_iff; cbn; tauto. Qed.
Lemma written_lines r : (forall a, In a r -> ~ In NL (name_of a)) -> lines_of (written r) (map line_of r).
Proof.
  induction r as [|a r IH]; intros H; [constructor|]. unfold written. cbn [flat_map map]. rewrite <- app_assoc. cbn [app]. apply next_line.
  - specialize (H a (or_introl eq_refl)). destruct a; cbn in *; intros [|]; try discriminate; auto.
  - apply IH. intros b I. apply H. now right.
Qed.
Theorem cache_roundtrip l r : firsts l r -> (forall a, In a l -> ~ In NL (name_of a) /\ name_of a <> []) ->
  cache_jobs (cache_after l) = map (fun a => JLook (line_of a)) r ++ [JCancel].
Proof.
  intros F H. unfold cache_after. destruct (recorded _ _ F) as (seen & -> & _). cbn [rec_out]. unfold cache_jobs.
  rewrite (getlines_spec _ (map line_of r)).
  - f_equal. assert (H' : forall a, In a r -> name_of a <> []) by (intros a I; apply H, (firsts_in _ _ _ F I)). clear - H'. induction r as [|a r IH]; [reflexivity|].
    cbn [map flat_map]. rewrite IH by (intros b I; apply H'; now right). specialize (H' a (or_introl eq_refl)). destruct a as [[|c n]|[|c n]]; cbn in *; congruence.
  - apply written_lines. intros a I. apply H, (firsts_in _ _ _ F I).
Qed.
Theorem firsts_exist l : exists r, firsts l r.
Proof.
  induction l as [|a l (r & IH)] using rev_ind; [exists []; constructor|]. destruct (in_dec (list_eq_dec Ascii.ascii_dec) (name_of a) (map name_of l)) as [I|I].
  - exists r. now constructor.
  - exists (r ++ [a]). now constructor.
Qed.
Theorem firsts_once l r : firsts l r -> NoDup (map name_of r) /\ (forall n, In n (map name_of r) <-> In n (map name_of l)).
Proof.
  intros F. split; [|apply firsts_names, F]. induction F as [|l r a I H IH|l r a I H IH]; [constructor|auto|].
  rewrite map_app. apply (Permutation_NoDup (Permutation_cons_append _ _)). constructor; [|exact IH]. rewrite (firsts_names _ _ H). exact I.
Qed.

(** * The name of the file *)
Lemma is_quiet a : existsb (str_eqb a) [$"-v"; $"-q"; $"-vq"; $"-qv"; $"-k"] = true <-> quiet_option a.
Proof.
  unfold quiet_option. rewrite existsb_exists. split.
  - intros (x & I & E). apply str_eqb_eq in E. subst x. cbn [In] in I. intuition congruence.
  - intros I. exists a. split; [|apply str_eqb_refl]. cbn [In]. intuition congruence.
Qed.
Lemma has_value a : existsb (str_eqb a) [$"-C"; $"-o"; $"-f"] = true <-> option_with_value a.
Proof.
  unfold option_with_value. rewrite existsb_exists. split.
  - intros (x & I & E). apply str_eqb_eq in E. subst x. cbn [In] in I. intuition congruence.
  - intros I. exists a. split; [|apply str_eqb_refl]. cbn [In]. intuition congruence.
Qed.
Lemma not_both a : quiet_option a -> option_with_value a -> False.
Proof. unfold quiet_option, option_with_value. intros [->|[->|[->|[->| ->]]]] [H|[H|H]]; discriminate. Qed.
Theorem cache_args_spec l r : counts l r <-> cache_args l = r.
Proof.
  split.
  - induction 1 as [|a l r Q H IH|a b l r V H IH|a V|a l r Q V H IH]; [reflexivity|..]; cbn [cache_args].
    + rewrite (proj2 (is_quiet a) Q). exact IH.
    + destruct (existsb (str_eqb a) [$"-v"; $"-q"; $"-vq"; $"-qv"; $"-k"]) eqn:E; [apply is_quiet in E; destruct (not_both a E V)|]. rewrite (proj2 (has_value a) V). exact IH.
    + destruct (existsb (str_eqb a) [$"-v"; $"-q"; $"-vq"; $"-qv"; $"-k"]) eqn:E; [apply is_quiet in E; destruct (not_both a E V)|]. rewrite (proj2 (has_value a) V). reflexivity.
    + destruct (existsb (str_eqb a) [$"-v"; $"-q"; $"-vq"; $"-qv"; $"-k"]) eqn:E; [apply is_quiet in E; contradiction|]. destruct (existsb (str_eqb a) [$"-C"; $"-o"; $"-f"]) eqn:E'; [apply has_value in E'; contradiction|]. now rewrite IH.
  - intros <-. assert (G : forall n l, length l <= n -> counts l (cache_args l)); [|apply (G (length l) l); auto]. clear l. induction n as [|n IH]; intros [|a l] L; cbn [length] in L; try (constructor; fail); [lia|].
    cbn [cache_args]. destruct (existsb (str_eqb a) [$"-v"; $"-q"; $"-vq"; $"-qv"; $"-k"]) eqn:E.
    + apply counts_quiet; [now apply is_quiet|]. apply IH. lia.
    + destruct (existsb (str_eqb a) [$"-C"; $"-o"; $"-f"]) eqn:E'.
      * apply has_value in E'. destruct l as [|b l]; [now apply counts_last|]. apply counts_value; [exact E'|]. apply IH. cbn [length] in L. lia.
      * apply counts_other; [rewrite <- is_quiet; congruence|rewrite <- has_value; congruence|]. apply IH. lia.
Qed.
Lemma xor_all l x : fold_left N.lxor l x = N.lxor x (fold_right N.lxor 0%N l).
Proof. revert x. induction l as [|y l IH]; intros x; cbn [fold_left fold_right]; [now rewrite N.lxor_0_r|]. now rewrite IH, N.lxor_assoc. Qed.
Theorem cache_id_order hash cwd l1 l2 : Permutation (cache_args l1) (cache_args l2) -> cache_id hash cwd l1 = cache_id hash cwd l2.
Proof.
  intros P. unfold cache_id. rewrite !xor_all. f_equal. f_equal. apply (Permutation_map hash) in P. induction P as [|x l l' P IH|x y l|l l' l'' P IH P' IH']; cbn [fold_right]; [reflexivity|congruence| |congruence].
  rewrite <- !N.lxor_assoc, (N.lxor_comm x y). reflexivity.
Qed.
Theorem cache_id_twice hash cwd a l : ~ quiet_option a -> ~ option_with_value a -> cache_id hash cwd (a :: a :: l) = cache_id hash cwd l.
Proof.
  intros Q V. unfold cache_id. assert (E : cache_args (a :: a :: l) = a :: a :: cache_args l).
  { apply cache_args_spec. apply counts_other; auto. apply counts_other; auto. now apply cache_args_spec. }
  rewrite E, !xor_all. cbn [map fold_right]. now rewrite <- (N.lxor_assoc (hash a)), N.lxor_nilpotent, N.lxor_0_l.
Qed.
Theorem cache_id_bound hash cwd l : (cache_id hash cwd l < 4294967296)%N.
Proof. unfold cache_id. change 4294967295%N with (N.ones 32). rewrite N.land_ones. apply N.mod_lt. discriminate. Qed.
