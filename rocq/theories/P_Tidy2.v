(** The threads of the clang-tidy script: an invariant of all schedules. *)
From Coq Require Import NArith Lia Permutation.
From Verif Require Import Base OMap M_Tidy S_Tidy P_Tidy.

Section Run.
Variable prints : str -> str.
Variable bzroot pwd : str.
Variable T : N.
Notation wanted w := (repair bzroot pwd (prints (fst w))).

(** The items threads are busy with. *)
Definition held (k : worker) : list item :=
  match k with
  | WTaken w | WPrinting w _ _ | WEnded w | WHolding w _ | WStoring w _ _ | WStored w => [w]
  | WIdle | WGone => []
  end.
(** What is in the files meanwhile. *)
Definition wok (f : fsys) (k : worker) : Prop :=
  match k with
  | WPrinting w i printed => fs_dir f (tmp_name w) = Some i /\ fst (fs_data f i) = printed /\ exists r, prints (fst w) = printed ++ r
  | WEnded w => exists i, fs_dir f (tmp_name w) = Some i /\ fst (fs_data f i) = prints (fst w)
  | WHolding w text => text = prints (fst w)
  | WStoring w i rest => fs_dir f (tmp_name w) = Some i /\ fst (fs_data f i) ++ rest = wanted w /\ (T <= snd (fs_data f i))%N
  | WStored w => exists i, fs_dir f (tmp_name w) = Some i /\ fst (fs_data f i) = wanted w /\ (T <= snd (fs_data f i))%N
  | _ => True
  end.
Definition finished (f : fsys) (w : item) : Prop :=
  fs_dir f (tmp_name w) = None /\ exists t, file_at f (result_name w) = Some (wanted w, t) /\ (T <= t)%N.
Definition same_but (w : item) (f f' : fsys) : Prop :=
  forall n, n <> tmp_name w -> n <> result_name w -> fs_dir f' n = fs_dir f n /\ forall i, fs_dir f n = Some i -> fs_data f' i = fs_data f i.

Lemma tmp_result w w' : tmp_name w <> result_name w'.
Proof. intros E. apply (result_not_temporary w'). rewrite <- E. apply tmp_temporary. Qed.
Lemma set_name_same d n v : set_name d n v n = v.
Proof. unfold set_name. now rewrite str_eqb_refl. Qed.
Lemma set_name_other d n v m : m <> n -> set_name d n v m = d m.
Proof. unfold set_name. intros N. apply str_eqb_neq in N. now rewrite N. Qed.
Lemma set_data_same d i v : set_data d i v i = v.
Proof. unfold set_data. now rewrite Nat.eqb_refl. Qed.
Lemma set_data_other d i v j : j <> i -> set_data d i v j = d j.
Proof. unfold set_data. intros N. apply Nat.eqb_neq in N. now rewrite N. Qed.

Lemma open_spec n now f i f' : open_for_writing n now f = (i, f') -> sound_fs f ->
  sound_fs f' /\ fs_dir f' n = Some i /\ fs_data f' i = ([], now) /\
  forall m, m <> n -> fs_dir f' m = fs_dir f m /\ forall j, fs_dir f m = Some j -> fs_data f' j = fs_data f j.
Proof.
  intros E [S1 S2]. unfold open_for_writing in E. destruct (fs_dir f n) as [k|] eqn:D; injection E as <- <-; cbn [fs_dir fs_data fs_next].
  - split; [split; assumption|]. split; [exact D|]. split; [apply set_data_same|]. intros m N. split; [reflexivity|]. intros j Dj.
    apply set_data_other. intros ->. apply N. eapply S1; eauto.
  - split; [split|].
    + intros a b i. unfold set_name. cbn [fs_dir]. destruct (str_eqb_spec a n) as [->|Na], (str_eqb_spec b n) as [->|Nb]; auto.
      * intros [= <-] X. apply S2 in X. lia.
      * intros X [= <-]. apply S2 in X. lia.
      * apply S1.
    + intros a i. cbn [fs_dir fs_next]. unfold set_name. destruct (str_eqb a n); [intros [= <-]; lia|]. intros X. apply S2 in X. lia.
    + split; [apply set_name_same|]. split; [apply set_data_same|]. intros m N. split; [now apply set_name_other|].
      intros j Dj. apply set_data_other. apply S2 in Dj. lia.
Qed.
Lemma write_spec n i s now f : fs_dir f n = Some i -> sound_fs f ->
  sound_fs (write_to i s now f) /\ fs_dir (write_to i s now f) n = Some i /\ fs_data (write_to i s now f) i = (fst (fs_data f i) ++ s, now) /\
  forall m, m <> n -> fs_dir (write_to i s now f) m = fs_dir f m /\ forall j, fs_dir f m = Some j -> fs_data (write_to i s now f) j = fs_data f j.
Proof.
  intros D [S1 S2]. unfold write_to. cbn [fs_dir fs_data fs_next]. split; [split; assumption|]. split; [exact D|]. split; [apply set_data_same|].
  intros m N. split; [reflexivity|]. intros j Dj. apply set_data_other. intros ->. apply N. eapply S1; eauto.
Qed.
Lemma file_same f f' n : fs_dir f' n = fs_dir f n /\ (forall i, fs_dir f n = Some i -> fs_data f' i = fs_data f i) -> file_at f' n = file_at f n.
Proof. intros [E H]. unfold file_at. rewrite E. destruct (fs_dir f n) as [i|]; [|reflexivity]. cbn. now rewrite H. Qed.

Definition other_act (a : action) : Prop := match a with ATake | ALeave | AInterrupt => False | _ => True end.
Definition effect (a : action) (me : worker) (q : list item) (f : fsys) (me' : worker) (q' : list item) (f' : fsys) : Prop :=
  (exists w, a = ATake /\ me = WIdle /\ me' = WTaken w /\ q = w :: q' /\ f' = f) \/
  (a = ALeave /\ me = WIdle /\ me' = WGone /\ q = [] /\ q' = [] /\ f' = f) \/
  (exists w, a = AInterrupt /\ held me = [w] /\ me' = WGone /\ q' = q /\ f' = f) \/
  (exists w, other_act a /\ held me = [w] /\ held me' = [w] /\ q' = q /\ same_but w f f' /\ sound_fs f' /\ wok f' me' /\
             file_at f' (result_name w) = file_at f (result_name w)) \/
  (exists w, a = ARename /\ held me = [w] /\ me' = WIdle /\ q' = q /\ same_but w f f' /\ sound_fs f' /\ finished f' w).

Lemma step_effect a me q f me' q' f' ab : worker_step prints bzroot pwd a me q f = Some (me', q', f', ab) -> not_before T (0, a) ->
  sound_fs f -> wok f me -> ab = false /\ effect a me q f me' q' f'.
Proof.
  intros E NB S W. unfold effect.
  assert (Keep : forall w g, (forall m, m <> tmp_name w -> fs_dir g m = fs_dir f m /\ forall j, fs_dir f m = Some j -> fs_data g j = fs_data f j) ->
                   same_but w f g /\ file_at g (result_name w) = file_at f (result_name w)).
  { intros w g H. split; [intros n N _; now apply H|]. apply file_same, H. intros X. symmetry in X. now apply tmp_result in X. }
  destruct a as [ | |now|s now| | | |now|s now| |], me as [ |w|w i printed|w|w text|w i rest|w| ]; cbn [worker_step] in E; try discriminate E.
  - destruct q as [|w q1]; [discriminate E|]. injection E as <- <- <- <-. split; [reflexivity|]. left. eauto 10.
  - destruct q as [|w q1]; [|discriminate E]. injection E as <- <- <- <-. split; [reflexivity|]. right. left. auto 10.
  - destruct (open_for_writing (tmp_name w) now f) as [i g] eqn:O. injection E as <- <- <- <-. split; [reflexivity|].
    destruct (open_spec _ _ _ _ _ O S) as (S' & D & Dt & H). destruct (Keep w g H) as [K1 K2]. do 3 right. left. exists w.
    cbn [held wok other_act]. split; [exact I|]. do 3 (split; [reflexivity|]). split; [exact K1|]. split; [exact S'|]. split; [|exact K2]. rewrite Dt. split; [exact D|]. split; [reflexivity|]. now exists (prints (fst w)).
  - destruct (starts_with (printed ++ s) (prints (fst w))) eqn:P; [|discriminate E]. injection E as <- <- <- <-. split; [reflexivity|].
    destruct W as (D & Dt & _). destruct (write_spec _ i s now f D S) as (S' & D' & Dt' & H). destruct (Keep w _ H) as [K1 K2]. do 3 right. left. exists w.
    cbn [held wok other_act]. split; [exact I|]. do 3 (split; [reflexivity|]). split; [exact K1|]. split; [exact S'|]. split; [|exact K2]. rewrite Dt'. cbn [fst]. rewrite Dt. split; [exact D'|]. split; [reflexivity|]. now apply starts_with_iff.
  - destruct (str_eqb_spec printed (prints (fst w))) as [P|]; [|discriminate E]. injection E as <- <- <- <-. split; [reflexivity|].
    do 3 right. left. exists w. cbn [held wok other_act]. split; [exact I|]. do 3 (split; [reflexivity|]). split; [now split|]. split; [exact S|]. split; [|reflexivity].
    destruct W as (D & Dt & _). exists i. split; [exact D|]. congruence.
  - injection E as <- <- <- <-. split; [reflexivity|]. right. right. left. exists w. auto 10.
  - injection E as <- <- <- <-. split; [reflexivity|]. do 3 right. left. exists w. cbn [held wok other_act]. split; [exact I|]. do 3 (split; [reflexivity|]). split; [now split|].
    split; [exact S|]. split; [|reflexivity]. destruct W as (i & D & Dt). unfold file_at. rewrite D. cbn. destruct (fs_data f i) as [c t]. exact Dt.
  - destruct (open_for_writing (tmp_name w) now f) as [i g] eqn:O. injection E as <- <- <- <-. split; [reflexivity|].
    destruct (open_spec _ _ _ _ _ O S) as (S' & D & Dt & H). destruct (Keep w g H) as [K1 K2]. do 3 right. left. exists w.
    cbn [held wok other_act]. split; [exact I|]. do 3 (split; [reflexivity|]). split; [exact K1|]. split; [exact S'|]. split; [|exact K2]. rewrite Dt. split; [exact D|].
    cbn [fst snd app]. split; [|exact NB]. cbn in W. now rewrite W.
  - destruct (starts_with s rest) eqn:P; [|discriminate E]. injection E as <- <- <- <-. split; [reflexivity|]. apply starts_with_iff in P as [r ->].
    destruct W as (D & Dt & Tm). destruct (write_spec _ i s now f D S) as (S' & D' & Dt' & H). destruct (Keep w _ H) as [K1 K2]. do 3 right. left. exists w.
    cbn [held wok other_act]. split; [exact I|]. do 3 (split; [reflexivity|]). split; [exact K1|]. split; [exact S'|]. split; [|exact K2]. rewrite Dt'. cbn [fst snd]. split; [exact D'|].
    split; [|exact NB]. rewrite <- Dt, skipn_app, skipn_all, Nat.sub_diag. cbn. now rewrite app_assoc.
  - destruct rest as [|c rest]; [|discriminate E]. injection E as <- <- <- <-. split; [reflexivity|]. do 3 right. left. exists w. cbn [held wok other_act].
    split; [exact I|]. do 3 (split; [reflexivity|]). split; [now split|]. split; [exact S|]. split; [|reflexivity]. destruct W as (D & Dt & Tm). rewrite app_nil_r in Dt. eauto.
  - destruct W as (i & D & Dt & Tm). unfold rename_file in E. rewrite D in E. injection E as <- <- <- <-. split; [reflexivity|]. do 4 right. exists w. destruct S as [S1 S2].
    do 4 (split; [reflexivity|]). split; [|split; [split|]].
    + intros n N1 N2. cbn [fs_dir fs_data]. rewrite !set_name_other by assumption. now split.
    + intros a b j. cbn [fs_dir]. unfold set_name.
      destruct (str_eqb_spec a (result_name w)) as [->|Na], (str_eqb_spec b (result_name w)) as [->|Nb]; auto.
      * intros [= <-]. destruct (str_eqb_spec b (tmp_name w)) as [->|Nt]; [discriminate|]. intros X. exfalso. apply Nt. eapply S1; eauto.
      * destruct (str_eqb_spec a (tmp_name w)) as [->|Nt]; [discriminate|]. intros X [= <-]. exfalso. apply Nt. eapply S1; eauto.
      * destruct (str_eqb a (tmp_name w)); [discriminate|]. destruct (str_eqb b (tmp_name w)); [discriminate|]. apply S1.
    + intros a j. cbn [fs_dir fs_next]. unfold set_name. destruct (str_eqb a (result_name w)); [intros [= <-]; eapply S2; eauto|].
      destruct (str_eqb a (tmp_name w)); [discriminate|]. apply S2.
    + split; cbn [fs_dir].
      * rewrite set_name_other by apply tmp_result. apply set_name_same.
      * exists (snd (fs_data f i)). split; [|exact Tm]. unfold file_at. cbn [fs_dir fs_data]. rewrite set_name_same. cbn. rewrite <- Dt. now destruct (fs_data f i).
Qed.

Lemma wok_same w f f' k : wok f k -> same_but w f f' -> (forall w', In w' (held k) -> result_name w' <> result_name w) -> wok f' k.
Proof.
  intros W H N.
  assert (X : forall w', In w' (held k) -> fs_dir f' (tmp_name w') = fs_dir f (tmp_name w') /\ forall i, fs_dir f (tmp_name w') = Some i -> fs_data f' i = fs_data f i).
  { intros w' Hw. apply H; [intros E; apply tmp_name_inj in E; now apply (N w')|apply tmp_result]. }
  destruct k as [ |w1|w1 i printed|w1|w1 text|w1 i rest|w1| ]; cbn [wok held] in *; auto; destruct (X w1 (or_introl eq_refl)) as [E D]; rewrite E; clear X.
  - destruct W as (W1 & W2 & W3). now rewrite (D i W1).
  - destruct W as (i & W1 & W2). exists i. now rewrite (D i W1).
  - destruct W as (W1 & W2 & W3). now rewrite (D i W1).
  - destruct W as (i & W1 & W2 & W3). exists i. now rewrite (D i W1).
Qed.
Lemma finished_same w f f' w' : finished f w' -> same_but w f f' -> result_name w' <> result_name w -> finished f' w'.
Proof.
  intros [F1 (t & F2 & F3)] H N. split.
  - rewrite (proj1 (H (tmp_name w') ltac:(intros E; now apply tmp_name_inj in E) (tmp_result _ _))). exact F1.
  - exists t. split; [|exact F3]. rewrite <- F2. apply file_same, H; [|exact N]. intros E. symmetry in E. now apply tmp_result in E.
Qed.

Variable jobs : nat.
Variable queue : list item.
Variable f0 : fsys.
Hypothesis names : NoDup (map result_name queue).

Definition helds (l : list worker) : list item := flat_map held l.
Definition gone (k : worker) : bool := match k with WGone => true | _ => false end.
Definition count_gone (l : list worker) : nat := length (filter gone l).
Record inv (l : schedule) (m : machine) : Prop := {
  inv_alive : m_aborted m = false;
  inv_sound : sound_fs (m_files m);
  inv_jobs : length (m_workers m) = jobs;
  inv_queue : m_queue m = skipn (length (filter takes l)) queue;
  inv_items : exists done lost, Permutation queue (m_queue m ++ helds (m_workers m) ++ done ++ lost) /\
                Forall (finished (m_files m)) done /\ length lost = length (filter interrupts l);
  inv_workers : Forall (wok (m_files m)) (m_workers m);
  inv_left : m_queue m <> [] -> count_gone (m_workers m) <= length (filter interrupts l);
  inv_names : forall n, file_at (m_files m) n = file_at f0 n \/
                exists w, In w queue /\ (n = tmp_name w \/ n = result_name w /\ exists t, file_at (m_files m) n = Some (wanted w, t) /\ (T <= t)%N) }.

Lemma set_nth_split {A} l1 (x y : A) l2 : set_nth (length l1) y (l1 ++ x :: l2) = l1 ++ y :: l2.
Proof. induction l1 as [|a l1 IH]; [reflexivity|]. cbn. now rewrite IH. Qed.
Lemma filter_snoc {A} (p : A -> bool) l x : length (filter p (l ++ [x])) = length (filter p l) + if p x then 1 else 0.
Proof. rewrite filter_app, app_length. cbn. destruct (p x); reflexivity. Qed.

Lemma names_apart q h1 w h2 rest : Permutation queue (q ++ (h1 ++ w :: h2) ++ rest) ->
  forall w', In w' (q ++ h1 ++ h2 ++ rest) -> result_name w' <> result_name w.
Proof.
  intros P w' I E. assert (N := Permutation_NoDup (Permutation_map result_name P) names).
  assert (P2 : Permutation (q ++ (h1 ++ w :: h2) ++ rest) (w :: q ++ h1 ++ h2 ++ rest)).
  { rewrite <- app_assoc. cbn [app]. rewrite app_assoc. symmetry. rewrite (app_assoc q h1). apply Permutation_middle. }
  apply (Permutation_NoDup (Permutation_map result_name P2)) in N. cbn in N. inversion N as [|? ? N1 _]; subst. apply N1. rewrite <- E. now apply in_map.
Qed.

Lemma inv_start : sound_fs f0 -> inv [] (start jobs queue f0).
Proof.
  intros S. unfold start. constructor; cbn [m_aborted m_files m_workers m_queue filter length]; auto.
  - apply repeat_length.
  - exists [], []. rewrite !app_nil_r. split; [|split; [constructor|reflexivity]].
    assert (E : helds (repeat WIdle jobs) = []) by (induction jobs as [|n IH]; [reflexivity|exact IH]). rewrite E, app_nil_r. reflexivity.
  - induction jobs as [|n IH]; cbn; constructor; [exact I|exact IH].
  - intros _. assert (E : count_gone (repeat WIdle jobs) = 0) by (induction jobs as [|n IH]; [reflexivity|exact IH]). lia.
Qed.

Lemma inv_step l m who a m' : inv l m -> not_before T (who, a) -> step prints bzroot pwd m who a = Some m' -> inv (l ++ [(who, a)]) m'.
Proof.
  intros V NB E. destruct V as [VA VS VJ VQ (done & lost & VP & VD & VL) VW VG VN]. unfold step in E. rewrite VA in E.
  destruct (nth_error (m_workers m) who) as [me|] eqn:N; [|discriminate E]. apply nth_error_split in N as (l1 & l2 & El & <-).
  destruct (worker_step prints bzroot pwd a me (m_queue m) (m_files m)) as [[[[me' q'] f'] ab]|] eqn:St; [|discriminate E]. injection E as <-.
  rewrite El in *. rewrite set_nth_split. assert (W := VW). apply Forall_app in W as [W1 W2]. apply Forall_cons_iff in W2 as [W0 W2].
  destruct (step_effect _ _ _ _ _ _ _ _ St NB VS W0) as [-> Ef]. clear St.
  assert (Len : length (l1 ++ me' :: l2) = jobs) by (rewrite <- VJ, !app_length; reflexivity).
  assert (Gn : count_gone (l1 ++ me :: l2) + (if gone me' then 1 else 0) = count_gone (l1 ++ me' :: l2) + if gone me then 1 else 0).
  { unfold count_gone. rewrite !filter_app, !app_length. cbn. destruct (gone me), (gone me'); cbn; lia. }
  assert (Hh : forall k, helds (l1 ++ k :: l2) = helds l1 ++ held k ++ helds l2) by (intros k; unfold helds; rewrite flat_map_app; reflexivity).
  rewrite Hh in VP.
  destruct Ef as [(w & -> & -> & -> & Eq & ->)|[(-> & -> & -> & Eq & -> & ->)|[(w & -> & Hm & -> & -> & ->)|[(w & Oa & Hm & Hm' & -> & SB & S' & W' & Fr)|(w & -> & Hm & -> & -> & SB & S' & Fw)]]]].
  - (* take *)
    constructor; cbn [m_aborted m_files m_workers m_queue]; rewrite ?filter_snoc; cbn [takes interrupts snd]; auto.
    + rewrite Nat.add_1_r. rewrite Eq in VQ. clear -VQ. revert VQ. generalize (length (filter takes l)). intros n. revert queue. induction n as [|n IH]; intros [|x qq]; cbn; intros E; try discriminate.
      * now injection E as _ ->.
      * destruct qq; cbn; [destruct n; discriminate E|]. apply (IH _ E).
    + exists done, lost. split; [|split; [exact VD|lia]]. rewrite Hh. cbn [held app] in *. rewrite Eq in VP. eapply perm_trans; [exact VP|].
      cbn [app]. rewrite <- !app_assoc. cbn [app]. rewrite !(app_assoc q' (helds l1)). apply Permutation_middle.
    + apply Forall_app. split; [exact W1|]. constructor; [exact I|exact W2].
    + intros Nq. rewrite Nat.add_0_r. cbn [gone] in Gn. rewrite !Nat.add_0_r in Gn. rewrite <- Gn. apply VG. rewrite Eq. discriminate.
  - (* leave *)
    constructor; cbn [m_aborted m_files m_workers m_queue]; rewrite ?filter_snoc; cbn [takes interrupts snd]; rewrite ?Nat.add_0_r; auto.
    + now rewrite <- VQ, Eq.
    + exists done, lost. split; [|split; [exact VD|lia]]. rewrite Hh. cbn [held app] in *. rewrite Eq in VP. exact VP.
    + apply Forall_app. split; [exact W1|]. constructor; [exact I|exact W2].
    + intros X. now elim X.
  - (* interrupted *)
    constructor; cbn [m_aborted m_files m_workers m_queue]; rewrite ?filter_snoc; cbn [takes interrupts snd]; rewrite ?Nat.add_0_r; auto.
    + exists done, (w :: lost). split; [|split; [exact VD|cbn; lia]]. rewrite Hh. cbn [held app]. rewrite Hm in VP. eapply perm_trans; [exact VP|].
      apply Permutation_app_head. rewrite <- !app_assoc. apply Permutation_app_head. cbn [app]. rewrite (app_assoc (helds l2)), (app_assoc (helds l2)). apply Permutation_middle.
    + apply Forall_app. split; [exact W1|]. constructor; [exact I|exact W2].
    + intros Nq. specialize (VG Nq). cbn [gone] in Gn. destruct me; cbn in Hm; try discriminate Hm; cbn in Gn; lia.
  - (* goes on *)
    assert (NA : forall w', In w' (m_queue m ++ helds l1 ++ helds l2 ++ done ++ lost) -> result_name w' <> result_name w) by (rewrite Hm in VP; apply (names_apart _ _ _ _ _ VP)).
    assert (Inw : In w queue). { eapply Permutation_in; [symmetry; exact VP|]. rewrite Hm. apply in_or_app. right. apply in_or_app. left. apply in_or_app. right. now left. }
    assert (Ia : interrupts (length l1, a) = false) by (destruct a; cbn in Oa |- *; tauto || reflexivity).
    assert (Ta : takes (length l1, a) = false) by (destruct a; cbn in Oa |- *; tauto || reflexivity).
    constructor; cbn [m_aborted m_files m_workers m_queue]; rewrite ?filter_snoc, ?Ia, ?Ta, ?Nat.add_0_r; auto.
    + exists done, lost. split; [|split; [|exact VL]].
      * rewrite Hh, Hm'. rewrite Hm in VP. exact VP.
      * rewrite Forall_forall in VD |- *. intros w' I'. eapply finished_same; eauto. apply NA. rewrite !in_app_iff. tauto.
    + apply Forall_app. split; [|constructor; [exact W'|]].
      * rewrite Forall_forall in W1 |- *. intros k Ik. eapply wok_same; eauto. intros w' Iw. apply NA. rewrite !in_app_iff. right. left. apply in_flat_map. eauto.
      * rewrite Forall_forall in W2 |- *. intros k Ik. eapply wok_same; eauto. intros w' Iw. apply NA. rewrite !in_app_iff. right. right. left. apply in_flat_map. eauto.
    + intros Nq. specialize (VG Nq). destruct me, me'; cbn in Hm, Hm'; try discriminate Hm; try discriminate Hm'; cbn in Gn; lia.
    + intros n. destruct (str_dec n (tmp_name w)) as [->|N1]; [right; eauto|]. destruct (str_dec n (result_name w)) as [->|N2]; [rewrite Fr; apply VN|].
      rewrite (file_same _ _ _ (SB n N1 N2)). apply VN.
  - (* renamed *)
    assert (NA : forall w', In w' (m_queue m ++ helds l1 ++ helds l2 ++ done ++ lost) -> result_name w' <> result_name w) by (rewrite Hm in VP; apply (names_apart _ _ _ _ _ VP)).
    assert (Inw : In w queue). { eapply Permutation_in; [symmetry; exact VP|]. rewrite Hm. apply in_or_app. right. apply in_or_app. left. apply in_or_app. right. now left. }
    constructor; cbn [m_aborted m_files m_workers m_queue]; rewrite ?filter_snoc; cbn [takes interrupts snd]; rewrite ?Nat.add_0_r; auto.
    + exists (w :: done), lost. split; [|split; [|exact VL]].
      * rewrite Hh. rewrite Hm in VP. eapply perm_trans; [exact VP|]. cbn [held app]. apply Permutation_app_head. rewrite <- !app_assoc. apply Permutation_app_head.
        cbn [app]. apply Permutation_middle.
      * constructor; [exact Fw|]. rewrite Forall_forall in VD |- *. intros w' I'. eapply finished_same; eauto. apply NA. rewrite !in_app_iff. tauto.
    + apply Forall_app. split; [|constructor; [exact I|]].
      * rewrite Forall_forall in W1 |- *. intros k Ik. eapply wok_same; eauto. intros w' Iw. apply NA. rewrite !in_app_iff. right. left. apply in_flat_map. eauto.
      * rewrite Forall_forall in W2 |- *. intros k Ik. eapply wok_same; eauto. intros w' Iw. apply NA. rewrite !in_app_iff. right. right. left. apply in_flat_map. eauto.
    + intros Nq. specialize (VG Nq). destruct me; cbn in Hm; try discriminate Hm; cbn in Gn; lia.
    + intros n. destruct (str_dec n (tmp_name w)) as [->|N1]; [right; eauto|]. destruct (str_dec n (result_name w)) as [->|N2].
      * right. exists w. split; [exact Inw|]. right. split; [reflexivity|]. apply Fw.
      * rewrite (file_same _ _ _ (SB n N1 N2)). apply VN.
Qed.

Lemma run_inv l : forall done m m', inv done m -> Forall (not_before T) l -> run prints bzroot pwd m l = Some m' -> inv (done ++ l) m'.
Proof.
  induction l as [|[who a] l IH]; intros done m m' V NB E; cbn in E.
  - injection E as <-. now rewrite app_nil_r.
  - destruct (step prints bzroot pwd m who a) as [m1|] eqn:St; [|discriminate E]. inversion NB as [|? ? N1 N2]; subst.
    change ((who, a) :: l) with ([(who, a)] ++ l). rewrite app_assoc. eapply IH; eauto. eapply inv_step; eauto.
Qed.
Lemma started_inv l m : sound_fs f0 -> Forall (not_before T) l -> run prints bzroot pwd (start jobs queue f0) l = Some m -> inv l m.
Proof. intros S NB E. apply (run_inv l [] _ _ (inv_start S) NB E). Qed.
End Run.
