(** What is counted while files are read and followed. *)
From Coq Require Import Lia Permutation.
From Verif Require Import Base OMap M_Types M_Scanner M_Ast M_Parser M_Query M_Elab M_Workspace M_Project P_Project M_DepGraph S_DepGraph P_DepGraph M_Printer M_Table M_Headers
  M_Dwyu S_Dwyu P_Dwyu M_Edits M_Highlight M_Commands M_Main M_ParseErrors M_Told S_Told P_Told P_Told2 P_Told3 M_Stats S_Stats P_Stats.

(** * Totals *)
Definition counts (l : list work) : list nat := flat_map (fun x => match x with WCount _ n => [n] | _ => [] end) l.
Definition sizes (l : list work) : list nat := flat_map (fun x => match x with WBytes _ n => [n] | _ => [] end) l.
Definition total (name : str) (ws : list work) : nat := list_sum (counts (about name ws)).
Definition amounts (name : str) (ws : list work) : list nat := sizes (about name ws).
Definition headed (name subject : str) (ws : list work) : Prop :=
  (forall k n, ~ In (WSet k n) (about name ws)) /\ (about name ws = [] \/ exists rest, about name ws = WUse name subject :: rest).
Lemma total_app name a b : total name (a ++ b) = total name a + total name b.
Proof. unfold total, counts. now rewrite about_app, flat_map_app, list_sum_app. Qed.
Lemma amounts_app name a b : amounts name (a ++ b) = amounts name a ++ amounts name b.
Proof. unfold amounts, sizes. now rewrite about_app, flat_map_app. Qed.
Lemma headed_app name subject a b : headed name subject a -> headed name subject b -> headed name subject (a ++ b).
Proof.
  intros [A A'] [B B']. unfold headed. rewrite about_app. split.
  - intros k n I. apply in_app_or in I as [I|I]; [eapply A|eapply B]; exact I.
  - destruct A' as [->|(r & ->)]; [exact B'|]. right. eexists. reflexivity.
Qed.
Lemma headed_none name subject ws : about name ws = [] -> headed name subject ws.
Proof. intros E. split; [rewrite E; intros k n []|now left]. Qed.
Lemma steps l : forall s, (forall k n, ~ In (WSet k n) l) ->
  fold_left entry_step l (Some s) = Some (mkStat (st_subject s) (st_count s + list_sum (counts l))
    (match st_bytes s, sizes l with b, [] => b | Some b, a => Some (b + list_sum a) | None, a => Some (list_sum a) end)).
Proof.
  induction l as [|x l IH]; intros s N; cbn [fold_left].
  - destruct s as [s n b]. cbn. rewrite Nat.add_0_r. destruct b; reflexivity.
  - assert (N' : forall k n, ~ In (WSet k n) l) by (intros k n I; apply (N k n); now right).
    destruct x as [k t|k n|k n|k n]; cbn [entry_step]; [| |exfalso; apply (N k n); now left|]; rewrite (IH _ N'); destruct s as [s m b]; cbn [st_subject st_count st_bytes counts sizes flat_map app].
    + reflexivity.
    + cbn [list_sum fold_right]. fold (list_sum (counts l)). unfold counts. do 2 f_equal. cbn [list_sum fold_right]. unfold list_sum. lia.
    + fold (counts l) (sizes l). f_equal. f_equal. destruct b, (sizes l); cbn [list_sum fold_right]; f_equal; unfold list_sum; cbn [fold_right]; lia.
Qed.
Lemma headed_shows name subject ws : headed name subject ws -> about name ws <> [] ->
  shows ws name subject (total name ws) (match amounts name ws with [] => None | a => Some (list_sum a) end).
Proof.
  intros [N [E|(r & E)]] H; [contradiction|]. apply shows_iff. unfold total, amounts. rewrite E in *. cbn [fold_left entry_step counts sizes flat_map app].
  rewrite steps by (intros k n I; apply (N k n); now right). cbn [st_subject st_count st_bytes]. reflexivity.
Qed.
Lemma none_unmentioned name ws : about name ws = [] -> unmentioned ws name.
Proof. intros E. apply unmentioned_iff. now rewrite E. Qed.
(** Only of some names. *)
Definition key (x : work) : str := match x with WUse k _ | WCount k _ | WSet k _ | WBytes k _ => k end.
Definition adding (x : work) : bool := match x with WSet _ _ => false | _ => true end.
Definition only (names : list str) (ws : list work) : Prop := Forall (fun x => In (key x) names /\ adding x = true) ws.
Lemma only_app names a b : only names a -> only names b -> only names (a ++ b).
Proof. intros A B. apply Forall_app. auto. Qed.
Lemma only_none name names ws : only names ws -> ~ In name names -> about name ws = [].
Proof.
  intros H N. induction H as [|x ws [H _] _ IH]; [reflexivity|]. cbn [about filter]. destruct (on name x) eqn:E; [|exact IH].
  exfalso. apply N. destruct x; cbn [on key] in *; apply str_eqb_eq in E; now subst.
Qed.
Lemma only_more names names' ws : only names ws -> incl names names' -> only names' ws.
Proof. intros H I. eapply Forall_impl; [|exact H]. intros x [J K]. split; [now apply I|exact K]. Qed.
Lemma only_adding names ws name k n : only names ws -> ~ In (WSet k n) (about name ws).
Proof. intros H I. apply filter_In in I as [I _]. apply (proj1 (Forall_forall _ _) H) in I as [_ I]. discriminate. Qed.
Ltac own := repeat apply Forall_cons; try apply Forall_nil; (split; [cbn [In key]; auto|reflexivity]).
Ltac other := let I := fresh in cbv [In]; intros I; repeat (destruct I as [I|I]; [discriminate I|]); exact I.

(** * Elaboration *)
Section Elab.
Variable multi_glob : list str -> list str -> list str.
Variable looked_at : list str -> list str -> nat.
Lemma glob_only v l n ws : handle_glob_counted multi_glob looked_at v l = Ret (n, ws) -> only [k_glob] ws.
Proof.
  unfold handle_glob_counted. destruct (glob_args l None None) as [[i e]| |]; try discriminate. cbn [bind]. destruct (extract_string_list i); try discriminate. cbn [bind].
  destruct (extract_string_list e); try discriminate. cbn [bind]. intros E. part E. subst ws. own.
Qed.
Lemma elab_only n : forall level g r ws, elab_counted multi_glob looked_at level n g = Ret (r, ws) -> only [k_glob] ws.
Proof.
  assert (Nil : only [k_glob] []) by constructor.
  induction n using node_ind'; intros level g r0 ws E; cbn [elab_counted] in E; try (part E; subst ws; exact Nil).
  - part E. destruct a. part E. subst. apply only_app; [eauto|exact Nil].
  - part E. destruct a. part E. destruct a. subst. apply only_app; [eauto|]. apply only_app; [eauto|]. destruct op; part E; subst; exact Nil.
  - part E. destruct a as [l' g']. part E. subst. apply only_app; [|exact Nil]. clear - E0 H Nil. revert g l' g' l E0. induction H as [|n elems H _ IH]; intros g l' g' l E; cbn [elab_elems_counted] in E.
    + part E. subst. exact Nil.
    + part E. destruct a. part E. destruct a. part E. subst. apply only_app; [eauto|]. apply only_app; [eauto|exact Nil].
  - part E. destruct a. part E. subst. apply only_app; [eauto|exact Nil].
  - part E. destruct a. part E. destruct a. part E. destruct a. part E. subst. apply only_app; [eauto|]. apply only_app; [eauto|]. apply only_app; [eauto|exact Nil].
  - part E. destruct a. part E. subst. apply only_app; [eauto|exact Nil].
  - part E. destruct a as [id g1]. part E. destruct a as [args g2]. subst. apply only_app; [eauto|]. apply only_app; [eauto|]. destruct id; try discriminate.
    destruct (str_eqb _ _).
    + destruct args; try discriminate. part E. part E. subst. apply only_app; [eapply glob_only; eassumption|exact Nil].
    + destruct (str_eqb _ _).
      * destruct args; try discriminate. part E. subst. exact Nil.
      * part E. subst. exact Nil.
Qed.
Lemma elems_only level l : forall g r ws, elab_elems_counted (elab_counted multi_glob looked_at level) l g = Ret (r, ws) -> only [k_glob] ws.
Proof.
  induction l as [|n l IH]; intros g r ws E; cbn [elab_elems_counted] in E.
  - part E. subst. constructor.
  - part E. destruct a. part E. destruct a. part E. subst. apply only_app; [eapply elab_only; eassumption|]. apply only_app; [eauto|constructor].
Qed.
End Elab.

(** * Reading *)
Record loaded (pr pr' : parsed_project) (ws : list work) (unread seen : nat) : Prop := mkLoaded {
  ld_read : headed k_read ($"BUILD files") ws;
  ld_parse : headed k_parse ($"BUILD files") ws;
  ld_count_read : total k_read ws + length (pr_files pr) = length (pr_files pr') + unread + seen;
  ld_count_parse : total k_parse ws + length (pr_files pr) = length (pr_files pr') + seen;
  ld_same : amounts k_read ws = amounts k_parse ws;
  ld_each : length (amounts k_read ws) = total k_parse ws;
  ld_size : seen = 0 -> project_size pr + list_sum (amounts k_read ws) = project_size pr';
  ld_some : about k_read ws <> [] -> 0 < total k_read ws;
  ld_both : about k_parse ws = [] <-> about k_read ws = [] }.
Lemma loaded_trans a b c ws ws' u u' s s' : loaded a b ws u s -> loaded b c ws' u' s' -> loaded a c (ws ++ ws') (u + u') (s + s').
Proof.
  intros [A1 A2 A3 A4 A5 A6 A7 A8 A9] [B1 B2 B3 B4 B5 B6 B7 B8 B9]. constructor.
  - now apply headed_app.
  - now apply headed_app.
  - rewrite total_app. lia.
  - rewrite total_app. lia.
  - rewrite !amounts_app. congruence.
  - rewrite amounts_app, app_length, total_app. lia.
  - intros H. rewrite amounts_app, list_sum_app. rewrite <- B7, <- A7 by lia. lia.
  - intros H. rewrite total_app. rewrite about_app in H. destruct (about k_read ws) as [|x l] eqn:E; [specialize (B8 H); lia|]. assert (X := A8 ltac:(discriminate)). lia.
  - rewrite !about_app. destruct A9 as [A9 A9'], B9 as [B9 B9']. split; intros H; apply app_eq_nil in H as [H H'].
    + rewrite (A9 H), (B9 H'). reflexivity.
    + rewrite (A9' H), (B9' H'). reflexivity.
Qed.
(** Work of other names, with a project of the same texts. *)
Definition same_project (pr pr' : parsed_project) : Prop := length (pr_files pr') = length (pr_files pr) /\ project_size pr' = project_size pr.
Lemma loaded_other pr pr' ws : same_project pr pr' -> about k_read ws = [] -> about k_parse ws = [] -> loaded pr pr' ws 0 0.
Proof.
  intros [L S] R P. assert (TR : total k_read ws = 0) by (unfold total; now rewrite R). assert (TP : total k_parse ws = 0) by (unfold total; now rewrite P).
  assert (AR : amounts k_read ws = []) by (unfold amounts; now rewrite R). assert (AP : amounts k_parse ws = []) by (unfold amounts; now rewrite P).
  constructor; try (apply headed_none; assumption); rewrite ?TR, ?TP, ?AR, ?AP, ?R, ?P; try (cbn [list_sum fold_right length Nat.add]; lia); try reflexivity.
  intros H. contradiction H. reflexivity.
Qed.
Lemma loaded_refl pr : loaded pr pr [] 0 0.
Proof. apply loaded_other; [split; reflexivity|reflexivity|reflexivity]. Qed.
Lemma list_sum_perm l l' : Permutation l l' -> list_sum l = list_sum l'.
Proof. induction 1; cbn [list_sum fold_right]; fold list_sum in *; unfold list_sum in *; cbn [fold_right] in *; lia. Qed.
Definition count_of (b : bool) : nat := if b then 1 else 0.
Section Reading.
Variable read_file : str -> option str.
Definition known_to (pr : parsed_project) (p : package) : bool := match find_parsed pr p with Some _ => true | None => false end.
Definition can_open (name : str) : bool := match read_file name with Some _ => true | None => false end.
Lemma add_file_loaded pr name p pr' f ws : add_file_counted read_file pr name p = Ret (pr', f, ws) ->
  loaded pr pr' ws (count_of (negb (can_open name))) (count_of (can_open name && known_to pr p)) /\ only [k_read; k_parse] ws /\
  (f = None <-> can_open name = false) /\
  forall f', f = Some f' -> find_parsed pr p = None -> pr_files pr' = map_insert p f' (pr_files pr).
Proof.
  unfold add_file_counted, can_open, known_to. intros E. part E. part E0. subst. destruct (read_file name) as [content|].
  - unfold add_build_file_content in E. destruct (find_parsed pr p) as [f0|] eqn:F; cbn [bind] in E.
    + part E. apply pair_equal_spec in E0 as [-> ->]. subst. split; [|split; [own|split; [split; discriminate|discriminate]]]. cbn [negb andb count_of].
      constructor; try (split; [intros k n I; cbn in I; intuition discriminate|right; eexists; reflexivity]); cbn; try lia; try reflexivity. split; discriminate.
    + destruct (parse content) as [[ast errs]| |] eqn:P; try discriminate. cbn [bind] in E. part E. apply pair_equal_spec in E0 as [-> ->]. subst.
      split; [|split; [own|split; [split; discriminate|intros f' [= <-] _; reflexivity]]].
      assert (L := Permutation_length (insert_perm p (mkFile p name content ast errs) (pr_files pr) F)). cbn [length] in L.
      assert (S : project_size (mkProject (map_insert p (mkFile p name content ast errs) (pr_files pr)) 0) = length content + project_size pr).
      { unfold project_size. cbn [pr_files]. rewrite (list_sum_perm _ _ (Permutation_map _ (insert_perm p (mkFile p name content ast errs) (pr_files pr) F))). reflexivity. }
      unfold project_size in S. cbn [pr_files] in S. cbn [negb andb count_of].
      constructor; try (split; [intros k n I; cbn in I; intuition discriminate|right; eexists; reflexivity]); cbn [pr_files]; unfold project_size; cbn [pr_files]; rewrite ?L, ?S; cbn; try lia; try reflexivity. split; discriminate.
  - part E. apply pair_equal_spec in E0 as [-> ->]. subst. split; [|split; [own|split; [split; reflexivity|discriminate]]]. cbn [negb andb count_of].
    constructor; try (split; [intros k n I; cbn in I; intuition discriminate|right; eexists; reflexivity]); cbn; try lia; try reflexivity; [intros _; unfold project_size, list_sum; lia|split; discriminate].
Qed.

Definition nseen (ns : list note) : nat := length (filter about_seen ns).
Definition nunread (ns : list note) : nat := length (filter about_unreadable ns).
Lemma nseen_app a b : nseen (a ++ b) = nseen a + nseen b.
Proof. unfold nseen. now rewrite filter_app, app_length. Qed.
Lemma nunread_app a b : nunread (a ++ b) = nunread a + nunread b.
Proof. unfold nunread. now rewrite filter_app, app_length. Qed.
Lemma add_file_notes pr name p r ns : add_file_told read_file pr name p = Ret (r, ns) ->
  nunread ns = count_of (negb (can_open name)) /\ nseen ns = count_of (can_open name && known_to pr p).
Proof.
  unfold add_file_told, can_open, known_to. destruct (read_file name) as [content|]; intros E.
  - chunk E. destruct a as [pr1 f1]. chunk E. subst. rewrite app_nil_r. unfold add_content_told in E0. destruct (find_parsed pr p).
    + chunk E0. subst. split; reflexivity.
    + destruct (parse content) as [[ast errs]| |]; try discriminate. cbn [bind] in E0. cbv zeta in E0. destruct (file_messages _) in E0; try discriminate. cbn [bind] in E0. chunk E0. subst.
      destruct (is_nil errs); split; reflexivity.
  - chunk E. subst. split; reflexivity.
Qed.
End Reading.
Section Loading.
Variable w : workspace.
Variable read_file : str -> option str.
Variable collect_build_files : pattern -> list str.
Variable walked : pattern -> nat.
Lemma files_loaded files proj : forall pr pr' ws pr2 ns, add_files_counted w read_file pr files proj = Ret (pr', ws) -> add_files_told w read_file pr files proj = Ret (pr2, ns) ->
  loaded pr pr' ws (nunread ns) (nseen ns) /\ only [k_read; k_parse] ws.
Proof.
  induction files as [|x files IH]; intros pr pr' ws pr2 ns E T; cbn [add_files_counted add_files_told] in E, T.
  - part E. chunk T. subst. split; [apply loaded_refl|constructor].
  - part E. chunk T. subst. assert (A : a0 = a).
    { apply bare_ret in E0. apply plain_ret in E1. rewrite file_in_bare in E0. rewrite add_file_in_plain in E1. congruence. }
    subst a0. destruct (IH _ _ _ _ _ E T) as [L O].
    assert (K : loaded pr a l (nunread l1) (nseen l1) /\ only [k_read; k_parse] l).
    { clear - E0 E1. unfold add_file_in_counted, add_file_in_told in E0, E1. part E0. part E. chunk E1. chunk E2. subst. rewrite E in E2. injection E2 as <-. cbn [app]. destruct a0 as [p|].
      - part E0. destruct a0 as [pr1 f1]. part E0. chunk E1. destruct a0 as [pr2 f2]. chunk E1. subst. rewrite !app_nil_r. apply add_file_loaded in E2 as (L & O & _).
        apply add_file_notes in E0 as [-> ->]. auto.
      - part E0. chunk E1. subst. split; [apply loaded_refl|constructor]. }
    destruct K as [L' O']. rewrite nunread_app, nseen_app. split; [eapply loaded_trans; eassumption|now apply only_app].
Qed.
Lemma fill_loaded pr pt pr' ws pr2 ns : fill_counted w read_file collect_build_files walked pr pt = Ret (pr', ws) -> fill_told w read_file collect_build_files pr pt = Ret (pr2, ns) ->
  loaded pr pr' ws (nunread ns) (nseen ns) /\ only [k_walk; k_read; k_parse] ws /\ about k_walk ws = [WUse k_walk ($"files/directories"); WCount k_walk (walked pt)].
Proof.
  unfold fill_counted, fill_told. cbv zeta. intros E T. part E. part E0. chunk T. chunk E0. chunk T. chunk T. subst. match goal with H : add_files_told _ _ _ _ _ = _ |- _ => destruct (files_loaded _ _ _ _ _ _ _ E H) as [L O] end.
  rewrite !nunread_app, !nseen_app. split; [|split].
  - match goal with |- loaded _ _ _ (?a + (?b + ?c)) (?d + (?e + ?f)) => replace (a + (b + c)) with (0 + b); [replace (d + (e + f)) with (0 + e)|] end.
    + eapply loaded_trans; [apply loaded_other; [split; reflexivity|reflexivity|reflexivity]|exact L].
    + destruct (_ && _), (is_nil _); unfold nseen; cbn [filter about_seen length]; lia.
    + destruct (_ && _), (is_nil _); unfold nunread; cbn [filter about_unreadable length]; lia.
  - apply only_app; [own|]. eapply only_more; [exact O|]. intros y [<-|[<-|[]]]; cbn; auto.
  - rewrite about_app, (only_none k_walk _ _ O) by other. reflexivity.
Qed.
End Loading.

(** * Elaborating and following *)
Record elaborated (n : nat) (ws : list work) : Prop := mkElaborated {
  el_head : headed k_elab ($"packages") ws;
  el_count : total k_elab ws = n;
  el_bytes : amounts k_elab ws = [];
  el_some : about k_elab ws <> [] -> 0 < total k_elab ws }.
Lemma elaborated_app n m a b : elaborated n a -> elaborated m b -> elaborated (n + m) (a ++ b).
Proof.
  intros [A1 A2 A3 A4] [B1 B2 B3 B4]. constructor.
  - now apply headed_app.
  - rewrite total_app. lia.
  - now rewrite amounts_app, A3, B3.
  - rewrite total_app, about_app. intros H. destruct (about k_elab a) as [|x l]; [specialize (B4 H); lia|]. specialize (A4 ltac:(discriminate)). lia.
Qed.
Lemma elaborated_none ws : about k_elab ws = [] -> elaborated 0 ws.
Proof. intros E. constructor; [now apply headed_none|unfold total; now rewrite E|unfold amounts; now rewrite E|rewrite E; intros H; contradiction H; reflexivity]. Qed.
Lemma elaborated_shows n ws : elaborated n ws -> match n with 0 => unmentioned ws k_elab | S _ => shows ws k_elab ($"packages") n None end.
Proof.
  intros [A1 A2 A3 A4]. destruct (about k_elab ws) as [|x l] eqn:E.
  - unfold total in A2. rewrite E in A2. cbn in A2. subst n. now apply none_unmentioned.
  - specialize (A4 ltac:(discriminate)). destruct n as [|n]; [lia|]. assert (X := headed_shows _ _ _ A1). rewrite E in X. specialize (X ltac:(discriminate)). rewrite A2, A3 in X. exact X.
Qed.
Lemma size_of_texts pr l : Forall2 (fun e e' : package * parsed_file => fst e' = fst e /\ same_text (snd e) (snd e')) (pr_files pr) l -> forall n, same_project pr (mkProject l n).
Proof.
  intros H n. unfold same_project, project_size. cbn [pr_files]. induction H as [|e e' l0 l1 [_ (_ & C & _)] _ [IH1 IH2]]; [auto|]. cbn [length map list_sum fold_right]. rewrite C. unfold list_sum in *. split; lia.
Qed.
Section Following.
Variable w : workspace.
Variable read_file : str -> option str.
Variable can_read : str -> bool.
Variable glob_in : package -> list str -> list str -> list str.
Variable looked_at : package -> list str -> list str -> nat.
Lemma elab_file_counts f f' ws : elaborate_file_counted glob_in looked_at f = Ret (f', ws) -> elaborated 1 ws /\ only [k_elab; k_glob] ws.
Proof.
  unfold elaborate_file_counted. intros E. part E. part E0. part E. destruct a0 as [ast g]. part E. subst. match goal with H : elab_elems_counted _ _ _ = _ |- _ => apply elems_only in H; rename H into E1 end. rewrite app_nil_r. split.
  - change 1 with (1 + 0). apply elaborated_app.
    + constructor; [split; [intros k n I; cbn in I; intuition discriminate|right; eexists; reflexivity]|reflexivity|reflexivity|intros _; unfold total; cbn; lia].
    + apply elaborated_none. apply (only_none _ _ _ E1). other.
  - apply only_app; [own|]. eapply only_more; [exact E1|]. intros y [<-|[]]; cbn; auto.
Qed.
Lemma elab_files_counts l : forall l' ws, elaborate_files_counted glob_in looked_at l = Ret (l', ws) -> elaborated (length l) ws /\ only [k_elab; k_glob] ws.
Proof.
  induction l as [|[p f] l IH]; intros l' ws E; cbn [elaborate_files_counted] in E.
  - part E. subst. split; [now apply elaborated_none|constructor].
  - part E. part E. part E. subst. apply elab_file_counts in E0 as [A O]. apply IH in E1 as [A' O']. rewrite app_nil_r. split; [exact (elaborated_app 1 _ _ _ A A')|now apply only_app].
Qed.
Lemma elab_project_counts pr pr' ws : elaborate_project_counted glob_in looked_at pr = Ret (pr', ws) ->
  elaborated (length (pr_files pr)) ws /\ only [k_elab; k_glob] ws /\ same_project pr pr'.
Proof.
  unfold elaborate_project_counted. intros E. part E. part E. subst. rewrite app_nil_r. destruct (elab_files_counts _ _ _ E0) as [A O]. apply bare_ret in E0. rewrite elab_files_bare in E0.
  apply elaborate_files_same in E0. split; [exact A|]. split; [exact O|]. now apply size_of_texts.
Qed.
Definition following : list str := [k_exist; k_read; k_parse; k_elab; k_glob].
Record followed (pr pr' : parsed_project) (ws : list work) : Prop := mkFollowed {
  fo_loaded : loaded pr pr' ws 0 0;
  fo_more : length (pr_files pr) <= length (pr_files pr');
  fo_elab : elaborated (length (pr_files pr') - length (pr_files pr)) ws;
  fo_head : headed k_exist ($"BUILD files") ws;
  fo_bytes : amounts k_exist ws = [];
  fo_exist : length (pr_files pr') - length (pr_files pr) <= total k_exist ws }.
Lemma followed_trans a b c ws ws' : followed a b ws -> followed b c ws' -> followed a c (ws ++ ws').
Proof.
  intros [A1 A2 A3 A4 A5 A6] [B1 B2 B3 B4 B5 B6]. constructor.
  - exact (loaded_trans _ _ _ _ _ _ _ _ _ A1 B1).
  - lia.
  - replace (length (pr_files c) - length (pr_files a)) with (length (pr_files b) - length (pr_files a) + (length (pr_files c) - length (pr_files b))) by lia. now apply elaborated_app.
  - now apply headed_app.
  - now rewrite amounts_app, A5, B5.
  - rewrite total_app. lia.
Qed.
Lemma followed_none pr ws : (forall k, In k following -> about k ws = []) -> followed pr pr ws.
Proof.
  intros H. constructor.
  - apply loaded_other; [split; reflexivity| |]; apply H; unfold following; cbn [In]; auto 8.
  - lia.
  - rewrite Nat.sub_diag. apply elaborated_none. apply H. unfold following. cbn [In]. auto 8.
  - apply headed_none. apply H. unfold following. cbn [In]. auto 8.
  - unfold amounts. rewrite H; [reflexivity|]. unfold following. cbn [In]. auto 8.
  - lia.
Qed.
Lemma path_counts p r ws : path_counted w can_read p = Ret (r, ws) ->
  only [k_exist] ws /\ headed k_exist ($"BUILD files") ws /\ amounts k_exist ws = [] /\ (r <> None -> 1 <= total k_exist ws).
Proof.
  unfold path_counted. intros E. part E. part E0. destruct (if is_nil (project p) then _ else _) as [start|] in E.
  2: { part E. subst. split; [own|]. split; [split; [intros k n I; cbn in I; intuition discriminate|right; eexists; reflexivity]|]. split; [reflexivity|]. intros H; contradiction H; reflexivity. }
  cbv zeta in E. destruct (can_read _) in E; part E; subst.
  - split; [own|]. split; [split; [intros k n I; cbn in I; intuition discriminate|right; eexists; reflexivity]|]. split; [reflexivity|]. intros _. unfold total. cbn. lia.
  - split; [own|]. split; [split; [intros k n I; cbn in I; intuition discriminate|right; eexists; reflexivity]|]. split; [reflexivity|]. intros _. unfold total. cbn. lia.
Qed.
Lemma missing_counts pr p pr' ws : parse_missing_counted w read_file can_read glob_in looked_at pr p = Ret (pr', ws) ->
  followed pr pr' ws /\ only following ws.
Proof.
  unfold parse_missing_counted. destruct (find_parsed pr p) as [f0|] eqn:F; intros E.
  { part E. subst. split; [now apply followed_none|constructor]. }
  part E. apply path_counts in E0 as (O & H & B & M). destruct a as [name|].
  2: { part E. subst. rewrite app_nil_r. split; [|eapply only_more; [exact O|intros y [<-|[]]; unfold following; cbn [In]; auto 8]]. constructor.
    - apply loaded_other; [split; reflexivity| |]; apply (only_none _ _ _ O); other.
    - lia.
    - rewrite Nat.sub_diag. apply elaborated_none. apply (only_none _ _ _ O). other.
    - exact H.
    - exact B.
    - lia. }
  part E. destruct a as [pr1 [f|]]; [|discriminate]. part E. part E. subst. destruct (add_file_loaded _ _ _ _ _ _ _ E0) as (L & O1 & N & I). specialize (I f eq_refl F).
  assert (Op : can_open read_file name = true) by (destruct (can_open read_file name); [reflexivity|]; destruct N as [_ N]; specialize (N eq_refl); discriminate).
  assert (Kn : known_to pr p = false) by (unfold known_to; now rewrite F). rewrite Op, Kn in L. cbn [negb andb count_of] in L.
  destruct (elab_file_counts _ _ _ E1) as [El O2]. apply bare_ret in E1. rewrite elab_file_bare in E1. apply elaborate_same in E1 as [(_ & St & _) _].
  assert (Len := Permutation_length (insert_perm p f (pr_files pr) F)). assert (Len2 := Permutation_length (set_insert_perm p f a (pr_files pr) F)). cbn [length] in Len, Len2.
  assert (S1 := list_sum_perm _ _ (Permutation_map (fun e => length (pf_content (snd e))) (insert_perm p f (pr_files pr) F))).
  assert (S2 := list_sum_perm _ _ (Permutation_map (fun e => length (pf_content (snd e))) (set_insert_perm p f a (pr_files pr) F))). cbn [map snd] in S1, S2. rewrite St in S2.
  split.
  - constructor; cbn [pr_files]; rewrite ?I, ?Len2.
    + eapply (loaded_trans _ pr _ _ _ 0 0 0 0); [apply loaded_other; [split; reflexivity| |]; apply (only_none _ _ _ O); other|].
      eapply (loaded_trans _ _ _ _ _ 0 0 0 0); [exact L|]. rewrite app_nil_r. apply loaded_other.
      * unfold same_project, project_size. cbn [pr_files]. rewrite I, Len, Len2. split; [reflexivity|]. etransitivity; [exact S2|symmetry; exact S1].
      * apply (only_none _ _ _ O2). other.
      * apply (only_none _ _ _ O2). other.
    + lia.
    + replace (S (length (pr_files pr)) - length (pr_files pr)) with (0 + (0 + 1)) by lia. apply elaborated_app; [apply elaborated_none; apply (only_none _ _ _ O); other|].
      apply elaborated_app; [apply elaborated_none; apply (only_none _ _ _ O1); other|now rewrite app_nil_r].
    + apply headed_app; [exact H|]. apply headed_none. rewrite !about_app. rewrite (only_none _ _ _ O1) by other. rewrite (only_none _ _ _ O2) by other. reflexivity.
    + rewrite !amounts_app, B. unfold amounts. rewrite (only_none _ _ _ O1) by other. rewrite (only_none _ _ _ O2) by other. reflexivity.
    + rewrite total_app. specialize (M ltac:(discriminate)). lia.
  - apply only_app; [eapply only_more; [exact O|intros y [<-|[]]; unfold following; cbn [In]; auto 8]|]. apply only_app; [eapply only_more; [exact O1|intros y [<-|[<-|[]]]; unfold following; cbn [In]; auto 8]|].
    rewrite app_nil_r. eapply only_more; [exact O2|intros y [<-|[<-|[]]]; unfold following; cbn [In]; auto 8].
Qed.
Lemma find_counts want : forall pr pr' ws, find_missing_counted w read_file can_read glob_in looked_at want pr = Ret (pr', ws) -> followed pr pr' ws /\ only following ws.
Proof.
  induction want as [|p want IH]; intros pr pr' ws E; cbn [find_missing_counted] in E.
  - part E. subst. split; [now apply followed_none|constructor].
  - part E. subst. apply missing_counts in E0 as [A O]. apply IH in E as [A' O']. split; [eapply followed_trans; eauto|now apply only_app].
Qed.
Lemma round_counts g pr todo g' pr' todo' ws : round_counted w read_file can_read glob_in looked_at g pr todo = Ret (g', pr', todo', ws) ->
  exists ws', ws = WCount k_rounds 1 :: ws' /\ followed pr pr' ws' /\ only following ws'.
Proof.
  unfold round_counted. cbv zeta. intros E. part E. part E0. part E. part E. part E2. part E. apply pair_equal_spec in E3 as [E3 ->]. apply pair_equal_spec in E3 as [-> ->]. subst.
  exists (l1 ++ []). split; [reflexivity|]. rewrite app_nil_r. eapply find_counts; eassumption.
Qed.
Lemma round_adds_nothing pr pr1 ws1 : followed pr pr1 ws1 -> followed pr pr1 (WCount k_rounds 1 :: ws1).
Proof.
  intros Fo. change (WCount k_rounds 1 :: ws1) with ([WCount k_rounds 1] ++ ws1). eapply followed_trans; [apply followed_none|exact Fo].
  intros k K. unfold following in K. cbn [In] in K. repeat (destruct K as [<-|K]; [reflexivity|]). destruct K.
Qed.
Lemma round_once ws1 : only following ws1 -> total k_rounds (WCount k_rounds 1 :: ws1) = 1 /\ amounts k_rounds (WCount k_rounds 1 :: ws1) = [].
Proof.
  intros O. change (WCount k_rounds 1 :: ws1) with ([WCount k_rounds 1] ++ ws1). rewrite total_app, amounts_app. unfold total at 2, amounts at 2. rewrite (only_none _ _ _ O) by other. split; reflexivity.
Qed.
Lemma rounds_counts depth : forall g pr todo g' pr' left ws, rounds_counted w read_file can_read glob_in looked_at depth g pr todo = Ret (g', pr', left, ws) ->
  followed pr pr' ws /\ only (k_rounds :: following) ws /\ amounts k_rounds ws = [] /\
  exists k, total k_rounds ws = S k /\ k <= depth /\ rounds w read_file can_read glob_in k g pr todo = Ret (g', pr', left) /\ (k = depth \/ left = []) /\
    forall m, m < k -> exists g1 pr1 left1, rounds w read_file can_read glob_in m g pr todo = Ret (g1, pr1, left1) /\ left1 <> [].
Proof.
  assert (One : forall g pr todo g1 pr1 todo1, run_round w read_file can_read glob_in g pr todo = Ret (g1, pr1, todo1) -> rounds w read_file can_read glob_in 0 g pr todo = Ret (g1, pr1, todo1)).
  { intros. cbn [rounds]. rewrite H. reflexivity. }
  induction depth as [|depth IH]; intros g pr todo g' pr' left ws E; cbn [rounds_counted] in E; part E; destruct a as [[g1 pr1] todo1]; destruct (round_counts _ _ _ _ _ _ _ E0) as (ws1 & -> & Fo & O).
  all: assert (R := bare_ret _ _ _ E0); rewrite round_bare in R; apply round_adds_nothing in Fo; destruct (round_once _ O) as [T1 A1].
  all: assert (O1 : only (k_rounds :: following) (WCount k_rounds 1 :: ws1)) by (constructor; [split; [left; reflexivity|reflexivity]|eapply only_more; [exact O|intros y I; right; exact I]]).
  - part E. apply pair_equal_spec in E1 as [E1 ->]. apply pair_equal_spec in E1 as [-> ->]. subst. rewrite app_nil_r. split; [exact Fo|]. split; [exact O1|]. split; [exact A1|].
    exists 0. split; [exact T1|]. split; [lia|]. split; [auto|]. split; [auto|]. intros m H. lia.
  - destruct (is_nil todo1) eqn:Nil.
    + part E. apply pair_equal_spec in E1 as [E1 ->]. apply pair_equal_spec in E1 as [-> ->]. subst. rewrite app_nil_r. split; [exact Fo|]. split; [exact O1|]. split; [exact A1|].
      exists 0. split; [exact T1|]. split; [lia|]. split; [auto|]. split; [right; now destruct todo1|]. intros m H. lia.
    + subst ws. apply IH in E as (Fo2 & O2 & A2 & k & T2 & Le & Rk & St & Mo). split; [eapply followed_trans; eassumption|]. split; [now apply only_app|]. split; [now rewrite amounts_app, A1, A2|].
      exists (S k). split; [rewrite total_app; lia|]. split; [lia|]. split; [cbn [rounds]; rewrite R; cbn [bind]; now rewrite Nil|]. split; [destruct St; [left; lia|auto]|].
      intros [|m] H.
      * exists g1, pr1, todo1. split; [auto|]. intros ->. discriminate.
      * destruct (Mo m ltac:(lia)) as (g2 & pr2 & left2 & R2 & N2). exists g2, pr2, left2. split; [|exact N2]. cbn [rounds]. rewrite R. cbn [bind]. now rewrite Nil.
Qed.
Notation rounds_needed := (rounds_needed w read_file can_read glob_in).
Lemma graph_counts pt depth pr g pr' ws : graph_counted w read_file can_read glob_in looked_at pt depth pr = Ret (g, pr', ws) ->
  followed pr pr' ws /\ only (k_rounds :: following) ws /\
  exists n, fold_left entry_step (about k_rounds ws) None = Some (mkStat ($"rounds") n None) /\ rounds_needed pt depth pr g pr' n.
Proof.
  unfold graph_counted. intros E. part E. part E0. part E. part E0. rename E0 into I. part E. destruct a1 as [[g1 pr1] left1]. part E. match goal with H : (_, _) = (_, _) |- _ => apply pair_equal_spec in H as [-> ->] end. subst. rewrite app_nil_r. cbn [app]. rename E0 into E2.
  apply rounds_counts in E2 as (Fo & O & A & k & T & Le & R & St & Mo). split; [|split].
  - change (WUse k_rounds ($"rounds") :: l3) with ([WUse k_rounds ($"rounds")] ++ l3). eapply followed_trans; [apply followed_none|exact Fo].
    intros j K. unfold following in K. cbn [In] in K. repeat (destruct K as [<-|K]; [reflexivity|]). destruct K.
  - constructor; [split; [left; reflexivity|reflexivity]|exact O].
  - exists (S k). split.
    + change (about k_rounds (WUse k_rounds ($"rounds") :: l3)) with (WUse k_rounds ($"rounds") :: about k_rounds l3). cbn [fold_left entry_step]. rewrite steps by (intros j n; apply (only_adding _ _ _ _ _ O)).
      fold (total k_rounds l3). fold (amounts k_rounds l3). rewrite T, A. reflexivity.
    + exists k, left1. unfold build_graph. rewrite I, !Nat2Z.id. cbn [bind]. repeat (split; [assumption || reflexivity|]). intros m H. rewrite Nat2Z.id. auto.
Qed.
End Following.
