(** Counting does not change what is computed; what the table has. *)
From Coq Require Import Lia Permutation.
From Verif Require Import Base OMap M_Types M_Scanner M_Ast M_Parser M_Query M_Elab M_Workspace M_Project M_DepGraph M_Printer M_Table M_Headers
  M_Dwyu S_Dwyu P_Dwyu M_Edits M_Highlight M_Commands M_Main P_Told M_Stats S_Stats.

(** * Leaving out what is counted *)
Definition bare {A} (x : measured A) : outcome A := do (a, _) <- x; Ret a.
Lemma bare_note {A} l (a : A) : bare (note_work l a) = Ret a.
Proof. reflexivity. Qed.
Lemma bare_no {A} (x : outcome A) : bare (no_work x) = x.
Proof. destruct x; reflexivity. Qed.
Lemma bare_bind {A B} (x : measured A) (f : A -> measured B) : bare (cbind x f) = bind (bare x) (fun a => bare (f a)).
Proof. unfold bare, cbind. destruct x as [[a l]| |]; [|reflexivity..]. cbn [bind]. destruct (f a) as [[b l']| |]; reflexivity. Qed.
Lemma bare_outer {A B} (x : outcome A) (f : A -> measured B) : bare (bind x f) = bind x (fun a => bare (f a)).
Proof. destruct x; reflexivity. Qed.
Lemma bare_ret {A} (x : measured A) a l : x = Ret (a, l) -> bare x = Ret a.
Proof. now intros ->. Qed.
Lemma bare_back {A} (x : measured A) a : bare x = Ret a -> exists l, x = Ret (a, l).
Proof. destruct x as [[b l]| |]; [|discriminate..]. intros [= ->]. exists l. reflexivity. Qed.
Lemma count_split {A B} (x : measured A) (f : A -> measured B) b l : cbind x f = Ret (b, l) ->
  exists a l1 l2, x = Ret (a, l1) /\ f a = Ret (b, l2) /\ l = l1 ++ l2.
Proof.
  unfold cbind. destruct x as [[a l1]| |]; [|discriminate..]. cbn [bind]. destruct (f a) as [[b' l2]| |] eqn:E; [|discriminate..]. cbn [bind].
  intros H. injection H as <- <-. exists a, l1, l2. auto.
Qed.
Lemma no_split {A} (x : outcome A) a l : no_work x = Ret (a, l) -> x = Ret a /\ l = [].
Proof. destruct x; [|discriminate..]. cbn. intros H. injection H as <- <-. auto. Qed.
Lemma note_split {A} l0 (a0 a : A) l : note_work l0 a0 = Ret (a, l) -> a = a0 /\ l = l0.
Proof. intros H. injection H as <- <-. auto. Qed.
Ltac part H := match type of H with
  | cbind _ _ = Ret _ => let a := fresh "a" in let l := fresh "l" in let l' := fresh "l" in let E := fresh "E" in let Q := fresh "Q" in
      apply count_split in H as (a & l & l' & E & H & Q)
  | no_work _ = Ret _ => let Q := fresh "Q" in apply no_split in H as [H Q]
  | note_work _ _ = Ret _ => let E := fresh "E" in let Q := fresh "Q" in apply note_split in H as [E Q]
  end.

Section Elab.
Variable multi_glob : list str -> list str -> list str.
Variable looked_at : list str -> list str -> nat.
Lemma glob_bare v l : bare (handle_glob_counted multi_glob looked_at v l) = handle_glob multi_glob v l.
Proof.
  unfold handle_glob_counted, handle_glob. rewrite bare_outer. apply bind_ext. intros [i e]. rewrite bare_outer. apply bind_ext. intros i'.
  rewrite bare_outer. apply bind_ext. reflexivity.
Qed.
Ltac step := rewrite bare_bind; match goal with H : context [bare (elab_counted _ _ _ ?n _)] |- context [bare (elab_counted _ _ _ ?n _)] => rewrite H end; apply bind_ext; let n := fresh "n" in let g := fresh "g" in intros [n g].
Lemma elab_bare n : forall level g, bare (elab_counted multi_glob looked_at level n g) = elab multi_glob level n g.
Proof.
  induction n using node_ind'; intros level g; cbn [elab_counted elab]; try reflexivity.
  - step. reflexivity.
  - step. step. destruct op; try reflexivity. apply bare_no.
  - rewrite bare_bind.
    assert (X : forall g, bare (elab_elems_counted (elab_counted multi_glob looked_at level) elems g) = elab_elems (elab multi_glob level) elems g).
    { induction H as [|n l H _ IH]; intros g0; cbn [elab_elems_counted elab_elems]; [reflexivity|]. step. rewrite bare_bind, IH. apply bind_ext. intros [l' g']. reflexivity. }
    rewrite X. apply bind_ext. intros [l' g']. reflexivity.
  - step. reflexivity.
  - step. step. step. reflexivity.
  - step. reflexivity.
  - step. step. destruct n; try reflexivity. destruct (str_eqb _ _).
    + destruct n0; try reflexivity. rewrite bare_bind, glob_bare. apply bind_ext. reflexivity.
    + destruct (str_eqb _ _); [|reflexivity]. destruct n0; try reflexivity. apply bare_no.
Qed.
Lemma elems_bare level l : forall g, bare (elab_elems_counted (elab_counted multi_glob looked_at level) l g) = elab_elems (elab multi_glob level) l g.
Proof.
  induction l as [|n l IH]; intros g; cbn [elab_elems_counted elab_elems]; [reflexivity|]. rewrite bare_bind, elab_bare. apply bind_ext. intros [n' g'].
  rewrite bare_bind, IH. apply bind_ext. intros [l' g'']. reflexivity.
Qed.
End Elab.

Section Loading.
Variable w : workspace.
Variable read_file : str -> option str.
Variable can_read : str -> bool.
Variable glob_in : package -> list str -> list str -> list str.
Variable looked_at : package -> list str -> list str -> nat.
Variable collect_build_files : pattern -> list str.
Variable walked : pattern -> nat.
Lemma file_bare pr f p : bare (add_file_counted read_file pr f p) = add_build_file read_file pr f p.
Proof.
  unfold add_file_counted, add_build_file. rewrite bare_bind. cbn [bare note_work bind]. destruct (read_file f); [|reflexivity]. fold (bare (A := parsed_project * option parsed_file)).
  change (bare (do (pr0, f0) <- add_build_file_content pr p f s; note_work [WCount k_parse 1; WBytes k_parse (length (pf_content f0)); WBytes k_read (length (pf_content f0))] (pr0, Some f0))
    = do (pr0, f0) <- add_build_file_content pr p f s; Ret (pr0, Some f0)).
  rewrite bare_outer. apply bind_ext. intros [pr' f']. reflexivity.
Qed.
Lemma file_in_bare pr f proj : bare (add_file_in_counted w read_file pr f proj) = add_build_file_in w read_file pr f proj.
Proof.
  unfold add_file_in_counted, add_build_file_in. rewrite bare_bind, bare_no. apply bind_ext. intros [p|]; [|reflexivity].
  rewrite bare_bind, file_bare. apply bind_ext. intros [pr' f']. reflexivity.
Qed.
Lemma files_bare files proj : forall pr, bare (add_files_counted w read_file pr files proj) = add_build_files w read_file pr files proj.
Proof.
  induction files as [|f files IH]; intros pr; cbn [add_files_counted add_build_files]; [reflexivity|]. rewrite bare_bind, file_in_bare. apply bind_ext. auto.
Qed.
Lemma fill_bare pr pt : bare (fill_counted w read_file collect_build_files walked pr pt) = fill_from_pattern w read_file collect_build_files pr pt.
Proof. unfold fill_counted, fill_from_pattern. rewrite bare_bind. cbn [bare note_work bind]. apply files_bare. Qed.
Lemma elab_file_bare f : bare (elaborate_file_counted glob_in looked_at f) = elaborate_file glob_in f.
Proof.
  unfold elaborate_file_counted, elaborate_file, elaborate. rewrite bare_bind. cbn [bare note_work bind].
  match goal with |- ?x = _ => change x with (bare (count (ast, _) <- elab_elems_counted (elab_counted (glob_in (pf_package f)) (looked_at (pf_package f)) 0) (pf_ast f) []; note_work [] (mkFile (pf_package f) (pf_name f) (pf_content f) ast (pf_errors f)))) end.
  rewrite bare_bind, elems_bare, bind_bind. apply bind_ext. intros [l g]. reflexivity.
Qed.
Lemma elab_files_bare l : bare (elaborate_files_counted glob_in looked_at l) = elaborate_files glob_in l.
Proof.
  induction l as [|[p f] l IH]; cbn [elaborate_files_counted elaborate_files]; [reflexivity|]. rewrite bare_bind, elab_file_bare. apply bind_ext. intros f'.
  rewrite bare_bind, IH. apply bind_ext. reflexivity.
Qed.
Lemma elab_project_bare pr : bare (elaborate_project_counted glob_in looked_at pr) = elaborate_project glob_in pr.
Proof. unfold elaborate_project_counted, elaborate_project. rewrite bare_bind, elab_files_bare. apply bind_ext. reflexivity. Qed.
Lemma path_bare p : bare (path_counted w can_read p) = Ret (path_for_package w can_read p).
Proof.
  unfold path_counted, path_for_package. rewrite bare_bind, bare_note. cbn [bind]. destruct (if is_nil (project p) then _ else _) as [start|]; [|reflexivity].
  cbv zeta. cbn [find]. destruct (can_read _); [reflexivity|]. rewrite bare_note. destruct (can_read _); reflexivity.
Qed.
Lemma missing_bare pr p : bare (parse_missing_counted w read_file can_read glob_in looked_at pr p) = parse_missing w read_file can_read glob_in pr p.
Proof.
  unfold parse_missing_counted, parse_missing. destruct (find_parsed pr p); [reflexivity|]. rewrite bare_bind, path_bare. cbn [bind].
  destruct (path_for_package w can_read p) as [name|]; [|reflexivity]. rewrite bare_bind, file_bare. apply bind_ext. intros [pr' [f|]]; [|reflexivity].
  rewrite bare_bind, elab_file_bare. apply bind_ext. reflexivity.
Qed.
Lemma find_bare want : forall pr, bare (find_missing_counted w read_file can_read glob_in looked_at want pr) = find_and_parse_missing w read_file can_read glob_in want pr.
Proof.
  induction want as [|p want IH]; intros pr; cbn [find_missing_counted find_and_parse_missing]; [reflexivity|]. rewrite bare_bind, missing_bare. apply bind_ext. auto.
Qed.
Lemma round_bare g pr todo : bare (round_counted w read_file can_read glob_in looked_at g pr todo) = run_round w read_file can_read glob_in g pr todo.
Proof.
  unfold round_counted, run_round. cbv zeta. rewrite bare_bind, bare_note. cbn [bind]. rewrite bare_bind, find_bare. apply bind_ext. intros pr'.
  rewrite bare_bind, bare_no. apply bind_ext. reflexivity.
Qed.
Lemma rounds_bare depth : forall g pr todo, bare (rounds_counted w read_file can_read glob_in looked_at depth g pr todo) = rounds w read_file can_read glob_in depth g pr todo.
Proof.
  induction depth as [|depth IH]; intros g pr todo; cbn [rounds_counted rounds]; rewrite bare_bind, round_bare; apply bind_ext; intros [[g' pr'] todo']; [reflexivity|].
  destruct (is_nil todo'); [reflexivity|apply IH].
Qed.
Lemma graph_bare pt depth pr :
  bare (graph_counted w read_file can_read glob_in looked_at pt depth pr) = do (g, pr, _) <- build_graph w read_file can_read glob_in pt depth pr; Ret (g, pr).
Proof.
  unfold graph_counted, build_graph. rewrite bare_bind, bare_note. cbn [bind]. rewrite bare_bind, bare_no, bind_bind. apply bind_ext. intros todo.
  rewrite bare_bind, rounds_bare. apply bind_ext. intros [[g' pr'] todo']. reflexivity.
Qed.
End Loading.

(** * The table *)
Lemma eqb_sym (a b : str) : str_eqb a b = str_eqb b a.
Proof. destruct (str_eqb a b) eqn:E, (str_eqb b a) eqn:F; try reflexivity; apply str_eqb_eq in E || apply str_eqb_eq in F; subst; rewrite str_eqb_refl in *; discriminate. Qed.
Definition on (name : str) (x : work) : bool :=
  match x with WUse k _ | WCount k _ | WSet k _ | WBytes k _ => str_eqb name k end.
Definition about (name : str) (ws : list work) : list work := filter (on name) ws.
Lemma about_app name a b : about name (a ++ b) = about name a ++ about name b.
Proof. apply filter_app. Qed.
Fixpoint find_stat (name : str) (l : stats) : option stat :=
  match l with [] => None | (k, s) :: l => if str_eqb name k then Some s else find_stat name l end.
Definition entry_step (o : option stat) (x : work) : option stat :=
  match o, x with
  | None, WUse _ s => Some (mkStat s 0 None)
  | Some s, WUse _ _ => Some s
  | None, _ => None
  | Some s, WCount _ n => Some (mkStat (st_subject s) (st_count s + n) (st_bytes s))
  | Some s, WSet _ n => Some (mkStat (st_subject s) n (st_bytes s))
  | Some s, WBytes _ n => Some (mkStat (st_subject s) (st_count s) (Some (match st_bytes s with Some b => b + n | None => n end)))
  end.
Lemma change_find name k f l : find_stat name (change_stat k f l) = if str_eqb name k then option_map f (find_stat name l) else find_stat name l.
Proof.
  induction l as [|[j s] l IH]; cbn [change_stat find_stat]; [destruct (str_eqb name k); reflexivity|].
  destruct (str_eqb k j) eqn:E; cbn [find_stat].
  - apply str_eqb_eq in E as <-. destruct (str_eqb name k) eqn:N; reflexivity.
  - destruct (str_eqb name j) eqn:N; [|exact IH]. apply str_eqb_eq in N as ->. rewrite eqb_sym, E. reflexivity.
Qed.
Lemma find_last name l e : find_stat name (l ++ [e]) = match find_stat name l with Some s => Some s | None => if str_eqb name (fst e) then Some (snd e) else None end.
Proof. destruct e as [j t]. induction l as [|[k s] l IH]; cbn [app find_stat fst snd]; [reflexivity|]. destruct (str_eqb name k); [reflexivity|exact IH]. Qed.
Lemma existsb_find name l : existsb (fun e => str_eqb name (fst e)) l = match find_stat name l with Some _ => true | None => false end.
Proof. induction l as [|[k s] l IH]; cbn [existsb find_stat fst]; [reflexivity|]. destruct (str_eqb name k); [reflexivity|exact IH]. Qed.
Lemma step_find name l x : find_stat name (do_work l x) = if on name x then entry_step (find_stat name l) x else find_stat name l.
Proof.
  destruct x as [k s|k n|k n|k n]; cbn [do_work on].
  2-4: rewrite change_find; destruct (str_eqb name k); [|reflexivity]; destruct (find_stat name l); reflexivity.
  rewrite existsb_find. destruct (str_eqb name k) eqn:E.
  - apply str_eqb_eq in E as ->. destruct (find_stat k l) as [t|] eqn:F; cbn [entry_step]; [exact F|]. rewrite find_last, F. cbn [fst snd]. now rewrite str_eqb_refl.
  - destruct (find_stat k l); [reflexivity|]. rewrite find_last. cbn [fst]. rewrite E. destruct (find_stat name l); reflexivity.
Qed.
Lemma find_about name ws : find_stat name (stats_of ws) = fold_left entry_step (about name ws) None.
Proof.
  unfold stats_of. assert (X : forall l, find_stat name (fold_left do_work ws l) = fold_left entry_step (about name ws) (find_stat name l)); [|apply X].
  induction ws as [|x ws IH]; intros l; cbn [fold_left about filter]; [reflexivity|].
  rewrite IH, step_find. destruct (on name x); reflexivity.
Qed.
(** The keys. *)
Lemma change_keys k f l : map fst (change_stat k f l) = map fst l.
Proof. induction l as [|[j s] l IH]; cbn [change_stat map fst]; [reflexivity|]. destruct (str_eqb k j); cbn [map fst]; [reflexivity|now rewrite IH]. Qed.
Lemma existsb_keys name (l : stats) : existsb (fun e => str_eqb name (fst e)) l = existsb (str_eqb name) (map fst l).
Proof. induction l as [|e l IH]; cbn [existsb map]; [reflexivity|now rewrite IH]. Qed.
Lemma keys_from ws : forall l, map fst (fold_left do_work ws l) = map fst l ++ filter (fun k => negb (existsb (str_eqb k) (map fst l))) (first_of (uses ws)).
Proof.
  induction ws as [|x ws IH]; intros l; [cbn; now rewrite app_nil_r|]. cbn [fold_left]. rewrite IH. destruct x as [k s|k n|k n|k n]; cbn [do_work].
  2-4: rewrite change_keys; reflexivity.
  change (uses (WUse k s :: ws)) with (k :: uses ws). cbn [first_of filter]. rewrite existsb_keys. destruct (existsb (str_eqb k) (map fst l)) eqn:E; cbn [negb].
  - f_equal. clear - E. induction (first_of (uses ws)) as [|y r IH]; [reflexivity|]. cbn [filter]. destruct (str_eqb k y) eqn:K; cbn [negb filter].
    + apply str_eqb_eq in K as <-. rewrite E. exact IH.
    + destruct (existsb (str_eqb y) (map fst l)); cbn [negb filter]; [exact IH|now rewrite IH].
  - rewrite map_app. cbn [map fst]. rewrite <- app_assoc. cbn [app]. do 2 f_equal. clear. induction (first_of (uses ws)) as [|y r IH]; [reflexivity|]. cbn [filter].
    rewrite existsb_app. cbn [existsb]. rewrite orb_false_r. rewrite (eqb_sym k y). destruct (str_eqb y k); cbn [negb filter].
    + rewrite orb_true_r. exact IH.
    + rewrite orb_false_r. destruct (existsb (str_eqb y) (map fst l)); cbn [negb filter]; [exact IH|now rewrite IH].
Qed.
Lemma table_keys ws : map fst (stats_of ws) = first_of (uses ws).
Proof. unfold stats_of. rewrite keys_from. cbn [map app existsb]. induction (first_of (uses ws)) as [|y r IH]; [reflexivity|]. cbn [filter negb]. f_equal. exact IH. Qed.
Lemma first_nodup l : NoDup (first_of l).
Proof.
  induction l as [|x l IH]; cbn [first_of]; constructor.
  - intros I. apply filter_In in I as [_ I]. rewrite str_eqb_refl in I. discriminate.
  - apply NoDup_filter, IH.
Qed.
Lemma first_in x l : In x (first_of l) <-> In x l.
Proof.
  induction l as [|y l IH]; cbn [first_of In]; [tauto|]. rewrite filter_In, IH. split; [tauto|]. intros [->|I]; [auto|].
  destruct (str_eqb y x) eqn:E; [apply str_eqb_eq in E; auto|auto].
Qed.
Lemma in_find name s l : In (name, s) l -> NoDup (map fst l) -> find_stat name l = Some s.
Proof.
  induction l as [|[k t] l IH]; intros I N; [destruct I|]. cbn [map fst] in N. inversion N as [|? ? N1 N2]; subst. cbn [find_stat]. destruct I as [I|I].
  - injection I as -> ->. now rewrite str_eqb_refl.
  - destruct (str_eqb name k) eqn:E; [|auto]. apply str_eqb_eq in E as ->. exfalso. apply N1. change k with (fst (k, s)). now apply in_map.
Qed.
Lemma find_in name s l : find_stat name l = Some s -> In (name, s) l.
Proof. induction l as [|[k t] l IH]; cbn [find_stat]; [discriminate|]. destruct (str_eqb name k) eqn:E; [|intros H; right; auto]. apply str_eqb_eq in E as ->. intros [= ->]. now left. Qed.
Lemma find_no name l : find_stat name l = None <-> ~ In name (map fst l).
Proof.
  induction l as [|[k t] l IH]; cbn [find_stat map fst In]; [tauto|]. destruct (str_eqb name k) eqn:E.
  - apply str_eqb_eq in E as ->. split; [discriminate|]. intros H. exfalso. apply H. auto.
  - rewrite IH. split; [|tauto]. intros H [->|I]; [|auto]. rewrite str_eqb_refl in E. discriminate.
Qed.
Lemma shows_iff ws name subject n b : shows ws name subject n b <-> fold_left entry_step (about name ws) None = Some (mkStat subject n b).
Proof.
  rewrite <- find_about. unfold shows. split; intros H; [apply in_find; [exact H|rewrite table_keys; apply first_nodup]|now apply find_in].
Qed.
Lemma unmentioned_iff ws name : unmentioned ws name <-> fold_left entry_step (about name ws) None = None.
Proof. rewrite <- find_about. unfold unmentioned. symmetry. apply find_no. Qed.
