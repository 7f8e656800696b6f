(** Which packages are loaded while dependencies are followed. *)
From Coq Require Import ZArith Lia.
From Verif Require Import Base OMap M_Types M_Scanner M_Ast M_Parser M_Query M_Elab M_Workspace M_Project P_Project M_DepGraph S_DepGraph P_DepGraph.

Section Loaded.
Variable w : workspace.
Variable read_file : str -> option str.
Variable can_read : str -> bool.
Variable glob_in : package -> list str -> list str -> list str.
Variable pr0 : parsed_project.
Hypothesis ok0 : project_ok pr0.
Variable pt : pattern.
Notation file_of := (file_of w read_file can_read glob_in pr0).
Notation exists_target := (exists_target w read_file can_read glob_in pr0).
Notation depends := (depends w read_file can_read glob_in pr0).
Notation reach := (reach w read_file can_read glob_in pr0 pt).
Notation grown := (grown w read_file can_read glob_in pr0).
Notation rinv := (rinv w read_file can_read glob_in pr0 pt).
Notation run_round := (run_round w read_file can_read glob_in).
Notation rounds := (rounds w read_file can_read glob_in).

(** It is there, or has no BUILD file. *)
Definition tried (pr : parsed_project) (p : package) : Prop := find_parsed pr p = None -> path_for_package w can_read p = None.
Record linv (k : nat) (pr : parsed_project) (todo : list target) : Prop := mkLinv {
  l_before : forall j t, j < k -> reach j t -> tried pr (tpackage t);
  l_now : forall t, reach k t -> tried pr (tpackage t) \/ In t todo;
  l_only : forall p f, find_parsed pr p = Some f -> find_parsed pr0 p = Some f \/ exists j t, j < k /\ reach j t /\ tpackage t = p
}.
Lemma exists_file t : exists_target t -> exists f, file_of (tpackage t) f.
Proof. intros (r & f & a & b & F & _). eauto. Qed.
Lemma depends_exists s d : depends s d -> exists_target s.
Proof. intros (ds & (r & R & _) & _). exists r. exact R. Qed.
Lemma linv_start todo : initial_todo pt (pr_files pr0) [] = Ret todo -> linv 0 pr0 todo.
Proof.
  intros E. destruct (initial_spec _ ok0 pt todo E) as (_ & H). constructor; [intros; lia| |auto]. intros t R. right. apply H. inversion R; subst. assumption.
Qed.
Lemma linv_round k g pr todo g' pr' todo' : rinv k g pr todo -> linv k pr todo -> run_round g pr todo = Ret (g', pr', todo') -> linv (S k) pr' todo'.
Proof.
  intros RI [LB LN LO] E. pose proof RI as [G So C Dj Ks To Al De Cl Sz]. pose proof (round_spec _ _ _ _ _ _ _ _ _ _ _ G So C Dj E) as (G' & _ & _ & Ex & Ks' & _ & _ & Nx).
  assert (KEEP : forall p, tried pr p -> tried pr' p) by (intros p T N; apply T; destruct (find_parsed pr p) eqn:F; [apply Ex in F; congruence|reflexivity]).
  assert (M : (forall q, In q (map tpackage todo) -> tried pr' q) /\ (forall q, find_parsed pr q = None -> ~ In q (map tpackage todo) -> find_parsed pr' q = None)).
  { unfold M_DepGraph.run_round in E. destruct (find_and_parse_missing w read_file can_read glob_in _ pr) as [p1| |] eqn:F; try discriminate E. cbn [bind] in E. destruct (scan_packages p1 _ _); try discriminate E. cbn [bind] in E. injection E as _ <- _.
    destruct (parse_missing_all _ _ _ _ _ _ _ _ G F) as (_ & _ & A & B). split; intros q; [intros I N; apply A; [apply set_of_list_in, I|exact N]|]. intros N I. apply B; [exact N|]. rewrite set_of_list_in. exact I. }
  destruct M as [MT MO].
  assert (UPTO : forall j t, j <= k -> reach j t -> tried pr' (tpackage t)).
  { intros j t L R. destruct (Nat.eq_dec j k) as [->|N]; [|apply KEEP, (LB j); [lia|exact R]]. destruct (LN t R) as [T|I]; [apply KEEP, T|]. apply MT, in_map, I. }
  constructor.
  - intros j t L R. apply (UPTO j); [lia|exact R].
  - intros d R. inversion R as [|n s d' Rs D]; subst. pose proof (depends_exists _ _ D) as XS. destruct (Al s Rs XS) as [K|T].
    + apply Ks in K as (_ & j & L & Rj). left. apply (UPTO (S j)); [lia|]. econstructor; eassumption.
    + destruct (in_dec key_dec d todo) as [I|NI]; [left; apply MT, in_map, I|]. destruct (in_dec key_dec d (keys (depends_on g))) as [K|NK].
      * apply Ks in K as (_ & j & L & Rj). left. apply (UPTO j); [lia|exact Rj].
      * right. apply Nx. split; [exact NK|]. split; [exact NI|]. exists s. auto.
  - intros p f F. destruct (find_parsed pr p) as [f0|] eqn:F0.
    + pose proof (Ex _ _ F0) as F1. rewrite F in F1. injection F1 as <-. destruct (LO p f F0) as [A|(j & t & L & R & Z)]; [auto|]. right. exists j, t. split; [lia|auto].
    + right. destruct (in_dec key_dec p (map tpackage todo)) as [I|N]; [|rewrite (MO p F0 N) in F; discriminate F]. apply in_map_iff in I as (t & <- & I). exists k, t. split; [lia|]. split; [apply To, I|reflexivity].
Qed.
Lemma linv_rounds depth : forall k g pr todo g' pr' todo', rinv k g pr todo -> linv k pr todo -> rounds depth g pr todo = Ret (g', pr', todo') ->
  exists n, k < n <= k + depth + 1 /\ rinv n g' pr' todo' /\ linv n pr' todo' /\ (todo' = [] \/ n = k + depth + 1).
Proof.
  induction depth as [|depth IH]; intros k g pr todo g' pr' todo' Iv L E; cbn [M_DepGraph.rounds] in E;
    (destruct (run_round g pr todo) as [[[g1 pr1] todo1]| |] eqn:E1; cbn [bind] in E; try discriminate);
    pose proof (rinv_round _ _ _ _ _ _ _ _ _ _ _ _ _ Iv E1) as Iv1; pose proof (linv_round _ _ _ _ _ _ _ Iv L E1) as L1.
  - injection E as <- <- <-. exists (S k). split; [lia|]. split; [exact Iv1|]. split; [exact L1|]. right. lia.
  - destruct (is_nil todo1) eqn:N.
    + injection E as <- <- <-. exists (S k). split; [lia|]. split; [exact Iv1|]. split; [exact L1|]. left. destruct todo1; [reflexivity|discriminate N].
    + destruct (IH _ _ _ _ _ _ _ Iv1 L1 E) as (n & B & R & LL & Z). exists n. split; [lia|]. split; [exact R|]. split; [exact LL|]. destruct Z as [Z|Z]; [auto|right; lia].
Qed.
(** The files known afterwards: those of the project, and of packages with targets within reach.
    Of the latter all are known that have a BUILD file. *)
Theorem loaded_spec depth g pr todo : build_graph w read_file can_read glob_in pt depth pr0 = Ret (g, pr, todo) ->
  project_ok pr /\ (forall p f, find_parsed pr p = Some f <-> file_of p f /\ (find_parsed pr0 p = Some f \/ exists j t, j <= Z.to_nat depth /\ reach j t /\ tpackage t = p)) /\
  forall j t, j <= Z.to_nat depth -> reach j t -> tried pr (tpackage t).
Proof.
  unfold build_graph. destruct (initial_todo pt (pr_files pr0) []) as [todo0| |] eqn:E0; cbn [bind]; try discriminate. intros E.
  destruct (linv_rounds _ _ _ _ _ _ _ _ (rinv_start _ _ _ _ _ ok0 _ _ E0) (linv_start _ E0) E) as (n & B & RI & [LB LN LO] & Z).
  pose proof (v_grown _ _ _ _ _ _ _ _ _ _ RI) as (OK & FI & EX). split; [exact OK|].
  assert (TR : forall j t, j <= Z.to_nat depth -> reach j t -> tried pr (tpackage t)).
  { intros j t L R. destruct Z as [->|N]; [|apply (LB j); [lia|exact R]]. clear L. revert t R. assert (X : forall j t, j <= n -> reach j t -> tried pr (tpackage t)).
    { intros i t L R. destruct (Nat.eq_dec i n) as [->|N]; [|apply (LB i); [lia|exact R]]. destruct (LN t R) as [T|[]]; exact T. }
    intros t R. inversion R as [t' M|m s t' Rs D]; subst; [apply (X 0); [lia|exact R]|].
    assert (K : In s (keys (depends_on g))) by (apply (rinv_complete _ _ _ _ _ _ _ _ _ RI); [lia|split; [eapply depends_exists, D|eauto]]).
    apply (v_keys _ _ _ _ _ _ _ _ _ _ RI) in K as (_ & i & L & Ri). apply (X (S i)); [lia|]. econstructor; eassumption. }
  split; [|exact TR]. intros p f. split.
  - intros F. split; [apply FI, F|]. destruct (LO p f F) as [A|(j & t & L & R & T)]; [auto|]. right. exists j, t. split; [lia|auto].
  - intros (F & [A|(j & t & L & R & <-)]); [apply EX, A|]. pose proof (TR j t L R) as T.
    destruct (find_parsed pr (tpackage t)) as [f'|] eqn:F'; [f_equal; eapply file_of_fun; [apply FI, F'|exact F]|]. specialize (T F').
    unfold S_DepGraph.file_of in F. destruct (find_parsed pr0 (tpackage t)) as [f0|] eqn:F0; [apply EX in F0; congruence|]. destruct F as (nm & c & st & er & ast & P & _). congruence.
Qed.
End Loaded.
