(** Proofs about the count of files with errors. *)
From Verif Require Import Base OMap M_Types M_Scanner M_Ast M_Parser M_Workspace M_Project P_Project.

Definition faulty (e : package * parsed_file) : bool := negb (is_nil (pf_errors (snd e))).
Lemma count_insert p f m : map_find p m = None ->
  length (filter faulty (map_insert p f m)) = length (filter faulty m) + (if is_nil (pf_errors f) then 0 else 1).
Proof.
  induction m as [|[q g] m IH]; intros N; cbn [map_insert].
  - cbn. unfold faulty. cbn. destruct (is_nil (pf_errors f)); reflexivity.
  - cbn [map_find] in N. destruct (keqb_spec p q) as [->|D]; [discriminate|]. destruct (kcmp p q) eqn:C.
    + apply kcmp_eq in C. contradiction.
    + cbn [filter]. unfold faulty at 1. cbn [snd]. destruct (is_nil (pf_errors f)); cbn [negb length]; lia.
    + cbn [filter]. destruct (faulty (q, g)); cbn [length]; rewrite IH by exact N; lia.
Qed.
Section Count.
Variable w : workspace.
Variable read_file : str -> option str.
Variable proj : str.
Hypothesis Proj : proj = [] \/ find_path_by_project w proj <> None.
Definition unreadable (x : str) : bool := match read_file x with Some _ => false | None => true end.
Lemma add_count files : forall pr pr', add_build_files w read_file pr files proj = Ret pr' ->
  pr_error_count pr' + length (filter faulty (pr_files pr)) =
  pr_error_count pr + length (filter unreadable files) + length (filter faulty (pr_files pr')).
Proof.
  induction files as [|x files IH]; intros pr pr' E; cbn [add_build_files] in E; [injection E as <-; cbn; lia|].
  destruct (add_build_file_in w read_file pr x proj) as [pr1| |] eqn:A; try discriminate. cbn [bind] in E. specialize (IH _ _ E). clear E.
  unfold add_build_file_in in A. assert (P : exists p, package_of_build_file w x proj = Ret (Some p)).
  { unfold package_of_build_file in *. destruct Proj as [->|N]; [cbn; eauto|]. destruct (is_nil proj); [eauto|].
    destruct (find_path_by_project w proj) as [d|]; [|contradiction]. destruct (_ <? _); [discriminate|eauto]. }
  destruct P as [p P]. rewrite P in A. cbn [bind] in A. unfold add_build_file in A. cbn [filter]. unfold unreadable at 1.
  destruct (read_file x) as [content|]; cbn [bind] in A.
  - destruct (add_build_file_content pr p x content) as [[pr2 f]| |] eqn:C; try discriminate. cbn [bind] in A. injection A as <-.
    unfold add_build_file_content in C. destruct (find_parsed pr p) as [g|] eqn:F; [injection C as <- <-; exact IH|].
    destruct (parse content) as [[st er]| |]; try discriminate. cbn [bind] in C. injection C as <- _. cbn [pr_files pr_error_count] in IH.
    unfold find_parsed in F. rewrite count_insert in IH by exact F. cbn [pf_errors] in IH. destruct (is_nil er); lia.
  - injection A as <-. cbn [pr_files pr_error_count length] in *. lia.
Qed.
End Count.
Lemma add_unknown w read_file proj files : proj <> [] -> find_path_by_project w proj = None ->
  forall pr, add_build_files w read_file pr files proj = Ret pr.
Proof.
  intros N F. induction files as [|x files IH]; intros pr; [reflexivity|]. cbn [add_build_files]. unfold add_build_file_in, package_of_build_file.
  destruct proj; [contradiction|]. cbn [is_nil]. rewrite F. cbn [bind]. apply IH.
Qed.
