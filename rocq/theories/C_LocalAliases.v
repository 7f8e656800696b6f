(** Property C92, continued: aliased-by. *)
From Coq Require Import NArith ZArith Lia.
From Verif Require Import Base OMap M_Types M_Scanner M_Ast M_Parser M_Query M_Elab M_Workspace S_Workspace P_Workspace M_Project P_Project M_Walk S_Walk M_Table S_Table P_Table M_DepGraph S_DepGraph P_DepGraph
  M_Highlight M_Edits M_Commands M_System P_Commands S_Run P_Run S_Order P_Order C_Walk C_Order C_Commands S_Packages P_Packages C_Packages P_Deeper S_Relaid S_Reads P_Reads S_Local P_Local P_ExtendedFiles C_Local.
Local Open Scope string_scope. Local Open Scope list_scope.

Lemma alias_package t p r a : In a (declared_alias t p r) -> tpackage a = p.
Proof.
  unfold declared_alias. destruct (qualified_target p _) as [b|] eqn:Q; [|intros []]. destruct (parse_target _ p) as [t'|]; [|intros []]. destruct (target_eqb t' t); [|intros []]. intros [<-|[]].
  unfold qualified_target in Q. destruct (v_text (q_name r)) as [|c n]; [discriminate Q|]. destruct (ceqb c ":"); [destruct n; [discriminate Q|]|]; injection Q as <-; reflexivity.
Qed.

Section Change.
Variable fuel : nat.
Variable fs : file_system.
Variable content' : str -> option str.
(** One BUILD file is different (or new, or no longer there); it is for the package [p]. *)
Variable b : str.
Variable p : package.
Hypothesis diff : differs_at b (fs_content fs) content'.
Hypothesis is_for : for_package b p.
Hypothesis not_workspace : ~ about_workspace b.
Notation run content := (run_here fuel (with_content fs content)).
Notation before := (fs_content fs).

(** aliased-by: the aliases in other packages are listed for the same targets. *)
Theorem C92_aliased_by : forall fl pt out out', fl_format fl = FmtCsv -> pat_project pt = [] ->
  run before fl CAliasedBy pt = Ret (out, ExitSuccess) -> run content' fl CAliasedBy pt = Ret (out', ExitSuccess) ->
  exists m m' : list (target * list target),
    read_csv out = Some ([$"actual"; $"aliased-by"] :: pair_rows m) /\ read_csv out' = Some ([$"actual"; $"aliased-by"] :: pair_rows m') /\
    msorted m /\ msorted m' /\ forall t a, tpackage a <> p -> (exists l, In (t, l) m /\ In a l) <-> (exists l, In (t, l) m' /\ In a l).
Proof.
  intros fl pt out out' Fm Pj E E'. apply run_spec in E as [(_ & _ & X)|(w & pr & g & P & E)]; [discriminate X|]. apply run_spec in E' as [(_ & _ & X)|(w' & pr' & g' & P' & E')]; [discriminate X|].
  destruct (prepared fuel fs content' b p diff is_for not_workspace fl CAliasedBy pt w pr g w' pr' g') as (-> & pr0 & pr0' & OK & OK' & Q & _ & [_ ->] & [_ ->]); auto; [cbn [In]; auto 9|].
  unfold perform in E, E'. rewrite Fm in E, E'. set (pp := if (0 <? _)%Z then _ else _) in *.
  destruct (extract_aliased_by pr0) as [m| |] eqn:H; try discriminate E. destruct (extract_aliased_by pr0') as [m'| |] eqn:H'; try discriminate E'. cbn [bind] in E, E'.
  destruct (print_one_to_n _ pp m _ _) as [o| |] eqn:T; try discriminate E. destruct (print_one_to_n _ pp m' _ _) as [o'| |] eqn:T'; try discriminate E'.
  injection E as <-. injection E' as <-. apply one_to_n_rows in T. apply one_to_n_rows in T'.
  exists (filter (fun e => match_target pp (fst e)) m), (filter (fun e => match_target pp (fst e)) m'). split; [exact T|]. split; [exact T'|].
  split; [apply (filter_msorted' (match_target pp)); exact (aliased_sorted _ _ H)|]. split; [apply (filter_msorted' (match_target pp)); exact (aliased_sorted _ _ H')|]. intros t a N.
  assert (FL : forall k, (exists l, In (t, l) (filter (fun e : target * list target => match_target pp (fst e)) k) /\ In a l) <-> match_target pp t = true /\ exists l, In (t, l) k /\ In a l).
  { intros k. split; [intros (l & I & J); apply filter_In in I as [I M]; split; [exact M|]; exists l; auto|]. intros (M & l & I & J). exists l. split; [apply filter_In; auto|exact J]. }
  rewrite !FL, (aliased_in _ _ H), (aliased_in _ _ H').
  split; intros (M & q & f & rs & r & I & Z & R & D); (split; [exact M|]); exists q, f, rs, r; (split; [|auto]).
  - apply Q; [|exact I]. intros ->. apply N. rewrite (alias_package _ _ _ _ D). apply OK, I.
  - apply Q; [|exact I]. intros ->. apply N. rewrite (alias_package _ _ _ _ D). apply OK', I.
Qed.
End Change.
Print Assumptions C92_aliased_by.

(** Two packages with aliases for a target; those of the second one change. *)
Definition alias_fs : file_system :=
  C_Order.some_fs [($".", [mkEntry ($"a") DtDir 11; mkEntry ($"b") DtDir 12; C_Order.file ($"MODULE.bazel")]); ($"./a", [C_Order.file ($"BUILD")]); ($"./b", [C_Order.file ($"BUILD")])] [] []
    [($"MODULE.bazel", []); ($"./a/BUILD", $"alias(name = ""x"", actual = ""//b:b"")"); ($"./b/BUILD", $"alias(name = ""y"", actual = "":b"")")].
Definition realiased (f : str) : option str := if str_eqb f ($"./b/BUILD") then Some ($"alias(name = ""z"", actual = "":c"")") else fs_content alias_fs f.
Example C92_aliases_case : differs_at ($"./b/BUILD") (fs_content alias_fs) realiased /\
  run_here 9 alias_fs C_Order.csv CAliasedBy pattern_always = Ret ($"""actual"",""aliased-by""" ++ [NL] ++ $"""//b"",""//a:x""" ++ [NL] ++ $"""//b"",""//b:y""" ++ [NL], ExitSuccess) /\
  run_here 9 (with_content alias_fs realiased) C_Order.csv CAliasedBy pattern_always = Ret ($"""actual"",""aliased-by""" ++ [NL] ++ $"""//b"",""//a:x""" ++ [NL] ++ $"""//b:c"",""//b:z""" ++ [NL], ExitSuccess).
Proof.
  split; [|split; vm_compute; reflexivity]. intros f N. unfold realiased. destruct (str_eqb f _) eqn:E; [apply str_eqb_eq in E; contradiction|reflexivity].
Qed.
