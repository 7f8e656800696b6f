(** Proofs for C92. *)
From Coq Require Import ZArith Lia.
From Verif Require Import Base OMap M_Types M_Scanner M_Ast M_Parser M_Query M_Elab M_Workspace M_Project P_Project M_Table S_Table M_DepGraph S_DepGraph P_DepGraph
  M_Highlight M_Edits M_Commands P_Commands S_Run P_Run P_Order P_Packages P_Deeper S_Reads S_Local.
Local Open Scope string_scope. Local Open Scope list_scope.

(** * Packages of files *)
Lemma dots_stripped before q : (forall c, In c before -> c = "."%char \/ c = "/"%char) -> (forall c r, q = c :: r -> c <> "."%char /\ c <> "/"%char) -> strip_dots_slashes (before ++ q) = q.
Proof.
  intros B Q. induction before as [|c before IH]; cbn [app strip_dots_slashes].
  - destruct q as [|c r]; [reflexivity|]. destruct (Q c r eq_refl) as (A & D). cbn [strip_dots_slashes]. unfold ceqb. rewrite (proj2 (Ascii.eqb_neq _ _) A), (proj2 (Ascii.eqb_neq _ _) D). reflexivity.
  - destruct (B c (or_introl eq_refl)) as [-> | ->]; cbn; apply IH; intros x I; apply B; now right.
Qed.
Lemma stripped_dots d : exists before, d = before ++ strip_dots_slashes d /\ (forall c, In c before -> c = "."%char \/ c = "/"%char) /\
  forall c r, strip_dots_slashes d = c :: r -> c <> "."%char /\ c <> "/"%char.
Proof.
  induction d as [|c d (before & E & B & S)]; [exists []; repeat split; try (intros ? []; fail); discriminate|]. cbn [strip_dots_slashes]. destruct (ceqb c "." || ceqb c "/") eqn:C.
  - exists (c :: before). split; [cbn [app]; congruence|]. split; [|exact S]. intros x [<-|I]; [|auto]. apply orb_true_iff in C as [C|C]; apply Ascii.eqb_eq in C; auto.
  - exists []. split; [reflexivity|]. split; [intros ? []|]. intros x r [= <- <-]. apply orb_false_iff in C as [C D]. split; now apply Ascii.eqb_neq.
Qed.
Lemma package_for w b p : for_package b p -> package_of_build_file w b [] = Ret (Some p).
Proof.
  destruct p as [pj q]. intros (P & Q & before & name & -> & B & N). cbn [project path] in *. subst. unfold package_of_build_file. cbn [is_nil]. do 3 f_equal.
  unfold target_path_from_build_file. rewrite app_assoc, find_last_app by exact N. cbn [prefix_upto]. rewrite firstn_app_exact. apply dots_stripped; auto.
Qed.
Lemma for_package_of w f p : build_named f -> package_of_build_file w f [] = Ret (Some p) -> for_package f p.
Proof.
  intros (d & N) E. assert (X : exists name, f = d ++ "/"%char :: name /\ ~ In "/"%char name).
  { destruct N as [-> | ->]; eexists; (split; [reflexivity|cbn; intuition discriminate]). }
  destruct X as (name & -> & Nn). unfold package_of_build_file in E. cbn [is_nil] in E. injection E as <-. unfold target_path_from_build_file. rewrite find_last_app by exact Nn. cbn [prefix_upto]. rewrite firstn_app_exact.
  destruct (stripped_dots d) as (before & Ed & B & S). split; [reflexivity|]. cbn [path]. split; [exact S|]. exists before, name. split; [|auto]. rewrite app_assoc. congruence.
Qed.

(** * The files that are loaded *)
Lemma filter_msorted' {K V} `{OrdKey K} (g : K -> bool) (l : list (K * V)) : msorted l -> msorted (filter (fun e => g (fst e)) l).
Proof.
  unfold msorted. replace (keys (filter (fun e => g (fst e)) l)) with (filter g (keys l)); [apply ssorted_filter|].
  unfold keys. induction l as [|[k v] l IH]; [reflexivity|]. cbn [filter map fst]. destruct (g k); cbn [map fst]; rewrite IH; reflexivity.
Qed.
Lemma split_at {K V} `{OrdKey K} (p : K) (l : list (K * V)) : msorted l ->
  l = filter (fun e => kltb (fst e) p) l ++ filter (fun e => keqb (fst e) p) l ++ filter (fun e => kltb p (fst e)) l.
Proof.
  unfold msorted. induction l as [|[k v] l IH]; intros S; [reflexivity|]. destruct S as [F S]. cbn [filter fst].
  assert (G : forall g : K * V -> bool, (forall e, klt k (fst e) -> g e = false) -> filter g l = []).
  { intros g G. clear IH S. unfold keys in F. cbn [map fst] in F. induction l as [|e l IHl]; [reflexivity|]. inversion F; subst. cbn [filter]. rewrite G by assumption. auto. }
  destruct (klt_total k p) as [L|[->|L]].
  - rewrite (proj2 (kltb_lt k p) L). replace (keqb k p) with false by (symmetry; apply keqb_neq; intros ->; exact (klt_irrefl _ L)).
    replace (kltb p k) with false by (symmetry; apply Bool.not_true_iff_false; rewrite kltb_lt; exact (klt_asym _ _ L)). cbn [app]. f_equal. exact (IH S).
  - rewrite keqb_refl. replace (kltb p p) with false by (symmetry; apply Bool.not_true_iff_false; rewrite kltb_lt; apply klt_irrefl).
    rewrite (G (fun e => kltb (fst e) p)) by (intros e L; apply Bool.not_true_iff_false; rewrite kltb_lt; exact (klt_asym _ _ L)). cbn [app]. f_equal.
    rewrite (IH S) at 1. rewrite (G (fun e => kltb (fst e) p)) by (intros e L; apply Bool.not_true_iff_false; rewrite kltb_lt; exact (klt_asym _ _ L)). reflexivity.
  - replace (kltb k p) with false by (symmetry; apply Bool.not_true_iff_false; rewrite kltb_lt; exact (klt_asym _ _ L)).
    replace (keqb k p) with false by (symmetry; apply keqb_neq; intros ->; exact (klt_irrefl _ L)). rewrite (proj2 (kltb_lt p k) L).
    rewrite (IH S) at 1.
    rewrite (G (fun e => kltb (fst e) p)) by (intros e L'; apply Bool.not_true_iff_false; rewrite kltb_lt; apply klt_asym; exact (klt_trans _ _ _ L L')).
    rewrite (G (fun e => keqb (fst e) p)) by (intros e L'; apply keqb_neq; intros X; rewrite X in L'; exact (klt_asym _ _ L L')). reflexivity.
Qed.
Lemma same_filter {K V} `{OrdKey K} (g : K -> bool) (l l' : list (K * V)) : msorted l -> msorted l' ->
  (forall k v, g k = true -> In (k, v) l <-> In (k, v) l') -> filter (fun e => g (fst e)) l = filter (fun e => g (fst e)) l'.
Proof.
  intros S S' E. pose proof (filter_msorted' g _ S) as T. pose proof (filter_msorted' g _ S') as T'. apply omap_ext; auto. intros k.
  destruct (map_find k (filter _ l)) as [v|] eqn:F.
  - symmetry. apply msorted_find; [exact T'|]. apply map_find_in in F. apply filter_In in F as [F G]. apply filter_In. split; [apply E; auto|exact G].
  - destruct (map_find k (filter _ l')) as [v|] eqn:F'; [|reflexivity]. apply map_find_in in F'. apply filter_In in F' as [F' G]. apply (E _ _ G) in F'.
    assert (X : In (k, v) (filter (fun e => g (fst e)) l)) by (apply filter_In; auto). apply (msorted_find _ _ _ T) in X. congruence.
Qed.
Lemma differ_at {K V} `{OrdKey K} (p : K) (l l' : list (K * V)) : msorted l -> msorted l' -> (forall k v, k <> p -> In (k, v) l <-> In (k, v) l') ->
  differ_between (fun e => fst e = p) l l'.
Proof.
  intros S S' E. exists (filter (fun e => kltb (fst e) p) l), (filter (fun e => keqb (fst e) p) l), (filter (fun e => keqb (fst e) p) l'), (filter (fun e => kltb p (fst e)) l).
  split; [exact (split_at p l S)|]. split; [|split; [|split]].
  - rewrite (split_at p l' S') at 1.
    rewrite (same_filter (fun k => kltb k p) l l'), (same_filter (fun k => kltb p k) l l'); auto; intros k v L; apply E; apply kltb_lt in L; intros ->; exact (klt_irrefl _ L).
  - apply Forall_forall. intros e I. apply filter_In in I as [_ I]. now apply keqb_eq.
  - apply Forall_forall. intros e I. apply filter_In in I as [_ I]. now apply keqb_eq.
  - intros e [I|I] X; apply filter_In in I as [_ I]; rewrite X in I; apply kltb_lt in I; exact (klt_irrefl _ I).
Qed.

(** * What the commands make of them *)
Section Emit.
Context {A B : Type}.
Variable emits : A -> list B -> Prop.
Definition all_emit (l : list A) (xs : list B) : Prop := exists xss, Forall2 emits l xss /\ xs = concat xss.
Hypothesis emits_fun : forall e xs xs', emits e xs -> emits e xs' -> xs = xs'.
Lemma all_emit_fun l : forall xs xs', all_emit l xs -> all_emit l xs' -> xs = xs'.
Proof.
  induction l as [|e l IH]; intros xs xs' (xss & F & ->) (xss' & F' & ->); inversion F; inversion F'; subst; [reflexivity|]. cbn [concat]. f_equal; [eauto|].
  apply IH; [exists l'|exists l'0]; auto.
Qed.
Lemma all_emit_app l l' xs : all_emit (l ++ l') xs -> exists a b, all_emit l a /\ all_emit l' b /\ xs = a ++ b.
Proof.
  intros (xss & F & ->). apply Forall2_app_inv_l in F as (a & b & Fa & Fb & ->). exists (concat a), (concat b). split; [exists a; auto|]. split; [exists b; auto|]. apply concat_app.
Qed.
Variable midA : A -> Prop.
Variable midB : B -> Prop.
Lemma all_emit_in l xs : all_emit l xs -> forall x, In x xs -> exists e ys, In e l /\ emits e ys /\ In x ys.
Proof.
  intros (xss & F & ->) x I. apply in_concat in I as (ys & Iy & I). induction F as [|e y l yss E F IH]; [destruct Iy|]. destruct Iy as [->|Iy].
  - exists e, ys. split; [now left|auto].
  - destruct (IH Iy) as (e' & y' & Ie & R). exists e', y'. split; [now right|exact R].
Qed.
Hypothesis mid : forall e xs x, emits e xs -> In x xs -> (midB x <-> midA e).
Lemma emit_differ l l' xs xs' : differ_between midA l l' -> all_emit l xs -> all_emit l' xs' -> differ_between midB xs xs'.
Proof.
  intros (a & m & m' & c & -> & -> & M & M' & N) E E'. apply all_emit_app in E as (xa & x & Ea & E & ->). apply all_emit_app in E as (xm & xc & Em & Ec & ->).
  apply all_emit_app in E' as (xa' & x' & Ea' & E' & ->). apply all_emit_app in E' as (xm' & xc' & Em' & Ec' & ->).
  rewrite (all_emit_fun _ _ _ Ea' Ea), (all_emit_fun _ _ _ Ec' Ec). exists xa, xm, xm', xc. split; [reflexivity|]. split; [reflexivity|].
  assert (K : forall m xm, all_emit m xm -> Forall midA m -> Forall midB xm).
  { intros k xk Ek Fk. apply Forall_forall. intros y I. destruct (all_emit_in _ _ Ek y I) as (e & ys & Ie & Ee & Iy). apply (mid e ys y Ee Iy). now apply (proj1 (Forall_forall _ _) Fk). }
  split; [eauto|]. split; [eauto|]. intros y [I|I] X.
  - destruct (all_emit_in _ _ Ea y I) as (e & ys & Ie & Ee & Iy). apply (N e); auto. now apply (mid e ys y Ee Iy).
  - destruct (all_emit_in _ _ Ec y I) as (e & ys & Ie & Ee & Iy). apply (N e); auto. now apply (mid e ys y Ee Iy).
Qed.
End Emit.
Lemma emit_cons {A B} (emits : A -> list B -> Prop) e l xs ys : emits e xs -> all_emit emits l ys -> all_emit emits (e :: l) (xs ++ ys).
Proof. intros E (xss & F & ->). exists (xs :: xss). split; [constructor; auto|reflexivity]. Qed.

(** list-targets. *)
Definition row_of (x : str * str * target) : list str := [fst (fst x); snd (fst x); target_to_string (snd x)].
Fixpoint triples (pt : pattern) (p : package) (f : parsed_file) (rs : list result) : outcome (list (str * str * target)) :=
  match rs with
  | [] => Ret []
  | r :: rs =>
      match parse_target ($":" ++ v_text (q_name r)) p with
      | Some t => if match_target pt t then do l <- loc f (q_name r); do rows <- triples pt p f rs; Ret ((l, v_text (q_rule r), t) :: rows) else triples pt p f rs
      | None => triples pt p f rs
      end
  end.
Lemma triples_rows pt p f : forall rs ops, target_rows pt p f rs = Ret ops -> exists xs, triples pt p f rs = Ret xs /\ ops = map (fun x => AddRow (row_of x)) xs.
Proof.
  induction rs as [|r rs IH]; intros ops E; cbn [target_rows triples] in *; [injection E as <-; exists []; auto|].
  destruct (parse_target _ p) as [t|]; [|auto]. destruct (match_target pt t); [|auto]. destruct (loc f (q_name r)) as [l| |]; try discriminate E. cbn [bind] in *.
  destruct (target_rows pt p f rs) as [ops'| |]; try discriminate E. injection E as <-. destruct (IH _ eq_refl) as (xs & -> & ->). eexists. split; [reflexivity|reflexivity].
Qed.
Lemma triples_package pt p f : forall rs xs, triples pt p f rs = Ret xs -> forall x, In x xs -> tpackage (snd x) = p.
Proof.
  induction rs as [|r rs IH]; intros xs E x I; cbn [triples] in E; [injection E as <-; destruct I|].
  destruct (parse_target _ p) as [t|] eqn:T; [|eauto]. destruct (match_target pt t); [|eauto]. destruct (loc f (q_name r)) as [l| |]; try discriminate E. cbn [bind] in E.
  destruct (triples pt p f rs) as [xs'| |]; try discriminate E. injection E as <-. destruct I as [<-|I]; [|eauto]. rewrite colon_target in T. destruct (contains_char ":" _); [discriminate T|]. injection T as <-. reflexivity.
Qed.
Definition emits_rows (pt : pattern) (e : package * parsed_file) (xs : list (str * str * target)) : Prop :=
  exists rs, find_targets [] (pf_ast (snd e)) = Ret rs /\ triples pt (fst e) (snd e) rs = Ret xs.
Lemma rows_emitted pt files : forall ops, target_rows_of pt files = Ret ops -> exists xs, all_emit (emits_rows pt) files xs /\ ops = map (fun x => AddRow (row_of x)) xs.
Proof.
  induction files as [|[q f] files IH]; intros ops E; cbn [target_rows_of] in E; [injection E as <-; exists []; split; [exists []; split; [constructor|reflexivity]|reflexivity]|].
  destruct (find_targets [] (pf_ast f)) as [rs| |] eqn:F; try discriminate E. cbn [bind] in E. destruct (target_rows pt q f rs) as [o| |] eqn:T; try discriminate E. cbn [bind] in E.
  destruct (target_rows_of pt files) as [os| |]; try discriminate E. injection E as <-. destruct (IH _ eq_refl) as (ys & Y & ->). apply triples_rows in T as (xs & X & ->).
  exists (xs ++ ys). split; [|rewrite map_app; reflexivity]. apply emit_cons; [|exact Y]. exists rs. auto.
Qed.
Lemma rows_differ pt p files files' ops ops' : differ_between (fun e => fst e = p) files files' -> target_rows_of pt files = Ret ops -> target_rows_of pt files' = Ret ops' ->
  exists l l', ops = map (fun x => AddRow (row_of x)) l /\ ops' = map (fun x => AddRow (row_of x)) l' /\ differ_between (fun x => tpackage (snd x) = p) l l'.
Proof.
  intros D E E'. apply rows_emitted in E as (xs & X & ->). apply rows_emitted in E' as (xs' & X' & ->). exists xs, xs'. split; [reflexivity|]. split; [reflexivity|].
  eapply emit_differ; [| |exact D|exact X|exact X'].
  - intros e a b (rs & F & A) (rs' & F' & B). congruence.
  - intros e ys x (rs & _ & T) I. rewrite (triples_package _ _ _ _ _ T x I). reflexivity.
Qed.

(** print. *)
Section Print.
Variable find : option finder_fn.
Variable color only_errors : bool.
Variable pt : pattern.
(** A block of the output: begins with the name of the file. *)
Definition block_start (file : str) : str := (if color then ESC :: $"[2;37m" else []) ++ $"# " ++ file ++ $":".
Fixpoint blocks (p : package) (f : parsed_file) (rs : list result) : outcome (list (package * str)) :=
  match rs with
  | [] => Ret []
  | r :: rs =>
      let t := if is_nil (v_text (q_name r)) then None else qualified_target p (v_text (q_name r)) in
      if negb (is_recursive pt) && match t with Some t => negb (match_target pt t) | None => true end
      then blocks p f rs
      else
        do (text, any) <- print_rule find color f t r;
        do rest <- blocks p f rs;
        Ret (match find with Some _ => if any : bool then [(p, text)] else [] | None => [(p, text)] end ++ rest)
  end.
Lemma blocks_print p f : forall rs out, print_rules find color pt p f rs = Ret out -> exists bs, blocks p f rs = Ret bs /\ out = concat (map snd bs).
Proof.
  induction rs as [|r rs IH]; intros out E; cbn [print_rules blocks] in *; [injection E as <-; exists []; auto|].
  destruct (negb (is_recursive pt) && _); [auto|]. destruct (print_rule _ _ _ _ _) as [[text any]| |]; try discriminate E. cbn [bind] in *.
  destruct (print_rules find color pt p f rs) as [rest| |]; try discriminate E. injection E as <-. destruct (IH _ eq_refl) as (bs & -> & ->). cbn [bind]. eexists. split; [reflexivity|].
  rewrite map_app, concat_app. f_equal. destruct find; [destruct any|]; cbn [map snd concat]; rewrite ?app_nil_r; reflexivity.
Qed.
Lemma rule_block f t r text any : print_rule find color f t r = Ret (text, any) -> exists rest, text = block_start (pf_name f) ++ rest.
Proof.
  unfold print_rule. destruct (q_node r) as [ | | | | | | | | | |callee args]; try discriminate. destruct callee; try discriminate.
  unfold loc. destruct (match v_org _ with InFile off => _ | Synth off len => _ end) as [off len]. destruct (Nat.ltb _ _); [discriminate|]. destruct (get_range _ _ _) as [rg|]; [|discriminate]. cbn [bind].
  destruct (print_visibility _) as [vis| |]; try discriminate. cbn [bind]. destruct (hprint _ _ _ _) as [[tx an]| |]; try discriminate. cbn [bind]. intros [= <- <-].
  unfold block_start. destruct color; eexists; cbn; rewrite <- !app_assoc; cbn; reflexivity.
Qed.
Lemma blocks_in p f : forall rs bs, blocks p f rs = Ret bs -> forall x, In x bs -> fst x = p /\ exists rest, snd x = block_start (pf_name f) ++ rest.
Proof.
  induction rs as [|r rs IH]; intros bs E x I; cbn [blocks] in E; [injection E as <-; destruct I|].
  destruct (negb (is_recursive pt) && _); [eauto|]. destruct (print_rule _ _ _ _ _) as [[text any]| |] eqn:R; try discriminate E. cbn [bind] in E.
  destruct (blocks p f rs) as [rest| |]; try discriminate E. injection E as <-. apply in_app_iff in I as [I|I]; [|eauto].
  assert (x = (p, text)) as ->. { destruct find; [destruct any; [|destruct I]|]; destruct I as [<-|[]]; reflexivity. }
  split; [reflexivity|]. exact (rule_block _ _ _ _ _ R).
Qed.
Definition emits_blocks (e : package * parsed_file) (xs : list (package * str)) : Prop :=
  if (only_errors && is_nil (pf_errors (snd e))) || negb (match_package pt (fst e)) then xs = []
  else exists rs, find_targets_allow_empty [] (pf_ast (snd e)) = Ret rs /\ blocks (fst e) (snd e) rs = Ret xs.
Lemma blocks_emitted files : forall out, print_files find color only_errors pt files = Ret out -> exists bs, all_emit emits_blocks files bs /\ out = concat (map snd bs).
Proof.
  induction files as [|[q f] files IH]; intros out E; cbn [print_files] in E; [injection E as <-; exists []; split; [exists []; split; [constructor|reflexivity]|reflexivity]|].
  destruct ((only_errors && is_nil (pf_errors f)) || negb (match_package pt q)) eqn:C.
  - destruct (IH _ E) as (bs & B & ->). exists bs. split; [|reflexivity]. apply (emit_cons emits_blocks (q, f) files [] bs); [|exact B]. unfold emits_blocks. cbn [fst snd]. rewrite C. reflexivity.
  - destruct (find_targets_allow_empty [] (pf_ast f)) as [rs| |] eqn:F; try discriminate E. cbn [bind] in E. destruct (print_rules _ _ _ _ _ _) as [o| |] eqn:T; try discriminate E. cbn [bind] in E.
    destruct (print_files _ _ _ _ files) as [os| |]; try discriminate E. injection E as <-. destruct (IH _ eq_refl) as (ys & Y & ->). apply blocks_print in T as (xs & X & ->).
    exists (xs ++ ys). split; [|rewrite map_app, concat_app; reflexivity]. apply emit_cons; [|exact Y]. unfold emits_blocks. cbn [fst snd]. rewrite C. exists rs. auto.
Qed.
Lemma emits_blocks_in e xs x : emits_blocks e xs -> In x xs -> fst x = fst e /\ exists rest, snd x = block_start (pf_name (snd e)) ++ rest.
Proof. unfold emits_blocks. destruct (_ || _); [intros -> []|]. intros (rs & _ & E) I. exact (blocks_in _ _ _ _ E x I). Qed.
Lemma print_differ p files files' out out' : differ_between (fun e => fst e = p) files files' ->
  print_files find color only_errors pt files = Ret out -> print_files find color only_errors pt files' = Ret out' ->
  exists bs bs' : list (package * str), out = concat (map snd bs) /\ out' = concat (map snd bs') /\ differ_between (fun x => fst x = p) bs bs' /\
    (forall x, In x bs -> exists e rest, In e files /\ fst x = fst e /\ snd x = block_start (pf_name (snd e)) ++ rest) /\
    (forall x, In x bs' -> exists e rest, In e files' /\ fst x = fst e /\ snd x = block_start (pf_name (snd e)) ++ rest).
Proof.
  intros D E E'. apply blocks_emitted in E as (xs & X & ->). apply blocks_emitted in E' as (xs' & X' & ->). exists xs, xs'. split; [reflexivity|]. split; [reflexivity|]. split; [|split].
  - eapply emit_differ; [| |exact D|exact X|exact X'].
    + intros e a b. unfold emits_blocks. destruct (_ || _); [congruence|]. intros (rs & F & A) (rs' & F' & B). congruence.
    + intros e ys x Em I. rewrite (proj1 (emits_blocks_in _ _ _ Em I)). reflexivity.
  - intros x I. destruct (all_emit_in _ _ _ X x I) as (e & ys & Ie & Em & Iy). destruct (emits_blocks_in _ _ _ Em Iy) as (Fx & rest & Sx). exists e, rest. auto.
  - intros x I. destruct (all_emit_in _ _ _ X' x I) as (e & ys & Ie & Em & Iy). destruct (emits_blocks_in _ _ _ Em Iy) as (Fx & rest & Sx). exists e, rest. auto.
Qed.
End Print.

(** canonicalize. *)
Lemma canon_rules_in pt p : forall rs evs, canon_rules pt p rs = Ret evs -> forall e, In e (edits_of_canon evs) -> e_request e = KRename /\ tpackage (e_target e) = p.
Proof.
  induction rs as [|r rs IH]; intros evs E e I; cbn [canon_rules] in E; [injection E as <-; destruct I|].
  destruct (qualified_target p (v_text (q_name r))) as [self|] eqn:Q; [|eauto]. destruct (match_target pt self); [|eauto]. destruct (extract_string_list (q_deps r)) as [deps| |]; try discriminate E. cbn [bind] in E.
  destruct (canon_rules pt p rs) as [evs'| |]; try discriminate E. injection E as <-. unfold edits_of_canon in I. rewrite flat_map_app in I. apply in_app_iff in I as [I|I]; [|eapply IH; eauto].
  apply in_flat_map in I as (ev & Iv & I). apply in_flat_map in Iv as (d & _ & Iv). unfold canon_dep in Iv. destruct (parse_target d p) as [t|]; [destruct (negb _)|]; [|destruct Iv|].
  - destruct Iv as [<-|[]]. destruct I as [<-|[]]. split; [reflexivity|]. cbn [e_target]. exact (qualified_package _ _ _ Q).
  - destruct Iv as [<-|[]]. destruct I.
Qed.
Definition emits_edits (pt : pattern) (e : package * parsed_file) (xs : list edit) : Prop :=
  if match_package pt (pf_package (snd e)) then exists rs evs, find_targets [] (pf_ast (snd e)) = Ret rs /\ canon_rules pt (pf_package (snd e)) rs = Ret evs /\ xs = edits_of_canon evs else xs = [].
Lemma edits_emitted pt files : forall evs, canon_files pt files = Ret evs -> all_emit (emits_edits pt) files (edits_of_canon evs).
Proof.
  induction files as [|[q f] files IH]; intros evs E; cbn [canon_files] in E; [injection E as <-; exists []; split; [constructor|reflexivity]|].
  destruct (match_package pt (pf_package f)) eqn:C.
  - destruct (find_targets [] (pf_ast f)) as [rs| |] eqn:F; try discriminate E. cbn [bind] in E. destruct (canon_rules _ _ _) as [o| |] eqn:T; try discriminate E. cbn [bind] in E.
    destruct (canon_files pt files) as [os| |]; try discriminate E. injection E as <-. unfold edits_of_canon. rewrite flat_map_app. apply emit_cons; [|exact (IH _ eq_refl)].
    unfold emits_edits. cbn [snd]. rewrite C. exists rs, o. auto.
  - apply (emit_cons (emits_edits pt) (q, f) files []); [|exact (IH _ E)]. unfold emits_edits. cbn [snd]. rewrite C. reflexivity.
Qed.
Lemma edits_differ pt p pr pr' evs evs' : project_ok pr -> project_ok pr' -> differ_between (fun e => fst e = p) (pr_files pr) (pr_files pr') ->
  canon_files pt (pr_files pr) = Ret evs -> canon_files pt (pr_files pr') = Ret evs' ->
  differ_between (fun x => tpackage (e_target x) = p) (edits_of_canon evs) (edits_of_canon evs').
Proof.
  intros [_ O] [_ O'] D E E'. apply edits_emitted in E. apply edits_emitted in E'.
  assert (D' : differ_between (fun e => pf_package (snd e) = p) (pr_files pr) (pr_files pr')).
  { destruct D as (a & m & m' & c & L & L' & M & M' & N). exists a, m, m', c. split; [exact L|]. split; [exact L'|].
    assert (K : forall e, In e (pr_files pr) \/ In e (pr_files pr') -> pf_package (snd e) = fst e) by (intros [q f] [I|I]; [exact (O _ _ I)|exact (O' _ _ I)]).
    split; [|split].
    - apply Forall_forall. intros e I. rewrite K; [exact (proj1 (Forall_forall _ _) M e I)|]. left. rewrite L. apply in_app_iff. right. apply in_app_iff. now left.
    - apply Forall_forall. intros e I. rewrite K; [exact (proj1 (Forall_forall _ _) M' e I)|]. right. rewrite L'. apply in_app_iff. right. apply in_app_iff. now left.
    - intros e I X. apply (N e I). rewrite <- K; [exact X|]. left. rewrite L. rewrite !in_app_iff. destruct I; auto. }
  eapply emit_differ; [| |exact D'|exact E|exact E'].
  - intros e a b. unfold emits_edits. destruct (match_package _ _); [|congruence]. intros (rs & ev & F & A & ->) (rs' & ev' & F' & B & ->). congruence.
  - intros e ys x Em I. unfold emits_edits in Em. destruct (match_package _ _); [|subst; destruct I]. destruct Em as (rs & ev & _ & C & ->). rewrite (proj2 (canon_rules_in _ _ _ _ C x I)). reflexivity.
Qed.

Section Two.
Variable is_directory : str -> bool.
Variable can_read : str -> bool.
Variable glob : str -> list str.
Variables content content' : str -> option str.
Variable glob_in : workspace -> package -> list str -> list str -> list str.
Variable collect_build_files : workspace -> pattern -> list str.
Variable b : str.
Variable p : package.
Hypothesis diff : differs_at b content content'.
Hypothesis is_for : for_package b p.
Hypothesis not_workspace : ~ about_workspace b.

Lemma workspace_same : load_workspace is_directory can_read glob content' = load_workspace is_directory can_read glob content.
Proof.
  assert (S : forall f, about_workspace f -> content' f = content f) by (intros f A; apply diff; intros ->; exact (not_workspace A)).
  unfold load_workspace, workspace_files. cbn [fold_left]. unfold load_file at 1 2 3 4.
  rewrite (S ($"WORKSPACE")), (S ($"WORKSPACE.bazel")), (S ($"WORKSPACE.bzlmod")), (S ($"MODULE.bazel")); [reflexivity|unfold about_workspace; auto..].
Qed.
Lemma file_for_same w names q name c : q <> p -> file_for w content names [] q name c <-> file_for w content' names [] q name c.
Proof.
  intros N. assert (S : forall x, package_of_build_file w x [] = Ret (Some q) -> content' x = content x).
  { intros x X. apply diff. intros ->. rewrite (package_for w b p is_for) in X. congruence. }
  split; intros (a & d & E & P & R & F); exists a, d; (split; [exact E|]); (split; [exact P|]); split.
  - rewrite (S _ P). exact R.
  - intros x I X. rewrite (S _ X). auto.
  - rewrite <- (S _ P). exact R.
  - intros x I X. rewrite <- (S _ X). auto.
Qed.
Lemma holds_differ w names eval pr pr' : holds_files w content (glob_in w) names [] eval pr -> holds_files w content' (glob_in w) names [] eval pr' ->
  forall k v, k <> p -> In (k, v) (pr_files pr) <-> In (k, v) (pr_files pr').
Proof.
  intros [_ H] [_ H'] k v N. rewrite H, H'. split; intros (n & c & st & er & ast & F & R); exists n, c, st, er, ast; (split; [|exact R]); [rewrite <- file_for_same by exact N|rewrite file_for_same by exact N]; exact F.
Qed.
End Two.
