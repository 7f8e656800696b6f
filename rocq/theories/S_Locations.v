(** Specification of where the texts of an elaborated tree are reported to be. *)
From Verif Require Import Base M_Scanner M_Ast S_Parser.

(** The identifiers of a tree, and the ranges of its '+' operators. *)
Fixpoint idents (n : node) : list view :=
  match n with
  | NNull | NStr _ _ _ | NInt _ _ => []
  | NId v => [v]
  | NUnary _ n => idents n
  | NBin _ l r _ => idents l ++ idents r
  | NList _ l => flat_map idents l
  | NComp _ f => idents f
  | NTernary c p n => idents c ++ idents p ++ idents n
  | NAssign l r _ => idents l ++ idents r
  | NCall i a => idents i ++ idents a
  end.
Fixpoint pluses (n : node) : list srange :=
  match n with
  | NNull | NStr _ _ _ | NInt _ _ | NId _ => []
  | NUnary _ n => pluses n
  | NBin op l r rg => (match op with TPlus => [rg] | _ => [] end) ++ pluses l ++ pluses r
  | NList _ l => flat_map pluses l
  | NComp _ f => pluses f
  | NTernary c p n => pluses c ++ pluses p ++ pluses n
  | NAssign l r _ => pluses l ++ pluses r
  | NCall i a => pluses i ++ pluses a
  end.

(** A text of the file is where it was; a text put together by '+' is reported at that operator, and
    the name of a file found by glob() at that identifier. *)
Inductive reported_at (stmts : list node) : view -> Prop :=
| at_place v : In v (flat_map views stmts) -> reported_at stmts v
| at_plus a b r : reported_at stmts a -> reported_at stmts b -> In r (flat_map pluses stmts) ->
    reported_at stmts (mkView (v_text a ++ v_text b) (Synth (r_off r) (r_len r)))
| at_glob id off s : In id (flat_map idents stmts) -> v_text id = $"glob" -> v_org id = InFile off ->
    reported_at stmts (mkView s (Synth off (length ($"glob")))).

(** Within the file: at the text itself, or at the '+' or the "glob" it comes from. *)
Definition within (content : str) (v : view) : Prop :=
  match v_org v with
  | InFile off => off + length (v_text v) <= length content /\
                  firstn (length (v_text v)) (skipn off content) = v_text v
  | Synth off len => off + len <= length content /\
                     (firstn len (skipn off content) = $"+" \/ firstn len (skipn off content) = $"glob")
  end.
