(** Trees with all the parentheses they may need (C56). *)
From Coq Require Import ZArith List Bool String.
From Verif Require Import Base Dialect Token AST Num Grammar Render.
Import ListNotations.
Open Scope list_scope.
Open Scope Z_scope.

(** Parentheses around an operand that is an operator expression or EXISTS. *)
Definition guard (e : node) : node :=
  match e with
  | EIsNull _ | EIsNotNull _ | EInList _ _ _ _ | EInSubQuery _ _ _ _ | EBetween _ _ _ _ | EBinary _ _ _ | EUnary _ _ _
  | EExists _ _ _ _ _ => ENested e pos0 pos0
  | _ => e
  end.

(** Every operand of an operator in parentheses; queries inside stay as they are. *)
Fixpoint wrap (e : node) : node :=
  match e with
  | EIsNull x => EIsNull (guard (wrap x))
  | EIsNotNull x => EIsNotNull (guard (wrap x))
  | EInList e l n r => EInList (guard (wrap e)) (map wrap l) n r
  | EInSubQuery e q n r => EInSubQuery (guard (wrap e)) q n r
  | EBetween e n lo hi => EBetween (guard (wrap e)) n (guard (wrap lo)) (guard (wrap hi))
  | EBinary l op r => EBinary (guard (wrap l)) op (guard (wrap r))
  | EUnary f op e => EUnary f op (guard (wrap e))
  | ECast e ty c r => ECast (wrap e) ty c r
  | ENested e l r => ENested (wrap e) l r
  | EFunction n args r ov orp => EFunction n (map wrap args) r (option_map wrap_winspec ov) orp
  | ECase c ce o bs el => ECase c ce (option_map wrap o) (map (fun b => (wrap (fst b), wrap (snd b))) bs) (option_map wrap el)
  | _ => e
  end
with wrap_winspec (w : winspec) : winspec :=
  match w with WinSpec pb ob fr p o => WinSpec (map wrap pb) (map wrap_orderby ob) fr p o end
with wrap_orderby (o : orderby) : orderby :=
  match o with OrderBy e p d => OrderBy (wrap e) p d end.

(** The tree without any parentheses outside queries. *)
Fixpoint strip (e : node) : node :=
  match e with
  | ENested e _ _ => strip e
  | EIsNull x => EIsNull (strip x)
  | EIsNotNull x => EIsNotNull (strip x)
  | EInList e l n r => EInList (strip e) (map strip l) n r
  | EInSubQuery e q n r => EInSubQuery (strip e) q n r
  | EBetween e n lo hi => EBetween (strip e) n (strip lo) (strip hi)
  | EBinary l op r => EBinary (strip l) op (strip r)
  | EUnary f op e => EUnary f op (strip e)
  | ECast e ty c r => ECast (strip e) ty c r
  | EFunction n args r ov orp => EFunction n (map strip args) r (option_map strip_winspec ov) orp
  | ECase c ce o bs el => ECase c ce (option_map strip o) (map (fun b => (strip (fst b), strip (snd b))) bs) (option_map strip el)
  | _ => e
  end
with strip_winspec (w : winspec) : winspec :=
  match w with WinSpec pb ob fr p o => WinSpec (map strip pb) (map strip_orderby ob) fr p o end
with strip_orderby (o : orderby) : orderby :=
  match o with OrderBy e p d => OrderBy (strip e) p d end.

Section Able.
  Variable d : dialect.

  (** Names that can start an expression anywhere. *)
  Definition name_ok (l : list ident) : bool :=
    wf_ids d l && negb (first_in (expr_words ++ ["SELECT"; "WITH"; "WHEN"]%string) l).

  (** The names, literals, types, operators and queries can be written; how operators
      are nested does not matter. *)
  Fixpoint able (e : node) : bool :=
    match e with
    | EIdent i => name_ok [i]
    | EWildcard _ => true
    | EQualWildcard l => name_ok l
    | ECompound l => name_ok l && Nat.ltb 1 (List.length l)
    | EIsNull x | EIsNotNull x | ENested x _ _ => able x
    | EInList e l _ _ => able e && nonempty l && forallb able l
    | EInSubQuery e q _ _ => able e && wf_query d q && sub_query q
    | EBetween e _ lo hi => able e && able lo && able hi
    | EBinary l op r => able l && able r && match op_type op with ONot | ONone => false | _ => true end
    | ECast e ty _ _ => able e && wf_type d ty
    | EUnary _ op e => able e && match op_type op with OPlus | OMinus | ONot => true | _ => false end
    | EFunction name args _ over _ =>
        name_ok (on_idents name) && forallb able args && match over with Some o => able_winspec o | None => true end
    | ECase _ _ operand branches else_ =>
        match operand with Some o => able o | None => true end && nonempty branches
        && forallb (fun p => able (fst p) && able (snd p)) branches
        && match else_ with Some e => able e | None => true end
    | EExists _ q _ _ _ => wf_query d q
    | ESubQuery q _ _ => wf_query d q && sub_query q
    | ELong _ | EDouble _ _ _ | EString _ _ _ | ENString _ _ _ | EBool _ _ _ | ENull _ _ => wf_node d e
    end
  with able_winspec (s : winspec) : bool :=
    match s with WinSpec pby oby frame _ _ => forallb able pby && forallb able_orderby oby && all_opt wf_wframe frame end
  with able_orderby (o : orderby) : bool := match o with OrderBy e _ _ => able e end.
End Able.
