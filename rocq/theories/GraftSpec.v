(** Templates for queries (C57): a tree in which SELECT 'v' stands for a query. *)
From Coq Require Import ZArith List Bool String.
From Verif Require Import Base Token LexSpec AST Prog Parser Erase ParseSpec FillSpec.
Import ListNotations.
Open Scope Z_scope.

(** The query SELECT 'v'. *)
Definition stands (v : gostring) (q : query) : bool :=
  match q with
  | Query _ [] (SSelect (Select false [SIUnnamed (EString _ _ s)] [] None [] None _)) [] None => gs_eqb s v
  | _ => false
  end.

Section Graft.
  (** The literal and the query it stands for. *)
  Variable v : gostring.
  Variable a : query.

  Fixpoint graft_node (e : node) : node :=
    match e with
    | EIdent _ | EWildcard _ | EQualWildcard _ | ECompound _ | ELong _ | EDouble _ _ _ | EString _ _ _ | ENString _ _ _ | EBool _ _ _
    | ENull _ _ => e
    | EIsNull x => EIsNull (graft_node x)
    | EIsNotNull x => EIsNotNull (graft_node x)
    | EInList e l n r => EInList (graft_node e) (map graft_node l) n r
    | EInSubQuery e q n r => EInSubQuery (graft_node e) (graft_query q) n r
    | EBetween e n lo hi => EBetween (graft_node e) n (graft_node lo) (graft_node hi)
    | EBinary l op r => EBinary (graft_node l) op (graft_node r)
    | ECast e ty c r => ECast (graft_node e) ty c r
    | ENested e l r => ENested (graft_node e) l r
    | EUnary f op e => EUnary f op (graft_node e)
    | EFunction n args r ov orp => EFunction n (map graft_node args) r (option_map graft_winspec ov) orp
    | ECase c ce o bs el =>
        ECase c ce (option_map graft_node o) (map (fun b => (graft_node (fst b), graft_node (snd b))) bs) (option_map graft_node el)
    | EExists n q x y z => EExists n (graft_query q) x y z
    | ESubQuery q l r => ESubQuery (graft_query q) l r
    end
  with graft_winspec (w : winspec) : winspec :=
    match w with WinSpec pb ob fr p o => WinSpec (map graft_node pb) (map graft_orderby ob) fr p o end
  with graft_orderby (o : orderby) : orderby :=
    match o with OrderBy e p d => OrderBy (graft_node e) p d end
  with graft_query (q : query) : query :=
    match q with
    | Query w cs b ob l => if stands v q then a else Query w (map graft_cte cs) (graft_setexpr b) (map graft_orderby ob) l
    end
  with graft_cte (c : cte) : cte :=
    match c with CTE i q r => CTE i (graft_query q) r end
  with graft_setexpr (b : setexpr) : setexpr :=
    match b with
    | SSelect s => SSelect (graft_select s)
    | SQuery l r q => SQuery l r (graft_query q)
    | SSetOp op x l r => SSetOp op x (graft_setexpr l) (graft_setexpr r)
    end
  with graft_select (s : select) : select :=
    match s with
    | Select d pr fr w gb h p =>
        Select d (map graft_selitem pr) (map graft_tableref fr) (option_map graft_node w) (map graft_node gb) (option_map graft_node h) p
    end
  with graft_selitem (i : selitem) : selitem :=
    match i with
    | SIUnnamed e => SIUnnamed (graft_node e)
    | SIAlias e n => SIAlias (graft_node e) n
    | SIQualWildcard p => SIQualWildcard p
    | SIWildcard f t => SIWildcard f t
    end
  with graft_tableref (t : tableref) : tableref :=
    match t with
    | TRTable n al args r h hr => TRTable n al (map graft_node args) r (map graft_node h) hr
    | TRDerived l lp x y q al => TRDerived l lp x y (graft_query q) al
    | TRCross x y => TRCross (graft_tableref x) (graft_tableref y)
    | TRQualified x ty y s => TRQualified (graft_tableref x) ty (graft_tableref y) (graft_joinspec s)
    | TRNatural x ty y => TRNatural (graft_tableref x) ty (graft_tableref y)
    end
  with graft_joinspec (j : joinspec) : joinspec :=
    match j with JUsing l u r => JUsing l u r | JOn e p => JOn (graft_node e) p end.

  Definition graft_row (r : rowvalue) : rowvalue := mkRow (map graft_node (row_values r)) (row_lparen r) (row_rparen r).
  Definition graft_src (s : insertsource) : insertsource :=
    match s with
    | ISSubQuery q => ISSubQuery (graft_query q)
    | ISConstructor p rows => ISConstructor p (map graft_row rows)
    end.
  Definition graft_assign (x : assignment) : assignment := mkAssign (as_id x) (graft_node (as_value x)).
  Definition graft_tcspec (s : tcspec) : tcspec :=
    match s with TCCheck c r e => TCCheck c r (graft_node e) | _ => s end.
  Definition graft_tc (c : tableconstraint) : tableconstraint := mkTC (tc_constraint c) (tc_name c) (graft_tcspec (tc_spec c)).
  Definition graft_ccspec (s : ccspec) : ccspec :=
    match s with CCCheck e x y => CCCheck (graft_node e) x y | _ => s end.
  Definition graft_cc (c : colconstraint) : colconstraint := mkCC (cc_name c) (cc_constraint c) (graft_ccspec (cc_spec c)).
  Definition graft_coldef (c : columndef) : columndef :=
    mkColDef (cd_name c) (cd_type c) (option_map graft_node (cd_default c)) (cd_decorations c) (map graft_cc (cd_constraints c)).
  Definition graft_element (e : tableelement) : tableelement :=
    match e with TEColumn c => TEColumn (graft_coldef c) | TEConstraint c => TEConstraint (graft_tc c) end.
  Definition graft_acaction (x : altercolaction) : altercolaction :=
    match x with ACSetDefault p e => ACSetDefault p (graft_node e) | _ => x end.
  Definition graft_ataction (x : altertableaction) : altertableaction :=
    match x with
    | ATAddColumn p c => ATAddColumn p (graft_coldef c)
    | ATAlterColumn n p y => ATAlterColumn n p (graft_acaction y)
    | ATAddConstraint p c => ATAddConstraint p (graft_tc c)
    | _ => x
    end.
  Fixpoint graft_stmt (s : stmt) : stmt :=
    match s with
    | StQuery q => StQuery (graft_query q)
    | StInsert p t c src u => StInsert p t c (graft_src src) (map graft_assign u)
    | StUpdate p t x s => StUpdate p t (map graft_assign x) (option_map graft_node s)
    | StDelete p t s => StDelete p t (option_map graft_node s)
    | StCreateView p n q m => StCreateView p n (graft_query q) m
    | StCreateTable p n e b o => StCreateTable p n (map graft_element e) b o
    | StAlterTable p t x => StAlterTable p t (graft_ataction x)
    | StCreateIndex p t u i m c r s => StCreateIndex p t u i m c r (option_map graft_node s)
    | StDropTable _ _ _ _ _ | StDropIndex _ _ => s
    | StExplain s p => StExplain (graft_stmt s) p
    end.
End Graft.


(** The methods that read templates, with the functions that rewrite positions in
    their results and that put a query in its place. *)
Inductive query_template : forall A, (rec -> prog A) -> ((pos -> pos) -> (rune -> rune) -> A -> A) -> (gostring -> query -> A -> A) -> Prop :=
| query_template_expr : query_template node parse_expr er_node graft_node
| query_template_stmt : query_template stmt parse_statement er_stmt graft_stmt
| query_template_sql : query_template (list stmt) (parse_sql false) (fun fp g => map (er_stmt fp g)) (fun v a => map (graft_stmt v a)).
Arguments query_template {A} P erA F.

(** The word SELECT as the tokenizer gives it. *)
Definition select_word : kind * tvalue := (SQLKeyword, VWord (mkWord (gs "SELECT") 0 (gs "SELECT"))).

(** ParseStatement reads the tokens, with a semicolon behind them, as the query [q],
    up to the semicolon. *)
Definition whole_query (ts : list token) (q : query) : Prop :=
  exists semi st, tkind semi = Semicolon /\ tok_wf semi /\ call parse_statement [] (ts ++ [semi]) = Ok (StQuery q) st /\ sig (snd st) = [semi].

(** The tokens start with SELECT WITH, in any case and any quotes. *)
Definition select_with (ts : list token) : bool :=
  match ts with
  | s :: t :: _ =>
      match tval s, tval t with
      | VWord w, VWord w' => equal_fold (wvalue w) (gs "SELECT") && equal_fold (wvalue w') (gs "WITH")
      | _, _ => false
      end
  | _ => false
  end.
