(** Templates (C55): a tree in which a string literal stands for an expression. *)
From Coq Require Import ZArith List Bool String.
From Verif Require Import Base Token LexSpec AST Prog Parser Erase ParseSpec.
Import ListNotations.
Open Scope Z_scope.

Section Fill.
  (** The literal and the expression it stands for. *)
  Variable v : gostring.
  Variable a : node.

  Fixpoint fill_node (e : node) : node :=
    match e with
    | EString f t s => if gs_eqb s v then a else EString f t s
    | EIdent _ | EWildcard _ | EQualWildcard _ | ECompound _ | ELong _ | EDouble _ _ _ | ENString _ _ _ | EBool _ _ _
    | ENull _ _ => e
    | EIsNull x => EIsNull (fill_node x)
    | EIsNotNull x => EIsNotNull (fill_node x)
    | EInList e l n r => EInList (fill_node e) (map fill_node l) n r
    | EInSubQuery e q n r => EInSubQuery (fill_node e) (fill_query q) n r
    | EBetween e n lo hi => EBetween (fill_node e) n (fill_node lo) (fill_node hi)
    | EBinary l op r => EBinary (fill_node l) op (fill_node r)
    | ECast e ty c r => ECast (fill_node e) ty c r
    | ENested e l r => ENested (fill_node e) l r
    | EUnary f op e => EUnary f op (fill_node e)
    | EFunction n args r ov orp => EFunction n (map fill_node args) r (option_map fill_winspec ov) orp
    | ECase c ce o bs el =>
        ECase c ce (option_map fill_node o) (map (fun b => (fill_node (fst b), fill_node (snd b))) bs) (option_map fill_node el)
    | EExists n q x y z => EExists n (fill_query q) x y z
    | ESubQuery q l r => ESubQuery (fill_query q) l r
    end
  with fill_winspec (w : winspec) : winspec :=
    match w with WinSpec pb ob fr p o => WinSpec (map fill_node pb) (map fill_orderby ob) fr p o end
  with fill_orderby (o : orderby) : orderby :=
    match o with OrderBy e p d => OrderBy (fill_node e) p d end
  with fill_query (q : query) : query :=
    match q with Query w cs b ob l => Query w (map fill_cte cs) (fill_setexpr b) (map fill_orderby ob) l end
  with fill_cte (c : cte) : cte :=
    match c with CTE i q r => CTE i (fill_query q) r end
  with fill_setexpr (b : setexpr) : setexpr :=
    match b with
    | SSelect s => SSelect (fill_select s)
    | SQuery l r q => SQuery l r (fill_query q)
    | SSetOp op x l r => SSetOp op x (fill_setexpr l) (fill_setexpr r)
    end
  with fill_select (s : select) : select :=
    match s with
    | Select d pr fr w gb h p =>
        Select d (map fill_selitem pr) (map fill_tableref fr) (option_map fill_node w) (map fill_node gb) (option_map fill_node h) p
    end
  with fill_selitem (i : selitem) : selitem :=
    match i with
    | SIUnnamed e => SIUnnamed (fill_node e)
    | SIAlias e n => SIAlias (fill_node e) n
    | SIQualWildcard p => SIQualWildcard p
    | SIWildcard f t => SIWildcard f t
    end
  with fill_tableref (t : tableref) : tableref :=
    match t with
    | TRTable n al args r h hr => TRTable n al (map fill_node args) r (map fill_node h) hr
    | TRDerived l lp x y q al => TRDerived l lp x y (fill_query q) al
    | TRCross x y => TRCross (fill_tableref x) (fill_tableref y)
    | TRQualified x ty y s => TRQualified (fill_tableref x) ty (fill_tableref y) (fill_joinspec s)
    | TRNatural x ty y => TRNatural (fill_tableref x) ty (fill_tableref y)
    end
  with fill_joinspec (j : joinspec) : joinspec :=
    match j with JUsing l u r => JUsing l u r | JOn e p => JOn (fill_node e) p end.

  Definition fill_row (r : rowvalue) : rowvalue := mkRow (map fill_node (row_values r)) (row_lparen r) (row_rparen r).
  Definition fill_src (s : insertsource) : insertsource :=
    match s with
    | ISSubQuery q => ISSubQuery (fill_query q)
    | ISConstructor p rows => ISConstructor p (map fill_row rows)
    end.
  Definition fill_assign (x : assignment) : assignment := mkAssign (as_id x) (fill_node (as_value x)).
  Definition fill_tcspec (s : tcspec) : tcspec :=
    match s with TCCheck c r e => TCCheck c r (fill_node e) | _ => s end.
  Definition fill_tc (c : tableconstraint) : tableconstraint := mkTC (tc_constraint c) (tc_name c) (fill_tcspec (tc_spec c)).
  Definition fill_ccspec (s : ccspec) : ccspec :=
    match s with CCCheck e x y => CCCheck (fill_node e) x y | _ => s end.
  Definition fill_cc (c : colconstraint) : colconstraint := mkCC (cc_name c) (cc_constraint c) (fill_ccspec (cc_spec c)).
  Definition fill_coldef (c : columndef) : columndef :=
    mkColDef (cd_name c) (cd_type c) (option_map fill_node (cd_default c)) (cd_decorations c) (map fill_cc (cd_constraints c)).
  Definition fill_element (e : tableelement) : tableelement :=
    match e with TEColumn c => TEColumn (fill_coldef c) | TEConstraint c => TEConstraint (fill_tc c) end.
  Definition fill_acaction (x : altercolaction) : altercolaction :=
    match x with ACSetDefault p e => ACSetDefault p (fill_node e) | _ => x end.
  Definition fill_ataction (x : altertableaction) : altertableaction :=
    match x with
    | ATAddColumn p c => ATAddColumn p (fill_coldef c)
    | ATAlterColumn n p y => ATAlterColumn n p (fill_acaction y)
    | ATAddConstraint p c => ATAddConstraint p (fill_tc c)
    | _ => x
    end.
  Fixpoint fill_stmt (s : stmt) : stmt :=
    match s with
    | StQuery q => StQuery (fill_query q)
    | StInsert p t c src u => StInsert p t c (fill_src src) (map fill_assign u)
    | StUpdate p t x s => StUpdate p t (map fill_assign x) (option_map fill_node s)
    | StDelete p t s => StDelete p t (option_map fill_node s)
    | StCreateView p n q m => StCreateView p n (fill_query q) m
    | StCreateTable p n e b o => StCreateTable p n (map fill_element e) b o
    | StAlterTable p t x => StAlterTable p t (fill_ataction x)
    | StCreateIndex p t u i m c r s => StCreateIndex p t u i m c r (option_map fill_node s)
    | StDropTable _ _ _ _ _ | StDropIndex _ _ => s
    | StExplain s p => StExplain (fill_stmt s) p
    end.
End Fill.

(** The methods that read templates, with the functions that rewrite positions in
    their results and that put an expression in the place of a literal. *)
Inductive template : forall A, (rec -> prog A) -> ((pos -> pos) -> (rune -> rune) -> A -> A) -> (gostring -> node -> A -> A) -> Prop :=
| template_expr : template node parse_expr er_node fill_node
| template_stmt : template stmt parse_statement er_stmt fill_stmt
| template_sql : template (list stmt) (parse_sql false) (fun fp g => map (er_stmt fp g)) (fun v a => map (fill_stmt v a)).
Arguments template {A} P erA F.

(** The string literal [v] is not among the tokens. *)
Definition fresh (v : gostring) (ts : list token) : Prop := ~ In (SingleQuotedString, VStr v) (map kv ts).

(** The tokens start with the word SELECT or WITH, in any case and any quotes. *)
Definition opens_query (ts : list token) : bool :=
  match ts with
  | t :: _ => match tval t with
              | VWord w => equal_fold (wvalue w) (gs "SELECT") || equal_fold (wvalue w) (gs "WITH")
              | VStr _ => false
              end
  | [] => false
  end.

(** ParseExpr reads all the tokens as the expression [a]. *)
Definition whole_expr (ts : list token) (a : node) : Prop :=
  exists st, call parse_expr [] ts = Ok a st /\ sig (snd st) = [].

(** [m] in parentheses between [x] and [y]; a string literal. *)
Definition filled (x m y : list rune) : list rune := x ++ [10; 40; 10] ++ m ++ [10; 41; 10] ++ y.
Definition literal (v : gostring) : list rune := 39 :: escape v ++ [39].
