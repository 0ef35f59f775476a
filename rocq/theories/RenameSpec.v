(** Renaming identifiers (C53). *)
From Coq Require Import ZArith List Bool String.
From Verif Require Import Base Token AST Prog Parser Erase ParseSpec.
Import ListNotations.
Open Scope Z_scope.

(** The words the parser asks for. *)
Definition vocabulary : list string :=
 ["ADD"; "ALL"; "ALTER"; "AND"; "AS"; "ASC"; "AUTO_INCREMENT"; "BETWEEN"; "BIGINT"; "BOOLEAN";
   "BY"; "BYTEA"; "CASCADE"; "CASE"; "CAST"; "CHAR"; "CHARACTER"; "CHARSET"; "CHECK"; "COLUMN";
   "CONSTRAINT"; "CREATE"; "CROSS"; "CURRENT"; "DATE"; "DEFAULT"; "DELETE"; "DESC"; "DISTINCT";
   "DOUBLE"; "DROP"; "DUPLICATE"; "ELSE"; "END"; "ENGINE"; "EXCEPT"; "EXISTS"; "EXPLAIN";
   "FALSE"; "FLOAT"; "FOLLOWING"; "FOREIGN"; "FROM"; "FULL"; "GROUP"; "GROUPS"; "HAVING"; "IF";
   "IN"; "INDEX"; "INNER"; "INSERT"; "INT"; "INTEGER"; "INTERSECT"; "INTO"; "IS"; "JOIN"; "KEY";
   "LATERAL"; "LEFT"; "LIKE"; "LIMIT"; "MATERIALIZED"; "NATURAL"; "NOT"; "NULL"; "NUMERIC";
   "OFFSET"; "ON"; "OR"; "ORDER"; "OUTER"; "OVER"; "PARTITION"; "PRECEDING"; "PRECISION";
   "PRIMARY"; "RANGE"; "REAL"; "REFERENCES"; "REGCLASS"; "RIGHT"; "ROW"; "ROWS"; "SELECT";
   "SET"; "SMALLINT"; "TABLE"; "TEXT"; "THEN"; "TIME"; "TIMESTAMP"; "TRUE"; "TYPE"; "UNBOUNDED";
   "UNION"; "UNIQUE"; "UNSIGNED"; "UPDATE"; "USING"; "UUID"; "VALUES"; "VARCHAR"; "VARYING";
   "VIEW"; "WHEN"; "WHERE"; "WITH"; "WITHOUT"; "ZONE"]%string.

(** A word of the vocabulary in any letter case: as strings.ToUpper sees it, or
    as strings.EqualFold sees it. *)
Definition special_word (v : gostring) : bool :=
  existsb (fun k => gs_eqb (upper v) (gs k) || equal_fold v (gs k)) vocabulary.

(** The word in a spelling with its quotes on: [a], ["a"], [`a`] and [[a]]. *)
Definition closing (q : rune) : option rune :=
  if q =? 34 then Some 34 else if q =? 96 then Some 96 else if q =? 91 then Some 93 else None.
Definition respell (v : gostring) : sqlword :=
  match v with
  | q :: s =>
      match closing q with
      | Some c => if gs_eqb s (removelast s ++ [c]) then mkWord (removelast s) q (upper (removelast s))
                  else mkWord v 0 (upper v)
      | None => mkWord v 0 (upper v)
      end
  | [] => mkWord [] 0 []
  end.

(** Spellings that have to stay: words of the vocabulary, quoted or not. *)
Definition special (v : gostring) : bool :=
  gs_eqb v [] || special_word v || special_word (wvalue (respell v)).

(** A renaming keeps the special spellings and does not introduce new ones. *)
Definition renaming (f : gostring -> gostring) : Prop :=
  forall v, if special v then f v = v else special (f v) = false.

(** The same on tokens. *)
Definition rename_value (f : gostring -> gostring) (v : tvalue) : tvalue :=
  match v with
  | VWord w => if special (word_string w) then VWord w else VWord (respell (f (word_string w)))
  | VStr s => VStr s
  end.

(** The same on trees: every identifier is renamed, nothing else changes. *)
Section Rename.
  Variable f : gostring -> gostring.

  Definition rn_ident (i : ident) : ident := mkIdent (f (id_value i)) (id_from i) (id_to i).
  Definition rn_on (o : objname) : objname := mkON (map rn_ident (on_idents o)).
  Fixpoint rn_dtype (t : dtype) : dtype :=
    match t with
    | TChar n a b c => TChar n a b c
    | TVarchar n a b c => TVarchar n a b c
    | TUUID a b => TUUID a b
    | TClob n a b => TClob n a b
    | TBinary n a b => TBinary n a b
    | TVarbinary n a b => TVarbinary n a b
    | TBlob n a b => TBlob n a b
    | TDecimal p s a b u c => TDecimal p s a b u c
    | TFloat n a b c u d => TFloat n a b c u d
    | TSmallInt a b u c => TSmallInt a b u c
    | TInt a b u c => TInt a b u c
    | TBigInt a b u c => TBigInt a b u c
    | TReal a b u c => TReal a b u c
    | TDouble a b => TDouble a b
    | TBoolean a b => TBoolean a b
    | TDate a b => TDate a b
    | TTime a b => TTime a b
    | TTimestamp w a b => TTimestamp w a b
    | TRegclass a b => TRegclass a b
    | TText a b => TText a b
    | TBytea a b => TBytea a b
    | TArray t a => TArray (rn_dtype t) a
    | TCustom o => TCustom (rn_on o)
    end.

  Fixpoint rn_node (e : node) : node :=
    match e with
    | EIdent i => EIdent (rn_ident i)
    | EWildcard p => EWildcard p
    | EQualWildcard l => EQualWildcard (map rn_ident l)
    | ECompound l => ECompound (map rn_ident l)
    | EIsNull x => EIsNull (rn_node x)
    | EIsNotNull x => EIsNotNull (rn_node x)
    | EInList e l n r => EInList (rn_node e) (map rn_node l) n r
    | EInSubQuery e q n r => EInSubQuery (rn_node e) (rn_query q) n r
    | EBetween e n lo hi => EBetween (rn_node e) n (rn_node lo) (rn_node hi)
    | EBinary l op r => EBinary (rn_node l) op (rn_node r)
    | ECast e ty c r => ECast (rn_node e) (rn_dtype ty) c r
    | ENested e l r => ENested (rn_node e) l r
    | EUnary f op e => EUnary f op (rn_node e)
    | EFunction n args r ov orp =>
        EFunction (rn_on n) (map rn_node args) r (option_map rn_winspec ov) orp
    | ECase c ce o bs el =>
        ECase c ce (option_map rn_node o)
          (map (fun b => (rn_node (fst b), rn_node (snd b))) bs) (option_map rn_node el)
    | EExists n q a b c => EExists n (rn_query q) a b c
    | ESubQuery q l r => ESubQuery (rn_query q) l r
    | ELong v => ELong v
    | EDouble f t d => EDouble f t d
    | EString f t s => EString f t s
    | ENString f t s => ENString f t s
    | EBool f t b => EBool f t b
    | ENull f t => ENull f t
    end
  with rn_winspec (w : winspec) : winspec :=
    match w with
    | WinSpec pb ob fr p o =>
        WinSpec (map rn_node pb) (map rn_orderby ob) fr p o
    end
  with rn_orderby (o : orderby) : orderby :=
    match o with OrderBy e p a => OrderBy (rn_node e) p a end
  with rn_query (q : query) : query :=
    match q with
    | Query w cs b ob l =>
        Query w (map rn_cte cs) (rn_setexpr b) (map rn_orderby ob) l
    end
  with rn_cte (c : cte) : cte :=
    match c with CTE a q r => CTE (rn_ident a) (rn_query q) r end
  with rn_setexpr (b : setexpr) : setexpr :=
    match b with
    | SSelect s => SSelect (rn_select s)
    | SQuery l r q => SQuery l r (rn_query q)
    | SSetOp op a l r => SSetOp op a (rn_setexpr l) (rn_setexpr r)
    end
  with rn_select (s : select) : select :=
    match s with
    | Select d pr fr w gb h p =>
        Select d (map rn_selitem pr) (map rn_tableref fr) (option_map rn_node w)
          (map rn_node gb) (option_map rn_node h) p
    end
  with rn_selitem (i : selitem) : selitem :=
    match i with
    | SIUnnamed e => SIUnnamed (rn_node e)
    | SIAlias e a => SIAlias (rn_node e) (rn_ident a)
    | SIQualWildcard p => SIQualWildcard (rn_on p)
    | SIWildcard f t => SIWildcard f t
    end
  with rn_tableref (t : tableref) : tableref :=
    match t with
    | TRTable n a args r h hr =>
        TRTable (rn_on n) (option_map rn_ident a) (map rn_node args) r (map rn_node h) hr
    | TRDerived l lp a b q al =>
        TRDerived l lp a b (rn_query q) (option_map rn_ident al)
    | TRCross a b => TRCross (rn_tableref a) (rn_tableref b)
    | TRQualified a ty b s => TRQualified (rn_tableref a) ty (rn_tableref b) (rn_joinspec s)
    | TRNatural a ty b => TRNatural (rn_tableref a) ty (rn_tableref b)
    end
  with rn_joinspec (j : joinspec) : joinspec :=
    match j with
    | JUsing l u r => JUsing (map rn_ident l) u r
    | JOn e p => JOn (rn_node e) p
    end.

  Definition rn_row (r : rowvalue) : rowvalue :=
    mkRow (map rn_node (row_values r)) (row_lparen r) (row_rparen r).
  Definition rn_src (s : insertsource) : insertsource :=
    match s with
    | ISSubQuery q => ISSubQuery (rn_query q)
    | ISConstructor v rows => ISConstructor v (map rn_row rows)
    end.
  Definition rn_assign (a : assignment) : assignment :=
    mkAssign (rn_ident (as_id a)) (rn_node (as_value a)).
  Definition rn_refkey (k : refkey) : refkey :=
    mkRefKey (rn_ident (rk_table k)) (map rn_ident (rk_columns k)) (rk_rparen k).
  Definition rn_tcspec (s : tcspec) : tcspec :=
    match s with
    | TCUnique b p u r c => TCUnique b p u r (map rn_ident c)
    | TCReferential f c k => TCReferential f (map rn_ident c) (rn_refkey k)
    | TCCheck c r e => TCCheck c r (rn_node e)
    end.
  Definition rn_tc (c : tableconstraint) : tableconstraint :=
    mkTC (tc_constraint c) (option_map rn_ident (tc_name c)) (rn_tcspec (tc_spec c)).
  Definition rn_ccspec (s : ccspec) : ccspec :=
    match s with
    | CCNotNull a b => CCNotNull a b
    | CCUnique p a b c => CCUnique p a b c
    | CCReferences a b t c => CCReferences a b (rn_on t) (map rn_ident c)
    | CCCheck e a b => CCCheck (rn_node e) a b
    end.
  Definition rn_cc (c : colconstraint) : colconstraint :=
    mkCC (option_map rn_ident (cc_name c)) (cc_constraint c) (rn_ccspec (cc_spec c)).
  Definition rn_coldef (c : columndef) : columndef :=
    mkColDef (rn_ident (cd_name c)) (rn_dtype (cd_type c)) (option_map rn_node (cd_default c))
      (cd_decorations c) (map rn_cc (cd_constraints c)).
  Definition rn_element (e : tableelement) : tableelement :=
    match e with
    | TEColumn c => TEColumn (rn_coldef c)
    | TEConstraint c => TEConstraint (rn_tc c)
    end.
  Definition rn_option (o : tableoption) : tableoption :=
    match o with
    | TOEngine e q n => TOEngine e q (rn_ident n)
    | TOCharset b d c q n => TOCharset b d c q (rn_ident n)
    end.
  Definition rn_acaction (a : altercolaction) : altercolaction :=
    match a with
    | ACSetDefault p e => ACSetDefault p (rn_node e)
    | ACDropDefault a b => ACDropDefault a b
    | ACType p t => ACType p (rn_dtype t)
    | ACSetNotNull a b => ACSetNotNull a b
    | ACDropNotNull a b => ACDropNotNull a b
    end.
  Definition rn_ataction (a : altertableaction) : altertableaction :=
    match a with
    | ATAddColumn p c => ATAddColumn p (rn_coldef c)
    | ATAlterColumn n p a => ATAlterColumn (rn_ident n) p (rn_acaction a)
    | ATRemoveColumn n c p q => ATRemoveColumn (rn_ident n) c p q
    | ATAddConstraint p c => ATAddConstraint p (rn_tc c)
    | ATDropConstraint n p c q => ATDropConstraint (rn_ident n) p c q
    end.
  Fixpoint rn_stmt (s : stmt) : stmt :=
    match s with
    | StQuery q => StQuery (rn_query q)
    | StInsert p t c src u =>
        StInsert p (rn_on t) (map rn_ident c) (rn_src src) (map rn_assign u)
    | StUpdate p t a s => StUpdate p (rn_on t) (map rn_assign a) (option_map rn_node s)
    | StDelete p t s => StDelete p (rn_on t) (option_map rn_node s)
    | StCreateView p n q m => StCreateView p (rn_on n) (rn_query q) m
    | StCreateTable p n e b o =>
        StCreateTable p (rn_on n) (map rn_element e) b (map rn_option o)
    | StAlterTable p t a => StAlterTable p (rn_on t) (rn_ataction a)
    | StDropTable t c cp i d => StDropTable (map rn_on t) c cp i d
    | StCreateIndex p t u i m c r s =>
        StCreateIndex p (rn_on t) u (option_map rn_ident i) (option_map rn_ident m)
          (map rn_ident c) r (option_map rn_node s)
    | StDropIndex p n => StDropIndex p (map rn_ident n)
    | StExplain s p => StExplain (rn_stmt s) p
    end.
End Rename.

(** The public methods of Parser, and how their results are renamed. *)
Inductive named : forall {A}, (rec -> prog A) -> ((gostring -> gostring) -> A -> A) ->
    ((pos -> pos) -> (rune -> rune) -> A -> A) -> Prop :=
| nm_sql pc : named (parse_sql pc) (fun f => map (rn_stmt f)) (fun fp g => map (er_stmt fp g))
| nm_stmt : named parse_statement rn_stmt er_stmt
| nm_expr : named parse_expr rn_node er_node
| nm_dtype : named parse_data_type rn_dtype er_dtype.

(** The tokens of one text are those of another, renamed. *)
Definition rename_kv (f : gostring -> gostring) (x : kind * tvalue) : kind * tvalue := (fst x, rename_value f (snd x)).
Definition renamed_tokens (f : gostring -> gostring) (l l' : list token) : Prop :=
  map kv (sig l') = map (rename_kv f) (map kv (sig l)).

(** One name for another. *)
Definition instead (a b : gostring) : gostring -> gostring := fun v => if gs_eqb v a then b else v.
