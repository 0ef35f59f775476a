(** All AST types as one type of nodes, as sqlast.Node sees them, with their
    Go type names and their struct fields. *)
From Coq Require Import ZArith List Bool String.
From Verif Require Import Base Dialect Token AST.
Import ListNotations.
Open Scope Z_scope.
Open Scope string_scope.

(** A non-nil sqlast.Node (sqlast/ast.go:11-16).  [AExpr (EIdent i)] is *Ident
    wherever it occurs, [AExpr (ELong v)] *LongValue, [ASet (SSelect s)]
    *SQLSelect; *QueryStmt is always [AQuery] ([of_stmt]). *)
Inductive any :=
| AFile (f : file)
| AExpr (e : node)
| AName (n : objname)
| AOp (o : operator)
| AWin (w : winspec)
| AFrame (f : wframe)
| AUnit (u : wframeunit)
| ABound (b : wbound)
| AOrder (o : orderby)
| AQuery (q : query)
| ACte (c : cte)
| ASet (s : setexpr)
| ASetOp (o : setop)
| AItem (i : selitem)
| ARef (t : tableref)
| AElement (t : tableref)          (* *TableJoinElement with this Ref *)
| AJoinType (j : jointype)
| ASpec (s : joinspec)
| ALimit (l : limitexpr)
| AType (t : dtype)
| AStmt (s : stmt)
| ASource (s : insertsource)
| ARow (r : rowvalue)
| AAssign (a : assignment)
| AElem (e : tableelement)
| ATSpec (s : tcspec)
| ARefKey (k : refkey)
| ACCons (c : colconstraint)
| ACSpec (s : ccspec)
| AAction (a : altertableaction)
| AColAction (a : altercolaction)
| AOption (o : tableoption)
| ADecor (d : decoration)
| AGroup (g : commentgroup)
| AComment (c : comment).

Definition AIdent (i : ident) : any := AExpr (EIdent i).
Definition ALong (v : longval) : any := AExpr (ELong v).
Definition of_stmt (s : stmt) : any := match s with StQuery q => AQuery q | _ => AStmt s end.

(** The Go type of a node (the %T of walk.go's switch, without the star and
    package). *)
Definition gotype (x : any) : string :=
  match x with
  | AFile _ => "File"
  | AExpr (EIdent _) => "Ident"
  | AExpr (EWildcard _) => "Wildcard"
  | AExpr (EQualWildcard _) => "QualifiedWildcard"
  | AExpr (ECompound _) => "CompoundIdent"
  | AExpr (EIsNull _) => "IsNull"
  | AExpr (EIsNotNull _) => "IsNotNull"
  | AExpr (EInList _ _ _ _) => "InList"
  | AExpr (EInSubQuery _ _ _ _) => "InSubQuery"
  | AExpr (EBetween _ _ _ _) => "Between"
  | AExpr (EBinary _ _ _) => "BinaryExpr"
  | AExpr (ECast _ _ _ _) => "Cast"
  | AExpr (ENested _ _ _) => "Nested"
  | AExpr (EUnary _ _ _) => "UnaryExpr"
  | AExpr (EFunction _ _ _ _ _) => "Function"
  | AExpr (ECase _ _ _ _ _) => "CaseExpr"
  | AExpr (EExists _ _ _ _ _) => "Exists"
  | AExpr (ESubQuery _ _ _) => "SubQuery"
  | AExpr (ELong _) => "LongValue"
  | AExpr (EDouble _ _ _) => "DoubleValue"
  | AExpr (EString _ _ _) => "SingleQuotedString"
  | AExpr (ENString _ _ _) => "NationalStringLiteral"
  | AExpr (EBool _ _ _) => "BooleanValue"
  | AExpr (ENull _ _) => "NullValue"
  | AName _ => "ObjectName"
  | AOp _ => "Operator"
  | AWin _ => "WindowSpec"
  | AFrame _ => "WindowFrame"
  | AUnit _ => "WindowFrameUnit"
  | ABound (BCurrentRow _ _) => "CurrentRow"
  | ABound (BUnboundedPreceding _ _) => "UnboundedPreceding"
  | ABound (BUnboundedFollowing _ _) => "UnboundedFollowing"
  | ABound (BPreceding _ _ _) => "Preceding"
  | ABound (BFollowing _ _ _) => "Following"
  | AOrder _ => "OrderByExpr"
  | AQuery _ => "QueryStmt"
  | ACte _ => "CTE"
  | ASet (SSelect _) => "SQLSelect"
  | ASet (SQuery _ _ _) => "QueryExpr"
  | ASet (SSetOp _ _ _ _) => "SetOperationExpr"
  | ASetOp (SUnion _ _) => "UnionOperator"
  | ASetOp (SExcept _ _) => "ExceptOperator"
  | ASetOp (SIntersect _ _) => "IntersectOperator"
  | AItem (SIUnnamed _) => "UnnamedSelectItem"
  | AItem (SIAlias _ _) => "AliasSelectItem"
  | AItem (SIQualWildcard _) => "QualifiedWildcardSelectItem"
  | AItem (SIWildcard _ _) => "WildcardSelectItem"
  | ARef (TRTable _ _ _ _ _ _) => "Table"
  | ARef (TRDerived _ _ _ _ _ _) => "Derived"
  | ARef (TRCross _ _) => "CrossJoin"
  | ARef (TRQualified _ _ _ _) => "QualifiedJoin"
  | ARef (TRNatural _ _ _) => "NaturalJoin"
  | AElement _ => "TableJoinElement"
  | AJoinType _ => "JoinType"
  | ASpec (JUsing _ _ _) => "NamedColumnsJoin"
  | ASpec (JOn _ _) => "JoinCondition"
  | ALimit _ => "LimitExpr"
  | AType (TChar _ _ _ _) => "CharType"
  | AType (TVarchar _ _ _ _) => "VarcharType"
  | AType (TUUID _ _) => "UUID"
  | AType (TClob _ _ _) => "Clob"
  | AType (TBinary _ _ _) => "Binary"
  | AType (TVarbinary _ _ _) => "Varbinary"
  | AType (TBlob _ _ _) => "Blob"
  | AType (TDecimal _ _ _ _ _ _) => "Decimal"
  | AType (TFloat _ _ _ _ _ _) => "Float"
  | AType (TSmallInt _ _ _ _) => "SmallInt"
  | AType (TInt _ _ _ _) => "Int"
  | AType (TBigInt _ _ _ _) => "BigInt"
  | AType (TReal _ _ _ _) => "Real"
  | AType (TDouble _ _) => "Double"
  | AType (TBoolean _ _) => "Boolean"
  | AType (TDate _ _) => "Date"
  | AType (TTime _ _) => "Time"
  | AType (TTimestamp _ _ _) => "Timestamp"
  | AType (TRegclass _ _) => "Regclass"
  | AType (TText _ _) => "Text"
  | AType (TBytea _ _) => "Bytea"
  | AType (TArray _ _) => "Array"
  | AType (TCustom _) => "Custom"
  | AStmt (StQuery _) => "QueryStmt"
  | AStmt (StInsert _ _ _ _ _) => "InsertStmt"
  | AStmt (StUpdate _ _ _ _) => "UpdateStmt"
  | AStmt (StDelete _ _ _) => "DeleteStmt"
  | AStmt (StCreateView _ _ _ _) => "CreateViewStmt"
  | AStmt (StCreateTable _ _ _ _ _) => "CreateTableStmt"
  | AStmt (StAlterTable _ _ _) => "AlterTableStmt"
  | AStmt (StDropTable _ _ _ _ _) => "DropTableStmt"
  | AStmt (StCreateIndex _ _ _ _ _ _ _ _) => "CreateIndexStmt"
  | AStmt (StDropIndex _ _) => "DropIndexStmt"
  | AStmt (StExplain _ _) => "ExplainStmt"
  | ASource (ISSubQuery _) => "SubQuerySource"
  | ASource (ISConstructor _ _) => "ConstructorSource"
  | ARow _ => "RowValueExpr"
  | AAssign _ => "Assignment"
  | AElem (TEColumn _) => "ColumnDef"
  | AElem (TEConstraint _) => "TableConstraint"
  | ATSpec (TCUnique _ _ _ _ _) => "UniqueTableConstraint"
  | ATSpec (TCReferential _ _ _) => "ReferentialTableConstraint"
  | ATSpec (TCCheck _ _ _) => "CheckTableConstraint"
  | ARefKey _ => "ReferenceKeyExpr"
  | ACCons _ => "ColumnConstraint"
  | ACSpec (CCNotNull _ _) => "NotNullColumnSpec"
  | ACSpec (CCUnique _ _ _ _) => "UniqueColumnSpec"
  | ACSpec (CCReferences _ _ _ _) => "ReferencesColumnSpec"
  | ACSpec (CCCheck _ _ _) => "CheckColumnSpec"
  | AAction (ATAddColumn _ _) => "AddColumnTableAction"
  | AAction (ATAlterColumn _ _ _) => "AlterColumnTableAction"
  | AAction (ATRemoveColumn _ _ _ _) => "RemoveColumnTableAction"
  | AAction (ATAddConstraint _ _) => "AddConstraintTableAction"
  | AAction (ATDropConstraint _ _ _ _) => "DropConstraintTableAction"
  | AColAction (ACSetDefault _ _) => "SetDefaultColumnAction"
  | AColAction (ACDropDefault _ _) => "DropDefaultColumnAction"
  | AColAction (ACType _ _) => "PGAlterDataTypeColumnAction"
  | AColAction (ACSetNotNull _ _) => "PGSetNotNullColumnAction"
  | AColAction (ACDropNotNull _ _) => "PGDropNotNullColumnAction"
  | AOption (TOEngine _ _ _) => "MyEngine"
  | AOption (TOCharset _ _ _ _ _) => "MyCharset"
  | ADecor _ => "AutoIncrement"
  | AGroup _ => "CommentGroup"
  | AComment _ => "Comment"
  end.

(** A struct field that holds nodes: an interface or pointer (possibly nil), or
    a slice. *)
Inductive field (X : Type) := FOne (x : option X) | FMany (l : list X).
Arguments FOne {X} x.
Arguments FMany {X} l.

Definition f1 {A} (inj : A -> any) (name : string) (a : A) : string * field any := (name, FOne (Some (inj a))).
Definition f01 {A} (inj : A -> any) (name : string) (a : option A) : string * field any :=
  (name, FOne (option_map inj a)).
Definition fl {A} (inj : A -> any) (name : string) (l : list A) : string * field any := (name, FMany (map inj l)).

(** The node-valued struct fields in declaration order (the struct types of
    sqlast/ast.go, query.go, stmt.go, type.go, table_option.go; the lines are
    those given in AST.v).  The parallel slices of CaseExpr are rebuilt from the
    list of branches. *)
Definition fields (x : any) : list (string * field any) :=
  match x with
  | AFile f => [fl of_stmt "Stmts" (f_stmts f); fl AGroup "Comments" (f_comments f)]
  | AExpr (EQualWildcard l) | AExpr (ECompound l) => [fl AIdent "Idents" l]
  | AExpr (EIsNull e) | AExpr (EIsNotNull e) => [f1 AExpr "X" e]
  | AExpr (EInList e l _ _) => [f1 AExpr "Expr" e; fl AExpr "List" l]
  | AExpr (EInSubQuery e q _ _) => [f1 AExpr "Expr" e; f1 AQuery "SubQuery" q]
  | AExpr (EBetween e _ lo hi) => [f1 AExpr "Expr" e; f1 AExpr "Low" lo; f1 AExpr "High" hi]
  | AExpr (EBinary l o r) => [f1 AExpr "Left" l; f1 AOp "Op" o; f1 AExpr "Right" r]
  | AExpr (ECast e t _ _) => [f1 AExpr "Expr" e; f1 AType "DataType" t]
  | AExpr (ENested e _ _) => [f1 AExpr "AST" e]
  | AExpr (EUnary _ o e) => [f1 AOp "Op" o; f1 AExpr "Expr" e]
  | AExpr (EFunction n a _ w _) => [f1 AName "Name" n; fl AExpr "Args" a; f01 AWin "Over" w]
  | AExpr (ECase _ _ o b e) =>
      [f01 AExpr "Operand" o; fl AExpr "Conditions" (map fst b); fl AExpr "Results" (map snd b);
       f01 AExpr "ElseResult" e]
  | AExpr (EExists _ q _ _ _) | AExpr (ESubQuery q _ _) => [f1 AQuery "Query" q]
  | AExpr (EIdent _) | AExpr (EWildcard _) | AExpr (ELong _) | AExpr (EDouble _ _ _)
  | AExpr (EString _ _ _) | AExpr (ENString _ _ _) | AExpr (EBool _ _ _) | AExpr (ENull _ _) => []
  | AName n => [fl AIdent "Idents" (on_idents n)]
  | AOp _ => []
  | AWin (WinSpec p o f _ _) =>
      [fl AExpr "PartitionBy" p; fl AOrder "OrderBy" o; f01 AFrame "WindowsFrame" f]
  | AFrame f => [f1 AUnit "Units" (wf_units f); f1 ABound "StartBound" (wf_start f);
                 f01 ABound "EndBound" (wf_end f)]
  | AUnit _ | ABound _ => []
  | AOrder (OrderBy e _ _) => [f1 AExpr "Expr" e]
  | AQuery (Query _ c b o l) | AStmt (StQuery (Query _ c b o l)) =>
      [fl ACte "CTEs" c; f1 ASet "Body" b; fl AOrder "OrderBy" o; f01 ALimit "Limit" l]
  | ACte (CTE a q _) => [f1 AIdent "Alias" a; f1 AQuery "Query" q]
  | ASet (SSelect (Select _ p f w g h _)) =>
      [fl AItem "Projection" p; fl ARef "FromClause" f; f01 AExpr "WhereClause" w;
       fl AExpr "GroupByClause" g; f01 AExpr "HavingClause" h]
  | ASet (SQuery _ _ q) => [f1 AQuery "Query" q]
  | ASet (SSetOp o _ l r) => [f1 ASetOp "Op" o; f1 ASet "Left" l; f1 ASet "Right" r]
  | ASetOp _ => []
  | AItem (SIUnnamed e) => [f1 AExpr "Node" e]
  | AItem (SIAlias e a) => [f1 AExpr "Expr" e; f1 AIdent "Alias" a]
  | AItem (SIQualWildcard p) => [f1 AName "Prefix" p]
  | AItem (SIWildcard _ _) => []
  | ARef (TRTable n a l _ h _) =>
      [f1 AName "Name" n; f01 AIdent "Alias" a; fl AExpr "Args" l; fl AExpr "WithHints" h]
  | ARef (TRDerived _ _ _ _ q a) => [f1 AQuery "SubQuery" q; f01 AIdent "Alias" a]
  | ARef (TRCross r f) => [f1 ARef "Reference" r; f1 ARef "Factor" f]
  | ARef (TRQualified l t r s) =>
      [f1 AElement "LeftElement" l; f1 AJoinType "Type" t; f1 AElement "RightElement" r; f1 ASpec "Spec" s]
  | ARef (TRNatural l t r) =>
      [f1 AElement "LeftElement" l; f1 AJoinType "Type" t; f1 AElement "RightElement" r]
  | AElement t => [f1 ARef "Ref" t]
  | AJoinType _ => []
  | ASpec (JUsing l _ _) => [fl AIdent "ColumnList" l]
  | ASpec (JOn e _) => [f1 AExpr "SearchCondition" e]
  | ALimit l => [f01 ALong "LimitValue" (lim_value l); f01 ALong "OffsetValue" (lim_offset l)]
  | AType (TArray t _) => [f1 AType "Ty" t]
  | AType (TCustom n) => [f1 AName "Ty" n]
  | AType _ => []
  | AStmt (StInsert _ t c s u) =>
      [f1 AName "TableName" t; fl AIdent "Columns" c; f1 ASource "Source" s;
       fl AAssign "UpdateAssignments" u]
  | AStmt (StUpdate _ t a s) => [f1 AName "TableName" t; fl AAssign "Assignments" a; f01 AExpr "Selection" s]
  | AStmt (StDelete _ t s) => [f1 AName "TableName" t; f01 AExpr "Selection" s]
  | AStmt (StCreateView _ n q _) => [f1 AName "Name" n; f1 AQuery "Query" q]
  | AStmt (StCreateTable _ n e _ o) => [f1 AName "Name" n; fl AElem "Elements" e; fl AOption "Options" o]
  | AStmt (StAlterTable _ t a) => [f1 AName "TableName" t; f1 AAction "Action" a]
  | AStmt (StDropTable l _ _ _ _) => [fl AName "TableNames" l]
  | AStmt (StCreateIndex _ t _ i m c _ s) =>
      [f1 AName "TableName" t; f01 AIdent "IndexName" i; f01 AIdent "MethodName" m;
       fl AIdent "ColumnNames" c; f01 AExpr "Selection" s]
  | AStmt (StDropIndex _ l) => [fl AIdent "IndexNames" l]
  | AStmt (StExplain s _) => [f1 of_stmt "Stmt" s]
  | ASource (ISSubQuery q) => [f1 AQuery "SubQuery" q]
  | ASource (ISConstructor _ r) => [fl ARow "Rows" r]
  | ARow r => [fl AExpr "Values" (row_values r)]
  | AAssign a => [f1 AIdent "ID" (as_id a); f1 AExpr "Value" (as_value a)]
  | AElem (TEColumn c) =>
      [f1 AIdent "Name" (cd_name c); f1 AType "DataType" (cd_type c); f01 AExpr "Default" (cd_default c);
       fl ADecor "MyDataTypeDecoration" (cd_decorations c); fl ACCons "Constraints" (cd_constraints c)]
  | AElem (TEConstraint c) => [f01 AIdent "Name" (tc_name c); f1 ATSpec "Spec" (tc_spec c)]
  | ATSpec (TCUnique _ _ _ _ l) => [fl AIdent "Columns" l]
  | ATSpec (TCReferential _ l k) => [fl AIdent "Columns" l; f1 ARefKey "KeyExpr" k]
  | ATSpec (TCCheck _ _ e) => [f1 AExpr "Expr" e]
  | ARefKey k => [f1 AIdent "TableName" (rk_table k); fl AIdent "Columns" (rk_columns k)]
  | ACCons c => [f01 AIdent "Name" (cc_name c); f1 ACSpec "Spec" (cc_spec c)]
  | ACSpec (CCReferences _ _ t l) => [f1 AName "TableName" t; fl AIdent "Columns" l]
  | ACSpec (CCCheck e _ _) => [f1 AExpr "Expr" e]
  | ACSpec _ => []
  | AAction (ATAddColumn _ c) => [f1 (fun c => AElem (TEColumn c)) "Column" c]
  | AAction (ATAlterColumn n _ a) => [f1 AIdent "ColumnName" n; f1 AColAction "Action" a]
  | AAction (ATRemoveColumn n _ _ _) => [f1 AIdent "Name" n]
  | AAction (ATAddConstraint _ c) => [f1 (fun c => AElem (TEConstraint c)) "Constraint" c]
  | AAction (ATDropConstraint n _ _ _) => [f1 AIdent "Name" n]
  | AColAction (ACSetDefault _ e) => [f1 AExpr "Default" e]
  | AColAction (ACType _ t) => [f1 AType "DataType" t]
  | AColAction _ => []
  | AOption (TOEngine _ _ n) | AOption (TOCharset _ _ _ _ n) => [f1 AIdent "Name" n]
  | ADecor _ => []
  | AGroup g => [fl AComment "List" g]
  | AComment _ => []
  end.

(** The nodes held by a field. *)
Definition held {X} (f : field X) : list X :=
  match f with FOne None => [] | FOne (Some x) => [x] | FMany l => l end.

(** The direct sub-nodes of a node. *)
Definition subnodes (x : any) : list any := flat_map (fun e => held (snd e)) (fields x).

(** Sub-nodes at any depth, and the node itself. *)
Inductive within : any -> any -> Prop :=
| within_self x : within x x
| within_sub x y z : In y (subnodes x) -> within y z -> within x z.
