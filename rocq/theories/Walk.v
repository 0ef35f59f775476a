(** sqlast.Walk and sqlast.Inspect (sqlast/walk.go). *)
From Coq Require Import ZArith List Bool String.
From Verif Require Import Base Dialect Token AST Nodes.
Import ListNotations.
Open Scope Z_scope.
Open Scope string_scope.

(** One line of a case of the type switch.  [SOne c f]: the call for n.f (the
    name [c] is what sqlastutil.Apply passes along, see Apply.v); [SIf]: the
    same under [if n.f != nil]; [SNotAll]: under [if !n.All]; [SEach]: a loop
    over the slice n.f. *)
Inductive step :=
| SOne (cursor field : string)
| SIf (cursor field : string)
| SNotAll (cursor field : string)
| SEach (field : string).
Definition One (f : string) := SOne f f.
Definition If (f : string) := SIf f f.
Definition NotAll (f : string) := SNotAll f f.

(** The type switch of Walk, walk.go:28-388: for each Go type the calls made, in
    order (the line is that of the case).  Types without entry are handled by
    the default case, which panics. *)
Definition walk_table : list (string * list step) :=
  [
   ("File", [SEach "Stmts"]);                                                        (* 29 *)
   ("Ident", []);                                                                    (* 33 *)
   ("Wildcard", []);                                                                 (* 35 *)
   ("QualifiedWildcard", [SEach "Idents"]);                                          (* 37 *)
   ("CompoundIdent", [SEach "Idents"]);                                              (* 39 *)
   ("IsNull", [One "X"]);                                                            (* 41 *)
   ("IsNotNull", [One "X"]);                                                         (* 43 *)
   ("InList", [One "Expr"; SEach "List"]);                                           (* 45 *)
   ("InSubQuery", [One "Expr"; One "SubQuery"]);                                     (* 48 *)
   ("Between", [One "Expr"; One "Low"; One "High"]);                                 (* 51 *)
   ("BinaryExpr", [One "Left"; One "Op"; One "Right"]);                              (* 55 *)
   ("Cast", [One "Expr"; One "DataType"]);                                           (* 59 *)
   ("Nested", [One "AST"]);                                                          (* 62 *)
   ("UnaryExpr", [One "Op"; One "Expr"]);                                            (* 64 *)
   ("Function", [One "Name"; SEach "Args"; If "Over"]);                              (* 67 *)
   ("CaseExpr", [One "Operand"]);                                                    (* 73 *)
   ("Exists", [One "Query"]);                                                        (* 75 *)
   ("SubQuery", [One "Query"]);                                                      (* 77 *)
   ("ObjectName", [SEach "Idents"]);                                                 (* 79 *)
   ("WindowSpec", [SEach "PartitionBy"; SEach "OrderBy"; If "WindowsFrame"]);        (* 81 *)
   ("WindowFrame", [One "Units"; One "StartBound"; If "EndBound"]);                  (* 89 *)
   ("WindowFrameUnit", []);                                                          (* 95 *)
   ("CurrentRow", []);                                                               (* 97 *)
   ("UnboundedPreceding", []);                                                       (* 99 *)
   ("UnboundedFollowing", []);                                                       (* 101 *)
   ("Preceding", []);                                                                (* 103 *)
   ("Following", []);                                                                (* 105 *)
   ("QueryStmt", [SEach "CTEs"; One "Body"; SEach "OrderBy"; If "Limit"]);           (* 107 *)
   ("CTE", [One "Query"; One "Alias"]);                                              (* 118 *)
   ("SelectExpr", [One "Select"]);                                                   (* 121 *)
   ("QueryExpr", [One "Query"]);                                                     (* 123 *)
   ("SetOperationExpr", [One "Op"; One "Left"; One "Right"]);                        (* 125 *)
   ("UnionOperator", []);                                                            (* 129 *)
   ("ExceptOperator", []);                                                           (* 131 *)
   ("IntersectOperator", []);                                                        (* 133 *)
   ("SQLSelect", [SEach "Projection"; SEach "FromClause"; If "WhereClause"; SEach "GroupByClause"; If "HavingClause"]); (* 135 *)
   ("QualifiedJoin", [One "LeftElement"; One "Type"; One "RightElement"; One "Spec"]); (* 151 *)
   ("TableJoinElement", [One "Ref"]);                                                (* 156 *)
   ("JoinType", []);                                                                 (* 158 *)
   ("NamedColumnsJoin", []);                                                         (* 160 *)
   ("JoinCondition", [One "SearchCondition"]);                                       (* 162 *)
   ("NaturalJoin", [One "LeftElement"; One "Type"; One "RightElement"]);             (* 164 *)
   ("CrossJoin", [One "Factor"; One "Reference"]);                                   (* 168 *)
   ("Table", [One "Name"; If "Alias"; SEach "Args"; SEach "WithHints"]);             (* 171 *)
   ("Derived", [One "SubQuery"; If "Alias"]);                                        (* 178 *)
   ("UnnamedSelectItem", [One "Node"]);                                              (* 183 *)
   ("AliasSelectItem", [One "Expr"; One "Alias"]);                                   (* 185 *)
   ("QualifiedWildcardSelectItem", [One "Prefix"]);                                  (* 188 *)
   ("WildcardSelectItem", []);                                                       (* 190 *)
   ("OrderByExpr", [One "Expr"]);                                                    (* 192 *)
   ("LimitExpr", [NotAll "LimitValue"; If "OffsetValue"]);                           (* 194 *)
   ("CharType", []);                                                                 (* 201 *)
   ("VarcharType", []);                                                              (* 203 *)
   ("UUID", []);                                                                     (* 205 *)
   ("Clob", []);                                                                     (* 207 *)
   ("Binary", []);                                                                   (* 209 *)
   ("Varbinary", []);                                                                (* 211 *)
   ("Blob", []);                                                                     (* 213 *)
   ("Decimal", []);                                                                  (* 215 *)
   ("Float", []);                                                                    (* 217 *)
   ("SmallInt", []);                                                                 (* 219 *)
   ("Int", []);                                                                      (* 221 *)
   ("BigInt", []);                                                                   (* 223 *)
   ("Real", []);                                                                     (* 225 *)
   ("Double", []);                                                                   (* 227 *)
   ("Boolean", []);                                                                  (* 229 *)
   ("Date", []);                                                                     (* 231 *)
   ("Time", []);                                                                     (* 233 *)
   ("Timestamp", []);                                                                (* 235 *)
   ("Regclass", []);                                                                 (* 237 *)
   ("Text", []);                                                                     (* 239 *)
   ("Bytea", []);                                                                    (* 241 *)
   ("Array", []);                                                                    (* 243 *)
   ("Custom", []);                                                                   (* 245 *)
   ("InsertStmt", [One "TableName"; SEach "Columns"; One "Source"; SEach "UpdateAssignments"]); (* 247 *)
   ("ConstructorSource", [SEach "Rows"]);                                            (* 256 *)
   ("RowValueExpr", [SEach "Values"]);                                               (* 260 *)
   ("SubQuerySource", [One "SubQuery"]);                                             (* 264 *)
   ("CopyStmt", [One "TableName"; SEach "Columns"]);                                 (* 266 *)
   ("UpdateStmt", [One "TableName"; SEach "Assignments"; One "Selection"]);          (* 269 *)
   ("DeleteStmt", [One "TableName"; If "Selection"]);                                (* 275 *)
   ("CreateViewStmt", [One "Name"; One "Query"]);                                    (* 280 *)
   ("CreateTableStmt", [One "Name"; SEach "Elements"]);                              (* 283 *)
   ("Assignment", [One "ID"; One "Value"]);                                          (* 288 *)
   ("TableConstraint", [If "Name"; One "Spec"]);                                     (* 291 *)
   ("UniqueTableConstraint", [SEach "Columns"]);                                     (* 296 *)
   ("ReferentialTableConstraint", [SEach "Columns"; One "KeyExpr"]);                 (* 298 *)
   ("ReferenceKeyExpr", [One "TableName"; SEach "Columns"]);                         (* 301 *)
   ("CheckTableConstraint", [One "Expr"]);                                           (* 304 *)
   ("ColumnDef", [One "Name"; One "DataType"; If "Default"; SEach "Constraints"]);   (* 306 *)
   ("ColumnConstraint", [If "Name"; One "Spec"]);                                    (* 315 *)
   ("NotNullColumnSpec", []);                                                        (* 320 *)
   ("UniqueColumnSpec", []);                                                         (* 322 *)
   ("ReferencesColumnSpec", [One "TableName"; SEach "Columns"]);                     (* 324 *)
   ("CheckColumnSpec", [One "Expr"]);                                                (* 327 *)
   ("AlterTableStmt", [One "TableName"; One "Action"]);                              (* 329 *)
   ("AddColumnTableAction", [One "Column"]);                                         (* 332 *)
   ("AlterColumnTableAction", [One "ColumnName"; One "Action"]);                     (* 334 *)
   ("SetDefaultColumnAction", [One "Default"]);                                      (* 337 *)
   ("DropDefaultColumnAction", []);                                                  (* 339 *)
   ("PGAlterDataTypeColumnAction", [One "DataType"]);                                (* 341 *)
   ("PGSetNotNullColumnAction", []);                                                 (* 343 *)
   ("PGDropNotNullColumnAction", []);                                                (* 345 *)
   ("RemoveColumnTableAction", [One "Name"]);                                        (* 347 *)
   ("AddConstraintTableAction", [One "Constraint"]);                                 (* 349 *)
   ("DropConstraintTableAction", [One "Name"]);                                      (* 351 *)
   ("DropTableStmt", [SEach "TableNames"]);                                          (* 353 *)
   ("CreateIndexStmt", [One "TableName"; If "IndexName"; If "MethodName"; SEach "ColumnNames"; If "Selection"]); (* 357 *)
   ("DropIndexStmt", [SEach "IndexNames"]);                                          (* 369 *)
   ("ExplainStmt", [One "Stmt"]);                                                    (* 371 *)
   ("Operator", []);                                                                 (* 373 *)
   ("NullValue", []);                                                                (* 384 *)
   ("LongValue", []);                                                                (* 384 *)
   ("DoubleValue", []);                                                              (* 384 *)
   ("SingleQuotedString", []);                                                       (* 384 *)
   ("NationalStringLiteral", []);                                                    (* 384 *)
   ("BooleanValue", []);                                                             (* 384 *)
   ("DateValue", []);                                                                (* 384 *)
   ("TimeValue", []);                                                                (* 384 *)
   ("DateTimeValue", []);                                                            (* 384 *)
   ("TimestampValue", [])                                                            (* 384 *)
  ].

Fixpoint lookup {A} (k : string) (l : list (string * A)) : option A :=
  match l with
  | [] => None
  | (k', a) :: l' => if String.eqb k k' then Some a else lookup k l'
  end.

(** LimitExpr.All (query.go:757); no other node type has a field All that the
    switch reads. *)
Definition all_flag (x : any) : bool :=
  match x with ALimit l => match lim_value l with None => true | Some _ => false end | _ => false end.

(** The nodes one step passes on; [None] is a nil node. *)
Definition step_nodes {X} (all : bool) (fs : list (string * field X)) (s : step) : list (option X) :=
  match s with
  | SOne _ f => match lookup f fs with Some (FOne x) => [x] | _ => [] end
  | SIf _ f => match lookup f fs with Some (FOne (Some x)) => [Some x] | _ => [] end
  | SNotAll _ f => if all then [] else match lookup f fs with Some (FOne x) => [x] | _ => [] end
  | SEach f => match lookup f fs with Some (FMany l) => map Some l | _ => [] end
  end.

(** The nodes Walk goes to from [x], in order; [None]: the default case. *)
Definition kids (x : any) : option (list (option any)) :=
  match lookup (gotype x) walk_table with
  | Some steps => Some (flat_map (step_nodes (all_flag x) (fields x)) steps)
  | None => None
  end.

(** The number of nodes of a tree (used only as fuel). *)
Definition lsum {A} (f : A -> nat) (l : list A) : nat := fold_right (fun a n => (f a + n)%nat) 0%nat l.
Definition osum {A} (f : A -> nat) (o : option A) : nat := match o with Some a => f a | None => 0%nat end.

Definition sz_name (n : objname) : nat := S (List.length (on_idents n)).
Fixpoint sz_dtype (t : dtype) : nat :=
  match t with TArray u _ => S (sz_dtype u) | TCustom n => S (sz_name n) | _ => 1%nat end.
Definition sz_frame (f : wframe) : nat := 4%nat.
Definition sz_limit (l : limitexpr) : nat := 3%nat.

Fixpoint sz_node (e : node) : nat :=
  S match e with
    | EQualWildcard l | ECompound l => List.length l
    | EIsNull x | EIsNotNull x => sz_node x
    | EInList x l _ _ => sz_node x + lsum sz_node l
    | EInSubQuery x q _ _ => sz_node x + sz_query q
    | EBetween x _ l h => sz_node x + sz_node l + sz_node h
    | EBinary l _ r => sz_node l + 1 + sz_node r
    | ECast x t _ _ => sz_node x + sz_dtype t
    | ENested x _ _ => sz_node x
    | EUnary _ _ x => 1 + sz_node x
    | EFunction n a _ w _ => sz_name n + lsum sz_node a + osum sz_win w
    | ECase _ _ o b e => osum sz_node o + lsum (fun '(x, y) => sz_node x + sz_node y) b + osum sz_node e
    | EExists _ q _ _ _ | ESubQuery q _ _ => sz_query q
    | _ => 0
    end%nat
with sz_win (w : winspec) : nat :=
  match w with WinSpec p o f _ _ => S (lsum sz_node p + lsum sz_order o + osum sz_frame f) end%nat
with sz_order (o : orderby) : nat := match o with OrderBy e _ _ => S (sz_node e) end
with sz_query (q : query) : nat :=
  match q with Query _ c b o l => S (lsum sz_cte c + sz_set b + lsum sz_order o + osum sz_limit l) end%nat
with sz_cte (c : cte) : nat := match c with CTE _ q _ => S (1 + sz_query q) end%nat
with sz_set (b : setexpr) : nat :=
  match b with
  | SSelect s => sz_select s
  | SQuery _ _ q => S (sz_query q)
  | SSetOp _ _ l r => S (1 + sz_set l + sz_set r)
  end%nat
with sz_select (s : select) : nat :=
  match s with
  | Select _ p f w g h _ =>
      S (lsum sz_item p + lsum sz_ref f + osum sz_node w + lsum sz_node g + osum sz_node h)
  end%nat
with sz_item (i : selitem) : nat :=
  match i with
  | SIUnnamed e => S (sz_node e)
  | SIAlias e _ => S (sz_node e + 1)
  | SIQualWildcard n => S (sz_name n)
  | SIWildcard _ _ => 1
  end%nat
with sz_ref (t : tableref) : nat :=
  match t with
  | TRTable n a l _ h _ => S (sz_name n + osum (fun _ => 1) a + lsum sz_node l + lsum sz_node h)
  | TRDerived _ _ _ _ q a => S (sz_query q + osum (fun _ => 1) a)
  | TRCross r f => S (sz_ref r + sz_ref f)
  | TRQualified l _ r s => S (S (sz_ref l) + 1 + S (sz_ref r) + sz_spec s)
  | TRNatural l _ r => S (S (sz_ref l) + 1 + S (sz_ref r))
  end%nat
with sz_spec (s : joinspec) : nat :=
  match s with JUsing l _ _ => S (List.length l) | JOn e _ => S (sz_node e) end.

Definition sz_row (r : rowvalue) : nat := S (lsum sz_node (row_values r)).
Definition sz_source (s : insertsource) : nat :=
  match s with ISSubQuery q => S (sz_query q) | ISConstructor _ r => S (lsum sz_row r) end.
Definition sz_assign (a : assignment) : nat := (2 + sz_node (as_value a))%nat.
Definition sz_refkey (k : refkey) : nat := (2 + List.length (rk_columns k))%nat.
Definition sz_tspec (s : tcspec) : nat :=
  match s with
  | TCUnique _ _ _ _ l => S (List.length l)
  | TCReferential _ l k => S (List.length l + sz_refkey k)
  | TCCheck _ _ e => S (sz_node e)
  end%nat.
Definition sz_cspec (s : ccspec) : nat :=
  match s with
  | CCReferences _ _ t l => S (sz_name t + List.length l)
  | CCCheck e _ _ => S (sz_node e)
  | _ => 1
  end%nat.
Definition sz_ccons (c : colconstraint) : nat := (2 + sz_cspec (cc_spec c))%nat.
Definition sz_tcons (c : tableconstraint) : nat := (2 + sz_tspec (tc_spec c))%nat.
Definition sz_col (c : columndef) : nat :=
  (2 + sz_dtype (cd_type c) + osum sz_node (cd_default c) + List.length (cd_decorations c)
   + lsum sz_ccons (cd_constraints c))%nat.
Definition sz_elem (e : tableelement) : nat := match e with TEColumn c => sz_col c | TEConstraint c => sz_tcons c end.
Definition sz_colact (a : altercolaction) : nat :=
  match a with ACSetDefault _ e => S (sz_node e) | ACType _ t => S (sz_dtype t) | _ => 1%nat end.
Definition sz_action (a : altertableaction) : nat :=
  match a with
  | ATAddColumn _ c => S (sz_col c)
  | ATAlterColumn _ _ a => S (1 + sz_colact a)
  | ATAddConstraint _ c => S (sz_tcons c)
  | _ => 2
  end%nat.
Fixpoint sz_stmt (s : stmt) : nat :=
  match s with
  | StQuery q => sz_query q
  | StInsert _ t c s u => S (sz_name t + List.length c + sz_source s + lsum sz_assign u)
  | StUpdate _ t a s => S (sz_name t + lsum sz_assign a + osum sz_node s)
  | StDelete _ t s => S (sz_name t + osum sz_node s)
  | StCreateView _ n q _ => S (sz_name n + sz_query q)
  | StCreateTable _ n e _ o => S (sz_name n + lsum sz_elem e + 2 * List.length o)
  | StAlterTable _ t a => S (sz_name t + sz_action a)
  | StDropTable l _ _ _ _ => S (lsum sz_name l)
  | StCreateIndex _ t _ _ _ c _ s => S (sz_name t + 2 + List.length c + osum sz_node s)
  | StDropIndex _ l => S (List.length l)
  | StExplain s _ => S (sz_stmt s)
  end%nat.

Definition size (x : any) : nat :=
  match x with
  | AFile f => S (lsum sz_stmt (f_stmts f) + lsum (fun g => S (List.length g)) (f_comments f))
  | AExpr e => sz_node e
  | AName n => sz_name n
  | AWin w => sz_win w
  | AFrame f => sz_frame f
  | AOrder o => sz_order o
  | AQuery q => sz_query q
  | ACte c => sz_cte c
  | ASet b => sz_set b
  | AItem i => sz_item i
  | ARef t => sz_ref t
  | AElement t => S (sz_ref t)
  | ASpec s => sz_spec s
  | ALimit l => sz_limit l
  | AType t => sz_dtype t
  | AStmt s => sz_stmt s
  | ASource s => sz_source s
  | ARow r => sz_row r
  | AAssign a => sz_assign a
  | AElem e => sz_elem e
  | ATSpec s => sz_tspec s
  | ARefKey k => sz_refkey k
  | ACCons c => sz_ccons c
  | ACSpec s => sz_cspec s
  | AAction a => sz_action a
  | AColAction a => sz_colact a
  | AOption _ => 2
  | AGroup g => S (List.length g)
  | AOp _ | AUnit _ | ABound _ | ASetOp _ | AJoinType _ | ADecor _ | AComment _ => 1
  end%nat.

(** How a walk ends. *)
Inductive wend := WDone | WPanic | WFuel.

Section Walk.
  Context {S : Type}.
  (** A Visitor as a state machine: Visit(node) on a node ([None]: nil), with
      [true] for a non-nil result.  The visitor that Visit returns is otherwise
      ignored by Walk (the [v] of walk.go:24 shadows the parameter). *)
  Variable visit : S -> option any -> S * bool.

  (** A sequence of calls, abandoned at a panic. *)
  Fixpoint seq_nodes (go : option any -> S -> S * wend) (l : list (option any)) (s : S) : S * wend :=
    match l with
    | [] => (s, WDone)
    | x :: l' => match go x s with
                 | (s1, WDone) => seq_nodes go l' s1
                 | r => r
                 end
    end.

  (** walk.go:23-391. *)
  Fixpoint walk (n : nat) (x : option any) (s : S) : S * wend :=
    match n with
    | O => (s, WFuel)
    | Datatypes.S m =>
        match visit s x with
        | (s1, false) => (s1, WDone)                                  (* 24-26 *)
        | (s1, true) =>
            match x with
            | None => (s1, WPanic)                                    (* 386: default *)
            | Some y =>
                match kids y with
                | None => (s1, WPanic)                                (* 386 *)
                | Some ks =>
                    match seq_nodes (walk m) ks s1 with
                    | (s2, WDone) => (fst (visit s2 None), WDone)      (* 390 *)
                    | r => r
                    end
                end
            end
        end
    end.

  (** A call from outside. *)
  Definition Walk (x : any) (s : S) : S * wend := walk (Datatypes.S (size x)) (Some x) s.

  (** walk.go:393-404: Inspect(node, f) is Walk with the visitor that returns
      itself when f returns true and nil otherwise; so [visit] is f. *)
  Definition Inspect : any -> S -> S * wend := Walk.
End Walk.
