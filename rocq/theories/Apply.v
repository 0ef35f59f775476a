(** sqlastutil.Apply and its Cursor (sqlastutil/rewrite.go). *)
From Coq Require Import ZArith List Bool String.
From Verif Require Import Base Dialect Token AST Nodes Walk.
Import ListNotations.
Open Scope string_scope.
Open Scope Z_scope.
Open Scope list_scope.

(** The type switch of apply, rewrite.go:128-449: for each Go type the calls
    made, in order (the line is that of the case).  Types without entry are
    handled by the default case, which panics. *)
Definition apply_table : list (string * list step) :=
  [
   ("File", [SEach "Stmts"]);                                                        (* 129 *)
   ("Ident", []);                                                                    (* 131 *)
   ("Wildcard", []);                                                                 (* 133 *)
   ("QualifiedWildcard", [SEach "Idents"]);                                          (* 135 *)
   ("CompoundIdent", [SEach "Idents"]);                                              (* 137 *)
   ("IsNull", [One "X"]);                                                            (* 139 *)
   ("IsNotNull", [One "X"]);                                                         (* 141 *)
   ("InList", [One "Expr"; SEach "List"]);                                           (* 143 *)
   ("InSubQuery", [One "Expr"; One "SubQuery"]);                                     (* 146 *)
   ("Between", [One "Expr"; One "Low"; One "High"]);                                 (* 149 *)
   ("BinaryExpr", [One "Left"; One "Op"; One "Right"]);                              (* 153 *)
   ("Cast", [One "Expr"; One "DataType"]);                                           (* 157 *)
   ("Nested", [One "AST"]);                                                          (* 160 *)
   ("UnaryExpr", [One "Op"; One "Expr"]);                                            (* 162 *)
   ("Function", [One "Name"; SEach "Args"; If "Over"]);                              (* 165 *)
   ("CaseExpr", [One "Operand"]);                                                    (* 171 *)
   ("Exists", [SOne "QueryStmt" "Query"]);                                           (* 173 *)
   ("SubQuery", [SOne "QueryStmt" "Query"]);                                         (* 175 *)
   ("ObjectName", [SEach "Idents"]);                                                 (* 177 *)
   ("WindowSpec", [SEach "PartitionBy"; SEach "OrderBy"; If "WindowsFrame"]);        (* 179 *)
   ("WindowFrame", [One "Units"; One "StartBound"; If "EndBound"]);                  (* 185 *)
   ("WindowFrameUnit", []);                                                          (* 196 *)
   ("CurrentRow", []);                                                               (* 196 *)
   ("UnboundedPreceding", []);                                                       (* 196 *)
   ("UnboundedFollowing", []);                                                       (* 196 *)
   ("Preceding", []);                                                                (* 196 *)
   ("Following", []);                                                                (* 196 *)
   ("QueryStmt", [SEach "CTEs"; One "Body"; SEach "OrderBy"; If "Limit"]);           (* 198 *)
   ("CTE", [SOne "QueryStmt" "Query"; One "Alias"]);                                 (* 205 *)
   ("SelectExpr", [One "Select"]);                                                   (* 208 *)
   ("QueryExpr", [SOne "QueryStmt" "Query"]);                                        (* 210 *)
   ("SetOperationExpr", [One "Op"; One "Left"; One "Right"]);                        (* 212 *)
   ("UnionOperator", []);                                                            (* 216 *)
   ("ExceptOperator", []);                                                           (* 218 *)
   ("IntersectOperator", []);                                                        (* 220 *)
   ("SQLSelect", [SEach "Projection"; SEach "FromClause"; If "WhereClause"; SEach "GroupByClause"; If "HavingClause"]); (* 222 *)
   ("QualifiedJoin", [One "LeftElement"; One "Type"; One "RightElement"; One "Spec"]); (* 232 *)
   ("TableJoinElement", [One "Ref"]);                                                (* 237 *)
   ("JoinType", []);                                                                 (* 239 *)
   ("JoinCondition", [One "SearchCondition"]);                                       (* 241 *)
   ("NaturalJoin", [One "LeftElement"; One "Type"; One "RightElement"]);             (* 243 *)
   ("CrossJoin", [One "Factor"; One "Reference"]);                                   (* 247 *)
   ("Table", [One "Name"; If "Alias"; SEach "Args"; SEach "WithHints"]);             (* 250 *)
   ("Derived", [One "SubQuery"; If "Alias"]);                                        (* 257 *)
   ("UnnamedSelectItem", [One "Node"]);                                              (* 262 *)
   ("AliasSelectItem", [One "Expr"; One "Alias"]);                                   (* 264 *)
   ("QualifiedWildcardSelectItem", [One "Prefix"]);                                  (* 267 *)
   ("WildcardSelectItem", []);                                                       (* 269 *)
   ("OrderByExpr", [One "Expr"]);                                                    (* 271 *)
   ("LimitExpr", [NotAll "LimitValue"; If "OffsetValue"]);                           (* 273 *)
   ("CharType", []);                                                                 (* 280 *)
   ("VarcharType", []);                                                              (* 282 *)
   ("UUID", []);                                                                     (* 284 *)
   ("Clob", []);                                                                     (* 286 *)
   ("Binary", []);                                                                   (* 288 *)
   ("Varbinary", []);                                                                (* 290 *)
   ("Blob", []);                                                                     (* 292 *)
   ("Decimal", []);                                                                  (* 294 *)
   ("Float", []);                                                                    (* 296 *)
   ("SmallInt", []);                                                                 (* 298 *)
   ("Int", []);                                                                      (* 300 *)
   ("BigInt", []);                                                                   (* 302 *)
   ("Real", []);                                                                     (* 304 *)
   ("Double", []);                                                                   (* 306 *)
   ("Boolean", []);                                                                  (* 308 *)
   ("Date", []);                                                                     (* 310 *)
   ("Time", []);                                                                     (* 312 *)
   ("Timestamp", []);                                                                (* 314 *)
   ("Regclass", []);                                                                 (* 316 *)
   ("Text", []);                                                                     (* 318 *)
   ("Bytea", []);                                                                    (* 320 *)
   ("Array", []);                                                                    (* 322 *)
   ("Custom", []);                                                                   (* 324 *)
   ("InsertStmt", [One "TableName"; SEach "Columns"; One "Source"; SEach "UpdateAssignments"]); (* 326 *)
   ("ConstructorSource", [SEach "Rows"]);                                            (* 331 *)
   ("RowValueExpr", [SEach "Values"]);                                               (* 333 *)
   ("SubQuerySource", [One "SubQuery"]);                                             (* 335 *)
   ("CopyStmt", [One "TableName"; SEach "Columns"]);                                 (* 337 *)
   ("UpdateStmt", [One "TableName"; SEach "Assignments"; One "Selection"]);          (* 340 *)
   ("DeleteStmt", [One "TableName"; If "Selection"]);                                (* 344 *)
   ("CreateViewStmt", [One "Name"; SOne "QueryStmt" "Query"]);                       (* 349 *)
   ("CreateTableStmt", [One "Name"; SEach "Elements"]);                              (* 352 *)
   ("Assignment", [One "ID"; One "Value"]);                                          (* 355 *)
   ("TableConstraint", [If "Name"; One "Spec"]);                                     (* 358 *)
   ("UniqueTableConstraint", [SEach "Columns"]);                                     (* 363 *)
   ("ReferentialTableConstraint", [SEach "Columns"; One "KeyExpr"]);                 (* 365 *)
   ("ReferenceKeyExpr", [One "TableName"; SEach "Columns"]);                         (* 368 *)
   ("CheckTableConstraint", [One "Expr"]);                                           (* 371 *)
   ("ColumnDef", [One "Name"; One "DataType"; If "Default"; SEach "Constraints"]);   (* 373 *)
   ("ColumnConstraint", [If "Name"; One "Spec"]);                                    (* 380 *)
   ("NotNullColumnSpec", []);                                                        (* 385 *)
   ("UniqueColumnSpec", []);                                                         (* 387 *)
   ("ReferencesColumnSpec", [One "TableName"; SEach "Columns"]);                     (* 389 *)
   ("CheckColumnSpec", [One "Expr"]);                                                (* 392 *)
   ("AlterTableStmt", [One "TableName"; One "Action"]);                              (* 394 *)
   ("AddColumnTableAction", [One "Column"]);                                         (* 397 *)
   ("AlterColumnTableAction", [One "ColumnName"; One "Action"]);                     (* 399 *)
   ("SetDefaultColumnAction", [One "Default"]);                                      (* 402 *)
   ("DropDefaultColumnAction", []);                                                  (* 404 *)
   ("PGAlterDataTypeColumnAction", [One "DataType"]);                                (* 406 *)
   ("PGSetNotNullColumnAction", []);                                                 (* 408 *)
   ("PGDropNotNullColumnAction", []);                                                (* 410 *)
   ("RemoveColumnTableAction", [One "Name"]);                                        (* 412 *)
   ("AddConstraintTableAction", [One "Constraint"]);                                 (* 414 *)
   ("DropConstraintTableAction", [One "Name"]);                                      (* 416 *)
   ("DropTableStmt", [SEach "TableNames"]);                                          (* 418 *)
   ("CreateIndexStmt", [One "TableName"; If "IndexName"; If "MethodName"; SEach "ColumnNames"; If "Selection"]); (* 420 *)
   ("DropIndexStmt", [SEach "IndexNames"]);                                          (* 432 *)
   ("ExplainStmt", [One "Stmt"]);                                                    (* 434 *)
   ("Operator", []);                                                                 (* 436 *)
   ("NullValue", []);                                                                (* 447 *)
   ("LongValue", []);                                                                (* 447 *)
   ("DoubleValue", []);                                                              (* 447 *)
   ("SingleQuotedString", []);                                                       (* 447 *)
   ("NationalStringLiteral", []);                                                    (* 447 *)
   ("BooleanValue", []);                                                             (* 447 *)
   ("DateValue", []);                                                                (* 447 *)
   ("TimeValue", []);                                                                (* 447 *)
   ("DateTimeValue", []);                                                            (* 447 *)
   ("TimestampValue", [])                                                            (* 447 *)
  ].

(* ------------------------------------------------------------------ *)
(** ** Memory *)

(** Nodes are pointers: Apply edits the structs they point to.  An address is a
    list of numbers (any infinite type would do); a cell is a struct: its type,
    its field All, and the fields that hold nodes. *)
Definition addr := list nat.
Definition addr_eqb (a b : addr) : bool := if list_eq_dec Nat.eq_dec a b then true else false.
Record cell := mkCell { c_type : string; c_all : bool; c_fields : list (string * field addr) }.
Definition heap := addr -> cell.

Definition get_field (h : heap) (a : addr) (f : string) : option (field addr) := lookup f (c_fields (h a)).
Definition put (f : string) (v : field addr) (l : list (string * field addr)) : list (string * field addr) :=
  map (fun e => if String.eqb (fst e) f then (fst e, v) else e) l.
Definition set_field (h : heap) (a : addr) (f : string) (v : field addr) : heap :=
  fun b => if addr_eqb b a then mkCell (c_type (h a)) (c_all (h a)) (put f v (c_fields (h a))) else h b.

(* ------------------------------------------------------------------ *)
(** ** Cursor *)

(** rewrite.go:30-35; [cu_index] is what Index() returns, with [None] for -1. *)
Record cursor := mkCursor { cu_parent : addr; cu_name : string; cu_index : option Z; cu_node : option addr }.

(** The editing methods.  Their argument is a non-nil node of a type that the
    field can hold (Go's reflection panics otherwise). *)
Inductive edit := Replace (a : addr) | Delete | InsertAfter (a : addr) | InsertBefore (a : addr).

(** What Apply works on: the memory, a.iter (rewrite.go:103-106) and the state
    of the callbacks.  The slices are taken to share no memory with others. *)
Record state (S : Type) := mkState { st_heap : heap; st_index : Z; st_step : Z; st_user : S }.
Arguments mkState {S}. Arguments st_heap {S}. Arguments st_index {S}. Arguments st_step {S}. Arguments st_user {S}.

(** Slices l[:i], l[i:], for 0 <= i <= len(l). *)
Definition upto (i : Z) (l : list addr) : list addr := firstn (Z.to_nat i) l.
Definition from (i : Z) (l : list addr) : list addr := skipn (Z.to_nat i) l.

(** One editing method called on the cursor for field [f] of [p]; [inl]: the
    cursor has an iterator.  [None]: panic. *)
Definition run_edit {S} (p : addr) (f : string) (inl : bool) (e : edit) (st : state S) : option (state S) :=
  let h := st_heap st in
  let i := st_index st in
  let put v := set_field h p f v in
  let st' h i step := mkState h i step (st_user st) in
  match e, inl, get_field h p f with
  | Replace a, false, Some (FOne _) => Some (st' (put (FOne (Some a))) i (st_step st))        (* 54-60 *)
  | Replace a, true, Some (FMany l) =>
      if (0 <=? i) && (i <? zlen l)
      then Some (st' (put (FMany (upto i l ++ a :: from (i + 1) l))) i (st_step st)) else None
  | Delete, true, Some (FMany l) =>                                                           (* 62-74 *)
      if (0 <=? i) && (i <? zlen l)
      then Some (st' (put (FMany (upto i l ++ from (i + 1) l))) i (st_step st - 1)) else None
  | InsertAfter a, true, Some (FMany l) =>                                                    (* 76-87 *)
      if (0 <=? i) && (i <? zlen l)
      then Some (st' (put (FMany (upto (i + 1) l ++ a :: from (i + 1) l))) i (st_step st + 1)) else None
  | InsertBefore a, true, Some (FMany l) =>                                                   (* 89-100 *)
      if (0 <=? i) && (i <=? zlen l)
      then Some (st' (put (FMany (upto i l ++ a :: from i l))) (i + 1) (st_step st)) else None
  | _, _, _ => None                                        (* no iterator, no such field *)
  end.

Fixpoint run_edits {S} (p : addr) (f : string) (inl : bool) (es : list edit) (st : state S) : option (state S) :=
  match es with
  | [] => Some st
  | e :: es' => match run_edit p f inl e st with Some st' => run_edits p f inl es' st' | None => None end
  end.

(* ------------------------------------------------------------------ *)
(** ** Apply *)

(** An ApplyFunc (rewrite.go:10) with state [S]: it sees the memory and the
    cursor, calls editing methods and answers.  It changes nodes only through
    the cursor. *)
Definition callback (S : Type) := S -> heap -> cursor -> S * list edit * bool.

(** How a run ends: normally, by the panic that stands for an abort
    (rewrite.go:12, 453), by another panic, or not within the given steps. *)
Inductive aend := ADone | AAbort | APanic | AFuel.

Section Apply.
  Context {S : Type}.
  Variable pre post : option (callback S).

  (** A call of a callback; [None] as answer: an editing method panicked. *)
  Definition run_callback (cb : option (callback S)) (p : addr) (f : string) (inl : bool) (n : option addr)
      (st : state S) : state S * option bool :=
    match cb with
    | None => (st, Some true)
    | Some g =>
        let '(u, es, b) := g (st_user st) (st_heap st) (mkCursor p f (if inl then Some (st_index st) else None) n) in
        let st1 := mkState (st_heap st) (st_index st) (st_step st) u in
        match run_edits p f inl es st1 with
        | Some st2 => (st2, Some b)
        | None => (st1, None)
        end
    end.

  (** rewrite.go:458-478, the loop; [k] bounds the number of rounds. *)
  Fixpoint apply_loop (go : addr -> string -> bool -> option addr -> state S -> state S * aend)
      (k : nat) (a : addr) (f : string) (st : state S) : state S * aend :=
    match k with
    | O => (st, AFuel)
    | Datatypes.S k' =>
        match get_field (st_heap st) a f with
        | Some (FMany l) =>
            if st_index st >=? zlen l then (st, ADone)                                        (* 463 *)
            else if st_index st <? 0 then (st, APanic)                                        (* v.Index *)
            else
              match go a f true (nth_error l (Z.to_nat (st_index st)))
                       (mkState (st_heap st) (st_index st) 1 (st_user st)) with               (* 472, 473 *)
              | (st1, ADone) =>
                  apply_loop go k' a f
                    (mkState (st_heap st1) (st_index st1 + st_step st1) (st_step st1) (st_user st1))  (* 474 *)
              | r => r
              end
        | _ => (st, APanic)
        end
    end.

  (** rewrite.go:458-478 *)
  Definition apply_list go (k : nat) (a : addr) (f : string) (st : state S) : state S * aend :=
    match apply_loop go k a f (mkState (st_heap st) 0 (st_step st) (st_user st)) with
    | (st1, ADone) => (mkState (st_heap st1) (st_index st) (st_step st) (st_user st1), ADone)
    | r => r
    end.

  (** One line of a case of the type switch, for the node at [a]. *)
  Definition apply_step (go : addr -> string -> bool -> option addr -> state S -> state S * aend)
      (k : nat) (a : addr) (st : state S) (s : step) : state S * aend :=
    match s with
    | SOne c f =>
        match get_field (st_heap st) a f with Some (FOne x) => go a c false x st | _ => (st, APanic) end
    | SIf c f =>
        match get_field (st_heap st) a f with
        | Some (FOne None) => (st, ADone)
        | Some (FOne x) => go a c false x st
        | _ => (st, APanic)
        end
    | SNotAll c f =>
        if c_all (st_heap st a) then (st, ADone)
        else match get_field (st_heap st) a f with Some (FOne x) => go a c false x st | _ => (st, APanic) end
    | SEach f => apply_list go k a f st
    end.

  Fixpoint apply_steps go (k : nat) (a : addr) (l : list step) (st : state S) : state S * aend :=
    match l with
    | [] => (st, ADone)
    | s :: l' => match apply_step go k a st s with
                 | (st1, ADone) => apply_steps go k a l' st1
                 | r => r
                 end
    end.

  (** rewrite.go:114-456 *)
  Fixpoint apply (n : nat) (p : addr) (f : string) (inl : bool) (x : option addr) (st : state S) : state S * aend :=
    match n with
    | O => (st, AFuel)
    | Datatypes.S m =>
        match run_callback pre p f inl x st with
        | (st1, None) => (st1, APanic)
        | (st1, Some false) => (st1, ADone)                                                   (* 123-126 *)
        | (st1, Some true) =>
            match x with
            | None => (st1, APanic)                                                           (* 448 *)
            | Some a =>
                match lookup (c_type (st_heap st1 a)) apply_table with
                | None => (st1, APanic)                                                       (* 448 *)
                | Some steps =>
                    match apply_steps (apply m) m a steps st1 with
                    | (st2, ADone) =>
                        match run_callback post p f inl x st2 with
                        | (st3, None) => (st3, APanic)
                        | (st3, Some false) => (st3, AAbort)                                  (* 452-454 *)
                        | (st3, Some true) => (st3, ADone)
                        end
                    | r => r
                    end
                end
            end
        end
    end.

  (** rewrite.go:14-28: the node at [root] hung below a struct at [wrapper]; an
      abort is recovered, other panics are passed on. *)
  Definition Apply (n : nat) (wrapper root : addr) (h : heap) (u : S) : state S * aend :=
    apply n wrapper "Node" false (Some root) (mkState h 0 0 u).

  (** The result of Apply: parent.Node. *)
  Definition result_node (wrapper : addr) (st : state S) : option addr :=
    match get_field (st_heap st) wrapper "Node" with Some (FOne x) => x | _ => None end.
End Apply.
