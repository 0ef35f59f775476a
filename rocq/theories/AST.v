(** The AST of package sqlast, with every position field.

    Go interfaces become inductive types; Go slices become lists; optional
    pointers become [option].  Not modelled (the parser never builds them):
    SelectExpr, PartitionedJoinTable, CopyStmt, FileFormat,
    DateValue/TimeValue/DateTimeValue/TimestampValue. *)
From Coq Require Import ZArith List Bool String.
From Verif Require Import Base Dialect Token.
Import ListNotations.
Open Scope Z_scope.

(** Finite non-negative float64, value m * 2^e (sqlast/value.go:49-52 holds a
    float64; literals are never negative). *)
Record f64 := mkF { fm : Z; fe : Z }.

(** sqlast/ast.go:64-67. *)
Record ident := mkIdent { id_value : gostring; id_from : pos; id_to : pos }.

(** sqlast/ast.go:529-531. *)
Record objname := mkON { on_idents : list ident }.

(** sqlast/operator.go:22-42. *)
Inductive optype :=
| OPlus | OMinus | OMultiply | ODivide | OModulus | OGt | OLt | OGtEq | OLtEq
| OEq | ONotEq | OAnd | OOr | ONot | OLike | ONotLike | ONone.

(** sqlast/operator.go:9-12. *)
Record operator := mkOp { op_type : optype; op_from : pos; op_to : pos }.

(** sqlast/value.go:17-20. *)
Record longval := mkLong { lv_from : pos; lv_to : pos; lv_long : Z }.

(** sqlast/query.go:680-689. *)
Inductive joincond :=
| JINNER | JLEFT | JRIGHT | JFULL | JLEFTOUTER | JRIGHTOUTER | JFULLOUTER | JIMPLICIT.

(** sqlast/query.go:665-668. *)
Record jointype := mkJT { jt_cond : joincond; jt_from : pos; jt_to : pos }.

(** sqlast/query.go:756-762.  [lim_value = None] is All = true; the Go value
    All = false with a nil LimitValue is not representable. *)
Record limitexpr := mkLimit {
  lim_allpos : pos; lim_pos : pos; lim_value : option longval; lim_offset : option longval }.

(** sqlast/ast.go:717-815 (bounds are non-nil there). *)
Inductive wbound :=
| BCurrentRow (current row : pos)
| BUnboundedPreceding (unbounded preceding : pos)
| BUnboundedFollowing (unbounded following : pos)
| BPreceding (bound : Z) (from preceding : pos)
| BFollowing (bound : Z) (from following : pos).

(** sqlast/ast.go:668-674. *)
Inductive wunit := URows | URange | UGroups.

(** sqlast/ast.go:655-658. *)
Record wframeunit := mkWFU { wfu_from : pos; wfu_to : pos; wfu_type : wunit }.

(** sqlast/ast.go:622-626. *)
Record wframe := mkWF { wf_units : wframeunit; wf_start : wbound; wf_end : option wbound }.

(** sqlast/query.go:166-213. *)
Inductive setop := SUnion (from to : pos) | SExcept (from to : pos) | SIntersect (from to : pos).

(** sqlast/type.go. *)
Inductive dtype :=
| TChar (size : option Z) (from to rparen : pos)                      (* 13-16 *)
| TVarchar (size : option Z) (character varying rparen : pos)         (* 37-40 *)
| TUUID (from to : pos)                                               (* 61-63 *)
| TClob (size : Z) (clob rparen : pos)                                (* 81-84 *)
| TBinary (size : Z) (binary rparen : pos)                            (* 102-105 *)
| TVarbinary (size : Z) (varbinary rparen : pos)                      (* 123-126 *)
| TBlob (size : Z) (blob rparen : pos)                                (* 144-147 *)
| TDecimal (precision scale : option Z) (numeric rparen : pos)
           (unsigned : bool) (unsigned_pos : pos)                     (* 167-173 *)
| TFloat (size : option Z) (from to rparen : pos)
         (unsigned : bool) (unsigned_pos : pos)                       (* 206-211 *)
| TSmallInt (from to : pos) (unsigned : bool) (unsigned_pos : pos)    (* 237-241 *)
| TInt (from to : pos) (unsigned : bool) (unsigned_pos : pos)         (* 264-268 *)
| TBigInt (from to : pos) (unsigned : bool) (unsigned_pos : pos)      (* 291-295 *)
| TReal (from to : pos) (unsigned : bool) (unsigned_pos : pos)        (* 318-322 *)
| TDouble (from to : pos)                                             (* 345-347 *)
| TBoolean (from to : pos)                                            (* 365-367 *)
| TDate (from to : pos)                                               (* 385-387 *)
| TTime (from to : pos)                                               (* 405-407 *)
| TTimestamp (with_tz : bool) (timestamp zone : pos)                  (* 425-429 *)
| TRegclass (from to : pos)                                           (* 456-458 *)
| TText (from to : pos)                                               (* 476-478 *)
| TBytea (from to : pos)                                              (* 496-498 *)
| TArray (ty : dtype) (rparen : pos)                                  (* 516-519 *)
| TCustom (ty : objname).                                             (* 537-539 *)

(** Expressions, queries and everything mutually nested with them
    (sqlast/ast.go, sqlast/query.go, sqlast/value.go).  The parallel slices
    CaseExpr.Conditions/Results are one list of pairs; TableJoinElement is a
    plain wrapper and is left implicit (it reappears in Walk). *)
Inductive node :=
| EIdent (i : ident)                                                  (* ast.go:64 *)
| EWildcard (p : pos)                                                 (* ast.go:103 *)
| EQualWildcard (l : list ident)                                      (* ast.go:127 *)
| ECompound (l : list ident)                                          (* ast.go:148 *)
| EIsNull (x : node)                                                  (* ast.go:169 *)
| EIsNotNull (x : node)                                               (* ast.go:193 *)
| EInList (e : node) (l : list node) (negated : bool) (rparen : pos)  (* ast.go:217 *)
| EInSubQuery (e : node) (q : query) (negated : bool) (rparen : pos)  (* ast.go:244 *)
| EBetween (e : node) (negated : bool) (low high : node)              (* ast.go:271 *)
| EBinary (l : node) (op : operator) (r : node)                       (* ast.go:298 *)
| ECast (e : node) (ty : dtype) (cast rparen : pos)                   (* ast.go:331 *)
| ENested (e : node) (lparen rparen : pos)                            (* ast.go:360 *)
| EUnary (from : pos) (op : operator) (e : node)                      (* ast.go:382 *)
| EFunction (name : objname) (args : list node) (args_rparen : pos)
            (over : option winspec) (over_rparen : pos)               (* ast.go:405 *)
| ECase (case case_end : pos) (operand : option node)
        (branches : list (node * node)) (else_ : option node)         (* ast.go:438 *)
| EExists (negated : bool) (q : query) (not exists_ rparen : pos)     (* ast.go:477 *)
| ESubQuery (q : query) (lparen rparen : pos)                         (* ast.go:507 *)
| ELong (v : longval)                                                 (* value.go:17 *)
| EDouble (from to : pos) (d : f64)                                   (* value.go:49 *)
| EString (from to : pos) (s : gostring)                              (* value.go:83 *)
| ENString (from to : pos) (s : gostring)                             (* value.go:123 *)
| EBool (from to : pos) (b : bool)                                    (* value.go:163 *)
| ENull (from to : pos)                                               (* value.go:326 *)
with winspec :=                                                       (* ast.go:561-566 *)
| WinSpec (partition_by : list node) (order_by : list orderby)
          (frame : option wframe) (partition order : pos)
with orderby :=                                                       (* query.go:720-724 *)
| OrderBy (e : node) (ordering_pos : pos) (asc : option bool)
with query :=                                                         (* query.go:11-18 *)
| Query (with_ : pos) (ctes : list cte) (body : setexpr)
        (order_by : list orderby) (limit : option limitexpr)
with cte :=                                                           (* query.go:69-73 *)
| CTE (alias : ident) (q : query) (rparen : pos)
with setexpr :=
| SSelect (s : select)                                                (* query.go:231 *)
| SQuery (lparen rparen : pos) (q : query)                            (* query.go:118-122 *)
| SSetOp (op : setop) (all : bool) (l r : setexpr)                    (* query.go:140-146 *)
with select :=                                                        (* query.go:231-240 *)
| Select (distinct : bool) (projection : list selitem) (from : list tableref)
         (where_ : option node) (group_by : list node) (having : option node)
         (select_pos : pos)
with selitem :=
| SIUnnamed (e : node)                                                (* query.go:397 *)
| SIAlias (e : node) (alias : ident)                                  (* query.go:418 *)
| SIQualWildcard (prefix : objname)                                   (* query.go:441 *)
| SIWildcard (from to : pos)                                          (* query.go:465 *)
with tableref :=
| TRTable (name : objname) (alias : option ident) (args : list node) (args_rparen : pos)
          (hints : list node) (hints_rparen : pos)                    (* query.go:305-314 *)
| TRDerived (lateral : bool) (lateral_pos lparen rparen : pos) (q : query)
            (alias : option ident)                                    (* query.go:355-364 *)
| TRCross (reference factor : tableref)                               (* query.go:486-490 *)
| TRQualified (l : tableref) (ty : jointype) (r : tableref) (spec : joinspec)
                                                                      (* query.go:560-566 *)
| TRNatural (l : tableref) (ty : jointype) (r : tableref)             (* query.go:588-593 *)
with joinspec :=
| JUsing (columns : list ident) (using_pos rparen : pos)                  (* query.go:617-622 *)
| JOn (cond : node) (on : pos).                                       (* query.go:643-647 *)

(** sqlast/stmt.go:105-108. *)
Record rowvalue := mkRow { row_values : list node; row_lparen : pos; row_rparen : pos }.

(** sqlast/stmt.go:54-82. *)
Inductive insertsource :=
| ISSubQuery (q : query)
| ISConstructor (values : pos) (rows : list rowvalue).

(** sqlast/stmt.go:315-318. *)
Record assignment := mkAssign { as_id : ident; as_value : node }.

(** sqlast/stmt.go:432-436. *)
Record refkey := mkRefKey { rk_table : ident; rk_columns : list ident; rk_rparen : pos }.

(** sqlast/stmt.go:369-461. *)
Inductive tcspec :=
| TCUnique (is_primary : bool) (primary unique rparen : pos) (columns : list ident)
| TCReferential (foreign : pos) (columns : list ident) (key : refkey)
| TCCheck (check rparen : pos) (e : node).

(** sqlast/stmt.go:338-343. *)
Record tableconstraint := mkTC { tc_constraint : pos; tc_name : option ident; tc_spec : tcspec }.

(** sqlast/stmt.go:572-666. *)
Inductive ccspec :=
| CCNotNull (not null : pos)
| CCUnique (is_primary : bool) (primary key unique : pos)
| CCReferences (references rparen : pos) (table : objname) (columns : list ident)
| CCCheck (e : node) (check rparen : pos).

(** sqlast/stmt.go:541-545. *)
Record colconstraint := mkCC { cc_name : option ident; cc_constraint : pos; cc_spec : ccspec }.

(** sqlast/stmt.go:519-523 (AutoIncrement, the only MyDataTypeDecoration). *)
Record decoration := mkAutoInc { ai_auto : pos; ai_increment : pos }.

(** sqlast/stmt.go:481-488. *)
Record columndef := mkColDef {
  cd_name : ident; cd_type : dtype; cd_default : option node;
  cd_decorations : list decoration; cd_constraints : list colconstraint }.

(** sqlast/stmt.go:336-343,481. *)
Inductive tableelement :=
| TEColumn (c : columndef)
| TEConstraint (c : tableconstraint).

(** sqlast/table_option.go:129-161. *)
Inductive tableoption :=
| TOEngine (engine : pos) (equal : bool) (name : ident)
| TOCharset (is_default : bool) (default charset : pos) (equal : bool) (name : ident).

(** sqlast/stmt.go:816-911. *)
Inductive altercolaction :=
| ACSetDefault (set : pos) (e : node)
| ACDropDefault (drop default : pos)
| ACType (type : pos) (ty : dtype)
| ACSetNotNull (set null : pos)
| ACDropNotNull (drop null : pos).

(** sqlast/stmt.go:765-986. *)
Inductive altertableaction :=
| ATAddColumn (add : pos) (c : columndef)
| ATAlterColumn (name : ident) (alter : pos) (a : altercolaction)
| ATRemoveColumn (name : ident) (cascade : bool) (cascade_pos drop : pos)
| ATAddConstraint (add : pos) (c : tableconstraint)
| ATDropConstraint (name : ident) (drop : pos) (cascade : bool) (cascade_pos : pos).

(** sqlast/stmt.go (Location of CreateTableStmt is never set nor printed and is
    left out). *)
Inductive stmt :=
| StQuery (q : query)
| StInsert (insert : pos) (table : objname) (columns : list ident) (src : insertsource)
           (updates : list assignment)                                (* 13-20 *)
| StUpdate (update : pos) (table : objname) (assigns : list assignment)
           (selection : option node)                                  (* 178-184 *)
| StDelete (delete : pos) (table : objname) (selection : option node) (* 216-221 *)
| StCreateView (create : pos) (name : objname) (q : query) (materialized : bool)
                                                                      (* 248-254 *)
| StCreateTable (create : pos) (name : objname) (elements : list tableelement)
                (not_exists : bool) (options : list tableoption)      (* 276-284 *)
| StAlterTable (alter : pos) (table : objname) (action : altertableaction)
                                                                      (* 740-745 *)
| StDropTable (tables : list objname) (cascade : bool) (cascade_pos : pos)
              (if_exists : bool) (drop : pos)                         (* 1010-1017 *)
| StCreateIndex (create : pos) (table : objname) (unique : bool)
                (index method : option ident) (columns : list ident) (rparen : pos)
                (selection : option node)                             (* 1046-1056 *)
| StDropIndex (drop : pos) (names : list ident)                       (* 1091-1095 *)
| StExplain (s : stmt) (explain : pos).                               (* 1115-1119 *)

(** sqlast/comment.go:33-36. *)
Record comment := mkComment { c_text : gostring; c_from : pos; c_to : pos }.

(** sqlast/comment.go:9-11. *)
Definition commentgroup := list comment.

(** sqlast/ast.go:25-28. *)
Record file := mkFile { f_stmts : list stmt; f_comments : list commentgroup }.
