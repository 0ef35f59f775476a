(** Model of every WriteTo method (sqlast/*.go) and of sqlWriter
    (sqlast/writer.go).

    Each WriteTo is described by a tree of write operations; [write_node] below
    executes it against an arbitrary io.Writer the way sqlWriter does.
    Simplifications: io.StringWriter.WriteString and io.Writer.Write are the
    same operation on the destination; Idents (writer.go:96-116) has two
    branches that then coincide. *)
From Coq Require Import ZArith List Bool String.
From Verif Require Import Base Dialect Token AST Num.
Import ListNotations.
Open Scope Z_scope.

(** One call on a sqlWriter, resp. the body of one WriteTo method. *)
Inductive wop :=
| WB (b : gostring)            (* Bytes/Space/LParen/Int/As/If...: writer.go:25-62 *)
| WN (n : wnode)               (* Node, or "if Err()==nil {Direct(x.WriteTo)}": 64-74 *)
with wnode :=
| WSw (ops : list wop)         (* newSQLWriter(w). ... .End() *)
| WSingle (b : gostring)       (* writeSingleBytes/writeSingleString: 168-176 *)
| WSeq (l : list gostring)     (* value.go:112-123, 152-163: stop at first error *)
| WNone.                       (* return 0, nil (operator.go:117) *)

Section Exec.
  (** An arbitrary io.Writer: state [W]; Write returns (n, err). *)
  Context {W E : Type} (write : W -> gostring -> W * Z * option E).

  (** value.go:112-123, 152-163. *)
  Fixpoint write_seq (l : list gostring) (w : W) (n : Z) : W * Z * option E :=
    match l with
    | [] => (w, n, None)
    | b :: l' =>
        let '(w', k, e) := write w b in
        match e with
        | Some _ => (w', n + k, e)
        | None => write_seq l' w' (n + k)
        end
    end.

  Definition write_ops_with (f : wnode -> W -> W * Z * option E) :=
    fix go (ops : list wop) (w : W) (n : Z) (err : option E) {struct ops}
      : W * Z * option E :=
      match ops with
      | [] => (w, n, err)
      | o :: ops' =>
          match err with
          | Some _ => go ops' w n err
          | None =>
              let '(w', k, e) := match o with WB b => write w b | WN x => f x w end in
              go ops' w' (n + k) e
          end
      end.

  (** writer.go:25-74,157-166: sticky error, running byte count. *)
  Fixpoint write_node (x : wnode) (w : W) {struct x} : W * Z * option E :=
    match x with
    | WSw ops => write_ops_with write_node ops w 0 None
    | WSingle b => write w b
    | WSeq l => write_seq l w 0
    | WNone => (w, 0, None)
    end.
End Exec.

(** strings.Builder: appends, counts bytes, never fails (writer.go:178-182). *)
Definition builder_write (w : gostring) (b : gostring) : gostring * Z * option Empty_set :=
  (w ++ b, glen b, None).

(** writer.go:178-182. *)
Definition builder_string (x : wnode) : gostring :=
  fst (fst (write_node builder_write x [])).

(* ------------------------------------------------------------------ *)
(** ** sqlWriter helpers as operation lists *)

Definition wl (s : string) : wop := WB (gs s).
Definition wif (c : bool) (s : string) : list wop := if c then [wl s] else []. (* writer.go:142-147 *)
Definition wint (z : Z) : wop := WB (format_int z).                          (* writer.go:49-62 *)

(** writer.go:76-94 (Join, JoinComma, JoinNewLine) over a whole list. *)
Fixpoint wjoin (sep : gostring) (l : list wnode) : list wop :=
  match l with
  | [] => []
  | x :: l' => WN x :: match l' with [] => [] | _ => WB sep :: wjoin sep l' end
  end.
Definition wcomma (l : list wnode) : list wop := wjoin (gs ", ") l.

(** sqlast/ast.go:91-93. *)
Definition wt_ident (i : ident) : wnode := WSingle (id_value i).
(** writer.go:96-116. *)
Definition widents (sep : string) (l : list ident) : list wop :=
  wjoin (gs sep) (map wt_ident l).
(** sqlast/ast.go:557-559. *)
Definition wt_objname (o : objname) : wnode := WSw (widents "." (on_idents o)).

(** sqlast/operator.go:79-118. *)
Definition wt_operator (o : operator) : wnode :=
  match op_type o with
  | OPlus => WSingle (gs "+") | OMinus => WSingle (gs "-")
  | OMultiply => WSingle (gs "*") | ODivide => WSingle (gs "/")
  | OModulus => WSingle (gs "%") | OGt => WSingle (gs ">") | OLt => WSingle (gs "<")
  | OGtEq => WSingle (gs ">=") | OLtEq => WSingle (gs "<=") | OEq => WSingle (gs "=")
  | ONotEq => WSingle (gs "!=") | OAnd => WSingle (gs "AND") | OOr => WSingle (gs "OR")
  | ONot => WSingle (gs "NOT") | OLike => WSingle (gs "LIKE")
  | ONotLike => WSingle (gs "NOT LIKE") | ONone => WNone
  end.

(** sqlast/value.go:42-45. *)
Definition wt_long (v : longval) : wnode := WSingle (format_int (lv_long v)).

(** sqlast/query.go:691-717. *)
Definition jointype_string (j : jointype) : gostring :=
  match jt_cond j with
  | JINNER => gs "INNER " | JLEFT => gs "LEFT " | JRIGHT => gs "RIGHT " | JFULL => gs "FULL "
  | JLEFTOUTER => gs "LEFT OUTER " | JRIGHTOUTER => gs "RIGHT OUTER "
  | JFULLOUTER => gs "FULL OUTER " | JIMPLICIT => []
  end.
Definition wt_jointype (j : jointype) : wnode := WSingle (jointype_string j).

(** sqlast/query.go:781-795. *)
Definition wt_limit (l : limitexpr) : wnode :=
  WSw ([wl "LIMIT "]
       ++ [match lim_value l with None => wl "ALL" | Some v => WN (wt_long v) end]
       ++ match lim_offset l with None => [] | Some v => [wl " OFFSET "; WN (wt_long v)] end).

(** sqlast/ast.go:735-737, 757-759, 779-781, 802-804, 829-831. *)
Definition wt_wbound (x : wbound) : wnode :=
  match x with
  | BCurrentRow _ _ => WSingle (gs "CURRENT ROW")
  | BUnboundedPreceding _ _ => WSingle (gs "UNBOUNDED PRECEDING")
  | BUnboundedFollowing _ _ => WSingle (gs "UNBOUNDED FOLLOWING")
  | BPreceding n _ _ => WSw [wint n; wl " PRECEDING"]
  | BFollowing n _ _ => WSw [wint n; wl " FOLLOWING"]
  end.

(** sqlast/ast.go:688-698. *)
Definition wt_wframeunit (u : wframeunit) : wnode :=
  match wfu_type u with
  | URows => WSingle (gs "ROWS") | URange => WSingle (gs "RANGE")
  | UGroups => WSingle (gs "GROUPS")
  end.

(** sqlast/ast.go:644-653. *)
Definition wt_wframe (f : wframe) : wnode :=
  match wf_end f with
  | Some e => WSw [WN (wt_wframeunit (wf_units f)); wl " BETWEEN "; WN (wt_wbound (wf_start f));
                   wl " AND "; WN (wt_wbound e)]
  | None => WSw [WN (wt_wframeunit (wf_units f)); wl " "; WN (wt_wbound (wf_start f))]
  end.

(** sqlast/query.go:184-229. *)
Definition wt_setop (o : setop) : wnode :=
  match o with
  | SUnion _ _ => WSingle (gs "UNION")
  | SExcept _ _ => WSingle (gs "EXCEPT")
  | SIntersect _ _ => WSingle (gs "INTERSECT")
  end.

(** writer.go:128-134. *)
Definition type_with_len (name : string) (size : option Z) : list wop :=
  wl name :: match size with None => [] | Some n => [wl "("; wint n; wl ")"] end.

(** sqlast/type.go, the WriteTo methods in order. *)
Fixpoint wt_dtype (t : dtype) : wnode :=
  match t with
  | TChar size _ _ _ => WSw (type_with_len "char" size)                    (* 33-35 *)
  | TVarchar size _ _ _ => WSw (type_with_len "character varying" size)    (* 57-59 *)
  | TUUID _ _ => WSingle (gs "uuid")                                       (* 77-79 *)
  | TClob n _ _ => WSw (type_with_len "clob" (Some n))                     (* 98-100 *)
  | TBinary n _ _ => WSw (type_with_len "binary" (Some n))                 (* 119-121 *)
  | TVarbinary n _ _ => WSw (type_with_len "varbinary" (Some n))           (* 140-142 *)
  | TBlob n _ _ => WSw (type_with_len "blob" (Some n))                     (* 161-163 *)
  | TDecimal p s _ _ u _ =>                                                (* 190-204 *)
      WSw ([wl "numeric"]
           ++ match p with
              | None => []
              | Some n => [wl "("; wint n]
                          ++ match s with None => [] | Some k => [wl ","; wint k] end
                          ++ [wl ")"]
              end
           ++ wif u " unsigned")
  | TFloat size _ _ _ u _ => WSw (type_with_len "float" size ++ wif u " unsigned") (* 231-235 *)
  | TSmallInt _ _ u _ => WSw ([wl "smallint"] ++ wif u " unsigned")         (* 258-262 *)
  | TInt _ _ u _ => WSw ([wl "int"] ++ wif u " unsigned")                   (* 285-289 *)
  | TBigInt _ _ u _ => WSw ([wl "bigint"] ++ wif u " unsigned")             (* 312-316 *)
  | TReal _ _ u _ => WSw ([wl "real"] ++ wif u " unsigned")                 (* 339-343 *)
  | TDouble _ _ => WSingle (gs "double precision")                         (* 361-363 *)
  | TBoolean _ _ => WSingle (gs "boolean")                                 (* 381-383 *)
  | TDate _ _ => WSingle (gs "date")                                       (* 401-403 *)
  | TTime _ _ => WSingle (gs "time")                                       (* 421-423 *)
  | TTimestamp tz _ _ => WSw ([wl "timestamp"] ++ wif tz " with time zone") (* 450-454 *)
  | TRegclass _ _ => WSingle (gs "regclass")                               (* 472-474 *)
  | TText _ _ => WSingle (gs "text")                                       (* 492-494 *)
  | TBytea _ _ => WSingle (gs "bytea")                                     (* 512-514 *)
  | TArray ty _ => WSw [WN (wt_dtype ty); wl "[]"]                          (* 533-535 *)
  | TCustom o => wt_objname o                                              (* 553-555 *)
  end.

Definition is_nil {A} (l : list A) : bool := match l with [] => true | _ => false end.

(** Expressions and queries. *)
Fixpoint wt_node (x : node) : wnode :=
  match x with
  | EIdent i => wt_ident i                                                 (* ast.go:91 *)
  | EWildcard _ => WSingle (gs "*")                                        (* ast.go:122 *)
  | EQualWildcard l => WSw (widents "." l ++ [wl ".*"])                     (* ast.go:143 *)
  | ECompound l => WSw (widents "." l)                                     (* ast.go:164 *)
  | EIsNull x => WSw [WN (wt_node x); wl " IS NULL"]                        (* ast.go:188 *)
  | EIsNotNull x => WSw [WN (wt_node x); wl " IS NOT NULL"]                 (* ast.go:212 *)
  | EInList e l neg _ =>                                                   (* ast.go:236-241 *)
      WSw ([WN (wt_node e); wl " "] ++ wif neg "NOT " ++ [wl "IN "; wl "("]
           ++ wcomma (map wt_node l) ++ [wl ")"])
  | EInSubQuery e q neg _ =>                                               (* ast.go:263-268 *)
      WSw ([WN (wt_node e); wl " "] ++ wif neg "NOT "
           ++ [wl "IN "; wl "("; WN (wt_query q); wl ")"])
  | EBetween e neg lo hi =>                                                (* ast.go:290-295 *)
      WSw ([WN (wt_node e); wl " "] ++ wif neg "NOT "
           ++ [wl "BETWEEN "; WN (wt_node lo); wl " AND "; WN (wt_node hi)])
  | EBinary l op r =>                                                      (* ast.go:316-328 *)
      WSw [WN (wt_node l); wl " "; WN (wt_operator op); wl " "; WN (wt_node r)]
  | ECast e ty _ _ =>                                                      (* ast.go:350-357 *)
      WSw [wl "CAST"; wl "("; WN (wt_node e); wl " AS "; WN (wt_dtype ty); wl ")"]
  | ENested e _ _ => WSw [wl "("; WN (wt_node e); wl ")"]                    (* ast.go:377 *)
  | EUnary _ op e => WSw [WN (wt_operator op); wl " "; WN (wt_node e)]      (* ast.go:400 *)
  | EFunction name args _ over _ =>                                        (* ast.go:428-435 *)
      WSw ([WN (wt_objname name); wl "("] ++ wcomma (map wt_node args) ++ [wl ")"]
           ++ match over with
              | None => []
              | Some o => [wl " OVER "; wl "("; WN (wt_winspec o); wl ")"]
              end)
  | ECase _ _ operand branches else_ =>                                    (* ast.go:459-474 *)
      WSw ([wl "CASE"]
           ++ match operand with None => [] | Some o => [wl " "; WN (wt_node o)] end
           ++ List.concat (map (fun p => match p with
                                    | (c, r) => [wl " WHEN "; WN (wt_node c);
                                                 wl " THEN "; WN (wt_node r)]
                                    end) branches)
           ++ match else_ with None => [] | Some e => [wl " ELSE "; WN (wt_node e)] end
           ++ [wl " END"])
  | EExists neg q _ _ _ =>                                                 (* ast.go:500-504 *)
      WSw (wif neg "NOT " ++ [wl "EXISTS "; wl "("; WN (wt_query q); wl ")"])
  | ESubQuery q _ _ => WSw [wl "("; WN (wt_query q); wl ")"]                 (* ast.go:524 *)
  | ELong v => wt_long v                                                   (* value.go:42 *)
  | EDouble _ _ d => WSingle (format_float d)                              (* value.go:74 *)
  | EString _ _ s => WSeq [gs "'"; s; gs "'"]                              (* value.go:108 *)
  | ENString _ _ s => WSeq [gs "N'"; s; gs "'"]                            (* value.go:148 *)
  | EBool _ _ v => WSingle (if v then gs "true" else gs "false")           (* value.go:188 *)
  | ENull _ _ => WSingle (gs "NULL")                                       (* value.go:350 *)
  end
with wt_winspec (s : winspec) : wnode :=                                   (* ast.go:593-620 *)
  match s with
  | WinSpec pby oby frame _ _ =>
      WSw ((if is_nil pby then [] else wl "PARTITION BY " :: wcomma (map wt_node pby))
           ++ (if is_nil oby then []
               else (if is_nil pby then [] else [wl " "])
                    ++ wl "ORDER BY " :: wcomma (map wt_orderby oby))
           ++ match frame with
              | None => []
              | Some f => (if is_nil pby && is_nil oby then [] else [wl " "])
                          ++ [WN (wt_wframe f)]
              end)
  end
with wt_orderby (o : orderby) : wnode :=                                   (* query.go:742-753 *)
  match o with
  | OrderBy e _ asc =>
      WSw ([WN (wt_node e)]
           ++ match asc with None => [] | Some true => [wl " ASC"] | Some false => [wl " DESC"] end)
  end
with wt_query (q : query) : wnode :=                                       (* query.go:44-66 *)
  match q with
  | Query _ ctes body oby lim =>
      WSw ((if is_nil ctes then [] else wl "WITH " :: wcomma (map wt_cte ctes) ++ [wl " "])
           ++ [WN (wt_setexpr body)]
           ++ (if is_nil oby then [] else wl " ORDER BY " :: wcomma (map wt_orderby oby))
           ++ match lim with None => [] | Some l => [wl " "; WN (wt_limit l)] end)
  end
with wt_cte (c : cte) : wnode :=                                           (* query.go:87-91 *)
  match c with
  | CTE alias q _ => WSw [WN (wt_ident alias); wl " AS "; wl "("; WN (wt_query q); wl ")"]
  end
with wt_setexpr (s : setexpr) : wnode :=
  match s with
  | SSelect s => wt_select s
  | SQuery _ _ q => WSw [wl "("; WN (wt_query q); wl ")"]                    (* query.go:136 *)
  | SSetOp op all l r =>                                                   (* query.go:160-164 *)
      WSw ([WN (wt_setexpr l); wl " "; WN (wt_setop op)] ++ wif all " ALL"
           ++ [wl " "; WN (wt_setexpr r)])
  end
with wt_select (s : select) : wnode :=                                     (* query.go:270-298 *)
  match s with
  | Select distinct proj from where_ gby having _ =>
      WSw ([wl "SELECT "] ++ wif distinct "DISTINCT "
           ++ wcomma (map wt_selitem proj)
           ++ (if is_nil from then [] else wl " FROM " :: wcomma (map wt_tableref from))
           ++ match where_ with None => [] | Some e => [wl " WHERE "; WN (wt_node e)] end
           ++ (if is_nil gby then [] else wl " GROUP BY " :: wcomma (map wt_node gby))
           ++ match having with None => [] | Some e => [wl " HAVING "; WN (wt_node e)] end)
  end
with wt_selitem (s : selitem) : wnode :=
  match s with
  | SIUnnamed e => wt_node e                                               (* query.go:414 *)
  | SIAlias e a => WSw [WN (wt_node e); wl " AS "; WN (wt_ident a)]         (* query.go:436 *)
  | SIQualWildcard p => WSw [WN (wt_objname p); wl ".*"]                    (* query.go:461 *)
  | SIWildcard _ _ => WSingle (gs "*")                                     (* query.go:482 *)
  end
with wt_tableref (t : tableref) : wnode :=
  match t with
  | TRTable name alias args _ hints _ =>                                   (* query.go:340-353 *)
      WSw ([WN (wt_objname name)]
           ++ (if is_nil args then [] else wl "(" :: wcomma (map wt_node args) ++ [wl ")"])
           ++ match alias with None => [] | Some a => [wl " AS "; WN (wt_ident a)] end
           ++ (if is_nil hints then []
               else wl " WITH " :: wl "(" :: wcomma (map wt_node hints) ++ [wl ")"]))
  | TRDerived lat _ _ _ q alias =>                                         (* query.go:385-393 *)
      WSw (wif lat "LATERAL " ++ [wl "("; WN (wt_query q); wl ")"]
           ++ match alias with None => [] | Some a => [wl " AS "; WN (wt_ident a)] end)
  | TRCross r f => WSw [WN (wt_tableref r); wl " CROSS JOIN "; WN (wt_tableref f)] (* 504-508 *)
  | TRQualified l ty r spec =>                                             (* query.go:580-586 *)
      WSw [WN (wt_tableref l); wl " "; WN (wt_jointype ty); wl "JOIN ";
           WN (wt_tableref r); wl " "; WN (wt_joinspec spec)]
  | TRNatural l ty r =>                                                    (* query.go:607-613 *)
      WSw [WN (wt_tableref l); wl " NATURAL "; WN (wt_jointype ty); wl "JOIN ";
           WN (wt_tableref r)]
  end
with wt_joinspec (s : joinspec) : wnode :=
  match s with
  | JUsing l _ _ => WSw ([wl "USING "; wl "("] ++ widents ", " l ++ [wl ")"]) (* query.go:636-641 *)
  | JOn e _ => WSw [wl "ON "; WN (wt_node e)]                               (* query.go:661-663 *)
  end.

(** sqlast/stmt.go:122-130. *)
Definition wt_row (r : rowvalue) : wnode :=
  WSw ([wl "("] ++ wcomma (map wt_node (row_values r)) ++ [wl ")"]).

(** sqlast/stmt.go:74-76, 96-103. *)
Definition wt_source (s : insertsource) : wnode :=
  match s with
  | ISSubQuery q => wt_query q
  | ISConstructor _ rows => WSw (wl "VALUES " :: wcomma (map wt_row rows))
  end.

(** sqlast/stmt.go:332-334. *)
Definition wt_assign (a : assignment) : wnode :=
  WSw [WN (wt_ident (as_id a)); wl " = "; WN (wt_node (as_value a))].

(** sqlast/stmt.go:450-454. *)
Definition wt_refkey (k : refkey) : wnode :=
  WSw ([WN (wt_ident (rk_table k)); wl "("] ++ widents ", " (rk_columns k) ++ [wl ")"]).

(** sqlast/stmt.go:394-403, 424-430, 475-479. *)
Definition wt_tcspec (s : tcspec) : wnode :=
  match s with
  | TCUnique pk _ _ _ cols =>
      WSw ([wl (if pk then "PRIMARY KEY" else "UNIQUE"); wl "("] ++ widents ", " cols ++ [wl ")"])
  | TCReferential _ cols key =>
      WSw ([wl "FOREIGN KEY"; wl "("] ++ widents ", " cols
           ++ [wl ")"; wl " REFERENCES "; WN (wt_refkey key)])
  | TCCheck _ _ e => WSw [wl "CHECK"; wl "("; WN (wt_node e); wl ")"]
  end.

(** sqlast/stmt.go:360-367. *)
Definition wt_tableconstraint (t : tableconstraint) : wnode :=
  WSw (match tc_name t with
       | None => []
       | Some n => [wl "CONSTRAINT "; WN (wt_ident n); wl " "]
       end ++ [WN (wt_tcspec (tc_spec t))]).

(** sqlast/stmt.go:592-594, 625-631, 654-659, 680-684. *)
Definition wt_ccspec (s : ccspec) : wnode :=
  match s with
  | CCNotNull _ _ => WSingle (gs "NOT NULL")
  | CCUnique pk _ _ _ => WSingle (if pk then gs "PRIMARY KEY" else gs "UNIQUE")
  | CCReferences _ _ t cols =>
      WSw ([wl "REFERENCES "; WN (wt_objname t); wl "("] ++ widents ", " cols ++ [wl ")"])
  | CCCheck e _ _ => WSw [wl "CHECK"; wl "("; WN (wt_node e); wl ")"]
  end.

(** sqlast/stmt.go:562-570. *)
Definition wt_colconstraint (c : colconstraint) : wnode :=
  WSw ([wl " "]
       ++ match cc_name c with
          | None => []
          | Some n => [wl "CONSTRAINT "; WN (wt_ident n); wl " "]
          end
       ++ [WN (wt_ccspec (cc_spec c))]).

(** sqlast/stmt.go:529-531. *)
Definition wt_decoration (d : decoration) : wnode := WSingle (gs "AUTO_INCREMENT").

(** sqlast/stmt.go:502-515. *)
Definition wt_columndef (c : columndef) : wnode :=
  WSw ([WN (wt_ident (cd_name c)); wl " "; WN (wt_dtype (cd_type c))]
       ++ match cd_default c with None => [] | Some e => [wl " DEFAULT "; WN (wt_node e)] end
       ++ List.concat (map (fun d => [wl " "; WN (wt_decoration d)]) (cd_decorations c))
       ++ map (fun k => WN (wt_colconstraint k)) (cd_constraints c)).

Definition wt_tableelement (e : tableelement) : wnode :=
  match e with TEColumn c => wt_columndef c | TEConstraint c => wt_tableconstraint c end.

(** sqlast/table_option.go:25-29, 51-56. *)
Definition wt_tableoption (o : tableoption) : wnode :=
  match o with
  | TOEngine _ eq n => WSw ([wl "ENGINE "] ++ wif eq "= " ++ [WN (wt_ident n)])
  | TOCharset d _ _ eq n =>
      WSw (wif d "DEFAULT " ++ [wl "CHARSET "] ++ wif eq "= " ++ [WN (wt_ident n)])
  end.

(** sqlast/stmt.go:839-841, 861-863, 883-885, 904-906, 925-927. *)
Definition wt_altercol (a : altercolaction) : wnode :=
  match a with
  | ACSetDefault _ e => WSw [wl "SET DEFAULT "; WN (wt_node e)]
  | ACDropDefault _ _ => WSingle (gs "DROP DEFAULT")
  | ACType _ t => WSw [wl "TYPE "; WN (wt_dtype t)]
  | ACSetNotNull _ _ => WSingle (gs "SET NOT NULL")
  | ACDropNotNull _ _ => WSingle (gs "DROP NOT NULL")
  end.

(** sqlast/stmt.go:785-789, 810-814, 952-956, 976-978, 1004-1008. *)
Definition wt_altertable (a : altertableaction) : wnode :=
  match a with
  | ATAddColumn _ c => WSw [wl "ADD COLUMN "; WN (wt_columndef c)]
  | ATAlterColumn n _ a => WSw [wl "ALTER COLUMN "; WN (wt_ident n); wl " "; WN (wt_altercol a)]
  | ATRemoveColumn n casc _ _ => WSw ([wl "DROP COLUMN "; WN (wt_ident n)] ++ wif casc " CASCADE")
  | ATAddConstraint _ c => WSw [wl "ADD "; WN (wt_tableconstraint c)]
  | ATDropConstraint n _ casc _ =>
      WSw ([wl "DROP CONSTRAINT "; WN (wt_ident n)] ++ wif casc " CASCADE")
  end.

(** sqlast/stmt.go. *)
Fixpoint wt_stmt (s : stmt) : wnode :=
  match s with
  | StQuery q => wt_query q
  | StInsert _ t cols src ups =>                                           (* 38-52 *)
      WSw ([wl "INSERT INTO "; WN (wt_objname t); wl " "]
           ++ (if is_nil cols then [] else wl "(" :: widents ", " cols ++ [wl ")"; wl " "])
           ++ [WN (wt_source src)]
           ++ (if is_nil ups then []
               else wl " ON DUPLICATE KEY UPDATE " :: wcomma (map wt_assign ups)))
  | StUpdate _ t ass sel =>                                                (* 202-214 *)
      WSw ([wl "UPDATE "; WN (wt_objname t); wl " SET "] ++ wcomma (map wt_assign ass)
           ++ match sel with None => [] | Some e => [wl " WHERE "; WN (wt_node e)] end)
  | StDelete _ t sel =>                                                    (* 239-246 *)
      WSw ([wl "DELETE FROM "; WN (wt_objname t)]
           ++ match sel with None => [] | Some e => [wl " WHERE "; WN (wt_node e)] end)
  | StCreateView _ n q m =>                                                (* 268-274 *)
      WSw ([wl "CREATE"] ++ wif m " MATERIALIZED"
           ++ [wl " VIEW "; WN (wt_objname n); wl " AS "; WN (wt_query q)])
  | StCreateTable _ n els ne opts =>                                       (* 298-313 *)
      WSw ([wl "CREATE TABLE "] ++ wif ne "IF NOT EXISTS "
           ++ [WN (wt_objname n); wl " "; wl "("] ++ wcomma (map wt_tableelement els) ++ [wl ")"]
           ++ wcomma (map wt_tableoption opts))
  | StAlterTable _ t a =>                                                  (* 759-763 *)
      WSw [wl "ALTER TABLE "; WN (wt_objname t); wl " "; WN (wt_altertable a)]
  | StDropTable ts casc _ ife _ =>                                         (* 1035-1044 *)
      WSw ([wl "DROP TABLE "] ++ wif ife "IF EXISTS " ++ wcomma (map wt_objname ts)
           ++ wif casc " CASCADE")
  | StCreateIndex _ t u idx meth cols _ sel =>                             (* 1074-1089 *)
      WSw ([wl "CREATE "] ++ wif u "UNIQUE " ++ [wl "INDEX"]
           ++ match idx with None => [] | Some n => [wl " "; WN (wt_ident n)] end
           ++ [wl " ON "; WN (wt_objname t)]
           ++ match meth with None => [] | Some n => [wl " USING "; WN (wt_ident n)] end
           ++ [wl " "; wl "("] ++ widents ", " cols ++ [wl ")"]
           ++ match sel with None => [] | Some e => [wl " WHERE "; WN (wt_node e)] end)
  | StDropIndex _ ns => WSw (wl "DROP INDEX " :: widents ", " ns)           (* 1109-1113 *)
  | StExplain s _ => WSw [wl "EXPLAIN "; WN (wt_stmt s)]                    (* 1133-1135 *)
  end.

(** sqlast/ast.go:55-61. *)
Definition wt_file (f : file) : wnode := WSw (wjoin [10] (map wt_stmt (f_stmts f))).

(** The text of a node: toSQLString (writer.go:178-182). *)
Definition sql_node (x : node) : gostring := builder_string (wt_node x).
Definition sql_query (x : query) : gostring := builder_string (wt_query x).
Definition sql_stmt (x : stmt) : gostring := builder_string (wt_stmt x).
Definition sql_dtype (x : dtype) : gostring := builder_string (wt_dtype x).
