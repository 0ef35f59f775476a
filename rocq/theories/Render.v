(** Written form of syntax trees: the token sequence of every node, and the
    trees that can be written down so that they can be read back (C17, C18).
    Independent of the parser and of the printer. *)
From Coq Require Import ZArith List Bool String.
From Verif Require Import Base Dialect Token LexSpec AST Num Grammar.
Import ListNotations.
Open Scope list_scope.
Open Scope Z_scope.

(* ------------------------------------------------------------------ *)
(** ** Tokens *)

(** A keyword, a symbol, an integer. *)
Definition kwt (s : string) : token := mkTok SQLKeyword (VWord (mkWord (gs s) 0 (upper (gs s)))) pos0 pos0.
Definition sy (k : kind) (s : string) : token := mkTok k (VStr (gs s)) pos0 pos0.
Definition num (z : Z) : token := mkTok Number (VStr (format_int z)) pos0 pos0.

Definition comma := sy Comma ",".
Definition lpar := sy LParen "(".
Definition rpar := sy RParen ")".
Definition dot := sy Period ".".
Definition star := sy Mult "*".
Definition semi := sy Semicolon ";".

Definition kws (l : list string) : list token := map kwt l.

(** An identifier is stored as it is written; the word in it, and its quote. *)
Definition text_word (s : gostring) : sqlword :=
  match s with
  | q :: s' => if (q =? 34) || (q =? 96) then mkWord (removelast s') q (upper (removelast s'))
               else mkWord s 0 (upper s)
  | [] => mkWord [] 0 []
  end.
Definition idt (i : ident) : token := mkTok SQLKeyword (VWord (text_word (id_value i))) pos0 pos0.

Fixpoint sepby (s : token) (l : list (list token)) : list token :=
  match l with
  | [] => []
  | x :: l' => match l' with [] => x | _ => x ++ s :: sepby s l' end
  end.
Definition commas {A} (f : A -> list token) (l : list A) : list token := sepby comma (map f l).
Definition t_dots (l : list ident) : list token := sepby dot (map (fun i => [idt i]) l).
Definition t_ids (l : list ident) : list token := sepby comma (map (fun i => [idt i]) l).
Definition t_name (o : objname) : list token := t_dots (on_idents o).
Definition opt {A} (o : option A) (f : A -> list token) : list token :=
  match o with Some a => f a | None => [] end.
Definition cond (b : bool) (l : list token) : list token := if b then l else [].
(** Nothing for the empty list. *)
Definition list_of {A} (l : list A) (t : list token) : list token := match l with [] => [] | _ => t end.
Definition parens (l : list token) : list token := lpar :: l ++ [rpar].

(* ------------------------------------------------------------------ *)
(** ** Trees *)

Definition t_op (o : optype) : list token :=
  match o with
  | OPlus => [sy Plus "+"] | OMinus => [sy Minus "-"] | OMultiply => [star]
  | ODivide => [sy Div "/"] | OModulus => [sy Mod "%"]
  | OGt => [sy Gt ">"] | OLt => [sy Lt "<"] | OGtEq => [sy GtEq ">="] | OLtEq => [sy LtEq "<="]
  | OEq => [sy Eq "="] | ONotEq => [sy Neq "!="]
  | OAnd => [kwt "AND"] | OOr => [kwt "OR"] | ONot => [kwt "NOT"] | OLike => [kwt "LIKE"]
  | ONotLike => [kwt "NOT"; kwt "LIKE"] | ONone => []
  end.

Definition t_join (j : joincond) : list token :=
  match j with
  | JINNER => [kwt "INNER"] | JLEFT => [kwt "LEFT"] | JRIGHT => [kwt "RIGHT"] | JFULL => [kwt "FULL"]
  | JLEFTOUTER => kws ["LEFT"; "OUTER"]%string | JRIGHTOUTER => kws ["RIGHT"; "OUTER"]%string
  | JFULLOUTER => kws ["FULL"; "OUTER"]%string | JIMPLICIT => []
  end.

Definition t_limit (l : limitexpr) : list token :=
  kwt "LIMIT" :: match lim_value l with None => kwt "ALL" | Some v => num (lv_long v) end
  :: opt (lim_offset l) (fun v => [kwt "OFFSET"; num (lv_long v)]).

Definition t_bound (x : wbound) : list token :=
  match x with
  | BCurrentRow _ _ => kws ["CURRENT"; "ROW"]%string
  | BUnboundedPreceding _ _ => kws ["UNBOUNDED"; "PRECEDING"]%string
  | BUnboundedFollowing _ _ => kws ["UNBOUNDED"; "FOLLOWING"]%string
  | BPreceding n _ _ => [num n; kwt "PRECEDING"]
  | BFollowing n _ _ => [num n; kwt "FOLLOWING"]
  end.

Definition t_frame (f : wframe) : list token :=
  kwt (match wfu_type (wf_units f) with URows => "ROWS" | URange => "RANGE" | UGroups => "GROUPS" end)
  :: match wf_end f with
     | Some e => kwt "BETWEEN" :: t_bound (wf_start f) ++ kwt "AND" :: t_bound e
     | None => t_bound (wf_start f)
     end.

Definition t_setop (o : setop) : token :=
  kwt (match o with SUnion _ _ => "UNION" | SExcept _ _ => "EXCEPT" | SIntersect _ _ => "INTERSECT" end).

Definition t_size (size : option Z) : list token := opt size (fun n => parens [num n]).
Definition t_unsigned (u : bool) : list token := cond u [kwt "unsigned"].

Fixpoint t_type (t : dtype) : list token :=
  match t with
  | TChar size _ _ _ => kwt "char" :: t_size size
  | TVarchar size _ _ _ => kwt "character" :: kwt "varying" :: t_size size
  | TUUID _ _ => [kwt "uuid"]
  | TClob n _ _ => kwt "clob" :: t_size (Some n)
  | TBinary n _ _ => kwt "binary" :: t_size (Some n)
  | TVarbinary n _ _ => kwt "varbinary" :: t_size (Some n)
  | TBlob n _ _ => kwt "blob" :: t_size (Some n)
  | TDecimal p s _ _ u _ =>
      kwt "numeric" :: opt p (fun n => parens (num n :: opt s (fun k => [comma; num k]))) ++ t_unsigned u
  | TFloat size _ _ _ u _ => kwt "float" :: t_size size ++ t_unsigned u
  | TSmallInt _ _ u _ => kwt "smallint" :: t_unsigned u
  | TInt _ _ u _ => kwt "int" :: t_unsigned u
  | TBigInt _ _ u _ => kwt "bigint" :: t_unsigned u
  | TReal _ _ u _ => kwt "real" :: t_unsigned u
  | TDouble _ _ => kws ["double"; "precision"]%string
  | TBoolean _ _ => [kwt "boolean"]
  | TDate _ _ => [kwt "date"]
  | TTime _ _ => [kwt "time"]
  | TTimestamp tz _ _ => kwt "timestamp" :: cond tz (kws ["with"; "time"; "zone"]%string)
  | TRegclass _ _ => [kwt "regclass"]
  | TText _ _ => [kwt "text"]
  | TBytea _ _ => [kwt "bytea"]
  | TArray ty _ => t_type ty ++ [sy LBracket "["; sy RBracket "]"]
  | TCustom o => t_name o
  end.

Fixpoint t_node (x : node) : list token :=
  match x with
  | EIdent i => [idt i]
  | EWildcard _ => [star]
  | EQualWildcard l => t_dots l ++ [dot; star]
  | ECompound l => t_dots l
  | EIsNull x => t_node x ++ kws ["IS"; "NULL"]%string
  | EIsNotNull x => t_node x ++ kws ["IS"; "NOT"; "NULL"]%string
  | EInList e l neg _ => t_node e ++ cond neg [kwt "NOT"] ++ kwt "IN" :: parens (commas t_node l)
  | EInSubQuery e q neg _ => t_node e ++ cond neg [kwt "NOT"] ++ kwt "IN" :: parens (t_query q)
  | EBetween e neg lo hi =>
      t_node e ++ cond neg [kwt "NOT"] ++ kwt "BETWEEN" :: t_node lo ++ kwt "AND" :: t_node hi
  | EBinary l op r => t_node l ++ t_op (op_type op) ++ t_node r
  | ECast e ty _ _ => kwt "CAST" :: parens (t_node e ++ kwt "AS" :: t_type ty)
  | ENested e _ _ => parens (t_node e)
  | EUnary _ op e => t_op (op_type op) ++ t_node e
  | EFunction name args _ over _ =>
      t_name name ++ parens (commas t_node args) ++
      match over with Some o => kwt "OVER" :: parens (t_winspec o) | None => [] end
  | ECase _ _ operand branches else_ =>
      kwt "CASE" :: match operand with Some o => t_node o | None => [] end ++
      List.concat (map (fun p => match p with (c, r) => kwt "WHEN" :: t_node c ++ kwt "THEN" :: t_node r end)
                       branches) ++
      match else_ with Some e => kwt "ELSE" :: t_node e | None => [] end ++ [kwt "END"]
  | EExists neg q _ _ _ => cond neg [kwt "NOT"] ++ kwt "EXISTS" :: parens (t_query q)
  | ESubQuery q _ _ => parens (t_query q)
  | ELong v => [num (lv_long v)]
  | EDouble _ _ f => [mkTok Number (VStr (format_float f)) pos0 pos0]
  | EString _ _ s => [mkTok SingleQuotedString (VStr s) pos0 pos0]
  | ENString _ _ s => [mkTok NationalStringLiteral (VStr s) pos0 pos0]
  | EBool _ _ v => [kwt (if v then "true" else "false")]
  | ENull _ _ => [kwt "NULL"]
  end
with t_winspec (s : winspec) : list token :=
  match s with
  | WinSpec pby oby frame _ _ =>
      list_of pby (kwt "PARTITION" :: kwt "BY" :: commas t_node pby) ++
      list_of oby (kwt "ORDER" :: kwt "BY" :: commas t_orderby oby) ++
      match frame with Some f => t_frame f | None => [] end
  end
with t_orderby (o : orderby) : list token :=
  match o with
  | OrderBy e _ asc =>
      t_node e ++ match asc with None => [] | Some true => [kwt "ASC"] | Some false => [kwt "DESC"] end
  end
with t_query (q : query) : list token :=
  match q with
  | Query _ ctes body oby lim =>
      list_of ctes (kwt "WITH" :: commas t_cte ctes) ++ t_setexpr body ++
      list_of oby (kwt "ORDER" :: kwt "BY" :: commas t_orderby oby) ++
      match lim with Some l => t_limit l | None => [] end
  end
with t_cte (c : cte) : list token :=
  match c with CTE alias q _ => idt alias :: kwt "AS" :: parens (t_query q) end
with t_setexpr (s : setexpr) : list token :=
  match s with
  | SSelect s => t_select s
  | SQuery _ _ q => parens (t_query q)
  | SSetOp op all l r => t_setexpr l ++ t_setop op :: cond all [kwt "ALL"] ++ t_setexpr r
  end
with t_select (s : select) : list token :=
  match s with
  | Select distinct proj from where_ gby having _ =>
      kwt "SELECT" :: cond distinct [kwt "DISTINCT"] ++ commas t_selitem proj ++
      list_of from (kwt "FROM" :: commas t_tableref from) ++
      match where_ with Some e => kwt "WHERE" :: t_node e | None => [] end ++
      list_of gby (kwt "GROUP" :: kwt "BY" :: commas t_node gby) ++
      match having with Some e => kwt "HAVING" :: t_node e | None => [] end
  end
with t_selitem (s : selitem) : list token :=
  match s with
  | SIUnnamed e => t_node e
  | SIAlias e a => t_node e ++ [kwt "AS"; idt a]
  | SIQualWildcard p => t_name p ++ [dot; star]
  | SIWildcard _ _ => [star]
  end
with t_tableref (t : tableref) : list token :=
  match t with
  | TRTable name alias args _ hints _ =>
      t_name name ++ list_of args (parens (commas t_node args)) ++
      match alias with Some a => [kwt "AS"; idt a] | None => [] end ++
      list_of hints (kwt "WITH" :: parens (commas t_node hints))
  | TRDerived lat _ _ _ q alias =>
      cond lat [kwt "LATERAL"] ++ parens (t_query q) ++
      match alias with Some a => [kwt "AS"; idt a] | None => [] end
  | TRCross r f => t_tableref r ++ kwt "CROSS" :: kwt "JOIN" :: t_tableref f
  | TRQualified l ty r spec =>
      t_tableref l ++ t_join (jt_cond ty) ++ kwt "JOIN" :: t_tableref r ++ t_joinspec spec
  | TRNatural l ty r => t_tableref l ++ kwt "NATURAL" :: t_join (jt_cond ty) ++ kwt "JOIN" :: t_tableref r
  end
with t_joinspec (s : joinspec) : list token :=
  match s with
  | JUsing l _ _ => kwt "USING" :: parens (t_ids l)
  | JOn e _ => kwt "ON" :: t_node e
  end.

Definition t_row (r : rowvalue) : list token := parens (commas t_node (row_values r)).
Definition t_source (s : insertsource) : list token :=
  match s with
  | ISSubQuery q => t_query q
  | ISConstructor _ rows => kwt "VALUES" :: commas t_row rows
  end.
Definition t_assign (a : assignment) : list token := idt (as_id a) :: sy Eq "=" :: t_node (as_value a).
Definition t_refkey (k : refkey) : list token := idt (rk_table k) :: parens (t_ids (rk_columns k)).
Definition t_tcspec (s : tcspec) : list token :=
  match s with
  | TCUnique pk _ _ _ cols =>
      (if pk then kws ["PRIMARY"; "KEY"]%string else [kwt "UNIQUE"]) ++ parens (t_ids cols)
  | TCReferential _ cols key =>
      kwt "FOREIGN" :: kwt "KEY" :: parens (t_ids cols) ++ kwt "REFERENCES" :: t_refkey key
  | TCCheck _ _ e => kwt "CHECK" :: parens (t_node e)
  end.
Definition t_cname (o : option ident) : list token := opt o (fun n => [kwt "CONSTRAINT"; idt n]).
Definition t_tc (t : tableconstraint) : list token := t_cname (tc_name t) ++ t_tcspec (tc_spec t).
Definition t_ccspec (s : ccspec) : list token :=
  match s with
  | CCNotNull _ _ => kws ["NOT"; "NULL"]%string
  | CCUnique pk _ _ _ => if pk then kws ["PRIMARY"; "KEY"]%string else [kwt "UNIQUE"]
  | CCReferences _ _ t cols => kwt "REFERENCES" :: t_name t ++ parens (t_ids cols)
  | CCCheck e _ _ => kwt "CHECK" :: parens (t_node e)
  end.
Definition t_cc (c : colconstraint) : list token := t_cname (cc_name c) ++ t_ccspec (cc_spec c).
Definition t_coldef (c : columndef) : list token :=
  idt (cd_name c) :: t_type (cd_type c) ++
  opt (cd_default c) (fun e => kwt "DEFAULT" :: t_node e) ++
  map (fun _ => kwt "AUTO_INCREMENT") (cd_decorations c) ++
  List.concat (map t_cc (cd_constraints c)).
Definition t_element (e : tableelement) : list token :=
  match e with TEColumn c => t_coldef c | TEConstraint c => t_tc c end.
Definition t_option (o : tableoption) : list token :=
  match o with
  | TOEngine _ eq n => kwt "ENGINE" :: cond eq [sy Eq "="] ++ [idt n]
  | TOCharset d _ _ eq n => cond d [kwt "DEFAULT"] ++ kwt "CHARSET" :: cond eq [sy Eq "="] ++ [idt n]
  end.
Definition t_altercol (a : altercolaction) : list token :=
  match a with
  | ACSetDefault _ e => kwt "SET" :: kwt "DEFAULT" :: t_node e
  | ACDropDefault _ _ => kws ["DROP"; "DEFAULT"]%string
  | ACType _ t => kwt "TYPE" :: t_type t
  | ACSetNotNull _ _ => kws ["SET"; "NOT"; "NULL"]%string
  | ACDropNotNull _ _ => kws ["DROP"; "NOT"; "NULL"]%string
  end.
Definition t_altertable (a : altertableaction) : list token :=
  match a with
  | ATAddColumn _ c => kwt "ADD" :: kwt "COLUMN" :: t_coldef c
  | ATAlterColumn n _ a => kwt "ALTER" :: kwt "COLUMN" :: idt n :: t_altercol a
  | ATRemoveColumn n casc _ _ => kwt "DROP" :: kwt "COLUMN" :: idt n :: cond casc [kwt "CASCADE"]
  | ATAddConstraint _ c => kwt "ADD" :: t_tc c
  | ATDropConstraint n _ casc _ => kwt "DROP" :: kwt "CONSTRAINT" :: idt n :: cond casc [kwt "CASCADE"]
  end.
Definition t_where (o : option node) : list token := opt o (fun e => kwt "WHERE" :: t_node e).

Fixpoint t_stmt (s : stmt) : list token :=
  match s with
  | StQuery q => t_query q
  | StInsert _ t cols src ups =>
      kwt "INSERT" :: kwt "INTO" :: t_name t ++ list_of cols (parens (t_ids cols)) ++ t_source src ++
      list_of ups (kws ["ON"; "DUPLICATE"; "KEY"; "UPDATE"]%string ++ commas t_assign ups)
  | StUpdate _ t ass sel => kwt "UPDATE" :: t_name t ++ kwt "SET" :: commas t_assign ass ++ t_where sel
  | StDelete _ t sel => kwt "DELETE" :: kwt "FROM" :: t_name t ++ t_where sel
  | StCreateView _ n q m =>
      kwt "CREATE" :: cond m [kwt "MATERIALIZED"] ++ kwt "VIEW" :: t_name n ++ kwt "AS" :: t_query q
  | StCreateTable _ n els ne opts =>
      kwt "CREATE" :: kwt "TABLE" :: cond ne (kws ["IF"; "NOT"; "EXISTS"]%string) ++ t_name n ++
      parens (commas t_element els) ++ commas t_option opts
  | StAlterTable _ t a => kwt "ALTER" :: kwt "TABLE" :: t_name t ++ t_altertable a
  | StDropTable ts casc _ ife _ =>
      kwt "DROP" :: kwt "TABLE" :: cond ife (kws ["IF"; "EXISTS"]%string) ++ commas t_name ts ++
      cond casc [kwt "CASCADE"]
  | StCreateIndex _ t u idx meth cols _ sel =>
      kwt "CREATE" :: cond u [kwt "UNIQUE"] ++ kwt "INDEX" :: opt idx (fun n => [idt n]) ++
      kwt "ON" :: t_name t ++ opt meth (fun n => [kwt "USING"; idt n]) ++ parens (t_ids cols) ++ t_where sel
  | StDropIndex _ ns => kwt "DROP" :: kwt "INDEX" :: t_ids ns
  | StExplain s _ => kwt "EXPLAIN" :: t_stmt s
  end.

(* ------------------------------------------------------------------ *)
(** ** Trees that can be read back *)

Definition some {A} (o : option A) : bool := match o with Some _ => true | None => false end.
Definition nonempty {A} (l : list A) : bool := match l with [] => false | _ => true end.
Definition all_opt {A} (f : A -> bool) (o : option A) : bool := match o with Some a => f a | None => true end.

(** The word of an identifier, in upper case, is one of a list. *)
Definition word_in (l : list string) (i : ident) : bool := mem_gs (upper (wvalue (text_word (id_value i)))) (map gs l).
(** The first token is the given word, in any case of letters. *)
Definition starts (s : string) (l : list token) : bool :=
  match l with
  | t :: _ => match tval t with VWord w => equal_fold (wvalue w) (gs s) | VStr _ => false end
  | [] => false
  end.

(** Words that begin an expression other than a name, a type other than a named
    one, a table element other than a column. *)
Definition expr_words : list string := ["TRUE"; "FALSE"; "NULL"; "CASE"; "CAST"; "EXISTS"; "NOT"]%string.
Definition type_words : list string :=
  ["BOOLEAN"; "FLOAT"; "REAL"; "DOUBLE"; "SMALLINT"; "INTEGER"; "INT"; "BIGINT"; "VARCHAR"; "CHAR";
   "CHARACTER"; "UUID"; "DATE"; "TIMESTAMP"; "TIME"; "REGCLASS"; "TEXT"; "BYTEA"; "NUMERIC"]%string.
Definition element_words : list string := ["CONSTRAINT"; "PRIMARY"; "CHECK"; "FOREIGN"; "UNIQUE"]%string.

(** Binding strength of the left end of the text (every cast is written
    CAST(..)). *)
Fixpoint lopen (e : node) : Z :=
  match e with
  | EBinary l o _ => Z.min (level (op_type o)) (lopen l)
  | EIsNull x | EIsNotNull x => Z.min is_level (lopen x)
  | EInList x _ n _ | EInSubQuery x _ n _ | EBetween x n _ _ => Z.min (in_level n) (lopen x)
  | _ => closed
  end.
(** No infix NOT outside parentheses and right operands. *)
Fixpoint no_not (e : node) : bool :=
  match e with
  | EBinary l o _ => negb (match op_type o with ONotLike => true | _ => false end) && no_not l
  | EIsNull x | EIsNotNull x => no_not x
  | EInList x _ n _ | EInSubQuery x _ n _ | EBetween x n _ _ => negb n && no_not x
  | _ => true
  end.
(** Not an infix form. *)
Definition atomic (e : node) : bool := lopen e =? closed.

(** How a query ends: with a select item that has no alias, with another item,
    with a table that has no alias, or with something else. *)
Inductive ending := EndBareItem | EndItem | EndBareTable | EndOther.
Definition bare (e : ending) : bool := match e with EndBareItem | EndBareTable => true | _ => false end.
Fixpoint bare_table (t : tableref) : bool :=
  match t with
  | TRTable _ alias _ _ hints _ => negb (some alias) && negb (nonempty hints)
  | TRDerived _ _ _ _ _ alias => negb (some alias)
  | TRCross _ f => bare_table f
  | TRQualified _ _ _ _ => false
  | TRNatural _ _ r => bare_table r
  end.
Definition last_opt {A} (l : list A) : option A := match rev l with x :: _ => Some x | [] => None end.
Definition clauses_end (proj : list selitem) (from : list tableref) (where_ : option node) (gby : list node) : ending :=
  if some where_ || nonempty gby then EndOther
  else match last_opt from with
       | Some t => if bare_table t then EndBareTable else EndOther
       | None => match last_opt proj with Some (SIUnnamed _) => EndBareItem | _ => EndItem end
       end.
Definition select_end (s : select) : ending :=
  match s with
  | Select _ proj from where_ gby having _ =>
      if some having then EndOther else clauses_end proj from where_ gby
  end.
Fixpoint set_end (s : setexpr) : ending :=
  match s with
  | SSelect s => select_end s
  | SQuery _ _ _ => EndOther
  | SSetOp _ _ _ r => set_end r
  end.
Definition query_end (q : query) : ending :=
  match q with
  | Query _ _ body oby lim => if nonempty oby || some lim then EndOther else set_end body
  end.

(** Queries that begin with the words WITH or SELECT, and not with SELECT WITH. *)
Fixpoint starts_select (s : setexpr) : bool :=
  match s with SSelect _ => true | SQuery _ _ _ => false | SSetOp _ _ l _ => starts_select l end.
Fixpoint selects_with (s : setexpr) : bool :=
  match s with
  | SSelect (Select distinct proj _ _ _ _ _) =>
      negb distinct && match proj with x :: _ => starts "WITH" (t_selitem x) | [] => false end
  | SQuery _ _ _ => false
  | SSetOp _ _ l _ => selects_with l
  end.
Definition sub_query (q : query) : bool :=
  match q with Query _ ctes body _ _ => nonempty ctes || (starts_select body && negb (selects_with body)) end.
Definition top_query (q : query) : bool :=
  match q with Query _ ctes body _ _ => nonempty ctes || starts_select body end.

Definition factor (t : tableref) : bool :=
  match t with TRTable _ _ _ _ _ _ | TRDerived _ _ _ _ _ _ => true | _ => false end.
Definition natural (t : tableref) : bool := match t with TRNatural _ _ _ => true | _ => false end.

Definition wf_int (z : Z) : bool := (0 <=? z) && (z <=? max_int).
Definition no_quote (s : gostring) : bool := negb (existsb (fun c => c =? 39) s).

Section Readable.
  Variable d : dialect.

  (** An identifier is a word of the dialect, or a delimited one. *)
  Definition wf_id (i : ident) : bool :=
    match id_value i with
    | [] => false
    | q :: s =>
        if (q =? 34) || (q =? 96)
        then is_delim d q && gs_eqb s (removelast s ++ [q]) && negb (existsb (Z.eqb q) (removelast s))
        else (is_start d q || (q =? 78)) && forallb (is_part d) s
    end.
  Definition wf_ids (l : list ident) : bool := nonempty l && forallb wf_id l.
  Definition wf_on (o : objname) : bool := wf_ids (on_idents o).
  Definition first_in (ws : list string) (l : list ident) : bool :=
    match l with i :: _ => word_in ws i | [] => false end.

  Definition wf_limit (l : limitexpr) : bool :=
    match lim_value l with
    | Some v => wf_int (lv_long v) && all_opt (fun o => wf_int (lv_long o)) (lim_offset l)
    | None => negb (some (lim_offset l))
    end.
  Definition wf_bound (b : wbound) : bool :=
    match b with BPreceding n _ _ | BFollowing n _ _ => wf_int n | _ => true end.
  Definition wf_wframe (f : wframe) : bool := wf_bound (wf_start f) && all_opt wf_bound (wf_end f).

  Definition wf_type (t : dtype) : bool :=
    match t with
    | TChar size _ _ _ | TVarchar size _ _ _ | TFloat size _ _ _ _ _ => all_opt wf_int size
    | TClob _ _ _ | TBinary _ _ _ | TVarbinary _ _ _ | TBlob _ _ _ => false
    | TDecimal p s _ _ _ _ => some p && all_opt wf_int p && all_opt wf_int s
    | TArray (TText _ _) _ => true
    | TArray _ _ => false
    | TCustom o => wf_on o && negb (first_in type_words (on_idents o))
    | _ => true
    end.

  Fixpoint wf_node (x : node) : bool :=
    match x with
    | EIdent i => wf_id i && negb (word_in expr_words i)
    | EWildcard _ => true
    | EQualWildcard l => wf_ids l && negb (first_in expr_words l)
    | ECompound l => wf_ids l && negb (first_in expr_words l) && Nat.ltb 1 (List.length l)
    | EIsNull x | EIsNotNull x => wf_node x && (is_level <=? open_right x)
    | EInList e l neg _ =>
        wf_node e && (in_level neg <=? open_right e) && nonempty l && forallb wf_node l
        && negb (starts "SELECT" (commas t_node l)) && negb (starts "WITH" (commas t_node l))
    | EInSubQuery e q neg _ =>
        wf_node e && (in_level neg <=? open_right e) && wf_query q && sub_query q
    | EBetween e neg lo hi =>
        wf_node e && (in_level neg <=? open_right e) && wf_node lo && wf_node hi && atomic lo && atomic hi
    | EBinary l op r =>
        wf_node l && wf_node r
        && (match op_type op with ONot | ONone => false | _ => true end)
        && (level (op_type op) <=? open_right l) && (level (op_type op) <? lopen r)
    | ECast e ty _ _ => wf_node e && wf_type ty
    | ENested e _ _ => wf_node e && negb (starts "SELECT" (t_node e)) && negb (starts "WITH" (t_node e))
    | EUnary _ op e =>
        wf_node e && (level (op_type op) <? lopen e)
        && match op_type op with
           | OPlus | OMinus => true
           | ONot => negb (starts "EXISTS" (t_node e))
           | _ => false
           end
    | EFunction name args _ over _ =>
        wf_on name && negb (first_in expr_words (on_idents name)) && forallb wf_node args
        && match over with Some o => wf_winspec o | None => true end
    | ECase _ _ operand branches else_ =>
        match operand with Some o => wf_node o && negb (starts "WHEN" (t_node o)) | None => true end
        && nonempty branches && forallb (fun p => match p with (c, r) => wf_node c && wf_node r end) branches
        && match else_ with Some e => wf_node e | None => true end
    | EExists _ q _ _ _ => wf_query q
    | ESubQuery q _ _ => wf_query q && sub_query q
    | ELong v => wf_int (lv_long v)
    | EDouble _ _ f =>
        match parse_float (format_float f) with Some g => (fm g =? fm f) && (fe g =? fe f) | None => false end
        && existsb (fun c => c =? 46) (format_float f)
        && forallb (fun c => is_digit c || (c =? 46)) (format_float f)
        && match format_float f with c :: _ => is_digit c | [] => false end
    | EString _ _ s | ENString _ _ s => no_quote s
    | EBool _ _ _ | ENull _ _ => true
    end
  with wf_winspec (s : winspec) : bool :=
    match s with
    | WinSpec pby oby frame _ _ =>
        forallb wf_node pby && forallb wf_orderby oby && all_opt wf_wframe frame
    end
  with wf_orderby (o : orderby) : bool := match o with OrderBy e _ _ => wf_node e end
  with wf_query (q : query) : bool :=
    match q with
    | Query _ ctes body oby lim =>
        forallb wf_cte ctes && wf_setexpr body && forallb wf_orderby oby && all_opt wf_limit lim
        && (nonempty oby || negb (some lim) || negb (bare (set_end body)))
    end
  with wf_cte (c : cte) : bool := match c with CTE alias q _ => wf_id alias && wf_query q end
  with wf_setexpr (s : setexpr) : bool :=
    match s with
    | SSelect s => wf_select s
    | SQuery _ _ q => wf_query q
    | SSetOp op _ l r =>
        wf_setexpr l && wf_setexpr r && (set_level op <=? set_top l) && (set_level op <? set_top r)
    end
  with wf_select (s : select) : bool :=
    match s with
    | Select distinct proj from where_ gby having _ =>
        nonempty proj && forallb wf_selitem proj && (distinct || negb (starts "DISTINCT" (commas t_selitem proj)))
        && forallb wf_tableref from
        && match where_ with Some e => wf_node e | None => true end
        && forallb wf_node gby
        && match having with Some e => wf_node e | None => true end
        && (negb (some having) || negb (bare (clauses_end proj from where_ gby)))
    end
  with wf_selitem (s : selitem) : bool :=
    match s with
    | SIUnnamed e => wf_node e && negb (match e with EQualWildcard _ => true | _ => false end)
    | SIAlias e a => wf_node e && negb (match e with EQualWildcard _ => true | _ => false end) && wf_id a
    | SIQualWildcard p => wf_on p && negb (first_in expr_words (on_idents p))
    | SIWildcard _ _ => false
    end
  with wf_tableref (t : tableref) : bool :=
    match t with
    | TRTable name alias args _ hints _ =>
        wf_on name && negb (starts "LATERAL" (t_name name)) && all_opt wf_id alias && negb (nonempty args)
        && forallb wf_node hints
    | TRDerived _ _ _ _ q alias => wf_query q && all_opt wf_id alias
    | TRCross r f => wf_tableref r && wf_tableref f && factor r && factor f
    | TRQualified l _ r spec => wf_tableref l && negb (natural l) && wf_tableref r && wf_joinspec spec
    | TRNatural l _ r => wf_tableref l && negb (natural l) && wf_tableref r
    end
  with wf_joinspec (s : joinspec) : bool :=
    match s with JUsing l _ _ => wf_ids l | JOn e _ => wf_node e end.

  Definition wf_source (s : insertsource) : bool :=
    match s with
    | ISSubQuery q => wf_query q
    | ISConstructor _ rows =>
        nonempty rows && forallb (fun r => nonempty (row_values r) && forallb wf_node (row_values r)) rows
    end.
  Definition wf_assign (a : assignment) : bool := wf_id (as_id a) && wf_node (as_value a).
  Definition wf_tcspec (s : tcspec) : bool :=
    match s with
    | TCUnique _ _ _ _ cols => wf_ids cols
    | TCReferential _ cols key => wf_ids cols && wf_id (rk_table key) && forallb wf_id (rk_columns key)
    | TCCheck _ _ e => wf_node e
    end.
  Definition wf_tc (t : tableconstraint) : bool := all_opt wf_id (tc_name t) && wf_tcspec (tc_spec t).
  Definition wf_cc (c : colconstraint) : bool :=
    all_opt wf_id (cc_name c) &&
    match cc_spec c with
    | CCNotNull _ _ | CCUnique _ _ _ _ => true
    | CCReferences _ _ t cols => wf_on t && wf_ids cols
    | CCCheck e _ _ => wf_node e
    end.
  (** DEFAULT is written before NOT NULL, so its expression must end where NOT
      follows. *)
  Definition wf_coldef (c : columndef) : bool :=
    wf_id (cd_name c) && wf_type (cd_type c)
    && all_opt (fun e => wf_node e && no_not e &&
                         ((level ONot <=? open_right e) || nonempty (cd_decorations c)
                          || negb (starts "NOT" (List.concat (map t_cc (cd_constraints c))))))
               (cd_default c)
    && forallb wf_cc (cd_constraints c).
  Definition wf_element (e : tableelement) : bool :=
    match e with
    | TEColumn c => wf_coldef c && negb (word_in element_words (cd_name c))
    | TEConstraint c => wf_tc c
    end.
  Definition wf_option (o : tableoption) : bool :=
    match o with TOEngine _ _ n | TOCharset _ _ _ _ n => wf_id n end.
  Definition wf_altercol (a : altercolaction) : bool :=
    match a with
    | ACSetDefault _ e => wf_node e && no_not e
    | ACType _ t => wf_type t
    | _ => true
    end.
  Definition wf_altertable (a : altertableaction) : bool :=
    match a with
    | ATAddColumn _ c => wf_coldef c
    | ATAlterColumn n _ a => wf_id n && wf_altercol a
    | ATAddConstraint _ c => wf_tc c
    | ATRemoveColumn n _ _ _ | ATDropConstraint n _ _ _ => wf_id n
    end.
  Definition wf_where (o : option node) : bool := all_opt wf_node o.

  Fixpoint wf_stmt (s : stmt) : bool :=
    match s with
    | StQuery q => wf_query q && top_query q
    | StInsert _ t cols src ups =>
        wf_on t && forallb wf_id cols && wf_source src && forallb wf_assign ups
        && match src with
           | ISSubQuery q =>
               (nonempty cols || top_query q)
               && (negb (nonempty ups) || match query_end q with EndBareItem => false | _ => true end)
           | ISConstructor _ _ => true
           end
    | StUpdate _ t ass sel => wf_on t && nonempty ass && forallb wf_assign ass && wf_where sel
    | StDelete _ t sel => wf_on t && wf_where sel
    | StCreateView _ n q m => wf_on n && wf_query q && negb m
    | StCreateTable _ n els _ opts =>
        wf_on n && nonempty els && forallb wf_element els && forallb wf_option opts
        && Nat.leb (List.length opts) 1
    | StAlterTable _ t a => wf_on t && wf_altertable a
    | StDropTable ts _ _ _ _ => match ts with [t] => wf_on t | _ => false end
    | StCreateIndex _ t _ idx meth cols _ sel =>
        wf_on t && all_opt (fun i => wf_id i && negb (starts "ON" [idt i])) idx && all_opt wf_id meth
        && wf_ids cols && wf_where sel
    | StDropIndex _ ns => wf_ids ns
    | StExplain s _ => wf_stmt s
    end.

  (** The end of the text may follow directly: a type BIGINT and a select item
      need one more token. *)
  Definition ends_type (t : dtype) : bool :=
    match t with TBigInt _ _ u _ => u | _ => true end.
  Definition ends_query (q : query) : bool :=
    match query_end q with EndBareItem | EndItem => false | _ => true end.
  Definition ends_coldef (c : columndef) : bool :=
    some (cd_default c) || nonempty (cd_decorations c) || nonempty (cd_constraints c) || ends_type (cd_type c).
  Fixpoint ends_stmt (s : stmt) : bool :=
    match s with
    | StQuery q | StCreateView _ _ q _ => ends_query q
    | StInsert _ _ _ (ISSubQuery q) ups => nonempty ups || ends_query q
    | StAlterTable _ _ (ATAlterColumn _ _ (ACType _ t)) => ends_type t
    | StAlterTable _ _ (ATAddColumn _ c) => ends_coldef c
    | StExplain s _ => ends_stmt s
    | _ => true
    end.
End Readable.

(** Dialects in which the keywords can be written. *)
Definition dialect_words (d : dialect) : Prop :=
  dialect_ok d /\
  (forall c, is_letter c = true -> is_start d c = true /\ is_part d c = true) /\
  is_part d 95 = true /\ is_start d 65279 = false.
