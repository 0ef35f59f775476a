(** What the parser's trees mean as SQL text: for every kind of node, the lists
    of (significant) tokens that it is a reading of.  Written from the SQL
    grammar, independently of the parser's code; the positions a node records
    are tied to the tokens they come from. *)
From Coq Require Import ZArith List Bool String.
From Verif Require Import Base Dialect Token AST Num Nodes.
Import ListNotations.
Open Scope list_scope.
Open Scope Z_scope.

(* ------------------------------------------------------------------ *)
(** ** Binding strength of operators (C19, C20) *)

(** The documented order OR < AND < NOT < IS < comparisons, IN, BETWEEN, LIKE
    < + - < * / % < ::.  The negated forms (NOT LIKE, NOT IN, NOT BETWEEN) bind
    like NOT. *)
Definition level (o : optype) : Z :=
  match o with
  | OOr => 5
  | OAnd => 10
  | ONot | ONotLike => 15
  | OEq | ONotEq | OLt | OLtEq | OGt | OGtEq | OLike => 20
  | OPlus | OMinus => 30
  | OMultiply | ODivide | OModulus => 40
  | ONone => 0
  end.
Definition is_level : Z := 17.
Definition in_level (negated : bool) : Z := if negated then 15 else 20.
Definition cast_level : Z := 50.
Definition closed : Z := 100.

(** [x :: t] records no positions, CAST(x AS t) does. *)
Definition no_pos (p : pos) : bool := (pline p =? 0) && (pcol p =? 0).

(** The loosest operator whose right operand reaches the right end of the
    text: an operator that follows must not bind tighter. *)
Fixpoint open_right (e : node) : Z :=
  match e with
  | EBinary _ o r => Z.min (level (op_type o)) (open_right r)
  | EUnary _ o x => Z.min (level (op_type o)) (open_right x)
  | EBetween _ _ _ hi => open_right hi
  | _ => closed
  end.

(** The loosest infix operator that has the left end of the text in its left
    operand: an operator that precedes must bind looser. *)
Fixpoint open_left (e : node) : Z :=
  match e with
  | EBinary l o _ => Z.min (level (op_type o)) (open_left l)
  | EIsNull x | EIsNotNull x => Z.min is_level (open_left x)
  | EInList x _ n _ | EInSubQuery x _ n _ | EBetween x n _ _ => Z.min (in_level n) (open_left x)
  | ECast x _ c _ => if no_pos c then Z.min cast_level (open_left x) else closed
  | _ => closed
  end.

(** The operands of a node are bound as precedence and left associativity
    demand; the bounds of BETWEEN are operands without infix operators. *)
Definition well_bound (e : node) : Prop :=
  match e with
  | EBinary l o r => level (op_type o) <= open_right l /\ level (op_type o) < open_left r
  | EUnary _ o x => level (op_type o) < open_left x
  | EIsNull x | EIsNotNull x => is_level <= open_right x
  | EInList x _ n _ | EInSubQuery x _ n _ => in_level n <= open_right x
  | EBetween x n lo hi => in_level n <= open_right x /\ open_left lo = closed /\ open_left hi = closed
  | ECast x _ c _ => no_pos c = true -> cast_level <= open_right x
  | _ => True
  end.

(** INTERSECT binds tighter than UNION and EXCEPT; all three associate to the
    left. *)
Definition set_level (o : setop) : Z :=
  match o with SIntersect _ _ => 20 | SUnion _ _ | SExcept _ _ => 10 end.
Definition set_top (s : setexpr) : Z :=
  match s with SSetOp o _ _ _ => set_level o | _ => closed end.
Definition set_bound (s : setexpr) : Prop :=
  match s with
  | SSetOp o _ l r => set_level o <= set_top l /\ set_level o < set_top r
  | _ => True
  end.

(* ------------------------------------------------------------------ *)
(** ** Languages of token lists *)

Definition lang := list token -> Prop.
Definition eps : lang := fun ts => ts = [].
Definition tok (f : token -> Prop) : lang := fun ts => exists t, ts = [t] /\ f t.
Definition cat (P Q : lang) : lang := fun ts => exists u v, ts = u ++ v /\ P u /\ Q v.
Definition alt (P Q : lang) : lang := fun ts => P ts \/ Q ts.
Definition given (c : Prop) (P : lang) : lang := fun ts => c /\ P ts.
Definition none : lang := fun _ => False.
Notation "P >> Q" := (cat P Q) (at level 81, right associativity).
Notation "P <|> Q" := (alt P Q) (at level 82, right associativity).
Notation "c ?? P" := (given c P) (at level 83, right associativity).
Definition opt (P : lang) : lang := eps <|> P.

Fixpoint sep_by (s : lang) (l : list lang) : lang :=
  match l with
  | [] => none
  | P :: l' => match l' with [] => P | _ => P >> s >> sep_by s l' end
  end.
Fixpoint many (l : list lang) : lang := match l with [] => eps | P :: l' => P >> many l' end.
Definition may {A} (o : option A) (P : A -> lang) : lang := match o with Some a => P a | None => eps end.

(** The word is this keyword, in the sense of either comparison the parser
    makes: Keyword (the upper-cased spelling) or EqualFold. *)
Definition spells (s : string) (t : token) : Prop :=
  exists w, tval t = VWord w /\ (wkeyword w = gs s \/ equal_fold (wvalue w) (gs s) = true).
Definition kwd (s : string) : lang := tok (spells s).
Definition kwd_from (s : string) (p : pos) : lang := tok (fun t => spells s t /\ tfrom t = p).
Definition kwd_to (s : string) (p : pos) : lang := tok (fun t => spells s t /\ tto t = p).
Definition kwd_at (s : string) (p q : pos) : lang := tok (fun t => spells s t /\ tfrom t = p /\ tto t = q).
Definition kwds (l : list string) : lang := many (map kwd l).
Definition sym (k : kind) : lang := tok (fun t => tkind t = k).
Definition sym_from (k : kind) (p : pos) : lang := tok (fun t => tkind t = k /\ tfrom t = p).
Definition sym_to (k : kind) (p : pos) : lang := tok (fun t => tkind t = k /\ tto t = p).
Definition sym_at (k : kind) (p q : pos) : lang := tok (fun t => tkind t = k /\ tfrom t = p /\ tto t = q).

(** Identifiers keep spelling and place. *)
Definition word (i : ident) : lang :=
  tok (fun t => exists w, tval t = VWord w /\ i = mkIdent (word_string w) (tfrom t) (tto t)).
Definition dots (l : list ident) : lang := sep_by (sym Period) (map word l).
Definition words (l : list ident) : lang := sep_by (sym Comma) (map word l).
Definition name (n : objname) : lang := dots (on_idents n).
Definition commas {A} (P : A -> lang) (l : list A) : lang := sep_by (sym Comma) (map P l).
Definition parens (P : lang) : lang := sym LParen >> P >> sym RParen.
Definition parens_to (P : lang) (p : pos) : lang := sym LParen >> P >> sym_to RParen p.

(** Number literals. *)
Definition has_dot (s : gostring) : bool := existsb (fun c => c =? 46) s.
Definition int (z : Z) : lang :=
  tok (fun t => tkind t = Number /\ exists s, tval t = VStr s /\ atoi s = AOk z).
Definition long (v : longval) : lang :=
  tok (fun t => tkind t = Number /\ tfrom t = lv_from v /\ tto t = lv_to v /\
                exists s, tval t = VStr s /\ has_dot s = false /\
                  lv_long v = match atoi s with AOk z => z | ARange z => z | ASyntax => 0 end).
Definition long_int (v : longval) : lang :=
  tok (fun t => tkind t = Number /\ tfrom t = lv_from v /\ tto t = lv_to v /\
                exists s, tval t = VStr s /\ atoi s = AOk (lv_long v)).
Definition str (k : kind) (p q : pos) (s : gostring) : lang :=
  tok (fun t => tkind t = k /\ tval t = VStr s /\ tfrom t = p /\ tto t = q).

(* ------------------------------------------------------------------ *)
(** ** What the parser silently drops (C22) *)

Inductive defect :=
| LostJoins          (* t JOIN u ON c CROSS JOIN v: everything between t and CROSS *)
| LostMaterialized   (* CREATE MATERIALIZED VIEW *)
| LostTimeZone       (* TIME WITH TIME ZONE; WITH WITHOUT TIME ZONE *)
| LostSelect         (* (SELECT WITH ...: the SELECT *)
| LostAs             (* t AS at the end of the input *)
| OpenArgs           (* FROM f(a, b: the closing parenthesis is not read *)
| LostIndex          (* CREATE INDEX UNIQUE INDEX *)
| LostComma          (* a comma after the table options *)
| LostColumns        (* REFERENCES t(a, b,) *)
| LostConstraints    (* column constraints before a later group of them *)
| LostDefault        (* a DEFAULT before another one *)
| LostName.          (* CONSTRAINT name without a constraint *)

Section Reading.
  (** The defects that may have happened. *)
  Variable L : defect -> Prop.

  Definition lost (d : defect) (P : lang) : lang := opt (L d ?? P).
  Definition any_tokens : lang := fun _ => True.

  (* ---------------------------------------------------------------- *)
  (** ** Types *)

  Definition size_to (n : option Z) (p : pos) : lang :=
    match n with
    | None => p = pos0 ?? eps
    | Some z => parens_to (int z) p
    end.
  Definition unsigned (u : bool) (p : pos) : lang :=
    if u then kwd_to "UNSIGNED" p else p = pos0 ?? eps.
  Definition zone (with_tz : bool) : lang :=
    if with_tz then kwd "WITH" >> lost LostTimeZone (kwd "WITHOUT") >> kwds ["TIME"; "ZONE"]%string
    else opt (kwds ["WITHOUT"; "TIME"; "ZONE"]%string).

  Definition reads_dtype (t : dtype) : lang :=
    match t with
    | TChar n f t p => (kwd_at "CHAR" f t <|> kwd_at "CHARACTER" f t) >> size_to n p
    | TVarchar n f v p =>
        (v = pos0 ?? kwd_from "VARCHAR" f >> size_to n p) <|>
        ((kwd_from "CHAR" f <|> kwd_from "CHARACTER" f) >> kwd_to "VARYING" v >> size_to n p)
    | TUUID f t => kwd_at "UUID" f t
    | TClob _ _ _ | TBinary _ _ _ | TVarbinary _ _ _ | TBlob _ _ _ => none
    | TDecimal p s f r u up =>
        match p with
        | Some z => kwd_from "NUMERIC" f >> parens_to (int z >> may s (fun y => sym Comma >> int y)) r
                    >> unsigned u up
        | None => none
        end
    | TFloat n f t p u up => kwd_at "FLOAT" f t >> size_to n p >> unsigned u up
    | TSmallInt f t u up => kwd_at "SMALLINT" f t >> unsigned u up
    | TInt f t u up => (kwd_at "INTEGER" f t <|> kwd_at "INT" f t) >> unsigned u up
    | TBigInt f t u up => kwd_at "BIGINT" f t >> (if u then kwd_to "UNSIGNED" up else eps)
    | TReal f t u up => kwd_at "REAL" f t >> unsigned u up
    | TDouble f t => kwd_from "DOUBLE" f >> kwd_to "PRECISION" t
    | TBoolean f t => kwd_at "BOOLEAN" f t
    | TDate f t => f = pos0 /\ t = pos0 ?? kwd "DATE"
    | TTime f t => f = pos0 /\ t = pos0 ?? kwd "TIME" >> (zone false <|> (L LostTimeZone ?? zone true))
    | TTimestamp b f z => z = pos0 ?? kwd_from "TIMESTAMP" f >> zone b
    | TRegclass f t => f = pos0 /\ t = pos0 ?? kwd "REGCLASS"
    | TText f t => f = pos0 /\ t = pos0 ?? kwd "TEXT"
    | TBytea f t => f = pos0 /\ t = pos0 ?? kwd "BYTEA"
    | TArray (TText f t) p => f = pos0 /\ t = pos0 /\ p = pos0 ?? kwd "TEXT" >> sym LBracket >> sym RBracket
    | TArray _ _ => none
    | TCustom n => name n
    end.

  (* ---------------------------------------------------------------- *)
  (** ** Expressions and queries *)

  (** The binary operators. *)
  Definition operator_tokens (o : operator) : lang :=
    let f := op_from o in
    let t := op_to o in
    match op_type o with
    | OPlus => sym_at Plus f t | OMinus => sym_at Minus f t
    | OMultiply => sym_at Mult f t | ODivide => sym_at Div f t | OModulus => sym_at Mod f t
    | OGt => sym_at Gt f t | OLt => sym_at Lt f t | OGtEq => sym_at GtEq f t | OLtEq => sym_at LtEq f t
    | OEq => sym_at Eq f t | ONotEq => sym_at Neq f t
    | OAnd => kwd_at "AND" f t | OOr => kwd_at "OR" f t | OLike => kwd_at "LIKE" f t
    | ONotLike => kwd_at "NOT" f t >> kwd "LIKE"
    | ONot | ONone => none
    end.
  Definition prefix_token (from : pos) (o : operator) : lang :=
    match op_type o with
    | OPlus => op_from o = from ?? sym_at Plus from (op_to o)
    | OMinus => op_from o = from ?? sym_at Minus from (op_to o)
    | ONot => op_from o = pos0 /\ op_to o = pos0 ?? kwd_from "NOT" from
    | _ => none
    end.

  Definition not_ (n : bool) : lang := if n then kwd "NOT" else eps.

  Definition reads_bound (b : wbound) : lang :=
    match b with
    | BCurrentRow p q => p = pos0 /\ q = pos0 ?? kwds ["CURRENT"; "ROW"]%string
    | BUnboundedPreceding p q => p = pos0 /\ q = pos0 ?? kwds ["UNBOUNDED"; "PRECEDING"]%string
    | BUnboundedFollowing p q => p = pos0 /\ q = pos0 ?? kwds ["UNBOUNDED"; "FOLLOWING"]%string
    | BPreceding z p q => p = pos0 /\ q = pos0 ?? int z >> kwd "PRECEDING"
    | BFollowing z p q => p = pos0 /\ q = pos0 ?? int z >> kwd "FOLLOWING"
    end.
  Definition reads_unit (u : wframeunit) : lang :=
    wfu_from u = pos0 /\ wfu_to u = pos0 ??
    kwd (match wfu_type u with URows => "ROWS" | URange => "RANGE" | UGroups => "GROUPS" end).
  Definition reads_frame (f : wframe) : lang :=
    match wf_end f with
    | None => reads_unit (wf_units f) >> reads_bound (wf_start f)
    | Some e => reads_unit (wf_units f) >> kwd "BETWEEN" >> reads_bound (wf_start f) >> kwd "AND" >> reads_bound e
    end.

  Definition reads_limit (l : limitexpr) : lang :=
    lim_allpos l = pos0 /\ lim_pos l = pos0 ??
    match lim_value l with
    | None => lim_offset l = None ?? kwd "ALL"
    | Some v => long_int v >>
                may (lim_offset l) (fun o => kwd_at "OFFSET" (lv_from o) (lv_to o) >> int (lv_long o))
    end.

  Definition reads_setop (o : setop) : lang :=
    match o with
    | SUnion p q => p = pos0 /\ q = pos0 ?? kwd "UNION"
    | SExcept p q => p = pos0 /\ q = pos0 ?? kwd "EXCEPT"
    | SIntersect p q => p = pos0 /\ q = pos0 ?? kwd "INTERSECT"
    end.

  (** The words before JOIN. *)
  Definition reads_jointype (j : jointype) : lang :=
    let f := jt_from j in
    let t := jt_to j in
    let unset := f = pos0 /\ t = pos0 in
    match jt_cond j with
    | JINNER => kwd_at "INNER" f t <|> (unset ?? kwd "INNER")
    | JLEFT => kwd_at "LEFT" f t
    | JLEFTOUTER => kwd_at "LEFT" f t >> kwd "OUTER"
    | JRIGHT => unset ?? kwd "RIGHT"
    | JRIGHTOUTER => unset ?? kwds ["RIGHT"; "OUTER"]%string
    | JFULL => unset ?? kwd "FULL"
    | JFULLOUTER => unset ?? kwds ["FULL"; "OUTER"]%string
    | JIMPLICIT => unset ?? eps
    end.

  Definition table_alias (a : option ident) : lang :=
    match a with
    | Some i => opt (kwd "AS") >> word i
    | None => lost LostAs (kwd "AS")
    end.

  (** Keywords only written when the clause is there. *)
  Definition clause {A} (ks : list string) (l : list A) (P : lang) : lang :=
    match l with [] => eps | _ => kwds ks >> P end.

  Fixpoint reads_node (e : node) : lang :=
    well_bound e ??
    match e with
    | EIdent i => word i
    | EWildcard p => sym_from Mult p
    | EQualWildcard l => dots l >> sym Period >> sym Mult
    | ECompound l => (2 <= List.length l)%nat ?? dots l
    | EIsNull x => reads_node x >> kwds ["IS"; "NULL"]%string
    | EIsNotNull x => reads_node x >> kwds ["IS"; "NOT"; "NULL"]%string
    | EInList x l n p =>
        reads_node x >> not_ n >> kwd "IN" >> parens_to (sep_by (sym Comma) (map reads_node l)) p
    | EInSubQuery x q n p =>
        reads_node x >> not_ n >> kwd "IN" >> parens_to (lost LostSelect (kwd "SELECT") >> reads_query q) p
    | EBetween x n lo hi =>
        reads_node x >> not_ n >> kwd "BETWEEN" >> reads_node lo >> kwd "AND" >> reads_node hi
    | EBinary l o r => reads_node l >> operator_tokens o >> reads_node r
    | ECast x t c p =>
        (kwd_from "CAST" c >> parens_to (reads_node x >> kwd "AS" >> reads_dtype t) p) <|>
        (c = pos0 /\ p = pos0 ?? reads_node x >> sym DoubleColon >> reads_dtype t)
    | ENested x p q => sym_from LParen p >> reads_node x >> sym_to RParen q
    | EUnary f o x => prefix_token f o >> reads_node x
    | EFunction n args p over q =>
        name n >>
        parens_to (match args with [] => eps | _ => sep_by (sym Comma) (map reads_node args) end) p >>
        (q = pos0 ?? match over with None => eps | Some w => kwd "OVER" >> parens (reads_win w) end)
    | ECase p q operand branches else_ =>
        kwd_from "CASE" p >>
        match operand with Some x => reads_node x | None => eps end >>
        (branches <> [] ??
         many (map (fun b => kwd "WHEN" >> reads_node (fst b) >> kwd "THEN" >> reads_node (snd b)) branches)) >>
        match else_ with Some x => kwd "ELSE" >> reads_node x | None => eps end >>
        kwd_to "END" q
    | EExists n q pn pe p =>
        (if n then kwd_from "NOT" pn else (pn = pos0 ?? eps)) >> kwd_from "EXISTS" pe >> parens_to (reads_query q) p
    | ESubQuery q p r =>
        sym_from LParen p >> lost LostSelect (kwd "SELECT") >> reads_query q >> sym_to RParen r
    | ELong v => long v
    | EDouble p q d =>
        tok (fun t => tkind t = Number /\ tfrom t = p /\ tto t = q /\
                      exists s, tval t = VStr s /\ has_dot s = true /\ parse_float s = Some d)
    | EString p q s => str SingleQuotedString p q s
    | ENString p q s => str NationalStringLiteral p q s
    | EBool p q b => kwd_at (if b then "TRUE" else "FALSE") p q
    | ENull p q => kwd_at "NULL" p q
    end
  with reads_win (w : winspec) : lang :=
    match w with
    | WinSpec p o f pp po =>
        match p with
        | [] => pp = pos0 ?? eps
        | _ => kwd_from "PARTITION" pp >> kwd "BY" >> sep_by (sym Comma) (map reads_node p)
        end >>
        match o with
        | [] => po = pos0 ?? eps
        | _ => kwd_from "ORDER" po >> kwd "BY" >> sep_by (sym Comma) (map reads_orderby o)
        end >>
        may f reads_frame
    end
  with reads_orderby (o : orderby) : lang :=
    match o with
    | OrderBy e p asc =>
        p = pos0 ?? reads_node e >>
        match asc with None => eps | Some true => kwd "ASC" | Some false => kwd "DESC" end
    end
  with reads_query (q : query) : lang :=
    match q with
    | Query p ctes body oby lim =>
        p = pos0 ??
        clause ["WITH"]%string ctes (sep_by (sym Comma) (map reads_cte ctes)) >>
        reads_setexpr body >>
        clause ["ORDER"; "BY"]%string oby (sep_by (sym Comma) (map reads_orderby oby)) >>
        may lim (fun l => kwd "LIMIT" >> reads_limit l)
    end
  with reads_cte (c : cte) : lang :=
    match c with CTE a q p => p = pos0 ?? word a >> kwd "AS" >> parens (reads_query q) end
  with reads_setexpr (s : setexpr) : lang :=
    set_bound s ??
    match s with
    | SSelect x => reads_select x
    | SQuery p r q => p = pos0 /\ r = pos0 ?? parens (reads_query q)
    | SSetOp o all l r =>
        reads_setexpr l >> reads_setop o >> (if all then kwd "ALL" else eps) >> reads_setexpr r
    end
  with reads_select (s : select) : lang :=
    match s with
    | Select distinct proj from where_ gby having p =>
        kwd_from "SELECT" p >> (if distinct then kwd "DISTINCT" else eps) >>
        sep_by (sym Comma) (map reads_selitem proj) >>
        clause ["FROM"]%string from (sep_by (sym Comma) (map reads_tableref from)) >>
        match where_ with Some e => kwd "WHERE" >> reads_node e | None => eps end >>
        clause ["GROUP"; "BY"]%string gby (sep_by (sym Comma) (map reads_node gby)) >>
        match having with Some e => kwd "HAVING" >> reads_node e | None => eps end
    end
  with reads_selitem (i : selitem) : lang :=
    match i with
    | SIUnnamed e => reads_node e
    | SIAlias e a => reads_node e >> opt (kwd "AS") >> word a
    | SIQualWildcard n => name n >> sym Period >> sym Mult
    | SIWildcard p q => sym_at Mult p q
    end
  with reads_tableref (t : tableref) : lang :=
    match t with
    | TRTable n alias args p hints q =>
        p = pos0 /\ q = pos0 ??
        name n >>
        ((args = [] ?? eps) <|>
         (L OpenArgs ?? sym LParen >>
            match args with [] => eps | _ => sep_by (sym Comma) (map reads_node args) end)) >>
        table_alias alias >>
        clause ["WITH"]%string hints (parens (sep_by (sym Comma) (map reads_node hints)))
    | TRDerived lat p1 p2 p3 q alias =>
        p1 = pos0 /\ p2 = pos0 /\ p3 = pos0 ??
        (if lat then kwd "LATERAL" else eps) >> parens (reads_query q) >> table_alias alias
    | TRCross l r =>
        reads_tableref l >> lost LostJoins any_tokens >> kwds ["CROSS"; "JOIN"]%string >> reads_tableref r
    | TRQualified l j r s =>
        reads_tableref l >> reads_jointype j >> kwd "JOIN" >> reads_tableref r >> reads_joinspec s
    | TRNatural l j r =>
        reads_tableref l >> kwd "NATURAL" >> reads_jointype j >> kwd "JOIN" >> reads_tableref r
    end
  with reads_joinspec (s : joinspec) : lang :=
    match s with
    | JUsing l p q => p = pos0 /\ q = pos0 ?? kwd "USING" >> parens (words l)
    | JOn e p => kwd_from "ON" p >> reads_node e
    end.

  (* ---------------------------------------------------------------- *)
  (** ** Statements *)

  Definition reads_row (r : rowvalue) : lang :=
    sym_from LParen (row_lparen r) >> commas reads_node (row_values r) >> sym_to RParen (row_rparen r).
  Definition reads_source (s : insertsource) : lang :=
    match s with
    | ISSubQuery q => reads_query q
    | ISConstructor p rows => p = pos0 ?? kwd "VALUES" >> commas reads_row rows
    end.
  Definition reads_assign (a : assignment) : lang := word (as_id a) >> sym Eq >> reads_node (as_value a).
  Definition where_clause (o : option node) : lang := may o (fun e => kwd "WHERE" >> reads_node e).

  Definition reads_refkey (k : refkey) : lang :=
    word (rk_table k) >>
    parens_to (match rk_columns k with
               | [] => opt (L LostColumns ?? any_tokens)
               | l => words l
               end) (rk_rparen k).
  Definition reads_tcspec (s : tcspec) : lang :=
    match s with
    | TCUnique true p u r l => u = pos0 ?? kwd_from "PRIMARY" p >> kwd "KEY" >> parens_to (words l) r
    | TCUnique false p u r l => p = pos0 ?? kwd_from "UNIQUE" u >> opt (kwd "KEY") >> parens_to (words l) r
    | TCReferential f l k =>
        kwd_from "FOREIGN" f >> kwd "KEY" >> parens (words l) >> kwd "REFERENCES" >> reads_refkey k
    | TCCheck p r e => kwd_from "CHECK" p >> parens_to (reads_node e) r
    end.
  Definition reads_tcons (c : tableconstraint) : lang :=
    match tc_name c with
    | Some n => kwd_from "CONSTRAINT" (tc_constraint c) >> word n
    | None => tc_constraint c = pos0 ?? eps
    end >> reads_tcspec (tc_spec c).

  Definition reads_ccspec (s : ccspec) : lang :=
    match s with
    | CCNotNull p q => kwd_from "NOT" p >> kwd_to "NULL" q
    | CCUnique true p k u => u = pos0 ?? kwd_from "PRIMARY" p >> kwd_to "KEY" k
    | CCUnique false p k u => p = pos0 /\ k = pos0 ?? kwd_from "UNIQUE" u
    | CCReferences p q t l => kwd_from "REFERENCES" p >> name t >> parens_to (words l) q
    | CCCheck e p q => kwd_from "CHECK" p >> parens_to (reads_node e) q
    end.
  Definition reads_ccons (c : colconstraint) : lang :=
    cc_constraint c = pos0 ??
    may (cc_name c) (fun n => kwd "CONSTRAINT" >> word n) >> reads_ccspec (cc_spec c).
  Definition reads_decor (d : decoration) : lang := kwd_at "AUTO_INCREMENT" (ai_auto d) (ai_increment d).

  (** DEFAULT, constraints and AUTO_INCREMENT may follow a column's type in any
      order. *)
  Inductive colpart := CDefault (e : node) | CConstraints (l : list colconstraint) | CDecor (d : decoration).
  Definition reads_colpart (p : colpart) : lang :=
    match p with
    | CDefault e => kwd "DEFAULT" >> reads_node e
    | CConstraints l =>
        (l = [] -> L LostName) ?? many (map reads_ccons l) >>
        lost LostName (kwd "CONSTRAINT" >> tok (fun t => exists w, tval t = VWord w))
    | CDecor d => reads_decor d
    end.
  Definition defaults (l : list colpart) : list node :=
    flat_map (fun p => match p with CDefault e => [e] | _ => [] end) l.
  Definition groups (l : list colpart) : list (list colconstraint) :=
    flat_map (fun p => match p with CConstraints c => [c] | _ => [] end) l.
  Definition decors (l : list colpart) : list decoration :=
    flat_map (fun p => match p with CDecor d => [d] | _ => [] end) l.
  (** What is kept of the values written: the last one; the others are lost. *)
  Definition kept {A} (d : defect) (l : list A) (o : option A) : Prop :=
    o = hd_error (rev l) /\ ((2 <= List.length l)%nat -> L d).
  (** Two groups of constraints with nothing in between. *)
  Fixpoint touching (l : list colpart) : Prop :=
    match l with
    | [] => False
    | CConstraints _ :: (CConstraints _ :: _) => True
    | _ :: l' => touching l'
    end.
  Definition reads_columndef (c : columndef) : lang :=
    word (cd_name c) >> reads_dtype (cd_type c) >>
    fun ts => exists parts,
      many (map reads_colpart parts) ts /\
      kept LostDefault (defaults parts) (cd_default c) /\
      (exists g, kept LostConstraints (groups parts) g /\
                 cd_constraints c = match g with Some l => l | None => [] end) /\
      decors parts = cd_decorations c /\
      (touching parts -> L LostName).
  Definition reads_element (e : tableelement) : lang :=
    match e with TEColumn c => reads_columndef c | TEConstraint c => reads_tcons c end.

  Definition option_value (eq : bool) (n : ident) : lang := (if eq then sym Eq else eps) >> word n.
  Definition reads_option (o : tableoption) : lang :=
    match o with
    | TOEngine p eq n => kwd_from "ENGINE" p >> option_value eq n
    | TOCharset d pd pc eq n =>
        (if d then kwd_from "DEFAULT" pd else (pd = pos0 ?? eps)) >> kwd_from "CHARSET" pc >> option_value eq n
    end.

  Definition cascade (b : bool) (p : pos) : lang := if b then kwd_to "CASCADE" p else p = pos0 ?? eps.
  Definition reads_colaction (a : altercolaction) : lang :=
    match a with
    | ACSetDefault p e => kwd_from "SET" p >> kwd "DEFAULT" >> reads_node e
    | ACDropDefault p q => kwd_from "DROP" p >> kwd_to "DEFAULT" q
    | ACType p t => kwd_from "TYPE" p >> reads_dtype t
    | ACSetNotNull p q => kwd_from "SET" p >> kwd "NOT" >> kwd_to "NULL" q
    | ACDropNotNull p q => kwd_from "DROP" p >> kwd "NOT" >> kwd_to "NULL" q
    end.
  Definition reads_action (a : altertableaction) : lang :=
    match a with
    | ATAddColumn p c => kwd_from "ADD" p >> kwd "COLUMN" >> reads_columndef c
    | ATAlterColumn n p a => kwd_from "ALTER" p >> kwd "COLUMN" >> word n >> reads_colaction a
    | ATRemoveColumn n b q p => kwd_from "DROP" p >> kwd "COLUMN" >> word n >> cascade b q
    | ATAddConstraint p c => kwd_from "ADD" p >> reads_tcons c
    | ATDropConstraint n p b q => kwd_from "DROP" p >> kwd "CONSTRAINT" >> word n >> cascade b q
    end.

  Fixpoint reads_stmt (s : stmt) : lang :=
    match s with
    | StQuery q => reads_query q
    | StInsert p t cols src ups =>
        kwd_from "INSERT" p >> kwd "INTO" >> name t >>
        match cols with [] => eps | _ => parens (words cols) end >>
        reads_source src >>
        clause ["ON"; "DUPLICATE"; "KEY"; "UPDATE"]%string ups (commas reads_assign ups)
    | StUpdate p t ass sel =>
        kwd_from "UPDATE" p >> name t >> kwd "SET" >> commas reads_assign ass >> where_clause sel
    | StDelete p t sel => kwd_from "DELETE" p >> kwd "FROM" >> name t >> where_clause sel
    | StCreateView p n q m =>
        kwd_from "CREATE" p >> (if m then kwd "MATERIALIZED" else lost LostMaterialized (kwd "MATERIALIZED")) >>
        kwd "VIEW" >> name n >> kwd "AS" >> reads_query q
    | StCreateTable p n els ne opts =>
        kwd_from "CREATE" p >> kwd "TABLE" >> (if ne then kwds ["IF"; "NOT"; "EXISTS"]%string else eps) >> name n >>
        match els with [] => eps | _ => parens (commas reads_element els) end >>
        many (map reads_option opts) >> lost LostComma (sym Comma)
    | StAlterTable p t a => kwd_from "ALTER" p >> kwd "TABLE" >> name t >> reads_action a
    | StDropTable l casc q ex p =>
        kwd_from "DROP" p >> kwd "TABLE" >> (if ex then kwds ["IF"; "EXISTS"]%string else eps) >>
        commas name l >> cascade casc q
    | StCreateIndex p t u idx meth cols q sel =>
        p = pos0 /\ q = pos0 ??
        kwd "CREATE" >>
        (if u then lost LostIndex (kwd "INDEX") >> kwds ["UNIQUE"; "INDEX"]%string else kwd "INDEX") >>
        may idx word >> kwd "ON" >> name t >> may meth (fun m => kwd "USING" >> word m) >>
        match cols with [] => eps | _ => parens (words cols) end >>
        where_clause sel
    | StDropIndex p l => kwd_from "DROP" p >> kwd "INDEX" >> words l
    | StExplain s p => p = pos0 ?? kwd "EXPLAIN" >> reads_stmt s
    end.

  (** A text for ParseSQL: statements each closed by a semicolon; one leading
      semicolon is accepted. *)
  Definition reads_file (l : list stmt) : lang :=
    opt (sym Semicolon) >> many (map (fun s => reads_stmt s >> sym Semicolon) l).

  (* ---------------------------------------------------------------- *)
  (** ** Any node *)

  Definition reads (x : any) : lang :=
    match x with
    | AExpr (ELong v) =>
        long v <|> long_int v <|> (kwd_at "OFFSET" (lv_from v) (lv_to v) >> int (lv_long v))
    | AExpr e => reads_node e
    | AName n => name n
    | AOp o => operator_tokens o <|> (fun ts => exists p, prefix_token p o ts)
    | AWin w => reads_win w
    | AFrame f => reads_frame f
    | AUnit u => reads_unit u
    | ABound b => reads_bound b
    | AOrder o => reads_orderby o
    | AQuery q => reads_query q
    | ACte c => reads_cte c
    | ASet s => reads_setexpr s
    | ASetOp o => reads_setop o
    | AItem i => reads_selitem i
    | ARef t | AElement t => reads_tableref t
    | AJoinType j => reads_jointype j
    | ASpec s => reads_joinspec s
    | ALimit l => reads_limit l
    | AType t => reads_dtype t
    | AStmt s => reads_stmt s
    | ASource s => reads_source s
    | ARow r => reads_row r
    | AAssign a => reads_assign a
    | AElem e => reads_element e
    | ATSpec s => reads_tcspec s
    | ARefKey k => reads_refkey k
    | ACCons c => reads_ccons c
    | ACSpec s => reads_ccspec s
    | AAction a => reads_action a
    | AColAction a => reads_colaction a
    | AOption o => reads_option o
    | ADecor d => reads_decor d
    | AFile f => reads_file (f_stmts f)
    | AGroup _ | AComment _ => none
    end.
End Reading.

(** What comes next. *)
Definition next_spells (s : string) (ts : list token) : Prop :=
  match ts with t :: _ => spells s t | [] => False end.
Definition next_kind_is (k : kind) (ts : list token) : Prop :=
  match ts with t :: _ => tkind t = k | [] => False end.
(** The words that open a column constraint. *)
Definition constraint_words : list string := ["NOT"; "UNIQUE"; "PRIMARY"; "REFERENCES"; "CHECK"]%string.
Definition next_constraint (ts : list token) : Prop :=
  match ts with
  | t :: _ => tkind t = SQLKeyword /\ exists w, tval t = VWord w /\ In (wkeyword w) (map gs constraint_words)
  | [] => False
  end.

(** A place in the text without which the defect does not happen: the token [t]
    and the (significant) tokens after it. *)
Definition trigger (d : defect) (t : token) (after : list token) : Prop :=
  match d with
  | LostJoins => spells "JOIN" t /\ Exists (spells "CROSS") after
  | LostMaterialized => spells "MATERIALIZED" t
  | LostTimeZone => spells "TIME" t /\ next_spells "WITH" after \/ spells "WITH" t /\ next_spells "WITHOUT" after
  | LostSelect => spells "SELECT" t /\ next_spells "WITH" after
  | LostAs => spells "AS" t /\ after = []
  | OpenArgs => tkind t = LParen
  | LostIndex => spells "INDEX" t /\ next_spells "UNIQUE" after
  | LostComma => tkind t = Comma
  | LostColumns => tkind t = Comma /\ next_kind_is RParen after
  | LostConstraints =>
      spells "DEFAULT" t \/ spells "AUTO_INCREMENT" t \/ spells "CONSTRAINT" t /\ ~ next_constraint (tl after)
  | LostDefault => spells "DEFAULT" t
  | LostName => spells "CONSTRAINT" t /\ ~ next_constraint (tl after)
  end.

(** [L] allows for every defect that a place in the text may lead to. *)
Definition allows (L : defect -> Prop) (ts : list token) : Prop :=
  forall a t b d, ts = a ++ t :: b -> trigger d t b -> L d.

(** The token has a place in a text: lines are counted from one. *)
Definition placed (t : token) : Prop := no_pos (tfrom t) = false.

(** Tokens that continue an expression. *)
Definition infix_symbols : list kind := [Eq; Lt; LtEq; Neq; Gt; GtEq; Plus; Minus; Mult; Div; Mod; DoubleColon].
Definition infix_words : list string := ["OR"; "AND"; "NOT"; "IS"; "IN"; "BETWEEN"; "LIKE"]%string.
Definition continues (t : token) : Prop :=
  In (tkind t) infix_symbols \/
  tkind t = SQLKeyword /\ exists w, tval t = VWord w /\ In (wkeyword w) (map gs infix_words).

(** Comments are not part of the text that is read. *)
Definition in_text (z : any) : Prop := match z with AGroup _ | AComment _ => False | _ => True end.

(* ------------------------------------------------------------------ *)
(** ** Binding is unambiguous *)

(** Expressions of binary operators over other expressions, and what is written
    from left to right. *)
Fixpoint written (e : node) : list (node + operator) :=
  match e with EBinary l o r => written l ++ inr o :: written r | _ => [inl e] end.
Fixpoint operators_bound (e : node) : Prop :=
  match e with EBinary l o r => well_bound e /\ operators_bound l /\ operators_bound r | _ => True end.
Fixpoint set_written (s : setexpr) : list (setexpr + setop * bool) :=
  match s with SSetOp o all l r => set_written l ++ inr (o, all) :: set_written r | _ => [inl s] end.
Fixpoint set_operators_bound (s : setexpr) : Prop :=
  match s with SSetOp _ _ l r => set_bound s /\ set_operators_bound l /\ set_operators_bound r | _ => True end.
