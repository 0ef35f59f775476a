(** The ways to write a tree: everything the grammar leaves to the writer's
    choice (C58).  Positions and other contents of a node tell its occurrences
    apart, so every occurrence can be written in its own way.  The written form
    of a tree in a style, and the trees that can be written in it.
    Independent of the parser and of the printer. *)
From Coq Require Import ZArith List Bool String.
From Verif Require Import Base Dialect Token LexSpec AST Num Grammar Render.
Import ListNotations.
Open Scope list_scope.
Open Scope Z_scope.

(** Orders of DEFAULT, AUTO_INCREMENT and constraints. *)
Inductive order := DAC | DCA | ADC | ACD | CDA | CAD.

Record style := mkStyle {
  w_as : ident -> bool;        (* AS is written before this alias *)
  w_neq : operator -> bool;    (* != rather than <> *)
  w_cast : pos -> bool;        (* CAST(x AS t) rather than x :: t *)
  w_type : dtype -> nat;       (* which of the spellings of a type *)
  w_key : pos -> bool;         (* UNIQUE KEY rather than UNIQUE *)
  w_order : columndef -> order }.

(** One of several spellings. *)
Definition pick {A} (n : nat) (l : list A) (d : A) : A := nth n l d.

(** Words that cannot stand as an alias without AS: after an expression, after
    a table. *)
Definition column_words : list string :=
  ["AS"; "OVER"; "UNSIGNED"; "VARYING"; "WITHOUT"; "OR"; "AND"; "NOT"; "IS"; "IN"; "BETWEEN"; "LIKE";
   "WITH"; "SELECT"; "WHERE"; "GROUP"; "ORDER"; "UNION"; "EXCEPT"; "INTERSECT"; "FROM"]%string.
Definition table_words : list string :=
  ["AS"; "WITH"; "SELECT"; "WHERE"; "GROUP"; "ORDER"; "UNION"; "EXCEPT"; "INTERSECT"; "ON"; "JOIN"; "INNER";
   "CROSS"; "FULL"; "LEFT"; "RIGHT"; "NATURAL"; "USING"]%string.
Definition is_word (i : ident) (s : string) : bool := starts s [idt i] || word_in [s] i.

(** The style in force is found by type class resolution. *)
Existing Class style.
Section Spelling.
Context {sty : style}.

Definition s_op (o : operator) : list token :=
  match op_type o with
  | ONotEq => if w_neq sty o then [sy Neq "!="] else [sy Neq "<>"]
  | t => t_op t
  end.
Definition s_alias (a : ident) : list token := cond (w_as sty a) [kwt "AS"] ++ [idt a].
Definition s_type (t : dtype) : list token :=
  match t with
  | TChar size _ _ _ => kwt (pick (w_type sty t) ["char"; "character"]%string "char"%string) :: t_size size
  | TVarchar size _ _ _ =>
      pick (w_type sty t) [kws ["character"; "varying"]%string; kws ["char"; "varying"]%string] [kwt "varchar"]
      ++ t_size size
  | TInt _ _ u _ => kwt (pick (w_type sty t) ["int"; "integer"]%string "int"%string) :: t_unsigned u
  | TTime _ _ => kwt "time" :: pick (w_type sty t) [[]; kws ["without"; "time"; "zone"]%string] []
  | TTimestamp false _ _ =>
      kwt "timestamp" :: pick (w_type sty t) [[]; kws ["without"; "time"; "zone"]%string] []
  | _ => t_type t
  end.

Fixpoint s_node (x : node) : list token :=
  match x with
  | EIdent i => [idt i]
  | EWildcard _ => [star]
  | EQualWildcard l => t_dots l ++ [dot; star]
  | ECompound l => t_dots l
  | EIsNull x => s_node x ++ kws ["IS"; "NULL"]%string
  | EIsNotNull x => s_node x ++ kws ["IS"; "NOT"; "NULL"]%string
  | EInList e l neg _ => s_node e ++ cond neg [kwt "NOT"] ++ kwt "IN" :: parens (commas s_node l)
  | EInSubQuery e q neg _ => s_node e ++ cond neg [kwt "NOT"] ++ kwt "IN" :: parens (s_query q)
  | EBetween e neg lo hi =>
      s_node e ++ cond neg [kwt "NOT"] ++ kwt "BETWEEN" :: s_node lo ++ kwt "AND" :: s_node hi
  | EBinary l op r => s_node l ++ s_op op ++ s_node r
  | ECast e ty c _ =>
      if w_cast sty c then kwt "CAST" :: parens (s_node e ++ kwt "AS" :: s_type ty)
      else s_node e ++ sy DoubleColon "::" :: s_type ty
  | ENested e _ _ => parens (s_node e)
  | EUnary _ op e => s_op op ++ s_node e
  | EFunction name args _ over _ =>
      t_name name ++ parens (commas s_node args) ++
      match over with Some o => kwt "OVER" :: parens (s_winspec o) | None => [] end
  | ECase _ _ operand branches else_ =>
      kwt "CASE" :: match operand with Some o => s_node o | None => [] end ++
      List.concat (map (fun p => match p with (c, r) => kwt "WHEN" :: s_node c ++ kwt "THEN" :: s_node r end)
                       branches) ++
      match else_ with Some e => kwt "ELSE" :: s_node e | None => [] end ++ [kwt "END"]
  | EExists neg q _ _ _ => cond neg [kwt "NOT"] ++ kwt "EXISTS" :: parens (s_query q)
  | ESubQuery q _ _ => parens (s_query q)
  | ELong v => [num (lv_long v)]
  | EDouble _ _ f => [mkTok Number (VStr (format_float f)) pos0 pos0]
  | EString _ _ s => [mkTok SingleQuotedString (VStr s) pos0 pos0]
  | ENString _ _ s => [mkTok NationalStringLiteral (VStr s) pos0 pos0]
  | EBool _ _ v => [kwt (if v then "true" else "false")]
  | ENull _ _ => [kwt "NULL"]
  end
with s_winspec (s : winspec) : list token :=
  match s with
  | WinSpec pby oby frame _ _ =>
      list_of pby (kwt "PARTITION" :: kwt "BY" :: commas s_node pby) ++
      list_of oby (kwt "ORDER" :: kwt "BY" :: commas s_orderby oby) ++
      match frame with Some f => t_frame f | None => [] end
  end
with s_orderby (o : orderby) : list token :=
  match o with
  | OrderBy e _ asc =>
      s_node e ++ match asc with None => [] | Some true => [kwt "ASC"] | Some false => [kwt "DESC"] end
  end
with s_query (q : query) : list token :=
  match q with
  | Query _ ctes body oby lim =>
      list_of ctes (kwt "WITH" :: commas s_cte ctes) ++ s_setexpr body ++
      list_of oby (kwt "ORDER" :: kwt "BY" :: commas s_orderby oby) ++
      match lim with Some l => t_limit l | None => [] end
  end
with s_cte (c : cte) : list token :=
  match c with CTE alias q _ => idt alias :: kwt "AS" :: parens (s_query q) end
with s_setexpr (s : setexpr) : list token :=
  match s with
  | SSelect s => s_select s
  | SQuery _ _ q => parens (s_query q)
  | SSetOp op all l r => s_setexpr l ++ t_setop op :: cond all [kwt "ALL"] ++ s_setexpr r
  end
with s_select (s : select) : list token :=
  match s with
  | Select distinct proj from where_ gby having _ =>
      kwt "SELECT" :: cond distinct [kwt "DISTINCT"] ++ commas s_selitem proj ++
      list_of from (kwt "FROM" :: commas s_tableref from) ++
      match where_ with Some e => kwt "WHERE" :: s_node e | None => [] end ++
      list_of gby (kwt "GROUP" :: kwt "BY" :: commas s_node gby) ++
      match having with Some e => kwt "HAVING" :: s_node e | None => [] end
  end
with s_selitem (s : selitem) : list token :=
  match s with
  | SIUnnamed e => s_node e
  | SIAlias e a => s_node e ++ s_alias a
  | SIQualWildcard p => t_name p ++ [dot; star]
  | SIWildcard _ _ => [star]
  end
with s_tableref (t : tableref) : list token :=
  match t with
  | TRTable name alias args _ hints _ =>
      t_name name ++ list_of args (parens (commas s_node args)) ++
      match alias with Some a => s_alias a | None => [] end ++
      list_of hints (kwt "WITH" :: parens (commas s_node hints))
  | TRDerived lat _ _ _ q alias =>
      cond lat [kwt "LATERAL"] ++ parens (s_query q) ++
      match alias with Some a => s_alias a | None => [] end
  | TRCross r f => s_tableref r ++ kwt "CROSS" :: kwt "JOIN" :: s_tableref f
  | TRQualified l ty r spec =>
      s_tableref l ++ t_join (jt_cond ty) ++ kwt "JOIN" :: s_tableref r ++ s_joinspec spec
  | TRNatural l ty r => s_tableref l ++ kwt "NATURAL" :: t_join (jt_cond ty) ++ kwt "JOIN" :: s_tableref r
  end
with s_joinspec (s : joinspec) : list token :=
  match s with
  | JUsing l _ _ => kwt "USING" :: parens (t_ids l)
  | JOn e _ => kwt "ON" :: s_node e
  end.

Definition s_row (r : rowvalue) : list token := parens (commas s_node (row_values r)).
Definition s_source (s : insertsource) : list token :=
  match s with
  | ISSubQuery q => s_query q
  | ISConstructor _ rows => kwt "VALUES" :: commas s_row rows
  end.
Definition s_assign (a : assignment) : list token := idt (as_id a) :: sy Eq "=" :: s_node (as_value a).
Definition s_tcspec (s : tcspec) : list token :=
  match s with
  | TCUnique pk _ u _ cols =>
      (if pk then kws ["PRIMARY"; "KEY"]%string else kwt "UNIQUE" :: cond (w_key sty u) [kwt "KEY"]) ++ parens (t_ids cols)
  | TCReferential _ cols key =>
      kwt "FOREIGN" :: kwt "KEY" :: parens (t_ids cols) ++ kwt "REFERENCES" :: t_refkey key
  | TCCheck _ _ e => kwt "CHECK" :: parens (s_node e)
  end.
Definition s_tc (t : tableconstraint) : list token := t_cname (tc_name t) ++ s_tcspec (tc_spec t).
Definition s_ccspec (s : ccspec) : list token :=
  match s with
  | CCNotNull _ _ => kws ["NOT"; "NULL"]%string
  | CCUnique pk _ _ _ => if pk then kws ["PRIMARY"; "KEY"]%string else [kwt "UNIQUE"]
  | CCReferences _ _ t cols => kwt "REFERENCES" :: t_name t ++ parens (t_ids cols)
  | CCCheck e _ _ => kwt "CHECK" :: parens (s_node e)
  end.
Definition s_cc (c : colconstraint) : list token := t_cname (cc_name c) ++ s_ccspec (cc_spec c).
Definition s_default (c : columndef) : list token := opt (cd_default c) (fun e => kwt "DEFAULT" :: s_node e).
Definition s_increment (c : columndef) : list token := map (fun _ => kwt "AUTO_INCREMENT") (cd_decorations c).
Definition s_ccs (c : columndef) : list token := List.concat (map s_cc (cd_constraints c)).
(** What follows a column's type; what follows its DEFAULT. *)
Definition s_parts (c : columndef) : list token :=
  match w_order sty c with
  | DAC => s_default c ++ s_increment c ++ s_ccs c
  | DCA => s_default c ++ s_ccs c ++ s_increment c
  | ADC => s_increment c ++ s_default c ++ s_ccs c
  | ACD => s_increment c ++ s_ccs c ++ s_default c
  | CDA => s_ccs c ++ s_default c ++ s_increment c
  | CAD => s_ccs c ++ s_increment c ++ s_default c
  end.
Definition after_default (c : columndef) : list token :=
  match w_order sty c with
  | DAC => s_increment c ++ s_ccs c
  | DCA => s_ccs c ++ s_increment c
  | ADC => s_ccs c
  | CDA => s_increment c
  | ACD | CAD => []
  end.
Definition s_coldef (c : columndef) : list token := idt (cd_name c) :: s_type (cd_type c) ++ s_parts c.
Definition s_element (e : tableelement) : list token :=
  match e with TEColumn c => s_coldef c | TEConstraint c => s_tc c end.
Definition s_altercol (a : altercolaction) : list token :=
  match a with
  | ACSetDefault _ e => kwt "SET" :: kwt "DEFAULT" :: s_node e
  | ACDropDefault _ _ => kws ["DROP"; "DEFAULT"]%string
  | ACType _ t => kwt "TYPE" :: s_type t
  | ACSetNotNull _ _ => kws ["SET"; "NOT"; "NULL"]%string
  | ACDropNotNull _ _ => kws ["DROP"; "NOT"; "NULL"]%string
  end.
Definition s_altertable (a : altertableaction) : list token :=
  match a with
  | ATAddColumn _ c => kwt "ADD" :: kwt "COLUMN" :: s_coldef c
  | ATAlterColumn n _ a => kwt "ALTER" :: kwt "COLUMN" :: idt n :: s_altercol a
  | ATRemoveColumn n casc _ _ => kwt "DROP" :: kwt "COLUMN" :: idt n :: cond casc [kwt "CASCADE"]
  | ATAddConstraint _ c => kwt "ADD" :: s_tc c
  | ATDropConstraint n _ casc _ => kwt "DROP" :: kwt "CONSTRAINT" :: idt n :: cond casc [kwt "CASCADE"]
  end.
Definition s_where (o : option node) : list token := opt o (fun e => kwt "WHERE" :: s_node e).

Fixpoint s_stmt (s : stmt) : list token :=
  match s with
  | StQuery q => s_query q
  | StInsert _ t cols src ups =>
      kwt "INSERT" :: kwt "INTO" :: t_name t ++ list_of cols (parens (t_ids cols)) ++ s_source src ++
      list_of ups (kws ["ON"; "DUPLICATE"; "KEY"; "UPDATE"]%string ++ commas s_assign ups)
  | StUpdate _ t ass sel => kwt "UPDATE" :: t_name t ++ kwt "SET" :: commas s_assign ass ++ s_where sel
  | StDelete _ t sel => kwt "DELETE" :: kwt "FROM" :: t_name t ++ s_where sel
  | StCreateView _ n q m =>
      kwt "CREATE" :: cond m [kwt "MATERIALIZED"] ++ kwt "VIEW" :: t_name n ++ kwt "AS" :: s_query q
  | StCreateTable _ n els ne opts =>
      kwt "CREATE" :: kwt "TABLE" :: cond ne (kws ["IF"; "NOT"; "EXISTS"]%string) ++ t_name n ++
      list_of els (parens (commas s_element els)) ++ List.concat (map t_option opts)
  | StAlterTable _ t a => kwt "ALTER" :: kwt "TABLE" :: t_name t ++ s_altertable a
  | StDropTable ts casc _ ife _ =>
      kwt "DROP" :: kwt "TABLE" :: cond ife (kws ["IF"; "EXISTS"]%string) ++ commas t_name ts ++
      cond casc [kwt "CASCADE"]
  | StCreateIndex _ t u idx meth cols _ sel =>
      kwt "CREATE" :: cond u [kwt "UNIQUE"] ++ kwt "INDEX" :: opt idx (fun n => [idt n]) ++
      kwt "ON" :: t_name t ++ opt meth (fun n => [kwt "USING"; idt n]) ++
      list_of cols (parens (t_ids cols)) ++ s_where sel
  | StDropIndex _ ns => kwt "DROP" :: kwt "INDEX" :: t_ids ns
  | StExplain s _ => kwt "EXPLAIN" :: s_stmt s
  end.


(* ------------------------------------------------------------------ *)
(** ** Trees that can be written *)

(** Binding strength of the left end of the text. *)
Fixpoint s_lopen (e : node) : Z :=
  match e with
  | EBinary l o _ => Z.min (level (op_type o)) (s_lopen l)
  | EIsNull x | EIsNotNull x => Z.min is_level (s_lopen x)
  | EInList x _ n _ | EInSubQuery x _ n _ | EBetween x n _ _ => Z.min (in_level n) (s_lopen x)
  | ECast x _ c _ => if w_cast sty c then closed else Z.min cast_level (s_lopen x)
  | _ => closed
  end.
(** No infix NOT outside parentheses and right operands. *)
Fixpoint s_no_not (e : node) : bool :=
  match e with
  | EBinary l o _ => negb (match op_type o with ONotLike => true | _ => false end) && s_no_not l
  | EIsNull x | EIsNotNull x => s_no_not x
  | EInList x _ n _ | EInSubQuery x _ n _ | EBetween x n _ _ => negb n && s_no_not x
  | ECast x _ c _ => w_cast sty c || s_no_not x
  | _ => true
  end.
(** Not an infix form. *)
Definition s_atomic (e : node) : bool := s_lopen e =? closed.

Fixpoint s_selects_with (s : setexpr) : bool :=
  match s with
  | SSelect (Select distinct proj _ _ _ _ _) =>
      negb distinct && match proj with x :: _ => starts "WITH" (s_selitem x) | [] => false end
  | SQuery _ _ _ => false
  | SSetOp _ _ l _ => s_selects_with l
  end.
Definition s_sub_query (q : query) : bool :=
  match q with Query _ ctes body _ _ => nonempty ctes || (starts_select body && negb (s_selects_with body)) end.

Section Readable.
  Variable d : dialect.

  Definition ok_alias (words : list string) (a : ident) : bool :=
    wf_id d a && (w_as sty a || negb (existsb (is_word a) words)).

  Fixpoint ok_node (x : node) : bool :=
    match x with
    | EIdent i => wf_id d i && negb (word_in expr_words i)
    | EWildcard _ => true
    | EQualWildcard l => wf_ids d l && negb (first_in expr_words l)
    | ECompound l => wf_ids d l && negb (first_in expr_words l) && Nat.ltb 1 (List.length l)
    | EIsNull x | EIsNotNull x => ok_node x && (is_level <=? open_right x)
    | EInList e l neg _ =>
        ok_node e && (in_level neg <=? open_right e) && nonempty l && forallb ok_node l
        && negb (starts "SELECT" (commas s_node l)) && negb (starts "WITH" (commas s_node l))
    | EInSubQuery e q neg _ =>
        ok_node e && (in_level neg <=? open_right e) && ok_query q && s_sub_query q
    | EBetween e neg lo hi =>
        ok_node e && (in_level neg <=? open_right e) && ok_node lo && ok_node hi && s_atomic lo && s_atomic hi
    | EBinary l op r =>
        ok_node l && ok_node r
        && (match op_type op with ONot | ONone => false | _ => true end)
        && (level (op_type op) <=? open_right l) && (level (op_type op) <? s_lopen r)
    | ECast e ty c _ => ok_node e && wf_type d ty && (w_cast sty c || (cast_level <=? open_right e))
    | ENested e _ _ => ok_node e && negb (starts "SELECT" (s_node e)) && negb (starts "WITH" (s_node e))
    | EUnary _ op e =>
        ok_node e && (level (op_type op) <? s_lopen e)
        && match op_type op with
           | OPlus | OMinus => true
           | ONot => negb (starts "EXISTS" (s_node e))
           | _ => false
           end
    | EFunction name args _ over _ =>
        wf_on d name && negb (first_in expr_words (on_idents name)) && forallb ok_node args
        && match over with Some o => ok_winspec o | None => true end
    | ECase _ _ operand branches else_ =>
        match operand with Some o => ok_node o && negb (starts "WHEN" (s_node o)) | None => true end
        && nonempty branches && forallb (fun p => match p with (c, r) => ok_node c && ok_node r end) branches
        && match else_ with Some e => ok_node e | None => true end
    | EExists _ q _ _ _ => ok_query q
    | ESubQuery q _ _ => ok_query q && s_sub_query q
    | ELong v => wf_int (lv_long v)
    | EDouble _ _ f =>
        match parse_float (format_float f) with Some g => (fm g =? fm f) && (fe g =? fe f) | None => false end
        && existsb (fun c => c =? 46) (format_float f)
        && forallb (fun c => is_digit c || (c =? 46)) (format_float f)
        && match format_float f with c :: _ => is_digit c | [] => false end
    | EString _ _ s | ENString _ _ s => no_quote s
    | EBool _ _ _ | ENull _ _ => true
    end
  with ok_winspec (s : winspec) : bool :=
    match s with
    | WinSpec pby oby frame _ _ =>
        forallb ok_node pby && forallb ok_orderby oby && all_opt wf_wframe frame
    end
  with ok_orderby (o : orderby) : bool := match o with OrderBy e _ _ => ok_node e end
  with ok_query (q : query) : bool :=
    match q with
    | Query _ ctes body oby lim =>
        forallb ok_cte ctes && ok_setexpr body && forallb ok_orderby oby && all_opt wf_limit lim
        && (nonempty oby || negb (some lim) || negb (bare (set_end body)))
    end
  with ok_cte (c : cte) : bool := match c with CTE alias q _ => wf_id d alias && ok_query q end
  with ok_setexpr (s : setexpr) : bool :=
    match s with
    | SSelect s => ok_select s
    | SQuery _ _ q => ok_query q
    | SSetOp op _ l r =>
        ok_setexpr l && ok_setexpr r && (set_level op <=? set_top l) && (set_level op <? set_top r)
    end
  with ok_select (s : select) : bool :=
    match s with
    | Select distinct proj from where_ gby having _ =>
        nonempty proj && forallb ok_selitem proj && (distinct || negb (starts "DISTINCT" (commas s_selitem proj)))
        && forallb ok_tableref from
        && match where_ with Some e => ok_node e | None => true end
        && forallb ok_node gby
        && match having with Some e => ok_node e | None => true end
        && (negb (some having) || negb (bare (clauses_end proj from where_ gby)))
    end
  with ok_selitem (s : selitem) : bool :=
    match s with
    | SIUnnamed e => ok_node e && negb (match e with EQualWildcard _ => true | _ => false end)
    | SIAlias e a => ok_node e && negb (match e with EQualWildcard _ => true | _ => false end) && ok_alias column_words a
    | SIQualWildcard p => wf_on d p && negb (first_in expr_words (on_idents p))
    | SIWildcard _ _ => false
    end
  with ok_tableref (t : tableref) : bool :=
    match t with
    | TRTable name alias args _ hints _ =>
        wf_on d name && negb (starts "LATERAL" (t_name name)) && all_opt (ok_alias table_words) alias && negb (nonempty args)
        && forallb ok_node hints
    | TRDerived _ _ _ _ q alias => ok_query q && all_opt (ok_alias table_words) alias
    | TRCross r f => ok_tableref r && ok_tableref f && factor r && factor f
    | TRQualified l _ r spec => ok_tableref l && negb (natural l) && ok_tableref r && ok_joinspec spec
    | TRNatural l _ r => ok_tableref l && negb (natural l) && ok_tableref r
    end
  with ok_joinspec (s : joinspec) : bool :=
    match s with JUsing l _ _ => wf_ids d l | JOn e _ => ok_node e end.

  Definition ok_source (s : insertsource) : bool :=
    match s with
    | ISSubQuery q => ok_query q
    | ISConstructor _ rows =>
        nonempty rows && forallb (fun r => nonempty (row_values r) && forallb ok_node (row_values r)) rows
    end.
  Definition ok_assign (a : assignment) : bool := wf_id d (as_id a) && ok_node (as_value a).
  Definition ok_tcspec (s : tcspec) : bool :=
    match s with
    | TCUnique _ _ _ _ cols => wf_ids d cols
    | TCReferential _ cols key => wf_ids d cols && wf_id d (rk_table key) && forallb (wf_id d) (rk_columns key)
    | TCCheck _ _ e => ok_node e
    end.
  Definition ok_tc (t : tableconstraint) : bool := all_opt (wf_id d) (tc_name t) && ok_tcspec (tc_spec t).
  Definition ok_cc (c : colconstraint) : bool :=
    all_opt (wf_id d) (cc_name c) &&
    match cc_spec c with
    | CCNotNull _ _ | CCUnique _ _ _ _ => true
    | CCReferences _ _ t cols => wf_on d t && wf_ids d cols
    | CCCheck e _ _ => ok_node e
    end.
  (** The expression of DEFAULT must end where NOT follows. *)
  Definition ok_coldef (c : columndef) : bool :=
    wf_id d (cd_name c) && wf_type d (cd_type c)
    && all_opt (fun e => ok_node e && s_no_not e &&
                         ((level ONot <=? open_right e) || negb (starts "NOT" (after_default c))))
               (cd_default c)
    && forallb ok_cc (cd_constraints c).
  Definition ok_element (e : tableelement) : bool :=
    match e with
    | TEColumn c => ok_coldef c && negb (word_in element_words (cd_name c))
    | TEConstraint c => ok_tc c
    end.
  Definition ok_altercol (a : altercolaction) : bool :=
    match a with
    | ACSetDefault _ e => ok_node e && s_no_not e
    | ACType _ t => wf_type d t
    | _ => true
    end.
  Definition ok_altertable (a : altertableaction) : bool :=
    match a with
    | ATAddColumn _ c => ok_coldef c
    | ATAlterColumn n _ a => wf_id d n && ok_altercol a
    | ATAddConstraint _ c => ok_tc c
    | ATRemoveColumn n _ _ _ | ATDropConstraint n _ _ _ => wf_id d n
    end.
  Definition ok_where (o : option node) : bool := all_opt ok_node o.

  Fixpoint ok_stmt (s : stmt) : bool :=
    match s with
    | StQuery q => ok_query q && top_query q
    | StInsert _ t cols src ups =>
        wf_on d t && forallb (wf_id d) cols && ok_source src && forallb ok_assign ups
        && match src with
           | ISSubQuery q =>
               (nonempty cols || top_query q)
               && (negb (nonempty ups) || match query_end q with EndBareItem => false | _ => true end)
           | ISConstructor _ _ => true
           end
    | StUpdate _ t ass sel => wf_on d t && nonempty ass && forallb ok_assign ass && ok_where sel
    | StDelete _ t sel => wf_on d t && ok_where sel
    | StCreateView _ n q m => wf_on d n && ok_query q && negb m
    | StCreateTable _ n els _ opts =>
        wf_on d n && forallb ok_element els && forallb (wf_option d) opts
    | StAlterTable _ t a => wf_on d t && ok_altertable a
    | StDropTable ts _ _ _ _ => match ts with [t] => wf_on d t | _ => false end
    | StCreateIndex _ t _ idx meth cols _ sel =>
        wf_on d t && all_opt (fun i => wf_id d i && negb (starts "ON" [idt i])) idx && all_opt (wf_id d) meth
        && forallb (wf_id d) cols && ok_where sel
    | StDropIndex _ ns => wf_ids d ns
    | StExplain s _ => ok_stmt s
    end.
End Readable.

(** Statements, each closed by a semicolon. *)
Definition s_script (ss : list stmt) : list token := List.concat (map (fun s => s_stmt s ++ [semi]) ss).
End Spelling.
