(** Unfolding equations of the written forms. *)
From Coq Require Import ZArith List Bool String.
From Verif Require Import Base Dialect Token LexSpec AST Num Grammar Printer Render.
Import ListNotations.
Open Scope list_scope.
Open Scope Z_scope.

Lemma t_node_eq (x : node) :
  t_node x =
  (match x with
  | EIdent i => [idt i]
  | EWildcard _ => [star]
  | EQualWildcard l => t_dots l ++ [dot; star]
  | ECompound l => t_dots l
  | EIsNull x => t_node x ++ kws ["IS"; "NULL"]%string
  | EIsNotNull x => t_node x ++ kws ["IS"; "NOT"; "NULL"]%string
  | EInList e l neg _ => t_node e ++ cond neg [kwt "NOT"] ++ kwt "IN" :: parens (commas t_node l)
  | EInSubQuery e q neg _ => t_node e ++ cond neg [kwt "NOT"] ++ kwt "IN" :: parens (t_query q)
  | EBetween e neg lo hi =>
      t_node e ++ cond neg [kwt "NOT"] ++ kwt "BETWEEN" :: t_node lo ++ kwt "AND" :: t_node hi
  | EBinary l op r => t_node l ++ t_op (op_type op) ++ t_node r
  | ECast e ty _ _ => kwt "CAST" :: parens (t_node e ++ kwt "AS" :: t_type ty)
  | ENested e _ _ => parens (t_node e)
  | EUnary _ op e => t_op (op_type op) ++ t_node e
  | EFunction name args _ over _ =>
      t_name name ++ parens (commas t_node args) ++
      match over with Some o => kwt "OVER" :: parens (t_winspec o) | None => [] end
  | ECase _ _ operand branches else_ =>
      kwt "CASE" :: match operand with Some o => t_node o | None => [] end ++
      List.concat (map (fun p => match p with (c, r) => kwt "WHEN" :: t_node c ++ kwt "THEN" :: t_node r end)
                       branches) ++
      match else_ with Some e => kwt "ELSE" :: t_node e | None => [] end ++ [kwt "END"]
  | EExists neg q _ _ _ => cond neg [kwt "NOT"] ++ kwt "EXISTS" :: parens (t_query q)
  | ESubQuery q _ _ => parens (t_query q)
  | ELong v => [num (lv_long v)]
  | EDouble _ _ f => [mkTok Number (VStr (format_float f)) pos0 pos0]
  | EString _ _ s => [mkTok SingleQuotedString (VStr s) pos0 pos0]
  | ENString _ _ s => [mkTok NationalStringLiteral (VStr s) pos0 pos0]
  | EBool _ _ v => [kwt (if v then "true" else "false")]
  | ENull _ _ => [kwt "NULL"]
  end).
Proof. destruct x; reflexivity. Qed.
Lemma t_winspec_eq (s : winspec) :
  t_winspec s =
  (match s with
  | WinSpec pby oby frame _ _ =>
      list_of pby (kwt "PARTITION" :: kwt "BY" :: commas t_node pby) ++
      list_of oby (kwt "ORDER" :: kwt "BY" :: commas t_orderby oby) ++
      match frame with Some f => t_frame f | None => [] end
  end).
Proof. destruct s; reflexivity. Qed.
Lemma t_orderby_eq (o : orderby) :
  t_orderby o =
  (match o with
  | OrderBy e _ asc =>
      t_node e ++ match asc with None => [] | Some true => [kwt "ASC"] | Some false => [kwt "DESC"] end
  end).
Proof. destruct o; reflexivity. Qed.
Lemma t_query_eq (q : query) :
  t_query q =
  (match q with
  | Query _ ctes body oby lim =>
      list_of ctes (kwt "WITH" :: commas t_cte ctes) ++ t_setexpr body ++
      list_of oby (kwt "ORDER" :: kwt "BY" :: commas t_orderby oby) ++
      match lim with Some l => t_limit l | None => [] end
  end).
Proof. destruct q; reflexivity. Qed.
Lemma t_cte_eq (c : cte) :
  t_cte c =
  (match c with CTE alias q _ => idt alias :: kwt "AS" :: parens (t_query q) end).
Proof. destruct c; reflexivity. Qed.
Lemma t_setexpr_eq (s : setexpr) :
  t_setexpr s =
  (match s with
  | SSelect s => t_select s
  | SQuery _ _ q => parens (t_query q)
  | SSetOp op all l r => t_setexpr l ++ t_setop op :: cond all [kwt "ALL"] ++ t_setexpr r
  end).
Proof. destruct s; reflexivity. Qed.
Lemma t_select_eq (s : select) :
  t_select s =
  (match s with
  | Select distinct proj from where_ gby having _ =>
      kwt "SELECT" :: cond distinct [kwt "DISTINCT"] ++ commas t_selitem proj ++
      list_of from (kwt "FROM" :: commas t_tableref from) ++
      match where_ with Some e => kwt "WHERE" :: t_node e | None => [] end ++
      list_of gby (kwt "GROUP" :: kwt "BY" :: commas t_node gby) ++
      match having with Some e => kwt "HAVING" :: t_node e | None => [] end
  end).
Proof. destruct s; reflexivity. Qed.
Lemma t_selitem_eq (s : selitem) :
  t_selitem s =
  (match s with
  | SIUnnamed e => t_node e
  | SIAlias e a => t_node e ++ [kwt "AS"; idt a]
  | SIQualWildcard p => t_name p ++ [dot; star]
  | SIWildcard _ _ => [star]
  end).
Proof. destruct s; reflexivity. Qed.
Lemma t_tableref_eq (t : tableref) :
  t_tableref t =
  (match t with
  | TRTable name alias args _ hints _ =>
      t_name name ++ list_of args (parens (commas t_node args)) ++
      match alias with Some a => [kwt "AS"; idt a] | None => [] end ++
      list_of hints (kwt "WITH" :: parens (commas t_node hints))
  | TRDerived lat _ _ _ q alias =>
      cond lat [kwt "LATERAL"] ++ parens (t_query q) ++
      match alias with Some a => [kwt "AS"; idt a] | None => [] end
  | TRCross r f => t_tableref r ++ kwt "CROSS" :: kwt "JOIN" :: t_tableref f
  | TRQualified l ty r spec =>
      t_tableref l ++ t_join (jt_cond ty) ++ kwt "JOIN" :: t_tableref r ++ t_joinspec spec
  | TRNatural l ty r => t_tableref l ++ kwt "NATURAL" :: t_join (jt_cond ty) ++ kwt "JOIN" :: t_tableref r
  end).
Proof. destruct t; reflexivity. Qed.
Lemma t_joinspec_eq (s : joinspec) :
  t_joinspec s =
  (match s with
  | JUsing l _ _ => kwt "USING" :: parens (t_ids l)
  | JOn e _ => kwt "ON" :: t_node e
  end).
Proof. destruct s; reflexivity. Qed.

Section Eqs.
  Variable d : dialect.
  Notation wf_id := (Render.wf_id d).
  Notation wf_ids := (Render.wf_ids d).
  Notation wf_on := (Render.wf_on d).
  Notation wf_type := (Render.wf_type d).
  Notation wf_node := (Render.wf_node d).
  Notation wf_winspec := (Render.wf_winspec d).
  Notation wf_orderby := (Render.wf_orderby d).
  Notation wf_query := (Render.wf_query d).
  Notation wf_cte := (Render.wf_cte d).
  Notation wf_setexpr := (Render.wf_setexpr d).
  Notation wf_select := (Render.wf_select d).
  Notation wf_selitem := (Render.wf_selitem d).
  Notation wf_tableref := (Render.wf_tableref d).
  Notation wf_joinspec := (Render.wf_joinspec d).
  Lemma wf_node_eq (x : node) :
    wf_node x =
    (match x with
    | EIdent i => wf_id i && negb (word_in expr_words i)
    | EWildcard _ => true
    | EQualWildcard l => wf_ids l && negb (first_in expr_words l)
    | ECompound l => wf_ids l && negb (first_in expr_words l) && Nat.ltb 1 (List.length l)
    | EIsNull x | EIsNotNull x => wf_node x && (is_level <=? open_right x)
    | EInList e l neg _ =>
        wf_node e && (in_level neg <=? open_right e) && nonempty l && forallb wf_node l
        && negb (starts "SELECT" (commas t_node l)) && negb (starts "WITH" (commas t_node l))
    | EInSubQuery e q neg _ =>
        wf_node e && (in_level neg <=? open_right e) && wf_query q && sub_query q
    | EBetween e neg lo hi =>
        wf_node e && (in_level neg <=? open_right e) && wf_node lo && wf_node hi && atomic lo && atomic hi
    | EBinary l op r =>
        wf_node l && wf_node r
        && (match op_type op with ONot | ONone => false | _ => true end)
        && (level (op_type op) <=? open_right l) && (level (op_type op) <? lopen r)
    | ECast e ty _ _ => wf_node e && wf_type ty
    | ENested e _ _ => wf_node e && negb (starts "SELECT" (t_node e)) && negb (starts "WITH" (t_node e))
    | EUnary _ op e =>
        wf_node e && (level (op_type op) <? lopen e)
        && match op_type op with
           | OPlus | OMinus => true
           | ONot => negb (starts "EXISTS" (t_node e))
           | _ => false
           end
    | EFunction name args _ over _ =>
        wf_on name && negb (first_in expr_words (on_idents name)) && forallb wf_node args
        && match over with Some o => wf_winspec o | None => true end
    | ECase _ _ operand branches else_ =>
        match operand with Some o => wf_node o && negb (starts "WHEN" (t_node o)) | None => true end
        && nonempty branches && forallb (fun p => match p with (c, r) => wf_node c && wf_node r end) branches
        && match else_ with Some e => wf_node e | None => true end
    | EExists _ q _ _ _ => wf_query q
    | ESubQuery q _ _ => wf_query q && sub_query q
    | ELong v => wf_int (lv_long v)
    | EDouble _ _ f =>
        match parse_float (format_float f) with Some g => (fm g =? fm f) && (fe g =? fe f) | None => false end
        && existsb (fun c => c =? 46) (format_float f)
        && forallb (fun c => is_digit c || (c =? 46)) (format_float f)
        && match format_float f with c :: _ => is_digit c | [] => false end
    | EString _ _ s | ENString _ _ s => no_quote s
    | EBool _ _ _ | ENull _ _ => true
    end).
  Proof. destruct x; reflexivity. Qed.
  Lemma wf_winspec_eq (s : winspec) :
    wf_winspec s =
    (match s with
    | WinSpec pby oby frame _ _ =>
        forallb wf_node pby && forallb wf_orderby oby && all_opt wf_wframe frame
    end).
  Proof. destruct s; reflexivity. Qed.
  Lemma wf_orderby_eq (o : orderby) :
    wf_orderby o =
    (match o with OrderBy e _ _ => wf_node e end).
  Proof. destruct o; reflexivity. Qed.
  Lemma wf_query_eq (q : query) :
    wf_query q =
    (match q with
    | Query _ ctes body oby lim =>
        forallb wf_cte ctes && wf_setexpr body && forallb wf_orderby oby && all_opt wf_limit lim
        && (nonempty oby || negb (some lim) || negb (bare (set_end body)))
    end).
  Proof. destruct q; reflexivity. Qed.
  Lemma wf_cte_eq (c : cte) :
    wf_cte c =
    (match c with CTE alias q _ => wf_id alias && wf_query q end).
  Proof. destruct c; reflexivity. Qed.
  Lemma wf_setexpr_eq (s : setexpr) :
    wf_setexpr s =
    (match s with
    | SSelect s => wf_select s
    | SQuery _ _ q => wf_query q
    | SSetOp op _ l r =>
        wf_setexpr l && wf_setexpr r && (set_level op <=? set_top l) && (set_level op <? set_top r)
    end).
  Proof. destruct s; reflexivity. Qed.
  Lemma wf_select_eq (s : select) :
    wf_select s =
    (match s with
    | Select distinct proj from where_ gby having _ =>
        nonempty proj && forallb wf_selitem proj && (distinct || negb (starts "DISTINCT" (commas t_selitem proj)))
        && forallb wf_tableref from
        && match where_ with Some e => wf_node e | None => true end
        && forallb wf_node gby
        && match having with Some e => wf_node e | None => true end
        && (negb (some having) || negb (bare (clauses_end proj from where_ gby)))
    end).
  Proof. destruct s; reflexivity. Qed.
  Lemma wf_selitem_eq (s : selitem) :
    wf_selitem s =
    (match s with
    | SIUnnamed e => wf_node e && negb (match e with EQualWildcard _ => true | _ => false end)
    | SIAlias e a => wf_node e && negb (match e with EQualWildcard _ => true | _ => false end) && wf_id a
    | SIQualWildcard p => wf_on p && negb (first_in expr_words (on_idents p))
    | SIWildcard _ _ => false
    end).
  Proof. destruct s; reflexivity. Qed.
  Lemma wf_tableref_eq (t : tableref) :
    wf_tableref t =
    (match t with
    | TRTable name alias args _ hints _ =>
        wf_on name && negb (starts "LATERAL" (t_name name)) && all_opt wf_id alias && negb (nonempty args)
        && forallb wf_node hints
    | TRDerived _ _ _ _ q alias => wf_query q && all_opt wf_id alias
    | TRCross r f => wf_tableref r && wf_tableref f && factor r && factor f
    | TRQualified l _ r spec => wf_tableref l && negb (natural l) && wf_tableref r && wf_joinspec spec
    | TRNatural l _ r => wf_tableref l && negb (natural l) && wf_tableref r
    end).
  Proof. destruct t; reflexivity. Qed.
  Lemma wf_joinspec_eq (s : joinspec) :
    wf_joinspec s =
    (match s with JUsing l _ _ => wf_ids l | JOn e _ => wf_node e end).
  Proof. destruct s; reflexivity. Qed.
End Eqs.

(** The printer. *)
Lemma wt_node_eq (x : node) :
  wt_node x =
  (match x with
  | EIdent i => wt_ident i
  | EWildcard _ => WSingle (gs "*")
  | EQualWildcard l => WSw (widents "." l ++ [wl ".*"])
  | ECompound l => WSw (widents "." l)
  | EIsNull x => WSw [WN (wt_node x); wl " IS NULL"]
  | EIsNotNull x => WSw [WN (wt_node x); wl " IS NOT NULL"]
  | EInList e l neg _ =>
      WSw ([WN (wt_node e); wl " "] ++ wif neg "NOT " ++ [wl "IN "; wl "("]
           ++ wcomma (map wt_node l) ++ [wl ")"])
  | EInSubQuery e q neg _ =>
      WSw ([WN (wt_node e); wl " "] ++ wif neg "NOT "
           ++ [wl "IN "; wl "("; WN (wt_query q); wl ")"])
  | EBetween e neg lo hi =>
      WSw ([WN (wt_node e); wl " "] ++ wif neg "NOT "
           ++ [wl "BETWEEN "; WN (wt_node lo); wl " AND "; WN (wt_node hi)])
  | EBinary l op r =>
      WSw [WN (wt_node l); wl " "; WN (wt_operator op); wl " "; WN (wt_node r)]
  | ECast e ty _ _ =>
      WSw [wl "CAST"; wl "("; WN (wt_node e); wl " AS "; WN (wt_dtype ty); wl ")"]
  | ENested e _ _ => WSw [wl "("; WN (wt_node e); wl ")"]
  | EUnary _ op e => WSw [WN (wt_operator op); wl " "; WN (wt_node e)]
  | EFunction name args _ over _ =>
      WSw ([WN (wt_objname name); wl "("] ++ wcomma (map wt_node args) ++ [wl ")"]
           ++ match over with
              | None => []
              | Some o => [wl " OVER "; wl "("; WN (wt_winspec o); wl ")"]
              end)
  | ECase _ _ operand branches else_ =>
      WSw ([wl "CASE"]
           ++ match operand with None => [] | Some o => [wl " "; WN (wt_node o)] end
           ++ List.concat (map (fun p => match p with
                                    | (c, r) => [wl " WHEN "; WN (wt_node c);
                                                 wl " THEN "; WN (wt_node r)]
                                    end) branches)
           ++ match else_ with None => [] | Some e => [wl " ELSE "; WN (wt_node e)] end
           ++ [wl " END"])
  | EExists neg q _ _ _ =>
      WSw (wif neg "NOT " ++ [wl "EXISTS "; wl "("; WN (wt_query q); wl ")"])
  | ESubQuery q _ _ => WSw [wl "("; WN (wt_query q); wl ")"]
  | ELong v => wt_long v
  | EDouble _ _ d => WSingle (format_float d)
  | EString _ _ s => WSeq [gs "'"; s; gs "'"]
  | ENString _ _ s => WSeq [gs "N'"; s; gs "'"]
  | EBool _ _ v => WSingle (if v then gs "true" else gs "false")
  | ENull _ _ => WSingle (gs "NULL")
  end).
Proof. destruct x; reflexivity. Qed.
Lemma wt_winspec_eq (s : winspec) :
  wt_winspec s =
  (match s with
  | WinSpec pby oby frame _ _ =>
      WSw ((if is_nil pby then [] else wl "PARTITION BY " :: wcomma (map wt_node pby))
           ++ (if is_nil oby then []
               else (if is_nil pby then [] else [wl " "])
                    ++ wl "ORDER BY " :: wcomma (map wt_orderby oby))
           ++ match frame with
              | None => []
              | Some f => (if is_nil pby && is_nil oby then [] else [wl " "])
                          ++ [WN (wt_wframe f)]
              end)
  end).
Proof. destruct s; reflexivity. Qed.
Lemma wt_orderby_eq (o : orderby) :
  wt_orderby o =
  (match o with
  | OrderBy e _ asc =>
      WSw ([WN (wt_node e)]
           ++ match asc with None => [] | Some true => [wl " ASC"] | Some false => [wl " DESC"] end)
  end).
Proof. destruct o; reflexivity. Qed.
Lemma wt_query_eq (q : query) :
  wt_query q =
  (match q with
  | Query _ ctes body oby lim =>
      WSw ((if is_nil ctes then [] else wl "WITH " :: wcomma (map wt_cte ctes) ++ [wl " "])
           ++ [WN (wt_setexpr body)]
           ++ (if is_nil oby then [] else wl " ORDER BY " :: wcomma (map wt_orderby oby))
           ++ match lim with None => [] | Some l => [wl " "; WN (wt_limit l)] end)
  end).
Proof. destruct q; reflexivity. Qed.
Lemma wt_cte_eq (c : cte) :
  wt_cte c =
  (match c with
  | CTE alias q _ => WSw [WN (wt_ident alias); wl " AS "; wl "("; WN (wt_query q); wl ")"]
  end).
Proof. destruct c; reflexivity. Qed.
Lemma wt_setexpr_eq (s : setexpr) :
  wt_setexpr s =
  (match s with
  | SSelect s => wt_select s
  | SQuery _ _ q => WSw [wl "("; WN (wt_query q); wl ")"]
  | SSetOp op all l r =>
      WSw ([WN (wt_setexpr l); wl " "; WN (wt_setop op)] ++ wif all " ALL"
           ++ [wl " "; WN (wt_setexpr r)])
  end).
Proof. destruct s; reflexivity. Qed.
Lemma wt_select_eq (s : select) :
  wt_select s =
  (match s with
  | Select distinct proj from where_ gby having _ =>
      WSw ([wl "SELECT "] ++ wif distinct "DISTINCT "
           ++ wcomma (map wt_selitem proj)
           ++ (if is_nil from then [] else wl " FROM " :: wcomma (map wt_tableref from))
           ++ match where_ with None => [] | Some e => [wl " WHERE "; WN (wt_node e)] end
           ++ (if is_nil gby then [] else wl " GROUP BY " :: wcomma (map wt_node gby))
           ++ match having with None => [] | Some e => [wl " HAVING "; WN (wt_node e)] end)
  end).
Proof. destruct s; reflexivity. Qed.
Lemma wt_selitem_eq (s : selitem) :
  wt_selitem s =
  (match s with
  | SIUnnamed e => wt_node e
  | SIAlias e a => WSw [WN (wt_node e); wl " AS "; WN (wt_ident a)]
  | SIQualWildcard p => WSw [WN (wt_objname p); wl ".*"]
  | SIWildcard _ _ => WSingle (gs "*")
  end).
Proof. destruct s; reflexivity. Qed.
Lemma wt_tableref_eq (t : tableref) :
  wt_tableref t =
  (match t with
  | TRTable name alias args _ hints _ =>
      WSw ([WN (wt_objname name)]
           ++ (if is_nil args then [] else wl "(" :: wcomma (map wt_node args) ++ [wl ")"])
           ++ match alias with None => [] | Some a => [wl " AS "; WN (wt_ident a)] end
           ++ (if is_nil hints then []
               else wl " WITH " :: wl "(" :: wcomma (map wt_node hints) ++ [wl ")"]))
  | TRDerived lat _ _ _ q alias =>
      WSw (wif lat "LATERAL " ++ [wl "("; WN (wt_query q); wl ")"]
           ++ match alias with None => [] | Some a => [wl " AS "; WN (wt_ident a)] end)
  | TRCross r f => WSw [WN (wt_tableref r); wl " CROSS JOIN "; WN (wt_tableref f)]
  | TRQualified l ty r spec =>
      WSw [WN (wt_tableref l); wl " "; WN (wt_jointype ty); wl "JOIN ";
           WN (wt_tableref r); wl " "; WN (wt_joinspec spec)]
  | TRNatural l ty r =>
      WSw [WN (wt_tableref l); wl " NATURAL "; WN (wt_jointype ty); wl "JOIN ";
           WN (wt_tableref r)]
  end).
Proof. destruct t; reflexivity. Qed.
Lemma wt_joinspec_eq (s : joinspec) :
  wt_joinspec s =
  (match s with
  | JUsing l _ _ => WSw ([wl "USING "; wl "("] ++ widents ", " l ++ [wl ")"])
  | JOn e _ => WSw [wl "ON "; WN (wt_node e)]
  end).
Proof. destruct s; reflexivity. Qed.
