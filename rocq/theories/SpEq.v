(** Unfolding equations of the written forms in a style. *)
From Coq Require Import ZArith List Bool String.
From Verif Require Import Base Dialect Token LexSpec AST Num Grammar Render Spell.
Import ListNotations.
Open Scope list_scope.
Open Scope Z_scope.

Section Style.
Context {sty : style}.

Lemma t_node_eq (x : node) :
  s_node x =
  (match x with
  | EIdent i => [idt i]
  | EWildcard _ => [star]
  | EQualWildcard l => t_dots l ++ [dot; star]
  | ECompound l => t_dots l
  | EIsNull x => s_node x ++ kws ["IS"; "NULL"]%string
  | EIsNotNull x => s_node x ++ kws ["IS"; "NOT"; "NULL"]%string
  | EInList e l neg _ => s_node e ++ cond neg [kwt "NOT"] ++ kwt "IN" :: parens (commas s_node l)
  | EInSubQuery e q neg _ => s_node e ++ cond neg [kwt "NOT"] ++ kwt "IN" :: parens (s_query q)
  | EBetween e neg lo hi =>
      s_node e ++ cond neg [kwt "NOT"] ++ kwt "BETWEEN" :: s_node lo ++ kwt "AND" :: s_node hi
  | EBinary l op r => s_node l ++ s_op op ++ s_node r
  | ECast e ty c _ =>
      if w_cast sty c then kwt "CAST" :: parens (s_node e ++ kwt "AS" :: s_type ty)
      else s_node e ++ sy DoubleColon "::" :: s_type ty
  | ENested e _ _ => parens (s_node e)
  | EUnary _ op e => s_op op ++ s_node e
  | EFunction name args _ over _ =>
      t_name name ++ parens (commas s_node args) ++
      match over with Some o => kwt "OVER" :: parens (s_winspec o) | None => [] end
  | ECase _ _ operand branches else_ =>
      kwt "CASE" :: match operand with Some o => s_node o | None => [] end ++
      List.concat (map (fun p => match p with (c, r) => kwt "WHEN" :: s_node c ++ kwt "THEN" :: s_node r end)
                       branches) ++
      match else_ with Some e => kwt "ELSE" :: s_node e | None => [] end ++ [kwt "END"]
  | EExists neg q _ _ _ => cond neg [kwt "NOT"] ++ kwt "EXISTS" :: parens (s_query q)
  | ESubQuery q _ _ => parens (s_query q)
  | ELong v => [num (lv_long v)]
  | EDouble _ _ f => [mkTok Number (VStr (format_float f)) pos0 pos0]
  | EString _ _ s => [mkTok SingleQuotedString (VStr s) pos0 pos0]
  | ENString _ _ s => [mkTok NationalStringLiteral (VStr s) pos0 pos0]
  | EBool _ _ v => [kwt (if v then "true" else "false")]
  | ENull _ _ => [kwt "NULL"]
  end).
Proof. destruct x; reflexivity. Qed.
Lemma t_winspec_eq (s : winspec) :
  s_winspec s =
  (match s with
  | WinSpec pby oby frame _ _ =>
      list_of pby (kwt "PARTITION" :: kwt "BY" :: commas s_node pby) ++
      list_of oby (kwt "ORDER" :: kwt "BY" :: commas s_orderby oby) ++
      match frame with Some f => t_frame f | None => [] end
  end).
Proof. destruct s; reflexivity. Qed.
Lemma t_orderby_eq (o : orderby) :
  s_orderby o =
  (match o with
  | OrderBy e _ asc =>
      s_node e ++ match asc with None => [] | Some true => [kwt "ASC"] | Some false => [kwt "DESC"] end
  end).
Proof. destruct o; reflexivity. Qed.
Lemma t_query_eq (q : query) :
  s_query q =
  (match q with
  | Query _ ctes body oby lim =>
      list_of ctes (kwt "WITH" :: commas s_cte ctes) ++ s_setexpr body ++
      list_of oby (kwt "ORDER" :: kwt "BY" :: commas s_orderby oby) ++
      match lim with Some l => t_limit l | None => [] end
  end).
Proof. destruct q; reflexivity. Qed.
Lemma t_cte_eq (c : cte) :
  s_cte c =
  (match c with CTE alias q _ => idt alias :: kwt "AS" :: parens (s_query q) end).
Proof. destruct c; reflexivity. Qed.
Lemma t_setexpr_eq (s : setexpr) :
  s_setexpr s =
  (match s with
  | SSelect s => s_select s
  | SQuery _ _ q => parens (s_query q)
  | SSetOp op all l r => s_setexpr l ++ t_setop op :: cond all [kwt "ALL"] ++ s_setexpr r
  end).
Proof. destruct s; reflexivity. Qed.
Lemma t_select_eq (s : select) :
  s_select s =
  (match s with
  | Select distinct proj from where_ gby having _ =>
      kwt "SELECT" :: cond distinct [kwt "DISTINCT"] ++ commas s_selitem proj ++
      list_of from (kwt "FROM" :: commas s_tableref from) ++
      match where_ with Some e => kwt "WHERE" :: s_node e | None => [] end ++
      list_of gby (kwt "GROUP" :: kwt "BY" :: commas s_node gby) ++
      match having with Some e => kwt "HAVING" :: s_node e | None => [] end
  end).
Proof. destruct s; reflexivity. Qed.
Lemma t_selitem_eq (s : selitem) :
  s_selitem s =
  (match s with
  | SIUnnamed e => s_node e
  | SIAlias e a => s_node e ++ s_alias a
  | SIQualWildcard p => t_name p ++ [dot; star]
  | SIWildcard _ _ => [star]
  end).
Proof. destruct s; reflexivity. Qed.
Lemma t_tableref_eq (t : tableref) :
  s_tableref t =
  (match t with
  | TRTable name alias args _ hints _ =>
      t_name name ++ list_of args (parens (commas s_node args)) ++
      match alias with Some a => s_alias a | None => [] end ++
      list_of hints (kwt "WITH" :: parens (commas s_node hints))
  | TRDerived lat _ _ _ q alias =>
      cond lat [kwt "LATERAL"] ++ parens (s_query q) ++
      match alias with Some a => s_alias a | None => [] end
  | TRCross r f => s_tableref r ++ kwt "CROSS" :: kwt "JOIN" :: s_tableref f
  | TRQualified l ty r spec =>
      s_tableref l ++ t_join (jt_cond ty) ++ kwt "JOIN" :: s_tableref r ++ s_joinspec spec
  | TRNatural l ty r => s_tableref l ++ kwt "NATURAL" :: t_join (jt_cond ty) ++ kwt "JOIN" :: s_tableref r
  end).
Proof. destruct t; reflexivity. Qed.
Lemma t_joinspec_eq (s : joinspec) :
  s_joinspec s =
  (match s with
  | JUsing l _ _ => kwt "USING" :: parens (t_ids l)
  | JOn e _ => kwt "ON" :: s_node e
  end).
Proof. destruct s; reflexivity. Qed.

Section Eqs.
  Variable d : dialect.
  Notation ok_node := (Spell.ok_node d).
  Notation ok_winspec := (Spell.ok_winspec d).
  Notation ok_orderby := (Spell.ok_orderby d).
  Notation ok_query := (Spell.ok_query d).
  Notation ok_cte := (Spell.ok_cte d).
  Notation ok_setexpr := (Spell.ok_setexpr d).
  Notation ok_select := (Spell.ok_select d).
  Notation ok_selitem := (Spell.ok_selitem d).
  Notation ok_tableref := (Spell.ok_tableref d).
  Notation ok_joinspec := (Spell.ok_joinspec d).
  Notation ok_alias := (Spell.ok_alias d).
  Lemma wf_node_eq (x : node) :
    ok_node x =
    (match x with
    | EIdent i => wf_id d i && negb (word_in expr_words i)
    | EWildcard _ => true
    | EQualWildcard l => wf_ids d l && negb (first_in expr_words l)
    | ECompound l => wf_ids d l && negb (first_in expr_words l) && Nat.ltb 1 (List.length l)
    | EIsNull x | EIsNotNull x => ok_node x && (is_level <=? open_right x)
    | EInList e l neg _ =>
        ok_node e && (in_level neg <=? open_right e) && nonempty l && forallb ok_node l
        && negb (starts "SELECT" (commas s_node l)) && negb (starts "WITH" (commas s_node l))
    | EInSubQuery e q neg _ =>
        ok_node e && (in_level neg <=? open_right e) && ok_query q && s_sub_query q
    | EBetween e neg lo hi =>
        ok_node e && (in_level neg <=? open_right e) && ok_node lo && ok_node hi && s_atomic lo && s_atomic hi
    | EBinary l op r =>
        ok_node l && ok_node r
        && (match op_type op with ONot | ONone => false | _ => true end)
        && (level (op_type op) <=? open_right l) && (level (op_type op) <? s_lopen r)
    | ECast e ty c _ => ok_node e && wf_type d ty && (w_cast sty c || (cast_level <=? open_right e))
    | ENested e _ _ => ok_node e && negb (starts "SELECT" (s_node e)) && negb (starts "WITH" (s_node e))
    | EUnary _ op e =>
        ok_node e && (level (op_type op) <? s_lopen e)
        && match op_type op with
           | OPlus | OMinus => true
           | ONot => negb (starts "EXISTS" (s_node e))
           | _ => false
           end
    | EFunction name args _ over _ =>
        wf_on d name && negb (first_in expr_words (on_idents name)) && forallb ok_node args
        && match over with Some o => ok_winspec o | None => true end
    | ECase _ _ operand branches else_ =>
        match operand with Some o => ok_node o && negb (starts "WHEN" (s_node o)) | None => true end
        && nonempty branches && forallb (fun p => match p with (c, r) => ok_node c && ok_node r end) branches
        && match else_ with Some e => ok_node e | None => true end
    | EExists _ q _ _ _ => ok_query q
    | ESubQuery q _ _ => ok_query q && s_sub_query q
    | ELong v => wf_int (lv_long v)
    | EDouble _ _ f =>
        match parse_float (format_float f) with Some g => (fm g =? fm f) && (fe g =? fe f) | None => false end
        && existsb (fun c => c =? 46) (format_float f)
        && forallb (fun c => is_digit c || (c =? 46)) (format_float f)
        && match format_float f with c :: _ => is_digit c | [] => false end
    | EString _ _ s | ENString _ _ s => no_quote s
    | EBool _ _ _ | ENull _ _ => true
    end).
  Proof. destruct x; reflexivity. Qed.
  Lemma wf_winspec_eq (s : winspec) :
    ok_winspec s =
    (match s with
    | WinSpec pby oby frame _ _ =>
        forallb ok_node pby && forallb ok_orderby oby && all_opt wf_wframe frame
    end).
  Proof. destruct s; reflexivity. Qed.
  Lemma wf_orderby_eq (o : orderby) :
    ok_orderby o =
    (match o with OrderBy e _ _ => ok_node e end).
  Proof. destruct o; reflexivity. Qed.
  Lemma wf_query_eq (q : query) :
    ok_query q =
    (match q with
    | Query _ ctes body oby lim =>
        forallb ok_cte ctes && ok_setexpr body && forallb ok_orderby oby && all_opt wf_limit lim
        && (nonempty oby || negb (some lim) || negb (bare (set_end body)))
    end).
  Proof. destruct q; reflexivity. Qed.
  Lemma wf_cte_eq (c : cte) :
    ok_cte c =
    (match c with CTE alias q _ => wf_id d alias && ok_query q end).
  Proof. destruct c; reflexivity. Qed.
  Lemma wf_setexpr_eq (s : setexpr) :
    ok_setexpr s =
    (match s with
    | SSelect s => ok_select s
    | SQuery _ _ q => ok_query q
    | SSetOp op _ l r =>
        ok_setexpr l && ok_setexpr r && (set_level op <=? set_top l) && (set_level op <? set_top r)
    end).
  Proof. destruct s; reflexivity. Qed.
  Lemma wf_select_eq (s : select) :
    ok_select s =
    (match s with
    | Select distinct proj from where_ gby having _ =>
        nonempty proj && forallb ok_selitem proj && (distinct || negb (starts "DISTINCT" (commas s_selitem proj)))
        && forallb ok_tableref from
        && match where_ with Some e => ok_node e | None => true end
        && forallb ok_node gby
        && match having with Some e => ok_node e | None => true end
        && (negb (some having) || negb (bare (clauses_end proj from where_ gby)))
    end).
  Proof. destruct s; reflexivity. Qed.
  Lemma wf_selitem_eq (s : selitem) :
    ok_selitem s =
    (match s with
    | SIUnnamed e => ok_node e && negb (match e with EQualWildcard _ => true | _ => false end)
    | SIAlias e a => ok_node e && negb (match e with EQualWildcard _ => true | _ => false end) && ok_alias column_words a
    | SIQualWildcard p => wf_on d p && negb (first_in expr_words (on_idents p))
    | SIWildcard _ _ => false
    end).
  Proof. destruct s; reflexivity. Qed.
  Lemma wf_tableref_eq (t : tableref) :
    ok_tableref t =
    (match t with
    | TRTable name alias args _ hints _ =>
        wf_on d name && negb (starts "LATERAL" (t_name name)) && all_opt (ok_alias table_words) alias && negb (nonempty args)
        && forallb ok_node hints
    | TRDerived _ _ _ _ q alias => ok_query q && all_opt (ok_alias table_words) alias
    | TRCross r f => ok_tableref r && ok_tableref f && factor r && factor f
    | TRQualified l _ r spec => ok_tableref l && negb (natural l) && ok_tableref r && ok_joinspec spec
    | TRNatural l _ r => ok_tableref l && negb (natural l) && ok_tableref r
    end).
  Proof. destruct t; reflexivity. Qed.
  Lemma wf_joinspec_eq (s : joinspec) :
    ok_joinspec s =
    (match s with JUsing l _ _ => wf_ids d l | JOn e _ => ok_node e end).
  Proof. destruct s; reflexivity. Qed.
End Eqs.
End Style.
