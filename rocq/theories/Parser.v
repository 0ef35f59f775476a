(** Model of parser.go, function by function.

    Go functions that call each other recursively get a record [rec] with the
    recursive entry points; [knot] ties them with fuel. *)
From Coq Require Import ZArith List Bool String.
From Verif Require Import Base Dialect Token Lexer AST Num Prog.
Import ListNotations.
Open Scope Z_scope.

(** Recursive entry points: ParseStatement, parseQuery, parseQueryBody,
    parseSubexpr, parseTableReference; and the loop fuel. *)
Record rec := mkRec {
  r_fuel : nat;
  r_stmt : prog stmt;
  r_query : prog query;
  r_body : Z -> prog setexpr;
  r_subexpr : Z -> prog node;
  r_tref : prog tableref }.

(* ------------------------------------------------------------------ *)
(** ** Token helpers *)

(** parser.go:2911-2918. *)
Definition must_next : prog token :=
  Next (fun o => match o with Some t => Ret t | None => Panic PLog end).
(** tok, _ := p.nextToken() followed by a use of tok. *)
Definition next_nn : prog token :=
  Next (fun o => match o with Some t => Ret t | None => Panic PNil end).
(** tok, err := p.nextToken(); if err != nil return err. *)
Definition next_err : prog token :=
  Next (fun o => match o with Some t => Ret t | None => Err end).
(** tok, _ := p.peekToken() followed by a use of tok. *)
Definition peek_nn : prog token :=
  Peek (fun o => match o with Some t => Ret t | None => Panic PNil end).
Definition peek : prog (option token) := Peek Ret.
(** parser.go:3038-3046. *)
Definition prev : prog unit := Prev (Ret tt).

(** tok.Value.( *sqltoken.SQLWord ) with a panic on failure. *)
Definition word_of (t : token) : prog sqlword :=
  match tval t with VWord w => Ret w | VStr _ => Panic PAssert end.
(** tok.Value.(string). *)
Definition str_of (t : token) : prog gostring :=
  match tval t with VStr s => Ret s | VWord _ => Panic PAssert end.

(** case "...": a comparison of word.Keyword. *)
Definition kw (w : sqlword) (s : string) : bool := gs_eqb (wkeyword w) (gs s).
Definition is_kind (k : kind) (t : token) : bool := kind_eqb (tkind t) k.

(** parser.go:3095-3111.  The token is nil on EOF. *)
Inductive kwres := KwYes (t : token) | KwNo (t : token) | KwEOF.
Definition parse_keyword (s : string) : prog kwres :=
  Peek (fun o =>
    match o with
    | None => Ret KwEOF
    | Some t => if is_kw (gs s) t then must_next ;;; Ret (KwYes t) else Ret (KwNo t)
    end).
(** if ok, _, _ := p.parseKeyword(s); ok. *)
Definition kw_ok (s : string) : prog bool :=
  r <- parse_keyword s ;; Ret (match r with KwYes _ => true | _ => false end).
(** ok, tok, _ := p.parseKeyword(s), tok used only when ok. *)
Definition kw_tok (s : string) : prog (option token) :=
  r <- parse_keyword s ;; Ret (match r with KwYes t => Some t | _ => None end).
(** if ok, _, _ := p.parseKeywords(...); ok. *)
Definition kws_ok (l : list string) : prog bool :=
  Kws (map gs l) (fun o => Ret (match o with Some _ => true | None => false end)).
Definition kws_toks (l : list string) : prog (option (list token)) := Kws (map gs l) Ret.

(** parser.go:2869-2880. *)
Definition expect_keyword (s : string) : prog token :=
  r <- parse_keyword s ;; match r with KwYes t => Ret t | _ => Panic PLog end.

(** parser.go:2895-2909. *)
Definition consume_token (k : kind) : prog bool :=
  Peek (fun o =>
    match o with
    | None => Ret false
    | Some t => if is_kind k t
                then Next (fun o' => match o' with Some _ => Ret true | None => Ret false end)
                else Ret false
    end).

(** parser.go:2882-2893. *)
Definition expect_token (k : kind) : prog unit :=
  ok <- consume_token k ;; if ok then Ret tt else Panic PLog.

(** r, _ := p.nextToken(); if r.Kind != k return error. *)
Definition next_kind (k : kind) : prog token :=
  t <- next_nn ;; if is_kind k t then Ret t else Err.

Definition ident_of (t : token) (w : sqlword) : ident :=
  mkIdent (word_string w) (tfrom t) (tto t).

(** parser.go:1901-1916. *)
Definition parse_identifier : prog ident :=
  t <- next_err ;;
  match tval t with VWord w => Ret (ident_of t w) | VStr _ => Err end.

(** parser.go:2706-2737.  [None] is the error result (one caller ignores it). *)
Definition parse_list_of_ids (r : rec) (sep : kind) : prog (option (list ident)) :=
  loop (r_fuel r)
    (fun '(acc, expect) =>
       let stop := inr (if expect : bool then None else Some (rev acc)) in
       Next (fun o =>
         match o with
         | None => Ret stop
         | Some t =>
             if is_kind SQLKeyword t && expect
             then w <- word_of t ;; Ret (inl (ident_of t w :: acc, false))
             else if is_kind sep t && negb expect then Ret (inl (acc, true))
             else prev ;;; Ret stop
         end))
    ([], true).

Definition or_err {A} (o : option A) : prog A :=
  match o with Some a => Ret a | None => Err end.

(** parser.go:1937-1939 with the error propagated. *)
Definition parse_column_names (r : rec) : prog (list ident) :=
  o <- parse_list_of_ids r Comma ;; or_err o.

(** parser.go:2567-2575. *)
Definition parse_object_name (r : rec) : prog objname :=
  o <- parse_list_of_ids r Period ;; l <- or_err o ;; Ret (mkON l).

(** parser.go:2692-2704. *)
Definition parse_literal_int : prog (Z * token) :=
  t <- next_nn ;;
  if is_kind Number t then
    s <- str_of t ;;
    match atoi s with AOk v => Ret (v, t) | _ => Err end
  else Err.

(** parser.go:2652-2668. *)
Definition parse_optional_precision : prog (option Z * pos) :=
  ok <- consume_token LParen ;;
  if ok then
    '(n, _) <- parse_literal_int ;;
    t <- next_kind RParen ;;
    Ret (Some n, tto t)
  else Ret (None, pos0).

(** parser.go:2670-2690. *)
Definition parse_optional_precision_scale : prog (option Z * option Z) :=
  ok <- consume_token LParen ;;
  if ok then
    '(n, _) <- parse_literal_int ;;
    c <- consume_token Comma ;;
    scale <- (if c then '(s, _) <- parse_literal_int ;; Ret (Some s) else Ret None) ;;
    expect_token RParen ;;;
    Ret (Some n, scale)
  else Ret (None, None).

(** parser.go:2861-2867. *)
Definition parse_my_unsigned : prog (bool * pos) :=
  o <- kw_tok "UNSIGNED" ;;
  Ret (match o with Some u => (true, tto u) | None => (false, pos0) end).

(** parser.go:236-241, 247-252. *)
Definition parse_time_zone : prog bool :=
  wok <- kw_ok "WITH" ;;
  ook <- kw_ok "WITHOUT" ;;
  (if wok || ook then expect_keyword "TIME" ;;; expect_keyword "ZONE" ;;; Ret tt else Ret tt) ;;;
  Ret wok.

(** parser.go:172-297. *)
Definition parse_data_type (r : rec) : prog dtype :=
  t <- next_err ;;
  match tval t with
  | VStr _ => Err
  | VWord w =>
    if kw w "BOOLEAN" then Ret (TBoolean (tfrom t) (tto t))                      (* 183-187 *)
    else if kw w "FLOAT" then                                                    (* 188-194 *)
      '(size, rp) <- parse_optional_precision ;;
      '(u, up) <- parse_my_unsigned ;;
      Ret (TFloat size (tfrom t) (tto t) rp u up)
    else if kw w "REAL" then                                                     (* 195-197 *)
      '(u, up) <- parse_my_unsigned ;; Ret (TReal (tfrom t) (tto t) u up)
    else if kw w "DOUBLE" then                                                   (* 198-200 *)
      p <- expect_keyword "PRECISION" ;; Ret (TDouble (tfrom t) (tto p))
    else if kw w "SMALLINT" then                                                 (* 201-203 *)
      '(u, up) <- parse_my_unsigned ;; Ret (TSmallInt (tfrom t) (tto t) u up)
    else if kw w "INTEGER" || kw w "INT" then                                    (* 204-206 *)
      '(u, up) <- parse_my_unsigned ;; Ret (TInt (tfrom t) (tto t) u up)
    else if kw w "BIGINT" then                                                   (* 207-209 *)
      k <- parse_keyword "UNSIGNED" ;;
      match k with
      | KwYes u => Ret (TBigInt (tfrom t) (tto t) true (tto u))
      | KwNo u => Ret (TBigInt (tfrom t) (tto t) false (tto u))
      | KwEOF => Panic PNil
      end
    else if kw w "VARCHAR" then                                                  (* 210-217 *)
      '(size, rp) <- parse_optional_precision ;;
      Ret (TVarchar size (tfrom t) pos0 rp)
    else if kw w "CHAR" || kw w "CHARACTER" then                                 (* 218-230 *)
      v <- kw_tok "VARYING" ;;
      '(size, rp) <- parse_optional_precision ;;
      Ret (match v with
           | Some v => TVarchar size (tfrom t) (tto v) rp
           | None => TChar size (tfrom t) (tto t) rp
           end)
    else if kw w "UUID" then Ret (TUUID (tfrom t) (tto t))                       (* 231-232 *)
    else if kw w "DATE" then Ret (TDate pos0 pos0)                               (* 233-234 *)
    else if kw w "TIMESTAMP" then                                                (* 235-245 *)
      wok <- parse_time_zone ;; Ret (TTimestamp wok (tfrom t) pos0)
    else if kw w "TIME" then                                                     (* 246-253 *)
      parse_time_zone ;;; Ret (TTime pos0 pos0)
    else if kw w "REGCLASS" then Ret (TRegclass pos0 pos0)                       (* 254-255 *)
    else if kw w "TEXT" then                                                     (* 256-263 *)
      ok <- consume_token LBracket ;;
      if ok then expect_token RBracket ;;; Ret (TArray (TText pos0 pos0) pos0)
      else Ret (TText pos0 pos0)
    else if kw w "BYTEA" then Ret (TBytea pos0 pos0)                             (* 264-265 *)
    else if kw w "NUMERIC" then                                                  (* 266-285 *)
      '(p, s) <- parse_optional_precision_scale ;;
      prev ;;;
      rp <- next_kind RParen ;;
      '(u, up) <- parse_my_unsigned ;;
      Ret (TDecimal p s (tfrom t) (tto rp) u up)
    else                                                                         (* 287-296 *)
      prev ;;; o <- parse_object_name r ;; Ret (TCustom o)
  end.

(** parser.go:299-301. *)
Definition parse_expr (r : rec) : prog node := r_subexpr r 0.

(** parser.go:1524-1548. *)
Definition parse_optional_alias (reserved : list gostring) : prog (option ident) :=
  after_as <- kw_ok "AS" ;;
  Next (fun o =>
    match o with
    | None => Ret None
    | Some t =>
        let fallthrough :=
          if after_as : bool then Panic PLog else prev ;;; Ret None in
        if is_kind SQLKeyword t then
          w <- word_of t ;;
          if after_as || negb (mem_gs (wkeyword w) reserved)
          then Ret (Some (ident_of t w))
          else fallthrough
        else fallthrough
    end).

(** parser.go:1918-1935. *)
Definition parse_expr_list (r : rec) : prog (list node) :=
  loop (r_fuel r)
    (fun acc =>
       e <- parse_expr r ;;
       o <- peek ;;
       match o with
       | Some t => if is_kind Comma t then must_next ;;; Ret (inl (e :: acc))
                   else Ret (inr (rev (e :: acc)))
       | None => Ret (inr (rev (e :: acc)))
       end)
    [].

(** parser.go:2440-2451. *)
Definition parse_optional_args (r : rec) : prog (list node) :=
  ok <- consume_token RParen ;;
  if ok then prev ;;; Ret [] else parse_expr_list r.

(** parser.go:2453-2484 (OrderingPos is never set). *)
Definition parse_order_by_list (r : rec) : prog (list orderby) :=
  loop (r_fuel r)
    (fun acc =>
       e <- parse_expr r ;;
       a <- kw_ok "ASC" ;;
       asc <- (if a then Ret (Some true)
               else d <- kw_ok "DESC" ;; Ret (if d : bool then Some false else None)) ;;
       let acc' := OrderBy e pos0 asc :: acc in
       o <- peek ;;
       match o with
       | Some t => if is_kind Comma t then must_next ;;; Ret (inl acc')
                   else Ret (inr (rev acc'))
       | None => Ret (inr (rev acc'))
       end)
    [].

(** parser.go:2532-2565. *)
Definition parse_window_frame_bound : prog wbound :=
  c <- kws_ok ["CURRENT"; "ROW"]%string ;;
  if c then Ret (BCurrentRow pos0 pos0)
  else
    u <- kw_ok "UNBOUNDED" ;;
    if u then
      p <- kw_ok "PRECEDING" ;;
      if p then Ret (BUnboundedPreceding pos0 pos0)
      else
        f <- kw_ok "FOLLOWING" ;;
        if f then Ret (BUnboundedFollowing pos0 pos0)
        else (* 2557-2563: both tests fail again *) Panic PLog
    else
      '(i, _) <- parse_literal_int ;;
      if i <? 0 then Err
      else
        p <- kw_ok "PRECEDING" ;;
        if p then Ret (BPreceding i pos0 pos0)
        else
          f <- kw_ok "FOLLOWING" ;;
          if f then Ret (BFollowing i pos0 pos0) else Panic PLog.

(** sqlast/ast.go:700-715 (FromStr). *)
Definition unit_from_str (w : sqlword) : option wunit :=
  if kw w "ROWS" then Some URows
  else if kw w "RANGE" then Some URange
  else if kw w "GROUPS" then Some UGroups
  else None.

(** parser.go:2486-2530. *)
Definition parse_window_frame : prog (option wframe) :=
  t <- peek_nn ;;
  f <- (if is_kind SQLKeyword t then
          w <- word_of t ;;
          match unit_from_str w with
          | None => Err
          | Some u =>
              must_next ;;;
              let units := mkWFU pos0 pos0 u in
              bt <- kw_ok "BETWEEN" ;;
              if bt then
                s <- parse_window_frame_bound ;;
                expect_keyword "AND" ;;;
                e <- parse_window_frame_bound ;;
                Ret (Some (mkWF units s (Some e)))
              else
                s <- parse_window_frame_bound ;;
                Ret (Some (mkWF units s None))
          end
        else Ret None) ;;
  expect_token RParen ;;;
  Ret f.

(** parser.go:2374-2438 (OverRparen is never set). *)
Definition parse_function (r : rec) (name : objname) : prog node :=
  expect_token LParen ;;;
  args <- parse_optional_args r ;;
  rp <- next_kind RParen ;;
  ov <- kw_ok "OVER" ;;
  if ov then
    expect_token LParen ;;;
    pt <- kw_tok "PARTITION" ;;
    '(pby, ppos) <- (match pt with
                     | Some t => expect_keyword "BY" ;;; el <- parse_expr_list r ;; Ret (el, tfrom t)
                     | None => Ret ([], pos0)
                     end) ;;
    ot <- kw_tok "ORDER" ;;
    '(oby, opos) <- (match ot with
                     | Some t => expect_keyword "BY" ;;; el <- parse_order_by_list r ;; Ret (el, tfrom t)
                     | None => Ret ([], pos0)
                     end) ;;
    frame <- parse_window_frame ;;
    Ret (EFunction name args (tto rp) (Some (WinSpec pby oby frame ppos opos)) pos0)
  else Ret (EFunction name args (tto rp) None pos0).

(** parser.go:2581-2650. *)
Definition parse_value : prog node :=
  t <- next_err ;;
  match tkind t with
  | SQLKeyword =>
      w <- word_of t ;;
      if kw w "TRUE" then Ret (EBool (tfrom t) (tto t) true)
      else if kw w "FALSE" then Ret (EBool (tfrom t) (tto t) false)
      else if kw w "NULL" then Ret (ENull (tfrom t) (tto t))
      else Err
  | Number =>
      s <- str_of t ;;
      if existsb (fun c => c =? 46) s then
        match parse_float s with
        | Some f => Ret (EDouble (tfrom t) (tto t) f)
        | None => Err
        end
      else
        let v := match atoi s with AOk v => v | ARange v => v | ASyntax => 0 end in
        Ret (ELong (mkLong (tfrom t) (tto t) v))
  | SingleQuotedString => s <- str_of t ;; Ret (EString (tfrom t) (tto t) s)
  | NationalStringLiteral => s <- str_of t ;; Ret (ENString (tfrom t) (tto t) s)
  | _ => Err
  end.

(** parser.go:2739-2797. *)
Definition parse_case (r : rec) : prog node :=
  c <- kw_tok "CASE" ;;
  match c with
  | None => Err
  | Some t =>
      wn <- kw_ok "WHEN" ;;
      operand <- (if wn then Ret None
                  else e <- parse_expr r ;; expect_keyword "WHEN" ;;; Ret (Some e)) ;;
      branches <- loop (r_fuel r)
        (fun acc =>
           c <- parse_expr r ;;
           expect_keyword "THEN" ;;;
           v <- parse_expr r ;;
           w <- kw_ok "WHEN" ;;
           Ret (if w : bool then inl ((c, v) :: acc) else inr (rev ((c, v) :: acc))))
        [] ;;
      el <- kw_ok "ELSE" ;;
      else_ <- (if el then e <- parse_expr r ;; Ret (Some e) else Ret None) ;;
      en <- kw_tok "END" ;;
      match en with
      | None => Err
      | Some et => Ret (ECase (tfrom t) (tto et) operand branches else_)
      end
  end.

(** parser.go:2799-2825. *)
Definition parse_cast (r : rec) : prog node :=
  c <- kw_tok "CAST" ;;
  match c with
  | None => Err
  | Some t =>
      expect_token LParen ;;;
      e <- parse_expr r ;;
      expect_keyword "AS" ;;;
      ty <- parse_data_type r ;;
      rp <- next_kind RParen ;;
      Ret (ECast e ty (tfrom t) (tto rp))
  end.

(** parser.go:2827-2859. *)
Definition parse_exists (r : rec) (neg : option token) : prog node :=
  c <- kw_tok "EXISTS" ;;
  match c with
  | None => Err
  | Some t =>
      expect_token LParen ;;;
      q <- r_query r ;;
      rp <- next_kind RParen ;;
      Ret (match neg with
           | Some n => EExists true q (tfrom n) (tfrom t) (tto rp)
           | None => EExists false q pos0 (tfrom t) (tto rp)
           end)
  end.

(** parser.go:2141-2174. *)
Definition get_precedence (t : token) : prog Z :=
  match tkind t with
  | SQLKeyword =>
      w <- word_of t ;;
      Ret (if kw w "OR" then 5
           else if kw w "AND" then 10
           else if kw w "NOT" then 15
           else if kw w "IS" then 17
           else if kw w "IN" then 20
           else if kw w "BETWEEN" then 20
           else if kw w "LIKE" then 20
           else 0)
  | Eq | Lt | LtEq | Neq | Gt | GtEq => Ret 20
  | Plus | Minus => Ret 30
  | Mult | Div | Mod => Ret 40
  | DoubleColon => Ret 50
  | _ => Ret 0
  end.

(** parser.go:2133-2139. *)
Definition get_next_precedence : prog Z :=
  o <- peek ;; match o with Some t => get_precedence t | None => Ret 0 end.

(** parser.go:2073-2111. *)
Definition parse_in (r : rec) (e : node) (neg : bool) : prog node :=
  expect_token LParen ;;;
  sok <- kw_ok "SELECT" ;;
  wok <- kw_ok "WITH" ;;
  if sok || wok then
    prev ;;;
    q <- r_query r ;;
    rp <- next_kind RParen ;;
    Ret (EInSubQuery e q neg (tto rp))
  else
    l <- parse_expr_list r ;;
    rp <- next_kind RParen ;;
    Ret (EInList e l neg (tto rp)).

(** parser.go:2252-2275: the rest of a dotted name; true if it ends in [.*]. *)
Definition parse_dotted (r : rec) (first : ident) : prog (list ident * bool) :=
  loop (r_fuel r)
    (fun acc =>
       ok <- consume_token Period ;;
       if ok then
         n <- next_err ;;
         if is_kind SQLKeyword n then w <- word_of n ;; Ret (inl (ident_of n w :: acc))
         else if is_kind Mult n then Ret (inr (rev acc, true))
         else Err
       else Ret (inr (rev acc, false)))
    [first].

(** parser.go:2176-2372.  The operator position of NOT is not set (2236). *)
Definition parse_prefix (r : rec) : prog node :=
  t <- next_err ;;
  match tkind t with
  | SQLKeyword =>
      w <- word_of t ;;
      if kw w "TRUE" || kw w "FALSE" || kw w "NULL" then prev ;;; parse_value     (* 2186-2192 *)
      else if kw w "CASE" then prev ;;; parse_case r                              (* 2193-2199 *)
      else if kw w "CAST" then prev ;;; parse_cast r                              (* 2200-2206 *)
      else if kw w "EXISTS" then prev ;;; parse_exists r None                     (* 2207-2213 *)
      else if kw w "NOT" then                                                     (* 2214-2238 *)
        ex <- kw_ok "EXISTS" ;;
        if ex then prev ;;; parse_exists r (Some t)
        else
          e <- r_subexpr r 15 ;;
          Ret (EUnary (tfrom t) (mkOp ONot pos0 pos0) e)
      else                                                                        (* 2239-2298 *)
        o <- peek ;;
        let plain := match o with
                     | None => true
                     | Some n => negb (is_kind LParen n) && negb (is_kind Period n)
                     end in
        if plain : bool then Ret (EIdent (ident_of t w))
        else
          '(parts, wild) <- parse_dotted r (ident_of t w) ;;
          if wild : bool then Ret (EQualWildcard parts)
          else
            ok <- consume_token LParen ;;
            if ok then prev ;;; parse_function r (mkON parts)
            else Ret (ECompound parts)
  | Mult => Ret (EWildcard (tfrom t))                                             (* 2299-2302 *)
  | Plus =>                                                                       (* 2303-2313 *)
      e <- r_subexpr r 30 ;;
      Ret (EUnary (tfrom t) (mkOp OPlus (tfrom t) (tto t)) e)
  | Minus =>                                                                      (* 2314-2324 *)
      e <- r_subexpr r 30 ;;
      Ret (EUnary (tfrom t) (mkOp OMinus (tfrom t) (tto t)) e)
  | Number | SingleQuotedString | NationalStringLiteral => prev ;;; parse_value   (* 2325-2331 *)
  | LParen =>                                                                     (* 2332-2368 *)
      sok <- kw_ok "SELECT" ;;
      wok <- kw_ok "WITH" ;;
      if sok || wok then
        prev ;;;
        q <- r_query r ;;
        rp <- next_kind RParen ;;
        Ret (ESubQuery q (tfrom t) (tto rp))
      else
        e <- parse_expr r ;;
        rp <- next_kind RParen ;;
        Ret (ENested e (tfrom t) (tto rp))
  | _ => Panic PLog                                                               (* 2370 *)
  end.

(** parser.go:2113-2131. *)
Definition parse_between (r : rec) (e : node) (neg : bool) : prog node :=
  lo <- parse_prefix r ;;
  expect_keyword "AND" ;;;
  hi <- parse_prefix r ;;
  Ret (EBetween e neg lo hi).

(** parser.go:1972-1994. *)
Definition infix_symbol (k : kind) : option optype :=
  match k with
  | Eq => Some OEq | Neq => Some ONotEq | Gt => Some OGt | GtEq => Some OGtEq
  | Lt => Some OLt | LtEq => Some OLtEq | Plus => Some OPlus | Minus => Some OMinus
  | Mult => Some OMultiply | Mod => Some OModulus | Div => Some ODivide
  | _ => None
  end.

(** parser.go:1972-2010: the binary operator, if any. *)
Definition infix_operator (t : token) : prog (option optype) :=
  match tkind t with
  | SQLKeyword =>
      w <- word_of t ;;
      if kw w "AND" then Ret (Some OAnd)
      else if kw w "OR" then Ret (Some OOr)
      else if kw w "LIKE" then Ret (Some OLike)
      else if kw w "NOT" then
        ok <- kw_ok "LIKE" ;; Ret (if ok : bool then Some ONotLike else None)
      else Ret None
  | k => Ret (infix_symbol k)
  end.

(** parser.go:1965-2059. *)
Definition parse_infix (r : rec) (e : node) (prec : Z) : prog node :=
  t <- next_err ;;
  o <- infix_operator t ;;
  match o with
  | Some op =>                                                                    (* 2012-2023 *)
      rhs <- r_subexpr r prec ;;
      Ret (EBinary e (mkOp op (tfrom t) (tto t)) rhs)
  | None =>
      match tkind t with
      | SQLKeyword =>                                                             (* 2025-2051 *)
          w <- word_of t ;;
          if kw w "IS" then
            n <- kw_ok "NULL" ;;
            if n then Ret (EIsNull e)
            else
              nn <- kws_ok ["NOT"; "NULL"]%string ;;
              if nn then Ret (EIsNotNull e) else Err
          else if kw w "NOT" || kw w "IN" || kw w "BETWEEN" then
            prev ;;;
            neg <- kw_ok "NOT" ;;
            i <- kw_ok "IN" ;;
            if i then parse_in r e neg
            else
              bt <- kw_ok "BETWEEN" ;;
              if bt then parse_between r e neg else Panic PLog
          else Panic PLog
      | DoubleColon =>                                                            (* 2053-2055, 2062-2071 *)
          ty <- parse_data_type r ;; Ret (ECast e ty pos0 pos0)
      | _ => Panic PLog                                                           (* 2057 *)
      end
  end.

(** parser.go:1947-1960: the infix loop. *)
Definition infix_loop (r : rec) (prec : Z) (e : node) : prog node :=
  loop (r_fuel r)
    (fun e =>
       np <- get_next_precedence ;;
       if np <=? prec then Ret (inr e)
       else e' <- parse_infix r e np ;; Ret (inl e'))
    e.

(** parser.go:1941-1963. *)
Definition parse_subexpr (r : rec) (prec : Z) : prog node :=
  e <- parse_prefix r ;; infix_loop r prec e.

(** parser.go:1495-1522, always called with precedence 0. *)
Definition parse_default_expr (r : rec) : prog node :=
  e <- parse_prefix r ;;
  loop (r_fuel r)
    (fun e =>
       o <- peek ;;
       stop <- (match o with
                | Some t => if is_kind SQLKeyword t
                            then w <- word_of t ;; Ret (kw w "NOT" || kw w "NULL")
                            else Ret false
                | None => Ret false
                end) ;;
       if stop then Ret (inr e)
       else
         np <- get_next_precedence ;;
         if np <=? 0 then Ret (inr e)
         else e' <- parse_infix r e np ;; Ret (inl e'))
    e.

(* ------------------------------------------------------------------ *)
(** ** Queries *)

(** parser.go:1868-1899 (position fields of the keywords are not set; the
    offset value carries the position of the OFFSET keyword). *)
Definition parse_limit : prog limitexpr :=
  a <- kw_ok "ALL" ;;
  if a then Ret (mkLimit pos0 pos0 None None)
  else
    '(i, t) <- parse_literal_int ;;
    ot <- kw_tok "OFFSET" ;;
    off <- (match ot with
            | Some k => '(o, _) <- parse_literal_int ;; Ret (Some (mkLong (tfrom k) (tto k) o))
            | None => Ret None
            end) ;;
    Ret (mkLimit pos0 pos0 (Some (mkLong (tfrom t) (tto t) i)) off).

(** parser.go:1812-1866 (positions are not set). *)
Definition parse_table_factor (r : rec) : prog tableref :=
  lat <- kw_ok "LATERAL" ;;
  ok <- consume_token LParen ;;
  if ok then
    q <- r_query r ;;
    expect_token RParen ;;;
    alias <- parse_optional_alias reserved_table_alias ;;
    Ret (TRDerived lat pos0 pos0 pos0 q alias)
  else if lat then Err
  else
    name <- parse_object_name r ;;
    lp <- consume_token LParen ;;
    args <- (if lp then parse_optional_args r else Ret []) ;;
    alias <- parse_optional_alias reserved_table_alias ;;
    w <- kw_ok "WITH" ;;
    hints <- (if w then
                lp2 <- consume_token LParen ;;
                if lp2 then h <- parse_expr_list r ;; expect_token RParen ;;; Ret h
                else prev ;;; Ret []
              else Ret []) ;;
    Ret (TRTable name alias args pos0 hints pos0).

(** parser.go:1734-1780. *)
Definition parse_join_type : prog jointype :=
  t <- next_nn ;;
  match tval t with
  | VStr _ => Err
  | VWord w =>
      if kw w "INNER" then Ret (mkJT JINNER (tfrom t) (tto t))
      else if kw w "LEFT" then
        o <- kw_ok "OUTER" ;;
        Ret (mkJT (if o : bool then JLEFTOUTER else JLEFT) (tfrom t) (tto t))
      else if kw w "RIGHT" then
        o <- kw_ok "OUTER" ;; Ret (mkJT (if o : bool then JRIGHTOUTER else JRIGHT) pos0 pos0)
      else if kw w "FULL" then
        o <- kw_ok "OUTER" ;; Ret (mkJT (if o : bool then JFULLOUTER else JFULL) pos0 pos0)
      else if kw w "JOIN" then prev ;;; Ret (mkJT JIMPLICIT pos0 pos0)
      else Err
  end.

(** parser.go:1782-1810. *)
Definition parse_join_spec (r : rec) : prog joinspec :=
  on <- kw_tok "ON" ;;
  match on with
  | Some t => e <- parse_expr r ;; Ret (JOn e (tfrom t))
  | None =>
      u <- kw_ok "USING" ;;
      if u then
        expect_token LParen ;;;
        l <- parse_column_names r ;;
        expect_token RParen ;;;
        Ret (JUsing l pos0 pos0)
      else Err
  end.

(** The partly built join that parser.go:1641-1732 returns. *)
Inductive rightpart :=
| RNatural (ty : jointype) (t : tableref)
| RCross (factor : tableref)
| RQualified (ty : jointype) (t : tableref) (spec : joinspec).

(** parser.go:1641-1732. *)
Definition parse_table_reference_right (r : rec) : prog (option rightpart) :=
  c <- consume_token Comma ;;
  if c then prev ;;; Ret None
  else
    Next (fun o =>
      match o with
      | None => Ret None
      | Some t =>
          match tval t with
          | VStr _ => prev ;;; Ret None
          | VWord w =>
              if kw w "NATURAL" then                                              (* 1658-1674 *)
                ty <- parse_join_type ;;
                expect_keyword "JOIN" ;;;
                x <- r_tref r ;;
                Ret (Some (RNatural ty x))
              else if kw w "CROSS" then                                           (* 1675-1684 *)
                expect_keyword "JOIN" ;;;
                x <- parse_table_factor r ;;
                Ret (Some (RCross x))
              else if kw w "INNER" then                                           (* 1685-1702 *)
                expect_keyword "JOIN" ;;;
                x <- r_tref r ;;
                s <- parse_join_spec r ;;
                Ret (Some (RQualified (mkJT JINNER pos0 pos0) x s))
              else if kw w "LEFT" || kw w "RIGHT" || kw w "FULL" || kw w "JOIN" then (* 1703-1726 *)
                prev ;;;
                ty <- parse_join_type ;;
                expect_keyword "JOIN" ;;;
                x <- r_tref r ;;
                s <- parse_join_spec r ;;
                Ret (Some (RQualified ty x s))
              else prev ;;; Ret None                                              (* 1728-1730 *)
          end
      end).

(** parser.go:1601-1639.  CROSS JOIN takes the first factor as its left side
    (1626), not the join built so far. *)
Definition parse_table_reference (r : rec) : prog tableref :=
  left <- parse_table_factor r ;;
  loop (r_fuel r)
    (fun e =>
       o <- parse_table_reference_right r ;;
       Ret (match o with
            | None => inr e
            | Some (RNatural ty x) => inl (TRNatural e ty x)
            | Some (RCross f) => inl (TRCross left f)
            | Some (RQualified ty x s) => inl (TRQualified e ty x s)
            end))
    left.

(** parser.go:1576-1599. *)
Definition parse_from_clause (r : rec) : prog (list tableref) :=
  t <- r_tref r ;;
  loop (r_fuel r)
    (fun acc =>
       c <- consume_token Comma ;;
       if c then x <- r_tref r ;; Ret (inl (x :: acc)) else Ret (inr (rev acc)))
    [t].

(** parser.go:477-515.  ParseExpr never yields a WildcardSelectItem (485). *)
Definition parse_select_list (r : rec) : prog (list selitem) :=
  loop (r_fuel r)
    (fun acc =>
       e <- parse_expr r ;;
       item <- (match e with
                | EQualWildcard l => Ret (SIQualWildcard (mkON l))
                | _ =>
                    a <- parse_optional_alias reserved_column_alias ;;
                    Ret (match a with Some i => SIAlias e i | None => SIUnnamed e end)
                end) ;;
       t <- peek_nn ;;
       if is_kind Comma t then must_next ;;; Ret (inl (item :: acc))
       else Ret (inr (rev (item :: acc))))
    [].

(** parser.go:421-475, with the Select position set by the caller (352). *)
Definition parse_select (r : rec) (p : pos) : prog select :=
  d <- parse_keyword "DISTINCT" ;;
  match d with
  | KwEOF => Err
  | _ =>
      let distinct := match d with KwYes _ => true | _ => false end in
      proj <- parse_select_list r ;;
      f <- kw_ok "FROM" ;;
      from <- (if f then parse_from_clause r else Ret []) ;;
      w <- kw_ok "WHERE" ;;
      where_ <- (if w then e <- parse_expr r ;; Ret (Some e) else Ret None) ;;
      g <- kws_ok ["GROUP"; "BY"]%string ;;
      gby <- (if g then parse_expr_list r else Ret []) ;;
      h <- kw_ok "HAVING" ;;
      having <- (if h then e <- parse_expr r ;; Ret (Some e) else Ret None) ;;
      Ret (Select distinct proj from where_ gby having p)
  end.

(** parser.go:400-419 (operator positions are not set). *)
Definition parse_set_operator (o : option token) : prog (option setop) :=
  match o with
  | None => Ret None
  | Some t =>
      if is_kind SQLKeyword t then
        w <- word_of t ;;
        Ret (if kw w "UNION" then Some (SUnion pos0 pos0)
             else if kw w "EXCEPT" then Some (SExcept pos0 pos0)
             else if kw w "INTERSECT" then Some (SIntersect pos0 pos0)
             else None)
      else Ret None
  end.

(** parser.go:371-376. *)
Definition setop_prec (o : setop) : Z :=
  match o with SUnion _ _ | SExcept _ _ => 10 | SIntersect _ _ => 20 end.

(** parser.go:366-395. *)
Definition body_loop (r : rec) (prec : Z) (e : setexpr) : prog setexpr :=
  loop (r_fuel r)
    (fun e =>
       o <- peek ;;
       op <- parse_set_operator o ;;
       match op with
       | None => Ret (inr e)
       | Some op =>
           if setop_prec op <=? prec then Ret (inr e)
           else
             must_next ;;;
             all <- kw_ok "ALL" ;;
             rhs <- r_body r (setop_prec op) ;;
             Ret (inl (SSetOp op all e rhs))
       end)
    e.

(** parser.go:345-398 (QueryExpr positions are not set). *)
Definition parse_query_body (r : rec) (prec : Z) : prog setexpr :=
  s <- kw_tok "SELECT" ;;
  e <- (match s with
        | Some t => x <- parse_select r (tfrom t) ;; Ret (SSelect x)
        | None =>
            lp <- consume_token LParen ;;
            if lp then
              q <- r_query r ;;
              expect_token RParen ;;;
              Ret (SQuery pos0 pos0 q)
            else Panic PLog
        end) ;;
  body_loop r prec e.

(** parser.go:1550-1574 (RParen is not set). *)
Definition parse_cte_list (r : rec) : prog (list cte) :=
  loop (r_fuel r)
    (fun acc =>
       alias <- parse_identifier ;;
       expect_keyword "AS" ;;;
       expect_token LParen ;;;
       q <- r_query r ;;
       expect_token RParen ;;;
       c <- consume_token Comma ;;
       let acc' := CTE alias q pos0 :: acc in
       Ret (if c : bool then inl acc' else inr (rev acc')))
    [].

(** parser.go:303-343 (With is not set). *)
Definition parse_query (r : rec) : prog query :=
  w <- kw_ok "WITH" ;;
  ctes <- (if w then parse_cte_list r else Ret []) ;;
  body <- parse_query_body r 0 ;;
  ob <- kws_ok ["ORDER"; "BY"]%string ;;
  oby <- (if ob then parse_order_by_list r else Ret []) ;;
  l <- kw_ok "LIMIT" ;;
  lim <- (if l then x <- parse_limit ;; Ret (Some x) else Ret None) ;;
  Ret (Query pos0 ctes body oby lim).

(* ------------------------------------------------------------------ *)
(** ** Statements *)

(** parser.go:718-839. *)
Definition parse_table_constraints (r : rec) : prog tableconstraint :=
  o <- peek ;;
  match o with
  | None => Err
  | Some t0 =>
    if negb (is_kind SQLKeyword t0) then Err
    else
      let named := match tval t0 with VWord w => kw w "CONSTRAINT" | VStr _ => false end in
      '(name, cpos) <- (if named : bool
                        then must_next ;;; i <- parse_identifier ;; Ret (Some i, tfrom t0)
                        else Ret (None, pos0)) ;;
      t <- peek_nn ;;
      w <- word_of t ;;
      spec <-
        (if kw w "UNIQUE" then                                                    (* 743-761 *)
           must_next ;;;
           k <- parse_keyword "KEY" ;;
           match k with
           | KwEOF => Err
           | _ =>
               expect_token LParen ;;;
               cols <- parse_column_names r ;;
               rp <- next_kind RParen ;;
               Ret (TCUnique false pos0 (tfrom t) (tto rp) cols)
           end
         else if kw w "PRIMARY" then                                              (* 762-779 *)
           must_next ;;;
           expect_keyword "KEY" ;;;
           expect_token LParen ;;;
           cols <- parse_column_names r ;;
           rp <- next_kind RParen ;;
           Ret (TCUnique true (tfrom t) pos0 (tto rp) cols)
         else if kw w "FOREIGN" then                                              (* 780-813 *)
           must_next ;;;
           expect_keyword "KEY" ;;;
           expect_token LParen ;;;
           cols <- parse_column_names r ;;
           expect_token RParen ;;;
           expect_keyword "REFERENCES" ;;;
           n <- next_nn ;;
           wn <- word_of n ;;
           expect_token LParen ;;;
           (* 794: the error of parseColumnNames is dropped *)
           rc <- parse_list_of_ids r Comma ;;
           rp <- next_kind RParen ;;
           Ret (TCReferential (tfrom t) cols
                  (mkRefKey (ident_of n wn) (match rc with Some l => l | None => [] end) (tto rp)))
         else if kw w "CHECK" then                                                (* 814-829 *)
           must_next ;;;
           expect_token LParen ;;;
           e <- parse_expr r ;;
           rp <- next_kind RParen ;;
           Ret (TCCheck (tfrom t) (tto rp) e)
         else Err) ;;
      Ret (mkTC cpos name spec)
  end.

(** parser.go:916-979: one column constraint spec; [None] leaves the loop. *)
Definition parse_column_spec (r : rec) (t : token) (w : sqlword) : prog (option ccspec) :=
  if kw w "NOT" then                                                              (* 918-927 *)
    must_next ;;;
    n <- kw_tok "NULL" ;;
    match n with
    | None => Err
    | Some nt => Ret (Some (CCNotNull (tfrom t) (tto nt)))
    end
  else if kw w "UNIQUE" then                                                      (* 928-932 *)
    must_next ;;; Ret (Some (CCUnique false pos0 pos0 (tfrom t)))
  else if kw w "PRIMARY" then                                                     (* 933-939 *)
    must_next ;;;
    k <- kw_tok "KEY" ;;
    match k with
    | None => Err
    | Some kt => Ret (Some (CCUnique true (tfrom t) (tto kt) pos0))
    end
  else if kw w "REFERENCES" then                                                  (* 940-960 *)
    must_next ;;;
    tn <- parse_object_name r ;;
    expect_token LParen ;;;
    cols <- parse_column_names r ;;
    rp <- next_kind RParen ;;
    Ret (Some (CCReferences (tfrom t) (tto rp) tn cols))
  else if kw w "CHECK" then                                                       (* 961-976 *)
    must_next ;;;
    expect_token LParen ;;;
    e <- parse_expr r ;;
    rp <- next_kind RParen ;;
    Ret (Some (CCCheck e (tfrom t) (tto rp)))
  else Ret None.                                                                  (* 977-978 *)

(** parser.go:885-988 (the Constraint position is not set). *)
Definition parse_column_constraints (r : rec) : prog (list colconstraint) :=
  loop (r_fuel r)
    (fun acc =>
       o <- peek ;;
       match o with
       | None => Ret (inr (rev acc))
       | Some t0 =>
           let named := match tval t0 with VWord w => kw w "CONSTRAINT" | VStr _ => false end in
           name <- (if named : bool then must_next ;;; i <- parse_identifier ;; Ret (Some i)
                    else Ret None) ;;
           t <- peek_nn ;;
           if negb (is_kind SQLKeyword t) then Ret (inr (rev acc))
           else
             w <- word_of t ;;
             s <- parse_column_spec r t w ;;
             Ret (match s with
                  | None => inr (rev acc)
                  | Some spec => inl (mkCC name pos0 spec :: acc)
                  end)
       end)
    [].

(** parser.go:842-883.  Later constraint groups replace earlier ones (871). *)
Definition parse_column_definition (r : rec)
  : prog (option node * list colconstraint * list decoration) :=
  loop (r_fuel r)
    (fun '(def, specs, decs) =>
       o <- peek ;;
       let stop := Ret (inr (def, specs, rev decs)) in
       match o with
       | None => stop
       | Some t =>
           if negb (is_kind SQLKeyword t) then stop
           else
             w <- word_of t ;;
             if kw w "DEFAULT" then                                               (* 857-865 *)
               ok <- kw_ok "DEFAULT" ;;
               if ok then d <- parse_default_expr r ;; Ret (inl (Some d, specs, decs))
               else Ret (inl (def, specs, decs))
             else if kw w "CONSTRAINT" || kw w "NOT" || kw w "UNIQUE" || kw w "PRIMARY"
                     || kw w "REFERENCES" || kw w "CHECK" then                    (* 866-871 *)
               s <- parse_column_constraints r ;; Ret (inl (def, s, decs))
             else if kw w "AUTO_INCREMENT" then                                   (* 872-877 *)
               must_next ;;; Ret (inl (def, specs, mkAutoInc (tfrom t) (tto t) :: decs))
             else stop
       end)
    (None, [], []).

(** parser.go:691-716. *)
Definition parse_column_def (r : rec) : prog columndef :=
  t <- must_next ;;
  w <- word_of t ;;
  ty <- parse_data_type r ;;
  '(def, specs, decs) <- parse_column_definition r ;;
  Ret (mkColDef (ident_of t w) ty def decs specs).

(** parser.go:648-689. *)
Definition parse_elements (r : rec) : prog (list tableelement) :=
  ok <- consume_token LParen ;;
  if ok then
    loop (r_fuel r)
      (fun acc =>
         o <- Next Ret ;;
         match o with
         | None => Err
         | Some t =>
             if negb (is_kind SQLKeyword t) then Err
             else
               w <- word_of t ;;
               prev ;;;
               el <- (if kw w "CONSTRAINT" || kw w "PRIMARY" || kw w "CHECK" || kw w "FOREIGN"
                         || kw w "UNIQUE"
                      then c <- parse_table_constraints r ;; Ret (TEConstraint c)
                      else c <- parse_column_def r ;; Ret (TEColumn c)) ;;
               o2 <- Next Ret ;;
               match o2 with
               | None => Panic PLog
               | Some t2 =>
                   if is_kind RParen t2 then Ret (inr (rev (el :: acc)))
                   else if is_kind Comma t2 then Ret (inl (el :: acc))
                   else Panic PLog
               end
         end)
      []
  else Ret [].

(** parser.go:1031-1042 and twice more: optional '=' and the name.  Dropping
    the error of parseIdentifier (1041) is harmless: the kind was checked. *)
Definition parse_option_value : prog (bool * ident) :=
  t <- peek_nn ;;
  '(eq, t') <- (if is_kind Eq t then must_next ;;; t' <- peek_nn ;; Ret (true, t')
                else Ret (false, t)) ;;
  if is_kind SQLKeyword t' then n <- parse_identifier ;; Ret (eq, n) else Err.

(** parser.go:1018-1093. *)
Definition parse_table_option : prog tableoption :=
  t <- peek_nn ;;
  if negb (is_kind SQLKeyword t) then Err
  else
    must_next ;;;
    match tval t with
    | VStr _ => Panic PNil
    | VWord w =>
        if kw w "ENGINE" then
          '(eq, n) <- parse_option_value ;; Ret (TOEngine (tfrom t) eq n)
        else if kw w "DEFAULT" then
          c <- kw_tok "CHARSET" ;;
          match c with
          | None => Err
          | Some ct =>
              '(eq, n) <- parse_option_value ;;
              Ret (TOCharset true (tfrom t) (tfrom ct) eq n)
          end
        else if kw w "CHARSET" then
          '(eq, n) <- parse_option_value ;; Ret (TOCharset false pos0 (tfrom t) eq n)
        else Err
    end.

(** parser.go:990-1016.  A comma is consumed and ends the list (1001-1006). *)
Definition parse_table_options (r : rec) : prog (list tableoption) :=
  loop (r_fuel r)
    (fun acc =>
       o <- peek ;;
       match o with
       | None => Ret (inr (rev acc))
       | Some t =>
           t' <- (if is_kind Comma t then must_next else Ret t) ;;
           if negb (is_kind SQLKeyword t') then Ret (inr (rev acc))
           else x <- parse_table_option ;; Ret (inl (x :: acc))
       end)
    [].

(** parser.go:546-570. *)
Definition parse_create_table (r : rec) (create : token) : prog stmt :=
  ne <- kws_ok ["IF"; "NOT"; "EXISTS"]%string ;;
  name <- parse_object_name r ;;
  els <- parse_elements r ;;
  opts <- parse_table_options r ;;
  Ret (StCreateTable (tfrom create) name els ne opts).

(** parser.go:572-592. *)
Definition parse_create_view (r : rec) (create : token) : prog stmt :=
  m <- kw_ok "MATERIALIZED" ;;
  expect_keyword "VIEW" ;;;
  name <- parse_object_name r ;;
  expect_keyword "AS" ;;;
  q <- parse_query r ;;
  Ret (StCreateView (tfrom create) name q m).

(** parser.go:594-646 (Create and RParen are not set). *)
Definition parse_create_index (r : rec) (unique : bool) : prog stmt :=
  on <- kw_ok "ON" ;;
  idx <- (if on then Ret None
          else n <- parse_identifier ;; expect_keyword "ON" ;;; Ret (Some n)) ;;
  tn <- parse_object_name r ;;
  u <- kw_ok "USING" ;;
  meth <- (if u then m <- parse_identifier ;; Ret (Some m) else Ret None) ;;
  lp <- consume_token LParen ;;
  cols <- (if lp then c <- parse_column_names r ;; expect_token RParen ;;; Ret c else Ret []) ;;
  w <- kw_ok "WHERE" ;;
  sel <- (if w then e <- parse_expr r ;; Ret (Some e) else Ret None) ;;
  Ret (StCreateIndex pos0 tn unique idx meth cols pos0 sel).

(** parser.go:517-544. *)
Definition parse_create (r : rec) : prog stmt :=
  c <- kw_tok "CREATE" ;;
  match c with
  | None => Err
  | Some t =>
      tb <- kw_ok "TABLE" ;;
      if tb then parse_create_table r t
      else
        mok <- kw_ok "MATERIALIZED" ;;
        vok <- kw_ok "VIEW" ;;
        if mok || vok then prev ;;; parse_create_view r t
        else
          iok <- kw_ok "INDEX" ;;
          uiok <- kws_ok ["UNIQUE"; "INDEX"]%string ;;
          if iok || uiok then parse_create_index r uiok else Panic PLog
  end.

(** parser.go:1095-1120. *)
Definition parse_delete (r : rec) : prog stmt :=
  c <- kw_tok "DELETE" ;;
  match c with
  | None => Err
  | Some t =>
      expect_keyword "FROM" ;;;
      tn <- parse_object_name r ;;
      w <- kw_ok "WHERE" ;;
      sel <- (if w then e <- parse_expr r ;; Ret (Some e) else Ret None) ;;
      Ret (StDelete (tfrom t) tn sel)
  end.

(** parser.go:1155-1184. *)
Definition parse_assignments (r : rec) : prog (list assignment) :=
  loop (r_fuel r)
    (fun acc =>
       t <- next_kind SQLKeyword ;;
       w <- word_of t ;;
       expect_token Eq ;;;
       v <- parse_expr r ;;
       c <- consume_token Comma ;;
       let acc' := mkAssign (ident_of t w) v :: acc in
       Ret (if c : bool then inl acc' else inr (rev acc')))
    [].

(** parser.go:1122-1153. *)
Definition parse_update (r : rec) : prog stmt :=
  c <- kw_tok "UPDATE" ;;
  match c with
  | None => Err
  | Some t =>
      tn <- parse_object_name r ;;
      expect_keyword "SET" ;;;
      ass <- parse_assignments r ;;
      w <- kw_ok "WHERE" ;;
      sel <- (if w then e <- parse_expr r ;; Ret (Some e) else Ret None) ;;
      Ret (StUpdate (tfrom t) tn ass sel)
  end.

(** parser.go:1217-1240: the rows after VALUES. *)
Definition parse_rows (r : rec) : prog (list rowvalue) :=
  loop (r_fuel r)
    (fun acc =>
       l <- next_kind LParen ;;
       v <- parse_expr_list r ;;
       rp <- next_kind RParen ;;
       c <- consume_token Comma ;;
       let acc' := mkRow v (tfrom l) (tto rp) :: acc in
       Ret (if c : bool then inl acc' else inr (rev acc')))
    [].

(** parser.go:1186-1261 (Values is not set). *)
Definition parse_insert (r : rec) : prog stmt :=
  c <- kw_tok "INSERT" ;;
  match c with
  | None => Err
  | Some t =>
      expect_keyword "INTO" ;;;
      tn <- parse_object_name r ;;
      lp <- consume_token LParen ;;
      cols <- (if lp then l <- parse_column_names r ;; expect_token RParen ;;; Ret l else Ret []) ;;
      v <- kw_ok "VALUES" ;;
      src <- (if v then rows <- parse_rows r ;; Ret (ISConstructor pos0 rows)
              else q <- parse_query r ;; Ret (ISSubQuery q)) ;;
      d <- kws_ok ["ON"; "DUPLICATE"; "KEY"; "UPDATE"]%string ;;
      ups <- (if d then parse_assignments r else Ret []) ;;
      Ret (StInsert (tfrom t) tn cols src ups)
  end.

(** parser.go:1413-1493. *)
Definition parse_alter_column (r : rec) (alt : token) : prog altertableaction :=
  n <- parse_identifier ;;
  t <- must_next ;;
  if negb (is_kind SQLKeyword t) then Err
  else
    w <- word_of t ;;
    if kw w "SET" then
      d <- kw_ok "DEFAULT" ;;
      if d then
        e <- parse_default_expr r ;;
        Ret (ATAlterColumn n (tfrom alt) (ACSetDefault (tfrom t) e))
      else
        o <- kws_toks ["NOT"; "NULL"]%string ;;
        match o with
        | Some [_; nl] => Ret (ATAlterColumn n (tfrom alt) (ACSetNotNull (tfrom t) (tto nl)))
        | _ => Err
        end
    else if kw w "DROP" then
      d <- kw_tok "DEFAULT" ;;
      match d with
      | Some dt => Ret (ATAlterColumn n (tfrom alt) (ACDropDefault (tfrom t) (tto dt)))
      | None =>
          o <- kws_toks ["NOT"; "NULL"]%string ;;
          match o with
          | Some [_; nl] => Ret (ATAlterColumn n (tfrom alt) (ACDropNotNull (tfrom t) (tto nl)))
          | _ => Err
          end
      end
    else if kw w "TYPE" then
      ty <- parse_data_type r ;;
      Ret (ATAlterColumn n (tfrom alt) (ACType (tfrom t) ty))
    else Err.

(** parser.go:1313-1317, 1336-1340, 1398-1402. *)
Definition parse_cascade : prog (bool * pos) :=
  o <- kw_tok "CASCADE" ;;
  Ret (match o with Some t => (true, tto t) | None => (false, pos0) end).

(** parser.go:1263-1370. *)
Definition parse_alter (r : rec) : prog stmt :=
  c <- kw_tok "ALTER" ;;
  match c with
  | None => Err
  | Some t =>
      expect_keyword "TABLE" ;;;
      tn <- parse_object_name r ;;
      ac <- kws_toks ["ADD"; "COLUMN"]%string ;;
      match ac with
      | Some (a :: _) =>                                                          (* 1276-1290 *)
          cd <- parse_column_def r ;;
          Ret (StAlterTable (tfrom t) tn (ATAddColumn (tfrom a) cd))
      | _ =>
          ad <- kw_tok "ADD" ;;
          match ad with
          | Some a =>                                                             (* 1292-1306 *)
              tc <- parse_table_constraints r ;;
              Ret (StAlterTable (tfrom t) tn (ATAddConstraint (tfrom a) tc))
          | None =>
              dc <- kws_toks ["DROP"; "CONSTRAINT"]%string ;;
              match dc with
              | Some (d :: _) =>                                                  (* 1308-1329 *)
                  n <- parse_identifier ;;
                  '(casc, cp) <- parse_cascade ;;
                  Ret (StAlterTable (tfrom t) tn (ATDropConstraint n (tfrom d) casc cp))
              | _ =>
                  dcol <- kws_toks ["DROP"; "COLUMN"]%string ;;
                  match dcol with
                  | Some (d :: _) =>                                              (* 1331-1352 *)
                      n <- parse_identifier ;;
                      '(casc, cp) <- parse_cascade ;;
                      Ret (StAlterTable (tfrom t) tn (ATRemoveColumn n casc cp (tfrom d)))
                  | _ =>
                      al <- kws_toks ["ALTER"; "COLUMN"]%string ;;
                      match al with
                      | Some (a :: _) =>                                          (* 1354-1366 *)
                          act <- parse_alter_column r a ;;
                          Ret (StAlterTable (tfrom t) tn act)
                      | _ => Err                                                  (* 1368-1369 *)
                      end
                  end
              end
          end
      end
  end.

(** parser.go:1372-1411. *)
Definition parse_drop (r : rec) : prog stmt :=
  c <- kw_tok "DROP" ;;
  match c with
  | None => Err
  | Some t =>
      tb <- kw_ok "TABLE" ;;
      if tb then
        ex <- kws_ok ["IF"; "EXISTS"]%string ;;
        tn <- parse_object_name r ;;
        '(casc, cp) <- parse_cascade ;;
        Ret (StDropTable [tn] casc cp ex (tfrom t))
      else
        expect_keyword "INDEX" ;;;
        l <- parse_column_names r ;;
        Ret (StDropIndex (tfrom t) l)
  end.

(** parser.go:129-170 (Explain is not set). *)
Definition parse_statement (r : rec) : prog stmt :=
  t <- next_err ;;
  match tval t with
  | VStr _ => Err
  | VWord w =>
      if kw w "SELECT" || kw w "WITH" then prev ;;; q <- parse_query r ;; Ret (StQuery q)
      else if kw w "CREATE" then prev ;;; parse_create r
      else if kw w "DELETE" then prev ;;; parse_delete r
      else if kw w "INSERT" then prev ;;; parse_insert r
      else if kw w "ALTER" then prev ;;; parse_alter r
      else if kw w "UPDATE" then prev ;;; parse_update r
      else if kw w "DROP" then prev ;;; parse_drop r
      else if kw w "EXPLAIN" then s <- r_stmt r ;; Ret (StExplain s pos0)
      else Err
  end.

(** The recursion through the grammar. *)
Fixpoint knot (n : nat) : rec :=
  match n with
  | O => mkRec O Fuel Fuel (fun _ => Fuel) (fun _ => Fuel) Fuel
  | S m =>
      let r := knot m in
      mkRec (S n) (parse_statement r) (parse_query r) (parse_query_body r)
            (parse_subexpr r) (parse_table_reference r)
  end.

(** parser.go:86-127.  [pc] is p.parseComment. *)
Definition parse_sql (pc : bool) (r : rec) : prog (list stmt) :=
  loop (r_fuel r)
    (fun '(acc, expecting) =>
       ok <- consume_token Semicolon ;;
       if negb ok && expecting then Err
       else
         more <- (if pc
                  then Next (fun o => match o with None => Ret false | Some _ => prev ;;; Ret true end)
                  else Peek (fun o => Ret (match o with None => false | Some _ => true end))) ;;
         if more : bool then s <- parse_statement r ;; Ret (inl (s :: acc, true))
         else Ret (inr (rev acc)))
    ([], false).

(** Enough fuel for a token list: each recursive call and each loop round
    consumes a token (proved in Term.v). *)
Definition fuel_for (toks : list token) : nat := S (S (List.length toks)).

(** Parsing on each reader. *)
Definition run_raw {A} (p : rec -> prog A) (toks : list token) : outcome rstate A :=
  run raw_machine (p (knot (fuel_for toks))) ([], toks).
(** A method call on a Parser in any state: tokens [done] read, [todo] left. *)
Definition call {A} (p : rec -> prog A) (done todo : list token) : outcome rstate A :=
  run raw_machine (p (knot (fuel_for todo))) (done, todo).
Definition run_cm {A} (p : rec -> prog A) (toks : list token) : outcome cstate A :=
  run cm_machine (p (knot (fuel_for toks))) (mkCS [] toks []).

(** Result of a public entry point. *)
Inductive result (A : Type) := ROk (a : A) | RErr | RPanic (p : panick) | RHang.
Arguments ROk {A} a.
Arguments RErr {A}.
Arguments RPanic {A} p.
Arguments RHang {A}.

Definition res_of {S A} (o : outcome S A) : result A :=
  match o with Ok a _ => ROk a | OErr => RErr | OPanic p => RPanic p | OFuel => RHang end.

(** parser.go:34-48 (NewParser without options) followed by one of the public
    methods. *)
Definition parse_with {A} (p : rec -> prog A) (d : dialect) (src : list rune) : result A :=
  match tokenize d true src with
  | TOk toks => res_of (run_raw p toks)
  | TErr => RErr
  | THang | TFuel => RHang
  end.

(** ParseSQL (parser.go:86-127), ParseStatement (129-170), ParseExpr
    (299-301), ParseDataType (172-297). *)
Definition parse_source : dialect -> list rune -> result (list stmt) := parse_with (parse_sql false).
Definition parse_stmt_source : dialect -> list rune -> result stmt := parse_with parse_statement.
Definition parse_expr_source : dialect -> list rune -> result node := parse_with parse_expr.
Definition parse_dtype_source : dialect -> list rune -> result dtype := parse_with parse_data_type.

(** Insertion sort by position (sort.Slice, parser.go:76-78). *)
Definition group_pos (g : commentgroup) : pos := match g with [] => pos0 | c :: _ => c_from c end.
Fixpoint insert_group (g : commentgroup) (l : list commentgroup) : list commentgroup :=
  match l with
  | [] => [g]
  | h :: l' => if compare_pos (group_pos g) (group_pos h) <? 0 then g :: l
               else h :: insert_group g l'
  end.
Definition sort_groups (l : list commentgroup) : list commentgroup :=
  fold_right insert_group [] l.

(** NewParser(src, dialect, ParseComment()) then ParseFile (parser.go:64-84). *)
Definition parse_file (d : dialect) (src : list rune) : result file :=
  match tokenize d true src with
  | TOk toks =>
      match run_cm (parse_sql true) toks with
      | Ok stmts s => ROk (mkFile stmts (sort_groups (map snd (cs_map s))))
      | OErr => RErr
      | OPanic p => RPanic p
      | OFuel => RHang
      end
  | TErr => RErr
  | THang | TFuel => RHang
  end.
