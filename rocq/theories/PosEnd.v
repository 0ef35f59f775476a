(** The methods Pos and End of all nodes.  [None] is a panic (index out of range,
    nil dereference). *)
From Coq Require Import ZArith String List Bool.
From Verif Require Import Base Dialect Token AST Nodes.
Import ListNotations.
Open Scope list_scope.
Open Scope Z_scope.

Definition obind {A B} (o : option A) (k : A -> option B) : option B :=
  match o with Some a => k a | None => None end.

(** l[0].Pos() and l[len(l)-1].End(). *)
Definition first_pos {A} (f : A -> option pos) (l : list A) : option pos :=
  match l with [] => None | a :: _ => f a end.
Fixpoint last_end {A} (f : A -> option pos) (l : list A) : option pos :=
  match l with [] => None | a :: l' => match l' with [] => f a | _ => last_end f l' end end.

(** A position [n] columns further (e.g. ast.go:111-116). *)
Definition plus_cols (n : Z) (p : pos) : pos := mkPos (pline p) (pcol p + n).

(** ast.go:85-91, 545-551. *)
Definition pos_ident (i : ident) : option pos := Some (id_from i).
Definition end_ident (i : ident) : option pos := Some (id_to i).
Definition pos_name (n : objname) : option pos := first_pos pos_ident (on_idents n).
Definition end_name (n : objname) : option pos := last_end end_ident (on_idents n).

(** ast.go:725-823. *)
Definition pos_bound (b : wbound) : option pos :=
  match b with
  | BCurrentRow c _ => Some c
  | BUnboundedPreceding u _ | BUnboundedFollowing u _ => Some u
  | BPreceding _ f _ | BFollowing _ f _ => Some f
  end.
Definition end_bound (b : wbound) : option pos :=
  match b with
  | BCurrentRow _ r => Some r
  | BUnboundedPreceding _ p | BUnboundedFollowing _ p => Some p
  | BPreceding _ _ p | BFollowing _ _ p => Some p
  end.

(** ast.go:628-638. *)
Definition pos_frame (f : wframe) : option pos := Some (wfu_from (wf_units f)).
Definition end_frame (f : wframe) : option pos :=
  match wf_end f with Some b => end_bound b | None => end_bound (wf_start f) end.

(** query.go:764-777. *)
Definition pos_limit (l : limitexpr) : option pos := Some (lim_pos l).
Definition end_limit (l : limitexpr) : option pos :=
  match lim_value l with
  | None => Some (lim_allpos l)
  | Some v => Some match lim_offset l with Some o => lv_to o | None => lv_to v end
  end.

(** type.go:18-547. *)
Fixpoint pos_dtype (t : dtype) : option pos :=
  match t with
  | TChar _ f _ _ | TVarchar _ f _ _ | TUUID f _ | TClob _ f _ | TBinary _ f _ | TVarbinary _ f _ | TBlob _ f _
  | TDecimal _ _ f _ _ _ | TFloat _ f _ _ _ _ | TSmallInt f _ _ _ | TInt f _ _ _ | TBigInt f _ _ _ | TReal f _ _ _
  | TDouble f _ | TBoolean f _ | TDate f _ | TTime f _ | TTimestamp _ f _ | TRegclass f _ | TText f _ | TBytea f _ => Some f
  | TArray u _ => pos_dtype u                                           (* 521 *)
  | TCustom n => pos_name n                                             (* 541 *)
  end.
Definition end_dtype (t : dtype) : option pos :=
  match t with
  | TChar s _ t r => Some match s with Some _ => r | None => t end      (* 22 *)
  | TVarchar s _ v r => Some match s with Some _ => r | None => v end   (* 46 *)
  | TUUID _ t | TDouble _ t | TBoolean _ t | TDate _ t | TTime _ t | TRegclass _ t | TText _ t | TBytea _ t => Some t
  | TClob _ _ r | TBinary _ _ r | TVarbinary _ _ r | TBlob _ _ r => Some r
  | TDecimal _ _ _ r b u => Some (if b then u else r)                   (* 179 *)
  | TFloat s _ t r b u =>
      Some (if b then u else match s with Some _ => r | None => t end)  (* 217 *)
  | TSmallInt _ t b u | TInt _ t b u | TBigInt _ t b u | TReal _ t b u => Some (if b then u else t)
  | TTimestamp b t z => Some (if b then z else plus_cols 9 t)           (* 435 *)
  | TArray _ r => Some r                                                (* 525 *)
  | TCustom n => end_name n                                             (* 545 *)
  end.

(** ast.go, query.go, value.go: Pos. *)
Fixpoint pos_node (e : node) : option pos :=
  match e with
  | EIdent i => pos_ident i                                             (* ast.go:85 *)
  | EWildcard p => Some p                                               (* 107 *)
  | EQualWildcard l | ECompound l => first_pos pos_ident l              (* 131, 152 *)
  | EIsNull x | EIsNotNull x => pos_node x                              (* 173, 197 *)
  | EInList x _ _ _ | EInSubQuery x _ _ _ | EBetween x _ _ _ => pos_node x  (* 224, 251, 278 *)
  | EBinary l _ _ => pos_node l                                         (* 304 *)
  | ECast _ _ c _ => Some c                                             (* 338 *)
  | ENested _ l _ => Some l                                             (* 365 *)
  | EUnary f _ _ => Some f                                              (* 388 *)
  | EFunction n _ _ _ _ => pos_name n                                   (* 413 *)
  | ECase c _ _ _ _ => Some c                                           (* 447 *)
  | EExists neg _ n x _ => Some (if neg then n else x)                  (* 485 *)
  | ESubQuery _ _ r => Some r                                           (* 512 *)
  | ELong v => Some (lv_from v)                                         (* value.go:28 *)
  | EDouble f _ _ | EString f _ _ | ENString f _ _ | EBool f _ _ | ENull f _ => Some f
  end.

(** ast.go:568-577. *)
Definition pos_win (w : winspec) : option pos :=
  match w with
  | WinSpec p o f pp op =>
      match p, o with
      | _ :: _, _ => Some pp
      | [], _ :: _ => Some op
      | [], [] => match f with Some fr => pos_frame fr | None => None end
      end
  end.

(** query.go:726. *)
Definition pos_order (o : orderby) : option pos := match o with OrderBy e _ _ => pos_node e end.

(** query.go:242. *)
Definition pos_select (s : select) : option pos := match s with Select _ _ _ _ _ _ p => Some p end.

(** query.go:20, 124, 148; for the body only the left operand counts. *)
Fixpoint pos_set (b : setexpr) : option pos :=
  match b with
  | SSelect s => pos_select s
  | SQuery l _ _ => Some l
  | SSetOp _ _ l _ => pos_set l
  end.
Definition pos_query (q : query) : option pos :=
  match q with Query w c b _ _ => match c with [] => pos_set b | _ => Some w end end.

(** query.go:75. *)
Definition pos_cte (c : cte) : option pos := match c with CTE a _ _ => pos_ident a end.

(** query.go:402-476. *)
Definition pos_item (i : selitem) : option pos :=
  match i with
  | SIUnnamed e | SIAlias e _ => pos_node e
  | SIQualWildcard n => pos_name n
  | SIWildcard f _ => Some f
  end.

(** query.go:316, 366, 492, 517, 568, 595. *)
Fixpoint pos_ref (t : tableref) : option pos :=
  match t with
  | TRTable n _ _ _ _ _ => pos_name n
  | TRDerived b lp l _ _ _ => Some (if b then lp else l)
  | TRCross r _ => pos_ref r
  | TRQualified l _ _ _ | TRNatural l _ _ => pos_ref l
  end.

(** query.go:624, 649. *)
Definition pos_spec (s : joinspec) : option pos :=
  match s with JUsing _ u _ => Some u | JOn _ o => Some o end.

(** ast.go, query.go, value.go: End. *)
Fixpoint end_node (e : node) : option pos :=
  match e with
  | EIdent i => end_ident i                                             (* ast.go:89 *)
  | EWildcard p => Some (plus_cols 1 p)                                 (* 111 *)
  | EQualWildcard l | ECompound l => last_end end_ident l               (* 135, 156 *)
  | EIsNull x => obind (end_node x) (fun p => Some (plus_cols 8 p))     (* 177 *)
  | EIsNotNull x => obind (end_node x) (fun p => Some (plus_cols 12 p)) (* 201 *)
  | EInList _ _ _ r | EInSubQuery _ _ _ r => Some r                     (* 228, 255 *)
  | EBetween _ _ _ h => end_node h                                      (* 282 *)
  | EBinary _ _ r => end_node r                                         (* 308 *)
  | ECast _ _ _ r => Some r                                             (* 342 *)
  | ENested _ _ r => Some r                                             (* 369 *)
  | EUnary _ _ x => end_node x                                          (* 392 *)
  | EFunction _ _ r o r' => Some match o with None => r | Some _ => r' end  (* 417 *)
  | ECase _ c _ _ _ => Some c                                           (* 451 *)
  | EExists _ _ _ _ r => Some r                                         (* 492 *)
  | ESubQuery _ l _ => Some l                                           (* 516 *)
  | ELong v => Some (lv_to v)                                           (* value.go:32 *)
  | EDouble _ t _ | EString _ t _ | ENString _ t _ | EBool _ t _ | ENull _ t => Some t
  end.

(** query.go:730. *)
Definition end_order (o : orderby) : option pos :=
  match o with OrderBy e p a => match a with Some _ => Some p | None => end_node e end end.

(** ast.go:579-589. *)
Definition end_win (w : winspec) : option pos :=
  match w with
  | WinSpec p o f _ _ =>
      match f with
      | Some fr => end_frame fr
      | None => match o with _ :: _ => last_end end_order o | [] => last_end end_node p end
      end
  end.

(** query.go:79. *)
Definition end_cte (c : cte) : option pos := match c with CTE _ _ r => Some r end.

(** query.go:406-476. *)
Definition end_item (i : selitem) : option pos :=
  match i with
  | SIUnnamed e => end_node e
  | SIAlias _ a => end_ident a
  | SIQualWildcard n => obind (end_name n) (fun p => Some (plus_cols 2 p))
  | SIWildcard _ t => Some t
  end.

(** query.go:628, 653. *)
Definition end_spec (s : joinspec) : option pos :=
  match s with JUsing _ _ r => Some r | JOn e _ => end_node e end.

(** query.go:320, 373, 496, 521, 572, 599. *)
Fixpoint end_ref (t : tableref) : option pos :=
  match t with
  | TRTable n a l lr h hr =>
      match h with
      | _ :: _ => Some hr
      | [] => match a with
              | Some i => end_ident i
              | None => match l with _ :: _ => Some lr | [] => end_name n end
              end
      end
  | TRDerived _ _ l _ _ a => match a with Some i => end_ident i | None => Some l end
  | TRCross _ f => end_ref f
  | TRQualified _ _ _ s => end_spec s
  | TRNatural _ _ r => end_ref r
  end.

(** query.go:246-264. *)
Definition end_select (s : select) : option pos :=
  match s with
  | Select _ p f w g h _ =>
      match h with
      | Some e => end_node e
      | None =>
          match g with
          | _ :: _ => last_end end_node g
          | [] =>
              match w with
              | Some e => end_node e
              | None => match f with _ :: _ => last_end end_ref f | [] => last_end end_item p end
              end
          end
      end
  end.

(** query.go:105, 128, 152. *)
Fixpoint end_set (b : setexpr) : option pos :=
  match b with
  | SSelect s => end_select s
  | SQuery _ r _ => Some r
  | SSetOp _ _ _ r => end_set r
  end.

(** query.go:28-38. *)
Definition end_query (q : query) : option pos :=
  match q with
  | Query _ _ b o l =>
      match l with
      | Some x => end_limit x
      | None => match o with _ :: _ => last_end end_order o | [] => end_set b end
      end
  end.

(** query.go:173-221. *)
Definition pos_setop (o : setop) : option pos := match o with SUnion f _ | SExcept f _ | SIntersect f _ => Some f end.
Definition end_setop (o : setop) : option pos := match o with SUnion _ t | SExcept _ t | SIntersect _ t => Some t end.

(** stmt.go:62-116, 320-326. *)
Definition pos_row (r : rowvalue) : option pos := Some (row_lparen r).
Definition end_row (r : rowvalue) : option pos := Some (row_rparen r).
Definition pos_source (s : insertsource) : option pos :=
  match s with ISSubQuery q => pos_query q | ISConstructor v _ => Some v end.
Definition end_source (s : insertsource) : option pos :=
  match s with ISSubQuery q => end_query q | ISConstructor _ l => last_end end_row l end.
Definition pos_assign (a : assignment) : option pos := pos_ident (as_id a).
Definition end_assign (a : assignment) : option pos := end_node (as_value a).

(** stmt.go:345-469. *)
Definition pos_refkey (k : refkey) : option pos := pos_ident (rk_table k).
Definition end_refkey (k : refkey) : option pos := Some (rk_rparen k).
Definition pos_tspec (s : tcspec) : option pos :=
  match s with
  | TCUnique b p u _ _ => Some (if b then p else u)
  | TCReferential f _ _ => Some f
  | TCCheck c _ _ => Some c
  end.
Definition end_tspec (s : tcspec) : option pos :=
  match s with
  | TCUnique _ _ _ r _ => Some r
  | TCReferential _ _ k => end_refkey k
  | TCCheck _ r _ => Some r
  end.
Definition pos_tcons (c : tableconstraint) : option pos :=
  match tc_name c with Some _ => Some (tc_constraint c) | None => pos_tspec (tc_spec c) end.
Definition end_tcons (c : tableconstraint) : option pos := end_tspec (tc_spec c).

(** stmt.go:547-674. *)
Definition pos_cspec (s : ccspec) : option pos :=
  match s with
  | CCNotNull n _ => Some n
  | CCUnique b p _ u => Some (if b then p else u)
  | CCReferences r _ _ _ => Some r
  | CCCheck _ c _ => Some c
  end.
Definition end_cspec (s : ccspec) : option pos :=
  match s with
  | CCNotNull _ n => Some n
  | CCUnique b _ k u => Some (if b then k else plus_cols 6 u)
  | CCReferences _ r _ _ => Some r
  | CCCheck _ _ r => Some r
  end.
Definition pos_ccons (c : colconstraint) : option pos :=
  match cc_name c with None => Some (cc_constraint c) | Some n => pos_ident n end.
Definition end_ccons (c : colconstraint) : option pos := end_cspec (cc_spec c).

(** stmt.go:490-496: the end of a column is that of its last constraint. *)
Definition pos_col (c : columndef) : option pos := pos_ident (cd_name c).
Definition end_col (c : columndef) : option pos := last_end end_ccons (cd_constraints c).
Definition pos_elem (e : tableelement) : option pos := match e with TEColumn c => pos_col c | TEConstraint c => pos_tcons c end.
Definition end_elem (e : tableelement) : option pos := match e with TEColumn c => end_col c | TEConstraint c => end_tcons c end.

(** stmt.go:827-919. *)
Definition pos_colact (a : altercolaction) : option pos :=
  match a with ACSetDefault p _ | ACDropDefault p _ | ACType p _ | ACSetNotNull p _ | ACDropNotNull p _ => Some p end.
Definition end_colact (a : altercolaction) : option pos :=
  match a with
  | ACSetDefault _ e => end_node e
  | ACDropDefault _ p => Some p
  | ACType _ t => end_dtype t
  | ACSetNotNull _ p | ACDropNotNull _ p => Some p
  end.

(** stmt.go:773-998. *)
Definition pos_action (a : altertableaction) : option pos :=
  match a with
  | ATAddColumn p _ | ATAlterColumn _ p _ | ATRemoveColumn _ _ _ p | ATAddConstraint p _ | ATDropConstraint _ p _ _ => Some p
  end.
Definition end_action (a : altertableaction) : option pos :=
  match a with
  | ATAddColumn _ c => end_col c
  | ATAlterColumn _ _ a => end_colact a
  | ATRemoveColumn n b p _ => if b then Some p else end_ident n
  | ATAddConstraint _ c => end_tcons c
  | ATDropConstraint n _ b p => if b then Some p else end_ident n
  end.

(** table_option.go:29-66. *)
Definition pos_option (o : tableoption) : option pos :=
  match o with TOEngine e _ _ => Some e | TOCharset b d c _ _ => Some (if b then d else c) end.
Definition end_option (o : tableoption) : option pos :=
  match o with TOEngine _ _ n | TOCharset _ _ _ _ n => Some (id_to n) end.

(** stmt.go:22-1127. *)
Definition pos_stmt (s : stmt) : option pos :=
  match s with
  | StQuery q => pos_query q
  | StInsert p _ _ _ _ | StUpdate p _ _ _ | StDelete p _ _ | StCreateView p _ _ _ | StCreateTable p _ _ _ _
  | StAlterTable p _ _ | StDropTable _ _ _ _ p | StCreateIndex p _ _ _ _ _ _ _ | StDropIndex p _ | StExplain _ p => Some p
  end.
Fixpoint end_stmt (s : stmt) : option pos :=
  match s with
  | StQuery q => end_query q
  | StInsert _ _ _ s u => match u with _ :: _ => last_end end_assign u | [] => end_source s end  (* 26 *)
  | StUpdate _ _ a w => match w with Some e => end_node e | None => last_end end_assign a end    (* 190 *)
  | StDelete _ t w => match w with Some e => end_node e | None => end_name t end                 (* 227 *)
  | StCreateView _ _ q _ => end_query q                                                          (* 260 *)
  | StCreateTable _ _ e _ _ => last_end end_elem e                                               (* 290 *)
  | StAlterTable _ _ a => end_action a                                                           (* 751 *)
  | StDropTable l b p _ _ => if b then Some p else last_end end_name l                           (* 1023 *)
  | StCreateIndex _ _ _ _ _ _ r w => match w with Some e => end_node e | None => Some r end      (* 1062 *)
  | StDropIndex _ l => last_end end_ident l                                                      (* 1101 *)
  | StExplain s _ => end_stmt s                                                                  (* 1125 *)
  end.

(** comment.go:25-52. *)
Definition pos_group (g : commentgroup) : option pos := first_pos (fun c => Some (c_from c)) g.
Definition end_group (g : commentgroup) : option pos := last_end (fun c => Some (c_to c)) g.

(** ast.go:30-49.  With comments, Stmts[0] and Stmts[len-1] are evaluated in the
    comparison. *)
Definition pos_file (f : file) : option pos :=
  match f_comments f with
  | [] => first_pos pos_stmt (f_stmts f)
  | _ :: _ =>
      obind (first_pos pos_stmt (f_stmts f)) (fun p =>
      obind (first_pos pos_group (f_comments f)) (fun c =>
      Some (if compare_pos p c =? 1 then c else p)))
  end.
Definition end_file (f : file) : option pos :=
  match f_comments f with
  | [] => last_end end_stmt (f_stmts f)
  | _ :: _ =>
      obind (last_end end_group (f_comments f)) (fun c =>
      obind (last_end end_stmt (f_stmts f)) (fun p =>
      Some (if compare_pos c p =? 1 then c else p)))
  end.

(** Node.Pos() and Node.End() by dynamic type. *)
Definition Pos (x : any) : option pos :=
  match x with
  | AFile f => pos_file f
  | AExpr e => pos_node e
  | AName n => pos_name n
  | AOp o => Some (op_from o)                                           (* operator.go:14 *)
  | AWin w => pos_win w
  | AFrame f => pos_frame f
  | AUnit u => Some (wfu_from u)                                        (* ast.go:660 *)
  | ABound b => pos_bound b
  | AOrder o => pos_order o
  | AQuery q => pos_query q
  | ACte c => pos_cte c
  | ASet b => pos_set b
  | ASetOp o => pos_setop o
  | AItem i => pos_item i
  | ARef t | AElement t => pos_ref t
  | AJoinType j => Some (jt_from j)                                     (* query.go:670 *)
  | ASpec s => pos_spec s
  | ALimit l => pos_limit l
  | AType t => pos_dtype t
  | AStmt s => pos_stmt s
  | ASource s => pos_source s
  | ARow r => pos_row r
  | AAssign a => pos_assign a
  | AElem e => pos_elem e
  | ATSpec s => pos_tspec s
  | ARefKey k => pos_refkey k
  | ACCons c => pos_ccons c
  | ACSpec s => pos_cspec s
  | AAction a => pos_action a
  | AColAction a => pos_colact a
  | AOption o => pos_option o
  | ADecor d => Some (ai_auto d)                                        (* stmt.go:533 *)
  | AGroup g => pos_group g
  | AComment c => Some (c_from c)                                       (* comment.go:46 *)
  end.

Definition End (x : any) : option pos :=
  match x with
  | AFile f => end_file f
  | AExpr e => end_node e
  | AName n => end_name n
  | AOp o => Some (op_to o)                                             (* operator.go:18 *)
  | AWin w => end_win w
  | AFrame f => end_frame f
  | AUnit u => Some (wfu_to u)                                          (* ast.go:664 *)
  | ABound b => end_bound b
  | AOrder o => end_order o
  | AQuery q => end_query q
  | ACte c => end_cte c
  | ASet b => end_set b
  | ASetOp o => end_setop o
  | AItem i => end_item i
  | ARef t | AElement t => end_ref t
  | AJoinType j => Some (jt_to j)                                       (* query.go:674 *)
  | ASpec s => end_spec s
  | ALimit l => end_limit l
  | AType t => end_dtype t
  | AStmt s => end_stmt s
  | ASource s => end_source s
  | ARow r => end_row r
  | AAssign a => end_assign a
  | AElem e => end_elem e
  | ATSpec s => end_tspec s
  | ARefKey k => end_refkey k
  | ACCons c => end_ccons c
  | ACSpec s => end_cspec s
  | AAction a => end_action a
  | AColAction a => end_colact a
  | AOption o => end_option o
  | ADecor d => Some (ai_increment d)                                   (* stmt.go:537 *)
  | AGroup g => end_group g
  | AComment c => Some (c_to c)                                         (* comment.go:50 *)
  end.
