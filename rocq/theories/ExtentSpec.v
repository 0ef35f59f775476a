(** Which nodes of any kind know where they start and end (C44). *)
From Coq Require Import ZArith String List Bool.
From Verif Require Import Base Dialect Token LexSpec AST Nodes Grammar PosEnd SpanSpec.
Import ListNotations.
Open Scope string_scope.
Open Scope Z_scope.
Open Scope list_scope.

(** The list ends with such an element. *)
Definition ends_with {A} (P : A -> Prop) (l : list A) : Prop := exists l' a, l = l' ++ [a] /\ P a.

(* ------------------------------------------------------------------ *)
(** ** Starts *)

(** Not DATE, TIME, REGCLASS, TEXT, BYTEA, TEXT[]. *)
Definition type_start (t : dtype) : Prop :=
  match t with TDate _ _ | TTime _ _ | TRegclass _ _ | TText _ _ | TBytea _ _ | TArray _ _ => False | _ => True end.
(** Not OVER () and not a frame alone. *)
Definition win_start (w : winspec) : Prop := match w with WinSpec p o _ _ _ => p <> [] \/ o <> [] end.
(** The leftmost operand is not in parentheses. *)
Fixpoint set_start (s : setexpr) : Prop :=
  match s with SSelect _ => True | SQuery _ _ _ => False | SSetOp _ _ l _ => set_start l end.
(** No WITH. *)
Definition query_start (q : query) : Prop := match q with Query _ c b _ _ => c = [] /\ set_start b end.
Definition item_start (i : selitem) : Prop := match i with SIUnnamed e | SIAlias e _ => knows_start e | _ => True end.
(** The leftmost table is not a subquery. *)
Fixpoint ref_start (t : tableref) : Prop :=
  match t with
  | TRTable _ _ _ _ _ _ => True
  | TRDerived _ _ _ _ _ _ => False
  | TRCross l _ | TRQualified l _ _ _ | TRNatural l _ _ => ref_start l
  end.
(** Not CREATE INDEX and EXPLAIN. *)
Definition stmt_start (s : stmt) : Prop :=
  match s with
  | StQuery q => query_start q
  | StCreateIndex _ _ _ _ _ _ _ _ | StExplain _ _ => False
  | _ => True
  end.

Definition start_known (z : any) : Prop :=
  match z with
  | AExpr e => knows_start e
  | AOp o => op_type o <> ONot
  | AWin w => win_start w
  | AOrder (OrderBy e _ _) => knows_start e
  | AQuery q => query_start q
  | ASet s => set_start s
  | AItem i => item_start i
  | ARef t | AElement t => ref_start t
  | AJoinType j => no_pos (jt_from j) = false
  | ASpec s => match s with JUsing _ _ _ => False | JOn _ _ => True end
  | AType t => type_start t
  | AStmt s => stmt_start s
  | ASource s => match s with ISSubQuery q => query_start q | ISConstructor _ _ => False end
  | AName _ | ACte _ | ARow _ | AAssign _ | AElem _ | ATSpec _ | ARefKey _ | ACSpec _ | AAction _ | AColAction _ | AOption _ | ADecor _ => True
  | AFile _ | AFrame _ | AUnit _ | ABound _ | ASetOp _ | ALimit _ | ACCons _ | AGroup _ | AComment _ => False
  end.

(* ------------------------------------------------------------------ *)
(** ** Ends *)

(** Not DATE, TIME, TIMESTAMP, REGCLASS, TEXT, BYTEA, TEXT[] and not VARCHAR
    without a size. *)
Definition type_end (t : dtype) : Prop :=
  match t with
  | TVarchar n _ v _ => n <> None \/ no_pos v = false
  | TDate _ _ | TTime _ _ | TTimestamp _ _ _ | TRegclass _ _ | TText _ _ | TBytea _ _ | TArray _ _ => False
  | _ => True
  end.
(** No ASC or DESC. *)
Definition order_end (o : orderby) : Prop := match o with OrderBy e _ a => a = None /\ knows_end e end.
Definition win_end (w : winspec) : Prop :=
  match w with
  | WinSpec p o f _ _ => f = None /\ match o with [] => ends_with knows_end p | _ => ends_with order_end o end
  end.
(** A number without OFFSET. *)
Definition limit_end (l : limitexpr) : Prop := lim_value l <> None /\ lim_offset l = None.
Definition item_end (i : selitem) : Prop :=
  match i with SIUnnamed e => knows_end e | SIQualWildcard _ => False | _ => True end.
Definition spec_end (s : joinspec) : Prop := match s with JUsing _ _ _ => False | JOn e _ => knows_end e end.
(** The last table has no hints and, unless it has an alias, it is neither a
    subquery nor a table function. *)
Fixpoint ref_end (t : tableref) : Prop :=
  match t with
  | TRTable _ alias args _ hints _ => hints = [] /\ (alias <> None \/ args = [])
  | TRDerived _ _ _ _ _ alias => alias <> None
  | TRCross _ r | TRNatural _ _ r => ref_end r
  | TRQualified _ _ _ s => spec_end s
  end.
Definition select_end (s : select) : Prop :=
  match s with
  | Select _ proj from where_ gby having _ =>
      match having, gby, where_, from with
      | Some e, _, _, _ => knows_end e
      | None, _ :: _, _, _ => ends_with knows_end gby
      | None, [], Some e, _ => knows_end e
      | None, [], None, _ :: _ => ends_with ref_end from
      | None, [], None, [] => ends_with item_end proj
      end
  end.
Fixpoint set_end (s : setexpr) : Prop :=
  match s with SSelect x => select_end x | SQuery _ _ _ => False | SSetOp _ _ _ r => set_end r end.
Definition query_end (q : query) : Prop :=
  match q with
  | Query _ _ body oby lim =>
      match lim, oby with
      | Some l, _ => limit_end l
      | None, _ :: _ => ends_with order_end oby
      | None, [] => set_end body
      end
  end.
Definition source_end (s : insertsource) : Prop := match s with ISSubQuery q => query_end q | ISConstructor _ _ => True end.
Definition assign_end (a : assignment) : Prop := knows_end (as_value a).
Definition cspec_end (s : ccspec) : Prop := match s with CCUnique false _ _ _ => False | _ => True end.
(** The column has constraints and nothing else after its type. *)
Definition col_end (c : columndef) : Prop :=
  cd_default c = None /\ cd_decorations c = [] /\ ends_with (fun x => cspec_end (cc_spec x)) (cd_constraints c).
Definition elem_end (e : tableelement) : Prop := match e with TEColumn c => col_end c | TEConstraint _ => True end.
Definition colact_end (a : altercolaction) : Prop :=
  match a with ACSetDefault _ e => knows_end e | ACType _ t => type_end t | _ => True end.
Definition action_end (a : altertableaction) : Prop :=
  match a with ATAddColumn _ c => col_end c | ATAlterColumn _ _ a => colact_end a | _ => True end.
(** Not CREATE TABLE, and not CREATE INDEX without WHERE. *)
Fixpoint stmt_end (s : stmt) : Prop :=
  match s with
  | StQuery q | StCreateView _ _ q _ => query_end q
  | StInsert _ _ _ src ups => match ups with [] => source_end src | _ => ends_with assign_end ups end
  | StUpdate _ _ ass sel => match sel with Some e => knows_end e | None => ends_with assign_end ass end
  | StDelete _ _ sel => match sel with Some e => knows_end e | None => True end
  | StCreateTable _ _ _ _ _ => False
  | StAlterTable _ _ a => action_end a
  | StCreateIndex _ _ _ _ _ _ _ sel => match sel with Some e => knows_end e | None => False end
  | StExplain s _ => stmt_end s
  | StDropTable _ _ _ _ _ | StDropIndex _ _ => True
  end.

Definition end_known (z : any) : Prop :=
  match z with
  | AExpr e => knows_end e
  | AOp o => op_type o <> ONot /\ op_type o <> ONotLike
  | AWin w => win_end w
  | AOrder o => order_end o
  | AQuery q => query_end q
  | ASet s => set_end s
  | AItem i => item_end i
  | ARef t | AElement t => ref_end t
  | AJoinType j => no_pos (jt_to j) = false /\ jt_cond j <> JLEFTOUTER
  | ASpec s => spec_end s
  | ALimit l => limit_end l
  | AType t => type_end t
  | AStmt s => stmt_end s
  | ASource s => source_end s
  | AAssign a => assign_end a
  | AElem e => elem_end e
  | ACCons c => cspec_end (cc_spec c)
  | ACSpec s => cspec_end s
  | AAction a => action_end a
  | AColAction a => colact_end a
  | AName _ | ARow _ | ATSpec _ | ARefKey _ | AOption _ | ADecor _ => True
  | AFile _ | AFrame _ | AUnit _ | ABound _ | ACte _ | ASetOp _ | AGroup _ | AComment _ => False
  end.

(* ------------------------------------------------------------------ *)
(** ** Extents *)

(** Tokens the parser drops at the end of a node: the parenthesis of FROM f(,
    an AS or CONSTRAINT name that nothing follows. *)
Definition left_over (u : list token) : Prop :=
  u = [] \/
  (exists t, u = [t] /\ (tkind t = LParen \/ spells "AS" t)) \/
  (exists t t', u = [t; t'] /\ (tkind t = LParen /\ spells "AS" t' \/ spells "CONSTRAINT" t)).

(** [ts] is where the node says it is. *)
Definition spans (z : any) (ts : list token) : Prop :=
  (start_known z -> Pos z = first_from ts /\ ts <> []) /\
  (end_known z -> exists ts' u, ts = ts' ++ u /\ left_over u /\ End z = last_to ts' /\ ts' <> []).

(** The number after OFFSET has the positions of the word. *)
Definition offset_number (z : any) (ts : list token) : Prop := exists e, z = AExpr e /\ is_offset e ts.

Definition at_or_before (p q : pos) : Prop := p = q \/ before p q.
