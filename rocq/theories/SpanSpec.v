(** Which expressions know where they start and end (C38), and which parsed
    nodes have no position (C30). *)
From Coq Require Import ZArith String List Bool.
From Verif Require Import Base Dialect Token AST Nodes Grammar PosEnd.
Import ListNotations.
Open Scope Z_scope.

(** Where a list of tokens starts and ends. *)
Definition first_from (ts : list token) : option pos := match ts with t :: _ => Some (tfrom t) | [] => None end.
Fixpoint last_to (ts : list token) : option pos :=
  match ts with [] => None | t :: l => match l with [] => Some (tto t) | _ => last_to l end end.

(** The expression does not start with a subquery or with an operand of ::. *)
Fixpoint knows_start (e : node) : Prop :=
  match e with
  | EIsNull x | EIsNotNull x | EInList x _ _ _ | EInSubQuery x _ _ _ | EBetween x _ _ _ | EBinary x _ _ => knows_start x
  | ECast _ _ c _ => no_pos c = false
  | ESubQuery _ _ _ => False
  | _ => True
  end.

(** The expression does not end with a subquery, IS (NOT) NULL, ::, a qualified
    wildcard or OVER (...). *)
Fixpoint knows_end (e : node) : Prop :=
  match e with
  | EIsNull _ | EIsNotNull _ | EQualWildcard _ | ESubQuery _ _ _ => False
  | EBetween _ _ _ x | EBinary _ _ x | EUnary _ _ x => knows_end x
  | ECast _ _ c _ => no_pos c = false
  | EFunction _ _ _ o _ => o = None
  | _ => True
  end.

(** [ts] is where the expression says it is. *)
Definition extends_over (e : node) (ts : list token) : Prop :=
  (knows_start e -> Pos (AExpr e) = first_from ts /\ ts <> []) /\
  (knows_end e -> End (AExpr e) = last_to ts /\ ts <> []).

(** The number after OFFSET, whose positions are those of the word OFFSET. *)
Definition is_offset (e : node) (ts : list token) : Prop :=
  exists v t n, e = ELong v /\ ts = [t; n] /\ spells "OFFSET" t /\ Pos (AExpr e) = Some (tfrom t) /\ End (AExpr e) = Some (tto t).

(** The asterisk is one column wide, as the tokenizer makes it. *)
Definition star_width (t : token) : Prop :=
  tkind t = Mult -> tto t = mkPos (pline (tfrom t)) (pcol (tfrom t) + 1).

(** What parsed trees may lack: files without statements, OVER (), CREATE TABLE
    without elements, columns without constraints. *)
Definition lacks (z : any) : Prop :=
  match z with
  | AFile f => f_stmts f = []
  | AWin (WinSpec p o f _ _) => p = [] /\ o = [] /\ f = None
  | AStmt (StCreateTable _ _ e _ _) => e = []
  | AElem (TEColumn c) => cd_constraints c = []
  | _ => False
  end.
