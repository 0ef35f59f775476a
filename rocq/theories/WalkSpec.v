(** What walking a tree means (properties C31-C34). *)
From Coq Require Import ZArith List Bool.
From Verif Require Import Base Dialect Token AST Nodes.
Import ListNotations.
Open Scope Z_scope.

Definition somes {A} (l : list (option A)) : list A :=
  flat_map (fun o => match o with Some a => [a] | None => [] end) l.

(** The order in which the sub-nodes of a node come: that of the struct fields,
    except that a CTE's query comes before its name and a CROSS JOIN's second
    operand before its first; of a CASE only the operand, of a file only the
    statements, of CREATE TABLE not the options, of a column not the MySQL
    decorations, of USING not the columns, and nothing of an array or custom type.
    [None] is the nil node that stands for the missing operand of a CASE and the
    missing WHERE of an UPDATE. *)
Definition order (x : any) : list (option any) :=
  match x with
  | AFile f => map (fun s => Some (of_stmt s)) (f_stmts f)
  | AExpr (ECase _ _ operand _ _) => [option_map AExpr operand]
  | ACte (CTE alias q _) => [Some (AQuery q); Some (AIdent alias)]
  | ARef (TRCross reference factor) => [Some (ARef factor); Some (ARef reference)]
  | ASpec (JUsing _ _ _) => []
  | AType _ => []
  | AStmt (StUpdate _ table assigns selection) =>
      [Some (AName table)] ++ map (fun a => Some (AAssign a)) assigns ++ [option_map AExpr selection]
  | AStmt (StCreateTable _ name elements _ _) =>
      Some (AName name) :: map (fun e => Some (AElem e)) elements
  | AElem (TEColumn c) =>
      [Some (AIdent (cd_name c)); Some (AType (cd_type c))] ++
      match cd_default c with Some e => [Some (AExpr e)] | None => [] end ++
      map (fun c => Some (ACCons c)) (cd_constraints c)
  | _ => map Some (subnodes x)
  end.

(** The sub-nodes left out of [order]. *)
Definition hidden (x : any) : list any :=
  match x with
  | AFile f => map AGroup (f_comments f)
  | AExpr (ECase _ _ _ branches else_) =>
      map AExpr (map fst branches) ++ map AExpr (map snd branches) ++
      match else_ with Some e => [AExpr e] | None => [] end
  | ASpec (JUsing columns _ _) => map AIdent columns
  | AType (TArray ty _) => [AType ty]
  | AType (TCustom name) => [AName name]
  | AStmt (StCreateTable _ _ _ _ options) => map AOption options
  | AElem (TEColumn c) => map ADecor (cd_decorations c)
  | _ => []
  end.

(** A nil node is passed on by these nodes only. *)
Definition passes_nil (x : any) : Prop :=
  match x with
  | AExpr (ECase _ _ None _ _) => True
  | AStmt (StUpdate _ _ _ None) => True
  | _ => False
  end.

(** Nodes of the types Walk knows. *)
Definition walkable (x : any) : Prop :=
  match x with AOption _ | ADecor _ | AGroup _ | AComment _ => False | _ => True end.

(** The nodes reached from a node. *)
Inductive reach : any -> any -> Prop :=
| reach_self x : reach x x
| reach_sub x y z : In (Some y) (order x) -> reach y z -> reach x z.

(** A call of Visit: its argument ([None]: nil) and whether it answered with a
    visitor. *)
Definition call := (option any * bool)%type.

(** The calls made by a complete walk of [x]: Visit(x); if the answer is nil
    nothing more, otherwise the walks of the sub-nodes in order and Visit(nil). *)
Inductive walked : option any -> list call -> Prop :=
| walked_nil : walked None [(None, false)]
| walked_skip x : walked (Some x) [(Some x, false)]
| walked_enter x l b : walkable x -> walked_all (order x) l -> walked (Some x) ((Some x, true) :: l ++ [(None, b)])
with walked_all : list (option any) -> list call -> Prop :=
| walked_none : walked_all [] []
| walked_more x xs l ls : walked x l -> walked_all xs ls -> walked_all (x :: xs) (l ++ ls).

(** The calls made by a walk that panics: one was answered by a visitor although
    its argument was nil or of a type Walk does not know, and everything before
    it went as it should. *)
Inductive broken : option any -> list call -> Prop :=
| broken_nil : broken None [(None, true)]
| broken_type x : ~ walkable x -> broken (Some x) [(Some x, true)]
| broken_below x before y after l l' :
    walkable x -> order x = before ++ y :: after -> walked_all before l -> broken y l' ->
    broken (Some x) ((Some x, true) :: l ++ l').

(** A visitor that writes down its calls. *)
Definition noting {S} (visit : S -> option any -> S * bool) (s : S * list call) (x : option any)
  : (S * list call) * bool :=
  let '(s', b) := visit (fst s) x in ((s', snd s ++ [(x, b)]), b).

(** The nodes of a tree in walking order, parents first. *)
Inductive preorder : any -> list any -> Prop :=
| preorder_node x ls : preorders (somes (order x)) ls -> preorder x (x :: ls)
with preorders : list any -> list any -> Prop :=
| preorders_nil : preorders [] []
| preorders_cons x xs l ls : preorder x l -> preorders xs ls -> preorders (x :: xs) (l ++ ls).

(** The nodes of a tree by its fields, to a depth (for examples). *)
Fixpoint nodes_to (n : nat) (x : any) : list any :=
  match n with O => [x] | S m => x :: flat_map (nodes_to m) (subnodes x) end.
