(** What a comment map is (C29) and which trees have positions (C30). *)
From Coq Require Import ZArith List Bool.
From Verif Require Import Base Dialect Token AST Nodes.
Import ListNotations.
Open Scope Z_scope.

(** The groups out of [cs] that were given to place [k], in order, when
    [places] tells for every group where it went. *)
Definition given (places : list nat) (cs : list commentgroup) (k : nat) : list commentgroup :=
  map snd (filter (fun e => Nat.eqb (fst e) k) (combine places cs)).

(** What a node needs in order to have a position and an end. *)
Definition has_parts (x : any) : Prop :=
  match x with
  | AFile f => f_stmts f <> []
  | AExpr (EQualWildcard l) | AExpr (ECompound l) => l <> []
  | AName n => on_idents n <> []
  | AWin (WinSpec p o f _ _) => p <> [] \/ o <> [] \/ f <> None
  | ASet (SSelect (Select _ p f w g h _)) => p <> [] \/ f <> [] \/ w <> None \/ g <> [] \/ h <> None
  | AStmt (StUpdate _ _ a w) => a <> [] \/ w <> None
  | AStmt (StCreateTable _ _ e _ _) => e <> []
  | AStmt (StDropTable l b _ _ _) => l <> [] \/ b = true
  | AStmt (StDropIndex _ l) => l <> []
  | ASource (ISConstructor _ r) => r <> []
  | AElem (TEColumn c) => cd_constraints c <> []
  | AGroup g => g <> []
  | _ => True
  end.
