(** The trees of C18: those whose text means the same again.  The excluded
    classes are the defects of the printer, one line each. *)
From Coq Require Import ZArith List Bool String.
From Verif Require Import Base Dialect Token AST Num Nodes Grammar Render.
Import ListNotations.
Open Scope list_scope.
Open Scope Z_scope.

(** A single node is printed in a form that can be read:
    - string literals are printed without escaping their quotes;
    - a decimal number with an integral value is printed as an integer;
    - the arguments of a table function are printed but not read completely;
    - DEFAULT is printed before NOT NULL, which takes a weaker expression apart;
    - a table without elements and an index without columns get [()];
    - several table options are printed with a comma, which ends them. *)
Definition clean (x : any) : bool :=
  match x with
  | AExpr (EString _ _ s) | AExpr (ENString _ _ s) => negb (existsb (fun c => c =? 39) s)
  | AExpr (EDouble _ _ f) => existsb (fun c => c =? 46) (format_float f)
  | ARef (TRTable _ _ (_ :: _) _ _ _) => false
  | AElem (TEColumn c) =>
      match cd_default c, cd_decorations c, cd_constraints c with
      | Some e, [], mkCC None _ (CCNotNull _ _) :: _ => level ONot <=? open_right e
      | _, _, _ => true
      end
  | AStmt (StCreateTable _ _ els _ opts) =>
      match els, opts with [], _ | _, _ :: _ :: _ => false | _, _ => true end
  | AStmt (StCreateIndex _ _ _ _ _ [] _ _) => false
  | _ => true
  end.

(** Every node of the tree is. *)
Definition printable (x : any) : Prop := forall z, within x z -> clean z = true.
