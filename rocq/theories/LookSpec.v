(** How far a call looks ahead (C54). *)
From Coq Require Import ZArith List Bool String.
From Verif Require Import Base Token AST Prog Parser Erase ParseSpec.
Import ListNotations.
Open Scope Z_scope.

(** How many tokens a call looks at behind what it read as a statement.  INSERT
    may be followed by ON DUPLICATE KEY UPDATE, a query by ORDER BY. *)
Fixpoint stmt_looks (s : stmt) : nat :=
  match s with
  | StInsert _ _ _ _ _ => 4
  | StQuery _ | StCreateView _ _ _ _ => 2
  | StExplain s _ => stmt_looks s
  | _ => 1
  end.

(** The methods with the number of tokens they look at behind what they read.
    ParseSQL and ParseFile read everything. *)
Inductive looks : forall A, (rec -> prog A) -> ((pos -> pos) -> (rune -> rune) -> A -> A) -> (A -> nat) -> Prop :=
| looks_expr : looks node parse_expr er_node (fun _ => 1%nat)
| looks_type : looks dtype parse_data_type er_dtype (fun _ => 1%nat)
| looks_stmt : looks stmt parse_statement er_stmt stmt_looks.
Arguments looks {A} P erA K.

(** The tokens left that are neither blanks nor comments, without positions. *)
Definition left_over (ts : list token) : list (kind * tvalue) := map kv (sig ts).

(** A call on one token list and on another: what the first one read is also the
    start of the second, and so are the [K] tokens after it (the end of the
    list in one is the end in the other). *)
Definition same_start (K : nat) (todo rest todo' : list token) : Prop :=
  let n := (List.length (sig todo) - List.length (sig rest))%nat in
  firstn (n + K) (left_over todo') = firstn (n + K) (left_over todo).

(** Statements of the same Go type. *)
Definition same_sort (s s' : stmt) : Prop :=
  match s, s' with
  | StQuery _, StQuery _ | StInsert _ _ _ _ _, StInsert _ _ _ _ _ | StUpdate _ _ _ _, StUpdate _ _ _ _
  | StDelete _ _ _, StDelete _ _ _ | StCreateView _ _ _ _, StCreateView _ _ _ _
  | StCreateTable _ _ _ _ _, StCreateTable _ _ _ _ _ | StAlterTable _ _ _, StAlterTable _ _ _
  | StDropTable _ _ _ _ _, StDropTable _ _ _ _ _ | StCreateIndex _ _ _ _ _ _ _ _, StCreateIndex _ _ _ _ _ _ _ _
  | StDropIndex _ _, StDropIndex _ _ | StExplain _ _, StExplain _ _ => True
  | _, _ => False
  end.
