(** Which word begins which statement (C78). *)
From Coq Require Import List String.
From Verif Require Import Base Token AST.
Import ListNotations.
Open Scope list_scope.

(** The words a statement can begin with, by the type of its tree. *)
Definition first_words (s : stmt) : list string :=
  match s with
  | StQuery _ => ["SELECT"; "WITH"]
  | StInsert _ _ _ _ _ => ["INSERT"]
  | StUpdate _ _ _ _ => ["UPDATE"]
  | StDelete _ _ _ => ["DELETE"]
  | StCreateView _ _ _ _ | StCreateTable _ _ _ _ _ | StCreateIndex _ _ _ _ _ _ _ _ => ["CREATE"]
  | StAlterTable _ _ _ => ["ALTER"]
  | StDropTable _ _ _ _ _ | StDropIndex _ _ => ["DROP"]
  | StExplain _ _ => ["EXPLAIN"]
  end%string.

(** A token that is one of the words, in upper case. *)
Definition one_of (words : list string) (t : token) : Prop :=
  exists w, tval t = VWord w /\ In (upper (wvalue w)) (map gs words).

(** The tokens begin with a word for the statement, and behind EXPLAIN with a
    word for the statement explained. *)
Fixpoint opens (s : stmt) (ts : list token) {struct ts} : Prop :=
  match ts with
  | [] => False
  | t :: ts => one_of (first_words s) t /\ match s with StExplain s' _ => opens s' ts | _ => True end
  end.

(** The words for statements that are not queries. *)
Definition other_words : list string := ["INSERT"; "UPDATE"; "DELETE"; "CREATE"; "ALTER"; "DROP"]%string.

(** A query, or the explanation of one. *)
Fixpoint only_query (s : stmt) : bool :=
  match s with StQuery _ => true | StExplain s' _ => only_query s' | _ => false end.

(** The second word of a statement, by the type of its tree; none for the others. *)
Definition second_words (s : stmt) : list string :=
  match s with
  | StCreateTable _ _ _ _ _ | StAlterTable _ _ _ | StDropTable _ _ _ _ _ => ["TABLE"]
  | StCreateView _ _ _ _ => ["MATERIALIZED"; "VIEW"]
  | StCreateIndex _ _ _ _ _ _ _ _ => ["INDEX"; "UNIQUE"]
  | StDropIndex _ _ => ["INDEX"]
  | StInsert _ _ _ _ _ => ["INTO"]
  | StDelete _ _ _ => ["FROM"]
  | StQuery _ | StUpdate _ _ _ _ | StExplain _ _ => []
  end%string.

(** A token that is one of the words up to case (strings.EqualFold). *)
Definition one_of_fold (words : list string) (t : token) : Prop :=
  exists w k, tval t = VWord w /\ In k words /\ equal_fold (wvalue w) (gs k) = true.

Fixpoint goes_on (s : stmt) (ts : list token) {struct ts} : Prop :=
  match ts with
  | [] => False
  | _ :: ts =>
      match s with
      | StExplain s' _ => goes_on s' ts
      | _ => second_words s = [] \/ match ts with [] => False | t :: _ => one_of_fold (second_words s) t end
      end
  end.

(** The statement behind the EXPLAINs. *)
Fixpoint explained (s : stmt) : stmt := match s with StExplain s' _ => explained s' | _ => s end.
