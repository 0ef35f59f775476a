(** Property C43: the node a comment belongs to. *)
From Coq Require Import ZArith String List Bool Lia.
From Verif Require Import Base Dialect Token Lexer AST Prog Parser LexSpec Nodes WalkSpec PosEnd CommentMap MapSpec RuleSpec RuleThms.
Import ListNotations.
Open Scope Z_scope.

(** C43.  When the comment groups of a file are in order, NewCommentMap gives
    every group to a node allowed by [belongs]: a statement, column or
    constraint that ended close before it, the node just before it, or the next
    node.  If a statement, column or constraint is the outermost that has ended
    when the group begins, and it is close, it is the one. *)
Theorem C43_rule : forall f m, NewCommentMap f = CMMap m -> in_order (f_comments f) ->
  exists l places, preorder (AFile f) l /\
    Forall2 (fun g k => belongs l g k /\ forall k0, just_ended l g k0 -> near_end l g k0 -> k = k0) (f_comments f) places /\
    forall k, cm_get m k = given places (f_comments f) k.
Proof. exact comment_rule. Qed.
Print Assumptions C43_rule.

(** In parsed files they are in order. *)
Theorem C43_parsed_files_in_order : forall d src f, dialect_ok d -> parse_file d src = ROk f -> in_order (f_comments f).
Proof. exact parsed_in_order. Qed.
Print Assumptions C43_parsed_files_in_order.

(** A group on lines of its own, with nothing ending on its first line or the
    line above, belongs to the next node. *)
Theorem C43_comment_above : forall l g k s e q, belongs l g k -> group_span g s e -> next_place l e q -> (q < List.length l)%nat ->
  (forall x p, In x l -> End x = Some p -> pline p <> pline s /\ pline p + 1 <> pline s) -> k = q.
Proof. exact above. Qed.
Print Assumptions C43_comment_above.

(** Cases: a comment after a column on its line, one after a statement on its
    line, one above a statement. *)
Definition source : string := "CREATE TABLE t (a int NOT NULL, -- of a
 b int NOT NULL); -- of t

-- of the query
SELECT c FROM t;".
Definition the_file : file := match parse_file generic (gs source) with ROk f => f | _ => mkFile [] [] end.
Definition the_nodes : list any := match node_list the_file with Some l => l | None => [] end.
Definition group (n : nat) : commentgroup := nth n (f_comments the_file) [].

Example C43_nodes : map gotype the_nodes =
  ["File"; "CreateTableStmt"; "ObjectName"; "Ident"; "ColumnDef"; "Ident"; "Int"; "ColumnConstraint"; "NotNullColumnSpec";
   "ColumnDef"; "Ident"; "Int"; "ColumnConstraint"; "NotNullColumnSpec";
   "QueryStmt"; "SQLSelect"; "UnnamedSelectItem"; "Ident"; "Table"; "ObjectName"; "Ident"]%string.
Proof. vm_compute. reflexivity. Qed.
Example C43_map : match NewCommentMap the_file with
  | CMMap m => m = [(4%nat, [group 0]); (1%nat, [group 1]); (14%nat, [group 2])]
  | _ => False
  end.
Proof. vm_compute. reflexivity. Qed.

(** The column [a] has just ended when the first comment begins, the table when
    the second does, and both are close. *)
Example C43_case : just_ended the_nodes (group 0) 4 /\ near_end the_nodes (group 0) 4 /\
  just_ended the_nodes (group 1) 1 /\ near_end the_nodes (group 1) 1.
Proof.
  assert (A : check the_nodes (group 0) 4 9 = true) by (vm_compute; reflexivity).
  assert (B : check the_nodes (group 1) 1 14 = true) by (vm_compute; reflexivity).
  apply check_sound in A, B. intuition.
Qed.
