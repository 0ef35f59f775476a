(** All nodes of a tree, for bounds on their number (property C52). *)
From Coq Require Import List.
From Verif Require Import AST Nodes.
Import ListNotations.

(** A node followed by the nodes of its sub-trees, field by field. *)
Inductive tree : any -> list any -> Prop :=
| tree_node x ls : trees (subnodes x) ls -> tree x (x :: ls)
with trees : list any -> list any -> Prop :=
| trees_nil : trees [] []
| trees_cons x xs l ls : tree x l -> trees xs ls -> trees (x :: xs) (l ++ ls).

(** A chain of nodes each directly inside the one before. *)
Inductive nested : any -> nat -> Prop :=
| nested_self x : nested x 1
| nested_in x y n : In y (subnodes x) -> nested y n -> nested x (S n).
