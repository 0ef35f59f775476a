(** Vocabulary for comments (property C28). *)
From Coq Require Import ZArith List Bool.
From Verif Require Import Base Token AST.
Import ListNotations.
Open Scope Z_scope.

(** The comment of a comment token: its text and span. *)
Definition comment_of (t : token) : comment :=
  mkComment (match tval t with VStr s => s | VWord _ => [] end) (tfrom t) (tto t).
Definition is_comment (t : token) : bool := match tkind t with Comment => true | _ => false end.

(** The comments of a token list, in order. *)
Definition comments (l : list token) : list comment := map comment_of (filter is_comment l).
