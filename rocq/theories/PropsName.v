(** Property C74: which names can be put into a tree by hand. *)
From Coq Require Import ZArith List Bool String Lia.
From Verif Require Import Base Dialect Token Lexer LexSpec LexFacts AST Prog Parser Printer NameSpec NameThms.
Import ListNotations.
Open Scope list_scope.
Open Scope Z_scope.

(** C74.  The column NewIdent(s), printed and read again with ParseExpr, is the
    column [s] exactly when [s] is a usable name. *)
Theorem C74_names : forall d s, dialect_ok d ->
  ((exists i, parse_expr_source d (sql_node (EIdent (new_ident s))) = ROk (EIdent i) /\ id_value i = s) <-> usable d s).
Proof. exact names. Qed.
Print Assumptions C74_names.

(** Plain and delimited names, and texts that are none. *)
Definition again (d : dialect) (s : gostring) : bool :=
  match parse_expr_source d (sql_node (EIdent (new_ident s))) with ROk (EIdent i) => gs_eqb (id_value i) s | _ => false end.
Example C74_ex :
  usable generic (gs "customer_id") /\ usable generic (34 :: gs "my table; --" ++ [34]) /\ usable generic (gs "select") /\
  map (again generic) [gs "customer_id"; 34 :: gs "my table; --" ++ [34]; gs "select"] = [true; true; true] /\
  map (again generic) [gs ""; gs "my table"; gs "a.b"; gs "1a"; gs "not"; 34 :: gs "not" ++ [34]; gs "a--"; gs "a "] =
    [false; false; false; false; false; false; false; false] /\
  again generic (96 :: gs "a" ++ [96]) = false /\ again mysql (96 :: gs "a" ++ [96]) = true.
Proof.
  split; [|split; [|split]].
  - split; [discriminate|]. exists (gs "customer_id"). split; [left; split; [reflexivity|]|vm_compute; intuition discriminate].
    exists 99, (gs "ustomer_id"). vm_compute. auto.
  - split; [discriminate|]. exists (gs "my table; --"). split; [right; exists 34|vm_compute; intuition discriminate].
    split; [reflexivity|]. split; [reflexivity|]. vm_compute. intuition discriminate.
  - split; [discriminate|]. exists (gs "select"). split; [left; split; [reflexivity|]|vm_compute; intuition discriminate].
    exists 115, (gs "elect"). vm_compute. auto.
  - vm_compute. repeat split; reflexivity.
Qed.

(** "A delimited name is always read as a name" is false: the parser looks at
    the keyword of a word and not at its quotes. *)
Theorem C74_quoted_refuted : exists inner, ~ In 34 inner /\
  exists b, parse_expr_source generic (sql_node (EIdent (new_ident (34 :: inner ++ [34])))) = ROk b /\ forall i, b <> EIdent i.
Proof.
  exists (gs "true"). split; [vm_compute; intuition discriminate|]. eexists. split; [vm_compute; reflexivity|]. intros i. discriminate.
Qed.
Print Assumptions C74_quoted_refuted.

(** "A name that is not usable is refused" is false: it may be read as an
    expression of its own. *)
Theorem C74_refused_refuted : exists s a o b, ~ usable generic s /\
  parse_expr_source generic (sql_node (EIdent (new_ident s))) = ROk (EBinary a o b).
Proof.
  exists (gs "id or 1=1"). do 3 eexists. split; [|vm_compute; reflexivity].
  intros U. apply (C74_names generic) in U; [|apply (proj1 shipped_ok)]. destruct U as (i & E & _). vm_compute in E. discriminate E.
Qed.
Print Assumptions C74_refused_refuted.
