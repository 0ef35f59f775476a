(** Which node a comment group belongs to (C43). *)
From Coq Require Import ZArith String List Bool.
From Verif Require Import Base Dialect Token AST Nodes PosEnd LexSpec.
Import ListNotations.
Open Scope Z_scope.

(** Comment groups one after the other. *)
Definition group_span (g : commentgroup) (s e : pos) : Prop := pos_group g = Some s /\ end_group g = Some e.
Definition follows (a b : commentgroup) : Prop :=
  forall s e s' e', group_span a s e -> group_span b s' e' -> ~ before s' s /\ ~ before e' e.
Fixpoint in_order (l : list commentgroup) : Prop :=
  match l with
  | [] => True
  | a :: l' => (forall s e, group_span a s e -> ~ before e s) /\ (forall b, In b l' -> follows a b) /\ in_order l'
  end.

(** The place of the first node that does not start before [e], or the number
    of nodes if all do. *)
Definition next_place (l : list any) (e : pos) (q : nat) : Prop :=
  (q <= List.length l)%nat /\
  (forall i x, (i < q)%nat -> nth_error l i = Some x -> exists p, Pos x = Some p /\ before p e) /\
  (forall x, nth_error l q = Some x -> exists p, Pos x = Some p /\ ~ before p e).

(** The line on which the next node starts; 2^30 stands for none. *)
Definition next_line (l : list any) (q : nat) (n : Z) : Prop :=
  match nth_error l q with
  | Some x => exists p, Pos x = Some p /\ pline p = n
  | None => n = 2 ^ 30
  end.

(** A comment from [s] to [e] is close to what ends at [p]: it starts on that
    line, or on the line after it and is not on the line just before the next
    node either. *)
Definition close_to (p s e : pos) (n : Z) : Prop :=
  pline p = pline s \/ (pline p + 1 = pline s /\ pline e + 1 < n).

(** Statements, columns and table constraints. *)
Definition holder (x : any) : Prop :=
  In (gotype x) ["QueryStmt"; "InsertStmt"; "UpdateStmt"; "DeleteStmt"; "CreateViewStmt"; "CreateTableStmt"; "AlterTableStmt";
    "DropTableStmt"; "CreateIndexStmt"; "DropIndexStmt"; "ExplainStmt"; "ColumnDef"; "TableConstraint"]%string.

(** The places a group may have, with [q] the place of the next node: that of
    a holder that ends before the group and is close to it; that of the node
    just before the next if it is close or there is no next; that of the next
    if the node before is not close. *)
Definition belongs (l : list any) (g : commentgroup) (k : nat) : Prop :=
  exists s e q n, group_span g s e /\ next_place l e q /\ next_line l q n /\
    ((exists x p, nth_error l k = Some x /\ holder x /\ (k < q)%nat /\ End x = Some p /\ ~ before s p /\ close_to p s e n) \/
     (exists x p, q = S k /\ nth_error l k = Some x /\ End x = Some p /\ (close_to p s e n \/ q = List.length l)) \/
     (k = q /\ (q < List.length l)%nat /\ (forall x p, q <> O -> nth_error l (pred q) = Some x -> End x = Some p -> ~ close_to p s e n))).

(** The holder at place [k] has ended when the group begins and is the
    outermost such: what is listed between it and the next node lies in it,
    and holders listed before it end before it starts or are still open. *)
Definition just_ended (l : list any) (g : commentgroup) (k : nat) : Prop :=
  exists s e q x from to, group_span g s e /\ next_place l e q /\ nth_error l k = Some x /\ holder x /\ (k < q)%nat /\
    Pos x = Some from /\ End x = Some to /\ ~ before s to /\
    (forall i z, (k < i < q)%nat -> nth_error l i = Some z -> forall p, Pos z = Some p -> before p to) /\
    (forall i z, (k < i < q)%nat -> nth_error l i = Some z -> holder z -> forall p, End z = Some p -> ~ before to p) /\
    (forall i y, (i < k)%nat -> nth_error l i = Some y -> holder y -> forall p, End y = Some p -> ~ before from p \/ before s p).

(** It is close to the group. *)
Definition near_end (l : list any) (g : commentgroup) (k : nat) : Prop :=
  exists s e q x to n, group_span g s e /\ next_place l e q /\ next_line l q n /\ nth_error l k = Some x /\ End x = Some to /\ close_to to s e n.
