(** Property C64: what genmark generates. *)
From Coq Require Import ZArith List Bool String.
From Verif Require Import Base Genmark GenmarkSpec CharSpec GenmarkThms.
Import ListNotations.
Open Scope Z_scope.

(** The command reports a wrong -t flag exactly if the name does not start with
    a capital, *)
Theorem C64_flag_errors : forall f, (exists m, genmark f = GFlag m) <-> ~ (exists c r, g_type f = c :: r /\ capital c).
Proof. exact genmark_errors. Qed.
Print Assumptions C64_flag_errors.

(** and else writes the marker interface with the embedded names and its type. *)
Theorem C64_file : forall f c r, g_type f = c :: r -> capital c ->
  ~ In 10 (g_type f) -> ~ In 10 (g_pkg f) -> ~ In 10 (g_embed f) ->
  exists impl out text l, to_private (g_type f) = Some impl /\ genmark f = GFile (out ++ gs "_gen.go") text /\
    (g_out f <> [] -> out = g_out f) /\ (g_out f = [] -> out = to_snake (g_type f)) /\
    lines text = marker_file (g_pkg f) (g_type f) impl l /\
    (g_embed f = [] -> l = []) /\ (g_embed f <> [] -> join [44] l = g_embed f /\ l <> [] /\ Forall (fun x => ~ In 44 x) l).
Proof. exact genmark_file. Qed.
Print Assumptions C64_file.

(** The type and the method are private, and different interfaces get different
    ones, as long as no name starts with "Sql". *)
Theorem C64_private : forall s n, (exists c r, s = c :: r /\ capital c) -> to_private s = Some n -> exists x r, n = x :: r /\ small x.
Proof. exact to_private_other. Qed.
Print Assumptions C64_private.

Theorem C64_private_distinct : forall s t n, (exists c r, s = c :: r /\ capital c) -> (exists c r, t = c :: r /\ capital c) ->
  ~ begins (gs "Sql") s -> ~ begins (gs "Sql") t -> to_private s = Some n -> to_private t = Some n -> s = t.
Proof. exact to_private_inj. Qed.
Print Assumptions C64_private_distinct.

(** A name in camel case becomes a file name in snake case, without capitals. *)
Theorem C64_snake : forall l, words_ok l -> to_snake (List.concat (map camel l)) = join [95] (map snake l).
Proof. exact to_snake_words. Qed.
Print Assumptions C64_snake.

Theorem C64_snake_small : forall l, words_ok l -> Forall (fun r => small r \/ r = 95) (to_snake (List.concat (map camel l))).
Proof. intros l H. rewrite to_snake_words by exact H. now apply snake_small. Qed.
Print Assumptions C64_snake_small.

(** Not so with other names: capitals stay, and two interfaces may get the same
    file and the same type. *)
Theorem C64_capitals_refuted : to_snake (gs "MyURLType") = gs "my_uRLType".
Proof. vm_compute. reflexivity. Qed.
Print Assumptions C64_capitals_refuted.

Theorem C64_same_file_refuted : exists s t, s <> t /\ to_snake s = to_snake t /\ to_private s = to_private t.
Proof. exists (gs "SQLBar"), (gs "SqlBar"). split; [discriminate|]. split; vm_compute; reflexivity. Qed.
Print Assumptions C64_same_file_refuted.

(** The interfaces of the package sqlast (the go:generate lines in sqlast):
    different files and types. *)
Definition sqlast_markers : list string :=
  ["SQLWindowFrameBound"; "SQLSetExpr"; "SQLSetOperator"; "TableReference"; "TableFactor"; "SQLSelectItem"; "JoinElement"; "JoinSpec";
   "Stmt"; "InsertSource"; "TableElement"; "TableConstraintSpec"; "MyDataTypeDecoration"; "AlterTableAction"; "AlterColumnAction"; "TableOption"]%string.
Example C64_ex :
  words_ok [SQLw; Word 83 (gs "et"); Word 69 (gs "xpr")] /\
  List.concat (map camel [SQLw; Word 83 (gs "et"); Word 69 (gs "xpr")]) = gs "SQLSetExpr" /\
  to_snake (gs "SQLSetExpr") = gs "sql_set_expr" /\ to_private (gs "SQLSetExpr") = Some (gs "sqlSetExpr") /\
  NoDup (map (fun s => to_snake (gs s)) sqlast_markers) /\ NoDup (map (fun s => to_private (gs s)) sqlast_markers) /\
  exists text, genmark (mkFlags (gs "Stmt") [] (gs "Node") (gs "sqlast")) = GFile (gs "stmt_gen.go") text.
Proof.
  split; [vm_compute; repeat split; repeat (constructor; try (split; discriminate)); discriminate|].
  split; [reflexivity|]. split; [vm_compute; reflexivity|]. split; [vm_compute; reflexivity|].
  assert (D : forall A (eqb : A -> A -> bool), (forall a b, eqb a b = true <-> a = b) -> forall l : list A,
    (fix nd l := match l with [] => true | x :: m => negb (existsb (eqb x) m) && nd m end) l = true -> NoDup l).
  { intros A eqb H l. induction l as [|x m IH]; intros E; constructor; apply andb_prop in E as [E1 E2]; auto.
    intros I. destruct (existsb (eqb x) m) eqn:X; [discriminate E1|]. assert (existsb (eqb x) m = true); [|congruence].
    apply existsb_exists. exists x. split; [exact I|]. now apply H. }
  split; [|split].
  - apply (D gostring (fun a b => if list_eq_dec Z.eq_dec a b then true else false)).
    + intros a b. destruct (list_eq_dec Z.eq_dec a b); split; congruence.
    + vm_compute. reflexivity.
  - apply (D (option gostring) (fun a b => match a, b with Some a, Some b => if list_eq_dec Z.eq_dec a b then true else false | None, None => true | _, _ => false end)).
    + intros [a|] [b|]; try (split; congruence). destruct (list_eq_dec Z.eq_dec a b); split; congruence.
    + vm_compute. reflexivity.
  - eexists. vm_compute. reflexivity.
Qed.
