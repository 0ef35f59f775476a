(** Properties C31-C33: Walk and Inspect. *)
From Coq Require Import ZArith String List Bool Permutation.
From Verif Require Import Base Dialect Token Lexer AST Prog Parser Nodes Walk WalkSpec WalkThms.
Import ListNotations.
Open Scope Z_scope.

(** C31.  For every visitor (with state [S]) and every node: the calls that
    Walk makes, written down by [noting], are those of a complete walk, or, if
    it panics, of a walk that stops at the first unknown or nil node that the
    visitor accepted.  [walked], [broken] and the [order] of the sub-nodes are
    in WalkSpec.v. *)
Theorem C31_walk_calls : forall S (visit : S -> option any -> S * bool) x s,
  exists s' log e, Walk visit x s = (s', e) /\ Walk (noting visit) x (s, []) = ((s', log), e) /\
    (e = WDone /\ walked (Some x) log \/ e = WPanic /\ broken (Some x) log).
Proof. exact @Walk_trace. Qed.
Print Assumptions C31_walk_calls.

(** A visitor that enters nodes but not the BinaryExpr nodes, counting calls. *)
Definition no_binary (n : nat) (x : option any) : nat * bool :=
  (S n, match x with Some (AExpr (EBinary _ _ _)) => false | Some _ => true | None => false end).

Definition tree (src : string) : any :=
  match parse_file generic (gs src) with ROk f => AFile f | _ => AExpr (EIdent (mkIdent [] (mkPos 0 0) (mkPos 0 0))) end.

Definition shown (l : list call) : list (string * bool) :=
  map (fun c => (match fst c with Some x => gotype x | None => "nil"%string end, snd c)) l.

Example C31_ex :
  shown (snd (fst (Walk (noting no_binary) (tree "DELETE FROM t WHERE NOT (a = b);") (0%nat, [])))) =
  [("File", true); ("DeleteStmt", true);
   ("ObjectName", true); ("Ident", true); ("nil", false); ("nil", false);
   ("UnaryExpr", true); ("Operator", true); ("nil", false);
   ("Nested", true); ("BinaryExpr", false); ("nil", false); ("nil", false);
   ("nil", false); ("nil", false)]%string.
Proof. vm_compute. reflexivity. Qed.

(** C32.  A visitor that enters every node visits exactly the nodes reached
    through [order], each once per occurrence, parents first ([preorder]). *)
Theorem C32_visits_reached : forall S (visit : S -> option any -> S * bool) x s,
  (forall s x, snd (visit s x) = match x with Some _ => true | None => false end) -> walkable x ->
  exists s' log, Walk (noting visit) x (s, []) = ((s', log), WDone) /\
    preorder x (nodes_of log) /\ forall z, In z (nodes_of log) <-> reach x z.
Proof. exact @Walk_visits. Qed.
Print Assumptions C32_visits_reached.

(** What is held by the fields of a node is what is passed on or [hidden]. *)
Theorem C32_fields_passed_on_or_hidden : forall x, Permutation (somes (order x) ++ hidden x) (subnodes x).
Proof. exact order_complete. Qed.
Print Assumptions C32_fields_passed_on_or_hidden.

(** So a tree in which no reached node hides anything is visited completely. *)
Theorem C32_complete : forall S (visit : S -> option any -> S * bool) x s,
  (forall s x, snd (visit s x) = match x with Some _ => true | None => false end) -> walkable x ->
  (forall y, reach x y -> hidden y = []) ->
  exists s' log, Walk (noting visit) x (s, []) = ((s', log), WDone) /\
    forall z, In z (nodes_of log) <-> within x z.
Proof. exact @Walk_complete. Qed.
Print Assumptions C32_complete.

Definition enter_all (n : unit) (x : option any) : unit * bool :=
  (n, match x with Some _ => true | None => false end).

(** An identifier with a given name. *)
Definition named (s : string) (x : any) : bool :=
  match x with AExpr (EIdent i) => gs_eqb (id_value i) (gs s) | _ => false end.

Definition visited (x : any) : list any := nodes_of (snd (fst (Walk (noting enter_all) x (tt, [])))).

Lemma unvisited x name :
  existsb (named name) (nodes_to 30 x) = true -> existsb (named name) (visited x) = false ->
  exists z, within x z /\ named name z = true /\ ~ In z (visited x).
Proof.
  intros H N. apply existsb_exists in H. destruct H as (z & I & E). exists z.
  split; [|split; [exact E|]].
  - apply nodes_to_within in I. exact I.
  - intros J. assert (existsb (named name) (visited x) = true); [|congruence].
    apply existsb_exists. exists z. auto.
Qed.

(** In general it is not: the branches of CASE, the columns of USING, table
    options, MySQL column decorations, and the parts of array and custom types
    are not visited. *)
Theorem C32_refuted : forall src name,
  In (src, name)
    [("SELECT CASE WHEN a THEN b ELSE c END FROM t;", "a");
     ("SELECT CASE WHEN a THEN b ELSE c END FROM t;", "b");
     ("SELECT CASE WHEN a THEN b ELSE c END FROM t;", "c");
     ("SELECT a FROM t JOIN u USING (k);", "k");
     ("CREATE TABLE t (a mytype);", "mytype");
     ("CREATE TABLE t (a int) ENGINE = InnoDB;", "InnoDB")]%string ->
  exists z, within (tree src) z /\ named name z = true /\
    ~ In z (visited (tree src)).
Proof.
  intros src name H. cbn [In] in H.
  repeat (destruct H as [[= <- <-]|H]; [apply unvisited; vm_compute; reflexivity|]). destruct H.
Qed.
Print Assumptions C32_refuted.

Example C32_ex :
  let x := tree "SELECT a.b, count(*) FROM t LEFT JOIN u ON t.i = u.i WHERE a IN (SELECT 1 FROM v) LIMIT 3;" in
  List.length (visited x) = List.length (nodes_to 30 x) /\ List.length (visited x) = 42%nat.
Proof. vm_compute. split; reflexivity. Qed.

(** C33.  A visitor or callback that rejects nil never makes Walk panic. *)
Theorem C33_rejecting_nil : forall S (visit : S -> option any -> S * bool) x s,
  (forall s, snd (visit s None) = false) -> walkable x -> snd (Walk visit x s) = WDone.
Proof. exact @Walk_reject. Qed.
Print Assumptions C33_rejecting_nil.

(** One that accepts everything panics exactly where a CASE has no operand or an
    UPDATE no WHERE; it always comes back. *)
Theorem C33_accepting_all : forall S (visit : S -> option any -> S * bool) x s,
  (forall s x, snd (visit s x) = true) -> walkable x ->
  (snd (Walk visit x s) = WPanic <-> exists z, reach x z /\ passes_nil z) /\ snd (Walk visit x s) <> WFuel.
Proof. exact @Walk_accept. Qed.
Print Assumptions C33_accepting_all.

Definition yes (n : unit) (x : option any) : unit * bool := (n, true).

(** Parsed files are [walkable], and both cases occur. *)
Example C33_ex :
  walkable (tree "UPDATE t SET a = 1;") /\
  snd (Inspect yes (tree "UPDATE t SET a = 1;") tt) = WPanic /\
  snd (Inspect yes (tree "UPDATE t SET a = 1 WHERE b;") tt) = WDone /\
  snd (Inspect yes (tree "SELECT CASE WHEN a THEN b END FROM t;") tt) = WPanic /\
  snd (Inspect enter_all (tree "SELECT CASE WHEN a THEN b END FROM t;") tt) = WDone.
Proof. vm_compute. repeat split. Qed.
