(** Properties C19, C20, C22, C30 (parsed files) and C38: what the parser's
    trees say about the text they were read from. *)
From Coq Require Import ZArith String List Bool.
From Verif Require Import Base Dialect Token Lexer AST Erase Nodes Prog Parser ParseSpec LexSpec LexFacts Grammar GrammarThms LossSpec LossThms Slices
  PosEnd CommentMap SpanSpec SpanThms PropsMap.
Import ListNotations.
Open Scope list_scope.
Open Scope Z_scope.

(** The significant tokens of a text. *)
Definition toks (src : string) : list token := match tokenize generic true (gs src) with TOk l => sig l | _ => [] end.
Definition expr (src : string) : option node := match parse_with parse_expr generic (gs src) with ROk e => Some e | _ => None end.

(** C19.  In every parser state, what the parser reads as an expression is
    exactly its tree written out ([reads_node]), as far as it can go: the next
    token does not continue it.  [L] are the defects of C22 that the tokens
    allow for; [reads_node] includes [well_bound] for the expression itself. *)
Theorem C19_expression_text : forall L done todo e st,
  Forall tok_wf todo -> Forall placed todo -> allows L (sig todo) ->
  call parse_expr done todo = Ok e st ->
  exists used, sig todo = used ++ sig (snd st) /\ reads_node L e used /\
    match sig (snd st) with t :: _ => ~ continues t | [] => True end.
Proof. intros L done todo e st H1 H2 H3. exact (expr_reads L done todo e st (conj H1 (conj H2 H3))). Qed.
Print Assumptions C19_expression_text.

(** At all depths, the operands bind at least as tight as the precedence table
    demands: in expressions, *)
Theorem C19_precedence : forall done todo e st,
  Forall tok_wf todo -> Forall placed todo ->
  call parse_expr done todo = Ok e st ->
  forall e', within (AExpr e) (AExpr e') -> well_bound e'.
Proof.
  intros done todo e st W P E. destruct (expr_reads anything _ _ _ _ (good_anything _ W P) E) as (used & _ & R & _).
  exact (reads_bound_expr anything _ _ (reads_expr _ _ _ R)).
Qed.
Print Assumptions C19_precedence.

(** in statements, *)
Theorem C19_statement_precedence : forall done todo s st,
  Forall tok_wf todo -> Forall placed todo ->
  call parse_statement done todo = Ok s st ->
  forall e, within (of_stmt s) (AExpr e) -> well_bound e.
Proof.
  intros done todo s st W P E. destruct (stmt_reads anything _ _ _ _ (good_anything _ W P) E) as (used & _ & R).
  exact (reads_bound_expr anything _ _ (of_stmt_reads _ _ _ R)).
Qed.
Print Assumptions C19_statement_precedence.

(** and in files. *)
Theorem C19_file_precedence : forall d src f, dialect_ok d -> parse_file d src = ROk f ->
  forall e, within (AFile f) (AExpr e) -> well_bound e.
Proof.
  intros d src f D E. destruct (file_reads anything d src f D E) as (ts & _ & R).
  exact (reads_bound_expr anything _ _ (R ltac:(intros a t b k _ _; exact I))).
Qed.
Print Assumptions C19_file_precedence.

(** Binding decides the tree: two trees of binary operators that are written
    with the same operands and operators in the same order are equal. *)
Theorem C19_unambiguous : forall e e', operators_bound e -> operators_bound e' -> written e = written e' -> e = e'.
Proof. exact binding_unique. Qed.
Print Assumptions C19_unambiguous.

(** Every expression of a file has its own piece of the text. *)
Theorem C19_subexpression_text : forall L d src f toks, dialect_ok d ->
  tokenize d true src = TOk toks -> parse_file d src = ROk f -> allows L (sig toks) ->
  forall z, within (AFile f) z -> in_text z -> exists a ts b, sig toks = a ++ ts ++ b /\ Grammar.reads L z ts.
Proof.
  intros L d src f ts D ET E A z W T. destruct (file_reads L d src f D E) as (ts' & ET' & R).
  assert (ts' = ts) by congruence. subst ts'. exact (proj2 (reads_within L _ _ W T) _ (R A)).
Qed.
Print Assumptions C19_subexpression_text.

(** The shape of an expression, as fully parenthesised text. *)
Fixpoint shape (e : node) : string :=
  match e with
  | EIdent i => string_of_list_ascii (map (fun r => Ascii.ascii_of_nat (Z.to_nat r)) (id_value i))
  | EBinary l _ r => "(" ++ shape l ++ "." ++ shape r ++ ")"
  | EUnary _ _ x => "-" ++ shape x
  | EIsNull x => "N" ++ shape x
  | EInList x _ _ _ => "I" ++ shape x
  | EBetween x _ l h => "(" ++ shape x ++ "b" ++ shape l ++ "," ++ shape h ++ ")"
  | ECast x _ _ _ => "C" ++ shape x
  | _ => "?"
  end%string.
Definition shaped (src : string) : option string := option_map shape (expr src).

Example C19_ex :
  shaped "a OR b AND NOT c = d + e * f - g" = Some "(a.(b.-(c.((d.(e.f)).g))))"%string /\
  shaped "a - b - c" = Some "((a.b).c)"%string /\
  shaped "a AND b IS NULL" = Some "(a.Nb)"%string /\
  shaped "a + b::int" = Some "(a.Cb)"%string /\
  shaped "a BETWEEN b AND c AND d" = Some "((abb,c).d)"%string.
Proof. vm_compute. auto. Qed.

(** A tree that is not bound that way. *)
Example C19_ex_wrong : 
  let i c := EIdent (mkIdent (gs c) pos0 pos0) in
  ~ well_bound (EBinary (EBinary (i "a") (mkOp OAnd pos0 pos0) (i "b")) (mkOp OEq pos0 pos0) (i "c")).
Proof. cbn. intros H. vm_compute in H. intuition discriminate. Qed.

(** C20.  The same for set operators. *)
Theorem C20_set_precedence : forall done todo s st,
  Forall tok_wf todo -> Forall placed todo ->
  call parse_statement done todo = Ok s st ->
  forall q, within (of_stmt s) (ASet q) -> set_bound q.
Proof.
  intros done todo s st W P E. destruct (stmt_reads anything _ _ _ _ (good_anything _ W P) E) as (used & _ & R).
  exact (reads_bound_set anything _ _ (of_stmt_reads _ _ _ R)).
Qed.
Print Assumptions C20_set_precedence.

Theorem C20_file_set_precedence : forall d src f, dialect_ok d -> parse_file d src = ROk f ->
  forall q, within (AFile f) (ASet q) -> set_bound q.
Proof.
  intros d src f D E. destruct (file_reads anything d src f D E) as (ts & _ & R).
  exact (reads_bound_set anything _ _ (R ltac:(intros a t b k _ _; exact I))).
Qed.
Print Assumptions C20_file_set_precedence.

Theorem C20_unambiguous : forall s s', set_operators_bound s -> set_operators_bound s' -> set_written s = set_written s' -> s = s'.
Proof. exact set_binding_unique. Qed.
Print Assumptions C20_unambiguous.

Fixpoint set_shape (s : setexpr) : string :=
  match s with
  | SSelect _ => "s"
  | SSetOp o _ l r =>
      "(" ++ set_shape l ++ match o with SIntersect _ _ => "&" | SUnion _ _ => "+" | SExcept _ _ => "-" end ++ set_shape r ++ ")"
  | _ => "q"
  end%string.
Example C20_ex :
  match parse_source generic (gs "SELECT a FROM t UNION SELECT b FROM t INTERSECT SELECT c FROM t EXCEPT SELECT d FROM t;") with
  | ROk [StQuery (Query _ _ s _ _)] => set_shape s = "((s+(s&s))-s)"%string
  | _ => False
  end.
Proof. vm_compute. reflexivity. Qed.

(** C22.  An accepted statement is exactly its tree written out, except for what
    the defects [L] drop, and a defect needs a token that triggers it. *)
Theorem C22_statement_text : forall L done todo s st,
  Forall tok_wf todo -> Forall placed todo -> allows L (sig todo) ->
  call parse_statement done todo = Ok s st ->
  exists used, sig todo = used ++ sig (snd st) /\ reads_stmt L s used.
Proof. intros L done todo s st H1 H2 H3. exact (stmt_reads L done todo s st (conj H1 (conj H2 H3))). Qed.
Print Assumptions C22_statement_text.

(** The same for whole texts, where nothing is left. *)
Theorem C22_file_text : forall L d src l toks, dialect_ok d ->
  tokenize d true src = TOk toks -> parse_source d src = ROk l -> allows L (sig toks) ->
  reads_file L l (sig toks).
Proof.
  intros L d src l ts D ET E A. destruct (source_reads L d src l D E) as (ts' & ET' & R).
  assert (ts' = ts) by congruence. subst ts'. exact (R A).
Qed.
Print Assumptions C22_file_text.

(** Where no parenthesis is left open and none of the places of [hazard] occurs,
    nothing is lost. *)
Theorem C22_no_loss : forall d src l toks, dialect_ok d ->
  tokenize d true src = TOk toks -> parse_source d src = ROk l -> safe (sig toks) ->
  reads_file (fun _ => False) l (sig toks).
Proof. exact safe_file. Qed.
Print Assumptions C22_no_loss.

Definition C22_text : string :=
  "CREATE TABLE t (a int NOT NULL DEFAULT 1, b varchar(10) UNIQUE, CONSTRAINT c PRIMARY KEY (a, b), FOREIGN KEY (b) REFERENCES u (b));
   CREATE UNIQUE INDEX i ON t (a, b);
   INSERT INTO t (a, b) VALUES (1, 'x'), (2, 'y');
   WITH x AS (SELECT f(a, 1) AS b FROM t WHERE a IN (1, 2) AND (b = 'x' OR b LIKE 'y'))
   SELECT y.b, count(*) AS n FROM x AS y CROSS JOIN z LEFT JOIN u ON y.b = u.b GROUP BY y.b HAVING count(*) > 1 ORDER BY n DESC;".
Example C22_ex :
  match tokenize generic true (gs C22_text), parse_source generic (gs C22_text) with
  | TOk ts, ROk [_; _; _; _] => safe (sig ts)
  | _, _ => False
  end.
Proof.
  assert (H : match tokenize generic true (gs C22_text), parse_source generic (gs C22_text) with
              | TOk ts, ROk [_; _; _; _] => safe_b (sig ts) = true
              | _, _ => False
              end) by (vm_compute; reflexivity).
  revert H. generalize (tokenize generic true (gs C22_text)) (parse_source generic (gs C22_text)).
  intros [ts| | |] [[|s1 [|s2 [|s3 [|s4 [|s5 l]]]]]| | |] H; try contradiction. apply safe_sound, H.
Qed.

Definition accepted {A} (r : result A) : bool := match r with ROk _ => true | _ => false end.

(** The second text has fewer significant tokens and gives the same statements. *)
Definition loses (a b : string) : Prop :=
  res_map (map (er_stmt Erase.no_pos same_rune)) (parse_source generic (gs a)) =
  res_map (map (er_stmt Erase.no_pos same_rune)) (parse_source generic (gs b)) /\
  accepted (parse_source generic (gs b)) = true /\ (List.length (toks b) <? List.length (toks a))%nat = true.

(** The full statement, that what was accepted is represented in the AST, is
    false of the code: these texts lose the words that are missing in the second. *)
Theorem C22_no_loss_refuted : Forall (fun x => loses (fst x) (snd x)) [
  ("SELECT a FROM t JOIN u ON c CROSS JOIN v;", "SELECT a FROM t CROSS JOIN v;");
  ("CREATE MATERIALIZED VIEW v AS SELECT a FROM t;", "CREATE VIEW v AS SELECT a FROM t;");
  ("CREATE TABLE t (a time with time zone);", "CREATE TABLE t (a time);");
  ("SELECT a FROM t WHERE a IN (SELECT WITH x AS (SELECT a FROM t) SELECT a FROM x);",
   "SELECT a FROM t WHERE a IN (WITH x AS (SELECT a FROM t) SELECT a FROM x);");
  ("CREATE INDEX UNIQUE INDEX i ON t (a);", "CREATE UNIQUE INDEX i ON t (a);");
  ("CREATE TABLE t (a int) ENGINE=x,;", "CREATE TABLE t (a int) ENGINE=x;");
  ("CREATE TABLE t (a int, FOREIGN KEY (a) REFERENCES u(b,));", "CREATE TABLE t (a int, FOREIGN KEY (a) REFERENCES u());");
  ("CREATE TABLE t (a int NOT NULL DEFAULT 1 UNIQUE);", "CREATE TABLE t (a int DEFAULT 1 UNIQUE);");
  ("CREATE TABLE t (a int DEFAULT 1 DEFAULT 2);", "CREATE TABLE t (a int DEFAULT 2);");
  ("CREATE TABLE t (a int CONSTRAINT x DEFAULT 1);", "CREATE TABLE t (a int DEFAULT 1);")]%string.
Proof.
  repeat (apply Forall_cons; [cbn [fst snd]; split; [vm_compute; reflexivity|split; vm_compute; reflexivity]|]). apply Forall_nil.
Qed.
Print Assumptions C22_no_loss_refuted.

(** A table function must not be closed; an AS may end the input. *)
Theorem C22_acceptance_refuted :
  accepted (parse_source generic (gs "SELECT a FROM f(x;")) = true /\
  parse_source generic (gs "SELECT a FROM f(x);") = RErr /\
  accepted (parse_with parse_statement generic (gs "SELECT a FROM t AS")) = true.
Proof. vm_compute. auto. Qed.
Print Assumptions C22_acceptance_refuted.

(** C30 for parsed files: Pos and End are defined for all nodes exactly when no
    node [lacks] its parts, *)
Theorem C30_parsed_positions : forall d src f, dialect_ok d -> parse_file d src = ROk f ->
  ((forall z, within (AFile f) z -> Pos z <> None /\ End z <> None) <-> (forall z, within (AFile f) z -> ~ lacks z)).
Proof. exact parsed_positions. Qed.
Print Assumptions C30_parsed_positions.

(** and then NewCommentMap returns, for texts of less than 2^30 - 1 characters. *)
Theorem C30_parsed_comment_map : forall d src f, dialect_ok d -> parse_file d src = ROk f ->
  (forall z, within (AFile f) z -> ~ lacks z) -> zlen src < 2 ^ 30 - 1 -> NewCommentMap f <> CMPanic.
Proof. exact parsed_map. Qed.
Print Assumptions C30_parsed_comment_map.

Definition lacking (z : any) : bool :=
  match z with
  | AFile f => match f_stmts f with [] => true | _ => false end
  | AWin (WinSpec [] [] None _ _) => true
  | AStmt (StCreateTable _ _ [] _ _) => true
  | AElem (TEColumn c) => match cd_constraints c with [] => true | _ => false end
  | _ => false
  end.
Example C30_ex_parsed :
  let f := parsed "CREATE TABLE t (a int NOT NULL); -- c
SELECT sum(a) OVER (ORDER BY b) FROM t;" in
  existsb lacking (WalkSpec.nodes_to 9 (AFile f)) = false /\ List.length (f_comments f) = 1%nat /\
  NewCommentMap f <> CMPanic.
Proof. split; [vm_compute; reflexivity|]. split; [vm_compute; reflexivity|]. intros H. vm_compute in H. discriminate. Qed.

(** C38.  The expression and all its sub-expressions start and end where their
    tokens do, as far as they know ([knows_start], [knows_end]). *)
Theorem C38_expression_extents : forall done todo e st,
  Forall tok_wf todo -> Forall placed todo -> Forall star_width todo ->
  call parse_expr done todo = Ok e st ->
  exists used, sig todo = used ++ sig (snd st) /\ extends_over e used /\
    forall e', within (AExpr e) (AExpr e') -> exists a ts b, used = a ++ ts ++ b /\ (extends_over e' ts \/ is_offset e' ts).
Proof. exact expr_extents. Qed.
Print Assumptions C38_expression_extents.

Theorem C38_file_extents : forall d src f, dialect_ok d -> parse_file d src = ROk f ->
  exists toks, tokenize d true src = TOk toks /\
    forall e, within (AFile f) (AExpr e) -> exists a ts b, sig toks = a ++ ts ++ b /\ (extends_over e ts \/ is_offset e ts).
Proof. exact file_extents. Qed.
Print Assumptions C38_file_extents.

(** The span an expression text gets. *)
Definition span (src : string) : option (option pos * option pos) := option_map (fun e => (Pos (AExpr e), End (AExpr e))) (expr src).
Definition true_span (src : string) : option (option pos * option pos) := Some (first_from (toks src), last_to (toks src)).
Example C38_ex : Forall (fun s => span s = true_span s)
  ["a"; " -a + (b * 2)"; "CASE WHEN a THEN b ELSE c END"; "NOT EXISTS (SELECT a FROM t)"; "a IN (1, 2)"; "a NOT BETWEEN 1 AND f(x)";
   "a.b"; "*"; "CAST(a AS int)"; "'s' LIKE b"; "a OR a IS NULL AND TRUE"]%string.
Proof. repeat (apply Forall_cons; [vm_compute; reflexivity|]). apply Forall_nil. Qed.

(** False of the code for the others: subqueries have their ends swapped, IS NULL
    counts on single blanks, and :: and OVER leave positions unset. *)
Definition pos_eq (a b : option pos) : bool :=
  match a, b with Some p, Some q => (pline p =? pline q) && (pcol p =? pcol q) | _, _ => false end.
Definition misplaced (src : string) : bool :=
  match span src, true_span src with
  | Some (Some p, Some q), Some (Some p', Some q') => negb (pos_eq (Some p) (Some p') && pos_eq (Some q) (Some q'))
  | _, _ => false
  end.
Theorem C38_extents_refuted : Forall (fun s => misplaced s = true)
  ["(SELECT a FROM t)"; "a  IS NULL"; "a IS NOT  NULL"; "a::int"; "sum(a) OVER (ORDER BY b)"; "a = b::int"]%string.
Proof. repeat (apply Forall_cons; [vm_compute; reflexivity|]). apply Forall_nil. Qed.
Print Assumptions C38_extents_refuted.
