(** Property C57: filling in queries. *)
From Coq Require Import ZArith List Bool String.
From Verif Require Import Base Dialect Token Lexer LexSpec AST Num Prog Parser Printer Erase ParseSpec LookSpec FillSpec GraftSpec GraftThms.
Import ListNotations.
Open Scope string_scope.
Open Scope list_scope.
Open Scope Z_scope.

(** C57, tokens.  [query_template P erA F] (GraftSpec.v): P is ParseExpr,
    ParseStatement or ParseSQL and [F v q] replaces each query [SELECT 'v'] in a tree by
    the query [q].  A call reads a template: somewhere the query [SELECT 'v'] in
    parentheses, the literal [v] nowhere else, and it reads beyond these parentheses.
    ParseStatement reads other tokens before a semicolon as the whole query [a]; they
    start with SELECT or WITH, but not with SELECT WITH.  With these tokens in the
    parentheses the call gives the tree of the template with [a] in this place, up to
    positions, and stops at the same place. *)
Theorem C57_graft : forall A (P : rec -> prog A) erA F, query_template P erA F ->
  forall done todo pre lp sel lit rp post v done' te a T st todo',
    Forall tok_wf todo -> Forall tok_wf te -> Forall tok_wf todo' ->
    sig todo = pre ++ lp :: sel :: lit :: rp :: post ->
    tkind lp = LParen -> kv sel = select_word -> kv lit = (SingleQuotedString, VStr v) -> tkind rp = RParen -> fresh v (pre ++ post) ->
    whole_query te a -> opens_query (sig te) = true -> select_with (sig te) = false ->
    call P done todo = Ok T st -> (List.length (sig (snd st)) <= List.length post)%nat ->
    map kv (sig todo') = map kv (pre ++ [lp]) ++ map kv (sig te) ++ map kv (rp :: post) ->
    exists b st', call P done' todo' = Ok b st' /\ erA no_pos same_rune b = erA no_pos same_rune (F v a T) /\
      left_over (snd st') = left_over (snd st).
Proof. exact @graft_calls. Qed.
Print Assumptions C57_graft.

(** C57, texts: the text [m] is [SELECT 'v'], with any blanks and comments, the
    template is [filled x m y] and [e] is the query. *)
Theorem C57_graft_texts : forall A (P : rec -> prog A) erA F, query_template P erA F ->
  forall d x y m tx ty tm t v e te a T st, dialect_ok d ->
    tokenize d true x = TOk tx -> tokenize d true y = TOk ty -> skip_bom y = y -> fresh v (tx ++ ty) ->
    tokenize d true m = TOk tm -> skip_bom m = m -> map kv (sig tm) = [select_word; (SingleQuotedString, VStr v)] ->
    tokenize d true e = TOk te -> skip_bom e = e -> whole_query te a -> opens_query (sig te) = true -> select_with (sig te) = false ->
    tokenize d true (filled x m y) = TOk t -> call P [] t = Ok T st -> (List.length (sig (snd st)) <= List.length (sig ty))%nat ->
    exists b, parse_with P d (filled x e y) = ROk b /\ erA no_pos same_rune b = erA no_pos same_rune (F v a T).
Proof. exact @graft_texts. Qed.
Print Assumptions C57_graft_texts.

(** C57, ParseSQL: it reads its text to the end. *)
Theorem C57_graft_files : forall d x y m tx ty tm v e te a T, dialect_ok d ->
    tokenize d true x = TOk tx -> tokenize d true y = TOk ty -> skip_bom y = y -> fresh v (tx ++ ty) ->
    tokenize d true m = TOk tm -> skip_bom m = m -> map kv (sig tm) = [select_word; (SingleQuotedString, VStr v)] ->
    tokenize d true e = TOk te -> skip_bom e = e -> whole_query te a -> opens_query (sig te) = true -> select_with (sig te) = false ->
    parse_with (parse_sql false) d (filled x m y) = ROk T ->
    exists b, parse_with (parse_sql false) d (filled x e y) = ROk b /\
      map (er_stmt no_pos same_rune) b = map (er_stmt no_pos same_rune) (map (graft_stmt v a) T).
Proof. exact @graft_files. Qed.
Print Assumptions C57_graft_files.

(** Examples: an EXISTS, an IN, a derived table, a common table expression, a set
    operation. *)
Definition toks_of (src : gostring) : list token := match tokenize generic true src with TOk ts => ts | _ => [] end.
Definition printed (src : gostring) : option (list gostring) :=
  match parse_with (parse_sql false) generic src with ROk l => Some (map sql_stmt l) | _ => None end.
Definition hole : gostring := gs "SELECT /* here */ 'v'".
Definition sub : gostring := gs "WITH c AS (SELECT 1) SELECT x FROM s w WHERE y IN (SELECT 2) UNION SELECT 3 ORDER BY 1 LIMIT 4".
Example C57_ex_hole : map kv (sig (toks_of hole)) = [select_word; (SingleQuotedString, VStr (gs "v"))].
Proof. vm_compute. reflexivity. Qed.
Example C57_ex_query : exists a, whole_query (toks_of sub) a /\ opens_query (sig (toks_of sub)) = true /\ select_with (sig (toks_of sub)) = false.
Proof.
  eexists. split; [exists (mkTok Semicolon (VStr (gs ";")) pos0 pos0); eexists; split; [reflexivity|split; [exact I|split; vm_compute; reflexivity]]|].
  split; vm_compute; reflexivity.
Qed.
Definition holes : list (gostring * gostring) :=
  [(gs "SELECT a FROM t u WHERE NOT EXISTS", gs "AND b < 2;"); (gs "DELETE FROM t WHERE a IN", gs "; SELECT 2;");
   (gs "SELECT a FROM", gs "AS d WHERE 1 = 1;"); (gs "WITH z AS", gs "SELECT 1;"); (gs "SELECT 1 UNION", gs ";");
   (gs "CREATE TABLE t (a int CHECK (a <", gs "));")].
Example C57_ex_fresh : Forall (fun h => fresh (gs "v") (toks_of (fst h) ++ toks_of (snd h))) holes.
Proof. repeat constructor; vm_compute; intuition discriminate. Qed.
Example C57_ex_templates : map (fun h => printed (filled (fst h) hole (snd h))) holes =
  map (fun l => Some (map gs l))
  [["SELECT a FROM t AS u WHERE NOT EXISTS (SELECT 'v') AND b < 2"]; ["DELETE FROM t WHERE a IN (SELECT 'v')"; "SELECT 2"];
   ["SELECT a FROM (SELECT 'v') AS d WHERE 1 = 1"]; ["WITH z AS (SELECT 'v') SELECT 1"]; ["SELECT 1 UNION (SELECT 'v')"];
   ["CREATE TABLE t (a int CHECK(a < (SELECT 'v')))"]].
Proof. vm_compute. reflexivity. Qed.
Example C57_ex_filled : map (fun h => printed (filled (fst h) sub (snd h))) (firstn 2 holes) =
  map (fun l => Some (map gs l))
  [["SELECT a FROM t AS u WHERE NOT EXISTS (WITH c AS (SELECT 1) SELECT x FROM s AS w WHERE y IN (SELECT 2) UNION SELECT 3 ORDER BY 1 LIMIT 4) AND b < 2"];
   ["DELETE FROM t WHERE a IN (WITH c AS (SELECT 1) SELECT x FROM s AS w WHERE y IN (SELECT 2) UNION SELECT 3 ORDER BY 1 LIMIT 4)"; "SELECT 2"]].
Proof. vm_compute. reflexivity. Qed.

(** Each condition is needed.  A query that starts with SELECT WITH: the parser looks for
    both words in parentheses and steps back only once, so SELECT is lost and WITH opens
    a list of common table expressions. *)
Theorem C57_select_with_refuted : exists x y v e a T,
  fresh v (toks_of x ++ toks_of y) /\ whole_query (toks_of e) a /\ opens_query (sig (toks_of e)) = true /\
  parse_with (parse_sql false) generic (filled x hole y) = ROk T /\
  (forall b, parse_with (parse_sql false) generic (filled x e y) <> ROk b).
Proof.
  exists (gs "SELECT a FROM t u WHERE a ="), (gs ";"), (gs "v"), (gs "SELECT with + 1"). do 2 eexists.
  split; [vm_compute; intuition discriminate|].
  split; [exists (mkTok Semicolon (VStr (gs ";")) pos0 pos0); eexists; split; [reflexivity|split; [exact I|split; vm_compute; reflexivity]]|].
  split; [vm_compute; reflexivity|]. split; [vm_compute; reflexivity|]. vm_compute. discriminate.
Qed.
Print Assumptions C57_select_with_refuted.

(** A template that is not read beyond the parentheses: the arguments of a table
    function end where the first thing that is no expression starts. *)
Theorem C57_short_refuted : exists x y v e a t T st,
  fresh v (toks_of x ++ toks_of y) /\ whole_query (toks_of e) a /\ opens_query (sig (toks_of e)) = true /\ select_with (sig (toks_of e)) = false /\
  tokenize generic true (filled x hole y) = TOk t /\ call parse_statement [] t = Ok T st /\
  (forall b, parse_with parse_statement generic (filled x e y) = ROk b ->
     er_stmt no_pos same_rune b <> er_stmt no_pos same_rune (graft_stmt v a T)).
Proof.
  exists (gs "SELECT a FROM f"), (gs ";"), (gs "v"), (gs "SELECT + 1"). do 4 eexists.
  split; [vm_compute; intuition discriminate|].
  split; [exists (mkTok Semicolon (VStr (gs ";")) pos0 pos0); eexists; split; [reflexivity|split; [exact I|split; vm_compute; reflexivity]]|].
  split; [vm_compute; reflexivity|]. split; [vm_compute; reflexivity|]. split; [vm_compute; reflexivity|]. split; [vm_compute; reflexivity|].
  intros b. vm_compute. intros E. injection E as <-. discriminate.
Qed.
Print Assumptions C57_short_refuted.

(** With the literal in another place too. *)
Theorem C57_not_fresh_refuted : exists x y v e a T b,
  whole_query (toks_of e) a /\ opens_query (sig (toks_of e)) = true /\ select_with (sig (toks_of e)) = false /\
  parse_with (parse_sql false) generic (filled x hole y) = ROk T /\
  parse_with (parse_sql false) generic (filled x e y) = ROk b /\
  map (er_stmt no_pos same_rune) b <> map (er_stmt no_pos same_rune) (map (graft_stmt v a) T).
Proof.
  exists (gs "SELECT 'v' UNION (SELECT 'v') ; SELECT"), (gs ";"), (gs "v"), (gs "SELECT 1"). do 3 eexists.
  split; [exists (mkTok Semicolon (VStr (gs ";")) pos0 pos0); eexists; split; [reflexivity|split; [exact I|split; vm_compute; reflexivity]]|].
  split; [vm_compute; reflexivity|]. split; [vm_compute; reflexivity|]. split; [vm_compute; reflexivity|]. split; [vm_compute; reflexivity|]. vm_compute. discriminate.
Qed.
Print Assumptions C57_not_fresh_refuted.

(** With a query that ParseStatement does not read to its end. *)
Theorem C57_incomplete_refuted : exists x y v e a semi st T b,
  fresh v (toks_of x ++ toks_of y) /\ call parse_statement [] (toks_of e ++ [semi]) = Ok (StQuery a) st /\ opens_query (sig (toks_of e)) = true /\
  parse_with (parse_sql false) generic (filled x hole y) = ROk T /\
  parse_with (parse_sql false) generic (filled x e y) = ROk b /\
  map (er_stmt no_pos same_rune) b <> map (er_stmt no_pos same_rune) (map (graft_stmt v a) T).
Proof.
  exists (gs "SELECT a FROM t u WHERE EXISTS"), (gs ";"), (gs "v"), (gs "SELECT 1) OR (b"). eexists. exists (mkTok Semicolon (VStr (gs ";")) pos0 pos0). do 3 eexists.
  split; [vm_compute; intuition discriminate|].
  split; [vm_compute; reflexivity|].
  split; [vm_compute; reflexivity|]. split; [vm_compute; reflexivity|]. split; [vm_compute; reflexivity|]. vm_compute. discriminate.
Qed.
Print Assumptions C57_incomplete_refuted.
