(** Property C55: filling in templates. *)
From Coq Require Import ZArith List Bool String.
From Verif Require Import Base Dialect Token Lexer LexSpec AST Num Prog Parser Printer Erase ParseSpec LookSpec FillSpec FillThms.
Import ListNotations.
Open Scope string_scope.
Open Scope list_scope.
Open Scope Z_scope.

(** C55, tokens.  [template P erA F] (FillSpec.v): P is ParseExpr, ParseStatement or
    ParseSQL and [F v a] replaces the string literal [v] by the expression [a]
    everywhere in a tree.  A call reads a template: somewhere a string literal [v] in
    parentheses, and [v] nowhere else.  ParseExpr reads other tokens as the whole
    expression [a]; they do not start with the word SELECT or WITH.  With these tokens
    in place of the literal, the call gives the tree of the template with [a] in place
    of the literal, up to positions.  If the template was read beyond the closing
    parenthesis, the call stops at the same place. *)
Theorem C55_fill : forall A (P : rec -> prog A) erA F, template P erA F ->
  forall done todo pre lp lit rp post v done' te a T st todo',
    Forall tok_wf todo -> Forall tok_wf te -> Forall tok_wf todo' ->
    sig todo = pre ++ lp :: lit :: rp :: post ->
    tkind lp = LParen -> kv lit = (SingleQuotedString, VStr v) -> tkind rp = RParen -> fresh v (pre ++ post) ->
    whole_expr te a -> opens_query (sig te) = false ->
    call P done todo = Ok T st ->
    map kv (sig todo') = map kv (pre ++ [lp]) ++ map kv (sig te) ++ map kv (rp :: post) ->
    exists b st', call P done' todo' = Ok b st' /\ erA no_pos same_rune b = erA no_pos same_rune (F v a T) /\
      ((List.length (sig (snd st)) <= List.length post)%nat -> left_over (snd st') = left_over (snd st)).
Proof. exact @fill_calls. Qed.
Print Assumptions C55_fill.

(** C55, texts: the text [filled x ('v') y] is the template and [e] the expression. *)
Theorem C55_fill_texts : forall A (P : rec -> prog A) erA F, template P erA F ->
  forall d x y tx ty v e te a T, dialect_ok d ->
    tokenize d true x = TOk tx -> tokenize d true y = TOk ty -> skip_bom y = y -> fresh v (tx ++ ty) ->
    tokenize d true e = TOk te -> skip_bom e = e -> whole_expr te a -> opens_query (sig te) = false ->
    parse_with P d (filled x (literal v) y) = ROk T ->
    exists b, parse_with P d (filled x e y) = ROk b /\ erA no_pos same_rune b = erA no_pos same_rune (F v a T).
Proof. exact @fill_texts. Qed.
Print Assumptions C55_fill_texts.

(** C55, values: a string put in as an escaped literal comes out as exactly this
    string in this place, whatever it contains. *)
Theorem C55_values : forall A (P : rec -> prog A) erA F, template P erA F ->
  forall d x y tx ty v w T, dialect_ok d ->
    tokenize d true x = TOk tx -> tokenize d true y = TOk ty -> skip_bom y = y -> fresh v (tx ++ ty) ->
    parse_with P d (filled x (literal v) y) = ROk T ->
    exists b, parse_with P d (filled x (literal w) y) = ROk b /\
      erA no_pos same_rune b = erA no_pos same_rune (F v (EString pos0 pos0 w) T).
Proof. exact @fill_values. Qed.
Print Assumptions C55_values.

(** Examples. *)
Definition fx : gostring := gs "SELECT a FROM t u WHERE a =".
Definition fy : gostring := gs "AND b < 2 ;".
Definition toks_of (src : gostring) : list token := match tokenize generic true src with TOk ts => ts | _ => [] end.
Definition kinds (ts : list token) : list kind := map tkind ts.
Definition printed (src : gostring) : option gostring :=
  match parse_with parse_statement generic src with ROk s => Some (sql_stmt s) | _ => None end.
Example C55_ex_template : exists T, parse_with parse_statement generic (filled fx (literal (gs "v")) fy) = ROk T.
Proof. eexists. vm_compute. reflexivity. Qed.
Example C55_ex_expr : exists a, whole_expr (toks_of (gs "1 OR c IN (3, 'x''y')")) a /\
  opens_query (sig (toks_of (gs "1 OR c IN (3, 'x''y')"))) = false.
Proof. eexists. split; [eexists; split|]; vm_compute; reflexivity. Qed.
Example C55_ex_fresh : fresh (gs "v") (toks_of fx ++ toks_of fy).
Proof. vm_compute. intuition discriminate. Qed.
Example C55_ex : printed (filled fx (gs "1 OR c IN (3, 4)") fy) = Some (gs "SELECT a FROM t AS u WHERE a = (1 OR c IN (3, 4)) AND b < 2").
Proof. vm_compute. reflexivity. Qed.

(** Each condition is needed.  Without the parentheses: *)
Definition unfilled (x m y : gostring) : gostring := x ++ [10] ++ m ++ [10] ++ y.
Theorem C55_bare_refuted : exists x y v e a T b,
  fresh v (toks_of x ++ toks_of y) /\ whole_expr (toks_of e) a /\ opens_query (sig (toks_of e)) = false /\
  parse_with parse_expr generic (unfilled x (literal v) y) = ROk T /\
  parse_with parse_expr generic (unfilled x e y) = ROk b /\
  er_node no_pos same_rune b <> er_node no_pos same_rune (fill_node v a T).
Proof.
  exists (gs "x ="), [], (gs "v"), (gs "1 OR 1=1"). do 3 eexists. split; [vm_compute; intuition discriminate|].
  split; [eexists; split; vm_compute; reflexivity|]. split; [vm_compute; reflexivity|].
  split; [vm_compute; reflexivity|]. split; [vm_compute; reflexivity|]. vm_compute. discriminate.
Qed.
Print Assumptions C55_bare_refuted.

(** With an expression that starts with SELECT: [select + 1] is a sum for ParseExpr and
    a query in parentheses. *)
Theorem C55_select_refuted : exists x y v e a T b,
  fresh v (toks_of x ++ toks_of y) /\ whole_expr (toks_of e) a /\
  parse_with parse_expr generic (filled x (literal v) y) = ROk T /\
  parse_with parse_expr generic (filled x e y) = ROk b /\
  er_node no_pos same_rune b <> er_node no_pos same_rune (fill_node v a T).
Proof.
  exists (gs "x ="), [], (gs "v"), (gs "select + 1"). do 3 eexists. split; [vm_compute; intuition discriminate|].
  split; [eexists; split; vm_compute; reflexivity|]. split; [vm_compute; reflexivity|].
  split; [vm_compute; reflexivity|]. vm_compute. discriminate.
Qed.
Print Assumptions C55_select_refuted.

(** With an expression that ParseExpr does not read to its end. *)
Theorem C55_incomplete_refuted : exists x y v e a st T b,
  fresh v (toks_of x ++ toks_of y) /\ call parse_expr [] (toks_of e) = Ok a st /\ opens_query (sig (toks_of e)) = false /\
  parse_with parse_expr generic (filled x (literal v) y) = ROk T /\
  parse_with parse_expr generic (filled x e y) = ROk b /\
  er_node no_pos same_rune b <> er_node no_pos same_rune (fill_node v a T).
Proof.
  exists (gs "x ="), [], (gs "v"), (gs "1) OR (1"). do 4 eexists. split; [vm_compute; intuition discriminate|].
  split; [vm_compute; reflexivity|]. split; [vm_compute; reflexivity|]. split; [vm_compute; reflexivity|].
  split; [vm_compute; reflexivity|]. vm_compute. discriminate.
Qed.
Print Assumptions C55_incomplete_refuted.

(** With the literal in another place too. *)
Theorem C55_not_fresh_refuted : exists x y v e a T b,
  whole_expr (toks_of e) a /\ opens_query (sig (toks_of e)) = false /\
  parse_with parse_expr generic (filled x (literal v) y) = ROk T /\
  parse_with parse_expr generic (filled x e y) = ROk b /\
  er_node no_pos same_rune b <> er_node no_pos same_rune (fill_node v a T).
Proof.
  exists (gs "'v' ="), [], (gs "v"), (gs "1"). do 3 eexists.
  split; [eexists; split; vm_compute; reflexivity|]. split; [vm_compute; reflexivity|].
  split; [vm_compute; reflexivity|]. split; [vm_compute; reflexivity|]. vm_compute. discriminate.
Qed.
Print Assumptions C55_not_fresh_refuted.
