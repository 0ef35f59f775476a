(** Properties C24-C28 and C36: literals, quoted identifiers, comments and
    output. *)
From Coq Require Import ZArith QArith List Bool String Permutation.
From Verif Require Import Base Dialect Token Lexer LexSpec AST Num Printer Prog Parser
  WriteSpec ValueSpec CommentSpec WriteThms ValueThms CommentThms.
Import ListNotations.
Open Scope Z_scope.

(** C24.  Refuted: a quoted NULL is the null value, and a quoted FROM starts a
    FROM clause. *)
Theorem C24_quoted_is_identifier_refuted : exists s,
  ~ In 34 s /\ is_delim generic 34 = true /\
  ~ (exists i, parse_expr_source generic (34 :: s ++ [34]) = ROk (EIdent i)).
Proof.
  exists (gs "NULL"). split; [intros H; vm_compute in H; intuition discriminate|].
  split; [reflexivity|]. vm_compute. intros [i H]. discriminate H.
Qed.
Print Assumptions C24_quoted_is_identifier_refuted.

(** The same in the place of an alias: the two texts differ only in the name of
    the alias, and only one of them has a FROM clause with table t. *)
Definition from_of (r : result (list stmt)) : option nat :=
  match r with
  | ROk [StQuery (Query _ _ (SSelect (Select _ _ from _ _ _ _)) _ _)] => Some (List.length from)
  | _ => None
  end.

Theorem C24_quoted_from_clause_refuted :
  from_of (parse_source generic (gs "SELECT a ""X"";")) <> Some 1%nat /\
  from_of (parse_source generic (gs "SELECT a ""FROM"" t;")) = Some 1%nat.
Proof. vm_compute. split; [discriminate|reflexivity]. Qed.
Print Assumptions C24_quoted_from_clause_refuted.

(** What holds: as an expression a quoted identifier is that identifier unless
    it spells one of seven keywords. *)
Theorem C24_quoted_identifier : forall d q s, dialect_ok d -> is_delim d q = true -> ~ In q s ->
  ~ In (upper s) expr_keywords ->
  exists p p', parse_expr_source d (q :: s ++ [q]) = ROk (EIdent (mkIdent (q :: s ++ [q]) p p')).
Proof. exact quoted_identifier. Qed.
Print Assumptions C24_quoted_identifier.

Example C24_ex : is_delim generic 34 = true /\ ~ In 34 (gs "SELECT") /\ ~ In (upper (gs "SELECT")) expr_keywords.
Proof. vm_compute. intuition discriminate. Qed.

(** C25. *)
Theorem C25_integer_exact : forall d s, dialect_ok d -> digits s -> dec_val s < 2 ^ 63 ->
  exists p q, parse_expr_source d s = ROk (ELong (mkLong p q (dec_val s))).
Proof. exact integer_exact. Qed.
Print Assumptions C25_integer_exact.

Theorem C25_integer_saturates : forall d s, dialect_ok d -> digits s -> 2 ^ 63 <= dec_val s ->
  exists p q, parse_expr_source d s = ROk (ELong (mkLong p q (2 ^ 63 - 1))).
Proof. exact integer_saturates. Qed.
Print Assumptions C25_integer_saturates.

Theorem C25_integer_reread : forall d p q v, dialect_ok d -> 0 <= v < 2 ^ 63 ->
  exists p' q', parse_expr_source d (sql_node (ELong (mkLong p q v))) = ROk (ELong (mkLong p' q' v)).
Proof. exact integer_reread. Qed.
Print Assumptions C25_integer_reread.

(** A negative value, which only a program can build, is printed as a minus and
    its digits; it is read back as a negation. *)
Theorem C25_negative_printed : forall p q v, v < 0 ->
  exists s, sql_node (ELong (mkLong p q v)) = 45 :: s /\ digits s /\ dec_val s = - v.
Proof. exact long_negative. Qed.
Print Assumptions C25_negative_printed.

Example C25_ex : digits (gs "0042") /\ dec_val (gs "0042") = 42 /\
  2 ^ 63 <= dec_val (gs "9223372036854775808").
Proof. repeat split; vm_compute; congruence. Qed.

(** C26.  A decimal literal denotes the nearest binary64 number, or is an error
    when it is too large. *)
Theorem C26_decimal_literal : forall d (a b : list rune), dialect_ok d -> digits a -> digits b ->
  (exists p q f, parse_expr_source d (a ++ 46 :: b) = ROk (EDouble p q f) /\
     nearest (dec_frac a b) f /\ (dec_frac a b < f_overflow)%Q) \/
  (parse_expr_source d (a ++ 46 :: b) = RErr /\ (f_overflow <= dec_frac a b)%Q).
Proof. exact decimal_literal. Qed.
Print Assumptions C26_decimal_literal.

(** Printing and reading back keeps every number that is not an integer. *)
Theorem C26_fraction_reread : forall d p q f, dialect_ok d -> canonical f ->
  ~ (exists n, (n # 1 == f_val f)%Q) ->
  exists p' q', parse_expr_source d (sql_node (EDouble p q f)) = ROk (EDouble p' q' f).
Proof. exact decimal_reread_fraction. Qed.
Print Assumptions C26_fraction_reread.

(** An integral number below 2^53 keeps its value (but may come back as an
    integer literal). *)
Theorem C26_reread : forall d p q f, dialect_ok d -> canonical f ->
  (exists p' q', parse_expr_source d (sql_node (EDouble p q f)) = ROk (EDouble p' q' f)) \/
  (exists n, (n # 1 == f_val f)%Q /\ exists p' q' v,
     parse_expr_source d (sql_node (EDouble p q f)) = ROk (ELong (mkLong p' q' v)) /\
     ((f_val f < inject_Z (2 ^ 53))%Q -> v = n)).
Proof. exact decimal_reread. Qed.
Print Assumptions C26_reread.

Example C26_ex : canonical (mkF (3 * 2 ^ 51) (-52)) /\ (f_val (mkF (3 * 2 ^ 51) (-52)) == 3 # 2)%Q /\
  digits (gs "1") /\ digits (gs "5").
Proof. split; [right; cbn; intuition Lia.lia|]. repeat split; vm_compute; congruence. Qed.

(** Refuted in general: 1.0 prints as the integer 1, and 2^60 prints as the
    integer 1152921504606847000. *)
Definition reread (s : gostring) : result node :=
  match parse_expr_source generic s with
  | ROk e => parse_expr_source generic (sql_node e)
  | r => r
  end.

Theorem C26_type_kept_refuted : exists p q v,
  (exists p' q' f, parse_expr_source generic (gs "1.0") = ROk (EDouble p' q' f)) /\
  reread (gs "1.0") = ROk (ELong (mkLong p q v)).
Proof. do 3 eexists. split; [do 3 eexists|]; vm_compute; reflexivity. Qed.
Print Assumptions C26_type_kept_refuted.

Theorem C26_value_kept_refuted : exists p q f p' q',
  parse_expr_source generic (gs "1152921504606846976.0") = ROk (EDouble p q f) /\
  (f_val f == inject_Z 1152921504606846976)%Q /\
  reread (gs "1152921504606846976.0") = ROk (ELong (mkLong p' q' 1152921504606847000)).
Proof. do 5 eexists. split; [vm_compute; reflexivity|]. split; vm_compute; reflexivity. Qed.
Print Assumptions C26_value_kept_refuted.

(** C27.  The printed literal lexes as one string token of its value, whatever
    other than a quote follows, exactly when the value has no quote. *)
Theorem C27_string_safe : forall d p q s rest, dialect_ok d -> stops (fun r => r =? 39) rest ->
  lexeme d SingleQuotedString (VStr s) (sql_node (EString p q s)) rest <-> ~ In 39 s.
Proof. exact string_safe. Qed.
Print Assumptions C27_string_safe.

Theorem C27_string_reread : forall d p q s, dialect_ok d -> ~ In 39 s ->
  exists p' q', parse_expr_source d (sql_node (EString p q s)) = ROk (EString p' q' s).
Proof. exact string_reread. Qed.
Print Assumptions C27_string_reread.

Theorem C27_national_string_reread : forall d p q s, dialect_ok d -> ~ In 39 s ->
  exists p' q', parse_expr_source d (sql_node (ENString p q s)) = ROk (ENString p' q' s).
Proof. exact nstring_reread. Qed.
Print Assumptions C27_national_string_reread.

(** With a quote inside it is never that one token. *)
Theorem C27_quote_unsafe : forall d p q s t, dialect_ok d -> In 39 s ->
  tokenize d true (sql_node (EString p q s)) = TOk [t] -> tkind t = SingleQuotedString -> tval t <> VStr s.
Proof. exact string_unsafe. Qed.
Print Assumptions C27_quote_unsafe.

(** And the text behind the quote becomes code: the string [x' OR 'y] written
    with a doubled quote, printed and read again, is an OR. *)
Definition kind_of (r : result node) : nat :=
  match r with ROk (EString _ _ _) => 1 | ROk (EBinary _ _ _) => 2 | _ => 0 end%nat.

Theorem C27_injection_refuted :
  kind_of (parse_expr_source generic (gs "'x'' OR ''y'")) = 1%nat /\
  kind_of (reread (gs "'x'' OR ''y'")) = 2%nat.
Proof. vm_compute. split; reflexivity. Qed.
Print Assumptions C27_injection_refuted.

Example C27_ex : ~ In 39 (gs "it is -- /* fine") /\ stops (fun r => r =? 39) (gs ", b") /\ In 39 (gs "o'clock").
Proof. vm_compute. intuition (congruence || auto). Qed.

(** C28.  The comments of the file are those of the source, once each and in
    order; the order in which Go iterates over its map does not matter. *)
Theorem C28_comments_once_in_order : forall d src toks f, dialect_ok d ->
  tokenize d true src = TOk toks -> parse_file d src = ROk f ->
  List.concat (f_comments f) = comments toks /\
  (forall g, In g (f_comments f) -> g <> []) /\
  (forall gs, Permutation gs (f_comments f) -> sort_groups gs = f_comments f).
Proof. exact file_comments. Qed.
Print Assumptions C28_comments_once_in_order.

Example C28_ex :
  match parse_file generic (gs "/* 1 */ SELECT /* 2 */ a FROM t /* 3 */ NATURAL /* 4 */ JOIN u; -- 5
") with
  | ROk f => List.length (List.concat (f_comments f)) = 5%nat
  | _ => False
  end.
Proof. vm_compute. reflexivity. Qed.

(** C36.  [write_node] is WriteTo of a node's operations; [wt_stmt], [wt_node]
    and [wt_file] are the operations of statements, expressions and files. *)
Theorem C36_write_to : forall W E (write : W -> gostring -> W * Z * option E), obeys write ->
  forall x w, exists log w' n e,
    write_node (logged write) x (w, []) = ((w', log), n, e) /\
    write_node write x w = (w', n, e) /\
    n = zlen (accepted log) /\ stops_at log e /\
    prefix (accepted log) (bytes (builder_string x)) /\
    (e = None -> accepted log = bytes (builder_string x)).
Proof. exact @write_to. Qed.
Print Assumptions C36_write_to.

(** A writer that accepts [k] bytes in all and then fails. *)
Definition limited (k : Z) (b : gostring) : Z * Z * option unit :=
  if zlen (bytes b) <=? k then (k - zlen (bytes b), zlen (bytes b), None) else (0, k, Some tt).

Example C36_ex :
  match parse_stmt_source generic (gs "INSERT INTO customers (customer_name) VALUES('Cardinal');") with
  | ROk s => snd (fst (write_node limited (wt_stmt s) 20)) = 20 /\ snd (write_node limited (wt_stmt s) 20) = Some tt
  | _ => False
  end.
Proof. vm_compute. split; reflexivity. Qed.
