(** Properties C48 and C49: literal values, and where statements start. *)
From Coq Require Import ZArith QArith List Bool String Lia.
From Verif Require Import Base Dialect Token LexSpec AST Num Printer Prog Parser Sim Lexer ValueSpec Literals LiteralSpec LiteralThms.
Import ListNotations.
Open Scope list_scope.
Open Scope Z_scope.

(** *** C48: Value() of a literal is what the source wrote *)

(** Every string, quotes doubled, plain or national. *)
Theorem C48_strings : forall d s, dialect_ok d ->
  (exists e, parse_expr_source d (39 :: escape s ++ [39]) = ROk e /\ value_of e = Some (GString s)) /\
  (exists e, parse_expr_source d (78 :: 39 :: escape s ++ [39]) = ROk e /\ value_of e = Some (GString s)).
Proof. exact string_value. Qed.
Print Assumptions C48_strings.

(** TRUE, FALSE and NULL in any case. *)
Theorem C48_words : forall d w, dialect_ok d ->
  (exists c w', w = c :: w' /\ is_start d c = true /\ forallb (is_part d) w' = true) ->
  (upper w = gs "TRUE" -> exists e, parse_expr_source d w = ROk e /\ value_of e = Some (GBool true)) /\
  (upper w = gs "FALSE" -> exists e, parse_expr_source d w = ROk e /\ value_of e = Some (GBool false)) /\
  (upper w = gs "NULL" -> exists e, parse_expr_source d w = ROk e /\ value_of e = Some GNil).
Proof. exact word_value. Qed.
Print Assumptions C48_words.

(** A decimal fraction that is read gives the nearest binary64 number. *)
Theorem C48_fractions : forall d (a b : list rune), dialect_ok d -> digits a -> digits b ->
  forall e, parse_expr_source d (a ++ 46 :: b) = ROk e -> exists f, value_of e = Some (GFloat f) /\ nearest (dec_frac a b) f.
Proof. exact number_value. Qed.
Print Assumptions C48_fractions.

Example C48_ex : (exists e, parse_expr_source generic (gs "'it''s'") = ROk e /\ value_of e = Some (GString (gs "it's"))) /\
  (exists e, parse_expr_source generic (gs "tRue") = ROk e /\ value_of e = Some (GBool true)) /\
  (exists e f, parse_expr_source generic (gs "1.5") = ROk e /\ value_of e = Some (GFloat f)).
Proof. repeat split; repeat eexists; vm_compute; reflexivity. Qed.

(** An integer's Value is not an integer: it is the node itself. *)
Theorem C48_integers_refuted : exists e, parse_expr_source generic (gs "42") = ROk e /\
  value_of e = Some (GNode e) /\ forall z, value_of e <> Some (GInt z).
Proof. eexists. split; [vm_compute; reflexivity|]. split; [reflexivity|discriminate]. Qed.
Print Assumptions C48_integers_refuted.

(** Dates and times are written in ISO form, the fields zero padded. *)
Theorem C48_iso : forall t, valid_civil t ->
  iso_date t (sql_timelit (LDate t)) /\ iso_time t (sql_timelit (LTime t)) /\
  (exists a b, iso_date t a /\ iso_time t b /\ sql_timelit (LDateTime t) = a ++ gs " " ++ b /\
     sql_timelit (LTimestamp t) = a ++ gs " " ++ b).
Proof. exact timelit_iso. Qed.
Print Assumptions C48_iso.

(** But not as literals: a date, a date and time or a timestamp is read back as
    a subtraction, a time as its hour. *)
Theorem C48_reread : forall d t, dialect_ok d -> valid_civil t ->
  (exists e, parse_expr_source d (sql_timelit (LDate t)) = ROk e /\ subtraction t e) /\
  (exists e, parse_expr_source d (sql_timelit (LDateTime t)) = ROk e /\ subtraction t e) /\
  (exists e, parse_expr_source d (sql_timelit (LTimestamp t)) = ROk e /\ subtraction t e) /\
  (exists p q, parse_expr_source d (sql_timelit (LTime t)) = ROk (ELong (mkLong p q (c_hour t)))).
Proof. exact timelit_reread. Qed.
Print Assumptions C48_reread.

(** The same for any text of that form. *)
Theorem C48_iso_texts : forall d t a b, dialect_ok d -> valid_civil t -> iso_date t a -> iso_time t b ->
  (exists e, parse_expr_source d a = ROk e /\ subtraction t e) /\
  (exists e, parse_expr_source d (a ++ gs " " ++ b) = ROk e /\ subtraction t e) /\
  (exists p q, parse_expr_source d b = ROk (ELong (mkLong p q (c_hour t)))).
Proof. exact iso_texts. Qed.
Print Assumptions C48_iso_texts.

Example C48_date_ex : valid_civil (mkCivil 2019 3 7 9 5 0) /\
  sql_timelit (LDateTime (mkCivil 2019 3 7 9 5 0)) = gs "2019-03-07 09:05:00".
Proof. split; [unfold valid_civil; cbn; lia|vm_compute; reflexivity]. Qed.

(** *** C49: where a statement starts *)

(** An accepted statement starts, blanks and comments aside, with one of nine
    words; an accepted script that is not empty does so too, after at most one
    semicolon. *)
Theorem C49_statement : forall d src s, dialect_ok d -> parse_stmt_source d src = ROk s ->
  exists toks x u w, tokenize d true src = TOk toks /\ fsig toks = x :: u /\ tval x = VWord w /\ In (wkeyword w) openers.
Proof. exact opener. Qed.
Print Assumptions C49_statement.

Theorem C49_script : forall d src s ss, dialect_ok d -> parse_source d src = ROk (s :: ss) ->
  exists toks ld x u w, tokenize d true src = TOk toks /\ fsig toks = ld ++ x :: u /\
    (ld = [] \/ exists z, ld = [z] /\ tkind z = Semicolon) /\ tval x = VWord w /\ In (wkeyword w) openers.
Proof. exact opener_sql. Qed.
Print Assumptions C49_script.

Theorem C49_other_words : forall d f w rest, dialect_ok d ->
  is_start d f = true -> forallb (is_part d) w = true -> stops (is_part d) rest -> f <> 78 -> f <> 65279 ->
  ~ In (upper (f :: w)) openers ->
  (forall s, parse_stmt_source d ((f :: w) ++ rest) <> ROk s) /\ (forall ss, parse_source d ((f :: w) ++ rest) <> ROk ss).
Proof. exact not_statement. Qed.
Print Assumptions C49_other_words.

(** A COPY statement can be built and printed but never read. *)
Theorem C49_copy : forall d c, dialect_ok d -> is_start d 67 = true -> forallb (is_part d) (gs "OPY") = true -> is_part d 32 = false ->
  (forall s, parse_stmt_source d (sql_copy c) <> ROk s) /\ (forall ss, parse_source d (sql_copy c) <> ROk ss).
Proof. exact copy_unreadable. Qed.
Print Assumptions C49_copy.

Definition copy_ex : copystmt :=
  mkCopy pos0 (mkON [mkIdent (gs "t") pos0 pos0]) [mkIdent (gs "a") pos0 pos0; mkIdent (gs "b") pos0 pos0] [Some (gs "1"); None].
Example C49_ex : sql_copy copy_ex = gs "COPY t (a, b) FROM stdin; " ++ 10 :: gs "1" ++ 9 :: gs "\N" ++ 10 :: gs "\." /\
  Forall (fun d => is_start d 67 = true /\ forallb (is_part d) (gs "OPY") = true /\ is_part d 32 = false) [generic; postgres; mysql] /\
  (exists s, parse_stmt_source generic (gs "/* x */ explain select 1 from t;") = ROk s).
Proof. split; [vm_compute; reflexivity|]. split; [repeat constructor|]. eexists. vm_compute. reflexivity. Qed.

(** The word may be quoted: "select" opens a query. *)
Theorem C49_quoted_refuted : exists s, parse_stmt_source generic (gs """select"" 1 from t;") = ROk s.
Proof. eexists. vm_compute. reflexivity. Qed.
Print Assumptions C49_quoted_refuted.
