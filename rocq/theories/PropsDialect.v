(** Property C51: what a dialect decides. *)
From Coq Require Import ZArith List Bool String.
From Verif Require Import Base Dialect Token Lexer LexSpec LexFacts LexThms AST Prog Parser DialectSpec DialectThms.
Import ListNotations.
Open Scope list_scope.
Open Scope Z_scope.

(** Two dialects that treat every character of the text alike give the same
    tokens and the same results, readable text or not. *)
Theorem C51_every_character : forall d d' src, dialect_ok d -> dialect_ok d' -> Forall (alike d d') src ->
  (forall pc, tokenize d pc src = tokenize d' pc src) /\
  parse_source d src = parse_source d' src /\ parse_stmt_source d src = parse_stmt_source d' src /\
  parse_expr_source d src = parse_expr_source d' src /\ parse_dtype_source d src = parse_dtype_source d' src /\
  parse_file d src = parse_file d' src.
Proof. exact all_alike. Qed.
Print Assumptions C51_every_character.

(** In a text that can be tokenized only the first character of each token and
    the other characters of unquoted words matter. *)
Theorem C51_first_characters : forall d d' src l, dialect_ok d -> dialect_ok d' ->
  reads d start_pos (skip_bom src) l [] -> Forall (alike_slice d d') l ->
  parse_source d src = parse_source d' src /\ parse_stmt_source d src = parse_stmt_source d' src /\
  parse_expr_source d src = parse_expr_source d' src /\ parse_dtype_source d src = parse_dtype_source d' src /\
  parse_file d src = parse_file d' src.
Proof. exact parse_alike. Qed.
Print Assumptions C51_first_characters.

(** The three dialects of the package agree on every text in which no token
    starts with @ $ _ or a backquote and no unquoted word has @ or $. *)
Theorem C51_shipped : forall d d' src l, In d [generic; postgres; mysql] -> In d' [generic; postgres; mysql] ->
  reads d start_pos (skip_bom src) l [] -> Forall common_slice l ->
  parse_source d src = parse_source d' src /\ parse_stmt_source d src = parse_stmt_source d' src /\
  parse_expr_source d src = parse_expr_source d' src /\ parse_dtype_source d src = parse_dtype_source d' src /\
  parse_file d src = parse_file d' src.
Proof. exact shipped_alike. Qed.
Print Assumptions C51_shipped.

Definition c51_text : list rune := gs "SELECT first_name, ""a@$"" FROM t /* _ @ */ WHERE s = '$_@`' ;".

Example C51_ex : exists l, reads generic start_pos (skip_bom c51_text) l [] /\ Forall common_slice l /\
  exists x, parse_source postgres c51_text = ROk x.
Proof.
  destruct (cut generic 100 start_pos (skip_bom c51_text)) as [l|] eqn:E; [|vm_compute in E; discriminate].
  exists l. split; [exact (cut_reads generic (proj1 shipped_ok) _ _ _ _ E)|]. split.
  - vm_compute in E. injection E as <-. repeat constructor; cbn; intuition discriminate.
  - eexists. vm_compute. reflexivity.
Qed.

(** Each of the four characters matters: with it, letters, a blank and a
    semicolon a text can be written that two of the dialects read differently. *)
Theorem C51_differences : forall c, In c [64; 36; 95; 96] -> exists d d' src x,
  In d [generic; postgres; mysql] /\ In d' [generic; postgres; mysql] /\
  Forall (fun r => r = c \/ is_letter r = true \/ r = 32 \/ r = 59) src /\
  parse_source d src = ROk x /\ parse_source d' src <> ROk x.
Proof.
  intros c H. cbn in H.
  assert (W : forall d d' src x, In d [generic; postgres; mysql] -> In d' [generic; postgres; mysql] ->
    forallb (fun r => (r =? c) || is_letter r || (r =? 32) || (r =? 59)) src = true ->
    parse_source d src = ROk x -> parse_source d' src <> ROk x -> exists d d' src x,
    In d [generic; postgres; mysql] /\ In d' [generic; postgres; mysql] /\
    Forall (fun r => r = c \/ is_letter r = true \/ r = 32 \/ r = 59) src /\
    parse_source d src = ROk x /\ parse_source d' src <> ROk x).
  { intros d d' src x I1 I2 F E N. exists d, d', src, x. repeat split; auto. apply Forall_forall. intros r I.
    rewrite forallb_forall in F. specialize (F r I). rewrite !orb_true_iff, !Z.eqb_eq in F. tauto. }
  destruct H as [<-|[<-|[<-|[<-|[]]]]].
  - eapply (W generic postgres (gs "SELECT @a;")); [cbn; tauto|cbn; tauto|reflexivity|vm_compute; reflexivity|].
    vm_compute. discriminate.
  - eapply (W postgres generic (gs "SELECT a$b;")); [cbn; tauto|cbn; tauto|reflexivity|vm_compute; reflexivity|].
    vm_compute. discriminate.
  - eapply (W postgres generic (gs "SELECT _a;")); [cbn; tauto|cbn; tauto|reflexivity|vm_compute; reflexivity|].
    vm_compute. discriminate.
  - eapply (W mysql generic (gs "SELECT `a`;")); [cbn; tauto|cbn; tauto|reflexivity|vm_compute; reflexivity|].
    vm_compute. discriminate.
Qed.
Print Assumptions C51_differences.
