(** Property C66: a semicolon is a wall. *)
From Coq Require Import ZArith List Bool String.
From Verif Require Import Base Dialect Token Lexer LexSpec AST Num Prog Parser Erase ParseSpec RoundSpec CutSpec LookSpec WallSpec WallThms.
Import ListNotations.
Open Scope string_scope.
Open Scope list_scope.
Open Scope Z_scope.

(** C66.  ParseStatement, ParseExpr and ParseDataType ([looks], LookSpec.v): if the
    tokens left are the same up to the first semicolon, so is what the call does
    -- the tree up to positions and how far it reads, the error, or the panic --
    whatever is behind the semicolon and whatever was read before.  The semicolon
    is never read by a call that succeeds. *)
Theorem C66_calls : forall A (P : rec -> prog A) erA K, looks P erA K ->
  forall done todo done' todo' u, Forall tok_wf todo -> Forall tok_wf todo' ->
  to_semi (left_over todo) = Some u -> to_semi (left_over todo') = Some u ->
  same_call (erA no_pos same_rune) (List.length u) todo todo' (call P done todo) (call P done' todo').
Proof. exact @wall_calls. Qed.
Print Assumptions C66_calls.

(** Examples: a call that fails in front of two different texts, and one that
    succeeds; up to the semicolon there are 5 tokens. *)
Definition tokens_of (src : gostring) : list token := match tokenize generic true src with TOk ts => ts | _ => [] end.
Definition stop_of (src : gostring) : option nat := option_map (@List.length _) (to_semi (left_over (tokens_of src))).
Example C66_calls_ex :
  to_semi (left_over (tokens_of (gs "SELECT CAST(1; x ORDER BY"))) = to_semi (left_over (tokens_of (gs "SELECT CAST ( 1 ; AS int)"))) /\
  stop_of (gs "SELECT CAST(1; x ORDER BY") = Some 5%nat /\
  call parse_statement [] (tokens_of (gs "SELECT CAST(1; x ORDER BY")) = OPanic PLog /\
  to_semi (left_over (tokens_of (gs "SELECT a FROM t; x"))) = to_semi (left_over (tokens_of (gs "SELECT a FROM t ; WHERE ("))) /\
  stop_of (gs "SELECT a FROM t; x") = Some 5%nat /\
  exists s st, call parse_statement [] (tokens_of (gs "SELECT a FROM t; x")) = Ok s st /\ List.length (sig (snd st)) = 2%nat.
Proof.
  split; [vm_compute; reflexivity|]. split; [vm_compute; reflexivity|]. split; [vm_compute; reflexivity|].
  split; [vm_compute; reflexivity|]. split; [vm_compute; reflexivity|].
  vm_compute. eexists _, _. split; reflexivity.
Qed.

(** ParseSQL on a text of whole statements -- its last token is a semicolon,
    whether it is accepted or not -- a new line and another text: the statements
    of both, or the failure of the first text, or else that of the second. *)
Theorem C66_script : forall d a b tb, dialect_ok d -> ends_with_semi d a -> tokenize d true b = TOk tb -> skip_bom b = b ->
  (forall t r, sig tb = t :: r -> tkind t <> Semicolon) ->
  res_map (map bare_stmt) (parse_source d (a ++ 10 :: b)) = res_map (map bare_stmt) (and_then (parse_source d a) (parse_source d b)).
Proof. exact script_join. Qed.
Print Assumptions C66_script.

(** Any number of texts: the first one that fails decides. *)
Theorem C66_scripts : forall d bs, dialect_ok d -> Forall (whole_text d) bs ->
  res_map (map bare_stmt) (parse_source d (lines bs))
  = res_map (map bare_stmt) (fold_right and_then (ROk []) (map (parse_source d) bs)).
Proof. exact script. Qed.
Print Assumptions C66_scripts.

Definition sort_of (src : list rune) : option (option panick * nat) :=
  match parse_source generic src with ROk l => Some (None, List.length l) | RPanic p => Some (Some p, 0%nat) | _ => None end.
Definition text1 : list rune := gs "SELECT a FROM t; DELETE FROM t;".
Definition text2 : list rune := gs "SELECT CAST(1; SELECT 2;".
Definition text3 : list rune := gs "UPDATE t SET;".
Example C66_scripts_ex : Forall (whole_text generic) [text1; text2; text3] /\
  sort_of text1 = Some (None, 2%nat) /\ sort_of text2 = Some (Some PLog, 0%nat) /\ sort_of text3 = None /\
  sort_of (lines [text1; text2; text3]) = Some (Some PLog, 0%nat) /\ sort_of (lines [text1; text3; text2]) = None /\
  sort_of (lines [text1; text1]) = Some (None, 4%nat).
Proof.
  split.
  - assert (G : forall b l s, match tokenize generic true b with TOk ts => sig ts = l ++ [s] /\ tkind s = Semicolon | _ => False end ->
      skip_bom b = b -> match l with x :: _ => tkind x <> Semicolon | [] => False end -> whole_text generic b).
    { intros b l s H B F. destruct (tokenize generic true b) as [ts| | |] eqn:T; try contradiction. destruct H as [H K]. split; [exists ts, l, s; auto|].
      split; [exact B|]. intros ts' t r T' E. rewrite T in T'. injection T' as <-. rewrite H in E. destruct l as [|x l]; [contradiction|].
      injection E as <- _. exact F. }
    assert (H : forall b, match tokenize generic true b with TOk ts => match rev (sig ts) with s :: r => tkind s = Semicolon /\
      match rev r with x :: _ => tkind x <> Semicolon | [] => False end | [] => False end | _ => False end -> skip_bom b = b -> whole_text generic b).
    { intros b H B. destruct (tokenize generic true b) as [ts| | |] eqn:T; try contradiction. destruct (rev (sig ts)) as [|s r] eqn:E; [contradiction|].
      destruct H as [K F]. apply (G b (rev r) s); [|exact B|exact F]. rewrite T. split; [|exact K].
      rewrite <- (rev_involutive (sig ts)), E. reflexivity. }
    repeat constructor; apply H; try reflexivity; vm_compute; split; try reflexivity; discriminate.
  - repeat split; vm_compute; reflexivity.
Qed.

(** The semicolon is needed: a text that fails can be saved by what follows. *)
Theorem C66_open_text_refuted : exists a b, sort_of a = Some (Some PNil, 0%nat) /\ sort_of (a ++ 10 :: b) = Some (None, 1%nat).
Proof. exists (gs "SELECT (1"), (gs ") ;"). split; vm_compute; reflexivity. Qed.
Print Assumptions C66_open_text_refuted.

(** The second text must be one the tokenizer accepts: its error comes first,
    even if the first text makes the parser panic. *)
Theorem C66_lexical_error_refuted : exists a b, ends_with_semi generic a /\ sort_of a = Some (Some PLog, 0%nat) /\
  parse_source generic (a ++ 10 :: b) = RErr.
Proof.
  exists text2, (gs "'"). split.
  - unfold ends_with_semi. vm_compute. eexists _, [_; _; _; _; _; _; _], _. repeat split.
  - split; vm_compute; reflexivity.
Qed.
Print Assumptions C66_lexical_error_refuted.
