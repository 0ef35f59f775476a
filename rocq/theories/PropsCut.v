(** Property C46: scripts can be joined and cut. *)
From Coq Require Import ZArith String List Bool.
From Verif Require Import Base Dialect Token Lexer LexSpec AST Nodes Prog Parser ParseSpec RoundSpec ExtentSpec CutSpec CutThms.
Import ListNotations.
Open Scope list_scope.
Open Scope Z_scope.

(** C46.  A script that parses, a new line and any other text give the
    statements of the script and then what the other text alone gives, or fail
    as the other text alone fails. *)
Theorem C46_join : forall d a b la, dialect_ok d -> parse_source d a = ROk la -> skip_bom b = b -> no_lead_semi d b ->
  res_map (map bare_stmt) (parse_source d (a ++ 10 :: b)) = res_map (fun lb => map bare_stmt (la ++ lb)) (parse_source d b).
Proof. exact join. Qed.
Print Assumptions C46_join.

(** Any number of scripts. *)
Theorem C46_join_all : forall d bs ls, dialect_ok d ->
  Forall2 (fun b l => parse_source d b = ROk l /\ skip_bom b = b /\ no_lead_semi d b) bs ls ->
  exists ss, parse_source d (lines bs) = ROk ss /\ map bare_stmt ss = map bare_stmt (List.concat ls).
Proof. exact join_all. Qed.
Print Assumptions C46_join_all.

(** A script that parses is blanks (and at most one semicolon), then for each
    statement its text, blanks, a semicolon and blanks.  The text of a statement
    and a semicolon alone give the statement.  It starts at Pos and ends at End
    if the statement knows them (C44). *)
Theorem C46_cut : forall d src ss, dialect_ok d -> parse_source d src = ROk ss ->
  exists lead cs, LexSpec.reads d start_pos (skip_bom src) (lead ++ List.concat (map chunk_toks cs)) [] /\ map ck_stmt cs = ss /\
    (only_blank lead \/ exists z, sig (map fst lead) = [z] /\ tkind z = Semicolon) /\
    Forall (fun c => only_blank (ck_gap c) /\ only_blank (ck_after c) /\ trimmed (ck_body c) /\ tkind (fst (ck_semi c)) = Semicolon /\
      spans (AStmt (ck_stmt c)) (sig (map fst (ck_body c))) /\
      exists s', parse_source d (text_of (ck_body c) ++ gs ";") = ROk [s'] /\ bare_stmt s' = bare_stmt (ck_stmt c)) cs.
Proof. exact cut. Qed.
Print Assumptions C46_cut.

(** Examples: both texts parse, and the second does not start with a semicolon. *)
Definition count (src : list rune) : option nat := match parse_source generic src with ROk l => Some (List.length l) | _ => None end.
Definition first_text : list rune := gs " SELECT a FROM t; -- one".
Definition second_text : list rune := gs "/* two */ UPDATE t SET a = 1; DELETE FROM t ;".

Example C46_ex : count first_text = Some 1%nat /\ count second_text = Some 2%nat /\ skip_bom second_text = second_text /\
  no_lead_semi generic second_text /\ count (first_text ++ 10 :: second_text) = Some 3%nat.
Proof.
  split; [vm_compute; reflexivity|]. split; [vm_compute; reflexivity|]. split; [reflexivity|]. split; [|vm_compute; reflexivity].
  intros ts t r T. vm_compute in T. injection T as <-. vm_compute. intros E. injection E as <- _. discriminate.
Qed.

(** The second text must not start with a semicolon: an empty statement is
    accepted only at the start of a text. *)
Theorem C46_join_semicolon_refuted : exists a b, count a = Some 1%nat /\ count b = Some 1%nat /\ count (a ++ 10 :: b) = None.
Proof. exists (gs "SELECT 1;"), (gs ";SELECT 2;"). repeat split; vm_compute; reflexivity. Qed.
Print Assumptions C46_join_semicolon_refuted.

(** The new line is needed: a comment at the end takes the other text in. *)
Theorem C46_join_newline_refuted : exists a b, count a = Some 1%nat /\ count b = Some 1%nat /\ count (a ++ b) = Some 1%nat.
Proof. exists (gs "SELECT 1; -- one"), (gs "SELECT 2;"). repeat split; vm_compute; reflexivity. Qed.
Print Assumptions C46_join_newline_refuted.

(** The mark at the start of a file is not accepted in the middle. *)
Theorem C46_join_mark_refuted : exists a b, count a = Some 1%nat /\ count b = Some 1%nat /\ count (a ++ 10 :: b) = None.
Proof. exists (gs "SELECT 1;"), (65279 :: gs "SELECT 2;"). repeat split; vm_compute; reflexivity. Qed.
Print Assumptions C46_join_mark_refuted.

(** The text of a statement alone is not enough: the last statement of a script
    needs its semicolon. *)
Theorem C46_bare_text_refuted : exists a, count (a ++ gs ";") = Some 1%nat /\ count a = None.
Proof. exists (gs "DELETE FROM t"). split; vm_compute; reflexivity. Qed.
Print Assumptions C46_bare_text_refuted.
