(** Property C67: moving text down moves its positions and nothing else. *)
From Coq Require Import ZArith List Bool String.
From Verif Require Import Base Dialect Token Lexer LexSpec AST Num Prog Parser Erase ParseSpec CutSpec WallSpec MoveSpec MoveThms.
Import ListNotations.
Open Scope string_scope.
Open Scope list_scope.
Open Scope Z_scope.

(** C67.  Tokens.  If the tokenizer accepts [a], then after [a] and a new line any
    text [b] is read as if it stood alone: the same tokens, so many lines
    further down as the tokenizer counts in [a], in the same columns; or the
    same failure. *)
Theorem C67_tokens : forall d a b ta, dialect_ok d -> tokenize d true a = TOk ta -> skip_bom b = b ->
  exists tx, tokenize d true (a ++ [10]) = TOk tx /\ sig tx = sig ta /\
  tokenize d true (a ++ 10 :: b)
  = match tokenize d true b with
    | TOk tb => TOk (tx ++ map (down_token (lines_in d a)) tb)
    | r => r
    end.
Proof. exact tokens_move. Qed.
Print Assumptions C67_tokens.

(** ParseSQL, ParseStatement, ParseExpr and ParseDataType: with nothing but
    blanks and comments above it, a text gives the same result -- tree, error
    or panic -- with all the positions in the tree moved down. *)
Theorem C67_comments_above : forall A (P : rec -> prog A) erA k, public P erA k ->
  forall d a b ta, dialect_ok d -> tokenize d true a = TOk ta -> sig ta = [] -> skip_bom b = b ->
  parse_with P d (a ++ 10 :: b) = res_map (erA (down (lines_in d a)) same_rune) (parse_with P d b).
Proof. exact @method_moves. Qed.
Print Assumptions C67_comments_above.

(** Empty lines: one line down for each. *)
Theorem C67_empty_lines : forall A (P : rec -> prog A) erA k, public P erA k ->
  forall d n b, dialect_ok d -> skip_bom b = b ->
  parse_with P d (repeat 10 (S n) ++ b) = res_map (erA (down (Z.of_nat (S n))) same_rune) (parse_with P d b).
Proof. exact @empty_lines. Qed.
Print Assumptions C67_empty_lines.

(** ParseSQL below a text of whole statements, accepted or not: the statements
    of the first text where they were and those of the second moved down, or
    the failure of the first, or else that of the second.  This says exactly
    which trees come out, positions included, where C46 and C66 leave the
    positions open. *)
Theorem C67_script : forall d a b, dialect_ok d -> ends_with_semi d a -> skip_bom b = b -> no_lead_semi d b ->
  (exists tb, tokenize d true b = TOk tb) ->
  parse_source d (a ++ 10 :: b) = and_then (parse_source d a) (res_map (map (down_stmt (lines_in d a))) (parse_source d b)).
Proof. exact script_moves. Qed.
Print Assumptions C67_script.

(** Examples: a comment of two lines and a statement below it. *)
Definition above : list rune := gs "/* one" ++ [10] ++ gs "two */ -- three".
Definition below : list rune := gs "SELECT a" ++ [10] ++ gs " FROM t;".
Definition starts (src : list rune) : list pos :=
  match tokenize generic true src with TOk ts => map tfrom (sig ts) | _ => [] end.
Definition below_tree : list stmt := match parse_source generic below with ROk l => l | _ => [] end.
Example C67_ex :
  match tokenize generic true above with TOk ts => sig ts = [] | _ => False end /\ skip_bom below = below /\ lines_in generic above = 2 /\
  starts below = [mkPos 1 1; mkPos 1 8; mkPos 2 2; mkPos 2 7; mkPos 2 8] /\
  starts (above ++ 10 :: below) = [mkPos 3 1; mkPos 3 8; mkPos 4 2; mkPos 4 7; mkPos 4 8] /\
  parse_source generic below = ROk below_tree /\ List.length below_tree = 1%nat /\
  parse_source generic (above ++ 10 :: below) = ROk (map (down_stmt 2) below_tree) /\ map (down_stmt 2) below_tree <> below_tree /\
  ends_with_semi generic below /\ no_lead_semi generic below /\ lines_in generic below = 2 /\
  parse_source generic (below ++ 10 :: below) = ROk (below_tree ++ map (down_stmt 2) below_tree).
Proof.
  split; [vm_compute; reflexivity|]. split; [reflexivity|]. split; [vm_compute; reflexivity|].
  split; [vm_compute; reflexivity|]. split; [vm_compute; reflexivity|].
  split; [vm_compute; reflexivity|]. split; [vm_compute; reflexivity|]. split; [vm_compute; reflexivity|].
  split; [vm_compute; discriminate|].
  split. { unfold ends_with_semi. vm_compute. eexists _, [_; _; _; _], _. repeat split. }
  split. { unfold no_lead_semi. intros ts t r T. assert (K : match tokenize generic true below with TOk ts => match sig ts with t :: _ => tkind t <> Semicolon | [] => True end | _ => True end)
      by (vm_compute; discriminate). rewrite T in K. intros E. rewrite E in K. exact K. }
  split; [vm_compute; reflexivity|].
  vm_compute. reflexivity.
Qed.

(** The lines counted by the tokenizer are not those of the text: a line break
    in a string or a quoted name is not counted, so what stands below is
    reported too high (sqltoken/tokenizer.go:276-290 and 478-506). *)
Theorem C67_true_lines_refuted :
  (exists b, lines_in generic b = 1 /\ count_occ Z.eq_dec b 10 = 2%nat /\ ends_with_semi generic b /\
    starts (b ++ 10 :: gs "x") = starts b ++ [mkPos 2 1]) /\
  (exists b, lines_in generic b = 1 /\ count_occ Z.eq_dec b 10 = 1%nat /\ ends_with_semi generic b).
Proof.
  split.
  - exists (gs "SELECT 'a" ++ [10; 10] ++ gs "b';"). split; [vm_compute; reflexivity|]. split; [reflexivity|]. split; [|vm_compute; reflexivity].
    unfold ends_with_semi. vm_compute. eexists _, [_; _], _. repeat split.
  - exists ([83; 32; 34; 97; 10; 98; 34] ++ gs ";"). split; [vm_compute; reflexivity|]. split; [reflexivity|].
    unfold ends_with_semi. vm_compute. eexists _, [_; _], _. repeat split.
Qed.
Print Assumptions C67_true_lines_refuted.

(** A byte order mark is dropped only at the very beginning of the input: in
    front of the second text it makes a difference. *)
Theorem C67_bom_refuted : exists b ts ts', tokenize generic true b = TOk ts /\ tokenize generic true (10 :: b) = TOk ts' /\
  List.length (sig ts) = 1%nat /\ List.length (sig ts') = 2%nat.
Proof. exists (65279 :: gs "a"). vm_compute. eexists _, _. repeat split. Qed.
Print Assumptions C67_bom_refuted.
