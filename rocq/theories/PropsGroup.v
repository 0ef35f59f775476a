(** Property C69: how ParseFile groups comments. *)
From Coq Require Import ZArith List Bool String.
From Verif Require Import Base Dialect Token Lexer LexSpec AST Num Prog Parser ParseSpec Sim CommentSpec MoveSpec GroupSpec GroupThms GroupMove.
Import ListNotations.
Open Scope string_scope.
Open Scope list_scope.
Open Scope Z_scope.

(** C69.  ParseFile, completely: the statements are those of ParseSQL and the
    groups are those found by reading the tokens once from left to right, however
    often the parser stepped back; and it fails exactly as ParseSQL does. *)
Theorem C69_file : forall d src, dialect_ok d ->
  parse_file d src = res_map (fun ss => mkFile ss (groups_of (tokens_of d src))) (parse_source d src).
Proof. exact file_exact. Qed.
Print Assumptions C69_file.

(** There is never code between the comments of one group. *)
Theorem C69_no_code_inside : forall d src f, dialect_ok d -> parse_file d src = ROk f ->
  forall g, In g (f_comments f) -> exists a m b, tokens_of d src = a ++ m ++ b /\ sig m = [] /\ comments m = g.
Proof.
  intros d src f D H g Hg. rewrite file_exact in H by exact D. destruct (parse_source d src); try discriminate H.
  injection H as <-. exact (groups_solid _ _ Hg).
Qed.
Print Assumptions C69_no_code_inside.

(** The comments above all code are one group, the first. *)
Theorem C69_header : forall d src f h t r, dialect_ok d -> parse_file d src = ROk f ->
  tokens_of d src = h ++ t :: r -> sig h = [] -> blank t = false -> comments h <> [] ->
  exists gs, f_comments f = comments h :: gs.
Proof.
  intros d src f h t r D H E S B N. rewrite file_exact in H by exact D. destruct (parse_source d src); try discriminate H.
  injection H as <-. cbn [f_comments]. rewrite E.
  destruct (groups_code h t r) as [u U].
  - unfold blank in B. unfold signif, skipped. destruct (tkind t); try discriminate B; reflexivity.
  - exists u. rewrite U, (groups_header h S N). reflexivity.
Qed.
Print Assumptions C69_header.

(** Comments behind code and those on the lines below it are in different
    groups: with code [t], then no code up to the end [w] of its line, the groups
    of the tokens up to there stand as they are. *)
Theorem C69_behind_code : forall d src f a t m w r, dialect_ok d -> parse_file d src = ROk f ->
  tokens_of d src = a ++ t :: m ++ w :: r -> blank t = false -> sig m = [] ->
  line_break w = true -> pline (tfrom w) = pline (tto t) ->
  exists gs, f_comments f = groups_of (a ++ t :: m) ++ gs.
Proof.
  intros d src f a t m w r D H E B M L P. rewrite file_exact in H by exact D. destruct (parse_source d src); try discriminate H.
  injection H as <-. cbn [f_comments]. rewrite E. apply groups_eol; auto.
  unfold blank in B. unfold signif, skipped. destruct (tkind t); try discriminate B; reflexivity.
Qed.
Print Assumptions C69_behind_code.

(** ParseFile below empty lines: everything in the file, comments included, that
    many lines further down. *)
Theorem C69_empty_lines : forall d n b, dialect_ok d -> skip_bom b = b ->
  parse_file d (repeat 10 (S n) ++ b) = res_map (down_file (Z.of_nat (S n))) (parse_file d b).
Proof. exact file_empty_lines. Qed.
Print Assumptions C69_empty_lines.

(** Example: two comments above, one behind code, one below it, and one more
    before the last statement. *)
Definition C69_text : list rune :=
  gs "--a" ++ [10] ++ gs "/*b*/" ++ [10] ++ gs "SELECT 1; --c" ++ [10] ++ gs "--d" ++ [10] ++ gs "--e" ++ [10] ++ gs "SELECT /*f*/ 2;".
Definition texts (r : result file) : list (list gostring) := match r with ROk f => map (map c_text) (f_comments f) | _ => [] end.
Definition lines (r : result file) : list (list Z) := match r with ROk f => map (map (fun c => pline (c_from c))) (f_comments f) | _ => [] end.
Example C69_ex :
  texts (parse_file generic C69_text) = [[gs "a"; gs "b"]; [gs "c"]; [gs "d"; gs "e"]; [gs "f"]] /\
  lines (parse_file generic C69_text) = [[1; 2]; [3]; [4; 5]; [6]] /\
  skip_bom C69_text = C69_text /\
  lines (parse_file generic (repeat 10 3 ++ C69_text)) = [[4; 5]; [6]; [7; 8]; [9]] /\
  (exists h t r, tokens_of generic C69_text = h ++ t :: r /\ sig h = [] /\ blank t = false /\ map c_text (comments h) = [gs "a"; gs "b"]) /\
  (exists a t m w r, tokens_of generic C69_text = a ++ t :: m ++ w :: r /\ blank t = false /\ sig m = [] /\
    line_break w = true /\ pline (tfrom w) = pline (tto t) /\ map c_text (comments m) = [gs "c"]).
Proof.
  split; [vm_compute; reflexivity|]. split; [vm_compute; reflexivity|]. split; [reflexivity|]. split; [vm_compute; reflexivity|].
  split.
  - exists (firstn 4 (tokens_of generic C69_text)). vm_compute. eexists _, _. repeat split.
  - exists (firstn 7 (tokens_of generic C69_text)). vm_compute. eexists _, [_; _], _, _. repeat split.
Qed.

(** An empty line does not separate groups, unlike in Go's own comment groups:
    the two comments stand three lines apart (parser.go:2964-2989). *)
Theorem C69_empty_line_separates_refuted : exists src f, parse_file generic src = ROk f /\
  texts (ROk f) = [[gs "a"; gs "b"]] /\ lines (ROk f) = [[1; 4]].
Proof.
  exists (gs "--a" ++ [10; 10; 10] ++ gs "--b" ++ [10] ++ gs "SELECT 1;"). eexists. split; [vm_compute; reflexivity|].
  split; vm_compute; reflexivity.
Qed.
Print Assumptions C69_empty_line_separates_refuted.
