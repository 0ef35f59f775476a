(** How comments are put into groups (C69). *)
From Coq Require Import ZArith List Bool String.
From Verif Require Import Base Dialect Token Lexer AST CommentSpec MoveSpec.
Import ListNotations.
Open Scope Z_scope.

(** Reading the tokens in order: the groups that are complete, the comments of
    the group being collected, and the line on which the last token that is
    neither blank nor comment ended. *)
Record gathering := mkG { g_done : list commentgroup; g_open : commentgroup; g_line : option Z }.

Definition close (g : gathering) : list commentgroup :=
  match g_open g with [] => g_done g | c => g_done g ++ [c] end.

Definition line_break (t : token) : bool :=
  match tkind t, tval t with Whitespace, VStr [10] => true | _, _ => false end.

(** A group is ended by a token that is neither blank nor comment, and by the
    end of a line on which such a token ended: comments behind code do not
    belong together with those on the lines below. *)
Definition gather (g : gathering) (t : token) : gathering :=
  match tkind t with
  | Comment => mkG (g_done g) (g_open g ++ [comment_of t]) (g_line g)
  | Whitespace =>
      if line_break t && match g_line g with Some l => l =? pline (tfrom t) | None => false end
      then mkG (close g) [] (g_line g)
      else g
  | _ => mkG (close g) [] (Some (pline (tto t)))
  end.

Definition groups_of (toks : list token) : list commentgroup := close (fold_left gather toks (mkG [] [] None)).

(** All tokens of the source. *)
Definition tokens_of (d : dialect) (src : list rune) : list token :=
  match tokenize d true src with TOk ts => ts | _ => [] end.

(** Everything moved [k] lines down. *)
Definition down_comment (k : Z) (c : comment) : comment := mkComment (c_text c) (down k (c_from c)) (down k (c_to c)).
Definition down_file (k : Z) (f : file) : file := mkFile (map (down_stmt k) (f_stmts f)) (map (map (down_comment k)) (f_comments f)).
