(** The Parser struct as it is: a slice of tokens, an index into it, and the
    comments (parser.go:18-84, 2920-3093). *)
From Coq Require Import ZArith List Bool.
From Verif Require Import Base Dialect Token Lexer AST Num Prog Parser.
Import ListNotations.
Open Scope Z_scope.

(** parser.go:18-23.  The map of comments is used only with ParseComment. *)
Record parser := mkP { p_tokens : list token; p_index : nat; p_comments : cmap; p_collect : bool }.

Definition at_index (p : parser) (i : nat) : parser := mkP (p_tokens p) i (p_comments p) (p_collect p).
Definition with_comments (p : parser) (c : cmap) : parser := mkP (p_tokens p) (p_index p) c (p_collect p).

(** parser.go:50-56, and 27-32 for the option. *)
Definition new_parser_with_options (collect : bool) : parser := mkP [] 0 [] collect.
(** parser.go:60-62: neither the index nor the comments are reset. *)
Definition set_tokens (toks : list token) (p : parser) : parser := mkP toks (p_index p) (p_comments p) (p_collect p).
(** parser.go:34-48 after a successful Tokenize. *)
Definition new_parser (toks : list token) (collect : bool) : parser := mkP toks 0 [] collect.

(** parser.go:3030-3036. *)
Definition next_no_skip (p : parser) : option (token * parser) :=
  match nth_error (p_tokens p) (p_index p) with
  | Some t => Some (t, at_index p (S (p_index p)))
  | None => None
  end.

(** parser.go:2925-2934.  [n] bounds the rounds; the number of tokens is
    enough. *)
Fixpoint next_plain (n : nat) (p : parser) : option token * parser :=
  match next_no_skip p with
  | None => (None, p)
  | Some (t, p') =>
      if skipped t then match n with O => (None, p') | S n' => next_plain n' p' end
      else (Some t, p')
  end.

(** parser.go:2971-2981: for i := p.index; i > 0; i--. *)
Fixpoint split_back (toks : list token) (i : nat) (line : Z) : bool :=
  match i with
  | O => false
  | S j =>
      match nth_error toks j with
      | None => false
      | Some prev => if pline (tto prev) <? line then false
                     else if negb (skipped prev) then true
                     else split_back toks j line
      end
  end.

(** parser.go:2937-3026; [n] as above. *)
Fixpoint next_collect (n : nat) (p : parser) (skip : bool) (groups : list commentgroup) (m : list comment) : option token * parser :=
  match next_no_skip p with
  | None => (None, with_comments p (fold_left cmap_add (groups ++ [rev m]) (p_comments p)))      (* 2948-2959 *)
  | Some (t, p') =>
      match tkind t with
      | Whitespace =>                                                                              (* 2964-2989 *)
          match n with
          | O => (None, p')
          | S n' =>
              if negb (gs_eqb (tok_str t) [10]) || (match m with [] => true | _ => false end) then next_collect n' p' skip groups m
              else if split_back (p_tokens p') (p_index p') (pline (tfrom t))
                   then next_collect n' p' skip (groups ++ [rev m]) []
                   else next_collect n' p' skip groups m
          end
      | Comment =>                                                                                 (* 2991-3009 *)
          match n with
          | O => (None, p')
          | S n' =>
              if skip then next_collect n' p' skip groups m
              else if cmap_mem (p_comments p') (tfrom t) then next_collect n' p' true groups m
              else next_collect n' p' skip groups (mkComment (tok_str t) (tfrom t) (tto t) :: m)
          end
      | _ => (Some t, with_comments p' (fold_left cmap_add (groups ++ [rev m]) (p_comments p')))  (* 3011-3025 *)
      end
  end.

(** parser.go:2920-2923. *)
Definition next_token (p : parser) : option token * parser :=
  if p_collect p then next_collect (List.length (p_tokens p)) p false [] []
  else next_plain (List.length (p_tokens p)) p.

(** parser.go:3056-3077; [n] as above. *)
Fixpoint til_non_whitespace (n : nat) (toks : list token) (i : nat) : option nat :=
  match nth_error toks i with
  | None => None
  | Some t => if skipped t then match n with O => None | S n' => til_non_whitespace n' toks (S i) end else Some i
  end.
Definition peek_token (p : parser) : option token :=
  match til_non_whitespace (List.length (p_tokens p)) (p_tokens p) (p_index p) with
  | Some u => nth_error (p_tokens p) u
  | None => None
  end.

(** parser.go:3038-3054.  [None]: a nil dereference at the beginning, or an
    index out of range when the index lies behind the tokens. *)
Fixpoint prev_index (toks : list token) (i : nat) : option nat :=
  match i with
  | O => None
  | S j =>
      match nth_error toks j with
      | None => None
      | Some t => if skipped t then prev_index toks j else Some j
      end
  end.

Definition parser_machine : machine parser :=
  mkMachine parser next_token peek_token
    (fun p => match prev_index (p_tokens p) (p_index p) with Some j => Some (at_index p j) | None => None end)
    (fun saved p => at_index p (p_index saved)).                                                   (* 3087 *)

(** A method call on a parser. *)
Definition method {A} (P : rec -> prog A) (p : parser) : outcome parser A :=
  run parser_machine (P (knot (fuel_for (p_tokens p)))) p.
(** parser.go:86-127. *)
Definition ParseSQL (p : parser) : outcome parser (list stmt) := method (parse_sql (p_collect p)) p.
(** parser.go:64-84. *)
Definition ParseFile (p : parser) : outcome parser file :=
  match ParseSQL p with
  | Ok stmts p' => Ok (mkFile stmts (sort_groups (map snd (p_comments p')))) p'
  | OErr => OErr
  | OPanic w => OPanic w
  | OFuel => OFuel
  end.
