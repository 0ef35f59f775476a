(** Parsers as trees of token operations, and the token readers that run them
    (parser.go:2895-3111). *)
From Coq Require Import ZArith List Bool String.
From Verif Require Import Base Dialect Token Lexer AST.
Import ListNotations.
Open Scope Z_scope.

(** How a Go call can panic. *)
Inductive panick := PNil (* nil dereference *) | PLog (* log.Panic *) | PAssert (* type assertion *).

(** A parser: what the Go function does next with the token stream.
    [Next k]: p.nextToken() (parser.go:2920), [k None] on EOF.
    [Peek k]: p.peekToken() (3056).  [Prev k]: p.prevToken() (3038).
    [Kws ks k]: p.parseKeywords(ks...) (3079); [k (Some toks)] if all matched,
    [k None] if not (the index is then restored).
    [Err]: the function returns a non-nil error.  [Fuel] is a model artefact
    that the theorems exclude. *)
Inductive prog (A : Type) : Type :=
| Ret (a : A)
| Err
| Panic (p : panick)
| Fuel
| Next (k : option token -> prog A)
| Peek (k : option token -> prog A)
| Prev (k : prog A)
| Kws (ks : list gostring) (k : option (list token) -> prog A).
Arguments Ret {A} a.
Arguments Err {A}.
Arguments Panic {A} p.
Arguments Fuel {A}.
Arguments Next {A} k.
Arguments Peek {A} k.
Arguments Prev {A} k.
Arguments Kws {A} ks k.

Fixpoint bind {A B} (p : prog A) (f : A -> prog B) : prog B :=
  match p with
  | Ret a => f a
  | Err => Err
  | Panic w => Panic w
  | Fuel => Fuel
  | Next k => Next (fun o => bind (k o) f)
  | Peek k => Peek (fun o => bind (k o) f)
  | Prev k => Prev (bind k f)
  | Kws ks k => Kws ks (fun o => bind (k o) f)
  end.

Notation "x <- p ;; q" := (bind p (fun x => q))
  (at level 61, p at next level, right associativity).
Notation "' pat <- p ;; q" := (bind p (fun x => match x with pat => q end))
  (at level 61, pat pattern, p at next level, right associativity).
Notation "p ;;; q" := (bind p (fun _ => q)) (at level 61, right associativity).

(** Go's [for { ... }]: the body yields a new state or leaves the loop. *)
Fixpoint loop {S A} (n : nat) (body : S -> prog (S + A)) (s : S) : prog A :=
  match n with
  | O => Fuel
  | Datatypes.S m =>
      r <- body s ;;
      match r with inl s' => loop m body s' | inr a => Ret a end
  end.

(* ------------------------------------------------------------------ *)
(** ** Token readers *)

Inductive outcome (S A : Type) : Type :=
| Ok (a : A) (s : S)
| OErr
| OPanic (p : panick)
| OFuel.
Arguments Ok {S A} a s.
Arguments OErr {S A}.
Arguments OPanic {S A} p.
Arguments OFuel {S A}.

(** The operations a reader offers.  [m_prev s = None]: nil dereference in
    prevToken at the start of the input (3040-3041).  [m_restore saved s]: the
    assignment p.index = idx (3087). *)
Record machine (S : Type) := mkMachine {
  m_next : S -> option token * S;
  m_peek : S -> option token;
  m_prev : S -> option S;
  m_restore : S -> S -> S }.
Arguments m_next {S} m s.
Arguments m_peek {S} m s.
Arguments m_prev {S} m s.
Arguments m_restore {S} m saved s.

(** parser.go:3101-3106: the token is a word equal to [k] up to case. *)
Definition is_kw (k : gostring) (t : token) : bool :=
  match tval t with
  | VWord w => equal_fold (wvalue w) k
  | VStr _ => false
  end.

(** parser.go:3079-3093 (with 3095-3111 for each keyword). *)
Fixpoint run_kws {S} (m : machine S) (saved : S) (ks : list gostring) (acc : list token) (s : S)
  : option (list token) * S :=
  match ks with
  | [] => (Some (rev acc), s)
  | k :: ks' =>
      match m_peek m s with
      | Some t => if is_kw k t
                  then run_kws m saved ks' (t :: acc) (snd (m_next m s))
                  else (None, m_restore m saved s)
      | None => (None, m_restore m saved s)
      end
  end.

Fixpoint run {S A} (m : machine S) (p : prog A) (s : S) : outcome S A :=
  match p with
  | Ret a => Ok a s
  | Err => OErr
  | Panic w => OPanic w
  | Fuel => OFuel
  | Next k => let '(o, s') := m_next m s in run m (k o) s'
  | Peek k => run m (k (m_peek m s)) s
  | Prev k => match m_prev m s with Some s' => run m k s' | None => OPanic PNil end
  | Kws ks k => let '(o, s') := run_kws m s ks [] s in run m (k o) s'
  end.

(** Tokens the parser skips (parser.go:2930). *)
Definition skipped (t : token) : bool := is_ws_kind (tkind t).

(** *** Without ParseComment: the token slice as a zipper around p.index
    ([done] is p.tokens[:index] reversed). *)
Definition rstate := (list token * list token)%type.

(** parser.go:2925-2934. *)
Fixpoint raw_next (done todo : list token) : option token * rstate :=
  match todo with
  | [] => (None, (done, []))
  | t :: todo' => if skipped t then raw_next (t :: done) todo'
                  else (Some t, (t :: done, todo'))
  end.

(** parser.go:3056-3077. *)
Definition raw_peek (todo : list token) : option token := find (fun t => negb (skipped t)) todo.

(** parser.go:3038-3054. *)
Fixpoint raw_prev (done todo : list token) : option rstate :=
  match done with
  | [] => None
  | t :: done' => if skipped t then raw_prev done' (t :: todo) else Some (done', t :: todo)
  end.

Definition raw_machine : machine rstate :=
  mkMachine rstate (fun s => raw_next (fst s) (snd s)) (fun s => raw_peek (snd s))
            (fun s => raw_prev (fst s) (snd s)) (fun saved _ => saved).

(** *** With ParseComment. *)

(** p.comments: parser.go:21. *)
Definition cmap := list (pos * commentgroup).

Definition pos_eqb (a b : pos) : bool := (pline a =? pline b) && (pcol a =? pcol b).

(** Go map read: _, ok := p.comments[pos] (parser.go:2996). *)
Definition cmap_mem (m : cmap) (p : pos) : bool := existsb (fun e => pos_eqb (fst e) p) m.

(** Go map write. *)
Fixpoint cmap_set (m : cmap) (p : pos) (g : commentgroup) : cmap :=
  match m with
  | [] => [(p, g)]
  | (q, h) :: m' => if pos_eqb q p then (p, g) :: m' else (q, h) :: cmap_set m' p g
  end.

(** parser.go:2953-2957, 3019-3023: p.comments[g.Pos()] = g for non-empty
    groups (sqlast/comment.go: Pos is List[0].From). *)
Definition cmap_add (m : cmap) (g : commentgroup) : cmap :=
  match g with [] => m | c :: _ => cmap_set m (c_from c) g end.

(** parser.go:2971-2981: does a non-blank token precede on the same line?
    [done] starts with the newline token itself. *)
Fixpoint split_scan (done : list token) (line : Z) : bool :=
  match done with
  | [] => false
  | prev :: done' =>
      if pline (tto prev) <? line then false
      else if negb (skipped prev) then true
      else split_scan done' line
  end.

(** tok.Value.(string) of a blank or comment token (the tokenizer always stores
    a string there). *)
Definition tok_str (t : token) : gostring :=
  match tval t with VStr s => s | VWord _ => [] end.

Record cstate := mkCS { cs_done : list token; cs_todo : list token; cs_map : cmap }.

(** parser.go:2945-3025.  [skip] is skipComment, [groups] and [m] (reversed)
    as in Go. *)
Fixpoint cm_loop (done todo : list token) (cm : cmap) (skip : bool)
  (groups : list commentgroup) (m : list comment) : option token * cstate :=
  match todo with
  | [] =>
      (* 2948-2959, same as 3015-3023 *)
      (None, mkCS done [] (fold_left cmap_add (groups ++ [rev m]) cm))
  | tok :: todo' =>
      let done' := tok :: done in
      match tkind tok with
      | Whitespace =>                                            (* 2964-2989 *)
          if negb (gs_eqb (tok_str tok) [10]) || (match m with [] => true | _ => false end)
          then cm_loop done' todo' cm skip groups m
          else if split_scan done' (pline (tfrom tok))
               then cm_loop done' todo' cm skip (groups ++ [rev m]) []
               else cm_loop done' todo' cm skip groups m
      | Comment =>                                               (* 2991-3009 *)
          if skip then cm_loop done' todo' cm skip groups m
          else if cmap_mem cm (tfrom tok) then cm_loop done' todo' cm true groups m
          else cm_loop done' todo' cm skip groups
                       (mkComment (tok_str tok) (tfrom tok) (tto tok) :: m)
      | _ =>                                                     (* 3011-3025 *)
          (Some tok, mkCS done' todo' (fold_left cmap_add (groups ++ [rev m]) cm))
      end
  end.

(** parser.go:2937-3026. *)
Definition cm_next (s : cstate) : option token * cstate :=
  cm_loop (cs_done s) (cs_todo s) (cs_map s) false [] [].

Definition cm_machine : machine cstate :=
  mkMachine cstate cm_next (fun s => raw_peek (cs_todo s))
    (fun s => match raw_prev (cs_done s) (cs_todo s) with
              | Some (d, t) => Some (mkCS d t (cs_map s))
              | None => None
              end)
    (fun saved s => mkCS (cs_done saved) (cs_todo saved) (cs_map s)).

(** *** The abstract reader: the same on a token list without blanks. *)
Definition fm_machine : machine rstate :=
  mkMachine rstate
    (fun s => match snd s with [] => (None, s) | t :: r => (Some t, (t :: fst s, r)) end)
    (fun s => match snd s with [] => None | t :: _ => Some t end)
    (fun s => match fst s with [] => None | t :: d => Some (d, t :: snd s) end)
    (fun saved _ => saved).
