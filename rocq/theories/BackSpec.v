(** The work of collecting comments (C71). *)
From Coq Require Import ZArith List Bool String.
From Verif Require Import Base Dialect Token Lexer AST Prog CostSpec.
Import ListNotations.
Open Scope nat_scope.

(** The rounds of the loop at parser.go:2971-2981, which runs back over the
    tokens before a line break. *)
Fixpoint scan_rounds (done : list token) (line : Z) : nat :=
  match done with
  | [] => 0
  | prev :: done' =>
      if (pline (tto prev) <? line)%Z then 1
      else if negb (skipped prev) then 1
      else 1 + scan_rounds done' line
  end.

(** All rounds of that loop in one call of nextTokenWithParseComment
    (parser.go:2945-3012). *)
Fixpoint looks_back (done todo : list token) (cm : cmap) (skip : bool) (m : list comment) : nat :=
  match todo with
  | [] => 0
  | tok :: todo' =>
      let done' := tok :: done in
      match tkind tok with
      | Whitespace =>
          if negb (gs_eqb (tok_str tok) [10%Z]) || (match m with [] => true | _ => false end)
          then looks_back done' todo' cm skip m
          else scan_rounds done' (pline (tfrom tok)) +
               (if split_scan done' (pline (tfrom tok)) then looks_back done' todo' cm skip [] else looks_back done' todo' cm skip m)
      | Comment =>
          if skip then looks_back done' todo' cm skip m
          else if cmap_mem cm (tfrom tok) then looks_back done' todo' cm true m
          else looks_back done' todo' cm skip (mkComment (tok_str tok) (tfrom tok) (tto tok) :: m)
      | _ => 0
      end
  end.

(** All calls of a run together. *)
Definition back_of (s : cstate) : nat := looks_back (cs_done s) (cs_todo s) (cs_map s) false [].
Fixpoint back_kws (ks : list gostring) (s : cstate) : nat :=
  match ks with
  | [] => 0
  | k :: ks' =>
      match m_peek cm_machine s with
      | Some t => if is_kw k t then back_of s + back_kws ks' (snd (m_next cm_machine s)) else 0
      | None => 0
      end
  end.
Fixpoint backward {A} (p : prog A) (s : cstate) : nat :=
  match p with
  | Ret _ | Err | Panic _ | Fuel => 0
  | Next k => let '(o, s') := m_next cm_machine s in back_of s + backward (k o) s'
  | Peek k => backward (k (m_peek cm_machine s)) s
  | Prev k => match m_prev cm_machine s with Some s' => backward k s' | None => 0 end
  | Kws ks k => back_kws ks s + let '(o, s') := run_kws cm_machine s ks [] s in backward (k o) s'
  end.

(** With ParseComment: the rounds of the forward loops, as [visits] counts them
    without. *)
Definition visits_cm {A} (p : prog A) (s : cstate) : nat :=
  cost (fun s => rounds (cs_todo s)) (fun s => rounds (cs_done s)) cm_machine p s.
