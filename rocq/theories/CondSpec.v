(** Specification for C79: where the condition of a DELETE or UPDATE comes from. *)
From Coq Require Import ZArith List Bool String.
From Verif Require Import Base Token AST Grammar KindSpec.
Import ListNotations.
Open Scope list_scope.

(** The token is the word WHERE up to case (strings.EqualFold). *)
Definition where_tok (t : token) : Prop := exists w, tval t = VWord w /\ equal_fold (wvalue w) (gs "WHERE") = true.

(** The condition (field Selection, sqlast/stmt.go:216-221 and 178-184) of a DELETE or UPDATE,
    also behind EXPLAIN; the other statements have no such field. *)
Definition condition (s : stmt) : option (option node) :=
  match explained s with
  | StDelete _ _ sel | StUpdate _ _ _ sel => Some sel
  | _ => None
  end.

(** A statement read from the tokens [read], in front of the tokens [rest]: a
    condition stands behind a WHERE that was read, and without a condition the
    parser does not stand in front of a WHERE. *)
Definition conditioned (s : stmt) (read rest : list token) : Prop :=
  match condition s with
  | Some (Some _) => Exists where_tok read
  | Some None => match rest with [] => True | t :: _ => ~ where_tok t end
  | None => True
  end.

(** The clause at the end: nothing without a condition, else WHERE and the tokens
    of the condition (Grammar.reads_node) up to the last. *)
Definition ends_in (sel : option node) (ts : list token) : Prop :=
  match sel with
  | None => ts = []
  | Some e => exists w c, ts = w :: c /\ spells "WHERE" w /\ reads_node (fun _ => True) e c
  end.

(** The tokens a DELETE or UPDATE is read from: the words, the name and the
    assignments, and then the clause and nothing else. *)
Fixpoint accounts (s : stmt) (ts : list token) {struct s} : Prop :=
  match s with
  | StExplain s' _ => exists x ts', ts = x :: ts' /\ accounts s' ts'
  | StDelete _ t sel => exists x y nm c, ts = x :: y :: nm ++ c /\ name t nm /\ ends_in sel c
  | StUpdate _ t ass sel =>
      exists x nm y l c, ts = x :: nm ++ y :: l ++ c /\ name t nm /\ commas (reads_assign (fun _ => True)) ass l /\ ends_in sel c
  | _ => True
  end.
