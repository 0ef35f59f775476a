(** What reading from an io.Reader should do, without the scanner (C59). *)
From Coq Require Import ZArith List Bool.
From Verif Require Import Base Utf8 Reader.
Import ListNotations.
Open Scope list_scope.
Open Scope Z_scope.

(** All the bytes a reader has. *)
Definition bytes (src : reader) : list byte := flat_map fst src.

(** A reader that reports nothing before its last delivery: no error and no
    early end.  The last delivery may come with io.EOF, as Go allows. *)
Definition plain (src : reader) : Prop :=
  Forall (fun d => snd d = More) src \/ exists p l, src = p ++ [l] /\ Forall (fun d => snd d = More) p.

(** Peek and Next on a text that is simply there. *)
Fixpoint looks (calls : list bool) (text : list rune) : list rune :=
  match calls with
  | [] => []
  | b :: calls => hd EOFr text :: looks calls (if b : bool then tl text else text)
  end.
