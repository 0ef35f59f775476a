(** What genmark should generate (C64): small, separate definitions. *)
From Coq Require Import ZArith List Bool String.
From Verif Require Import Base.
Import ListNotations.
Open Scope Z_scope.

Definition capital (r : rune) : Prop := 65 <= r <= 90.
Definition small (r : rune) : Prop := 97 <= r <= 122.

(** The words of a name in camel case: SQL, or a capital and small letters. *)
Inductive cword := SQLw | Word (c : rune) (l : list rune).
Definition camel (w : cword) : gostring := match w with SQLw => gs "SQL" | Word c l => c :: l end.
Definition snake (w : cword) : gostring := match w with SQLw => gs "sql" | Word c l => (c + 32) :: l end.

(** Every word is a proper one; only the last may be a single capital. *)
Fixpoint words_ok (l : list cword) : Prop :=
  match l with
  | [] => True
  | SQLw :: m => words_ok m
  | Word c s :: m => capital c /\ Forall small s /\ (m <> [] -> s <> []) /\ words_ok m
  end.

Fixpoint join (sep : gostring) (l : list gostring) : gostring :=
  match l with [] => [] | [x] => x | x :: m => x ++ sep ++ join sep m end.

(** The lines of the file: an interface with the marker method and the embedded
    interfaces, and a type that has this method. *)
Definition marker_file (pkg name impl : gostring) (embedded : list gostring) : list gostring :=
  [gs "package " ++ pkg; gs "// Code generated by genmark. DO NOT EDIT."; [];
   gs "type " ++ name ++ gs " interface {"; impl ++ gs "Marker()"] ++ embedded ++
  [gs "}"; gs "type " ++ impl ++ gs " struct {}"; gs "func (" ++ impl ++ gs ") " ++ impl ++ gs "Marker() {}"; []].
