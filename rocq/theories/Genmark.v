(** The code generator tools/genmark/main.go: names and generated text.
    Flags are given as values; formatting with go/format and writing the file
    (lines 110-118) are not modelled. *)
From Coq Require Import ZArith List Bool String.
From Verif Require Import Base.
Import ListNotations.
Open Scope Z_scope.

(** The classes [A-Z] and [a-z] of the regular expression, tools/genmark/main.go:40. *)
Definition is_cap (r : rune) : bool := (65 <=? r) && (r <=? 90).
Definition is_low (r : rune) : bool := (97 <=? r) && (r <=? 122).

(** tools/genmark/main.go:43, strings.Replace(s, "SQL", "Sql", -1). *)
Definition is_sql (a b c : rune) : bool := (a =? 83) && (b =? 81) && (c =? 76).
Fixpoint replace_sql (s : gostring) : gostring :=
  match s with
  | a :: ((b :: c :: r) as t) => if is_sql a b c then 83 :: 113 :: 108 :: replace_sql r else a :: replace_sql t
  | a :: t => a :: replace_sql t
  | [] => []
  end.

(** tools/genmark/main.go:40 and 44-52: the regular expression (^|[a-z])([A-Z]), replaced from
    left to right: after the start only a small letter before a capital
    matches. *)
Fixpoint snake_rest (s : gostring) : gostring :=
  match s with
  | a :: ((b :: r) as t) =>
      if is_low a && is_cap b then a :: 95 :: to_lower b :: snake_rest r else a :: snake_rest t
  | _ => s
  end.
Definition snake_all (s : gostring) : gostring :=
  match s with
  | c :: r => if is_cap c then to_lower c :: snake_rest r else snake_rest s
  | [] => []
  end.
(** tools/genmark/main.go:42-53. *)
Definition to_snake (s : gostring) : gostring := snake_all (replace_sql s).

(** tools/genmark/main.go:55-62; [None] is the index out of range of r[0] on an empty name. *)
Definition to_private (s : gostring) : option gostring :=
  let s' := match s with a :: b :: c :: r => if is_sql a b c then 115 :: 113 :: 108 :: r else s | _ => s end in
  match s' with
  | c :: r => Some (to_lower c :: r)
  | [] => None
  end.

(** strings.Split(s, ",") (tools/genmark/main.go:95). *)
Fixpoint split_comma (s : gostring) : list gostring :=
  match s with
  | [] => [[]]
  | c :: r => if c =? 44 then [] :: split_comma r
              else match split_comma r with x :: l => (c :: x) :: l | [] => [[c]] end
  end.

(** tools/genmark/main.go:65-75. *)
Record genflags := mkFlags { g_type : gostring; g_out : gostring; g_embed : gostring; g_pkg : gostring }.
Inductive genresult :=
| GFlag (message : gostring)          (* FlagError: usage is shown *)
| GPanic
| GFile (name text : gostring).       (* to be formatted and written *)

(** tools/genmark/main.go:64-118; unicode.IsUpper on ASCII. *)
Definition genmark (f : genflags) : genresult :=
  match g_type f with
  | [] => GFlag (gs "-t is must be required")
  | c :: _ =>
      if negb (is_cap c) then GFlag (gs "-t is must be public")
      else match to_private (g_type f) with
           | None => GPanic
           | Some impl =>
               let out := match g_out f with [] => to_snake (g_type f) | o => o end ++ gs "_gen.go" in
               let embedded := match g_embed f with [] => [] | e => split_comma e end in
               GFile out
                 (gs "package " ++ g_pkg f ++ [10] ++
                  gs "// Code generated by genmark. DO NOT EDIT." ++ [10; 10] ++
                  gs "type " ++ g_type f ++ gs " interface {" ++ [10] ++
                  impl ++ gs "Marker()" ++ [10] ++
                  List.concat (map (fun e => e ++ [10]) embedded) ++
                  gs "}" ++ [10] ++
                  gs "type " ++ impl ++ gs " struct {}" ++ [10] ++
                  gs "func (" ++ impl ++ gs ") " ++ impl ++ gs "Marker() {}" ++ [10])
           end
  end.
