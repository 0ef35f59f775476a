(** Vocabulary for the properties of the parser, independent of its code. *)
From Coq Require Import ZArith List Bool String.
From Verif Require Import Base Dialect Token LexSpec AST Erase Prog Parser.
Import ListNotations.
Open Scope Z_scope.

(** What the tokenizer guarantees of each token: words carry an SQLWord whose
    Keyword is the upper-cased value, everything else a string. *)
Definition tok_wf (t : token) : Prop :=
  match tkind t, tval t with
  | SQLKeyword, VWord w => wkeyword w = upper (wvalue w)
  | SQLKeyword, VStr _ => False
  | _, VWord _ => False
  | _, VStr _ => True
  end.

(** Blanks and comments. *)
Definition blank (t : token) : bool :=
  match tkind t with Whitespace | Comment => true | _ => false end.
Definition sig (l : list token) : list token := filter (fun t => negb (blank t)) l.

(** A token without its position. *)
Definition kv (t : token) : kind * tvalue := (tkind t, tval t).

(** The public methods of Parser: the program, how positions and identifier
    spellings are rewritten in its result, and how many tokens it consumes at
    least. *)
Inductive public : forall {A}, (rec -> prog A) -> ((pos -> pos) -> (rune -> rune) -> A -> A) -> nat -> Prop :=
| pub_sql pc : public (parse_sql pc) (fun fp g => map (er_stmt fp g)) 0
| pub_stmt : public parse_statement er_stmt 1
| pub_expr : public parse_expr er_node 1
| pub_dtype : public parse_data_type er_dtype 1.

Definition res_map {A B} (f : A -> B) (r : result A) : result B :=
  match r with ROk a => ROk (f a) | RErr => RErr | RPanic w => RPanic w | RHang => RHang end.

(** Characters that separate tokens. *)
Definition blank_char (r : rune) : bool := (r =? 32) || (r =? 9) || (r =? 10) || (r =? 13).

(** ASCII upper case, and dialects whose words do not depend on it. *)
Definition asc_up (r : rune) : rune := if (97 <=? r) && (r <=? 122) then r - 32 else r.
Definition case_blind (d : dialect) : Prop :=
  (forall r, is_start d (asc_up r) = is_start d r) /\ (forall r, is_part d (asc_up r) = is_part d r) /\
  is_start d 78 = true.

(** [recased l l' rem]: the slices of [l], except for the letter case inside
    unquoted words, where no such word becomes the prefix of a national
    string; [rem] is the text that follows. *)
Definition plain_word (t : token) : bool :=
  match tval t with VWord w => wquote w =? 0 | VStr _ => false end.
Inductive recased : list (token * list rune) -> list (list rune) -> list rune -> Prop :=
| rc_nil rem : recased [] [] rem
| rc_same t s l l' rem : recased l l' rem -> recased ((t, s) :: l) (s :: l') rem
| rc_word t s s' l l' rem : plain_word t = true -> map asc_up s' = map asc_up s ->
    (s' = [78] -> stops (fun r => r =? 39) (List.concat l' ++ rem)) ->
    recased l l' rem -> recased ((t, s) :: l) (s' :: l') rem.

(** The last token of [l] is still a token when followed by [rest]. *)
Definition keeps (d : dialect) (l : list (token * list rune)) (rest : list rune) : Prop :=
  match rev l with
  | [] => True
  | (t, s) :: _ => lexeme d (tkind t) (tval t) s rest
  end.

(** ParseSQL on a token list. *)
Definition sql_of (l : list token) : result (list stmt) := res_of (run_raw (parse_sql false) l).

(** ParseStatement on one statement and its semicolon: the statement must be
    used up, except for the semicolon. *)
Definition one_of (c : list token * token) : result stmt :=
  match call parse_statement [] (fst c ++ [snd c]) with
  | Ok st (_, rest) => if (List.length (sig rest) =? 1)%nat then ROk st else RErr
  | OErr => RErr
  | OPanic w => RPanic w
  | OFuel => RHang
  end.

(** All results in order, or the first failure. *)
Fixpoint in_order {A} (l : list (result A)) : result (list A) :=
  match l with
  | [] => ROk []
  | ROk a :: l => res_map (cons a) (in_order l)
  | RErr :: _ => RErr
  | RPanic w :: _ => RPanic w
  | RHang :: _ => RHang
  end.

(** A statement's tokens and the semicolon that closes it. *)
Definition chunk_ok (c : list token * token) : Prop :=
  Forall tok_wf (fst c) /\ tok_wf (snd c) /\ tkind (snd c) = Semicolon /\
  Forall (fun x => tkind x <> Semicolon) (fst c) /\ sig (fst c) <> [].

(** The list ends with a semicolon. *)
Definition ends_semi (t : list token) : Prop := exists t' s, t = t' ++ [s] /\ tkind s = Semicolon.
