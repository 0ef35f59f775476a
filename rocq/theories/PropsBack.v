(** Property C71: the cost of collecting comments. *)
From Coq Require Import ZArith String List Bool.
From Verif Require Import Base Dialect Token Lexer AST Prog Parser ParseSpec LexSpec LexFacts CostSpec BackSpec BackThms.
Import ListNotations.
Open Scope string_scope.
Open Scope list_scope.
Open Scope nat_scope.

(** C71.  With ParseComment the parser looks back from line breaks over tokens
    it has read (parser.go:2971-2981).  It does so for three tokens each at most,
    all calls taken together, whatever it parses and however often it steps back
    and reads the same comments again. *)
Theorem C71_looks_back : forall A (P : rec -> prog A) erA k n d src toks,
  public P erA k -> dialect_ok d -> tokenize d true src = TOk toks ->
  backward (P (knot n)) (mkCS [] toks []) <= 3 * List.length toks.
Proof. exact (fun A P erA k n d src toks _ D E => backward_source (P (knot n)) d src toks D E). Qed.
Print Assumptions C71_looks_back.

(** All tokens looked at, forwards and backwards: the bound of C45 for a parser
    without ParseComment, and these. *)
Theorem C71_looked_at : forall A (P : rec -> prog A) erA k n d src toks b,
  public P erA k -> dialect_ok d -> tokenize d true src = TOk toks -> blanks_at_most b toks ->
  visits_cm (P (knot n)) (mkCS [] toks []) + backward (P (knot n)) (mkCS [] toks [])
  <= (b + 1) * (100 * List.length (sig toks) + 60) + 3 * List.length toks.
Proof. exact @collect_source. Qed.
Print Assumptions C71_looked_at.

(** Comments on lines of their own, three on each line, in the place where the
    parser tries one word after another. *)
Definition C71_text (n : nat) : gostring :=
  gs "SELECT a" ++ [10%Z] ++ List.concat (repeat (gs "/*x*/ /*y*/ --z" ++ [10%Z]) n) ++ gs "FROM t;".
Definition C71_looks (n : nat) : option (nat * nat * nat) :=
  match tokenize generic true (C71_text n) with
  | TOk toks => Some (List.length toks, visits_cm (parse_sql true (knot (fuel_for toks))) (mkCS [] toks []),
                      backward (parse_sql true (knot (fuel_for toks))) (mkCS [] toks []))
  | _ => None
  end.
Example C71_ex : map C71_looks [5; 10; 20] = [Some (38, 170, 40); Some (68, 290, 80); Some (128, 530, 160)].
Proof. vm_compute. reflexivity. Qed.
