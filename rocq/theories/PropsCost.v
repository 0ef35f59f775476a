(** Property C45: parsing takes a number of steps linear in the text. *)
From Coq Require Import ZArith String List Bool.
From Verif Require Import Base Dialect Token Lexer AST Prog Parser ParseSpec LexSpec LexFacts CostSpec CostThms.
Import ListNotations.
Open Scope string_scope.
Open Scope list_scope.
Open Scope nat_scope.

(** C45.  No public method, with or without ParseComment, called in whatever
    state, asks the token reader more than a hundred times for each token that
    is left and is not a blank or comment, and sixty times more; whether it
    succeeds or not.  ([knot n]: however deep the recursion.) *)
Theorem C45_calls : forall A (P : rec -> prog A) erA k n done todo cm,
  public P erA k -> Forall tok_wf todo ->
  operations raw_machine (P (knot n)) (done, todo) <= 100 * List.length (sig todo) + 60 /\
  operations cm_machine (P (knot n)) (mkCS done todo cm) <= 100 * List.length (sig todo) + 60.
Proof. exact @calls_anywhere. Qed.
Print Assumptions C45_calls.

(** In terms of the text. *)
Theorem C45_text : forall A (P : rec -> prog A) erA k n d src toks,
  public P erA k -> dialect_ok d -> tokenize d true src = TOk toks ->
  operations raw_machine (P (knot n)) ([], toks) <= 100 * List.length src + 60 /\
  operations cm_machine (P (knot n)) (mkCS [] toks []) <= 100 * List.length src + 60.
Proof. exact @calls_source. Qed.
Print Assumptions C45_text.

(** Each call looks at one run of blanks and comments and the token behind it,
    so without ParseComment the tokens looked at are as many as the calls times
    the longest run. *)
Theorem C45_looked_at : forall A (P : rec -> prog A) erA k n d src toks b,
  public P erA k -> dialect_ok d -> tokenize d true src = TOk toks -> blanks_at_most b toks ->
  visits (P (knot n)) [] toks <= (b + 1) * (100 * List.length (sig toks) + 60).
Proof. exact @visits_source. Qed.
Print Assumptions C45_looked_at.

(** Five calls for each pair of parentheses. *)
Definition nested (n : nat) : gostring :=
  List.concat (repeat (gs "(") n) ++ gs "a" ++ List.concat (repeat (gs ")") n).
Definition calls {A} (P : rec -> prog A) (src : gostring) : option (nat * nat * nat) :=
  match tokenize generic true src with
  | TOk toks => Some (List.length (sig toks), operations raw_machine (P (knot (fuel_for toks))) ([], toks),
                      visits (P (knot (fuel_for toks))) [] toks)
  | _ => None
  end.
Example C45_ex : map (fun n => calls parse_expr (nested n)) [10; 20; 40; 80]
               = [Some (21, 53, 53); Some (41, 103, 103); Some (81, 203, 203); Some (161, 403, 403)].
Proof. vm_compute. reflexivity. Qed.

(** Looking over the same blanks again and again is not linear: a tail of
    comments is passed over for each NOT. *)
Definition nots (n : nat) : gostring :=
  List.concat (repeat (gs "NOT ") n) ++ gs "a" ++ List.concat (repeat (gs "/**/") n) ++ gs ";".
Example C45_ex_nots : map (fun n => calls parse_expr (nots n)) [20; 40; 80]
                    = [Some (22, 63, 543); Some (42, 123, 1883); Some (82, 243, 6963)].
Proof. vm_compute. reflexivity. Qed.
