(** Property C50: reading a text token by token. *)
From Coq Require Import ZArith List Bool String.
From Verif Require Import Base Dialect Token Lexer LexSpec ScanSpec Scan ScanThms.
Import ListNotations.
Open Scope list_scope.
Open Scope Z_scope.

(** Whatever the text and however often NextToken is called, errors or not: the
    answers are those of one cutting of the text into lexemes and bad slices,
    then io.EOF for ever; only a delimited identifier that is never closed gets
    no answer. *)
Theorem C50_answers : forall d pc src, dialect_ok d ->
  exists l rest, scans d start_pos (skip_bom src) l rest /\ (rest = [] \/ unclosed_delimited d rest) /\
    forall n, fst (calls d pc n (start src)) = answers pc n (map fst l) rest.
Proof. exact next_tokens. Qed.
Print Assumptions C50_answers.

(** The slices are the whole text, none is empty, and without errors this is
    the reading of property C02. *)
Theorem C50_whole_text : forall d p text l rest, scans d p text l rest ->
  text = List.concat (map snd l) ++ rest /\ (List.length l <= List.length text)%nat /\
  ((forall x, In x l -> tkind (fst x) <> ILLEGAL) -> reads d p text l rest).
Proof. exact scans_whole. Qed.
Print Assumptions C50_whole_text.

(** Tokenize after some calls without errors gives the rest of the tokens. *)
Theorem C50_resume : forall d pc src n l st, dialect_ok d -> calls d pc n (start src) = (l, Some st) ->
  (forall t, ~ In (AnErr t) l) ->
  tokenize d pc src = match tokenize_on d pc st with TOk m => TOk (toks_of l ++ m) | r => r end.
Proof. exact resume_start. Qed.
Print Assumptions C50_resume.

Example C50_ex : map (fun a => match a with AnTok t => tkind t | AnErr t => tkind t | AnEof => Char | _ => Whitespace end)
    (fst (calls generic false 7 (start (gs "a ! b 'x")))) = [SQLKeyword; Whitespace; ILLEGAL; Whitespace; SQLKeyword; Whitespace; ILLEGAL] /\
  (exists st, calls generic true 2 (start (gs "a b")) = (fst (calls generic true 2 (start (gs "a b"))), Some st)).
Proof. split; [vm_compute; reflexivity|]. eexists. vm_compute. reflexivity. Qed.

(** After an error positions are off: the word of [!a] is said to start where
    the exclamation mark does. *)
Theorem C50_positions_refuted : exists t u, fst (calls generic true 2 (start (gs "!a"))) = [AnErr t; AnTok u] /\
  tfrom u = tfrom t /\ tfrom u <> advance (gs "!") start_pos.
Proof. do 2 eexists. split; [vm_compute; reflexivity|]. split; [reflexivity|discriminate]. Qed.
Print Assumptions C50_positions_refuted.
