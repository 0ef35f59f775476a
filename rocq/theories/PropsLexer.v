(** Properties C01-C11: the tokenizer. *)
From Coq Require Import ZArith List Bool String.
From Verif Require Import Base Dialect Token Lexer LexSpec LexFacts LexPos LexHang LexThms.
Import ListNotations.
Open Scope Z_scope.

(** C01.  The tokenizer answers (tokens or an error) exactly on the texts that
    do not run into a delimited identifier without closing quote. *)
Theorem C01_tokenizer_answers_iff : forall d pc src, dialect_ok d ->
  ((exists toks, tokenize d pc src = TOk toks) \/ tokenize d pc src = TErr) <->
  ~ (exists l rem, reads d start_pos (skip_bom src) l rem /\ unclosed_delimited d rem).
Proof. exact tokenizer_answers_iff. Qed.
Print Assumptions C01_tokenizer_answers_iff.

Theorem C01_shipped_dialects : dialect_ok generic /\ dialect_ok postgres /\ dialect_ok mysql.
Proof. exact shipped_ok. Qed.
Print Assumptions C01_shipped_dialects.

(** On the other texts the Go loop makes any number of iterations without
    leaving. *)
Theorem C01_unclosed_never_leaves_loop : forall q s, q <> EOFr -> ~ In q s ->
  forall n, exists st, delim_steps q n ([], s) = inl st.
Proof. exact unclosed_never_leaves. Qed.
Print Assumptions C01_unclosed_never_leaves_loop.

(** The summary of that loop used by the model is exact. *)
Theorem C01_loop_summary_exact : forall q s, q <> EOFr ->
  (exists n r, delim_steps q n ([], s) = inr r) <-> scan_delim q s <> None.
Proof. exact delim_loop_ends. Qed.
Print Assumptions C01_loop_summary_exact.

(** Hence the property as stated is false: a lone double quote hangs. *)
Theorem C01_tokenizer_always_answers_refuted :
  exists src, tokenize generic true src = THang.
Proof. exact (ex_intro _ (gs "SELECT """) eq_refl). Qed.
Print Assumptions C01_tokenizer_always_answers_refuted.

Example C01_ex : exists toks, tokenize postgres true (gs "SELECT ""a b"" FROM t -- x") = TOk toks.
Proof. eexists. vm_compute. reflexivity. Qed.

(** C02.  With comments kept the source is the concatenation of non-empty
    slices, one per token, and each token is the lexical reading of its slice
    in front of the text that follows it. *)
Theorem C02_lossless : forall d src toks, dialect_ok d -> tokenize d true src = TOk toks ->
  exists slices, List.length slices = List.length toks /\
    skip_bom src = List.concat slices /\
    Forall (fun s => s <> []) slices /\
    forall a t b sa s sb, toks = a ++ t :: b -> slices = sa ++ s :: sb ->
      List.length a = List.length sa ->
      lexeme d (tkind t) (tval t) s (List.concat sb).
Proof. exact tokenize_lossless. Qed.
Print Assumptions C02_lossless.

(** The converse: whatever decomposes into lexemes is accepted, with exactly
    those tokens (the tokens are determined by the text). *)
Theorem C02_complete : forall d src l, dialect_ok d ->
  reads d start_pos (skip_bom src) l [] -> tokenize d true src = TOk (map fst l).
Proof. exact tokenize_complete. Qed.
Print Assumptions C02_complete.

Example C02_ex : exists toks, tokenize generic true (gs "a>=1.5") = TOk toks /\ List.length toks = 3%nat.
Proof. eexists. vm_compute. split; reflexivity. Qed.

(** C03.  Positions tile and increase. *)
Theorem C03_positions_tile : forall d src toks, dialect_ok d -> tokenize d true src = TOk toks ->
  (forall t b, toks = t :: b -> tfrom t = mkPos 1 1) /\
  (forall a t u b, toks = a ++ t :: u :: b -> tfrom u = tto t) /\
  (forall t, In t toks -> before (tfrom t) (tto t)) /\
  (forall a t b u, toks = a ++ t :: b -> In u b -> before (tfrom t) (tfrom u)).
Proof. exact positions_tile. Qed.
Print Assumptions C03_positions_tile.

Example C03_ex : exists t u b, tokenize generic true (gs "a b") = TOk (t :: u :: b).
Proof. do 3 eexists. vm_compute. reflexivity. Qed.

(** C04.  True positions, as long as the tokens before are counted truly. *)
Theorem C04_true_positions : forall d src toks, dialect_ok d -> tokenize d true src = TOk toks ->
  exists slices, List.length slices = List.length toks /\ skip_bom src = List.concat slices /\
    forall a t b sa s sb, toks = a ++ t :: b -> slices = sa ++ s :: sb ->
      List.length a = List.length sa ->
      Forall2 (fun u su => counted_truly (tkind u) su) a sa ->
      tfrom t = advance (List.concat sa) (mkPos 1 1).
Proof. exact true_positions. Qed.
Print Assumptions C04_true_positions.

(** Each restriction is needed: a tab, a line break in a string, a doubled
    quote, a non-ASCII string, a carriage return in a line comment, a line break
    in a delimited identifier. *)
Theorem C04_true_positions_refuted :
  Forall (fun pre => exists toks t,
            tokenize generic true (pre ++ [97]) = TOk (toks ++ [t]) /\
            tval t = VWord (mkWord [97] 0 [65]) /\ tfrom t <> advance pre (mkPos 1 1))
    [ [9]; [39; 10; 39]; [39; 39; 39; 39]; [39; 233; 39]; [45; 45; 13; 98; 10]; [34; 10; 34] ].
Proof. exact true_positions_fail. Qed.
Print Assumptions C04_true_positions_refuted.

Example C04_ex : exists l, reads generic start_pos (gs "a 'x' b") l [] /\
  Forall (fun x => counted_truly (tkind (fst x)) (snd x)) l /\ List.length l = 5%nat.
Proof. exact counted_example. Qed.

(** C05.  String literals. *)
Theorem C05_string_decoding : forall d pc s rest line col, dialect_ok d ->
  stops (fun r => r =? 39) rest ->
  scan d pc (mkTS (39 :: escape s ++ 39 :: rest) line col) =
  STok (mkTok SingleQuotedString (VStr s) (mkPos line col) (mkPos line (col + 2 + glen s)))
       (mkTS rest line (col + 2 + glen s)).
Proof. exact string_decoding. Qed.
Print Assumptions C05_string_decoding.

Theorem C05_nstring_decoding : forall d pc s rest line col, dialect_ok d ->
  stops (fun r => r =? 39) rest ->
  scan d pc (mkTS (78 :: 39 :: escape s ++ 39 :: rest) line col) =
  STok (mkTok NationalStringLiteral (VStr s) (mkPos line col) (mkPos line (col + 3 + glen s)))
       (mkTS rest line (col + 3 + glen s)).
Proof. exact nstring_decoding. Qed.
Print Assumptions C05_nstring_decoding.

(** A literal is unclosed when no quote ends it: whatever prefix reads as an
    escaped text and a quote is followed by one more quote. *)
Theorem C05_unclosed_is_error : forall d pc s line col, dialect_ok d ->
  (forall str rest, s = escape str ++ 39 :: rest -> exists rest', rest = 39 :: rest') ->
  (exists t st, scan d pc (mkTS (39 :: s) line col) = SErr t st) /\
  (exists t st, scan d pc (mkTS (78 :: 39 :: s) line col) = SErr t st).
Proof. exact string_unclosed. Qed.
Print Assumptions C05_unclosed_is_error.

Example C05_ex : scan generic true (mkTS (gs "'it''s' x") 1 1) =
  STok (mkTok SingleQuotedString (VStr (gs "it's")) (mkPos 1 1) (mkPos 1 7)) (mkTS (gs " x") 1 7).
Proof. vm_compute. reflexivity. Qed.
Example C05_ex_unclosed : exists t st, scan generic true (mkTS (gs "'it''s") 1 1) = SErr t st.
Proof. do 2 eexists. vm_compute. reflexivity. Qed.

(** C06.  Words. *)
Theorem C06_words : forall d pc f w rest line col, dialect_ok d ->
  is_start d f = true \/ f = 78 ->
  forallb (is_part d) w = true ->
  stops (is_part d) rest ->
  (f = 78 -> w = [] -> stops (fun r => r =? 39) rest) ->
  scan d pc (mkTS (f :: w ++ rest) line col) =
  STok (mkTok SQLKeyword (VWord (mkWord (f :: w) 0 (upper (f :: w)))) (mkPos line col)
              (mkPos line (col + glen (f :: w))))
       (mkTS rest line (col + glen (f :: w))).
Proof. exact words. Qed.
Print Assumptions C06_words.

(** The keyword does not depend on the letter case, nor on the keyword table. *)
Theorem C06_keyword_folding : forall w w' q q',
  upper w = upper w' -> wkeyword (make_keyword w q) = wkeyword (make_keyword w' q').
Proof. exact keyword_folding. Qed.
Print Assumptions C06_keyword_folding.

Example C06_ex : is_start generic 115 = true /\
  wkeyword (make_keyword (gs "sElEcT") 0) = wkeyword (make_keyword (gs "SELECT") 0).
Proof. vm_compute. auto. Qed.

(** C07.  Comments. *)
Theorem C07_line_comment : forall d (w : list rune) rest line col, dialect_ok d ->
  ~ In 10 w -> stops (fun r => negb (r =? 10)) rest ->
  scan d true (mkTS (45 :: 45 :: w ++ rest) line col) =
  STok (mkTok Comment (VStr w) (mkPos line col) (mkPos line (col + 2 + zlen w)))
       (mkTS rest line (col + 2 + zlen w)).
Proof. exact line_comment. Qed.
Print Assumptions C07_line_comment.

(** The text reported for a block comment, for every body: [block_text]; it is
    the body exactly when [plain_body]. *)
Theorem C07_block_comment_text : forall d body rest line col, dialect_ok d ->
  (forall a b, body ++ [42; 47] = a ++ 42 :: 47 :: b -> b = []) ->
  exists text p,
    scan d true (mkTS (47 :: 42 :: body ++ 42 :: 47 :: rest) line col) =
    STok (mkTok Comment (VStr text) (mkPos line col) p) (mkTS rest (pline p) (pcol p)) /\
    p = advance (47 :: 42 :: body ++ [42; 47]) (mkPos line col) /\
    (text = body <-> plain_body body).
Proof. exact block_comment. Qed.
Print Assumptions C07_block_comment_text.

Theorem C07_block_comment_refuted : exists body t st,
  scan generic true (mkTS (47 :: 42 :: body ++ [42; 47]) 1 1) = STok t st /\ ts_src st = [] /\
  tval t <> VStr body.
Proof. exact block_comment_fails. Qed.
Print Assumptions C07_block_comment_refuted.

Example C07_ex : exists st, scan generic true (mkTS (gs "-- it's") 1 1) = STok
  (mkTok Comment (VStr (gs " it's")) (mkPos 1 1) (mkPos 1 8)) st.
Proof. eexists. vm_compute. reflexivity. Qed.
Example C07_ex_block : exists st, scan generic true (mkTS (gs "/* a **/b") 1 1) = STok
  (mkTok Comment (VStr (gs " a *")) (mkPos 1 1) (mkPos 1 9)) st.
Proof. eexists. vm_compute. reflexivity. Qed.

(** C08.  Errors. *)
Theorem C08_errors_exact : forall d pc src, dialect_ok d ->
  tokenize d pc src = TErr <->
  exists l rem, reads d start_pos (skip_bom src) l rem /\ lex_error rem.
Proof. exact tokenize_err_iff. Qed.
Print Assumptions C08_errors_exact.

Example C08_ex : tokenize generic true (gs "a ! b") = TErr /\ lex_error (gs "! b").
Proof. split; [vm_compute; reflexivity|apply Le_bang; reflexivity]. Qed.

(** C09.  Dropping comments and whitespace is a filter. *)
Theorem C09_disable_comments_filters : forall d src, dialect_ok d ->
  tokenize d false src =
  match tokenize d true src with
  | TOk toks => TOk (filter (fun t => match tkind t with Whitespace | Comment => false | _ => true end) toks)
  | r => r
  end.
Proof. exact disable_comments. Qed.
Print Assumptions C09_disable_comments_filters.

Example C09_ex : exists t u, tokenize generic false (gs "a /*x*/ b") = TOk [t; u] /\ tfrom u = mkPos 1 9.
Proof. do 2 eexists. vm_compute. split; reflexivity. Qed.

(** C10.  Dialects. *)
Theorem C10_mysql_generic : forall pc src, ~ In 96 src ->
  tokenize mysql pc src = tokenize generic pc src.
Proof. exact mysql_generic. Qed.
Print Assumptions C10_mysql_generic.

Theorem C10_postgres_generic : forall pc src,
  (forall r, In r src -> ~ In r (gs "@_$`")) ->
  tokenize postgres pc src = tokenize generic pc src.
Proof. exact postgres_generic. Qed.
Print Assumptions C10_postgres_generic.

(** The excluded characters do make a difference. *)
Theorem C10_exclusions_needed :
  tokenize mysql true (gs "`a`") <> tokenize generic true (gs "`a`") /\
  Forall (fun s => tokenize postgres true (gs s) <> tokenize generic true (gs s)) ["@a"; "_a"; "a$"; "`a`"]%string.
Proof. exact dialect_exclusions. Qed.
Print Assumptions C10_exclusions_needed.

(** C11.  ComparePos. *)
Theorem C11_compare_pos : forall p q,
  (compare_pos p q = 0 <-> p = q) /\
  (compare_pos p q = -1 <-> before p q) /\
  (compare_pos p q = 1 <-> before q p) /\
  compare_pos q p = - compare_pos p q.
Proof. exact compare_pos_order. Qed.
Print Assumptions C11_compare_pos.

Theorem C11_compare_pos_trans : forall p q r,
  compare_pos p q <= 0 -> compare_pos q r <= 0 -> compare_pos p r <= 0 /\
  (compare_pos p r = 0 -> p = q /\ q = r).
Proof. exact compare_pos_trans. Qed.
Print Assumptions C11_compare_pos_trans.

(** It agrees with the order of the tokens in the text. *)
Theorem C11_reading_order : forall d src toks, dialect_ok d -> tokenize d true src = TOk toks ->
  forall a t b u, toks = a ++ t :: b -> In u b -> compare_pos (tfrom t) (tfrom u) = -1.
Proof. exact compare_reading_order. Qed.
Print Assumptions C11_reading_order.

Example C11_ex : compare_pos (mkPos 1 9) (mkPos 2 1) = -1.
Proof. reflexivity. Qed.
