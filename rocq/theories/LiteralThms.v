(** Proofs about literal values and the literals the parser never builds. *)
From Coq Require Import ZArith List Bool String Lia ZifyBool.
From Verif Require Import Base Dialect Token Lexer LexSpec LexFacts LexThms AST Num Printer Prog Parser Sim
  ParseSpec ParserThms SrcThms ValueSpec NumThms WriteThms ValueThms RtPrim SqlThms Literals LiteralSpec.
From Verif Require CutThms.
Import ListNotations.
Open Scope list_scope.
Open Scope Z_scope.

(** *** Padding *)
Definition field_ok (w : nat) (z : Z) : bool :=
  Nat.eqb (List.length (pad w z)) w && forallb is_digit (pad w z) && (dec_val (pad w z) =? z).

Lemma fields w n : forallb (fun k => field_ok w (Z.of_nat k)) (seq 0 n) = true ->
  forall z, 0 <= z < Z.of_nat n -> field w z (pad w z).
Proof.
  intros H z L. rewrite forallb_forall in H. specialize (H (Z.to_nat z)).
  rewrite Z2Nat.id in H by lia. assert (F : field_ok w z = true) by (apply H, in_seq; lia).
  unfold field_ok in F. rewrite !andb_true_iff in F. destruct F as [[F1 F2] F3].
  split; [now apply Nat.eqb_eq|]. split; [exact F2|lia].
Qed.
Lemma field2 z : 0 <= z <= 99 -> field 2 z (pad 2 z).
Proof. intros L. apply (fields 2 100); [vm_compute; reflexivity|lia]. Qed.
Lemma field4 z : 0 <= z <= 9999 -> field 4 z (pad 4 z).
Proof.
  intros L. apply (fields 4 (Z.to_nat 10000)); [vm_compute; reflexivity|].
  change (Z.of_nat (Z.to_nat 10000)) with 10000. lia.
Qed.

Lemma date_iso t : valid_civil t -> iso_date t (format_date t).
Proof.
  intros (Y & M & D & _). exists (pad 4 (c_year t)), (pad 2 (c_month t)), (pad 2 (c_day t)).
  split; [apply field4; lia|]. split; [apply field2; lia|]. split; [apply field2; lia|reflexivity].
Qed.
Lemma time_iso t : valid_civil t -> iso_time t (format_time t).
Proof.
  intros (_ & _ & _ & H & M & S0). exists (pad 2 (c_hour t)), (pad 2 (c_min t)), (pad 2 (c_sec t)).
  split; [apply field2; lia|]. split; [apply field2; lia|]. split; [apply field2; lia|reflexivity].
Qed.

Lemma timelit_text l : sql_timelit l = text_of (wt_timelit l).
Proof. destruct l; cbn [sql_timelit]; rewrite ?builder_string_text; reflexivity. Qed.

(** *** Reading *)
Lemma field_digits w z s : field (S w) z s -> digits s.
Proof. intros (L & D & _). split; [destruct s; [discriminate L|congruence]|exact D]. Qed.
Lemma lex_digits d s rest : digits s -> stops (fun r => is_digit r || (r =? 46)) rest -> lexeme d Number (VStr s) s rest.
Proof.
  intros [N D] St. destruct s as [|c w]; [congruence|]. cbn [forallb] in D. apply andb_true_iff in D. destruct D as [Dc D].
  constructor; [exact Dc| |exact St].
  rewrite forallb_forall in *. intros r I. now rewrite (D r I).
Qed.
Lemma digits_stop s rest P : digits s -> (forall r, is_digit r = true -> P r = false) -> stops P (s ++ rest).
Proof. intros [N D] H. destruct s as [|c w]; [congruence|]. cbn in *. apply andb_true_iff in D. now apply H. Qed.

(** Three numbers with a symbol between. *)
Lemma read_three d sep k a b c rest rem Q p :
  (k = Minus /\ sep = "-" \/ k = Colon /\ sep = ":")%string ->
  digits a -> digits b -> digits c -> stops (fun r => is_digit r || (r =? 46)) rest ->
  (forall p, exists l, reads d p rest l rem /\ Q (map fst l)) ->
  exists p1 p2 p3 p4 p5 l, reads d p (a ++ gs sep ++ b ++ gs sep ++ c ++ rest)
    ((mkTok Number (VStr a) p p1, a) :: (mkTok k (VStr (gs sep)) p1 p2, gs sep) :: (mkTok Number (VStr b) p2 p3, b) ::
     (mkTok k (VStr (gs sep)) p3 p4, gs sep) :: (mkTok Number (VStr c) p4 p5, c) :: l) rem /\ Q (map fst l).
Proof.
  intros E A B C St H.
  assert (X : forall rest', stops (fun r => is_digit r || (r =? 46)) (gs sep ++ rest')) by (destruct E as [[-> ->]|[-> ->]]; intros; reflexivity).
  assert (Y : forall x rest', digits x -> lexeme d k (VStr (gs sep)) (gs sep) (x ++ rest')).
  { intros x rest' Dx. apply (Lx_symbol d sep k sep); [destruct E as [[-> ->]|[-> ->]]; cbn; auto 30|].
    apply digits_stop; [exact Dx|].
    intros r R. unfold is_digit in R. destruct E as [[-> ->]|[-> ->]]; cbn; lia. }
  set (p1 := token_end Number (VStr a) a p). set (p2 := token_end k (VStr (gs sep)) (gs sep) p1).
  set (p3 := token_end Number (VStr b) b p2). set (p4 := token_end k (VStr (gs sep)) (gs sep) p3).
  set (p5 := token_end Number (VStr c) c p4). destruct (H p5) as (l & Rd & Ql).
  exists p1, p2, p3, p4, p5, l. split; [|exact Ql].
  constructor; [apply lex_digits; auto|reflexivity|].
  constructor; [apply Y; auto|reflexivity|].
  constructor; [apply lex_digits; auto|reflexivity|].
  constructor; [apply Y; auto|reflexivity|].
  constructor; [apply lex_digits; auto|reflexivity|exact Rd].
Qed.

(** *** Parsing *)
Definition number (s : gostring) p q : token := mkTok Number (VStr s) p q.
Definition long (s : gostring) p q : node := ELong (mkLong p q (dec_val s)).

Lemma R_prefix_number r s p q d rest : digits s -> dec_val s <= max_int ->
  R (parse_prefix r) (d, number s p q :: rest) = Ok (long s p q) (number s p q :: d, rest).
Proof.
  intros D L. unfold parse_prefix, number. cbn. rewrite (digits_nodot s (proj2 D)). cbn.
  rewrite (atoi_ok s D L). reflexivity.
Qed.

(** The precedence of what follows. *)
Definition stop_tok (ts : list token) : Prop :=
  match ts with [] => True | t :: _ => tkind t = Colon \/ tkind t = Number end.
Lemma R_stop ts d : stop_tok ts -> R get_next_precedence (d, ts) = Ok 0 (d, ts).
Proof. destruct ts as [|[k v a b] ts]; [reflexivity|]. cbn. intros [E|E]; subst k; reflexivity. Qed.
Lemma R_minus v p q ts d : R get_next_precedence (d, mkTok Minus v p q :: ts) = Ok 30 (d, mkTok Minus v p q :: ts).
Proof. reflexivity. Qed.


Lemma knot_fuel n : r_fuel (knot (S n)) = S (S n).
Proof. reflexivity. Qed.

(** One more number: the operand of a minus. *)
Lemma R_operand n s p q d rest prec : digits s -> dec_val s <= max_int -> 0 <= prec ->
  (stop_tok rest \/ (exists v a b ts, rest = mkTok Minus v a b :: ts /\ 30 <= prec)) ->
  R (r_subexpr (knot (S (S n))) prec) (d, number s p q :: rest) = Ok (long s p q) (number s p q :: d, rest).
Proof.
  intros D L P H. change (r_subexpr (knot (S (S n)))) with (parse_subexpr (knot (S n))). unfold parse_subexpr.
  eapply R_step; [apply R_prefix_number; assumption|]. unfold infix_loop. rewrite knot_fuel. cbn [loop].
  destruct H as [H|(v & a & b & ts & -> & P')].
  - eapply R_step; [eapply R_step; [apply R_stop; exact H|]|].
    + replace (0 <=? prec) with true by lia. reflexivity.
    + reflexivity.
  - eapply R_step; [eapply R_step; [apply R_minus|]|].
    + replace (30 <=? prec) with true by lia. reflexivity.
    + reflexivity.
Qed.

Definition minus a b : token := mkTok Minus (VStr (gs "-")) a b.

Lemma R_date n s1 s2 s3 p1 q1 p2 q2 p3 q3 a1 b1 a2 b2 rest :
  digits s1 -> digits s2 -> digits s3 -> dec_val s1 <= max_int -> dec_val s2 <= max_int -> dec_val s3 <= max_int ->
  stop_tok rest ->
  exists s, R (r_subexpr (knot (S (S (S n)))) 0)
    ([], number s1 p1 q1 :: minus a1 b1 :: number s2 p2 q2 :: minus a2 b2 :: number s3 p3 q3 :: rest) =
  Ok (EBinary (EBinary (long s1 p1 q1) (mkOp OMinus a1 b1) (long s2 p2 q2)) (mkOp OMinus a2 b2) (long s3 p3 q3)) s.
Proof.
  intros D1 D2 D3 L1 L2 L3 H. eexists.
  change (r_subexpr (knot (S (S (S n))))) with (parse_subexpr (knot (S (S n)))). unfold parse_subexpr.
  eapply R_step; [apply R_prefix_number; assumption|]. unfold infix_loop. rewrite knot_fuel.
  cbn [loop].
  eapply R_step; [eapply R_step; [apply R_minus|]|].
  - change (30 <=? 0) with false. cbv iota. unfold parse_infix.
    eapply R_step; [|apply R_ret].
    eapply R_step; [apply R_nerr|]. cbn [infix_operator tkind].
    eapply R_step; [apply R_ret|]. cbn [infix_symbol].
    eapply R_step; [apply R_operand; [assumption|assumption|lia|right; do 4 eexists; split; [reflexivity|lia]]|].
    apply R_ret.
  - cbn [loop]. eapply R_step; [eapply R_step; [apply R_minus|]|].
    + change (30 <=? 0) with false. cbv iota. unfold parse_infix.
      eapply R_step; [|apply R_ret].
      eapply R_step; [apply R_nerr|]. cbn [infix_operator tkind].
      eapply R_step; [apply R_ret|]. cbn [infix_symbol].
      eapply R_step; [apply R_operand; [assumption|assumption|lia|left; exact H]|].
      apply R_ret.
    + cbn [loop]. eapply R_step; [eapply R_step; [apply R_stop; exact H|]|]; reflexivity.
Qed.

(** A source whose significant tokens are known. *)
Lemma expr_of_reads d src l e s : dialect_ok d -> reads d start_pos (skip_bom src) l [] ->
  R (r_subexpr (knot (S (S (List.length (fsig (map fst l)))))) 0) ([], fsig (map fst l)) = Ok e s ->
  parse_expr_source d src = ROk e.
Proof.
  intros D Rd E. pose proof (tokenize_complete d src l D Rd) as T. unfold parse_expr_source, parse_with. rewrite T.
  change (run_raw parse_expr (map fst l)) with (call parse_expr [] (map fst l)).
  rewrite (SqlThms.call_res _ _ _ entry_expr).
  - unfold base, parse_expr. rewrite E. reflexivity.
  - eapply tokenize_wf; [exact D|exact T].
Qed.

Lemma bom_digits s rest : digits s -> skip_bom (s ++ rest) = s ++ rest.
Proof. intros [N D]. destruct s as [|c w]; [congruence|]. cbn in D. apply andb_true_iff in D. apply bom_digit, D. Qed.

Lemma field_le w z s : field w z s -> z <= 9999 -> dec_val s <= max_int.
Proof. intros (_ & _ & E) L. rewrite E. unfold max_int. lia. Qed.

(** A date, with anything harmless after it, is read as a subtraction. *)
Lemma date_then d t s rest : dialect_ok d -> valid_civil t -> iso_date t s ->
  stops (fun r => is_digit r || (r =? 46)) rest ->
  (forall p, exists l, reads d p rest l [] /\ stop_tok (fsig (map fst l))) ->
  exists e, parse_expr_source d (s ++ rest) = ROk e /\ subtraction t e.
Proof.
  intros D (VY & VM & VD & _) (y & m & dd & Fy & Fm & Fd & ->) St H.
  pose proof (field_digits _ _ _ Fy) as Dy. pose proof (field_digits _ _ _ Fm) as Dm. pose proof (field_digits _ _ _ Fd) as Dd.
  destruct (read_three d "-" Minus y m dd rest [] (fun l => stop_tok (fsig l)) start_pos) as (p1 & p2 & p3 & p4 & p5 & l & Rd & St'); auto.
  rewrite <- !app_assoc.
  destruct (R_date (S (S (S (S (List.length (fsig (map fst l))))))) y m dd start_pos p1 p2 p3 p4 p5 p1 p2 p3 p4 (fsig (map fst l)) Dy Dm Dd) as [s E];
    try (eapply field_le; [eassumption|lia]); [exact St'|].
  eexists. split.
  - eapply expr_of_reads; [exact D| |].
    + rewrite bom_digits by exact Dy. exact Rd.
    + change (fsig _) with (number y start_pos p1 :: minus p1 p2 :: number m p2 p3 :: minus p3 p4 :: number dd p4 p5 :: fsig (map fst l)).
      cbn [List.length]. exact E.
  - unfold long. destruct Fy as (_ & _ & ->), Fm as (_ & _ & ->), Fd as (_ & _ & ->). repeat eexists.
Qed.

Lemma date_read d t s : dialect_ok d -> valid_civil t -> iso_date t s ->
  exists e, parse_expr_source d s = ROk e /\ subtraction t e.
Proof.
  intros D V H. rewrite <- (app_nil_r s). apply date_then; auto; [exact I|].
  intros p. exists []. split; [constructor|exact I].
Qed.

Lemma time_reads d t s p : iso_time t s -> exists h m c p1 p2 p3 p4 p5,
  field 2 (c_hour t) h /\ field 2 (c_min t) m /\ field 2 (c_sec t) c /\ (exists r, s = h ++ r) /\
  reads d p s [(mkTok Number (VStr h) p p1, h); (mkTok Colon (VStr (gs ":")) p1 p2, gs ":"); (mkTok Number (VStr m) p2 p3, m);
     (mkTok Colon (VStr (gs ":")) p3 p4, gs ":"); (mkTok Number (VStr c) p4 p5, c)] [].
Proof.
  intros (h & m & c & Fh & Fm & Fc & ->).
  destruct (read_three d ":" Colon h m c [] [] (fun l => l = []) p) as (p1 & p2 & p3 & p4 & p5 & l & Rd & El).
  - right. auto.
  - eapply field_digits; exact Fh.
  - eapply field_digits; exact Fm.
  - eapply field_digits; exact Fc.
  - exact I.
  - intros q. exists []. split; [constructor|reflexivity].
  - apply map_eq_nil in El. subst l. rewrite app_nil_r in Rd. exists h, m, c, p1, p2, p3, p4, p5. eauto 10.
Qed.

Lemma datetime_read d t a b : dialect_ok d -> valid_civil t -> iso_date t a -> iso_time t b ->
  exists e, parse_expr_source d (a ++ gs " " ++ b) = ROk e /\ subtraction t e.
Proof.
  intros D V H K. apply date_then; auto; [reflexivity|]. intros p.
  destruct (time_reads d t b (token_end Whitespace (VStr [32]) [32] p) K) as (h & m & c & p1 & p2 & p3 & p4 & p5 & _ & _ & _ & _ & Rd).
  eexists. split; [constructor; [apply Lx_space|reflexivity|exact Rd]|]. cbn. auto.
Qed.

Lemma time_read d t s : dialect_ok d -> valid_civil t -> iso_time t s ->
  exists p q, parse_expr_source d s = ROk (ELong (mkLong p q (c_hour t))).
Proof.
  intros D V H. destruct V as (_ & _ & _ & Vh & _).
  destruct (time_reads d t s start_pos H) as (h & m & c & p1 & p2 & p3 & p4 & p5 & Fh & Fm & Fc & [r ->] & Rd).
  pose proof (field_digits _ _ _ Fh) as Dh.
  exists start_pos, p1. destruct Fh as (? & ? & Eh). rewrite <- Eh.
  eapply expr_of_reads; [exact D| |].
  - rewrite bom_digits by exact Dh. exact Rd.
  - cbn [map fst fsig filter blank tkind negb List.length].
    apply R_operand; [exact Dh|rewrite Eh; unfold max_int; lia|lia|left; left; reflexivity].
Qed.

(** *** Value *)
Lemma string_value d s : dialect_ok d ->
  (exists e, parse_expr_source d (39 :: escape s ++ [39]) = ROk e /\ value_of e = Some (GString s)) /\
  (exists e, parse_expr_source d (78 :: 39 :: escape s ++ [39]) = ROk e /\ value_of e = Some (GString s)).
Proof.
  intros D. split; eexists; (split; [unfold parse_expr_source; eapply eq_trans; [eapply one_token|]|]).
  - exact D.
  - apply (Lx_string d s). exact I.
  - reflexivity.
  - apply expr_string.
  - reflexivity.
  - exact D.
  - apply (Lx_nstring d s). exact I.
  - reflexivity.
  - apply expr_nstring.
  - reflexivity.
Qed.

Lemma expr_true w q p p' : upper w = gs "TRUE" ->
  res_of (run_raw parse_expr [mkTok SQLKeyword (VWord (mkWord w q (upper w))) p p']) = ROk (EBool p p' true).
Proof. intros ->. reflexivity. Qed.
Lemma expr_false w q p p' : upper w = gs "FALSE" ->
  res_of (run_raw parse_expr [mkTok SQLKeyword (VWord (mkWord w q (upper w))) p p']) = ROk (EBool p p' false).
Proof. intros ->. reflexivity. Qed.
Lemma expr_null w q p p' : upper w = gs "NULL" ->
  res_of (run_raw parse_expr [mkTok SQLKeyword (VWord (mkWord w q (upper w))) p p']) = ROk (ENull p p').
Proof. intros ->. reflexivity. Qed.

Lemma word_value d w : dialect_ok d ->
  (exists c w', w = c :: w' /\ is_start d c = true /\ forallb (is_part d) w' = true) ->
  (upper w = gs "TRUE" -> exists e, parse_expr_source d w = ROk e /\ value_of e = Some (GBool true)) /\
  (upper w = gs "FALSE" -> exists e, parse_expr_source d w = ROk e /\ value_of e = Some (GBool false)) /\
  (upper w = gs "NULL" -> exists e, parse_expr_source d w = ROk e /\ value_of e = Some GNil).
Proof.
  intros D (c & w' & -> & Hs & Hp).
  assert (L : upper (c :: w') <> [78] -> lexeme d SQLKeyword (VWord (mkWord (c :: w') 0 (upper (c :: w')))) (c :: w') []).
  { intros N. constructor; [auto|exact Hp|exact I|exact (fun _ _ => I)]. }
  assert (B : skip_bom (c :: w') = c :: w' \/ upper (c :: w') = 65279 :: upper w').
  { unfold skip_bom. destruct (Z.eqb_spec c 65279); [right; subst; reflexivity|left; reflexivity]. }
  repeat split; intros U; (destruct B as [B|B]; [|rewrite B in U; discriminate U]);
    (eexists; split; [unfold parse_expr_source; eapply eq_trans; [eapply one_token; [exact D|apply L; rewrite U; discriminate|exact B]|]|]).
  - apply expr_true, U. - reflexivity.
  - apply expr_false, U. - reflexivity.
  - apply expr_null, U. - reflexivity.
Qed.

Lemma number_value d a b : dialect_ok d -> digits a -> digits b ->
  forall e, parse_expr_source d (a ++ 46 :: b) = ROk e -> exists f, value_of e = Some (GFloat f) /\ nearest (dec_frac a b) f.
Proof.
  intros D A B e E. destruct (decimal_literal d a b D A B) as [(p & q & f & E' & N & _)|[E' _]]; rewrite E in E'; [|discriminate].
  injection E' as ->. exists f. split; [reflexivity|exact N].
Qed.

(** *** Statements that cannot be read *)
Lemma st_opener x u s st : tok_wf x -> st_base (x :: u) = Ok s st -> exists w, tval x = VWord w /\ In (wkeyword w) openers.
Proof.
  intros W. unfold base. generalize (knot (S (S (List.length (x :: u))))). intros r. cbn [run parse_statement].
  destruct (tval x) as [w|] eqn:V; [|intros H; exfalso; revert H; unfold parse_statement, next_err; cbn; rewrite V; discriminate].
  destruct (existsb (gs_eqb (wkeyword w)) openers) eqn:K.
  - intros _. apply existsb_exists in K. destruct K as (k & I & K). apply gs_eqb_eq in K. subst k. eauto.
  - intros H. exfalso. revert H. unfold openers in K. cbn [existsb map] in K. rewrite !orb_false_iff in K. decompose [and] K.
    unfold parse_statement, next_err. cbn [bind run]. cbn. rewrite V. unfold kw.
    repeat match goal with Q : gs_eqb _ _ = false |- _ => rewrite Q; clear Q end. cbn. discriminate.
Qed.

Lemma opener d src s : dialect_ok d -> parse_stmt_source d src = ROk s ->
  exists toks x u w, tokenize d true src = TOk toks /\ fsig toks = x :: u /\ tval x = VWord w /\ In (wkeyword w) openers.
Proof.
  intros D E. unfold parse_stmt_source, parse_with in E. destruct (tokenize d true src) as [toks| | |] eqn:T; try discriminate.
  pose proof (tokenize_wf _ _ _ _ D T) as W.
  change (run_raw parse_statement toks) with (call parse_statement [] toks) in E. rewrite (call_res _ _ _ entry_stmt) in E by exact W.
  destruct (base parse_statement (fsig toks)) as [s' st| | |] eqn:B; try discriminate.
  pose proof (fsig_wf _ W) as W'. destruct (fsig toks) as [|x u] eqn:F; [discriminate B|].
  inversion_clear W'. destruct (st_opener _ _ _ _ H B) as (w & V & O). exists toks, x, u, w. auto.
Qed.

Lemma opener_sql d src s ss : dialect_ok d -> parse_source d src = ROk (s :: ss) ->
  exists toks ld x u w, tokenize d true src = TOk toks /\ fsig toks = ld ++ x :: u /\
    (ld = [] \/ exists z, ld = [z] /\ tkind z = Semicolon) /\ tval x = VWord w /\ In (wkeyword w) openers.
Proof.
  intros D E. unfold parse_source, parse_with in E. destruct (tokenize d true src) as [toks| | |] eqn:T; try discriminate.
  pose proof (tokenize_wf _ _ _ _ D T) as W. change (sql_of toks = ROk (s :: ss)) in E. rewrite sql_of_list in E by exact W.
  pose proof (fsig_wf _ W) as W'.
  destruct (CutThms.list_first _ _ _ _ W' (Nat.lt_succ_diag_r _) E) as (ld & x & used & sc & u & st & F & Ld & _ & _ & _ & B & _).
  rewrite F, Forall_app in W'. destruct W' as [_ W']. inversion_clear W'.
  destruct (st_opener _ _ _ _ H B) as (w & V & O). exists toks, ld, x, (used ++ sc :: u), w. auto.
Qed.

(** A first word that opens no statement. *)
Lemma first_word d f w rest toks : dialect_ok d -> is_start d f = true -> forallb (is_part d) w = true -> stops (is_part d) rest ->
  f <> 78 -> f <> 65279 -> tokenize d true ((f :: w) ++ rest) = TOk toks ->
  exists p q l, fsig toks = mkTok SQLKeyword (VWord (mkWord (f :: w) 0 (upper (f :: w)))) p q :: l.
Proof.
  intros D F W St N B T. destruct (tokenize_reads d _ _ D T) as (l & R & ->).
  assert (E : skip_bom ((f :: w) ++ rest) = (f :: w) ++ rest) by (unfold skip_bom; cbn [app]; destruct (Z.eqb_spec f 65279); [congruence|reflexivity]).
  rewrite E in R. assert (L : lexeme d SQLKeyword (VWord (mkWord (f :: w) 0 (upper (f :: w)))) (f :: w) rest)
    by (constructor; auto; congruence).
  inversion R as [|p0 q0 s0 text k v l' rem L' Q R' X1 X2]; subst.
  destruct (lexeme_det _ _ _ _ _ _ _ _ _ D L' L X2) as (-> & -> & -> & ->). do 3 eexists. reflexivity.
Qed.

Lemma not_statement d f w rest : dialect_ok d -> is_start d f = true -> forallb (is_part d) w = true -> stops (is_part d) rest ->
  f <> 78 -> f <> 65279 -> ~ In (upper (f :: w)) openers ->
  (forall s, parse_stmt_source d ((f :: w) ++ rest) <> ROk s) /\ (forall ss, parse_source d ((f :: w) ++ rest) <> ROk ss).
Proof.
  intros D F W St N B O. split.
  - intros s E. destruct (opener _ _ _ D E) as (toks & x & u & v & T & Fs & V & I).
    destruct (first_word d f w rest toks D F W St N B T) as (p & q & l & Fs'). rewrite Fs in Fs'. injection Fs' as -> _.
    cbn in V. injection V as <-. exact (O I).
  - intros [|s ss] E.
    + unfold parse_source, parse_with in E. destruct (tokenize d true ((f :: w) ++ rest)) as [toks| | |] eqn:T; try discriminate.
      pose proof (tokenize_wf _ _ _ _ D T) as Wf. change (sql_of toks = ROk []) in E. rewrite sql_of_list in E by exact Wf.
      destruct (first_word d f w rest toks D F W St N B T) as (p & q & l & Fs). rewrite Fs in E. cbn [sql_list starts_semi] in E.
      rewrite andb_false_r in E. change (is_kind Semicolon _) with false in E. cbv iota in E.
      destruct (base parse_statement _) as [s st| | |]; try discriminate.
      destruct (sql_list _ true (snd st)); discriminate.
    + destruct (opener_sql _ _ _ _ D E) as (toks & ld & x & u & v & T & Fs & Ld & V & I).
      destruct (first_word d f w rest toks D F W St N B T) as (p & q & l & Fs'). rewrite Fs in Fs'.
      destruct Ld as [-> |(z & -> & K)]; injection Fs' as -> _; [|discriminate K].
      cbn in V. injection V as <-. exact (O I).
Qed.

Lemma copy_text c : exists rest, sql_copy c = gs "COPY" ++ 32 :: rest.
Proof. unfold sql_copy. rewrite builder_string_text. unfold wt_copy. cbn [text_of flat_map app]. eexists. reflexivity. Qed.

Lemma copy_unreadable d c : dialect_ok d -> is_start d 67 = true -> forallb (is_part d) (gs "OPY") = true -> is_part d 32 = false ->
  (forall s, parse_stmt_source d (sql_copy c) <> ROk s) /\ (forall ss, parse_source d (sql_copy c) <> ROk ss).
Proof.
  intros D F W St. destruct (copy_text c) as [rest ->]. change (gs "COPY") with (67 :: gs "OPY").
  apply not_statement; auto; try discriminate; [vm_compute; congruence..|]. vm_compute. intuition discriminate.
Qed.

(** *** The printed date and time literals *)
Lemma timelit_iso t : valid_civil t ->
  iso_date t (sql_timelit (LDate t)) /\ iso_time t (sql_timelit (LTime t)) /\
  (exists a b, iso_date t a /\ iso_time t b /\ sql_timelit (LDateTime t) = a ++ gs " " ++ b /\
     sql_timelit (LTimestamp t) = a ++ gs " " ++ b).
Proof.
  intros V. rewrite !timelit_text. cbn [wt_timelit text_of]. split; [now apply date_iso|]. split; [now apply time_iso|].
  exists (format_date t), (format_time t). split; [now apply date_iso|]. split; [now apply time_iso|]. split; reflexivity.
Qed.

Lemma iso_texts d t a b : dialect_ok d -> valid_civil t -> iso_date t a -> iso_time t b ->
  (exists e, parse_expr_source d a = ROk e /\ subtraction t e) /\
  (exists e, parse_expr_source d (a ++ gs " " ++ b) = ROk e /\ subtraction t e) /\
  (exists p q, parse_expr_source d b = ROk (ELong (mkLong p q (c_hour t)))).
Proof. intros D V A B. split; [now apply date_read|]. split; [now apply datetime_read|now apply time_read]. Qed.

Lemma timelit_reread d t : dialect_ok d -> valid_civil t ->
  (exists e, parse_expr_source d (sql_timelit (LDate t)) = ROk e /\ subtraction t e) /\
  (exists e, parse_expr_source d (sql_timelit (LDateTime t)) = ROk e /\ subtraction t e) /\
  (exists e, parse_expr_source d (sql_timelit (LTimestamp t)) = ROk e /\ subtraction t e) /\
  (exists p q, parse_expr_source d (sql_timelit (LTime t)) = ROk (ELong (mkLong p q (c_hour t)))).
Proof.
  intros D V. destruct (timelit_iso t V) as (A & B & a & b & Ha & Hb & -> & ->).
  split; [now apply date_read|]. split; [now apply datetime_read|]. split; [now apply datetime_read|now apply time_read].
Qed.
