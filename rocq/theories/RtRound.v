(** Printed text is read back: from the tokens of a written tree to the text
    its printer gives and to the public methods of the parser. *)
From Coq Require Import ZArith List Bool String Lia.
From Verif Require Import Base Dialect Token Lexer LexSpec AST Num Prog Parser Sim Erase Natural ParserThms ParseSpec LexFacts LexThms
  ApiThms Printer WriteThms Grammar NumThms Render RtPrim RtEq RtExpr RtQuery RtStmt RtTop RtLex RoundSpec.
Import ListNotations.
Open Scope string_scope.
Open Scope Z_scope.
Open Scope list_scope.

(** *** Statement lists *)

Definition t_closed (s : stmt) : list token := t_stmt s ++ [semi].
Definition t_list (ss : list stmt) : list token := List.concat (map t_closed ss).

Lemma stmt_head dl s : wf_stmt dl s = true -> exists t l, t_stmt s = t :: l /\ isk Semicolon [t] = false.
Proof.
  destruct s; cbn [wf_stmt t_stmt]; intros W; try (eexists _, _; split; reflexivity).
  apply andb_true_iff in W as [W _]. destruct (query_head dl _ W) as (h & x & E & H & _). exists h, x. split; [exact E|].
  destruct H as [-> |[-> | ->]]; reflexivity.
Qed.

Lemma sql_loop dl (pc : bool) m : forall ss n acc (b : bool) d,
  forallb (wf_stmt dl) ss = true -> (len (t_list ss) <= m)%nat -> (List.length ss < n)%nat ->
  exists d', R (loop n (fun '((acc, expecting) : list stmt * bool) =>
       ok <- consume_token Semicolon ;;
       if negb ok && expecting then Err
       else
         more <- (if pc
                  then Next (fun o => match o with None => Ret false | Some _ => prev ;;; Ret true end)
                  else Peek (fun o => Ret (match o with None => false | Some _ => true end))) ;;
         if more : bool then s <- parse_statement (knot m) ;; Ret (inl (s :: acc, true))
         else Ret (inr (rev acc))) (acc, b)) (d, (if b then [semi] else []) ++ t_list ss)
    = Ok (rev acc ++ map estmt ss) (d', []).
Proof.
  induction ss as [|s ss IH]; intros n acc b d W L F; (destruct n as [|n]; [cbn [List.length] in F; lia|]).
  - cbn [t_list map List.concat]. rewrite app_nil_r. destruct b, pc; cbn; rewrite ?app_nil_r; eauto.
  - cbn [forallb] in W. apply andb_true_iff in W as [W1 W2].
    destruct (stmt_head dl s W1) as (h & l & EH & HK).
    unfold t_list in *. cbn [map List.concat] in *. fold (t_list ss) in *. unfold t_closed in L; unfold t_closed at 1.
    rewrite !app_length in L. cbn [List.length] in L, F.
    pose proof (fun d => R_stmt dl (knot m) m (knot_good dl m) s d (semi :: t_list ss) W1 ltac:(lia) ltac:(reflexivity)) as X.
    destruct (IH n (estmt s :: acc) true (rev (t_stmt s) ++ (if b then semi :: d else d)) W2 ltac:(lia) ltac:(lia)) as (d' & IH').
    exists d'. rewrite <- app_assoc. cbn [app]. cbn [rev] in IH'. rewrite <- app_assoc in IH'. cbn [app] in IH'.
    cbn [loop]. rewrite run_bind.
    assert (E : R (ok <- consume_token Semicolon ;;
       if negb ok && b then Err
       else
         more <- (if pc
                  then Next (fun o => match o with None => Ret false | Some _ => prev ;;; Ret true end)
                  else Peek (fun o => Ret (match o with None => false | Some _ => true end))) ;;
         if more : bool then s <- parse_statement (knot m) ;; Ret (inl (s :: acc, true))
         else Ret (inr (rev acc))) (d, (if b then [semi] else []) ++ t_stmt s ++ semi :: t_list ss)
       = Ok (inl (estmt s :: acc, true)) (rev (t_stmt s) ++ (if b then semi :: d else d), semi :: t_list ss)).
    { rewrite EH in X |- *. cbn [app]. destruct b.
      - eapply R_step; [reflexivity|]. cbv beta iota. cbn [negb andb].
        eapply R_step; [destruct pc; reflexivity|]. cbv beta iota. eapply R_step; [apply X|]. reflexivity.
      - eapply R_step; [apply R_cons_no; exact HK|]. cbv beta iota. cbn [negb andb].
        eapply R_step; [destruct pc; reflexivity|]. cbv beta iota. eapply R_step; [apply X|]. reflexivity. }
    rewrite E. cbv beta iota. exact IH'.
Qed.

(** *** The tokens of a tree *)

Definition ordinary (t : token) : bool :=
  match tkind t with Semicolon | Char | Whitespace | Comment => false | _ => true end
  && Grammar.no_pos (tfrom t) && Grammar.no_pos (tto t).
Notation ord l := (forallb ordinary l = true).

Lemma ord_app a b : ord a -> ord b -> ord (a ++ b).
Proof. intros H1 H2. rewrite forallb_app, H1. exact H2. Qed.
Lemma ord_cons t l : ordinary t = true -> ord l -> ord (t :: l).
Proof. intros H1 H2. cbn [forallb]. rewrite H1. exact H2. Qed.
Lemma ord_parens l : ord l -> ord (parens l).
Proof. intros H. unfold parens. apply ord_cons; [reflexivity|]. apply ord_app; [exact H|reflexivity]. Qed.
Lemma ord_sepby s l : ordinary s = true -> Forall (fun x => ord x) l -> ord (sepby s l).
Proof.
  intros H. induction 1 as [|x l Hx _ IH]; [reflexivity|]. cbn [sepby]. destruct l; [exact Hx|]. apply ord_app; [exact Hx|].
  apply ord_cons; assumption.
Qed.
Lemma ord_commas {A} (f : A -> list token) l : Forall (fun a => ord (f a)) l -> ord (commas f l).
Proof. intros H. apply ord_sepby; [reflexivity|]. apply Forall_map. exact H. Qed.
Lemma ord_concat {A} (f : A -> list token) l : Forall (fun a => ord (f a)) l -> ord (List.concat (map f l)).
Proof. induction 1; [reflexivity|]. cbn [map List.concat]. apply ord_app; assumption. Qed.
Lemma ord_dots l : ord (t_dots l).
Proof. apply ord_sepby; [reflexivity|]. apply Forall_map, Forall_forall. reflexivity. Qed.
Lemma ord_ids l : ord (t_ids l).
Proof. apply ord_sepby; [reflexivity|]. apply Forall_map, Forall_forall. reflexivity. Qed.
Lemma ord_name o : ord (t_name o).
Proof. apply ord_dots. Qed.
Lemma ord_op o : ord (t_op o).
Proof. destruct o; reflexivity. Qed.
Lemma ord_join o : ord (t_join o).
Proof. destruct o; reflexivity. Qed.
Lemma ord_type t : ord (t_type t).
Proof.
  induction t; cbn [t_type]; unfold t_size, t_unsigned, opt, cond;
    repeat match goal with |- context [match ?o with Some _ => _ | None => _ end] => destruct o | |- context [if ?b then _ else _] => destruct b end;
    try reflexivity.
  - apply ord_app; [assumption|reflexivity].
  - apply ord_name.
Qed.
Lemma ord_frame f : ord (t_frame f).
Proof.
  destruct f as [u st e]. unfold t_frame. cbn [wf_units wf_start wf_end]. destruct (wfu_type u), st, e as [[]|]; reflexivity.
Qed.
Lemma ord_limit l : ord (t_limit l).
Proof. destruct l as [p1 p2 v o]. unfold t_limit. cbn [AST.lim_value AST.lim_offset]. destruct v, o; reflexivity. Qed.
Lemma ord_setop o : ordinary (t_setop o) = true.
Proof. destruct o; reflexivity. Qed.

Ltac ordt := repeat first
  [ reflexivity | assumption
  | apply ord_dots | apply ord_ids | apply ord_name | apply ord_op | apply ord_join | apply ord_type | apply ord_frame
  | apply ord_limit | apply ord_setop
  | apply ord_parens | apply ord_commas; assumption | apply ord_concat | apply ord_app | apply ord_cons ].

Lemma ast_ord :
  (forall e, ord (t_node e)) /\ (forall w, ord (t_winspec w)) /\ (forall o, ord (t_orderby o)) /\ (forall q, ord (t_query q)) /\
  (forall c, ord (t_cte c)) /\ (forall b, ord (t_setexpr b)) /\ (forall s, ord (t_select s)) /\ (forall i, ord (t_selitem i)) /\
  (forall t, ord (t_tableref t)) /\ (forall j, ord (t_joinspec j)).
Proof.
  apply AstInd.ast_ind; intros;
    first [rewrite t_node_eq|rewrite t_winspec_eq|rewrite t_orderby_eq|rewrite t_query_eq|rewrite t_cte_eq|rewrite t_setexpr_eq
          |rewrite t_select_eq|rewrite t_selitem_eq|rewrite t_tableref_eq|rewrite t_joinspec_eq]; cbv beta iota; unfold cond;
    repeat match goal with
      | H : AstInd.opt_all _ ?o |- _ => destruct o; cbn [AstInd.opt_all] in H
      | |- context [match ?o with Some _ => _ | None => _ end] => destruct o
      | |- context [list_of ?l _] => is_var l; destruct l; cbn [list_of]
      | |- context [if ?b then _ else _] => destruct b
      end; ordt.
  all: (rewrite Forall_forall in * |- *; intros p I;
    match goal with H : forall x, In x _ -> _ |- _ => destruct (H _ I) end; destruct p; cbn [fst snd] in *; ordt).
Qed.
Lemma ord_node e : ord (t_node e). Proof. apply ast_ord. Qed.
Lemma ord_query e : ord (t_query e). Proof. apply ast_ord. Qed.

Ltac ord1 := first
  [ reflexivity | assumption
  | apply ord_dots | apply ord_ids | apply ord_name | apply ord_type | apply ord_node | apply ord_query
  | apply ord_parens | apply ord_commas; apply Forall_forall; intros ? _ | apply ord_concat; apply Forall_forall; intros ? _
  | apply ord_app | apply ord_cons ].
Ltac ords := repeat ord1.
Ltac dopt := unfold t_cname, opt, cond; repeat match goal with
      | |- context [match ?o with Some _ => _ | None => _ end] => destruct o
      | |- context [list_of ?l _] => is_var l; destruct l; cbn [list_of]
      | |- context [if ?b then _ else _] => destruct b end.
Lemma ord_tc t : ord (t_tc t).
Proof. destruct t as [p n s]. unfold t_tc. cbn [tc_name tc_spec]. destruct s; cbn [t_tcspec]; unfold t_refkey; dopt; ords. Qed.
Lemma ord_cc t : ord (t_cc t).
Proof. destruct t as [n p s]. unfold t_cc. cbn [cc_name cc_spec]. destruct s; cbn [t_ccspec]; dopt; ords. Qed.
Lemma ord_coldef c : ord (t_coldef c).
Proof.
  assert (H : forall l : list decoration, ord (map (fun _ => kwt "AUTO_INCREMENT") l)) by (induction l; [reflexivity|assumption]).
  unfold t_coldef. dopt; repeat first [apply ord_cc|apply H|ord1].
Qed.
Lemma ord_source s : ord (t_source s).
Proof. destruct s; cbn [t_source]; unfold t_row; ords. Qed.
Lemma ord_assign a : ord (t_assign a).
Proof. unfold t_assign. ords. Qed.
Lemma ord_element e : ord (t_element e).
Proof. destruct e; [apply ord_coldef|apply ord_tc]. Qed.
Lemma ord_option e : ord (t_option e).
Proof. destruct e; cbn [t_option]; dopt; ords. Qed.
Lemma ord_altertable e : ord (t_altertable e).
Proof.
  destruct e; cbn [t_altertable]; dopt; try match goal with a : altercolaction |- _ => destruct a; cbn [t_altercol] end;
    repeat first [apply ord_coldef|apply ord_tc|ord1].
Qed.
Lemma ord_stmt s : ord (t_stmt s).
Proof.
  induction s; cbn [t_stmt]; unfold t_where; dopt;
    repeat first [apply ord_source|apply ord_assign|apply ord_element|apply ord_option|apply ord_altertable|ord1].
Qed.

(** *** From tokens to text *)

Lemma bom_lexeme d k v rest : is_start d 65279 = false -> dialect_ok d -> forall s, lexeme d k v s rest ->
  k <> Char -> match s with c :: _ => c <> 65279 | [] => True end.
Proof.
  intros B (D1 & D2 & D3) s X NC. destruct X; try lia; try congruence.
  - intros ->. destruct H as [H|H]; [congruence|lia].
  - intros ->. destruct (D3 _ H); lia.
  - intros ->. cbn in H. discriminate H.
  - cbn in H. repeat (destruct H as [H|H]; [injection H as <- <- <-; cbn; lia|]). destruct H.
Qed.
Lemma lexes_bom d : is_start d 65279 = false -> dialect_ok d -> forall text l rest, lexes d text l rest ->
  Forall (fun x => fst x <> Char) l -> match text with c :: _ => c <> 65279 | [] => True end.
Proof.
  intros B D. induction 1 as [r|k v s text l r W X _ IH|k v s text l r W X _ IH]; intros F; [exact I| |].
  - pose proof (bom_lexeme d k v _ B D s X) as H. assert (k <> Char) by (intros ->; discriminate W).
    destruct s as [|c s]; [apply IH; exact F|]. apply H. assumption.
  - inversion F; subst. pose proof (bom_lexeme d k v _ B D s X) as H. cbn [fst] in *.
    destruct s as [|c s]; [apply IH; assumption|]. apply H. assumption.
Qed.

Lemma ord_char l : ord l -> Forall (fun x : kind * tvalue => fst x <> Char) (map kv l).
Proof.
  intros H. apply Forall_map, Forall_forall. intros t I. rewrite forallb_forall in H. specialize (H t I).
  unfold ordinary in H. cbn. destruct (tkind t); cbn in H; congruence.
Qed.

Lemma tokens_of_text d src l : dialect_words d -> lexes d src (map kv l) [] -> Forall (fun x => fst x <> Char) (map kv l) ->
  exists toks, tokenize d true src = TOk toks /\ map kv (sig toks) = map kv l.
Proof.
  intros (D & _ & _ & B) L F. pose proof (lexes_bom d B D _ _ _ L F) as NB.
  destruct (lexes_reads d _ _ _ L start_pos) as (tl & R1 & E). rewrite app_nil_r in R1.
  exists (map fst tl). split; [|exact E]. apply tokenize_complete; [exact D|].
  replace (skip_bom src) with src; [exact R1|]. destruct src as [|c src]; [reflexivity|]. unfold skip_bom.
  destruct (c =? 65279) eqn:Q; [apply Z.eqb_eq in Q; contradiction|reflexivity].
Qed.

Lemma kv_transfer (Q : kind * tvalue -> Prop) a b : map kv a = map kv b -> Forall (fun t => Q (kv t)) a -> Forall (fun t => Q (kv t)) b.
Proof. intros E H. apply (Forall_map kv) in H. rewrite E in H. apply (Forall_map kv) in H. exact H. Qed.
Lemma wf_kv (a b : list token) : map kv a = map kv b -> Forall tok_wf a -> Forall tok_wf b.
Proof.
  intros E. apply (kv_transfer (fun x => tok_wf (mkTok (fst x) (snd x) pos0 pos0)) a b E).
Qed.

Lemma no_pos_eq p : Grammar.no_pos p = true -> p = pos0.
Proof. destruct p as [a b]. unfold Grammar.no_pos. cbn. intros H. unfold pos0. f_equal; lia. Qed.
Lemma ord_er l : ord l -> map (er_tok Erase.no_pos same_rune) l = l.
Proof.
  induction l as [|t l IH]; [reflexivity|]. cbn [forallb]. rewrite andb_true_iff. intros [H1 H2]. cbn [map]. rewrite (IH H2). f_equal.
  unfold ordinary in H1. rewrite !andb_true_iff in H1. destruct H1 as [[_ H3] H4]. apply no_pos_eq in H3, H4.
  destruct t as [kd v a b]. cbn [tfrom tto] in *. subst. unfold er_tok, Erase.no_pos. cbn [tkind tval tfrom tto]. f_equal.
  destruct v as [[w1 w2 w3]|v]; unfold er_val, er_word, same_rune; cbn [wvalue wquote wkeyword]; rewrite ?map_id; reflexivity.
Qed.

Section Back.
  Context {A : Type} (P : rec -> prog A) (erA : (pos -> pos) -> (rune -> rune) -> A -> A) (k : nat).
  Hypothesis HP : public P erA k.
  Notation er := (erA Erase.no_pos same_rune).

  (** Same tokens up to positions, same result up to positions. *)
  Lemma back_tokens toks l x d' : Forall tok_wf toks -> map kv (sig toks) = map kv l -> map (er_tok Erase.no_pos same_rune) l = l ->
    R (P (knot (S (S (len l))))) ([], l) = Ok (er x) (d', []) ->
    exists y st, call P [] toks = Ok y st /\ er y = er x /\ sig (snd st) = [].
  Proof.
    intros W E O H. pose proof (public_entry _ _ _ HP) as EP. rewrite sig_fsig in E.
    pose proof (fsig_wf _ W) as W1. pose proof (wf_kv _ _ E W1) as W2.
    assert (ET : map (er_tok Erase.no_pos same_rune) (fsig toks) = map (er_tok (fun p => p) (fun r => r)) l).
    { rewrite (SrcThms.kv_er (fsig toks) l E), O. symmetry. rewrite <- (map_id l) at 2. apply map_ext. intros t. apply er_tok_same. }
    pose proof (call_agrees P erA k EP [] toks W) as A1. unfold agrees in A1.
    pose proof (base_er P erA k EP Erase.no_pos same_rune (fun p => p) (fun r => r) (fsig toks) l eq_refl SrcThms.gok_same eq_refl gok_id W1 W2 ET) as B.
    change (base P l = Ok (er x) (d', [])) in H. rewrite H in B. destruct (base P (fsig toks)) as [b s'| | |]; try contradiction.
    destruct (call P [] toks) as [y st| | |]; try contradiction. destruct A1 as (-> & _ & A2). destruct B as [B1 B2].
    rewrite (en_id P erA k EP) in B1.
    exists b, st. split; [reflexivity|]. split; [exact B1|]. rewrite sig_fsig, A2. unfold er_st in B2. cbn [fst snd map] in B2.
    injection B2 as _ B2. destruct (snd s'); [reflexivity|discriminate B2].
  Qed.

  Lemma back_text d src l x d' : dialect_words d -> lexes d src (map kv l) [] -> Forall (fun x => fst x <> Char) (map kv l) ->
    map (er_tok Erase.no_pos same_rune) l = l ->
    R (P (knot (S (S (len l))))) ([], l) = Ok (er x) (d', []) -> read_back P er d src x.
  Proof.
    intros D L F E H. destruct (tokens_of_text d src l D L F) as (toks & T & ET). exists toks.
    destruct (back_tokens toks l x d' (SrcThms.tokenize_wf _ _ _ _ (proj1 D) T) ET E H) as (y & st & Y). exists y, st.
    split; [exact T|exact Y].
  Qed.
End Back.

(** *** The methods *)

Lemma node_back d e : dialect_words d -> wf_node d e = true -> read_back parse_expr bare_node d (sql_node e) e.
Proof.
  intros D W. pose proof (ord_node e) as O. destruct (wf_strength d e W) as (S1 & S2 & S3).
  eapply (back_text parse_expr er_node 1 pub_expr); [exact D| |apply ord_char; exact O|apply ord_er; exact O|].
  - unfold sql_node. rewrite builder_string_text. apply node_lex; auto.
  - pose proof (g_expr _ _ _ (knot_good d (S (S (len (t_node e))))) e 0 [] []) as X. rewrite app_nil_r in X.
    apply X; auto; cbn [nprec]; lia.
Qed.
Lemma dtype_back d t : dialect_words d -> wf_type d t = true -> ends_type t = true ->
  read_back parse_data_type bare_dtype d (sql_dtype t) t.
Proof.
  intros D W E. pose proof (ord_type t) as O.
  eapply (back_text parse_data_type er_dtype 1 pub_dtype); [exact D| |apply ord_char; exact O|apply ord_er; exact O|].
  - unfold sql_dtype. rewrite builder_string_text. apply nlx_type; auto.
  - pose proof (R_type (knot (S (S (len (t_type t))))) d t [] []) as X. rewrite app_nil_r in X.
    apply X; auto. pose proof (g_fuel _ _ _ (knot_good d (S (S (len (t_type t)))))). lia.
Qed.
Lemma stmt_back d s : dialect_words d -> wf_stmt d s = true -> ends_stmt s = true ->
  read_back parse_statement bare_stmt d (sql_stmt s) s.
Proof.
  intros D W E. pose proof (ord_stmt s) as O.
  eapply (back_text parse_statement er_stmt 1 pub_stmt); [exact D| |apply ord_char; exact O|apply ord_er; exact O|].
  - unfold sql_stmt. rewrite builder_string_text. apply stmt_lex; auto.
  - pose proof (R_stmt d (knot (S (S (len (t_stmt s))))) (S (S (len (t_stmt s)))) (knot_good d _) s [] []) as X. rewrite app_nil_r in X.
    apply X; auto.
Qed.

Lemma blanks_lex d w rest : blanks w = true -> lexes d w [] rest.
Proof.
  unfold blanks. induction w as [|c w IH]; [constructor|]. cbn [forallb]. rewrite andb_true_iff. intros [H1 H2].
  assert (X : exists v, lexeme d Whitespace v [c] (w ++ rest)).
  { repeat (apply orb_true_iff in H1 as [H1|H1]); apply Z.eqb_eq in H1; subst c; eexists; constructor. }
  destruct X as [v X]. change (c :: w) with ([c] ++ w). eapply Lxs_blank; [|exact X|apply IH; exact H2]. reflexivity.
Qed.
Lemma script_lex d l : dialect_words d -> forallb (fun p => wf_stmt d (fst p) && blanks (snd p)) l = true ->
  lexes d (script l) (map kv (t_list (map fst l))) [].
Proof.
  intros D. unfold script, t_list. induction l as [|[s w] l IH]; [constructor|]. cbn [forallb map fst snd List.concat].
  rewrite !andb_true_iff. intros [[W B] H]. specialize (IH H). unfold t_closed. rewrite !map_app, <- !app_assoc.
  eapply lexes_app; [|reflexivity|].
  - unfold sql_stmt. rewrite builder_string_text. apply stmt_lex; auto.
  - change (map kv [semi] ++ ?x) with ([(Semicolon, VStr (gs ";"))] ++ [] ++ x).
    eapply lexes_app; [|reflexivity|eapply lexes_app; [apply blanks_lex; exact B|reflexivity|exact IH]].
    apply lexes_one; [reflexivity|]. apply (Lx_symbol d ";" Semicolon ""); [cbn; tauto|].
    match goal with |- stops _ ?x => destruct x; [constructor|reflexivity] end.
Qed.
Lemma t_list_er ss : map (er_tok Erase.no_pos same_rune) (t_list ss) = t_list ss.
Proof.
  unfold t_list, t_closed. induction ss as [|s ss IH]; [reflexivity|]. cbn [map List.concat]. rewrite !map_app, IH, (ord_er _ (ord_stmt s)).
  reflexivity.
Qed.
Lemma t_list_char ss : Forall (fun x : kind * tvalue => fst x <> Char) (map kv (t_list ss)).
Proof.
  unfold t_list, t_closed. induction ss as [|s ss IH]; [constructor|]. cbn [map List.concat]. rewrite !map_app.
  apply Forall_app. split; [apply Forall_app; split; [apply ord_char, ord_stmt|repeat constructor; discriminate]|exact IH].
Qed.
Lemma script_back d l pc : dialect_words d -> forallb (fun p => wf_stmt d (fst p) && blanks (snd p)) l = true ->
  read_back (parse_sql pc) (map bare_stmt) d (script l) (map fst l).
Proof.
  intros D W. set (ss := map fst l).
  assert (W2 : forallb (wf_stmt d) ss = true).
  { unfold ss. clear -W. induction l as [|p l IH]; [reflexivity|]. cbn [forallb map] in *. rewrite !andb_true_iff in W. destruct W as [[W1 _] W3].
    rewrite W1. apply IH. exact W3. }
  assert (LL : (List.length ss <= len (t_list ss))%nat).
  { clear. unfold t_list, t_closed. induction ss as [|s ss IH]; cbn [map List.concat List.length]; [lia|].
    rewrite !app_length. cbn [List.length]. lia. }
  set (m := S (S (len (t_list ss)))).
  pose proof (g_fuel _ _ _ (knot_good d m)) as F.
  destruct (sql_loop d pc m ss (r_fuel (knot m)) [] false [] W2 ltac:(lia) ltac:(lia)) as (d' & X).
  eapply (back_text (parse_sql pc) (fun fp g => map (er_stmt fp g)) 0 (pub_sql pc)) with (l := t_list ss);
    [exact D|apply script_lex; assumption|apply t_list_char|apply t_list_er|].
  fold m. exact X.
Qed.

(** *** The text of a file *)

Lemma file_lex d ss : dialect_words d -> forallb (wf_stmt d) ss = true ->
  forall rest, calm rest = true -> lexes d (flat_map op_text (wjoin [10] (map wt_stmt ss))) (map kv (List.concat (map t_stmt ss))) rest.
Proof.
  intros D. induction ss as [|s ss IH]; intros W rest C; [constructor|]. cbn [forallb] in W. apply andb_true_iff in W as [W1 W2].
  cbn [map List.concat]. rewrite map_app. cbn [map wjoin]. destruct ss as [|s2 ss].
  - cbn [map flat_map op_text List.concat]. rewrite !app_nil_r. apply stmt_lex; auto.
  - cbn [map] in IH |- *. cbn [flat_map op_text]. eapply lexes_app; [apply (stmt_lex d D s W1); shelve|reflexivity|]. Unshelve. 2: reflexivity.
    match goal with |- lexes _ _ ?x _ => change x with ([] ++ x) end.
    eapply lexes_app; [apply blanks_lex; reflexivity|reflexivity|apply IH; assumption].
Qed.
Lemma ord_list ss : ord (List.concat (map t_stmt ss)).
Proof. apply ord_concat, Forall_forall. intros s _. apply ord_stmt. Qed.
Lemma file_not_read d f l : dialect_words d -> forallb (wf_stmt d) (f_stmts f) = true -> f_stmts f <> [] ->
  parse_source d (sql_file f) <> ROk l.
Proof.
  intros D W NE E. unfold sql_file in E. rewrite builder_string_text in E.
  assert (L : lexes d (text_of (wt_file f)) (map kv (List.concat (map t_stmt (f_stmts f)))) []) by (apply file_lex; auto).
  destruct (tokens_of_text d _ _ D L (ord_char _ (ord_list _))) as (toks & T & K).
  unfold parse_source, parse_with in E. rewrite T in E.
  destruct (sql_success toks l (SrcThms.tokenize_wf _ _ _ _ (proj1 D) T) E) as [X|X].
  - rewrite X in K. destruct (f_stmts f) as [|s ss]; [congruence|]. cbn [map List.concat] in K. rewrite map_app in K.
    cbn [forallb] in W. apply andb_true_iff in W as [W _]. destruct (stmt_head d s W) as (h & x & EH & _). rewrite EH in K. discriminate K.
  - destruct X as (a & t & EX & KT). rewrite EX in K. pose proof (ord_list (f_stmts f)) as O.
    assert (I : In (kv t) (map kv (List.concat (map t_stmt (f_stmts f))))) by (rewrite <- K, map_app, in_app_iff; right; left; reflexivity).
    apply in_map_iff in I as (t' & ET & I). rewrite forallb_forall in O. specialize (O t' I). unfold ordinary in O.
    assert (KT' : tkind t' = Semicolon) by (injection ET as -> _; exact KT). rewrite KT' in O. discriminate O.
Qed.
