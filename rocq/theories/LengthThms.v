(** Proofs about the length of printed text. *)
From Coq Require Import ZArith List Bool String Lia.
From Verif Require Import RoundSpec Base Dialect Token Lexer LexSpec LexFacts LexThms AST AstInd Num Nodes Prog Parser ParseSpec
  Walk NumThms IntLen ValueSpec Grammar Sound Slices GrammarThms SizeSpec SizeThms Printer RtEq WriteThms LengthSpec.
Import ListNotations.
Open Scope list_scope.
Open Scope nat_scope.

Definition tl (w : wnode) : nat := List.length (text_of w).
Definition ol (l : list wop) : nat := List.length (flat_map op_text l).

Lemma tl_sw l : tl (WSw l) = ol l. Proof. reflexivity. Qed.
Lemma tl_single s : tl (WSingle s) = List.length s. Proof. reflexivity. Qed.
Lemma tl_seq a b c : tl (WSeq [a; b; c]) = List.length a + List.length b + List.length c.
Proof. unfold tl. cbn [text_of List.concat]. rewrite !app_length. cbn. lia. Qed.
Lemma tl_none : tl WNone = 0. Proof. reflexivity. Qed.
Lemma ol_nil : ol [] = 0. Proof. reflexivity. Qed.
Lemma ol_app a b : ol (a ++ b) = ol a + ol b.
Proof. unfold ol. rewrite flat_map_app. apply app_length. Qed.
Lemma ol_wb b l : ol (WB b :: l) = List.length b + ol l.
Proof. unfold ol. cbn [flat_map op_text]. apply app_length. Qed.
Lemma ol_wl s l : ol (wl s :: l) = String.length s + ol l.
Proof.
  unfold wl. rewrite ol_wb. f_equal. unfold gs. rewrite ?map_length.
  induction s; cbn; auto.
Qed.
Lemma ol_wint z l : ol (wint z :: l) = List.length (format_int z) + ol l.
Proof. apply ol_wb. Qed.
Lemma ol_wn x l : ol (WN x :: l) = tl x + ol l.
Proof. unfold ol. cbn [flat_map op_text]. apply app_length. Qed.
Lemma len_gs s : List.length (gs s) = String.length s.
Proof. pose proof (ol_wl s []) as H. unfold wl in H. rewrite ol_wb in H. lia. Qed.
Lemma ol_join {A} sep (f : A -> wnode) l : ol (wjoin sep (map f l)) = lsum (fun a => tl (f a)) l + List.length sep * (List.length l - 1).
Proof.
  induction l as [|a l IH]; [cbn; lia|]. cbn [map wjoin]. rewrite ol_wn, lsum_cons. destruct l as [|b l].
  - cbn [map]. rewrite ol_nil, lsum_nil. cbn [List.length]. lia.
  - cbn [map] in *. rewrite ol_wb, IH. cbn [List.length]. lia.
Qed.
Lemma ol_comma {A} (f : A -> wnode) l : ol (wcomma (map f l)) = lsum (fun a => tl (f a)) l + 2 * (List.length l - 1).
Proof. unfold wcomma. rewrite ol_join. reflexivity. Qed.
Lemma ol_idents s l : ol (widents s l) = lsum (fun i => List.length (id_value i)) l + String.length s * (List.length l - 1).
Proof. unfold widents. rewrite ol_join, len_gs. reflexivity. Qed.
Lemma ol_concat {A} (f : A -> list wop) l : ol (List.concat (map f l)) = lsum (fun a => ol (f a)) l.
Proof. induction l as [|a l IH]; [reflexivity|]. cbn [map List.concat]. rewrite ol_app, lsum_cons. lia. Qed.
Lemma ol_map {A} (f : A -> wnode) l : ol (map (fun k => WN (f k)) l) = lsum (fun a => tl (f a)) l.
Proof. induction l as [|a l IH]; [reflexivity|]. cbn [map]. rewrite ol_wn, lsum_cons. lia. Qed.
Lemma tl_ident i : tl (wt_ident i) = List.length (id_value i). Proof. reflexivity. Qed.
Lemma tl_on o : tl (wt_objname o) = lsum (fun i => List.length (id_value i)) (on_idents o) + (List.length (on_idents o) - 1).
Proof. unfold wt_objname. rewrite tl_sw, ol_idents. cbn [String.length]. lia. Qed.
Lemma tl_long v : tl (wt_long v) = List.length (format_int (lv_long v)). Proof. reflexivity. Qed.

(* ------------------------------------------------------------------ *)
(** ** Every token pays *)

Definition paid (P : lang) (n : nat) : Prop := forall ts, Forall tok_wf ts -> P ts -> n <= allowance ts.

Lemma allow_cons t a : allowance (t :: a) = 20 + List.length (written_for t) + allowance a.
Proof. reflexivity. Qed.
Lemma allow_nil : allowance [] = 0. Proof. reflexivity. Qed.
Lemma allow_app a b : allowance (a ++ b) = allowance a + allowance b.
Proof. induction a as [|t a IH]; [reflexivity|]. change ((t :: a) ++ b) with (t :: (a ++ b)). rewrite !allow_cons. rewrite IH. lia. Qed.

Lemma pd_less (P : lang) n m : paid P m -> n <= m -> paid P n.
Proof. intros H L ts W HP. specialize (H ts W HP). lia. Qed.
Lemma pd_cat (P Q : lang) n m : paid P n -> paid Q m -> paid (P >> Q) (n + m).
Proof.
  intros HP HQ ts W (u & v & -> & Hu & Hv). apply Forall_app in W as [W1 W2].
  specialize (HP u W1 Hu). specialize (HQ v W2 Hv). rewrite allow_app. lia.
Qed.
Lemma pd_zero (P : lang) : paid P 0. Proof. intros ts _ _. lia. Qed.
Lemma pd_tok f : paid (tok f) 20.
Proof. intros ts _ (t & -> & _). rewrite allow_cons. lia. Qed.
Lemma pd_alt (P Q : lang) n : paid P n -> paid Q n -> paid (P <|> Q) n.
Proof. intros HP HQ ts W [H|H]; auto. Qed.
Lemma pd_given (c : Prop) (P : lang) n : (c -> paid P n) -> paid (c ?? P) n.
Proof. intros H ts W [Hc HP]. exact (H Hc ts W HP). Qed.
Lemma pd_none n : paid none n. Proof. intros ts _ []. Qed.
Lemma pd_sep {A} (f : A -> lang) (g : A -> nat) k l : Forall (fun a => paid (f a) (g a)) l ->
  paid (sep_by (sym k) (map f l)) (lsum g l + 20 * (List.length l - 1)).
Proof.
  induction 1 as [|a l Ha Hl IH]; [apply pd_none|]. cbn [map sep_by]. destruct l as [|b l].
  - cbn [map]. rewrite lsum_one. eapply pd_less; [exact Ha|cbn; lia].
  - change (map f (b :: l)) with (f b :: map f l) in *. cbv iota.
    eapply pd_less; [apply pd_cat; [exact Ha|apply pd_cat; [apply pd_tok|exact IH]]|].
    rewrite lsum_cons. cbn [List.length]. lia.
Qed.
Lemma pd_many {A} (f : A -> lang) (g : A -> nat) l : Forall (fun a => paid (f a) (g a)) l ->
  paid (many (map f l)) (lsum g l).
Proof. induction 1 as [|a l Ha Hl IH]; [apply pd_zero|]. cbn [map many]. rewrite lsum_cons. now apply pd_cat. Qed.

Lemma word_kind t w : tok_wf t -> tval t = VWord w -> tkind t = SQLKeyword.
Proof. unfold tok_wf. intros W E. rewrite E in W. destruct (tkind t); try contradiction; auto. Qed.
Lemma pd_word i : paid (word i) (20 + List.length (id_value i)).
Proof.
  intros ts W (t & -> & w & V & ->). inversion W as [|? ? Wt _]; subst. rewrite allow_cons, allow_nil. cbn [id_value].
  unfold written_for. rewrite (word_kind _ _ Wt V), V. lia.
Qed.
Lemma pd_str k p q s : k = SingleQuotedString \/ k = NationalStringLiteral -> paid (str k p q s) (20 + List.length s).
Proof.
  intros K ts W (t & -> & E & V & _). rewrite allow_cons, allow_nil. unfold written_for. rewrite E, V.
  destruct K as [-> | ->]; lia.
Qed.
Lemma pd_double p q d : paid (tok (fun t => tkind t = Number /\ tfrom t = p /\ tto t = q /\
    exists s, tval t = VStr s /\ has_dot s = true /\ parse_float s = Some d)) (20 + List.length (format_float d)).
Proof.
  intros ts W (t & -> & K & _ & _ & s & V & Hd & Hf). rewrite allow_cons, allow_nil. unfold written_for. rewrite K, V.
  unfold has_dot in Hd. rewrite Hd, Hf. lia.
Qed.

(* ------------------------------------------------------------------ *)
(** ** Numbers *)

Lemma int_len z : (0 <= z <= max_int)%Z -> List.length (format_int z) <= 19.
Proof. intros H. apply format_int_len; [|lia]. unfold max_int in H. split; [lia|]. change (10 ^ Z.of_nat 19)%Z with 10000000000000000000%Z. lia. Qed.
Lemma atoi_bound s v : atoi s = AOk v \/ atoi s = ARange v -> (0 <= v <= max_int)%Z.
Proof.
  unfold atoi. destruct s as [|r s]; [intros [|]; discriminate|]. destruct (digits_val (r :: s)) as [w|] eqn:E; [|intros [|]; discriminate].
  apply digits_val_some in E as [D ->]. pose proof (dec_from_nonneg _ D 0 ltac:(lia)) as N. change (dec_from 0 (r :: s)) with (dec_val (r :: s)) in N.
  destruct (Z.leb_spec (dec_val (r :: s)) max_int); intros [H1|H1]; inversion H1; subst; unfold max_int in *; lia.
Qed.
Lemma pd_int z : paid (int z) (1 + List.length (format_int z)).
Proof.
  intros ts W (t & -> & K & s & V & A). rewrite allow_cons, allow_nil.
  pose proof (int_len z (atoi_bound s z (or_introl A))). lia.
Qed.
Lemma pd_long v : paid (long v) (1 + List.length (format_int (lv_long v))).
Proof.
  intros ts W (t & -> & K & _ & _ & s & V & _ & A). rewrite allow_cons, allow_nil.
  assert (0 <= lv_long v <= max_int)%Z.
  { rewrite A. destruct (atoi s) eqn:E; [apply (atoi_bound s); auto|apply (atoi_bound s); auto|unfold max_int; lia]. }
  pose proof (int_len _ H). lia.
Qed.
Lemma pd_long_int v : paid (long_int v) (1 + List.length (format_int (lv_long v))).
Proof.
  intros ts W (t & -> & K & _ & _ & s & V & A). rewrite allow_cons, allow_nil.
  pose proof (int_len _ (atoi_bound s _ (or_introl A))). lia.
Qed.

(* ------------------------------------------------------------------ *)
(** ** Every kind of node *)

Lemma pd_words k l : paid (sep_by (sym k) (map word l)) (lsum (fun i => List.length (id_value i)) l + 20 * (List.length l - 1) + 20 * List.length l).
Proof.
  eapply pd_less; [apply (pd_sep word (fun i => 20 + List.length (id_value i))); apply Forall_forall; intros; apply pd_word|].
  assert (E : lsum (fun i : ident => 20 + List.length (id_value i)) l = 20 * List.length l + lsum (fun i => List.length (id_value i)) l); [|lia].
  induction l as [|a l IH]; [reflexivity|]. rewrite !lsum_cons. cbn [List.length]. lia.
Qed.
Lemma pd_dots l : paid (dots l) (lsum (fun i => List.length (id_value i)) l + 20 * (List.length l - 1) + 20).
Proof. destruct l; [apply pd_none|]. eapply pd_less; [apply pd_words|cbn [List.length]; lia]. Qed.
Lemma pd_commas l : paid (words l) (lsum (fun i => List.length (id_value i)) l + 20 * (List.length l - 1) + 20).
Proof. destruct l; [apply pd_none|]. eapply pd_less; [apply pd_words|cbn [List.length]; lia]. Qed.
Lemma pd_name n : paid (name n) (tl (wt_objname n) + 20).
Proof. eapply pd_less; [apply pd_dots|]. rewrite tl_on. lia. Qed.
Lemma pd_name0 n : paid (name n) (tl (wt_objname n)).
Proof. eapply pd_less; [apply pd_name|lia]. Qed.
Lemma pd_parens P n : paid P n -> paid (parens P) (n + 40).
Proof. intros H. eapply pd_less; [apply pd_cat; [apply pd_tok|apply pd_cat; [exact H|apply pd_tok]]|lia]. Qed.
Lemma pd_parens_to P p n : paid P n -> paid (parens_to P p) (n + 40).
Proof. intros H. eapply pd_less; [apply pd_cat; [apply pd_tok|apply pd_cat; [exact H|apply pd_tok]]|lia]. Qed.
Lemma pd_alt_min (P Q : lang) n m : paid P n -> paid Q m -> paid (P <|> Q) (Nat.min n m).
Proof. intros HP HQ. apply pd_alt; eapply pd_less; eauto; lia. Qed.
Lemma pd_forall {A} (f : A -> lang) (g : A -> nat) l : (forall a, paid (f a) (g a)) -> Forall (fun a => paid (f a) (g a)) l.
Proof. intros H. apply Forall_forall. auto. Qed.
Lemma pd_kwds ks : paid (kwds ks) (20 * List.length ks).
Proof.
  unfold kwds. eapply pd_less; [apply (pd_many kwd (fun _ => 20)); apply pd_forall; intros; apply pd_tok|]. rewrite lsum_const. lia.
Qed.

Create HintDb pd.
Ltac pdh := fail.
Ltac pd :=
  lazymatch goal with
  | |- paid (cat _ _) _ => eapply pd_cat; pd
  | |- paid (alt (given (_ :: _ = []) _) _) _ => apply pd_alt; [apply pd_given; discriminate|pd]
  | |- paid (alt _ _) _ => eapply pd_alt_min; pd
  | |- paid (given _ _) _ => apply pd_given; intros _; pd
  | |- paid none _ => apply (pd_none 1000)
  | |- paid eps _ => apply pd_zero
  | |- paid (opt _) _ => apply pd_zero
  | |- paid (lost _ _ _) _ => apply pd_zero
  | |- paid any_tokens _ => apply pd_zero
  | |- paid (kwd _) _ => apply pd_tok
  | |- paid (kwd_from _ _) _ => apply pd_tok
  | |- paid (kwd_to _ _) _ => apply pd_tok
  | |- paid (kwd_at _ _ _) _ => apply pd_tok
  | |- paid (sym _) _ => apply pd_tok
  | |- paid (sym_from _ _) _ => apply pd_tok
  | |- paid (sym_to _ _) _ => apply pd_tok
  | |- paid (sym_at _ _ _) _ => apply pd_tok
  | |- paid (word _) _ => apply pd_word
  | |- paid (int _) _ => apply pd_int
  | |- paid (long _) _ => apply pd_long
  | |- paid (long_int _) _ => apply pd_long_int
  | |- paid (str _ _ _ _) _ => apply pd_str; tauto
  | |- paid (tok _) _ => first [apply pd_double | apply pd_tok]
  | |- paid (kwds _) _ => apply pd_kwds
  | |- paid (name _) _ => apply pd_name
  | |- paid (dots _) _ => apply pd_dots
  | |- paid (words _) _ => apply pd_commas
  | |- paid (parens _) _ => eapply pd_parens; pd
  | |- paid (parens_to _ _) _ => eapply pd_parens_to; pd
  | |- paid (clause _ (_ :: _) _) _ => unfold clause; pd
  | |- paid (clause _ [] _) _ => apply pd_zero
  | |- paid (sep_by _ (map _ _)) _ => first [eapply pd_sep; match goal with H : Forall _ ?l |- Forall _ ?l => exact H end | eapply pd_sep, pd_forall; intros; pdh]
  | |- paid (many (map _ _)) _ => first [solve [eauto with pd] | eapply pd_many; first [match goal with H : Forall _ ?l |- Forall _ ?l => exact H end | apply pd_forall; intros; pdh]]
  | |- paid (commas _ _) _ => unfold commas; pd
  | |- paid (table_alias _ _) _ => unfold table_alias; pd
  | |- paid (not_ _) _ => unfold not_; pd
  | |- paid (may (Some _) _) _ => cbn [may]; pd
  | |- paid (may None _) _ => apply pd_zero
  | |- paid (if _ then _ else _) _ => cbv iota; pd
  | |- paid (match [] with _ => _ end) _ => cbv iota; pd
  | |- paid (match _ :: _ with _ => _ end) _ => cbv iota; pd
  | |- paid (match Some _ with _ => _ end) _ => cbv iota beta; pd
  | |- paid (match None with _ => _ end) _ => cbv iota beta; pd
  | _ => first [eassumption | solve [eauto with pd] | apply pd_zero]
  end.
Ltac sums := unfold wif; cbn [is_nil negb andb orb]; cbv iota;
  repeat first [rewrite tl_sw | rewrite tl_single | rewrite tl_seq | rewrite tl_none | rewrite ol_nil | rewrite ol_app | rewrite ol_wl | rewrite ol_wint
  | rewrite ol_wb | rewrite ol_wn | rewrite ol_comma | rewrite ol_idents | rewrite ol_concat | rewrite ol_map | rewrite tl_ident | rewrite tl_long | rewrite len_gs];
  cbn [String.length List.length List.app]; rewrite ?lsum_nil.
Ltac pdl := eapply pd_less; [pd|sums; try lia].
Ltac opts :=
  repeat match goal with
  | H : opt_all _ ?o |- _ => destruct o; cbn [opt_all] in H
  | |- context [match ?o with Some _ => _ | None => _ end] => is_var o; destruct o
  | |- context [may ?o _] => is_var o; destruct o
  | |- context [match ?l with nil => _ | cons _ _ => _ end] => is_var l; destruct l
  | |- context [clause _ ?l _] => is_var l; destruct l
  | |- context [table_alias _ ?o] => is_var o; destruct o; unfold table_alias
  | |- context [if ?b then _ else _] => is_var b; destruct b
  | |- context [wif ?b _] => is_var b; destruct b
  | |- context [not_ ?b] => is_var b; destruct b; unfold not_
  | |- context [is_nil ?l] => is_var l; destruct l
  end.

Section Length.
  Variable L : defect -> Prop.

  Lemma pd_size n p : paid (size_to n p) (match n with None => 0 | Some z => 41 + List.length (format_int z) end).
  Proof. destruct n; cbn [size_to]; pdl. Qed.
  Lemma pd_unsigned u p : paid (unsigned u p) (if u then 20 else 0).
  Proof. destruct u; cbn [unsigned]; pdl. Qed.
  Lemma pd_zone b : paid (zone L b) (if b then 60 else 0).
  Proof. destruct b; cbn [zone]; pdl. Qed.
  Hint Resolve pd_size pd_unsigned pd_zone : pd.
  Lemma pd_dtype t : paid (reads_dtype L t) (tl (wt_dtype t)).
  Proof.
    destruct t; cbn [reads_dtype wt_dtype]; unfold type_with_len; opts; try apply pd_none; try solve [pdl].
    all: try (destruct t; try apply pd_none; cbn [wt_dtype]; solve [pdl]).
  Qed.
  Hint Resolve pd_dtype : pd.
  Lemma pd_operator o : paid (operator_tokens o) (tl (wt_operator o) + 12).
  Proof. unfold operator_tokens, wt_operator. destruct (op_type o); pdl. Qed.
  Lemma pd_prefix p o : paid (prefix_token p o) (tl (wt_operator o) + 17).
  Proof. unfold prefix_token, wt_operator. destruct (op_type o); pdl. Qed.
  Lemma pd_bound b : paid (reads_bound b) (tl (wt_wbound b)).
  Proof. destruct b; cbn [reads_bound wt_wbound]; pdl. Qed.
  Hint Resolve pd_operator pd_prefix pd_bound : pd.
  Lemma pd_unit u : paid (reads_unit u) (tl (wt_wframeunit u) + 14).
  Proof. unfold reads_unit, wt_wframeunit. destruct (wfu_type u); pdl. Qed.
  Hint Resolve pd_unit : pd.
  Lemma pd_frame f : paid (reads_frame f) (tl (wt_wframe f) + 13).
  Proof. unfold reads_frame, wt_wframe. destruct (wf_end f); pdl. Qed.
  Lemma pd_limit l : paid (reads_limit l) (tl (wt_limit l) - 6).
  Proof. unfold reads_limit, wt_limit. destruct (lim_value l), (lim_offset l); try solve [pdl]. intros ts W (_ & E & _). discriminate. Qed.
  Lemma pd_setop o : paid (reads_setop o) (tl (wt_setop o) + 11).
  Proof. destruct o; cbn [reads_setop wt_setop]; pdl. Qed.
  Lemma pd_jointype j : paid (reads_jointype j) (tl (wt_jointype j)).
  Proof. unfold reads_jointype, wt_jointype, jointype_string. destruct (jt_cond j); pdl. Qed.
  Hint Resolve pd_frame pd_limit pd_setop pd_jointype : pd.

  Lemma pd_ast :
    (forall e, paid (reads_node L e) (tl (wt_node e))) /\ (forall w, paid (reads_win L w) (tl (wt_winspec w))) /\
    (forall o, paid (reads_orderby L o) (tl (wt_orderby o))) /\ (forall q, paid (reads_query L q) (tl (wt_query q))) /\
    (forall c, paid (reads_cte L c) (tl (wt_cte c))) /\ (forall b, paid (reads_setexpr L b) (tl (wt_setexpr b))) /\
    (forall s, paid (reads_select L s) (tl (wt_select s))) /\ (forall i, paid (reads_selitem L i) (tl (wt_selitem i))) /\
    (forall t, paid (reads_tableref L t) (tl (wt_tableref t))) /\ (forall j, paid (reads_joinspec L j) (tl (wt_joinspec j))).
  Proof.
    apply (ast_ind (fun e => paid (reads_node L e) (tl (wt_node e))) (fun w => paid (reads_win L w) (tl (wt_winspec w)))
      (fun o => paid (reads_orderby L o) (tl (wt_orderby o))) (fun q => paid (reads_query L q) (tl (wt_query q)))
      (fun c => paid (reads_cte L c) (tl (wt_cte c))) (fun b => paid (reads_setexpr L b) (tl (wt_setexpr b)))
      (fun s => paid (reads_select L s) (tl (wt_select s))) (fun i => paid (reads_selitem L i) (tl (wt_selitem i)))
      (fun t => paid (reads_tableref L t) (tl (wt_tableref t))) (fun j => paid (reads_joinspec L j) (tl (wt_joinspec j)))); intros;
      first [rewrite reads_node_eq, wt_node_eq | rewrite reads_win_eq, wt_winspec_eq | rewrite reads_orderby_eq, wt_orderby_eq | rewrite reads_query_eq, wt_query_eq | rewrite reads_cte_eq, wt_cte_eq
            | rewrite reads_setexpr_eq, wt_setexpr_eq | rewrite reads_select_eq, wt_select_eq | rewrite reads_selitem_eq, wt_selitem_eq | rewrite reads_tableref_eq, wt_tableref_eq
            | rewrite reads_joinspec_eq, wt_joinspec_eq]; opts; try solve [pdl].
    all: try match goal with H : Forall _ ?bs |- paid (well_bound (ECase _ _ _ ?bs _) ?? _) _ =>
        assert (B : Forall (fun b => paid (kwd "WHEN" >> reads_node L (fst b) >> kwd "THEN" >> reads_node L (snd b))
                       ((fun a => ol ((fun p : node * node => let (c0, r) := p in [wl " WHEN "; WN (wt_node c0); wl " THEN "; WN (wt_node r)]) a)) b)) bs)
          by (eapply Forall_impl; [|exact H]; intros [x y] [Hx Hy]; cbn [fst snd] in *; pdl);
        clear H; pdl end.
  Qed.
  Definition pd_node := proj1 pd_ast.
  Definition pd_query := proj1 (proj2 (proj2 (proj2 pd_ast))).
  Hint Resolve pd_node pd_query : pd.
  Ltac pdh ::= exact (pd_node _).

  Lemma pd_row r : paid (reads_row L r) (tl (wt_row r)).
  Proof. unfold reads_row, wt_row. pdl. Qed.
  Hint Resolve pd_row : pd.
  Ltac pdh ::= first [exact (pd_node _) | exact (pd_row _)].
  Lemma pd_source s : paid (reads_source L s) (tl (wt_source s)).
  Proof. destruct s; cbn [reads_source wt_source]; pdl. Qed.
  Lemma pd_assign a : paid (reads_assign L a) (tl (wt_assign a)).
  Proof. unfold reads_assign, wt_assign. pdl. Qed.
  Hint Resolve pd_source pd_assign : pd.
  Ltac pdh ::= first [exact (pd_node _) | exact (pd_row _) | exact (pd_assign _)].
  Lemma pd_refkey k : paid (reads_refkey L k) (tl (wt_refkey k)).
  Proof. unfold reads_refkey, wt_refkey. destruct (rk_columns k); pdl. Qed.
  Hint Resolve pd_refkey : pd.
  Lemma pd_tcspec s : paid (reads_tcspec L s) (tl (wt_tcspec s)).
  Proof. destruct s as [[]| |]; cbn [reads_tcspec wt_tcspec]; pdl. Qed.
  Hint Resolve pd_tcspec : pd.
  Lemma pd_tcons c : paid (reads_tcons L c) (tl (wt_tableconstraint c)).
  Proof. unfold reads_tcons, wt_tableconstraint. destruct (tc_name c); pdl. Qed.
  Lemma pd_ccspec s : paid (reads_ccspec L s) (1 + tl (wt_ccspec s)).
  Proof. destruct s as [|[]| |]; cbn [reads_ccspec wt_ccspec]; pdl. Qed.
  Hint Resolve pd_tcons pd_ccspec : pd.
  Lemma pd_ccons c : paid (reads_ccons L c) (tl (wt_colconstraint c)).
  Proof. unfold reads_ccons, wt_colconstraint. destruct (cc_name c); pdl. Qed.
  Hint Resolve pd_ccons : pd.

  Lemma pd_colparts parts ts : Forall tok_wf ts -> many (map (reads_colpart L) parts) ts ->
    lsum (fun e => 9 + tl (wt_node e)) (defaults parts) + lsum (lsum (fun c => tl (wt_colconstraint c))) (groups parts)
      + 15 * List.length (decors parts) <= allowance ts.
  Proof.
    revert ts. induction parts as [|p parts IH]; intros ts W H; [cbn; lia|].
    cbn [map many] in H. destruct H as (u & v & -> & Hu & Hv). apply Forall_app in W as [W1 W2]. specialize (IH v W2 Hv). rewrite allow_app.
    unfold defaults, groups, decors in *. cbn [flat_map].
    destruct p as [e|l|d]; cbn [List.app] in *.
    - rewrite lsum_cons. assert (H : paid (reads_colpart L (CDefault e)) (9 + tl (wt_node e))) by (cbn [reads_colpart]; pdl). specialize (H u W1 Hu). lia.
    - rewrite lsum_cons. assert (H : paid (reads_colpart L (CConstraints l)) (lsum (fun c => tl (wt_colconstraint c)) l)).
      { cbn [reads_colpart]. apply pd_given; intros _. eapply pd_less; [apply pd_cat; [|apply pd_zero]|].
        - apply (pd_many _ (fun c => tl (wt_colconstraint c))), pd_forall. intros c. apply pd_ccons.
        - lia. }
      specialize (H u W1 Hu). lia.
    - cbn [List.length]. assert (H : paid (reads_colpart L (CDecor d)) 15) by (cbn [reads_colpart]; unfold reads_decor; pdl). specialize (H u W1 Hu). lia.
  Qed.
  Lemma pd_columndef c : paid (reads_columndef L c) (tl (wt_columndef c)).
  Proof.
    unfold reads_columndef. eapply pd_less.
    - apply pd_cat; [apply pd_word|]. apply pd_cat; [apply pd_dtype|].
      instantiate (1 := osum (fun e => 9 + tl (wt_node e)) (cd_default c) + lsum (fun c => tl (wt_colconstraint c)) (cd_constraints c) + 15 * List.length (cd_decorations c)).
      intros ts W (parts & H & [Hd _] & (g & [Hg _] & Hc) & He & _). apply pd_colparts in H; [|exact W]. rewrite <- He, Hd.
      pose proof (hd_rev_le (fun e => 9 + tl (wt_node e)) (defaults parts)).
      pose proof (hd_rev_le (lsum (fun c => tl (wt_colconstraint c))) (groups parts)) as H1. rewrite <- Hg in H1.
      assert (H2 : lsum (fun c => tl (wt_colconstraint c)) (cd_constraints c) = osum (lsum (fun c => tl (wt_colconstraint c))) g) by (rewrite Hc; destruct g; reflexivity). lia.
    - unfold wt_columndef. assert (E : lsum (fun a : decoration => 1 + (14 + 0)) (cd_decorations c) = 15 * List.length (cd_decorations c)) by apply lsum_const.
      destruct (cd_default c); sums; cbn [osum]; unfold wt_decoration; sums; change (lsum _ (cd_decorations c)) with (lsum (fun a : decoration => 1 + (14 + 0)) (cd_decorations c)); lia.
  Qed.
  Hint Resolve pd_columndef : pd.
  Lemma pd_element e : paid (reads_element L e) (tl (wt_tableelement e)).
  Proof. destruct e; cbn [reads_element wt_tableelement]; pdl. Qed.
  Lemma pd_option o : paid (reads_option o) (tl (wt_tableoption o) + 2).
  Proof. destruct o; cbn [reads_option wt_tableoption]; unfold option_value; opts; pdl. Qed.
  Lemma pd_colaction a : paid (reads_colaction L a) (tl (wt_altercol a)).
  Proof. destruct a; cbn [reads_colaction wt_altercol]; pdl. Qed.
  Hint Resolve pd_element pd_option pd_colaction : pd.
  Ltac pdh ::= first [exact (pd_node _) | exact (pd_row _) | exact (pd_assign _) | exact (pd_element _) | exact (pd_name0 _)].
  Lemma pd_action a : paid (reads_action L a) (tl (wt_altertable a)).
  Proof. destruct a; cbn [reads_action wt_altertable]; unfold Grammar.cascade; opts; pdl. Qed.
  Hint Resolve pd_action : pd.
  Lemma pd_options l : paid (many (map reads_option l)) (lsum (fun o => tl (wt_tableoption o)) l + 2 * List.length l).
  Proof.
    eapply pd_less; [apply (pd_many _ (fun o => tl (wt_tableoption o) + 2)), pd_forall; intros; apply pd_option|].
    induction l as [|a l IH]; [cbn; lia|]. rewrite !lsum_cons. cbn [List.length]. lia.
  Qed.
  Hint Resolve pd_name pd_options : pd.
  Lemma pd_stmt s : paid (reads_stmt L s) (tl (wt_stmt s)).
  Proof.
    induction s; cbn [reads_stmt wt_stmt]; unfold where_clause, Grammar.cascade; opts; try solve [pdl].
  Qed.
End Length.
