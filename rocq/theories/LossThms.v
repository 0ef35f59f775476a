(** Texts without the places of LossSpec.v are read without loss. *)
From Coq Require Import ZArith List Bool String Lia.
From Verif Require Import Base Dialect Token Lexer LexSpec AST AstInd Num Nodes Prog Parser ParseSpec Grammar Sound SrcThms GrammarThms LossSpec.
Import ListNotations.
Open Scope list_scope.
Open Scope nat_scope.

Lemma nb_app k u v : nb k (u ++ v) = nb k u + nb k v.
Proof. induction u as [|t u IH]; cbn [nb app]; [reflexivity|]. rewrite IH. lia. Qed.

Lemma soon_mono (Q : token -> list token -> Prop) v : (forall t r, Q t r -> Q t (r ++ v)) ->
  forall ts n, soon Q n ts -> soon Q n (ts ++ v).
Proof.
  intros H ts. induction ts as [|t r IH]; intros n K; [destruct K|]. cbn [soon app] in *. destruct K as [[E K]|K]; [left; auto|]. right.
  destruct (tkind t), n; auto.
Qed.
Lemma hazard_mono d t b v : d = LostConstraints \/ d = LostDefault \/ d = LostComma -> hazard d t b -> hazard d t (b ++ v).
Proof.
  intros [-> | [-> | ->]]; cbn [hazard]; intros [H1 H2]; (split; [exact H1|]);
    [|eapply soon_mono; [|exact H2]; auto|destruct b; [destruct H2|exact H2]].
  eapply soon_mono; [|exact H2]. intros x r [K1 K2]. split; [exact K1|]. eapply soon_mono; [|exact K2]. auto.
Qed.

Definition quiet (ts : list token) : Prop :=
  forall a t b d, ts = a ++ t :: b -> d = LostConstraints \/ d = LostDefault \/ d = LostComma -> ~ hazard d t b.
Lemma quiet_app u v : quiet (u ++ v) -> quiet u /\ quiet v.
Proof.
  intros Q. split; intros a t b d -> Hd H.
  - apply (Q a t (b ++ v) d); [rewrite <- app_assoc; reflexivity|exact Hd|]. apply hazard_mono; assumption.
  - apply (Q (u ++ a) t b d); [rewrite <- app_assoc; reflexivity|exact Hd|exact H].
Qed.

(** [P] becomes [P'] where the parentheses balance and there is no hazard; such a
    text does not hide what comes after it ([o]: it has no comma outside of
    parentheses). *)
Definition clear_of (o : bool) (ts : list token) : Prop :=
  forall Q n r, o = true \/ n <> 0 -> soon Q n r -> soon Q n (ts ++ r).
Definition rel (o : bool) (P P' : lang) : Prop := forall ts, Forall tok_wf ts -> P ts ->
  nb RParen ts <= nb LParen ts /\
  (nb LParen ts <= nb RParen ts -> quiet ts -> P' ts /\ clear_of o ts).

Lemma rel_weak o P P' : rel true P P' -> rel o P P'.
Proof.
  intros H ts W K. destruct (H ts W K) as [H1 H2]. split; [exact H1|]. intros B Q. destruct (H2 B Q) as [H3 H4].
  split; [exact H3|]. intros X n r _ S. apply H4; auto.
Qed.
Lemma rel_conseq o (P P1 P' P1' : lang) : (forall ts, P1 ts -> P ts) -> (forall ts, P' ts -> P1' ts) -> rel o P P' -> rel o P1 P1'.
Proof.
  intros A B H ts W K. destruct (H ts W (A _ K)) as [H1 H2]. split; [exact H1|]. intros C Q. destruct (H2 C Q). auto.
Qed.
Lemma rel_cat o (P P' Q Q' : lang) : rel o P P' -> rel o Q Q' -> rel o (P >> Q) (P' >> Q').
Proof.
  intros HP HQ ts W (u & v & -> & Hu & Hv). apply Forall_app in W. destruct W as [W1 W2].
  destruct (HP u W1 Hu) as [A1 A2], (HQ v W2 Hv) as [B1 B2]. rewrite !nb_app. split; [lia|].
  intros C K. apply quiet_app in K. destruct K as [K1 K2].
  destruct (A2 ltac:(lia) K1) as [A3 A4], (B2 ltac:(lia) K2) as [B3 B4]. split; [exists u, v; auto|].
  intros X n r Hn S. rewrite <- app_assoc. apply A4, B4; auto.
Qed.
Lemma rel_alt o (P P' Q Q' : lang) : rel o P P' -> rel o Q Q' -> rel o (P <|> Q) (P' <|> Q').
Proof.
  intros HP HQ ts W [H|H]; [destruct (HP ts W H) as [A1 A2]|destruct (HQ ts W H) as [A1 A2]]; (split; [exact A1|]);
    intros C K; destruct (A2 C K); split; auto; [left|right]; auto.
Qed.
Lemma rel_given o (c c' : Prop) (P P' : lang) : (c -> c') -> (c -> rel o P P') -> rel o (c ?? P) (c' ?? P').
Proof.
  intros HC HP ts W [H0 H]. destruct (HP H0 ts W H) as [A1 A2]. split; [exact A1|]. intros C K. destruct (A2 C K).
  split; [split; auto|auto].
Qed.
Lemma rel_none o (P' : lang) : rel o none P'.
Proof. intros ts W []. Qed.
Lemma rel_eps o : rel o eps eps.
Proof. intros ts W ->. split; [cbn; lia|]. intros _ _. split; [reflexivity|]. intros X n r _ S. exact S. Qed.

Definition plain (t : token) : Prop := match tkind t with LParen | RParen | Comma => False | _ => True end.
Lemma rel_tok o (f : token -> Prop) : (forall t, tok_wf t -> f t -> plain t) -> rel o (tok f) (tok f).
Proof.
  intros H ts W (t & -> & Ht). inversion_clear W. assert (K : plain t) by auto. unfold plain in K.
  split; [cbn [nb]; destruct (tkind t); cbn; lia || contradiction|]. intros _ _. split; [exists t; auto|].
  intros X n r _ S. cbn [app soon]. right. destruct (tkind t); try contradiction; exact S.
Qed.
Lemma wf_word t w : tok_wf t -> tval t = VWord w -> tkind t = SQLKeyword.
Proof. unfold tok_wf. intros H V. rewrite V in H. destruct (tkind t); try contradiction; reflexivity. Qed.
Lemma plain_spells s t : tok_wf t -> spells s t -> plain t.
Proof. intros W (w & V & _). unfold plain. rewrite (wf_word t w W V). exact I. Qed.
Lemma plain_kind k t : tkind t = k -> match k with LParen | RParen | Comma => False | _ => True end -> plain t.
Proof. unfold plain. intros ->. auto. Qed.
Lemma rel_comma : rel false (sym Comma) (sym Comma).
Proof.
  intros ts W (t & -> & Ht). cbn [nb]. rewrite Ht. cbn. split; [lia|]. intros _ _. split; [exists t; auto|].
  intros X [|n] r [Hn|Hn] S; try discriminate; try congruence. cbn [app soon]. rewrite Ht. right. exact S.
Qed.
Lemma rel_enclosed o (f g : token -> Prop) (P P' : lang) :
  (forall t, f t -> tkind t = LParen) -> (forall t, g t -> tkind t = RParen) ->
  rel false P P' -> rel o (tok f >> P >> tok g) (tok f >> P' >> tok g).
Proof.
  intros Hf Hg HP ts W (u & v & -> & (t & -> & Ft) & x & y & -> & Hx & (z & -> & Gz)).
  apply Forall_app in W. destruct W as [_ W]. apply Forall_app in W. destruct W as [W _].
  destruct (HP x W Hx) as [A1 A2]. rewrite !nb_app. cbn [nb app]. rewrite (Hf t Ft), (Hg z Gz). cbn [kind_eqb].
  split; [lia|]. intros C K. change (t :: x ++ [z]) with ([t] ++ x ++ [z]) in K. apply quiet_app in K. destruct K as [_ K]. apply quiet_app in K. destruct K as [K _].
  destruct (A2 ltac:(lia) K) as [A3 A4]. split.
  - exists [t], (x ++ [z]). split; [reflexivity|]. split; [exists t; auto|]. exists x, [z]. split; [reflexivity|]. split; [exact A3|exists z; auto].
  - intros X n r _ S. cbn [app soon]. right. rewrite (Hf t Ft). rewrite <- app_assoc. apply A4; [auto|]. cbn [app soon]. right.
    rewrite (Hg z Gz). exact S.
Qed.
(** Without its closing parenthesis. *)
Lemma rel_open o (c : Prop) (P P' X Y : lang) : rel o P P' -> rel false X Y ->
  rel o (P <|> (c ?? sym LParen >> X)) P'.
Proof.
  intros HP HX ts W [H|[_ (u & v & -> & (t & -> & Ht) & Hv)]]; [exact (HP ts W H)|].
  apply Forall_app in W. destruct W as [_ W]. destruct (HX v W Hv) as [A1 _]. cbn [app nb]. rewrite Ht. cbn [kind_eqb].
  split; [lia|]. intros C. lia.
Qed.
Lemma rel_opt o (P P' : lang) : rel o P P' -> rel o (opt P) (opt P').
Proof. apply rel_alt, rel_eps. Qed.
Lemma rel_absent o (c c' : Prop) (P P' : lang) : ~ c -> rel o (opt (c ?? P)) (opt (c' ?? P')).
Proof.
  intros N. apply rel_alt; [apply rel_eps|]. intros ts W [H _]. contradiction.
Qed.
Lemma rel_many {A} o (f g : A -> lang) l : Forall (fun a => rel o (f a) (g a)) l -> rel o (many (map f l)) (many (map g l)).
Proof. induction 1; cbn [map many]; [apply rel_eps|]. apply rel_cat; assumption. Qed.
Lemma rel_sep {A} o (s : lang) (f g : A -> lang) l : rel o s s -> Forall (fun a => rel o (f a) (g a)) l ->
  rel o (sep_by s (map f l)) (sep_by s (map g l)).
Proof.
  intros HS. induction 1 as [|a l Ha Hl IH]; cbn [map sep_by]; [apply rel_none|]. destruct l as [|b l]; [exact Ha|].
  apply rel_cat; [exact Ha|]. apply rel_cat; [exact HS|exact IH].
Qed.
Lemma rel_all {A} o (f g : A -> lang) l : (forall a, rel o (f a) (g a)) -> Forall (fun a => rel o (f a) (g a)) l.
Proof. intros H. apply Forall_forall. auto. Qed.
Lemma rel_word o i : rel o (word i) (word i).
Proof. apply rel_tok. intros t W (w & V & _). unfold plain. rewrite (wf_word t w W V). exact I. Qed.
Lemma rel_sym o k : match k with LParen | RParen | Comma => False | _ => True end -> rel o (sym k) (sym k).
Proof. intros K. apply rel_tok. intros t _ H. eapply plain_kind; eauto. Qed.
Lemma rel_dots o l : rel o (dots l) (dots l).
Proof. apply rel_sep; [apply rel_sym; exact I|]. apply rel_all, rel_word. Qed.
Lemma rel_words l : rel false (words l) (words l).
Proof. apply rel_sep; [apply rel_comma|]. apply rel_all, rel_word. Qed.
Lemma rel_name o n : rel o (name n) (name n). Proof. apply rel_dots. Qed.
Lemma rel_kwds o ks : rel o (kwds ks) (kwds ks).
Proof. apply rel_many, rel_all. intros s. apply rel_tok. intros t W H. eapply plain_spells; eauto. Qed.
Lemma rel_parens o P P' : rel false P P' -> rel o (parens P) (parens P').
Proof. apply rel_enclosed; auto. Qed.
Lemma rel_parens_to o P P' p : rel false P P' -> rel o (parens_to P p) (parens_to P' p).
Proof. apply rel_enclosed; [auto|]. intros t []. assumption. Qed.
Lemma rel_nested o P P' p q : rel false P P' -> rel o (sym_from LParen p >> P >> sym_to RParen q) (sym_from LParen p >> P' >> sym_to RParen q).
Proof. apply rel_enclosed; intros t []; assumption. Qed.

Lemma cat_assoc (P Q R : lang) ts : ((P >> Q) >> R) ts <-> (P >> Q >> R) ts.
Proof.
  split.
  - intros (u & v & -> & (a & b & -> & HP & HQ) & HR). exists a, (b ++ v). rewrite app_assoc. repeat split; auto. exists b, v. auto.
  - intros (u & v & -> & HP & a & b & -> & HQ & HR). exists (u ++ a), b. rewrite app_assoc. repeat split; auto. exists u, a. auto.
Qed.
Lemma cat_mono (P Q R : lang) : (forall ts, P ts -> Q ts) -> forall ts, (R >> P) ts -> (R >> Q) ts.
Proof. intros H ts (u & v & -> & HR & HP). exists u, v. auto. Qed.

Create HintDb rl.
Ltac plainly :=
  apply rel_tok; intros ? ? ?;
  repeat match goal with H : _ /\ _ |- _ => destruct H end;
  first [ eapply plain_spells; eassumption | eapply plain_kind; [eassumption|exact I] ].
Ltac rl :=
  cbv beta iota;
  lazymatch goal with
  | |- rel _ (sym_from LParen _ >> _ >> sym_to RParen _) _ => apply rel_nested; rl
  | |- rel _ (cat _ _) _ => apply rel_cat; rl
  | |- rel _ (opt (given _ _)) _ => apply rel_absent; assumption
  | |- rel _ (lost _ _ _) _ => apply rel_absent; assumption
  | |- rel _ (opt _) _ => apply rel_opt; rl
  | |- rel _ (alt _ _) _ => apply rel_alt; rl
  | |- rel _ (given _ _) _ => apply rel_given; [first [tauto|auto]|intros; rl]
  | |- rel _ none _ => apply rel_none
  | |- rel _ eps _ => apply rel_eps
  | |- rel _ (kwds _) _ => apply rel_kwds
  | |- rel _ (name _) _ => apply rel_name
  | |- rel _ (dots _) _ => apply rel_dots
  | |- rel _ (words _) _ => apply rel_words
  | |- rel _ (word _) _ => apply rel_word
  | |- rel _ (sym Comma) _ => apply rel_comma
  | |- rel _ (parens _) _ => apply rel_parens; rl
  | |- rel _ (parens_to _ _) _ => apply rel_parens_to; rl
  | |- rel _ (tok _) _ => plainly
  | |- rel _ (kwd _) _ => plainly
  | |- rel _ (kwd_from _ _) _ => plainly
  | |- rel _ (kwd_to _ _) _ => plainly
  | |- rel _ (kwd_at _ _ _) _ => plainly
  | |- rel _ (sym _) _ => plainly
  | |- rel _ (sym_from _ _) _ => plainly
  | |- rel _ (sym_to _ _) _ => plainly
  | |- rel _ (sym_at _ _ _) _ => plainly
  | |- rel _ (int _) _ => plainly
  | |- rel _ (long _) _ => plainly
  | |- rel _ (long_int _) _ => plainly
  | |- rel _ (str _ _ _ _) _ => plainly
  | |- rel _ (clause _ _ _) _ => unfold clause; rl
  | |- rel _ (commas _ _) _ => unfold commas; rl
  | |- rel _ (sep_by _ (map _ _)) _ => apply rel_sep; [rl|first [assumption | apply rel_all; intros; solve [eauto with rl] | eapply Forall_impl; [|eassumption]; cbv beta; intros; solve [eauto using rel_weak with rl]]]
  | |- rel _ (many (map _ _)) _ => apply rel_many; first [assumption | apply rel_all; intros; solve [eauto with rl]]
  | |- rel _ (may (Some _) _) _ => cbn [may]; rl
  | |- rel _ (may None _) _ => cbn [may]; rl
  | |- rel _ (may ?o _) _ => destruct o; cbn [may]; rl
  | |- rel _ (if ?b then _ else _) _ => destruct b; rl
  | |- rel _ (match ?l with nil => _ | cons _ _ => _ end) _ => destruct l; rl
  | |- rel _ (match ?l with Some _ => _ | None => _ end) _ => destruct l; rl
  | _ => first [eassumption | solve [eauto with rl] | solve [eauto using rel_weak with rl] | idtac]
  end.

Section Loss.
  Variable L : defect -> Prop.
  Hypothesis HL : forall d, L d -> d = OpenArgs \/ d = LostComma \/ d = LostConstraints \/ d = LostDefault.
  Definition nothing : defect -> Prop := fun _ => False.
  Lemma no_joins : ~ L LostJoins. Proof. intros H. apply HL in H. intuition discriminate. Qed.
  Lemma no_mat : ~ L LostMaterialized. Proof. intros H. apply HL in H. intuition discriminate. Qed.
  Lemma no_tz : ~ L LostTimeZone. Proof. intros H. apply HL in H. intuition discriminate. Qed.
  Lemma no_sel : ~ L LostSelect. Proof. intros H. apply HL in H. intuition discriminate. Qed.
  Lemma no_as : ~ L LostAs. Proof. intros H. apply HL in H. intuition discriminate. Qed.
  Lemma no_idx : ~ L LostIndex. Proof. intros H. apply HL in H. intuition discriminate. Qed.
  Lemma no_cols : ~ L LostColumns. Proof. intros H. apply HL in H. intuition discriminate. Qed.
  Lemma no_name : ~ L LostName. Proof. intros H. apply HL in H. intuition discriminate. Qed.

  Ltac setup := pose proof no_joins; pose proof no_mat; pose proof no_tz; pose proof no_sel; pose proof no_as; pose proof no_idx;
    pose proof no_cols; pose proof no_name.

  Lemma rel_dtype o t : rel o (reads_dtype L t) (reads_dtype nothing t).
  Proof.
    setup. destruct t; cbn [reads_dtype]; unfold size_to, Grammar.unsigned, Grammar.zone; try solve [rl].
    destruct t; rl.
  Qed.
  Hint Resolve rel_dtype : rl.
  Lemma rel_operator o x : rel o (operator_tokens x) (operator_tokens x).
  Proof. unfold operator_tokens. destruct (op_type x); rl. Qed.
  Lemma rel_prefix o p x : rel o (prefix_token p x) (prefix_token p x).
  Proof. unfold prefix_token. destruct (op_type x); rl. Qed.
  Hint Resolve rel_operator rel_prefix : rl.
  Lemma rel_bound o b : rel o (reads_bound b) (reads_bound b).
  Proof. destruct b; cbn [reads_bound]; rl. Qed.
  Hint Resolve rel_bound : rl.
  Lemma rel_frame o f : rel o (reads_frame f) (reads_frame f).
  Proof. unfold reads_frame, reads_unit. destruct (wf_end f); rl. Qed.
  Lemma rel_limit o l : rel o (reads_limit l) (reads_limit l).
  Proof. unfold reads_limit. destruct (lim_value l); rl. Qed.
  Lemma rel_setop o x : rel o (reads_setop x) (reads_setop x).
  Proof. destruct x; cbn [reads_setop]; rl. Qed.
  Lemma rel_jointype o j : rel o (reads_jointype j) (reads_jointype j).
  Proof. unfold reads_jointype. destruct (jt_cond j); rl. Qed.
  Lemma rel_alias o a : rel o (table_alias L a) (table_alias nothing a).
  Proof. setup. unfold table_alias. destruct a; rl. Qed.
  Hint Resolve rel_frame rel_limit rel_setop rel_jointype rel_alias : rl.

  Ltac opts :=
    repeat match goal with
    | H : opt_all _ ?o |- _ => destruct o; cbn [opt_all] in H
    end.

  Lemma rel_ast :
    (forall e, rel true (reads_node L e) (reads_node nothing e)) /\ (forall w, rel false (reads_win L w) (reads_win nothing w)) /\
    (forall o, rel false (reads_orderby L o) (reads_orderby nothing o)) /\ (forall q, rel false (reads_query L q) (reads_query nothing q)) /\
    (forall c, rel false (reads_cte L c) (reads_cte nothing c)) /\ (forall b, rel false (reads_setexpr L b) (reads_setexpr nothing b)) /\
    (forall s, rel false (reads_select L s) (reads_select nothing s)) /\ (forall i, rel false (reads_selitem L i) (reads_selitem nothing i)) /\
    (forall t, rel false (reads_tableref L t) (reads_tableref nothing t)) /\ (forall j, rel false (reads_joinspec L j) (reads_joinspec nothing j)).
  Proof.
    setup.
    apply (ast_ind (fun e => rel true (reads_node L e) (reads_node nothing e)) (fun w => rel false (reads_win L w) (reads_win nothing w))
      (fun o => rel false (reads_orderby L o) (reads_orderby nothing o)) (fun q => rel false (reads_query L q) (reads_query nothing q))
      (fun c => rel false (reads_cte L c) (reads_cte nothing c)) (fun b => rel false (reads_setexpr L b) (reads_setexpr nothing b))
      (fun s => rel false (reads_select L s) (reads_select nothing s)) (fun i => rel false (reads_selitem L i) (reads_selitem nothing i))
      (fun t => rel false (reads_tableref L t) (reads_tableref nothing t)) (fun j => rel false (reads_joinspec L j) (reads_joinspec nothing j))); intros;
      first [rewrite (reads_node_eq L), (reads_node_eq nothing) | rewrite (reads_win_eq L), (reads_win_eq nothing) | rewrite (reads_orderby_eq L), (reads_orderby_eq nothing) | rewrite (reads_query_eq L), (reads_query_eq nothing) | rewrite (reads_cte_eq L), (reads_cte_eq nothing)
            | rewrite (reads_setexpr_eq L), (reads_setexpr_eq nothing) | rewrite (reads_select_eq L), (reads_select_eq nothing) | rewrite (reads_selitem_eq L), (reads_selitem_eq nothing) | rewrite (reads_tableref_eq L), (reads_tableref_eq nothing)
            | rewrite (reads_joinspec_eq L), (reads_joinspec_eq nothing)]; opts; unfold not_; try solve [rl].
    1-4: apply rel_given; [auto|]; intros _; apply rel_cat; [rl|]; apply rel_cat; [rl|]; apply rel_cat; [|rl];
      apply rel_given; [auto|]; intros _; apply rel_many;
      eapply Forall_impl; [|eassumption]; cbv beta; intros [x y] [Hx Hy]; cbn [fst snd] in *; rl.
    - apply rel_given; [auto|]. intros _. eapply rel_conseq; [| |apply (rel_nested true (lost L LostSelect (kwd "SELECT") >> reads_query L q)
        (lost nothing LostSelect (kwd "SELECT") >> reads_query nothing q))]; [| |rl].
      + apply cat_mono. intros ts. apply cat_assoc.
      + apply cat_mono. intros ts. apply cat_assoc.
    - apply rel_given; [auto|]. intros _. apply rel_cat; [rl|]. apply rel_cat; [|rl].
      eapply rel_conseq; [intros ts K; exact K|intros ts K; left; exact K|].
      apply (rel_open false (L OpenArgs) (args = [] ?? eps) (args = [] ?? eps) _
               match args with [] => eps | _ => sep_by (sym Comma) (map (reads_node nothing) args) end); rl.
  Qed.
  Lemma rel_node o e : rel o (reads_node L e) (reads_node nothing e).
  Proof. apply rel_weak, rel_ast. Qed.
  Lemma rel_query q : rel false (reads_query L q) (reads_query nothing q).
  Proof. apply rel_ast. Qed.
  Hint Resolve rel_name rel_node rel_query : rl.

  (* ---------------------------------------------------------------- *)
  (** ** Columns *)

  Definition starts (u : list token) : Prop :=
    exists t u', u = t :: u' /\ opens_constraint t /\ plain t /\ clear_of true u'.
  Definition rels (P P' : lang) : Prop := rel true P (fun u => P' u /\ starts u).
  Lemma clear_app o u v : clear_of o u -> clear_of o v -> clear_of o (u ++ v).
  Proof. intros Hu Hv Q n r Hn K. rewrite <- app_assoc. auto. Qed.
  Lemma clear_nil o : clear_of o []. Proof. intros Q n r _ K. exact K. Qed.
  Lemma clear_plain o t u : plain t -> clear_of o u -> clear_of o (t :: u).
  Proof.
    intros Hp Hu Q n r Hn K. cbn [app soon]. right. unfold plain in Hp. destruct (tkind t); try contradiction; apply Hu; auto.
  Qed.
  Lemma rels_cat P P' Q Q' : rels P P' -> rel true Q Q' -> rels (P >> Q) (P' >> Q').
  Proof.
    intros HP HQ ts W (u & v & -> & Hu & Hv). apply Forall_app in W. destruct W as [W1 W2].
    destruct (HP u W1 Hu) as [A1 A2], (HQ v W2 Hv) as [B1 B2]. rewrite !nb_app. split; [lia|].
    intros C K. apply quiet_app in K. destruct K as [K1 K2].
    destruct (A2 ltac:(lia) K1) as [[A3 (t & u' & -> & O & Pt & Cu)] A4], (B2 ltac:(lia) K2) as [B3 B4].
    split; [|now apply clear_app]. split; [exists (t :: u'), v; auto|]. exists t, (u' ++ v). repeat split; auto. now apply clear_app.
  Qed.
  Lemma rels_given (c c' : Prop) P P' : (c -> c') -> rels P P' -> rels (c ?? P) (c' ?? P').
  Proof.
    intros HC HP ts W [H0 H]. destruct (HP ts W H) as [A1 A2]. split; [exact A1|]. intros C K. destruct (A2 C K) as [[A3 A4] A5].
    split; [split; [split; auto|auto]|auto].
  Qed.
  Lemma rels_tok (f : token -> Prop) s : In s ("CONSTRAINT"%string :: constraint_words) -> (forall t, f t -> spells s t) -> rels (tok f) (tok f).
  Proof.
    intros I H ts W (t & -> & Ht). inversion_clear W. assert (Hp : plain t) by (eapply plain_spells; eauto).
    destruct (rel_tok true f) with (ts := [t]) as [A1 A2]; [intros; eapply plain_spells; eauto|auto|exists t; auto|].
    split; [exact A1|]. intros C K. destruct (A2 C K) as [A3 A4]. split; [|exact A4]. split; [exact A3|].
    exists t, []. repeat split; auto; [exists s; auto|apply clear_nil].
  Qed.
  Ltac starting s := first [apply rels_cat; [apply (rels_tok _ s); [cbn; tauto|intros ? Hs; first [exact Hs|destruct Hs; assumption]]|rl]
                           | apply (rels_tok _ s); [cbn; tauto|intros ? Hs; first [exact Hs|destruct Hs; assumption]]].
  Lemma rels_ccspec s : rels (reads_ccspec L s) (reads_ccspec nothing s).
  Proof.
    destruct s; cbn [reads_ccspec]; [starting "NOT"%string| |starting "REFERENCES"%string|starting "CHECK"%string].
    destruct is_primary; (apply rels_given; [auto|]); [starting "PRIMARY"%string|starting "UNIQUE"%string].
  Qed.
  Lemma rel_of_rels P P' : rels P P' -> rel true P P'.
  Proof. intros H. eapply rel_conseq; [| |exact H]; [auto|]. intros ts K. apply K. Qed.
  Lemma rels_ccons c : rels (reads_ccons L c) (reads_ccons nothing c).
  Proof.
    unfold reads_ccons. apply rels_given; [auto|]. destruct (cc_name c); cbn [may].
    - apply rels_cat; [starting "CONSTRAINT"%string|apply rel_of_rels, rels_ccspec].
    - intros ts W (u & v & -> & -> & Hv). cbn [app]. destruct (rels_ccspec (cc_spec c) v W Hv) as [A1 A2]. split; [exact A1|].
      intros C K. destruct (A2 C K) as [[A3 A4] A5]. split; [split; [|exact A4]|exact A5]. exists [], v. repeat split; auto.
  Qed.
  Lemma rel_ccons c : rel true (reads_ccons L c) (reads_ccons nothing c).
  Proof. apply rel_of_rels, rels_ccons. Qed.

  (** The tokens of one part of a column. *)
  Definition part_text (p : colpart) (u : list token) : Prop :=
    match p with
    | CDefault _ => exists t u', u = t :: u' /\ spells "DEFAULT" t /\ plain t /\ clear_of true u'
    | CConstraints _ => starts u
    | CDecor _ => exists t u', u = t :: u' /\ spells "AUTO_INCREMENT" t /\ plain t /\ clear_of true u'
    end.
  Lemma part_clear p u : part_text p u -> clear_of true u.
  Proof. destruct p; intros (t & u' & -> & _ & Hp & Hc); now apply clear_plain. Qed.

  Lemma rel_colpart p : rel true (reads_colpart L p) (fun u => reads_colpart nothing p u /\ part_text p u).
  Proof.
    destruct p as [e|l|d]; cbn [reads_colpart].
    - intros ts W (u & v & -> & (t & -> & Ht) & Hv). inversion W as [|? ? Wt Wv]; subst.
      assert (Hp : plain t) by (eapply plain_spells; eauto). destruct (rel_node true e v Wv Hv) as [A1 A2].
      cbn [app nb]. assert (NR : kind_eqb (tkind t) RParen = false /\ kind_eqb (tkind t) LParen = false) by (unfold plain in Hp; destruct (tkind t); auto; contradiction).
      destruct NR as [-> ->]. cbn [Nat.add]. split; [exact A1|]. intros C K. change (t :: v) with ([t] ++ v) in K. apply quiet_app in K. destruct K as [_ K].
      destruct (A2 C K) as [A3 A4]. split; [|now apply clear_plain]. split; [exists [t], v; repeat split; auto; exists t; auto|].
      exists t, v. auto.
    - destruct l as [|c l].
      + intros ts W [N _]. destruct (no_name (N eq_refl)).
      + intros ts W [_ (u & v & -> & (a & b & -> & Ha & Hb) & Hv)].
        assert (Hv' : v = []) by (destruct Hv as [Hv|[Hv _]]; [exact Hv|destruct (no_name Hv)]). subst v. rewrite app_nil_r in *.
        assert (R : rels (reads_ccons L c >> many (map (reads_ccons L) l)) (reads_ccons nothing c >> many (map (reads_ccons nothing) l))).
        { apply rels_cat; [apply rels_ccons|]. apply rel_many, rel_all, rel_ccons. }
        destruct (R (a ++ b) W) as [A1 A2]; [exists a, b; auto|]. split; [exact A1|]. intros C K. destruct (A2 C K) as [[A3 A4] A5].
        split; [|exact A5]. split; [|exact A4]. split; [discriminate|]. exists (a ++ b), []. rewrite app_nil_r. repeat split; auto. left. reflexivity.
    - intros ts W (t & -> & Ht). inversion_clear W. assert (Hp : plain t) by (destruct Ht; eapply plain_spells; eauto).
      assert (R : rel true (reads_decor d) (reads_decor d)) by (unfold reads_decor; rl).
      destruct (R [t]) as [A1 A2]; [auto|exists t; auto|]. split; [exact A1|]. intros C K. destruct (A2 C K) as [A3 A4]. split; [|exact A4].
      split; [exact A3|]. exists t, []. repeat split; auto; [apply Ht|apply clear_nil].
  Qed.

  Definition texts (parts : list colpart) : lang := many (map part_text parts).
  Lemma soon_here (Q : token -> list token -> Prop) t r : Q t r -> soon Q 0 (t :: r).
  Proof. intros H. left. auto. Qed.
  Lemma next_default parts : forall ts, texts parts ts -> defaults parts <> [] -> soon (fun x _ => spells "DEFAULT" x) 0 ts.
  Proof.
    unfold texts. induction parts as [|p parts IH]; cbn [map many]; intros ts H N; [destruct (N eq_refl)|]. destruct H as (u & v & -> & Hu & Hv).
    destruct p as [e|l|d].
    - destruct Hu as (t & u' & -> & Ht & _). cbn [app]. now apply soon_here.
    - apply (part_clear (CConstraints l) u Hu); [auto|]. apply IH; auto.
    - apply (part_clear (CDecor d) u Hu); [auto|]. apply IH; auto.
  Qed.
  Lemma next_group parts : forall ts, texts parts ts -> groups parts <> [] -> soon (fun x _ => opens_constraint x) 0 ts.
  Proof.
    unfold texts. induction parts as [|p parts IH]; cbn [map many]; intros ts H N; [destruct (N eq_refl)|]. destruct H as (u & v & -> & Hu & Hv).
    destruct p as [e|l|d].
    - apply (part_clear (CDefault e) u Hu); [auto|]. apply IH; auto.
    - destruct Hu as (t & u' & -> & Ht & _). cbn [app]. now apply soon_here.
    - apply (part_clear (CDecor d) u Hu); [auto|]. apply IH; auto.
  Qed.
  Lemma next_other l parts ts : ~ touching (CConstraints l :: parts) -> texts parts ts -> groups parts <> [] ->
    soon (fun x r => opens_other x /\ soon (fun y _ => opens_constraint y) 0 r) 0 ts.
  Proof.
    destruct parts as [|p parts]; intros T H N; [destruct (N eq_refl)|]. destruct H as (u & v & -> & Hu & Hv).
    destruct p as [e|l'|d]; [|destruct T; exact I|].
    - destruct Hu as (t & u' & -> & Ht & _ & Hc). cbn [app]. apply soon_here. split; [exists "DEFAULT"%string; cbn; auto|].
      apply Hc; [auto|]. apply (next_group parts); auto.
    - destruct Hu as (t & u' & -> & Ht & _ & Hc). cbn [app]. apply soon_here. split; [exists "AUTO_INCREMENT"%string; cbn; auto|].
      apply Hc; [auto|]. apply (next_group parts); auto.
  Qed.
  Lemma two_defaults parts : forall ts, texts parts ts -> quiet ts -> 2 <= List.length (defaults parts) -> False.
  Proof.
    induction parts as [|p parts IH]; intros ts H K N; [cbn in N; lia|]. destruct H as (u & v & -> & Hu & Hv).
    destruct (quiet_app _ _ K) as [_ Kv]. destruct p as [e|l|d]; [|eapply IH; eauto|eapply IH; eauto].
    destruct Hu as (t & u' & -> & Ht & _ & Hc). apply (K [] t (u' ++ v) LostDefault); [reflexivity|auto|]. split; [exact Ht|].
    apply Hc; [auto|]. apply (next_default parts); [exact Hv|]. cbn [defaults flat_map app List.length] in N. intros E. unfold defaults in E. rewrite E in N. cbn in N. lia.
  Qed.
  Lemma touching_tl p parts : touching parts -> touching (p :: parts).
  Proof. intros H. destruct p as [|l|]; [exact H| |exact H]. destruct parts as [|[e|l'|d] parts]; [destruct H|exact H|exact I|exact H]. Qed.
  Lemma two_groups parts : ~ touching parts -> forall ts, texts parts ts -> quiet ts -> 2 <= List.length (groups parts) -> False.
  Proof.
    induction parts as [|p parts IH]; intros T ts H K N; [cbn in N; lia|]. destruct H as (u & v & -> & Hu & Hv).
    destruct (quiet_app _ _ K) as [_ Kv]. assert (T' : ~ touching parts) by (intros X; apply T, touching_tl, X).
    destruct p as [e|l|d]; [eapply (IH T'); eauto| |eapply (IH T'); eauto].
    destruct Hu as (t & u' & -> & Ht & _ & Hc). apply (K [] t (u' ++ v) LostConstraints); [reflexivity|auto|]. split; [exact Ht|].
    apply Hc; [auto|]. apply (next_other l parts); [exact T|exact Hv|]. cbn [groups flat_map app List.length] in N. intros E. unfold groups in E. rewrite E in N. cbn in N. lia.
  Qed.
  Lemma many_split {A} (f g : A -> lang) l : forall ts, many (map (fun a u => f a u /\ g a u) l) ts -> many (map f l) ts /\ many (map g l) ts.
  Proof.
    induction l as [|a l IH]; cbn [map many]; intros ts H; [split; exact H|]. destruct H as (u & v & -> & [H1 H2] & H3).
    destruct (IH v H3). split; exists u, v; auto.
  Qed.

  Lemma rel_columndef c : rel false (reads_columndef L c) (reads_columndef nothing c).
  Proof.
    unfold reads_columndef. apply rel_cat; [rl|]. apply rel_cat; [rl|]. apply rel_weak.
    intros ts W (parts & M & [D1 D2] & (g & [G1 G2] & G3) & E & T).
    destruct (rel_many true (reads_colpart L) (fun p u => reads_colpart nothing p u /\ part_text p u) parts (rel_all _ _ _ _ rel_colpart) ts W M) as [A1 A2].
    split; [exact A1|]. intros C K. destruct (A2 C K) as [A3 A4]. split; [|exact A4]. destruct (many_split _ _ _ _ A3) as [B1 B2].
    exists parts. split; [exact B1|]. split; [split; [exact D1|]|].
    { intros N. eapply (two_defaults parts); eauto. }
    assert (NT : ~ touching parts) by (intros X; exact (no_name (T X))).
    split; [exists g; split; [split; [exact G1|]|exact G3]|]. { intros N. eapply (two_groups parts); eauto. }
    split; [exact E|]. intros X. destruct (NT X).
  Qed.
  Hint Resolve rel_columndef : rl.

  (* ---------------------------------------------------------------- *)
  (** ** Statements *)

  Lemma rel_row o r : rel o (reads_row L r) (reads_row nothing r).
  Proof. unfold reads_row. rl. Qed.
  Hint Resolve rel_row : rl.
  Lemma rel_source s : rel false (reads_source L s) (reads_source nothing s).
  Proof. destruct s; cbn [reads_source]; rl. Qed.
  Lemma rel_assign o a : rel o (reads_assign L a) (reads_assign nothing a).
  Proof. unfold reads_assign. rl. Qed.
  Lemma rel_where o w : rel o (where_clause L w) (where_clause nothing w).
  Proof. unfold where_clause. rl. Qed.
  Lemma rel_refkey o k : rel o (reads_refkey L k) (reads_refkey nothing k).
  Proof. setup. unfold reads_refkey. rl. Qed.
  Hint Resolve rel_source rel_assign rel_where rel_refkey : rl.
  Lemma rel_tcspec o s : rel o (reads_tcspec L s) (reads_tcspec nothing s).
  Proof. destruct s as [[] | | ]; cbn [reads_tcspec]; rl. Qed.
  Hint Resolve rel_tcspec : rl.
  Lemma rel_tcons o c : rel o (reads_tcons L c) (reads_tcons nothing c).
  Proof. unfold reads_tcons. rl. Qed.
  Hint Resolve rel_tcons : rl.
  Lemma rel_element e : rel false (reads_element L e) (reads_element nothing e).
  Proof. destruct e; cbn [reads_element]; rl. Qed.
  Lemma rel_option o x : rel o (reads_option x) (reads_option x).
  Proof. destruct x; cbn [reads_option]; unfold option_value; rl. Qed.
  Lemma rel_cascade o b p : rel o (cascade b p) (cascade b p).
  Proof. unfold cascade. rl. Qed.
  Lemma rel_colaction o a : rel o (reads_colaction L a) (reads_colaction nothing a).
  Proof. destruct a; cbn [reads_colaction]; rl. Qed.
  Hint Resolve rel_element rel_option rel_cascade rel_colaction : rl.
  Lemma rel_action a : rel false (reads_action L a) (reads_action nothing a).
  Proof. destruct a; cbn [reads_action]; rl. Qed.
  Hint Resolve rel_action : rl.

  (** A statement may end with a comma that is lost. *)
  Definition relc (P P' : lang) : Prop := forall ts, Forall tok_wf ts -> P ts ->
    nb RParen ts <= nb LParen ts /\
    (nb LParen ts <= nb RParen ts -> quiet ts -> (forall a c, ts = a ++ [c] -> tkind c <> Comma) -> P' ts /\ clear_of false ts).
  Lemma relc_rel P P' : rel false P P' -> relc P P'.
  Proof. intros H ts W K. destruct (H ts W K) as [H1 H2]. split; [exact H1|]. auto. Qed.
  Lemma relc_cat P P' Q Q' : rel false P P' -> relc Q Q' -> relc (P >> Q) (P' >> Q').
  Proof.
    intros HP HQ ts W (u & v & -> & Hu & Hv). apply Forall_app in W. destruct W as [W1 W2].
    destruct (HP u W1 Hu) as [A1 A2], (HQ v W2 Hv) as [B1 B2]. rewrite !nb_app. split; [lia|].
    intros C K N. apply quiet_app in K. destruct K as [K1 K2].
    destruct (A2 ltac:(lia) K1) as [A3 A4], (B2 ltac:(lia) K2) as [B3 B4].
    { intros a c ->. apply (N (u ++ a) c). apply app_assoc. }
    split; [exists u, v; auto|]. now apply clear_app.
  Qed.
  Lemma relc_comma : relc (lost L LostComma (sym Comma)) (lost nothing LostComma (sym Comma)).
  Proof.
    intros ts W [->|[_ (c & -> & Hc)]].
    - split; [cbn; lia|]. intros _ _ _. split; [left; reflexivity|apply clear_nil].
    - split; [cbn [nb]; rewrite Hc; cbn; lia|]. intros _ _ N. destruct (N [] c eq_refl Hc).
  Qed.
  Lemma relc_given (c c' : Prop) P P' : (c -> c') -> relc P P' -> relc (c ?? P) (c' ?? P').
  Proof.
    intros HC HP ts W [H0 H]. destruct (HP ts W H) as [A1 A2]. split; [exact A1|]. intros C K N. destruct (A2 C K N).
    split; [split; auto|auto].
  Qed.

  Lemma relc_stmt s : relc (reads_stmt L s) (reads_stmt nothing s).
  Proof.
    setup. induction s; cbn [reads_stmt];
      try solve [apply relc_rel; rl].
    - repeat (apply relc_cat; [rl|]). apply relc_comma.
    - apply relc_given; [auto|]. apply relc_cat; [rl|exact IHs].
  Qed.

  Lemma rel_closed s : rel false (reads_stmt L s >> sym Semicolon) (reads_stmt nothing s >> sym Semicolon).
  Proof.
    intros ts W (u & v & -> & Hu & (z & -> & Hz)). apply Forall_app in W. destruct W as [W1 W2].
    destruct (relc_stmt s u W1 Hu) as [A1 A2]. rewrite !nb_app. cbn [nb]. rewrite Hz. cbn [kind_eqb]. split; [lia|].
    intros C K. destruct (quiet_app _ _ K) as [K1 _]. destruct (A2 ltac:(lia) K1) as [A3 A4].
    { intros a c -> Hc. apply (K a c [z] LostComma); [rewrite <- app_assoc; reflexivity|auto|]. split; [exact Hc|exact Hz]. }
    split; [exists u, [z]; repeat split; auto; exists z; auto|]. apply clear_app; [exact A4|]. apply clear_plain; [|apply clear_nil].
    unfold plain. rewrite Hz. exact I.
  Qed.
  Lemma rel_file l : rel false (reads_file L l) (reads_file nothing l).
  Proof. unfold reads_file. apply rel_cat; [rl|]. apply rel_many, rel_all, rel_closed. Qed.
End Loss.

(** The defects that a place alone does not give away. *)
Definition four (d : defect) : Prop :=
  match d with OpenArgs | LostComma | LostConstraints | LostDefault => True | _ => False end.
Lemma safe_file d src l toks : dialect_ok d ->
  tokenize d true src = TOk toks -> parse_source d src = ROk l -> safe (sig toks) ->
  reads_file (fun _ => False) l (sig toks).
Proof.
  intros D ET E [S B]. destruct (source_reads four d src l D E) as (ts & ET' & R). assert (ts = toks) by congruence. subst ts.
  assert (A : allows four (sig toks)).
  { intros a t b k Ek T. specialize (S a t b k Ek). destruct k; cbn [four hazard] in *; auto. }
  assert (W : Forall tok_wf (sig toks)).
  { pose proof (tokenize_wf d true src toks D ET) as W. rewrite Forall_forall in *. intros t I. apply filter_In in I. now apply W. }
  destruct (rel_file four) with (l := l) (ts := sig toks) as [_ K]; [intros []; cbn; tauto|exact W|exact (R A)|].
  apply K; [exact B|]. intros a t b k Ek _. apply (S a t b k Ek).
Qed.

(* ------------------------------------------------------------------ *)
(** ** A decision, for examples *)

Definition spells_b (s : string) (t : token) : bool :=
  match tval t with VWord w => gs_eqb (wkeyword w) (gs s) || equal_fold (wvalue w) (gs s) | VStr _ => false end.
Lemma spells_sound s t : spells s t -> spells_b s t = true.
Proof. intros (w & V & H). unfold spells_b. rewrite V. destruct H as [H|H]; rewrite H; [rewrite gs_eqb_refl|apply orb_true_r]; reflexivity. Qed.
Definition one_b (l : list string) (t : token) : bool := existsb (fun s => spells_b s t) l.
Lemma one_sound l t : spells_one l t -> one_b l t = true.
Proof. intros (s & I & H). apply existsb_exists. exists s. split; [exact I|now apply spells_sound]. Qed.
Fixpoint soon_b (Q : token -> list token -> bool) (n : nat) (ts : list token) : bool :=
  match ts with
  | [] => false
  | t :: r =>
      (n =? 0) && Q t r ||
      match tkind t, n with
      | LParen, _ => soon_b Q (S n) r
      | RParen, 0 | Comma, 0 => false
      | RParen, S m => soon_b Q m r
      | _, _ => soon_b Q n r
      end
  end.
Lemma soon_sound (Q : token -> list token -> Prop) Q' : (forall t r, Q t r -> Q' t r = true) ->
  forall ts n, soon Q n ts -> soon_b Q' n ts = true.
Proof.
  intros H ts. induction ts as [|t r IH]; intros n K; [destruct K|]. cbn [soon soon_b] in *. apply orb_true_iff.
  destruct K as [[-> K]|K]; [left; cbn; auto|right]. destruct (tkind t), n; auto; contradiction.
Qed.
Definition next_b (s : string) (ts : list token) : bool := match ts with t :: _ => spells_b s t | [] => false end.
Lemma next_sound s ts : next_spells s ts -> next_b s ts = true.
Proof. destruct ts; [intros []|]. apply spells_sound. Qed.
Definition kind_b (k : kind) (ts : list token) : bool := match ts with t :: _ => kind_eqb (tkind t) k | [] => false end.
Lemma kind_sound k ts : next_kind_is k ts -> kind_b k ts = true.
Proof. destruct ts; [intros []|]. cbn. intros ->. destruct k; reflexivity. Qed.
Definition constraint_b (ts : list token) : bool :=
  match ts with
  | t :: _ => kind_eqb (tkind t) SQLKeyword && match tval t with VWord w => mem_gs (wkeyword w) (map gs constraint_words) | VStr _ => false end
  | [] => false
  end.
Lemma constraint_sound ts : ~ next_constraint ts -> constraint_b ts = false.
Proof.
  intros N. destruct (constraint_b ts) eqn:E; [|reflexivity]. destruct N. destruct ts as [|t r]; [discriminate|]. cbn [constraint_b next_constraint] in *.
  apply andb_true_iff in E. destruct E as [E1 E2]. split; [destruct (tkind t); auto; discriminate|].
  destruct (tval t) as [w|]; [|discriminate]. exists w. split; [reflexivity|]. unfold mem_gs in E2. apply existsb_exists in E2.
  destruct E2 as (x & I & E). apply gs_eqb_eq in E. now subst.
Qed.
Definition hazard_b (d : defect) (t : token) (after : list token) : bool :=
  match d with
  | LostJoins => spells_b "JOIN" t && existsb (spells_b "CROSS") after
  | LostMaterialized => spells_b "MATERIALIZED" t
  | LostTimeZone => spells_b "TIME" t && next_b "WITH" after || spells_b "WITH" t && next_b "WITHOUT" after
  | LostSelect => spells_b "SELECT" t && next_b "WITH" after
  | LostAs => spells_b "AS" t && match after with [] => true | _ => false end
  | OpenArgs => false
  | LostIndex => spells_b "INDEX" t && next_b "UNIQUE" after
  | LostComma => kind_eqb (tkind t) Comma && kind_b Semicolon after
  | LostColumns => kind_eqb (tkind t) Comma && kind_b RParen after
  | LostConstraints =>
      one_b ("CONSTRAINT"%string :: constraint_words) t &&
      soon_b (fun x r => one_b ["DEFAULT"; "AUTO_INCREMENT"]%string x &&
                         soon_b (fun y _ => one_b ("CONSTRAINT"%string :: constraint_words) y) 0 r) 0 after
  | LostDefault => spells_b "DEFAULT" t && soon_b (fun x _ => spells_b "DEFAULT" x) 0 after
  | LostName => spells_b "CONSTRAINT" t && negb (constraint_b (tl after))
  end.
Lemma hazard_sound d t r : hazard d t r -> hazard_b d t r = true.
Proof.
  destruct d; cbn [hazard trigger hazard_b]; intros H; try contradiction; try solve [now apply spells_sound];
    [| destruct H as [H|H]; apply orb_true_iff; [left|right] | | | | | | | |]; destruct H as [H1 H2]; apply andb_true_iff;
    (split; [first [now apply spells_sound | now apply one_sound | rewrite H1; reflexivity]|]);
    first [now apply next_sound | now apply kind_sound | (rewrite H2; reflexivity) | apply negb_true_iff; now apply constraint_sound | idtac].
  - apply Exists_exists in H2. destruct H2 as (x & I & H2). apply existsb_exists. exists x. split; [exact I|now apply spells_sound].
  - eapply soon_sound; [|exact H2]. cbv beta. intros x y [K1 K2]. apply andb_true_iff. split; [now apply one_sound|].
    eapply soon_sound; [|exact K2]. cbv beta. intros. now apply one_sound.
  - eapply soon_sound; [|exact H2]. cbv beta. intros. now apply spells_sound.
Qed.
Definition defect_list : list defect :=
  [LostJoins; LostMaterialized; LostTimeZone; LostSelect; LostAs; OpenArgs; LostIndex; LostComma; LostColumns; LostConstraints; LostDefault; LostName].
Fixpoint no_hazard (ts : list token) : bool :=
  match ts with [] => true | t :: r => forallb (fun d => negb (hazard_b d t r)) defect_list && no_hazard r end.
Definition safe_b (ts : list token) : bool := no_hazard ts && (nb LParen ts <=? nb RParen ts).
Lemma safe_sound ts : safe_b ts = true -> safe ts.
Proof.
  intros H. apply andb_true_iff in H. destruct H as [H B]. split; [|now apply Nat.leb_le]. clear B.
  induction ts as [|x ts IH]; intros a t b d E; [destruct a; discriminate|]. cbn [no_hazard] in H. apply andb_true_iff in H. destruct H as [H1 H2].
  destruct a as [|y a]; cbn [app] in E; injection E as -> ->; [|exact (IH H2 a t b d eq_refl)].
  intros K. apply hazard_sound in K. rewrite forallb_forall in H1. specialize (H1 d ltac:(destruct d; cbn; tauto)). rewrite K in H1. discriminate.
Qed.
