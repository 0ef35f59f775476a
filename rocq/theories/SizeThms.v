(** Proofs about the number of nodes. *)
From Coq Require Import ZArith List Bool String Lia Permutation.
From Verif Require Import Base Dialect Token Lexer LexSpec LexFacts LexThms AST AstInd Num Nodes Prog Parser ParseSpec Walk WalkSpec WalkThms CommentSpec CommentThms
  Grammar Sound Slices GrammarThms SizeSpec.
Import ListNotations.
Open Scope list_scope.
Open Scope nat_scope.

Lemma lsum_app {A} (f : A -> nat) l m : lsum f (l ++ m) = lsum f l + lsum f m.
Proof. induction l as [|a l IH]; [reflexivity|]. cbn [app]. unfold lsum in *. cbn [fold_right]. rewrite IH. lia. Qed.
Lemma lsum_map {A B} (f : B -> nat) (g : A -> B) l : lsum f (map g l) = lsum (fun a => f (g a)) l.
Proof. induction l as [|a l IH]; [reflexivity|]. cbn [map]. unfold lsum in *. cbn [fold_right]. now rewrite IH. Qed.
Lemma lsum_const {A} (c : nat) (l : list A) : lsum (fun _ => c) l = c * List.length l.
Proof. induction l as [|a l IH]; [cbn; lia|]. unfold lsum in *. cbn [fold_right List.length]. rewrite IH. lia. Qed.
Lemma lsum_ext {A} (f g : A -> nat) l : (forall a, f a = g a) -> lsum f l = lsum g l.
Proof. intros E. induction l as [|a l IH]; [reflexivity|]. unfold lsum in *. cbn [fold_right]. now rewrite E, IH. Qed.
Lemma lsum_pair {A} (f : A -> nat) (l : list (A * A)) :
  lsum (fun '(x, y) => f x + f y) l = lsum (fun b => f (fst b)) l + lsum (fun b => f (snd b)) l.
Proof. induction l as [|[a b] l IH]; [reflexivity|]. unfold lsum in *. cbn [fold_right fst snd]. rewrite IH. lia. Qed.
Lemma lsum_cons {A} (f : A -> nat) a l : lsum f (a :: l) = f a + lsum f l. Proof. reflexivity. Qed.
Lemma lsum_nil {A} (f : A -> nat) : lsum f [] = 0. Proof. reflexivity. Qed.

Lemma lsum_opt {A} (f : any -> nat) (inj : A -> any) o : lsum f (held (FOne (option_map inj o))) = osum (fun a => f (inj a)) o.
Proof. destruct o; cbn; lia. Qed.
Lemma lsum_one {A} (f : A -> nat) a : lsum f [a] = f a. Proof. cbn. lia. Qed.

Ltac sums := repeat first [rewrite lsum_app | rewrite lsum_map | rewrite lsum_opt | rewrite lsum_one | rewrite lsum_nil | rewrite lsum_cons].

Ltac etas :=
  change (fun a : node => sz_node a) with sz_node; change (fun a : cte => sz_cte a) with sz_cte;
  change (fun a : orderby => sz_order a) with sz_order; change (fun a : selitem => sz_item a) with sz_item;
  change (fun a : tableref => sz_ref a) with sz_ref; change (fun a : assignment => sz_assign a) with sz_assign;
  change (fun a : tableelement => sz_elem a) with sz_elem; change (fun a : colconstraint => sz_ccons a) with sz_ccons;
  change (fun a : rowvalue => sz_row a) with sz_row; change (fun a : objname => sz_name a) with sz_name.

Lemma subs_size x : S (lsum size (subnodes x)) <= size x.
Proof.
  cases x; unfold subnodes; cbn [fields flat_map snd f1 f01 fl].
  all: cbn [held]; rewrite ?app_nil_r; sums; unfold AIdent, ALong in *; try (cbn; lia).
  all: try match goal with f : file |- _ => cbn [size]; rewrite (lsum_ext (fun a => size (of_stmt a)) sz_stmt) by apply sz_of_stmt; apply le_n end.
  all: cbn [AST.cd_default AST.cd_constraints].
  all: repeat match goal with |- context [match option_map _ ?o with _ => _ end] => destruct o; cbn [option_map]; sums end.
  all: rewrite ?sz_of_stmt;
       cbn [size sz_node sz_win sz_order sz_query sz_cte sz_set sz_select sz_item sz_ref sz_spec
         sz_tspec sz_cspec sz_elem sz_colact sz_action sz_stmt sz_dtype sz_source osum]; rewrite ?lsum_const, ?lsum_pair; etas;
       unfold sz_name, sz_limit, sz_frame, sz_row, sz_assign, sz_refkey, sz_tcons, sz_col; cbn [List.length osum AST.lim_value AST.lim_offset AST.wf_units AST.wf_start AST.wf_end AST.cd_type AST.cd_default AST.cd_decorations
         AST.cd_constraints AST.rk_columns AST.row_values AST.as_value AST.cc_spec AST.tc_spec];
       try (unfold sz_ccons; lia); try lia.
  all: unfold sz_ccons; cbn [AST.cc_spec]; lia.
Qed.

Lemma tree_size : forall n x l, size x <= n -> tree x l -> List.length l <= size x.
Proof.
  induction n as [|n IH]; intros x l Hn T; pose proof (subs_size x) as Z; [lia|].
  inversion T as [x' ls Ts]; subst. cbn [List.length].
  assert (Hs : List.length ls <= lsum size (subnodes x)); [|lia].
  assert (Hl : lsum size (subnodes x) <= n) by lia. clear Z T Hn. revert ls Ts Hl.
  induction (subnodes x) as [|y ys IHy]; intros ls Ts Hl; inversion Ts; subst; [cbn; lia|].
  rewrite lsum_cons in *. rewrite app_length. specialize (IH y l ltac:(lia) ltac:(assumption)).
  specialize (IHy _ ltac:(eassumption) ltac:(lia)). lia.
Qed.

Lemma lsum_in_le {A} (f : A -> nat) l a : In a l -> f a <= lsum f l.
Proof. induction l as [|b l IH]; intros []; rewrite lsum_cons; [subst; lia|]. specialize (IH H). lia. Qed.
Lemma nested_size x n : nested x n -> n <= size x.
Proof.
  induction 1 as [x|x y n I N IH]; pose proof (subs_size x) as Z; [lia|].
  pose proof (lsum_in_le size _ _ I). lia.
Qed.

Lemma tree_ex : forall n x, size x <= n -> exists l, tree x l.
Proof.
  induction n as [|n IH]; intros x Hn; pose proof (subs_size x) as Z; [lia|].
  assert (H : exists ls, trees (subnodes x) ls).
  { assert (Hl : lsum size (subnodes x) <= n) by lia. clear Z Hn. induction (subnodes x) as [|y ys IHy]; [exists []; constructor|].
    rewrite lsum_cons in Hl. destruct (IH y ltac:(lia)) as (l & T). destruct IHy as (ls & Ts); [lia|].
    exists (l ++ ls). now constructor. }
  destruct H as (ls & H). exists (x :: ls). now constructor.
Qed.

(* ------------------------------------------------------------------ *)
(** ** Every token pays for four nodes *)

Definition heavy (P : lang) (n : nat) : Prop := forall ts, P ts -> n <= 4 * List.length ts.

Lemma hv_less (P : lang) n m : heavy P m -> n <= m -> heavy P n.
Proof. intros H L ts HP. specialize (H ts HP). lia. Qed.
Lemma hv_cat (P Q : lang) n m : heavy P n -> heavy Q m -> heavy (P >> Q) (n + m).
Proof. intros HP HQ ts (u & v & -> & Hu & Hv). specialize (HP u Hu). specialize (HQ v Hv). rewrite app_length. lia. Qed.
Lemma hv_zero (P : lang) : heavy P 0.
Proof. intros ts _. lia. Qed.
Lemma hv_tok f : heavy (tok f) 4.
Proof. intros ts (t & -> & _). cbn. lia. Qed.
Lemma hv_alt (P Q : lang) n : heavy P n -> heavy Q n -> heavy (P <|> Q) n.
Proof. intros HP HQ ts [H|H]; auto. Qed.
Lemma hv_given (c : Prop) (P : lang) n : (c -> heavy P n) -> heavy (c ?? P) n.
Proof. intros H ts [Hc HP]. exact (H Hc ts HP). Qed.
Lemma hv_none n : heavy none n.
Proof. intros ts []. Qed.
Lemma hv_sep {A} (f : A -> lang) (g : A -> nat) c s l : Forall (fun a => heavy (f a) (g a + c)) l ->
  heavy (sep_by s (map f l)) (lsum g l + c).
Proof.
  induction 1 as [|a l Ha Hl IH]; [apply hv_none|]. cbn [map sep_by]. destruct l as [|b l].
  - cbn [map]. rewrite lsum_one. exact Ha.
  - change (map f (b :: l)) with (f b :: map f l) in *. cbv iota. eapply hv_less; [apply hv_cat; [exact Ha|apply hv_cat; [apply hv_zero|exact IH]]|].
    rewrite lsum_cons. lia.
Qed.
(** The same with the commas counted. *)
Lemma hv_sep_tok {A} (f : A -> lang) (g : A -> nat) k l : Forall (fun a => heavy (f a) (g a)) l ->
  heavy (sep_by (sym k) (map f l)) (lsum g l + 4 * List.length l - 4).
Proof.
  induction 1 as [|a l Ha Hl IH]; [apply hv_none|]. cbn [map sep_by]. destruct l as [|b l].
  - cbn [map]. rewrite lsum_one. eapply hv_less; [exact Ha|cbn; lia].
  - change (map f (b :: l)) with (f b :: map f l) in *. cbv iota.
    eapply hv_less; [apply hv_cat; [exact Ha|apply hv_cat; [apply hv_tok|exact IH]]|].
    rewrite lsum_cons. cbn [List.length]. lia.
Qed.
Lemma hv_many {A} (f : A -> lang) (g : A -> nat) l : Forall (fun a => heavy (f a) (g a)) l ->
  heavy (many (map f l)) (lsum g l).
Proof.
  induction 1 as [|a l Ha Hl IH]; [apply hv_zero|]. cbn [map many]. rewrite lsum_cons. now apply hv_cat.
Qed.
Lemma hv_word i : heavy (word i) 4. Proof. apply hv_tok. Qed.
Lemma hv_words k l : heavy (sep_by (sym k) (map word l)) (8 * List.length l - 4).
Proof.
  eapply hv_less; [apply (hv_sep_tok word (fun _ => 4)); apply Forall_forall; intros; apply hv_word|].
  rewrite lsum_const. lia.
Qed.
Lemma sep_none s : sep_by s [] = none. Proof. reflexivity. Qed.
Lemma hv_dots l : heavy (dots l) (List.length l + 3).
Proof. destruct l; [apply hv_none|]. eapply hv_less; [apply hv_words|cbn [List.length]; lia]. Qed.
Lemma hv_commas l : heavy (words l) (List.length l + 3).
Proof. destruct l; [apply hv_none|]. eapply hv_less; [apply hv_words|cbn [List.length]; lia]. Qed.
Lemma hv_name n : heavy (name n) (sz_name n + 2).
Proof. eapply hv_less; [apply hv_dots|]. unfold sz_name. lia. Qed.
Lemma hv_parens P n : heavy P n -> heavy (parens P) (n + 8).
Proof. intros H. eapply hv_less; [apply hv_cat; [apply hv_tok|apply hv_cat; [exact H|apply hv_tok]]|lia]. Qed.
Lemma hv_parens_to P p n : heavy P n -> heavy (parens_to P p) (n + 8).
Proof. intros H. eapply hv_less; [apply hv_cat; [apply hv_tok|apply hv_cat; [exact H|apply hv_tok]]|lia]. Qed.


Lemma hv_alt_min (P Q : lang) n m : heavy P n -> heavy Q m -> heavy (P <|> Q) (Nat.min n m).
Proof. intros HP HQ. apply hv_alt; eapply hv_less; eauto; lia. Qed.
Lemma hv_if (b : bool) (P Q : lang) n m : heavy P n -> heavy Q m -> heavy (if b then P else Q) (Nat.min n m).
Proof. intros HP HQ. destruct b; eapply hv_less; eauto; lia. Qed.
Lemma hv_list {A} (l : list A) (P Q : lang) g c : heavy Q (lsum g l + c) -> heavy (match l with [] => P | _ => Q end) (lsum g l).
Proof. intros H. destruct l; [apply hv_zero|eapply hv_less; [exact H|lia]]. Qed.
Lemma hv_clause {A} ks (l : list A) (P : lang) g c : heavy P (lsum g l + c) -> heavy (clause ks l P) (lsum g l).
Proof.
  intros H. destruct l; [apply hv_zero|]. unfold clause. eapply hv_less; [apply hv_cat; [apply hv_zero|exact H]|lia].
Qed.
Lemma hv_forall {A} (f : A -> lang) (g : A -> nat) l : (forall a, heavy (f a) (g a)) -> Forall (fun a => heavy (f a) (g a)) l.
Proof. intros H. apply Forall_forall. auto. Qed.
Lemma hv_kwds ks : heavy (kwds ks) (4 * List.length ks).
Proof.
  unfold kwds. eapply hv_less; [apply (hv_many kwd (fun _ => 4)); apply hv_forall; intros; apply hv_tok|]. rewrite lsum_const. lia.
Qed.

Ltac hv :=
  lazymatch goal with
  | |- heavy (cat _ _) _ => eapply hv_cat; hv
  | |- heavy (alt (given (_ :: _ = []) _) _) _ => apply hv_alt; [apply hv_given; discriminate|hv]
  | |- heavy (alt _ _) _ => eapply hv_alt_min; hv
  | |- heavy (given _ _) _ => apply hv_given; intros _; hv
  | |- heavy none _ => apply (hv_none 100)
  | |- heavy eps _ => apply hv_zero
  | |- heavy (opt _) _ => apply hv_zero
  | |- heavy (lost _ _ _) _ => apply hv_zero
  | |- heavy any_tokens _ => apply hv_zero
  | |- heavy (tok _) _ => apply hv_tok
  | |- heavy (kwd _) _ => apply hv_tok
  | |- heavy (kwd_from _ _) _ => apply hv_tok
  | |- heavy (kwd_to _ _) _ => apply hv_tok
  | |- heavy (kwd_at _ _ _) _ => apply hv_tok
  | |- heavy (sym _) _ => apply hv_tok
  | |- heavy (sym_from _ _) _ => apply hv_tok
  | |- heavy (sym_to _ _) _ => apply hv_tok
  | |- heavy (sym_at _ _ _) _ => apply hv_tok
  | |- heavy (word _) _ => apply hv_tok
  | |- heavy (int _) _ => apply hv_tok
  | |- heavy (long _) _ => apply hv_tok
  | |- heavy (long_int _) _ => apply hv_tok
  | |- heavy (str _ _ _ _) _ => apply hv_tok
  | |- heavy (kwds _) _ => apply hv_kwds
  | |- heavy (name _) _ => apply hv_name
  | |- heavy (dots _) _ => apply hv_dots
  | |- heavy (words _) _ => apply hv_commas
  | |- heavy (parens _) _ => eapply hv_parens; hv
  | |- heavy (parens_to _ _) _ => eapply hv_parens_to; hv
  | |- heavy (clause _ _ _) _ => eapply hv_clause; hv
  | |- heavy (sep_by _ (map _ _)) _ => first [eapply hv_sep; eassumption | eapply hv_sep, hv_forall; intros; eauto with hv]
  | |- heavy (many (map _ _)) _ => first [solve [eauto with hv] | eapply hv_many; first [eassumption | apply hv_forall; intros; eauto with hv]]
  | |- heavy (commas _ _) _ => unfold commas; hv
  | |- heavy (may (Some _) _) _ => cbn [may]; hv
  | |- heavy (may None _) _ => apply hv_zero
  | |- heavy (if _ then _ else _) _ => eapply hv_if; hv
  | |- heavy (match ?l with nil => _ | cons _ _ => _ end) _ => eapply hv_list; hv
  | |- heavy (match Some _ with _ => _ end) _ => cbv iota beta; hv
  | |- heavy (match None with _ => _ end) _ => cbv iota beta; hv
  | _ => first [eassumption | solve [eauto with hv] | apply hv_zero]
  end.
Ltac hvl := eapply hv_less; [hv|cbn [List.length osum]; rewrite ?lsum_nil; unfold sz_limit, sz_frame; try lia].

Create HintDb hv.

Section Size.
  Variable L : defect -> Prop.

  Lemma hv_dtype t : heavy (reads_dtype L t) (sz_dtype t + 1).
  Proof.
    destruct t; cbn [reads_dtype sz_dtype]; try solve [hvl].
    - destruct precision; hvl.
    - destruct t; try apply hv_none. cbn [sz_dtype]. hvl.
  Qed.
  Hint Resolve hv_dtype : hv.

  Lemma hv_operator o : heavy (operator_tokens o) 4.
  Proof. unfold operator_tokens. destruct (op_type o); hvl. Qed.
  Lemma hv_prefix p o : heavy (prefix_token p o) 4.
  Proof. unfold prefix_token. destruct (op_type o); hvl. Qed.
  Hint Resolve hv_operator hv_prefix : hv.
  Lemma hv_bound b : heavy (reads_bound b) 8.
  Proof. destruct b; cbn [reads_bound]; hvl. Qed.
  Hint Resolve hv_bound : hv.
  Lemma hv_frame f : heavy (reads_frame f) 8.
  Proof. unfold reads_frame. destruct (wf_end f); hvl. Qed.
  Lemma hv_limit l : heavy (reads_limit l) 4.
  Proof. unfold reads_limit. destruct (lim_value l); hvl. Qed.
  Lemma hv_setop o : heavy (reads_setop o) 4.
  Proof. destruct o; cbn [reads_setop]; hvl. Qed.
  Hint Resolve hv_frame hv_limit hv_setop : hv.

  Ltac opts :=
    repeat match goal with
    | H : opt_all _ ?o |- _ => destruct o; cbn [opt_all] in H
    | |- context [match ?o with Some _ => _ | None => _ end] => is_var o; destruct o
    | |- context [may ?o _] => is_var o; destruct o
    | |- context [match ?l with nil => _ | cons _ _ => _ end] => is_var l; destruct l
    | |- context [clause _ ?l _] => is_var l; destruct l; unfold clause
    | |- context [table_alias _ ?o] => is_var o; destruct o; unfold table_alias
    end.

  Lemma hv_ast :
    (forall e, heavy (reads_node L e) (sz_node e + 3)) /\ (forall w, heavy (reads_win L w) (sz_win w - 1)) /\
    (forall o, heavy (reads_orderby L o) (sz_order o + 2)) /\ (forall q, heavy (reads_query L q) (sz_query q + 4)) /\
    (forall c, heavy (reads_cte L c) (sz_cte c + 2)) /\ (forall b, heavy (reads_setexpr L b) (sz_set b + 5)) /\
    (forall s, heavy (reads_select L s) (sz_select s + 5)) /\ (forall i, heavy (reads_selitem L i) (sz_item i + 2)) /\
    (forall t, heavy (reads_tableref L t) (sz_ref t + 1)) /\ (forall j, heavy (reads_joinspec L j) (sz_spec j)).
  Proof.
    apply (ast_ind (fun e => heavy (reads_node L e) (sz_node e + 3)) (fun w => heavy (reads_win L w) (sz_win w - 1))
      (fun o => heavy (reads_orderby L o) (sz_order o + 2)) (fun q => heavy (reads_query L q) (sz_query q + 4))
      (fun c => heavy (reads_cte L c) (sz_cte c + 2)) (fun b => heavy (reads_setexpr L b) (sz_set b + 5))
      (fun s => heavy (reads_select L s) (sz_select s + 5)) (fun i => heavy (reads_selitem L i) (sz_item i + 2))
      (fun t => heavy (reads_tableref L t) (sz_ref t + 1)) (fun j => heavy (reads_joinspec L j) (sz_spec j))); intros;
      first [rewrite reads_node_eq | rewrite reads_win_eq | rewrite reads_orderby_eq | rewrite reads_query_eq | rewrite reads_cte_eq
            | rewrite reads_setexpr_eq | rewrite reads_select_eq | rewrite reads_selitem_eq | rewrite reads_tableref_eq
            | rewrite reads_joinspec_eq];
      cbn [sz_node sz_win sz_order sz_query sz_cte sz_set sz_select sz_item sz_ref sz_spec]; opts; try solve [hvl].
    { apply hv_given; intros _. apply hv_given; intros Hl. eapply hv_less; [apply hv_words|lia]. }
    all: try match goal with H : Forall _ ?bs |- heavy (well_bound (ECase _ _ _ ?bs _) ?? _) _ =>
        assert (B : Forall (fun b => heavy (kwd "WHEN" >> reads_node L (fst b) >> kwd "THEN" >> reads_node L (snd b))
                       ((fun '(x, y) => sz_node x + sz_node y) b)) bs)
          by (eapply Forall_impl; [|exact H]; intros [x y] [Hx Hy]; cbn [fst snd] in *; hvl);
        clear H; hvl end.
  Qed.
  Definition hv_node := proj1 hv_ast.
  Definition hv_query := proj1 (proj2 (proj2 (proj2 hv_ast))).
  Hint Resolve hv_node hv_query : hv.

  Lemma hv_row r : heavy (reads_row L r) (sz_row r + 3).
  Proof. unfold reads_row, sz_row. hvl. Qed.
  Hint Resolve hv_row : hv.
  Lemma hv_source s : heavy (reads_source L s) (sz_source s + 3).
  Proof. destruct s; cbn [reads_source sz_source]; hvl. Qed.
  Lemma hv_assign a : heavy (reads_assign L a) (sz_assign a + 3).
  Proof. unfold reads_assign, sz_assign. hvl. Qed.
  Hint Resolve hv_source hv_assign : hv.
  Lemma hv_refkey k : heavy (reads_refkey L k) (sz_refkey k + 3).
  Proof. unfold reads_refkey, sz_refkey. destruct (rk_columns k); hvl. Qed.
  Hint Resolve hv_refkey : hv.
  Lemma hv_tcspec s : heavy (reads_tcspec L s) (sz_tspec s + 3).
  Proof. destruct s as [[]| |]; cbn [reads_tcspec sz_tspec]; hvl. Qed.
  Hint Resolve hv_tcspec : hv.
  Lemma hv_tcons c : heavy (reads_tcons L c) (sz_tcons c + 1).
  Proof. unfold reads_tcons, sz_tcons. destruct (tc_name c); hvl. Qed.
  Lemma hv_ccspec s : heavy (reads_ccspec L s) (sz_cspec s + 3).
  Proof. destruct s as [|[]| |]; cbn [reads_ccspec sz_cspec]; hvl. Qed.
  Hint Resolve hv_tcons hv_ccspec : hv.
  Lemma hv_ccons c : heavy (reads_ccons L c) (sz_ccons c + 1).
  Proof. unfold reads_ccons, sz_ccons. destruct (cc_name c); hvl. Qed.
  Hint Resolve hv_ccons : hv.

  Lemma hv_colparts parts ts : many (map (reads_colpart L) parts) ts ->
    lsum sz_node (defaults parts) + lsum (lsum sz_ccons) (groups parts) + List.length (decors parts) <= 4 * List.length ts.
  Proof.
    revert ts. induction parts as [|p parts IH]; intros ts H; [cbn; lia|].
    cbn [map many] in H. destruct H as (u & v & -> & Hu & Hv). specialize (IH v Hv). rewrite app_length.
    unfold defaults, groups, decors in *. cbn [flat_map].
    destruct p as [e|l|d]; cbn [app] in *.
    - rewrite lsum_cons. assert (H : heavy (reads_colpart L (CDefault e)) (sz_node e)) by (cbn [reads_colpart]; hvl). specialize (H u Hu). lia.
    - rewrite lsum_cons. assert (H : heavy (reads_colpart L (CConstraints l)) (lsum sz_ccons l)).
      { cbn [reads_colpart]. apply hv_given; intros _. eapply hv_less; [apply hv_cat; [|apply hv_zero]|].
        - apply (hv_many _ sz_ccons), hv_forall. intros c. eapply hv_less; [apply hv_ccons|lia].
        - lia. }
      specialize (H u Hu). lia.
    - cbn [List.length]. assert (H : heavy (reads_colpart L (CDecor d)) 1) by (cbn [reads_colpart]; unfold reads_decor; hvl). specialize (H u Hu). lia.
  Qed.
  Lemma hd_rev_le {A} (f : A -> nat) l : osum f (hd_error (rev l)) <= lsum f l.
  Proof.
    destruct (hd_error (rev l)) as [a|] eqn:E; [|cbn; lia]. cbn [osum]. apply lsum_in_le, In_hd_rev. now symmetry.
  Qed.
  Lemma hv_columndef c : heavy (reads_columndef L c) (sz_col c + 1).
  Proof.
    unfold reads_columndef, sz_col. eapply hv_less.
    - apply hv_cat; [apply hv_word|]. apply hv_cat; [apply hv_dtype|].
      instantiate (1 := osum sz_node (cd_default c) + List.length (cd_decorations c) + lsum sz_ccons (cd_constraints c)).
      intros ts (parts & H & [Hd _] & (g & [Hg _] & Hc) & He & _). apply hv_colparts in H. rewrite <- He, Hd.
      pose proof (hd_rev_le sz_node (defaults parts)).
      pose proof (hd_rev_le (lsum sz_ccons) (groups parts)) as H1. rewrite <- Hg in H1.
      assert (H2 : lsum sz_ccons (cd_constraints c) = osum (lsum sz_ccons) g) by (rewrite Hc; destruct g; reflexivity). lia.
    - lia.
  Qed.
  Hint Resolve hv_columndef : hv.
  Lemma hv_element e : heavy (reads_element L e) (sz_elem e + 1).
  Proof. destruct e; cbn [reads_element sz_elem]; hvl. Qed.
  Lemma hv_option o : heavy (reads_option o) 8.
  Proof. destruct o; cbn [reads_option]; unfold option_value; hvl. Qed.
  Lemma hv_colaction a : heavy (reads_colaction L a) (sz_colact a + 3).
  Proof. destruct a; cbn [reads_colaction sz_colact]; hvl. Qed.
  Hint Resolve hv_element hv_option hv_colaction : hv.
  Lemma hv_action a : heavy (reads_action L a) (sz_action a).
  Proof. destruct a; cbn [reads_action sz_action]; hvl. Qed.
  Hint Resolve hv_action : hv.

  Lemma hv_options l : heavy (many (map reads_option l)) (2 * List.length l).
  Proof.
    eapply hv_less; [apply (hv_many _ (fun _ => 8)), hv_forall; intros; apply hv_option|]. rewrite lsum_const. lia.
  Qed.
  Hint Resolve hv_name hv_options : hv.
  Lemma hv_stmt s : heavy (reads_stmt L s) (sz_stmt s).
  Proof.
    induction s; cbn [reads_stmt sz_stmt]; unfold where_clause; opts; try solve [hvl].
    all: eapply hv_less; [hv|rewrite ?lsum_const, ?lsum_nil; try lia].
  Qed.
  Lemma hv_file l : heavy (reads_file L l) (lsum sz_stmt l).
  Proof.
    unfold reads_file. eapply hv_less; [apply hv_cat; [apply hv_zero|apply (hv_many _ sz_stmt), hv_forall]|lia].
    intros s. eapply hv_less; [apply hv_cat; [apply hv_stmt|apply hv_zero]|lia].
  Qed.
End Size.

(* ------------------------------------------------------------------ *)
(** ** Texts *)

Lemma groups_size (l : list commentgroup) : (forall g, In g l -> g <> []) ->
  lsum (fun g => S (List.length g)) l <= 2 * List.length (List.concat l).
Proof.
  induction l as [|g l IH]; intros H; [cbn; lia|]. rewrite lsum_cons. cbn [List.concat]. rewrite app_length.
  assert (Hg : g <> []) by (apply H; now left). destruct g; [congruence|]. cbn [List.length].
  specialize (IH ltac:(intros; apply H; now right)). lia.
Qed.

Lemma split_tokens toks : List.length (sig toks) + List.length (comments toks) <= List.length toks.
Proof.
  unfold sig, comments. rewrite map_length.
  induction toks as [|t l IH]; [cbn; lia|]. cbn [filter]. destruct t as [k v p q]. destruct k; cbn in *; lia.
Qed.

Lemma file_size d src toks f : dialect_ok d -> tokenize d true src = TOk toks -> parse_file d src = ROk f ->
  size (AFile f) <= 4 * List.length toks + 1.
Proof.
  intros D ET E. destruct (file_reads anything d src f D E) as (ts & ET' & R). assert (ts = toks) by congruence. subst ts.
  specialize (R ltac:(intros a t b k _ _; exact I)). cbn [reads] in R. apply hv_file in R.
  destruct (file_comments d src toks f D ET E) as (C1 & C2 & _). apply groups_size in C2. rewrite C1 in C2.
  pose proof (split_tokens toks). cbn [size]. lia.
Qed.

Lemma file_nodes d src toks f l : dialect_ok d -> tokenize d true src = TOk toks -> parse_file d src = ROk f ->
  tree (AFile f) l -> List.length l <= 4 * List.length toks + 1.
Proof. intros D ET E T. pose proof (file_size d src toks f D ET E). pose proof (tree_size _ _ _ (le_n _) T). lia. Qed.
Lemma file_nested d src toks f n : dialect_ok d -> tokenize d true src = TOk toks -> parse_file d src = ROk f ->
  nested (AFile f) n -> n <= 4 * List.length toks + 1.
Proof. intros D ET E T. pose proof (file_size d src toks f D ET E). pose proof (nested_size _ _ T). lia. Qed.

Lemma call_nodes x ts (P : lang) : heavy P (size x) -> P ts -> forall l, tree x l -> List.length l <= 4 * List.length ts.
Proof. intros H HP l T. pose proof (H ts HP). pose proof (tree_size _ _ _ (le_n _) T). lia. Qed.

Lemma stmt_nodes done todo s st l : Forall tok_wf todo -> Forall placed todo -> Parser.call parse_statement done todo = Ok s st ->
  tree (of_stmt s) l -> exists used, sig todo = used ++ sig (snd st) /\ List.length l <= 4 * List.length used.
Proof.
  intros W P E T. destruct (stmt_reads anything _ _ _ _ (good_anything _ W P) E) as (used & E1 & R). exists used. split; [exact E1|].
  eapply call_nodes; [|exact R|exact T]. rewrite sz_of_stmt. apply hv_stmt.
Qed.
Lemma expr_nodes done todo e st l : Forall tok_wf todo -> Forall placed todo -> Parser.call parse_expr done todo = Ok e st ->
  tree (AExpr e) l -> exists used, sig todo = used ++ sig (snd st) /\ List.length l <= 4 * List.length used.
Proof.
  intros W P E T. destruct (expr_reads anything _ _ _ _ (good_anything _ W P) E) as (used & E1 & R & _). exists used. split; [exact E1|].
  eapply call_nodes; [|exact R|exact T]. eapply hv_less; [apply hv_node|cbn [size]; lia].
Qed.

(* ------------------------------------------------------------------ *)
(** ** Walks *)

Definition osz (x : option any) : nat := match x with Some y => 3 * size y | None => 1 end.
Lemma lsum_perm {A} (f : A -> nat) l m : Permutation l m -> lsum f l = lsum f m.
Proof. induction 1; rewrite ?lsum_cons in *; try lia; reflexivity. Qed.
Lemma lsum_osz l : lsum osz l = 3 * lsum size (somes l) + List.length (filter (fun x => match x with None => true | _ => false end) l).
Proof.
  induction l as [|[y|] l IH]; [reflexivity| |]; rewrite lsum_cons; cbn [filter]; change (somes (?a :: l)) with (match a with Some x => [x] | None => [] end ++ somes l); cbn [app List.length osz]; rewrite ?lsum_cons; lia.
Qed.
Lemma no_none {A} (f : A -> any) l : filter (fun x => match x with None => true | Some _ => false end) (map (fun a => Some (f a)) l) = [].
Proof. induction l; [reflexivity|cbn; assumption]. Qed.
Lemma order_nones x : List.length (filter (fun x => match x with None => true | Some _ => false end) (WalkSpec.order x)) <= 1.
Proof.
  assert (D : forall l, List.length (filter (fun x => match x with None => true | Some _ => false end) (map Some l : list (option any))) <= 1)
    by (intros l; rewrite (no_none (fun a => a)); cbn; lia).
  cases x; unfold WalkSpec.order; rewrite ?D; auto; rewrite ?no_none; cbn [filter app List.length]; try lia.
  - destruct operand; cbn; lia.
  - rewrite filter_app, no_none. destruct selection; cbn; lia.
  - rewrite no_none. cbn. lia.
  - rewrite filter_app, no_none, app_nil_r. destruct (AST.cd_default _); cbn; lia.
Qed.
Lemma order_osz x : lsum osz (WalkSpec.order x) <= 3 * size x - 2.
Proof.
  rewrite lsum_osz. pose proof (order_nones x). pose proof (subs_size x) as Z.
  rewrite <- (lsum_perm size _ _ (order_complete x)), lsum_app in Z. lia.
Qed.
Lemma walked_size : (forall x l, walked x l -> List.length l <= osz x) /\ (forall xs l, walked_all xs l -> List.length l <= lsum osz xs).
Proof.
  apply (walked_both (fun x l _ => List.length l <= osz x) (fun xs l _ => List.length l <= lsum osz xs)).
  - cbn. lia.
  - intros x. cbn [osz List.length]. pose proof (subs_size x). lia.
  - intros x l b _ _ IH. cbn [osz List.length]. rewrite app_length. cbn [List.length]. pose proof (order_osz x). pose proof (subs_size x). lia.
  - cbn. lia.
  - intros x xs l ls _ H1 _ H2. rewrite app_length, lsum_cons. lia.
Qed.
Lemma broken_size x l : broken x l -> List.length l <= osz x.
Proof.
  induction 1 as [|x N|x b y a l l' W E A B IH].
  - cbn. lia.
  - cbn [osz List.length]. pose proof (subs_size x). lia.
  - apply walked_size in A. pose proof (order_osz x) as O. rewrite E, lsum_app, lsum_cons in O.
    cbn [List.length osz]. rewrite app_length. pose proof (subs_size x). lia.
Qed.

Lemma walk_calls S (visit : S -> option any -> S * bool) d src toks f s : dialect_ok d -> tokenize d true src = TOk toks ->
  parse_file d src = ROk f ->
  List.length (snd (fst (Walk (noting visit) (AFile f) (s, [])))) <= 12 * List.length toks + 3.
Proof.
  intros D ET E. destruct (Walk_trace visit (AFile f) s) as (s' & log & e & _ & -> & H). cbn [fst snd].
  assert (L : List.length log <= osz (Some (AFile f))).
  { destruct H as [[_ H]|[_ H]]; [now apply walked_size|now apply broken_size]. }
  pose proof (file_size d src toks f D ET E). cbn [osz] in L. lia.
Qed.

Lemma reads_length d p text l rest : LexSpec.reads d p text l rest -> List.length l <= List.length text.
Proof.
  induction 1 as [|p q s text k v l rest L E R IH]; [cbn; lia|].
  apply lexeme_nonempty in L. cbn [List.length]. rewrite app_length. destruct s; [congruence|]. cbn [List.length]. lia.
Qed.
Lemma tokens_length d src toks : dialect_ok d -> tokenize d true src = TOk toks -> List.length toks <= List.length src.
Proof.
  intros D E. destruct (tokenize_reads d src toks D E) as (l & R & ->). apply reads_length in R. rewrite map_length.
  enough (List.length (skip_bom src) <= List.length src) by lia.
  unfold skip_bom. destruct src as [|r s]; [apply le_n|]. destruct (Z.eqb r _); cbn; lia.
Qed.
Lemma text_nodes d src f l : dialect_ok d -> parse_file d src = ROk f -> tree (AFile f) l ->
  List.length l <= 4 * List.length src + 1.
Proof.
  intros D E T. destruct (file_reads anything d src f D E) as (toks & ET & _).
  pose proof (file_nodes d src toks f l D ET E T). pose proof (tokens_length d src toks D ET). lia.
Qed.
