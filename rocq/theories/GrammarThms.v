(** The readings for calls of the public methods and for texts. *)
From Coq Require Import ZArith List Bool String Lia.
From Verif Require Import Base Dialect Token Lexer LexSpec LexFacts LexPos LexThms AST Num Nodes Prog Parser ParseSpec Erase Wp Term
  Natural Sim ErId ParserThms SrcThms ApiThms Wlp Grammar Sound Slices.
Import ListNotations.
Open Scope list_scope.
Open Scope Z_scope.

(* ------------------------------------------------------------------ *)
(** ** Calls *)

Definition good (L : defect -> Prop) (todo : list token) : Prop :=
  Forall tok_wf todo /\ Forall placed todo /\ allows L (sig todo).

Lemma good_ok L todo : good L todo -> oks (tok_ok L) (fsig todo) [].
Proof.
  intros (H1 & H2 & H3). change (sig todo) with (fsig todo) in H3.
  assert (HW : Forall tok_wf (fsig todo)) by (apply fsig_wf, H1).
  assert (HP : Forall placed (fsig todo)).
  { rewrite Forall_forall in *. intros t I. apply H2. apply filter_In in I. apply I. }
  assert (HA : forall a t b k, fsig todo = a ++ t :: b -> trigger k t b -> L k) by exact H3.
  clear H1 H2 H3. induction (fsig todo) as [|x l IH]; cbn [oks]; [exact I|].
  inversion_clear HW. inversion_clear HP. split.
  - split; [assumption|]. split; [assumption|]. intros k T. rewrite app_nil_r in T. exact (HA [] x l k eq_refl T).
  - apply IH; auto. intros a t b k E T. apply (HA (x :: a) t b k); [cbn; congruence|exact T].
Qed.

Lemma call_wlp {A} L (P : rec -> prog A) (Q : A -> toks -> toks -> Prop) :
  (forall r t, rspec L r -> wlp (tok_ok L) (P r) Q [] t) ->
  forall done todo a st, good L todo -> call P done todo = Ok a st ->
  exists used, sig todo = used ++ sig (snd st) /\ Q a (rev used) (sig (snd st)).
Proof.
  intros HP done todo a st G E. unfold call in E.
  pose proof (sim_raw (P (knot (fuel_for todo))) done todo) as S. rewrite E in S.
  destruct (run fm_machine (P (knot (fuel_for todo))) (fsig done, fsig todo)) as [b s'| | |] eqn:R; try contradiction.
  cbn [outrel] in S. destruct S as [<- S]. unfold Rraw in S.
  destruct (wlp_run (tok_ok L) _ Q (fsig done) [] (fsig todo) (good_ok L todo G)
              (HP _ _ (knot_s L _)) _ _ R) as (d1 & t' & E1 & HQ & E2).
  rewrite S in E1. injection E1 as _ E1. cbn [rev app] in E2.
  exists (rev d1). rewrite rev_involutive, (sig_fsig todo), (sig_fsig (snd st)), E1, <- E2. auto.
Qed.

Lemma nprec_continues t : nprec t <= 0 -> match t with x :: _ => ~ continues x | [] => True end.
Proof.
  destruct t as [|x t]; [auto|]. cbn [nprec]. unfold tprec. intros H [I|(K & w & Hw & I)].
  - cbn [In infix_symbols] in I. repeat destruct I as [I|I]; try contradiction; rewrite <- I in H; lia.
  - rewrite K, Hw in H. cbn [In map infix_words] in I.
    repeat destruct I as [I|I]; try contradiction; unfold kw in H; rewrite <- I in H; vm_compute in H; now apply H.
Qed.

Lemma expr_reads L done todo e st : good L todo -> call parse_expr done todo = Ok e st ->
  exists used, sig todo = used ++ sig (snd st) /\ reads_node L e used /\
    match sig (snd st) with t :: _ => ~ continues t | [] => True end.
Proof.
  intros G E.
  destruct (call_wlp L parse_expr (subexpr_post L 0) ltac:(intros r t HR; apply (rs_subexpr L r HR); lia) _ _ _ _ G E)
    as (used & E1 & H1 & _ & H2 & _).
  exists used. rewrite rev_involutive in H1. split; [exact E1|]. split; [exact H1|]. apply nprec_continues, H2.
Qed.
Lemma dtype_reads L done todo e st : good L todo -> call parse_data_type done todo = Ok e st ->
  exists used, sig todo = used ++ sig (snd st) /\ reads_dtype L e used.
Proof.
  intros G E. destruct (call_wlp L parse_data_type _ ltac:(intros r t HR; apply parse_data_type_s) _ _ _ _ G E)
    as (used & E1 & H1). exists used. rewrite rev_involutive in H1. auto.
Qed.
Lemma stmt_reads L done todo s st : good L todo -> call parse_statement done todo = Ok s st ->
  exists used, sig todo = used ++ sig (snd st) /\ reads_stmt L s used.
Proof.
  intros G E. destruct (call_wlp L parse_statement _ ltac:(intros r t HR; apply parse_statement_s, HR) _ _ _ _ G E)
    as (used & E1 & H1). exists used. rewrite rev_involutive in H1. auto.
Qed.
Lemma sql_reads L pc done todo l st : good L todo -> call (parse_sql pc) done todo = Ok l st ->
  sig (snd st) = [] /\ reads_file L l (sig todo).
Proof.
  intros G E. destruct (call_wlp L (parse_sql pc) _ ltac:(intros r t HR; apply parse_sql_s, HR) _ _ _ _ G E)
    as (used & E1 & H1 & H2). rewrite rev_involutive in H1. rewrite E1, H2, app_nil_r. auto.
Qed.

(* ------------------------------------------------------------------ *)
(** ** Texts *)

Lemma reads_lines d p text l rem : LexSpec.reads d p text l rem -> 1 <= pline p -> Forall (fun t => 1 <= pline (tfrom t)) (map fst l).
Proof.
  intros R. induction R as [|p q s text k v l rest H1 H2 H3 IH]; intros Hp; cbn [map fst]; [constructor|]. constructor; [exact Hp|].
  apply IH. subst q. pose proof (token_end_before _ _ _ _ _ p H1) as B. unfold before in B. lia.
Qed.
Lemma tokenize_placed d src toks : dialect_ok d -> tokenize d true src = TOk toks -> Forall placed toks.
Proof.
  intros D E. destruct (tokenize_reads d src toks D E) as (l & R & ->).
  eapply Forall_impl; [|eapply reads_lines; [exact R|cbn; lia]].
  cbv beta. intros t Ht. unfold placed, no_pos. destruct (pline (tfrom t) =? 0) eqn:K; [|reflexivity].
  apply Z.eqb_eq in K. lia.
Qed.
Lemma tokenize_good L d src toks : dialect_ok d -> tokenize d true src = TOk toks -> allows L (sig toks) -> good L toks.
Proof. intros D E A. split; [eapply tokenize_wf; eauto|]. split; [eapply tokenize_placed; eauto|exact A]. Qed.

Lemma with_call {A} (P : rec -> prog A) d src a : parse_with P d src = ROk a ->
  exists toks st, tokenize d true src = TOk toks /\ call P [] toks = Ok a st.
Proof.
  unfold parse_with, run_raw, call. intros E. destruct (tokenize d true src) as [toks| | |]; try discriminate.
  exists toks. destruct (run raw_machine _ _) as [b st| | |]; try discriminate. injection E as ->. eauto.
Qed.

Lemma source_reads L d src l : dialect_ok d -> parse_source d src = ROk l ->
  exists toks, tokenize d true src = TOk toks /\ (allows L (sig toks) -> reads_file L l (sig toks)).
Proof.
  intros D E. destruct (with_call _ _ _ _ E) as (toks & st & E1 & E2). exists toks. split; [exact E1|].
  intros A. exact (proj2 (sql_reads L _ _ _ _ _ (tokenize_good L _ _ _ D E1 A) E2)).
Qed.
Lemma file_reads L d src f : dialect_ok d -> parse_file d src = ROk f ->
  exists toks, tokenize d true src = TOk toks /\ (allows L (sig toks) -> reads L (AFile f) (sig toks)).
Proof.
  intros D E. pose proof (parse_file_source d src D) as S. rewrite E in S. cbn [res_map] in S.
  symmetry in S. apply (source_reads L d src _ D S).
Qed.

(* ------------------------------------------------------------------ *)
(** ** Binding *)

Definition anything : defect -> Prop := fun _ => True.
Lemma good_anything todo : Forall tok_wf todo -> Forall placed todo -> good anything todo.
Proof. repeat split; auto. Qed.

Lemma stmt_any s : forall z, within (of_stmt s) z -> within (AStmt s) z \/ (exists q, s = StQuery q /\ z = AQuery q).
Proof.
  intros z W. destruct s; try (left; exact W). cbn [of_stmt] in W. inversion W as [|? y ? I W']; subst.
  - right. eauto.
  - left. destruct q. eapply within_sub; [|exact W']. exact I.
Qed.
Lemma of_stmt_reads L s ts : reads_stmt L s ts -> reads L (of_stmt s) ts.
Proof. destruct s; auto. Qed.

(** Unique trees. *)
Lemma app_inr_eq {A B} (l l' r r' : list (A + B)) o o' (p : B -> Z) :
  l ++ inr o :: r = l' ++ inr o' :: r' ->
  (forall x, In (inr x) l -> p o <= p x) -> (forall x, In (inr x) l' -> p o' <= p x) ->
  (forall x, In (inr x) r -> p o < p x) -> (forall x, In (inr x) r' -> p o' < p x) ->
  l = l' /\ o = o' /\ r = r'.
Proof.
  intros E H1 H2 H3 H4. revert l' E H2. induction l as [|a l IH]; intros [|b l'] E H2; cbn in E.
  - injection E as -> ->. auto.
  - injection E as <- E. specialize (H2 o (or_introl eq_refl)).
    assert (I : In (inr o') r) by (rewrite E; apply in_or_app; right; left; reflexivity).
    specialize (H3 _ I). lia.
  - injection E as -> E. specialize (H1 o' (or_introl eq_refl)).
    assert (I : In (inr o) r') by (rewrite <- E; apply in_or_app; right; left; reflexivity).
    specialize (H4 _ I). lia.
  - injection E as <- E. destruct (IH ltac:(intros; apply H1; right; auto) l' E ltac:(intros; apply H2; right; auto))
      as (-> & -> & ->). auto.
Qed.

Definition lev (o : operator) : Z := level (op_type o).
Lemma op_in_left e : operators_bound e -> forall x, In (inr x) (written e) -> open_left e <= lev x.
Proof.
  induction e; cbn [written operators_bound]; intros H x I; try (destruct I as [I|[]]; discriminate).
  destruct H as ([H1 H2] & H3 & H4). cbn [open_left]. fold (lev op) in *. apply in_app_or in I. destruct I as [I|[I|I]].
  - specialize (IHe1 H3 _ I). lia.
  - injection I as ->. lia.
  - specialize (IHe2 H4 _ I). lia.
Qed.
Lemma op_in_right e : operators_bound e -> forall x, In (inr x) (written e) -> open_right e <= lev x.
Proof.
  induction e; cbn [written operators_bound]; intros H x I; try (destruct I as [I|[]]; discriminate).
  destruct H as ([H1 H2] & H3 & H4). cbn [open_right]. fold (lev op) in *. apply in_app_or in I. destruct I as [I|[I|I]].
  - specialize (IHe1 H3 _ I). lia.
  - injection I as ->. lia.
  - specialize (IHe2 H4 _ I). lia.
Qed.
Lemma written_two l o r e : match e with EBinary _ _ _ => False | _ => True end -> written l ++ inr o :: written r <> [inl e].
Proof.
  intros _ E. destruct (written l) as [|a u]; cbn in E; [discriminate|]. injection E as _ E. destruct u; discriminate.
Qed.
Lemma binding_unique e : forall e', operators_bound e -> operators_bound e' -> written e = written e' -> e = e'.
Proof.
  induction e; intros e' H H' E;
    try (destruct e'; cbn [written] in E; try congruence;
         exfalso; symmetry in E; revert E; apply written_two; exact I).
  destruct e'; cbn [written] in E; try (exfalso; revert E; apply written_two; exact I).
  cbn [operators_bound] in *. destruct H as ([H1 H2] & H3 & H4), H' as ([H1' H2'] & H3' & H4').
  fold (lev op) in *. fold (lev op0) in *.
  destruct (app_inr_eq _ _ _ _ _ _ lev E) as (E1 & -> & E2).
  - intros x I. pose proof (op_in_right _ H3 x I). lia.
  - intros x I. pose proof (op_in_right _ H3' x I). lia.
  - intros x I. pose proof (op_in_left _ H4 x I). lia.
  - intros x I. pose proof (op_in_left _ H4' x I). lia.
  - f_equal; auto.
Qed.

Definition slev (o : setop * bool) : Z := set_level (fst o).
Lemma set_in s : set_operators_bound s -> forall x, In (inr x) (set_written s) -> set_top s <= slev x.
Proof.
  induction s; cbn [set_written set_operators_bound]; intros H x I; try (destruct I as [I|[]]; discriminate).
  destruct H as ([H1 H2] & H3 & H4). cbn [set_top]. apply in_app_or in I. destruct I as [I|[I|I]].
  - specialize (IHs1 H3 _ I). lia.
  - injection I as <-. unfold slev. cbn. lia.
  - specialize (IHs2 H4 _ I). lia.
Qed.
Lemma set_written_two l o r e : set_written l ++ inr o :: set_written r <> [inl e].
Proof.
  intros E. destruct (set_written l) as [|a u]; cbn in E; [discriminate|]. injection E as _ E. destruct u; discriminate.
Qed.
Lemma set_binding_unique s : forall s', set_operators_bound s -> set_operators_bound s' -> set_written s = set_written s' -> s = s'.
Proof.
  induction s; intros s' H H' E;
    try (destruct s'; cbn [set_written] in E; try congruence;
         exfalso; symmetry in E; revert E; apply set_written_two).
  destruct s'; cbn [set_written] in E; try (exfalso; revert E; apply set_written_two).
  cbn [set_operators_bound] in *. destruct H as ([H1 H2] & H3 & H4), H' as ([H1' H2'] & H3' & H4').
  destruct (app_inr_eq _ _ _ _ _ _ slev E) as (E1 & E0 & E2).
  - intros x I. pose proof (set_in _ H3 x I). unfold slev at 1. cbn [fst]. lia.
  - intros x I. pose proof (set_in _ H3' x I). unfold slev at 1. cbn [fst]. lia.
  - intros x I. pose proof (set_in _ H4 x I). unfold slev at 1. cbn [fst]. lia.
  - intros x I. pose proof (set_in _ H4' x I). unfold slev at 1. cbn [fst]. lia.
  - injection E0 as -> ->. f_equal; auto.
Qed.
