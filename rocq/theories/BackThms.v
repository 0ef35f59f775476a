(** Proofs for C71. *)
From Coq Require Import ZArith List Bool Lia ZifyBool Permutation Sorted.
From Verif Require Import Base Dialect Token Lexer LexSpec LexFacts LexThms AST Num Prog Parser Erase ParseSpec Sim SrcThms ApiThms CommentSpec CommentThms CostSpec CostThms MoveThms BackSpec.
Import ListNotations.
Open Scope nat_scope.

Definition newline (t : token) : bool := match tkind t with Whitespace => gs_eqb (tok_str t) [10%Z] | _ => false end.

(** What looking back once from every line break would cost. *)
Fixpoint owed (a l : list token) : nat :=
  match l with
  | [] => 0
  | t :: l' => (if newline t then scan_rounds (t :: a) (pline (tfrom t)) else 0) + owed (t :: a) l'
  end.
Lemma owed_app l1 : forall a l2, owed a (l1 ++ l2) = owed a l1 + owed (rev l1 ++ a) l2.
Proof.
  induction l1 as [|t l1 IH]; intros a l2; cbn [app owed]; [reflexivity|]. rewrite IH. cbn [rev]. rewrite <- app_assoc. cbn [app]. lia.
Qed.

Lemma back_owed todo : forall done cm skip groups m o s, cm_loop done todo cm skip groups m = (o, s) ->
  exists u, rev (cs_done s) = rev done ++ u /\ looks_back done todo cm skip m <= owed done u.
Proof.
  induction todo as [|t todo IH]; intros done cm skip groups m o s E; cbn [cm_loop looks_back] in *.
  - injection E as <- <-. exists []. rewrite app_nil_r. split; [reflexivity|cbn; lia].
  - assert (G : forall skip' groups' m', cm_loop (t :: done) todo cm skip' groups' m' = (o, s) ->
      exists u, rev (cs_done s) = rev done ++ t :: u /\ looks_back (t :: done) todo cm skip' m' <= owed (t :: done) u).
    { intros skip' groups' m' F. destruct (IH _ _ _ _ _ _ _ F) as (u & U & L). exists u. cbn [rev] in U. rewrite <- app_assoc in U. auto. }
    destruct (tkind t) eqn:K.
    all: try (injection E as <- <-; exists [t]; split; [reflexivity|lia]).
    + assert (N : newline t = gs_eqb (tok_str t) [10%Z]) by (unfold newline; rewrite K; reflexivity).
      destruct (gs_eqb (tok_str t) [10%Z]) eqn:B; cbn [negb orb] in *.
      2:{ destruct (G _ _ _ E) as (u & U & L). exists (t :: u). split; [exact U|]. cbn [owed]. lia. }
      destruct m as [|c m]; [destruct (G _ _ _ E) as (u & U & L); exists (t :: u); split; [exact U|]; cbn [owed]; lia|].
      destruct (split_scan _ _); destruct (G _ _ _ E) as (u & U & L); exists (t :: u); (split; [exact U|]); cbn [owed]; rewrite N; lia.
    + destruct skip; [destruct (G _ _ _ E) as (u & U & L); exists (t :: u); split; [exact U|]; cbn [owed]; lia|].
      destruct (cmap_mem cm (tfrom t)); destruct (G _ _ _ E) as (u & U & L); exists (t :: u); (split; [exact U|]); cbn [owed]; lia.
Qed.

Lemma back_skip todo : forall done cm, looks_back done todo cm true [] = 0.
Proof.
  induction todo as [|t todo IH]; intros done cm; cbn [looks_back]; [reflexivity|].
  destruct (tkind t); try reflexivity; [rewrite orb_true_r|]; apply IH.
Qed.

Lemma back_again toks cm V todo : forall done r,
  describes cm V -> boundary V toks -> rev done ++ todo = toks -> V = rev done ++ r -> (exists u, toks = V ++ u) ->
  (clean done = true \/ match todo with [] => True | x :: _ => signif x = true end) -> r <> [] ->
  looks_back done todo cm false [] = 0.
Proof.
  induction todo as [|t todo IH]; intros done r Hd Hb Ht Hr Hu Hs Hne; [reflexivity|].
  destruct r as [|x r]; [congruence|]. destruct Hu as [u Hu].
  assert (x = t). { rewrite <- Ht, Hr, <- app_assoc in Hu. apply app_inv_head in Hu. cbn in Hu. congruence. } subst x.
  destruct (signif t) eqn:S.
  { cbn [looks_back]. unfold signif, skipped in S. destruct (tkind t); cbn in S; try discriminate S; reflexivity. }
  assert (Hc : clean done = true) by (destruct Hs as [Hs|Hs]; [exact Hs|congruence]).
  assert (T' : rev (t :: done) ++ todo = toks) by (cbn; rewrite <- app_assoc; exact Ht).
  assert (R' : V = rev (t :: done) ++ r) by (cbn; rewrite <- app_assoc; exact Hr).
  pose proof S as S'. unfold signif, skipped in S. cbn [looks_back]. destruct (tkind t) eqn:K; cbn in S; try discriminate S.
  - rewrite orb_true_r.
    assert (N : r <> [] \/ todo = []).
    { destruct r as [|y r]; [right|left; discriminate].
      assert (V = toks) as VT.
      { destruct Hb as [->|[->|(V0 & z & -> & Z)]]; [destruct (rev done); discriminate|reflexivity|].
        rewrite Hr in *. apply app_inj_tail in Hr. destruct Hr as [_ ->]. congruence. }
      rewrite VT in Hr. rewrite <- Ht in Hr. apply app_inv_head in Hr. injection Hr as Hr. exact Hr. }
    destruct N as [N| ->]; [|reflexivity].
    apply (IH (t :: done) r Hd Hb T' R' (ex_intro _ u Hu)); [|exact N].
    left. cbn [clean]. rewrite S'. unfold is_comment. rewrite K. exact Hc.
  - assert (M : cmap_mem cm (tfrom t) = true).
    { apply cmap_mem_in. destruct Hd as (_ & _ & Hd). eapply Hd; [exact Hr| |].
      - unfold is_comment. rewrite K. reflexivity.
      - rewrite rev_involutive. exact Hc. }
    rewrite M. apply back_skip.
Qed.

Section Run.
  Variable toks : list token.
  Hypothesis Hnd : NoDup (map tfrom toks).

  Lemma inv_next_back V s : inv toks V s -> exists V', inv toks V' (snd (m_next cm_machine s)) /\ (exists u, V' = V ++ u) /\
    back_of s + owed [] V <= owed [] V'.
  Proof.
    intros I. pose proof I as (I1 & [r I2] & [u I3] & I4 & I5 & I6). destruct s as [done todo cm].
    cbn [m_next cm_machine cs_done cs_todo cs_map] in *. unfold cm_next, back_of. cbn [cs_done cs_todo cs_map].
    destruct r as [|x r].
    - rewrite app_nil_r in I2.
      destruct (frontier toks Hnd cm V todo I5 done [] [] []) as (o & d' & t' & cm' & E & F1 & F2 & F3 & F4 & F5 & F6);
        [rewrite app_nil_r; auto|constructor|exact I1|reflexivity|].
      destruct (back_owed _ _ _ _ _ _ _ _ E) as (w & W1 & W2). rewrite E. cbn [fst snd cs_done] in *.
      exists (rev d'). split; [|split; [exact F5|]].
      + split; [exact F1|]. cbn [cs_done cs_todo cs_map]. split; [exists []; rewrite app_nil_r; reflexivity|].
        split; [exists t'; symmetry; exact F1|]. split; [exact F2|]. split; [exact F3|apply edge_of; exact F4].
      + rewrite W1, owed_app, app_nil_r, rev_involutive, I2. lia.
    - rewrite (back_again toks cm V todo done (x :: r) I5 I4 I1 I2 (ex_intro _ u I3) I6) by discriminate.
      destruct (rescan toks cm V todo done false (x :: r) I5 I4 I1 I2 (ex_intro _ u I3)) as (o & d' & t' & r' & H);
        [right; exact I6|discriminate|].
      exists V. destruct H as [(E & F1 & F2 & F3)|(E & F1 & F2)]; rewrite E; cbn [fst snd].
      + split; [|split; [exists []; rewrite app_nil_r; reflexivity|lia]].
        repeat split; cbn; auto; [exists r'; exact F2|exists u; exact I3|apply I5|apply I5|apply I5|left; exact F3].
      + split; [|split; [exists []; rewrite app_nil_r; reflexivity|lia]].
        repeat split; cbn; auto; [rewrite app_nil_r; exact F1|exists []; rewrite app_nil_r; congruence|exists u; exact I3|apply I5|apply I5|apply I5|right; exact Logic.I].
  Qed.

  Lemma back_kws_run V0 saved ks : inv toks V0 saved -> forall V u s acc o s', inv toks V s -> V = V0 ++ u ->
    run_kws cm_machine saved ks acc s = (o, s') -> exists V', inv toks V' s' /\ back_kws ks s + owed [] V <= owed [] V'.
  Proof.
    intros I0. induction ks as [|k ks IH]; intros V u s acc o s' I Eu E; cbn [run_kws back_kws] in *.
    - injection E as <- <-. exists V. auto.
    - assert (X : (o, s') = (@None (list token), m_restore cm_machine saved s) -> exists V', inv toks V' s' /\ 0 + owed [] V <= owed [] V').
      { intros [= -> ->]. exists V. split; [|lia]. eapply inv_restore; eauto. }
      destruct (m_peek cm_machine s); [|apply X; congruence]. destruct (is_kw k t); [|apply X; congruence].
      destruct (inv_next_back V s I) as (V1 & I1 & [u1 E1] & L1).
      assert (E0 : V1 = V0 ++ (u ++ u1)) by (rewrite E1, Eu, app_assoc; reflexivity).
      destruct (IH V1 (u ++ u1) _ _ _ _ I1 E0 E) as (V2 & I2 & L2).
      exists V2. split; [exact I2|lia].
  Qed.

  Lemma inv_owed V s : inv toks V s -> owed [] V <= owed [] toks.
  Proof. intros (_ & _ & [r ->] & _). rewrite owed_app. lia. Qed.

  Lemma backward_run {A} (p : prog A) : forall V s, inv toks V s -> backward p s + owed [] V <= owed [] toks.
  Proof.
    induction p as [a| |w| |k IH|k IH|k IH|ks k IH]; intros V s I; cbn [backward]; try (apply (inv_owed V s I)).
    - destruct (inv_next_back V s I) as (V1 & I1 & _ & L). destruct (m_next cm_machine s) as [o s']. cbn [snd] in I1.
      specialize (IH o V1 s' I1). lia.
    - apply IH. exact I.
    - destruct (m_prev cm_machine s) as [s'|] eqn:F; [|apply (inv_owed V s I)]. apply IH. eapply inv_prev; eauto.
    - destruct (run_kws cm_machine s ks [] s) as [o s'] eqn:F.
      destruct (back_kws_run V s ks I V [] s [] o s' I) as (V1 & I1 & L); [rewrite app_nil_r; reflexivity|exact F|].
      specialize (IH o V1 s' I1). lia.
  Qed.
End Run.

(** * What is owed *)
Definition at_least (line : Z) (a : list token) : nat := List.length (filter (fun t => (line <=? pline (tto t))%Z) a).
Lemma scan_at_least a line : scan_rounds a line <= 1 + at_least line a.
Proof.
  induction a as [|t a IH]; cbn [scan_rounds]; [unfold at_least; cbn; lia|].
  unfold at_least in *. cbn [filter]. destruct (pline (tto t) <? line)%Z eqn:L; [lia|].
  replace (line <=? pline (tto t))%Z with true by lia. cbn [List.length]. destruct (negb (skipped t)); lia.
Qed.
Lemma at_least_none line a : Forall (fun t => (pline (tto t) < line)%Z) a -> at_least line a = 0.
Proof.
  induction 1 as [|t a H _ IH]; [reflexivity|]. unfold at_least in *. cbn [filter].
  replace (line <=? pline (tto t))%Z with false by lia. exact IH.
Qed.
Lemma at_least_mono l l' a : (l <= l')%Z -> at_least l' a <= at_least l a.
Proof.
  intros L. unfold at_least. induction a as [|t a IH]; [cbn; lia|]. cbn [filter].
  destruct (l' <=? pline (tto t))%Z eqn:E; destruct (l <=? pline (tto t))%Z eqn:F; cbn [List.length]; lia.
Qed.

Lemma newline_end d k v s text p q : lexeme d k v s text -> newline (mkTok k v p q) = true -> (pline p + 1 <= pline (token_end k v s p))%Z.
Proof.
  unfold newline, tok_str. cbn [tkind tval]. intros L N. destruct k; try discriminate N.
  inversion L; subst; try (vm_compute in N; discriminate N).
  all: try (cbn [token_end advance Z.eqb Pos.eqb pline]; apply Z.le_refl).
  exfalso. repeat (destruct H as [H|H]; [discriminate H|]). destruct H.
Qed.

Lemma owed_reads d p text l rem : reads d p text l rem -> forall a, Forall (fun t => (pline (tto t) <= pline p)%Z) a ->
  owed a (map fst l) <= 3 * List.length l + at_least (pline p) a.
Proof.
  induction 1 as [p text|p q s text k v l rest Lx Eq R IH]; intros a Ha; cbn [map fst owed List.length]; [lia|].
  pose proof (token_end_line k v s p) as Ge. rewrite <- Eq in Ge.
  assert (Ha' : Forall (fun t => (pline (tto t) <= pline q)%Z) (mkTok k v p q :: a)).
  { constructor; [cbn; lia|]. eapply Forall_impl; [|exact Ha]. cbn. intros; lia. }
  specialize (IH _ Ha'). cbn [tfrom].
  assert (Sc : scan_rounds (mkTok k v p q :: a) (pline p) <= 2 + at_least (pline p) a).
  { pose proof (scan_at_least (mkTok k v p q :: a) (pline p)) as X. unfold at_least in X. cbn [filter tto] in X.
    replace (pline p <=? pline q)%Z with true in X by lia. cbn [List.length] in X. unfold at_least. lia. }
  assert (Q : at_least (pline q) (mkTok k v p q :: a) = 1 + at_least (pline q) a).
  { unfold at_least. cbn [filter tto]. rewrite Z.leb_refl. reflexivity. }
  destruct (newline (mkTok k v p q)) eqn:N.
  - pose proof (newline_end _ _ _ _ _ _ _ Lx N) as G. rewrite <- Eq in G.
    assert (Z0 : at_least (pline q) a = 0) by (apply at_least_none; eapply Forall_impl; [|exact Ha]; cbn; intros; lia). lia.
  - pose proof (at_least_mono (pline p) (pline q) a Ge). lia.
Qed.

Lemma backward_source {A} (P : prog A) d src toks : dialect_ok d -> tokenize d true src = TOk toks ->
  backward P (mkCS [] toks []) <= 3 * List.length toks.
Proof.
  intros D E. destruct (positions_tile d src toks D E) as (_ & _ & _ & Hb). apply sorted_tokens in Hb.
  assert (I0 : inv toks [] (mkCS [] toks [])).
  { repeat split; cbn; auto; [exists []; reflexivity|exists toks; reflexivity|left; reflexivity| |left; reflexivity].
    intros a t b H. destruct a; discriminate. }
  pose proof (backward_run toks (sorted_nodup _ Hb) P [] _ I0) as B. cbn [owed] in B.
  destruct (tokenize_reads _ _ _ D E) as (l & R & ->).
  pose proof (owed_reads _ _ _ _ _ R [] ltac:(constructor)) as O. rewrite map_length. unfold at_least in O. cbn in O. cbn in B. lia.
Qed.

(** * The forward loops *)
Lemma cm_loop_zip todo : forall done cm skip groups m, let s := snd (cm_loop done todo cm skip groups m) in rev (cs_done s) ++ cs_todo s = rev done ++ todo.
Proof.
  induction todo as [|t todo IH]; intros done cm skip groups m; cbn [cm_loop]; [reflexivity|].
  assert (G : forall skip groups m, let s := snd (cm_loop (t :: done) todo cm skip groups m) in rev (cs_done s) ++ cs_todo s = rev done ++ t :: todo).
  { intros sk gr mm. cbn zeta. etransitivity; [apply (IH (t :: done))|]. cbn. rewrite <- app_assoc. reflexivity. }
  destruct (tkind t); try (cbn; rewrite <- app_assoc; reflexivity);
    repeat match goal with |- context [if ?b then _ else _] => destruct b end; apply G.
Qed.
Lemma visits_cm_ops {A} (p : prog A) s b : blanks_at_most b (rev (cs_done s) ++ cs_todo s) ->
  visits_cm p s <= (b + 1) * operations cm_machine p s.
Proof.
  destruct s as [done todo cm0]. cbn [cs_done cs_todo].
  intros HB. unfold visits_cm. apply weight with (Inv := fun s => rev (cs_done s) ++ cs_todo s = rev done ++ todo).
  - intros [d t c] H. cbn [cs_done cs_todo] in *. rewrite <- H in HB. split.
    + destruct (rounds_run t) as (x & y & E & K & ->). specialize (HB (rev d) x y). rewrite E in HB. specialize (HB eq_refl K). lia.
    + destruct (rounds_run d) as (x & y & E & K & ->). specialize (HB (rev y) (rev x) t). rewrite rev_length, forallb_rev in HB.
      rewrite E, rev_app_distr, <- app_assoc in HB. specialize (HB eq_refl K). lia.
  - intros [d t c] H. cbn [m_next cm_machine]. unfold cm_next. cbn [cs_done cs_todo cs_map] in *. etransitivity; [apply cm_loop_zip|exact H].
  - intros [d t c] s' H E. cbn [m_prev cm_machine cs_done cs_todo cs_map] in *. destruct (raw_prev d t) as [[d' t']|] eqn:F; [|discriminate E].
    injection E as <-. cbn [cs_done cs_todo]. pose proof (raw_prev_zip _ _ _ F) as Zp. cbn [fst snd] in Zp. rewrite Zp. exact H.
  - intros a s Ha Hs. cbn [m_restore cm_machine cs_done cs_todo]. exact Ha.
  - reflexivity.
Qed.
Lemma collect_source {A} (P : rec -> prog A) erA k n d src toks b : public P erA k -> dialect_ok d -> tokenize d true src = TOk toks ->
  blanks_at_most b toks ->
  visits_cm (P (knot n)) (mkCS [] toks []) + backward (P (knot n)) (mkCS [] toks []) <= (b + 1) * (100 * List.length (sig toks) + 60) + 3 * List.length toks.
Proof.
  intros HP D E HB. destruct (calls_anywhere P erA k n [] toks [] HP (tokenize_wf _ _ _ _ D E)) as [_ H].
  pose proof (visits_cm_ops (P (knot n)) (mkCS [] toks []) b HB) as V. pose proof (backward_source (P (knot n)) d src toks D E). nia.
Qed.
