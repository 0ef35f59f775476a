(** Proofs for C69. *)
From Coq Require Import ZArith List Bool Lia ZifyBool Permutation Sorted.
From Verif Require Import Base Dialect Token Lexer LexSpec LexFacts LexThms AST Num Prog Parser ParseSpec Sim SrcThms CommentSpec CommentThms GroupSpec.
Import ListNotations.
Open Scope Z_scope.

Definition gathered (l : list token) : gathering := fold_left gather l (mkG [] [] None).
Lemma gathered_app l t : gathered (l ++ [t]) = gather (gathered l) t.
Proof. unfold gathered. rewrite fold_left_app. reflexivity. Qed.
Lemma groups_eq l : groups_of l = close (gathered l).
Proof. reflexivity. Qed.

Lemma gather_signif g t : signif t = true -> gather g t = mkG (close g) [] (Some (pline (tto t))).
Proof. unfold signif, skipped, gather. destruct (tkind t); cbn; try discriminate; reflexivity. Qed.

(** The last token that counts; the list is reversed. *)
Fixpoint last_sig (d : list token) : option token :=
  match d with [] => None | t :: d' => if signif t then Some t else last_sig d' end.
Lemma gathered_line d : g_line (gathered (rev d)) = option_map (fun t => pline (tto t)) (last_sig d).
Proof.
  induction d as [|t d IH]; [reflexivity|]. cbn [rev last_sig]. rewrite gathered_app.
  destruct (signif t) eqn:S; [rewrite gather_signif by exact S; reflexivity|].
  unfold gather. unfold signif, skipped in S. destruct (tkind t); cbn in S; try discriminate S; [|exact IH].
  destruct (line_break t && _); exact IH.
Qed.

(** Lines do not go backwards; the list is reversed. *)
Fixpoint falling (d : list token) : Prop :=
  match d with
  | [] => True
  | t :: d' => Forall (fun x => pline (tto x) <= pline (tto t) /\ pline (tto x) <= pline (tfrom t)) d' /\ falling d'
  end.

Lemma last_sig_in d t : last_sig d = Some t -> In t d.
Proof. induction d as [|x d IH]; cbn; [discriminate|]. destruct (signif x); [intros [= ->]; auto|auto]. Qed.

Lemma split_last d line : falling d ->
  split_scan d line = match last_sig d with Some t => line <=? pline (tto t) | None => false end.
Proof.
  induction d as [|t d IH]; intros F; [reflexivity|]. destruct F as [F1 F2]. cbn [split_scan last_sig].
  change (negb (skipped t)) with (signif t).
  destruct (pline (tto t) <? line) eqn:L.
  - destruct (signif t); [lia|]. destruct (last_sig d) as [x|] eqn:E; [|reflexivity].
    apply last_sig_in in E. rewrite Forall_forall in F1. destruct (F1 _ E). lia.
  - destruct (signif t); [lia|]. apply IH. exact F2.
Qed.

Section Inv.
  Variable toks : list token.
  Hypothesis Hnd : NoDup (map tfrom toks).
  Hypothesis Hfall : forall done todo, rev done ++ todo = toks -> falling done.

  Lemma entries_snd gs : Forall (fun g : commentgroup => g <> []) gs -> map snd (entries gs) = gs.
  Proof.
    induction 1 as [|g gs H _ IH]; [reflexivity|]. destruct g as [|c g]; [congruence|]. cbn [entries flat_map app map snd].
    fold (entries gs). rewrite IH. reflexivity.
  Qed.
  Lemma entries_app a b : entries (a ++ b) = entries a ++ entries b.
  Proof. apply flat_map_app. Qed.

  (** What the map holds after the groups have been added. *)
  Lemma added cm V X groups (m : list comment) : describes cm V -> NoDup (map tfrom (V ++ X)) ->
    List.concat groups ++ m = comments X -> Forall (fun g : commentgroup => g <> []) groups ->
    map snd (fold_left cmap_add (groups ++ [m]) cm) = map snd cm ++ groups ++ match m with [] => [] | _ => [m] end.
  Proof.
    intros (D1 & D2 & _) Hn Hg Hne. rewrite add_fresh; [|exact D1|].
    - rewrite map_app, entries_app, map_app, (entries_snd groups Hne). destruct m; reflexivity.
    - rewrite D2, concat_app. cbn [List.concat]. rewrite app_nil_r, Hg, <- comments_app. apply comments_nodup. exact Hn.
  Qed.

  Lemma frontier_groups cm V ln todo : describes cm V -> forall done X (groups : list commentgroup) (m : list comment),
    rev done = V ++ X -> Forall (fun t => signif t = false) X -> rev done ++ todo = toks -> Forall tok_wf toks ->
    List.concat groups ++ rev m = comments X -> Forall (fun g : commentgroup => g <> []) groups ->
    gathered (V ++ X) = mkG (map snd cm ++ groups) (rev m) ln ->
    forall o d' t' cm', cm_loop done todo cm false groups m = (o, mkCS d' t' cm') -> map snd cm' = groups_of (rev d').
  Proof.
    intros Hd. induction todo as [|t todo IH]; intros done X groups m Hr Hx Ht Hw Hg Hne Hf o d' t' cm' E.
    - cbn [cm_loop] in E. injection E as <- <- <- <-. rewrite app_nil_r in Ht.
      etransitivity; [apply (added cm V X groups (rev m) Hd); [rewrite <- Hr, Ht; exact Hnd|exact Hg|exact Hne]|].
      rewrite groups_eq, Hr, Hf. unfold close. cbn [g_open g_done]. destruct (rev m); rewrite <- ?app_assoc, ?app_nil_r; reflexivity.
    - assert (T' : rev (t :: done) ++ todo = toks) by (cbn; rewrite <- app_assoc; exact Ht).
      assert (R' : rev (t :: done) = V ++ (X ++ [t])) by (cbn; rewrite Hr, app_assoc; reflexivity).
      assert (Nd : NoDup (map tfrom (V ++ X))).
      { rewrite <- Hr. rewrite <- Ht, map_app in Hnd. eapply nodup_app_l. exact Hnd. }
      assert (Wt : tok_wf t) by (rewrite <- Ht in Hw; apply Forall_app in Hw as [_ Hw]; inversion Hw; auto).
      assert (Hf' : gathered (V ++ X ++ [t]) = gather (mkG (map snd cm ++ groups) (rev m) ln) t) by (rewrite app_assoc, gathered_app, Hf; reflexivity).
      destruct (signif t) eqn:S.
      + assert (Es : cm_loop done (t :: todo) cm false groups m = (Some t, mkCS (t :: done) todo (fold_left cmap_add (groups ++ [rev m]) cm))).
        { cbn [cm_loop]. unfold signif, skipped in S. destruct (tkind t); cbn in S; try discriminate S; reflexivity. }
        rewrite Es in E. injection E as <- <- <- <-.
        etransitivity; [exact (added cm V X groups (rev m) Hd Nd Hg Hne)|].
        rewrite groups_eq, R', Hf', gather_signif by exact S. unfold close. cbn [g_open g_done].
        destruct (rev m); rewrite <- ?app_assoc, ?app_nil_r; reflexivity.
      + assert (Hx' : Forall (fun t => signif t = false) (X ++ [t])) by (apply Forall_app; auto).
        cbn [cm_loop] in E. unfold signif, skipped in S.
        destruct (tkind t) eqn:K; cbn in S; try discriminate S.
        * assert (Hg' : List.concat groups ++ rev m = comments (X ++ [t])).
          { rewrite comments_app, <- Hg. unfold comments. cbn. unfold is_comment. rewrite K. cbn. rewrite app_nil_r. reflexivity. }
          unfold gather in Hf'. rewrite K in Hf'. cbn [g_line] in Hf'.
          assert (Lb : line_break t = gs_eqb (tok_str t) [10]).
          { unfold line_break, tok_str. rewrite K. unfold tok_wf in Wt. rewrite K in Wt. destruct (tval t) as [w|s]; [contradiction|].
            destruct s as [|c [|c' s]]; try reflexivity.
            - cbn. rewrite andb_true_r. destruct c as [|q|q]; try reflexivity; repeat (destruct q as [q|q|]; try reflexivity).
            - cbn. rewrite andb_false_r. destruct c as [|q|q]; try reflexivity; repeat (destruct q as [q|q|]; try reflexivity). }
          assert (Ln : ln = option_map (fun t => pline (tto t)) (last_sig done)).
          { rewrite <- gathered_line, Hr, Hf. reflexivity. }
          destruct (gs_eqb (tok_str t) [10]) eqn:B; rewrite Lb in Hf'; cbn [negb orb andb] in E, Hf'.
          2:{ eapply (IH _ (X ++ [t])); eauto. }
          destruct m as [|c m].
          { eapply (IH _ (X ++ [t])); eauto. rewrite Hf'. unfold close. cbn [g_open g_done rev].
            destruct ln; [destruct (_ =? _)|]; reflexivity. }
          assert (Sp : split_scan (t :: done) (pline (tfrom t)) = match ln with Some l => l =? pline (tfrom t) | None => false end).
          { pose proof (Hfall _ _ T') as Fa. rewrite (split_last _ _ Fa). cbn [last_sig].
            assert (S' : signif t = false) by (unfold signif, skipped; rewrite K; reflexivity). rewrite S', Ln.
            destruct (last_sig done) as [x|] eqn:Ex; [|reflexivity]. cbn [option_map]. apply last_sig_in in Ex.
            destruct Fa as [Fa _]. rewrite Forall_forall in Fa. destruct (Fa _ Ex). lia. }
          rewrite Sp in E. 
          destruct (match ln with Some l => l =? pline (tfrom t) | None => false end).
          -- refine (IH (t :: done) (X ++ [t]) (groups ++ [rev (c :: m)]) [] R' Hx' T' Hw _ _ _ o d' t' cm' E).
             ++ cbn [rev]. rewrite app_nil_r. etransitivity; [apply concat_app|]. cbn [List.concat rev]. rewrite ?app_nil_r. exact Hg'.
             ++ apply Forall_app. split; [exact Hne|]. constructor; [|constructor]. cbn [rev]. destruct (rev m); discriminate.
             ++ rewrite Hf'. unfold close. cbn [g_open g_done]. destruct (rev (c :: m)) eqn:Em; [cbn in Em; destruct (rev m); discriminate Em|].
                rewrite <- app_assoc. reflexivity.
          -- eapply (IH _ (X ++ [t])); eauto.
        * assert (M : cmap_mem cm (tfrom t) = false).
          { destruct (cmap_mem cm (tfrom t)) eqn:M; [|reflexivity]. exfalso.
            apply cmap_mem_in in M. destruct Hd as (D1 & D2 & _). apply (keys_in _ _ D1) in M.
            rewrite D2 in M. apply comments_from in M.
            rewrite <- T', R', map_app, !map_app in Hnd. rewrite <- !app_assoc in Hnd.
            apply in_split in M. destruct M as (a & b & E'). rewrite E', <- app_assoc in Hnd.
            apply nodup_app_r in Hnd. cbn in Hnd. inversion_clear Hnd. apply H.
            apply in_or_app. right. apply in_or_app. right. left. reflexivity. }
          rewrite M in E. unfold gather in Hf'. rewrite K in Hf'. cbn [g_line g_done g_open] in Hf'.
          assert (Ec : mkComment (tok_str t) (tfrom t) (tto t) = comment_of t) by reflexivity.
          refine (IH (t :: done) (X ++ [t]) groups (mkComment (tok_str t) (tfrom t) (tto t) :: m) R' Hx' T' Hw _ Hne _ o d' t' cm' E).
          -- rewrite comments_app, <- Hg. cbn [rev]. rewrite app_assoc. f_equal. unfold comments. cbn. unfold is_comment. rewrite K. reflexivity.
          -- rewrite Hf'. cbn [rev]. rewrite <- ?Ec. reflexivity.
  Qed.

  Definition inv2 (V : list token) (s : cstate) : Prop := inv toks V s /\ map snd (cs_map s) = groups_of V.
  Hypothesis Hwf : Forall tok_wf toks.

  Lemma inv2_next V s : inv2 V s ->
    exists V', inv2 V' (snd (m_next cm_machine s)) /\ (exists u, V' = V ++ u) /\
      (fst (m_next cm_machine s) = None -> cs_todo (snd (m_next cm_machine s)) = [] /\ V' = toks).
  Proof.
    intros (I & G). pose proof I as (I1 & [r I2] & [u I3] & I4 & I5 & I6). destruct s as [done todo cm].
    cbn [m_next cm_machine cm_next cs_done cs_todo cs_map] in *. unfold cm_next. cbn [cs_done cs_todo cs_map].
    destruct r as [|x r].
    - rewrite app_nil_r in I2.
      destruct (frontier toks Hnd cm V todo I5 done [] [] []) as (o & d' & t' & cm' & E & F1 & F2 & F3 & F4 & F5 & F6);
        [rewrite app_nil_r; auto|constructor|exact I1|reflexivity|].
      rewrite E. cbn [fst snd]. exists (rev d'). split; [|split; [exact F5|]].
      + split.
        * split; [exact F1|]. cbn [cs_done cs_todo cs_map]. split; [exists []; rewrite app_nil_r; reflexivity|].
          split; [exists t'; symmetry; exact F1|]. split; [exact F2|]. split; [exact F3|apply edge_of; exact F4].
        * cbn [cs_map]. destruct I4 as [->|[->|(V0 & t & -> & St)]].
          -- refine (frontier_groups cm [] None todo I5 done [] [] [] _ _ I1 Hwf _ _ _ o d' t' cm' E);
               [rewrite app_nil_r; auto|constructor|reflexivity|constructor|].
             rewrite app_nil_r. cbn [rev app]. rewrite G. reflexivity.
          -- assert (todo = []) as ->.
             { rewrite <- I2 in I1. rewrite <- (app_nil_r toks) in I1 at 2. apply app_inv_head in I1. exact I1. }
             cbn in E. injection E as <- <- <- <-. rewrite G, I2. reflexivity.
          -- refine (frontier_groups cm _ (Some (pline (tto t))) todo I5 done [] [] [] _ _ I1 Hwf _ _ _ o d' t' cm' E);
               [rewrite app_nil_r; auto|constructor|reflexivity|constructor|].
             rewrite !app_nil_r, G. rewrite groups_eq, gathered_app, gather_signif by exact St. reflexivity.
      + intros ->. specialize (F6 eq_refl). cbn. subst t'. rewrite app_nil_r in F1. auto.
    - destruct (rescan toks cm V todo done false (x :: r) I5 I4 I1 I2 (ex_intro _ u I3)) as (o & d' & t' & r' & H);
        [right; exact I6|discriminate|].
      destruct H as [(E & F1 & F2 & F3)|(E & F1 & F2)]; rewrite E; cbn [fst snd].
      + exists V. split; [|split; [exists []; rewrite app_nil_r; reflexivity|]].
        * split; [|exact G]. repeat split; cbn; auto; [exists r'; exact F2|exists u; exact I3|apply I5|apply I5|apply I5|left; exact F3].
        * intros ->. apply none_end in E. cbn in *. subst t'. split; [reflexivity|].
          rewrite app_nil_r in F1. rewrite F1 in F2. rewrite F2, <- app_assoc in I3.
          rewrite <- (app_nil_r toks) in I3 at 1. apply app_inv_head in I3. destruct r'; [|discriminate].
          rewrite app_nil_r in F2. exact F2.
      + exists V. split; [|split; [exists []; rewrite app_nil_r; reflexivity|]].
        * split; [|exact G]. repeat split; cbn; auto; [rewrite app_nil_r; exact F1|exists []; rewrite app_nil_r; congruence|exists u; exact I3|apply I5|apply I5|apply I5|right; exact Logic.I].
        * intros _. cbn. auto.
  Qed.

  Lemma inv2_prev V s s' : inv2 V s -> m_prev cm_machine s = Some s' -> inv2 V s'.
  Proof.
    intros (I & G) H. split; [eapply inv_prev; eauto|]. cbn [m_prev cm_machine] in H.
    destruct (raw_prev _ _) as [[d t]|]; [|discriminate]. injection H as <-. exact G.
  Qed.
  Lemma inv2_restore V V' u saved s : inv2 V saved -> inv2 V' s -> V' = V ++ u -> inv2 V' (m_restore cm_machine saved s).
  Proof. intros (I & _) (I' & G) E. split; [eapply inv_restore; eauto|exact G]. Qed.

  Lemma inv2_kws V0 saved ks : inv2 V0 saved -> forall V u s acc o s', inv2 V s -> V = V0 ++ u ->
    run_kws cm_machine saved ks acc s = (o, s') -> exists V' u', inv2 V' s' /\ V' = V ++ u'.
  Proof.
    intros I0. induction ks as [|k ks IH]; intros V u s acc o s' I Eu E; cbn [run_kws] in E.
    - injection E as <- <-. exists V, []. rewrite app_nil_r. auto.
    - assert (X : (o, s') = (@None (list token), m_restore cm_machine saved s) -> exists V' u', inv2 V' s' /\ V' = V ++ u').
      { intros [= -> ->]. exists V, []. rewrite app_nil_r. split; [|reflexivity]. eapply inv2_restore; eauto. }
      destruct (m_peek cm_machine s); [|apply X; congruence]. destruct (is_kw k t); [|apply X; congruence].
      destruct (inv2_next V s I) as (V1 & I1 & [u1 E1] & _).
      assert (E0 : V1 = V0 ++ (u ++ u1)) by (rewrite E1, Eu, app_assoc; reflexivity).
      destruct (IH V1 (u ++ u1) _ _ _ _ I1 E0 E) as (V2 & u2 & I2 & E2).
      exists V2, (u1 ++ u2). split; [exact I2|]. rewrite E2, E1, app_assoc. reflexivity.
  Qed.

  Lemma inv2_run {A} (p : prog A) : forall V s a s', inv2 V s -> run cm_machine p s = Ok a s' ->
    exists V', inv2 V' s'.
  Proof.
    induction p; intros V s a' s' I E; cbn [run] in E; try discriminate E.
    - injection E as <- <-. eauto.
    - destruct (inv2_next V s I) as (V1 & I1 & _). destruct (m_next cm_machine s). eauto.
    - eauto.
    - destruct (m_prev cm_machine s) eqn:F; [|discriminate]. eapply IHp; [eapply inv2_prev; eauto|exact E].
    - destruct (run_kws cm_machine s ks [] s) as [o1 s1] eqn:F.
      destruct (inv2_kws V s ks I V [] s [] o1 s1 I) as (V2 & u2 & I2 & E2); [rewrite app_nil_r; reflexivity|exact F|].
      eauto.
  Qed.

  Lemma parsed_groups r stmts s : run cm_machine (parse_sql true r) (mkCS [] toks []) = Ok stmts s ->
    map snd (cs_map s) = groups_of toks.
  Proof.
    intros E. unfold parse_sql in E.
    assert (I0 : inv2 [] (mkCS [] toks [])).
    { split; [|reflexivity]. repeat split; cbn; auto; [exists []; reflexivity|exists toks; reflexivity|left; reflexivity| |left; reflexivity].
      intros a t b H. destruct a; discriminate. }
    eapply (loop_last cm_machine (fun s => exists V, inv2 V s)) in E; [| |exists []; exact I0].
    2: { intros x s0 y s1 [V I] F. eapply inv2_run; eauto. }
    destruct E as ((acc & ex) & s1 & [V1 I1] & E). rewrite run_bind in E.
    destruct (run cm_machine (consume_token Semicolon) s1) as [ok s2| | |] eqn:F; cbn [obind] in E; try discriminate.
    destruct (inv2_run _ V1 s1 ok s2 I1 F) as [V2 I2].
    destruct (negb ok && ex); [discriminate|].
    cbn [bind run] in E. destruct (inv2_next V2 s2 I2) as (V3 & I3 & _ & N).
    destruct (m_next cm_machine s2) as [[t|] s3]; cbn [bind run prev fst snd] in *.
    - destruct (m_prev cm_machine s3); [|discriminate]. rewrite run_bind in E.
      destruct (run cm_machine (parse_statement r) c); discriminate.
    - injection E as <- <-. destruct (N eq_refl) as [_ ->]. exact (proj2 I3).
  Qed.
End Inv.

Lemma before_line p q : before p q -> pline p <= pline q.
Proof. unfold before. lia. Qed.

Lemma toks_falling d src toks : dialect_ok d -> tokenize d true src = TOk toks ->
  forall done todo, rev done ++ todo = toks -> falling done.
Proof.
  intros D E. destruct (positions_tile d src toks D E) as (_ & P2 & P3 & P4).
  assert (M : forall a x b y, toks = a ++ x :: b -> In y b -> pline (tto x) <= pline (tfrom y)).
  { intros a x b y T Y. destruct b as [|u b]; [destruct Y|]. rewrite <- (P2 a x u b T).
    destruct Y as [->|Y]; [lia|]. apply before_line. apply (P4 (a ++ [x]) u b y); [rewrite <- app_assoc; exact T|exact Y]. }
  induction done as [|t done IH]; intros todo T; [exact Logic.I|]. cbn [rev] in T. rewrite <- app_assoc in T.
  split; [|eapply IH; exact T]. apply Forall_forall. intros x X. apply in_rev in X. apply in_split in X as (a & b & X).
  assert (L : pline (tto x) <= pline (tfrom t)).
  { apply (M a x (b ++ t :: todo)); [|apply in_elt]. rewrite <- T, X, <- app_assoc. reflexivity. }
  split; [|exact L]. assert (In t toks) by (rewrite <- T; apply in_elt). specialize (P3 t H). apply before_line in P3. lia.
Qed.

Lemma file_groups d src toks f : dialect_ok d -> tokenize d true src = TOk toks -> parse_file d src = ROk f ->
  f_comments f = groups_of toks.
Proof.
  intros D E H. pose proof (file_comments d src toks f D E H) as (_ & _ & So).
  pose proof (toks_falling d src toks D E) as Fa. pose proof (tokenize_wf d true src toks D E) as W.
  destruct (positions_tile d src toks D E) as (_ & _ & _ & Hb). apply sorted_tokens in Hb.
  assert (Nd := sorted_nodup _ Hb).
  unfold parse_file in H. rewrite E in H.
  unfold run_cm in H. destruct (run cm_machine _ _) as [stmts s| | |] eqn:F; try discriminate.
  injection H as <-. cbn [f_comments] in *.
  pose proof (parsed_groups toks Nd Fa W _ stmts s F) as G.
  destruct (parsed_all toks _ stmts s Nd F) as [A B].
  assert (Ne : Forall (fun g : commentgroup => g <> []) (map snd (cs_map s))).
  { clear -A. induction A as [|[p g] l (c & g' & X & _) _ IH]; [constructor|]. cbn. constructor; [|exact IH].
    cbn in X. rewrite X. discriminate. }
  assert (So' : StronglySorted before (map group_pos (map snd (cs_map s)))).
  { apply sorted_heads; [exact Ne|]. rewrite B. apply sorted_comments. exact Hb. }
  etransitivity; [apply (sort_sorted _ So')|]. exact G.
Qed.
