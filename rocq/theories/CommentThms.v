(** ParseComment collects every comment once, in order, in spite of
    backtracking. *)
From Coq Require Import ZArith List Bool Lia ZifyBool Permutation Sorted.
From Verif Require Import Base Dialect Token Lexer LexSpec LexFacts LexThms AST Num Prog Parser Sim CommentSpec.
Import ListNotations.
Open Scope Z_scope.

Lemma nodup_app_r {A} (a b : list A) : NoDup (a ++ b) -> NoDup b.
Proof. induction a; [auto|]. intros H. inversion_clear H. auto. Qed.

Lemma comments_app a b : comments (a ++ b) = comments a ++ comments b.
Proof. unfold comments. rewrite filter_app, map_app. reflexivity. Qed.

Lemma pos_eqb_eq p q : pos_eqb p q = true <-> p = q.
Proof.
  unfold pos_eqb. destruct p as [a b], q as [a' b']; cbn. rewrite andb_true_iff, !Z.eqb_eq.
  split; [intros [-> ->]; reflexivity|intros E; injection E; auto].
Qed.

(* ------------------------------------------------------------------ *)
(** ** The map *)

(** Each entry is a non-empty group under the position of its first comment. *)
Definition entry_ok (e : pos * commentgroup) : Prop := exists c l, snd e = c :: l /\ fst e = c_from c.

Lemma cmap_set_fresh cm p g : ~ In p (map fst cm) -> cmap_set cm p g = cm ++ [(p, g)].
Proof.
  induction cm as [|[q h] cm IH]; intros H; [reflexivity|]. cbn [cmap_set].
  destruct (pos_eqb q p) eqn:E; [apply pos_eqb_eq in E; subst; exfalso; apply H; left; reflexivity|].
  cbn [app]. rewrite IH; [reflexivity|]. intros I. apply H. right. exact I.
Qed.

Lemma cmap_mem_in cm p : cmap_mem cm p = true <-> In p (map fst cm).
Proof.
  unfold cmap_mem. rewrite existsb_exists, in_map_iff. split.
  - intros (e & I & E). apply pos_eqb_eq in E. eauto.
  - intros (e & E & I). exists e. split; [exact I|]. apply pos_eqb_eq. exact E.
Qed.

Lemma keys_in cm p : Forall entry_ok cm -> In p (map fst cm) ->
  In p (map c_from (List.concat (map snd cm))).
Proof.
  induction 1 as [|e cm (c & l & E1 & E2) H IH]; [intros []|]. cbn [map In List.concat]. rewrite map_app, in_app_iff.
  intros [I|I]; [left|right; auto]. rewrite E1. subst p. rewrite E2. left. reflexivity.
Qed.

(** Adding groups whose comments are all new. *)
Definition entries (gs : list commentgroup) : cmap :=
  flat_map (fun g => match g with [] => [] | c :: _ => [(c_from c, g)] end) gs.

Lemma entries_concat gs : List.concat (map snd (entries gs)) = List.concat gs.
Proof.
  induction gs as [|[|c g] gs IH]; [reflexivity|exact IH|]. cbn [entries flat_map app map snd List.concat].
  fold (entries gs). rewrite IH. reflexivity.
Qed.

Lemma entries_ok gs : Forall entry_ok (entries gs).
Proof.
  induction gs as [|[|c g] gs IH]; [constructor|exact IH|]. cbn. constructor; [|exact IH]. exists c, g. auto.
Qed.

Lemma add_fresh gs : forall cm, Forall entry_ok cm ->
  NoDup (map c_from (List.concat (map snd cm) ++ List.concat gs)) ->
  fold_left cmap_add gs cm = cm ++ entries gs.
Proof.
  induction gs as [|g gs IH]; intros cm Hc Hn; [cbn; rewrite app_nil_r; reflexivity|].
  cbn [fold_left]. destruct g as [|c g]; cbn [cmap_add].
  - apply IH; assumption.
  - assert (F : ~ In (c_from c) (map fst cm)).
    { intros I. apply (keys_in cm _ Hc) in I. rewrite map_app in Hn.
      apply in_split in I. destruct I as (a & b & E). rewrite E in Hn. cbn in Hn.
      rewrite <- app_assoc in Hn. apply nodup_app_r in Hn. cbn in Hn.
      inversion_clear Hn. apply H. apply in_or_app. right. left. reflexivity. }
    rewrite (cmap_set_fresh _ _ _ F), IH.
    + rewrite <- app_assoc. reflexivity.
    + apply Forall_app. split; [exact Hc|]. constructor; [exists c, g; auto|constructor].
    + rewrite (map_app snd), concat_app. cbn [map snd List.concat]. rewrite app_nil_r.
      cbn [List.concat] in Hn. rewrite <- app_assoc. exact Hn.
Qed.

(* ------------------------------------------------------------------ *)
(** ** Gaps *)

(** No comment since the last significant token; [d] is reversed. *)
Fixpoint clean (d : list token) : bool :=
  match d with
  | [] => true
  | t :: d' => if signif t then true else if is_comment t then false else clean d'
  end.

(** The map describes the tokens [V]. *)
Definition describes (cm : cmap) (V : list token) : Prop :=
  Forall entry_ok cm /\
  List.concat (map snd cm) = comments V /\
  (forall a t b, V = a ++ t :: b -> is_comment t = true -> clean (rev a) = true ->
     In (tfrom t) (map fst cm)).

(** The reader stands at the start of the input, behind a significant token, or
    in front of one (or at the end). *)
Definition at_edge (d t : list token) : Prop :=
  clean d = true \/ match t with [] => True | x :: _ => signif x = true end.

Definition boundary (V toks : list token) : Prop :=
  V = [] \/ V = toks \/ exists V0 t, V = V0 ++ [t] /\ signif t = true.

Section Inv.
  Variable toks : list token.
  Hypothesis Hnd : NoDup (map tfrom toks).

  Definition inv (V : list token) (s : cstate) : Prop :=
    rev (cs_done s) ++ cs_todo s = toks /\
    (exists r, V = rev (cs_done s) ++ r) /\
    (exists r, toks = V ++ r) /\
    boundary V toks /\ describes (cs_map s) V /\ at_edge (cs_done s) (cs_todo s).

  Lemma kind_comment t : is_comment t = true -> signif t = false.
  Proof. unfold is_comment, signif, skipped. destruct (tkind t); cbn; congruence. Qed.

  (** Reading again what has been read collects nothing. *)
  Lemma rescan cm V todo : forall done skip r,
    describes cm V -> boundary V toks -> rev done ++ todo = toks ->
    V = rev done ++ r -> (exists u, toks = V ++ u) ->
    (skip = true \/ clean done = true \/ match todo with [] => True | x :: _ => signif x = true end) ->
    r <> [] ->
    exists o done' todo' r', cm_loop done todo cm skip [] [] = (o, mkCS done' todo' cm) /\
      rev done' ++ todo' = toks /\ V = rev done' ++ r' /\ clean done' = true \/ 
      cm_loop done todo cm skip [] [] = (None, mkCS done' [] cm) /\ rev done' = toks /\ V = toks.
  Proof.
    induction todo as [|t todo IH]; intros done skip r Hd Hb Ht Hr Hu Hs Hne.
    - exfalso. destruct Hu as [u Hu]. rewrite app_nil_r in Ht. rewrite <- Ht, Hr, <- app_assoc in Hu.
      rewrite <- (app_nil_r (rev done)) in Hu at 1. apply app_inv_head in Hu. destruct r; [congruence|discriminate].
    - destruct r as [|x r]; [congruence|]. destruct Hu as [u Hu].
      assert (x = t).
      { rewrite <- Ht, Hr, <- app_assoc in Hu. apply app_inv_head in Hu. cbn in Hu. congruence. } subst x.
      assert (Step : (signif t = true) \/
        (signif t = false /\ (r <> [] \/ (r = [] /\ todo = [] /\ V = toks)))).
      { destruct (signif t) eqn:E; [left; reflexivity|right]. split; [reflexivity|].
        destruct r as [|y r]; [right|left; discriminate].
        assert (V = toks) as VT.
        { destruct Hb as [->|[->|(V0 & z & -> & Z)]]; [destruct (rev done); discriminate|reflexivity|].
          rewrite Hr in *. apply app_inj_tail in Hr. destruct Hr as [_ ->]. congruence. }
        split; [reflexivity|]. split; [|exact VT].
        rewrite VT in Hr. rewrite <- Ht in Hr. apply app_inv_head in Hr. injection Hr as Hr. exact Hr. }
      assert (T' : rev (t :: done) ++ todo = toks) by (cbn; rewrite <- app_assoc; exact Ht).
      assert (R' : V = rev (t :: done) ++ r) by (cbn; rewrite <- app_assoc; exact Hr).
      destruct Step as [S|[S N]].
      + exists (Some t), (t :: done), todo, r. left. split; [|split; [exact T'|split; [exact R'|cbn; rewrite S; reflexivity]]].
        cbn [cm_loop]. unfold signif, skipped in S.
        destruct (tkind t); cbn in S; try discriminate S; reflexivity.
      + assert (Go : forall skip', (skip' = true \/ clean (t :: done) = true \/ match todo with [] => True | x :: _ => signif x = true end) ->
           cm_loop done (t :: todo) cm skip [] [] = cm_loop (t :: done) todo cm skip' [] [] ->
           exists o done' todo' r', cm_loop done (t :: todo) cm skip [] [] = (o, mkCS done' todo' cm) /\
             rev done' ++ todo' = toks /\ V = rev done' ++ r' /\ clean done' = true \/ 
             cm_loop done (t :: todo) cm skip [] [] = (None, mkCS done' [] cm) /\ rev done' = toks /\ V = toks).
        { intros skip' Hs' E. destruct N as [N|(-> & -> & VT)].
          - destruct (IH (t :: done) skip' r Hd Hb T' R' (ex_intro _ u Hu) Hs' N) as (o & d' & t' & r' & H).
            rewrite <- E in H. eauto.
          - exists None, (t :: done), [], []. right. rewrite E. cbn [cm_loop]. rewrite app_nil_r in T'.
            split; [reflexivity|]. split; [exact T'|exact VT]. }
        assert (Hc : skip = true \/ clean done = true).
        { destruct Hs as [Hs|[Hs|Hs]]; [auto|auto|congruence]. }
        unfold signif, skipped in S.
        destruct (tkind t) eqn:K; cbn in S; try discriminate S.
        * apply (Go skip).
          -- destruct Hc as [Hc|Hc]; [left; exact Hc|right; left].
             cbn [clean]. unfold signif, skipped, is_comment. rewrite K. exact Hc.
          -- cbn [cm_loop]. rewrite K. rewrite orb_true_r. reflexivity.
        * apply (Go true); [left; reflexivity|]. cbn [cm_loop]. rewrite K.
          destruct skip; [reflexivity|]. destruct Hc as [Hc|Hc]; [discriminate|].
          assert (M : cmap_mem cm (tfrom t) = true).
          { apply cmap_mem_in. destruct Hd as (_ & _ & Hd). eapply Hd; [exact Hr| |].
            - unfold is_comment. rewrite K. reflexivity.
            - rewrite rev_involutive. exact Hc. }
          rewrite M. reflexivity.
  Qed.

  Lemma comments_from l p : In p (map c_from (comments l)) -> In p (map tfrom l).
  Proof.
    unfold comments. rewrite map_map. rewrite !in_map_iff. intros (x & E & I).
    apply filter_In in I. destruct I as [I _]. exists x. auto.
  Qed.

  Lemma comments_nodup l : NoDup (map tfrom l) -> NoDup (map c_from (comments l)).
  Proof.
    induction l as [|t l IH]; intros H; [constructor|]. cbn in H. inversion_clear H.
    unfold comments in *. cbn [filter]. destruct (is_comment t); [|auto].
    cbn [map]. constructor; [|auto]. intros I. apply H0. apply comments_from. exact I.
  Qed.

  Lemma nodup_app_l {A} (a b : list A) : NoDup (a ++ b) -> NoDup a.
  Proof.
    induction a; intros H; [constructor|]. cbn in H. inversion_clear H. constructor; [|auto].
    intros I. apply H0. apply in_or_app. left. exact I.
  Qed.

  (** The map after the new groups have been added. *)
  Lemma describes_more cm V X gs e : describes cm V -> NoDup (map tfrom (V ++ X)) ->
    Forall (fun t => signif t = false) X -> List.concat gs = comments X ->
    (e = [] \/ exists t, e = [t] /\ signif t = true) ->
    describes (fold_left cmap_add gs cm) (V ++ X ++ e).
  Proof.
    intros (D1 & D2 & D3) Hn Hx Hg He.
    assert (Ce : comments e = []).
    { destruct He as [->|(t & -> & St)]; [reflexivity|]. unfold comments. cbn.
      destruct (is_comment t) eqn:E; [|reflexivity]. apply kind_comment in E. congruence. }
    rewrite add_fresh; [|exact D1|].
    2: { rewrite D2, Hg, <- comments_app. apply comments_nodup. exact Hn. }
    split; [apply Forall_app; split; [exact D1|apply entries_ok]|]. split.
    - rewrite map_app, concat_app, entries_concat, D2, Hg, !comments_app, Ce, app_nil_r. reflexivity.
    - intros a t b E Ht Hc. rewrite map_app, in_app_iff.
      destruct (le_lt_dec (List.length V) (List.length a)) as [L|L].
      + right.
        assert (Ha : a = V ++ skipn (List.length V) a).
        { rewrite <- (firstn_skipn (List.length V) a) at 1. f_equal.
          apply (f_equal (firstn (List.length V))) in E. rewrite !firstn_app in E.
          rewrite Nat.sub_diag, firstn_O, app_nil_r, firstn_all in E.
          replace (List.length V - List.length a)%nat with 0%nat in E by lia.
          rewrite firstn_O, app_nil_r in E. symmetry. exact E. }
        set (x1 := skipn (List.length V) a) in *. clearbody x1. subst a.
        rewrite <- app_assoc in E. apply app_inv_head in E.
        assert (Ex : exists x2, X = x1 ++ t :: x2).
        { destruct He as [->|(u & -> & Su)].
          - rewrite app_nil_r in E. eauto.
          - destruct (list_eq_dec Z.eq_dec [] []) as [_|]; [|congruence].
            destruct b as [|y b] using rev_ind.
            + apply app_inj_tail in E. destruct E as [_ E]. subst u. apply kind_comment in Ht. congruence.
            + exists b. change (x1 ++ t :: b ++ [y]) with (x1 ++ (t :: b) ++ [y]) in E.
              rewrite app_assoc in E. apply app_inj_tail in E. tauto. }
        destruct Ex as [x2 ->].
        assert (C1 : comments x1 = []).
        { apply Forall_app in Hx. destruct Hx as [Hx _]. rewrite rev_app_distr in Hc.
          clear -Hx Hc. revert Hc. assert (Hr : Forall (fun t => signif t = false) (rev x1)) by (apply Forall_rev; exact Hx).
          rewrite <- (rev_involutive x1) at 2. induction Hr as [|y l Hy Hr IH]; intros Hc; [reflexivity|].
          cbn [clean app] in Hc. rewrite Hy in Hc. destruct (is_comment y) eqn:E; [discriminate|].
          cbn [rev]. rewrite comments_app, (IH Hc). unfold comments. cbn. rewrite E. reflexivity. }
        rewrite comments_app, C1 in Hg. cbn [app] in Hg. unfold comments in Hg. cbn [filter] in Hg.
        rewrite Ht in Hg. cbn [map] in Hg. clear -Hg.
        induction gs as [|g gs IH]; [discriminate|]. destruct g as [|c g]; [exact (IH Hg)|].
        cbn in Hg. injection Hg as -> _. left. reflexivity.
      + left. assert (Ev : exists b', V = a ++ t :: b').
        { exists (skipn (S (List.length a)) V). rewrite <- (firstn_skipn (List.length a) V) at 1.
          assert (F : firstn (List.length a) V = a).
          { apply (f_equal (firstn (List.length a))) in E. rewrite !firstn_app in E.
            rewrite Nat.sub_diag, firstn_O, app_nil_r, firstn_all in E.
            replace (List.length a - List.length V)%nat with 0%nat in E by lia.
            rewrite firstn_O, app_nil_r in E. exact E. }
          rewrite F. f_equal. rewrite <- F in E at 1. rewrite <- (firstn_skipn (List.length a) V) in E at 1.
          rewrite <- app_assoc in E. apply app_inv_head in E.
          destruct (skipn (List.length a) V) as [|y l] eqn:Sk.
          - apply (f_equal (@List.length _)) in Sk. rewrite skipn_length in Sk. cbn in Sk. lia.
          - cbn in E. injection E as -> _. f_equal.
            rewrite <- (firstn_skipn (List.length a) V). rewrite Sk, F.
            rewrite skipn_app, skipn_all2 by lia.
            replace (S (List.length a) - List.length a)%nat with 1%nat by lia. reflexivity. }
        destruct Ev as [b' Ev]. eapply D3; eauto.
  Qed.

  (** Reading on collects the comments met. *)
  Lemma frontier cm V todo : describes cm V -> forall done X (groups : list commentgroup) (m : list comment),
    rev done = V ++ X -> Forall (fun t => signif t = false) X -> rev done ++ todo = toks ->
    List.concat groups ++ rev m = comments X ->
    exists o done' todo' cm', cm_loop done todo cm false groups m = (o, mkCS done' todo' cm') /\
      rev done' ++ todo' = toks /\ boundary (rev done') toks /\ describes cm' (rev done') /\
      (clean done' = true \/ todo' = []) /\ (exists u, rev done' = V ++ u) /\ (o = None -> todo' = []).
  Proof.
    intros Hd. induction todo as [|t todo IH]; intros done X groups m Hr Hx Ht Hg.
    - exists None, done, [], (fold_left cmap_add (groups ++ [rev m]) cm). split; [reflexivity|].
      split; [exact Ht|]. rewrite app_nil_r in Ht. split; [right; left; exact Ht|]. split.
      + rewrite Hr. rewrite <- (app_nil_r X). apply describes_more; auto.
        * rewrite <- Hr, Ht. exact Hnd.
        * rewrite concat_app. cbn. rewrite app_nil_r. exact Hg.
      + split; [right; reflexivity|]. split; [exists X; exact Hr|reflexivity].
    - assert (T' : rev (t :: done) ++ todo = toks) by (cbn; rewrite <- app_assoc; exact Ht).
      assert (R' : rev (t :: done) = V ++ (X ++ [t])) by (cbn; rewrite Hr, app_assoc; reflexivity).
      assert (Nd : NoDup (map tfrom (V ++ X))).
      { rewrite <- Hr. rewrite <- Ht, map_app in Hnd. eapply nodup_app_l. exact Hnd. }
      destruct (signif t) eqn:S.
      + exists (Some t), (t :: done), todo, (fold_left cmap_add (groups ++ [rev m]) cm).
        split; [|split; [exact T'|]].
        { cbn [cm_loop]. unfold signif, skipped in S. destruct (tkind t); cbn in S; try discriminate S; reflexivity. }
        split; [right; right; exists (V ++ X), t; rewrite R', app_assoc; auto|]. split.
        * rewrite R'. apply describes_more; auto; [|right; eauto].
          rewrite concat_app. cbn. rewrite app_nil_r. exact Hg.
        * split; [left; cbn; rewrite S; reflexivity|]. split; [exists (X ++ [t]); exact R'|discriminate].
      + assert (Hx' : Forall (fun t => signif t = false) (X ++ [t])) by (apply Forall_app; auto).
        cbn [cm_loop]. unfold signif, skipped in S.
        destruct (tkind t) eqn:K; cbn in S; try discriminate S.
        * assert (Hg' : List.concat groups ++ rev m = comments (X ++ [t])).
          { rewrite comments_app, <- Hg. unfold comments. cbn. unfold is_comment. rewrite K. cbn. rewrite app_nil_r. reflexivity. }
          destruct (negb _ || _); [eapply IH; eauto|]. destruct (split_scan _ _); [|eapply IH; eauto].
          eapply IH; eauto. rewrite concat_app. cbn. rewrite !app_nil_r. exact Hg'.
        * assert (M : cmap_mem cm (tfrom t) = false).
          { destruct (cmap_mem cm (tfrom t)) eqn:M; [|reflexivity]. exfalso.
            apply cmap_mem_in in M. destruct Hd as (D1 & D2 & _). apply (keys_in _ _ D1) in M.
            rewrite D2 in M. apply comments_from in M.
            rewrite <- T', R', map_app, !map_app in Hnd. rewrite <- !app_assoc in Hnd.
            apply in_split in M. destruct M as (a & b & E). rewrite E, <- app_assoc in Hnd.
            apply nodup_app_r in Hnd. cbn in Hnd. inversion_clear Hnd. apply H.
            apply in_or_app. right. apply in_or_app. right. left. reflexivity. }
          rewrite M. eapply IH; eauto.
          rewrite comments_app, <- Hg. cbn [rev]. rewrite app_assoc. f_equal.
          unfold comments. cbn. unfold is_comment. rewrite K. reflexivity.
  Qed.

  Lemma none_end todo : forall done cm skip groups m s,
    cm_loop done todo cm skip groups m = (None, s) -> cs_todo s = [].
  Proof.
    induction todo as [|t todo IH]; intros done cm skip groups m s; cbn [cm_loop]; [intros [= <-]; reflexivity|].
    destruct (tkind t); try discriminate; repeat match goal with |- context [if ?b then _ else _] => destruct b end; try apply IH.
    all: destruct (split_scan _ _); apply IH.
  Qed.

  Lemma edge_of d t : clean d = true \/ t = [] -> at_edge d t.
  Proof. intros [H| ->]; [left; exact H|right; exact I]. Qed.

  Lemma inv_next V s : inv V s ->
    exists V', inv V' (snd (m_next cm_machine s)) /\ (exists u, V' = V ++ u) /\
      (fst (m_next cm_machine s) = None -> cs_todo (snd (m_next cm_machine s)) = [] /\ V' = toks).
  Proof.
    intros (I1 & [r I2] & [u I3] & I4 & I5 & I6). destruct s as [done todo cm]. cbn [m_next cm_machine cm_next cs_done cs_todo cs_map] in *.
    unfold cm_next. cbn [cs_done cs_todo cs_map].
    destruct r as [|x r].
    - (* at the frontier *)
      rewrite app_nil_r in I2.
      destruct (frontier cm V todo I5 done [] [] []) as (o & d' & t' & cm' & E & F1 & F2 & F3 & F4 & F5 & F6);
        [rewrite app_nil_r; auto|constructor|exact I1|reflexivity|].
      rewrite E. cbn [fst snd]. exists (rev d'). split; [|split; [exact F5|]].
      + split; [exact F1|]. cbn [cs_done cs_todo cs_map]. split; [exists []; rewrite app_nil_r; reflexivity|].
        split; [exists t'; symmetry; exact F1|]. split; [exact F2|]. split; [exact F3|apply edge_of; exact F4].
      + intros ->. specialize (F6 eq_refl). cbn. subst t'. rewrite app_nil_r in F1. auto.
    - destruct (rescan cm V todo done false (x :: r) I5 I4 I1 I2 (ex_intro _ u I3)) as (o & d' & t' & r' & H);
        [right; exact I6|discriminate|].
      destruct H as [(E & F1 & F2 & F3)|(E & F1 & F2)]; rewrite E; cbn [fst snd].
      + exists V. split; [|split; [exists []; rewrite app_nil_r; reflexivity|]].
        * repeat split; cbn; auto; [exists r'; exact F2|exists u; exact I3|apply I5|apply I5|apply I5|left; exact F3].
        * intros ->. apply none_end in E. cbn in *. subst t'. split; [reflexivity|].
          rewrite app_nil_r in F1. rewrite F1 in F2. rewrite F2, <- app_assoc in I3.
          rewrite <- (app_nil_r toks) in I3 at 1. apply app_inv_head in I3. destruct r'; [|discriminate].
          rewrite app_nil_r in F2. exact F2.
      + exists V. split; [|split; [exists []; rewrite app_nil_r; reflexivity|]].
        * repeat split; cbn; auto; [rewrite app_nil_r; exact F1|exists []; rewrite app_nil_r; congruence|exists u; exact I3|apply I5|apply I5|apply I5|right; exact I].
        * intros _. cbn. auto.
  Qed.

  Lemma inv_moved V s d t : inv V s -> rev d ++ t = toks -> (exists r, V = rev d ++ r) -> at_edge d t ->
    inv V (mkCS d t (cs_map s)).
  Proof. intros (_ & _ & I3 & I4 & I5 & _) H1 H2 H3. repeat split; cbn; auto; apply I5. Qed.

  Lemma prev_pos : forall d t d' t', raw_prev d t = Some (d', t') ->
    rev d' ++ t' = rev d ++ t /\ (exists r, rev d = rev d' ++ r) /\
    match t' with [] => True | x :: _ => signif x = true end.
  Proof.
    induction d as [|x d IH]; intros t d' t'; cbn [raw_prev]; [discriminate|].
    destruct (skipped x) eqn:E.
    - intros H. destruct (IH _ _ _ H) as (H1 & [r H2] & H3). cbn [rev]. rewrite H1, <- app_assoc.
      split; [reflexivity|]. split; [|exact H3]. exists (r ++ [x]). rewrite app_assoc, <- H2. reflexivity.
    - intros [= <- <-]. cbn [rev]. rewrite <- app_assoc. split; [reflexivity|]. split; [exists [x]; reflexivity|].
      unfold signif. rewrite E. reflexivity.
  Qed.

  Lemma inv_prev V s s' : inv V s -> m_prev cm_machine s = Some s' -> inv V s'.
  Proof.
    intros I H. cbn [m_prev cm_machine] in H. destruct (raw_prev _ _) as [[d t]|] eqn:E; [|discriminate].
    injection H as <-. destruct (prev_pos _ _ _ _ E) as (H1 & [r H2] & H3).
    apply inv_moved; [exact I|rewrite H1; apply I| |right; exact H3].
    destruct I as (_ & [r' I2] & _). exists (r ++ r'). rewrite app_assoc, <- H2. exact I2.
  Qed.

  Lemma inv_restore V V' u saved s : inv V saved -> inv V' s -> V' = V ++ u ->
    inv V' (m_restore cm_machine saved s).
  Proof.
    intros I I' E. cbn [m_restore cm_machine]. apply inv_moved; [exact I'|apply I| |apply I].
    destruct I as (_ & [r I2] & _). exists (r ++ u). rewrite E, I2, app_assoc. reflexivity.
  Qed.

  Lemma inv_kws V0 saved ks : inv V0 saved -> forall V u s acc o s', inv V s -> V = V0 ++ u ->
    run_kws cm_machine saved ks acc s = (o, s') -> exists V' u', inv V' s' /\ V' = V ++ u'.
  Proof.
    intros I0. induction ks as [|k ks IH]; intros V u s acc o s' I Eu E; cbn [run_kws] in E.
    - injection E as <- <-. exists V, []. rewrite app_nil_r. auto.
    - assert (X : (o, s') = (@None (list token), m_restore cm_machine saved s) -> exists V' u', inv V' s' /\ V' = V ++ u').
      { intros [= -> ->]. exists V, []. rewrite app_nil_r. split; [|reflexivity]. eapply inv_restore; eauto. }
      destruct (m_peek cm_machine s); [|apply X; congruence]. destruct (is_kw k t); [|apply X; congruence].
      destruct (inv_next V s I) as (V1 & I1 & [u1 E1] & _).
      assert (E0 : V1 = V0 ++ (u ++ u1)) by (rewrite E1, Eu, app_assoc; reflexivity).
      destruct (IH V1 (u ++ u1) _ _ _ _ I1 E0 E) as (V2 & u2 & I2 & E2).
      exists V2, (u1 ++ u2). split; [exact I2|]. rewrite E2, E1, app_assoc. reflexivity.
  Qed.

  Lemma inv_run {A} (p : prog A) : forall V s a s', inv V s -> run cm_machine p s = Ok a s' ->
    exists V', inv V' s'.
  Proof.
    induction p; intros V s a' s' I E; cbn [run] in E; try discriminate E.
    - injection E as <- <-. eauto.
    - destruct (inv_next V s I) as (V1 & I1 & _). destruct (m_next cm_machine s). eauto.
    - eauto.
    - destruct (m_prev cm_machine s) eqn:F; [|discriminate]. eapply IHp; [eapply inv_prev; eauto|exact E].
    - destruct (run_kws cm_machine s ks [] s) as [o1 s1] eqn:F.
      destruct (inv_kws V s ks I V [] s [] o1 s1 I) as (V2 & u2 & I2 & E2); [rewrite app_nil_r; reflexivity|exact F|].
      eauto.
  Qed.
End Inv.

(** A loop that succeeds ends in a round that leaves it. *)
Lemma loop_last {S A B} (m : machine S) (P : S -> Prop) (body : A -> prog (A + B)) :
  (forall x s y s', P s -> run m (body x) s = Ok y s' -> P s') ->
  forall n x s b s', P s -> run m (loop n body x) s = Ok b s' ->
  exists x1 s1, P s1 /\ run m (body x1) s1 = Ok (inr b) s'.
Proof.
  intros HP. induction n as [|n IH]; intros x s b s' Ps E; cbn [loop] in E; [discriminate|].
  rewrite run_bind in E. destruct (run m (body x) s) as [[x'|b'] s1| | |] eqn:F; cbn [obind] in E; try discriminate.
  - eapply IH; [eapply HP; eauto|exact E].
  - cbn in E. injection E as -> ->. eauto.
Qed.

(** After a successful parse the whole input has been read. *)
Lemma parsed_all toks r stmts s : NoDup (map tfrom toks) ->
  run cm_machine (parse_sql true r) (mkCS [] toks []) = Ok stmts s ->
  Forall entry_ok (cs_map s) /\ List.concat (map snd (cs_map s)) = comments toks.
Proof.
  intros Hn E. unfold parse_sql in E.
  assert (I0 : inv toks [] (mkCS [] toks [])).
  { repeat split; cbn; auto; [exists []; reflexivity|exists toks; reflexivity|left; reflexivity| |left; reflexivity].
    intros a t b H. destruct a; discriminate. }
  eapply (loop_last cm_machine (fun s => exists V, inv toks V s)) in E; [| |exists []; exact I0].
  2: { intros x s0 y s1 [V I] F. eapply inv_run; eauto. }
  destruct E as ((acc & ex) & s1 & [V1 I1] & E). rewrite run_bind in E.
  destruct (run cm_machine (consume_token Semicolon) s1) as [ok s2| | |] eqn:F; cbn [obind] in E; try discriminate.
  destruct (inv_run toks Hn _ V1 s1 ok s2 I1 F) as [V2 I2].
  destruct (negb ok && ex); [discriminate|].
  cbn [bind run] in E. destruct (inv_next toks Hn V2 s2 I2) as (V3 & I3 & _ & N).
  destruct (m_next cm_machine s2) as [[t|] s3]; cbn [bind run prev fst snd] in *.
  - destruct (m_prev cm_machine s3); [|discriminate]. rewrite run_bind in E.
    destruct (run cm_machine (parse_statement r) c); discriminate.
  - injection E as <- <-. destruct (N eq_refl) as [_ ->]. destruct I3 as (_ & _ & _ & _ & (D1 & D2 & _) & _). auto.
Qed.

(* ------------------------------------------------------------------ *)
(** ** Sorting *)

Definition glt (g h : commentgroup) : bool := compare_pos (group_pos g) (group_pos h) <? 0.

Lemma glt_before g h : glt g h = true <-> before (group_pos g) (group_pos h).
Proof.
  unfold glt, compare_pos, before. destruct (group_pos g), (group_pos h). cbn.
  destruct ((pline =? pline0) && (pcol =? pcol0)) eqn:A; [cbn; lia|].
  destruct (pline0 <? pline) eqn:B; [cbn; lia|]. destruct (pline <? pline0) eqn:C; [cbn; lia|].
  destruct (pcol0 <? pcol) eqn:D; cbn; lia.
Qed.

Lemma insert_comm g h l : group_pos g <> group_pos h ->
  insert_group g (insert_group h l) = insert_group h (insert_group g l).
Proof.
  intros N. assert (T : (glt g h = true /\ glt h g = false) \/ (glt g h = false /\ glt h g = true)).
  { unfold glt, compare_pos. destruct (group_pos g), (group_pos h). cbn.
    assert (pline <> pline0 \/ pcol <> pcol0).
    { destruct (Z.eq_dec pline pline0), (Z.eq_dec pcol pcol0); auto. exfalso. apply N. congruence. }
    destruct ((pline =? pline0) && (pcol =? pcol0)) eqn:A; [lia|].
    destruct ((pline0 =? pline) && (pcol0 =? pcol)) eqn:A'; [lia|].
    destruct (pline0 <? pline) eqn:B; destruct (pline <? pline0) eqn:C; try lia; cbn; auto.
    destruct (pcol0 <? pcol) eqn:D; destruct (pcol <? pcol0) eqn:D'; cbn; auto; lia. }
  assert (Tr : forall x y z, glt x y = true -> glt y z = true -> glt x z = true).
  { intros x y z. rewrite !glt_before. unfold before. lia. }
  induction l as [|e l IH]; cbn [insert_group].
  - fold (glt g h) (glt h g). destruct T as [[-> ->]|[-> ->]]; reflexivity.
  - fold (glt g e) (glt h e).
    destruct (glt h e) eqn:He, (glt g e) eqn:Ge; cbn [insert_group]; fold (glt g h) (glt h g) (glt g e) (glt h e);
      rewrite ?He, ?Ge.
    + destruct T as [[-> ->]|[-> ->]]; reflexivity.
    + destruct T as [[A B]|[A B]]; rewrite A; [|reflexivity]. rewrite (Tr _ _ _ A He) in Ge. discriminate.
    + destruct T as [[A B]|[A B]]; rewrite B; [reflexivity|]. rewrite (Tr _ _ _ B Ge) in He. discriminate.
    + rewrite IH. reflexivity.
Qed.

Lemma sort_permutation l l' : Permutation l l' -> NoDup (map group_pos l) -> sort_groups l = sort_groups l'.
Proof.
  induction 1; intros N; [reflexivity| | |].
  - cbn [map] in N. inversion_clear N.
    change (insert_group x (sort_groups l) = insert_group x (sort_groups l')). rewrite IHPermutation by assumption. reflexivity.
  - cbn in *. apply insert_comm. inversion_clear N. intros E. apply H. left. symmetry. exact E.
  - rewrite IHPermutation1 by assumption. apply IHPermutation2.
    eapply Permutation_NoDup; [|exact N]. apply Permutation_map. assumption.
Qed.

Lemma sort_sorted l : StronglySorted before (map group_pos l) -> sort_groups l = l.
Proof.
  induction l as [|g l IH]; intros H; [reflexivity|]. cbn [map] in H. inversion_clear H.
  change (insert_group g (sort_groups l) = g :: l). rewrite IH by assumption.
  destruct l as [|h l]; [reflexivity|]. cbn [insert_group]. fold (glt g h).
  cbn in H1. inversion_clear H1. apply glt_before in H. rewrite H. reflexivity.
Qed.

Lemma before_irrefl p : ~ before p p.
Proof. unfold before. lia. Qed.

Lemma sorted_nodup l : StronglySorted before l -> NoDup l.
Proof.
  induction 1; constructor; [|assumption]. intros I. rewrite Forall_forall in H0.
  exact (before_irrefl _ (H0 _ I)).
Qed.

Lemma sorted_app_r {A} (R : A -> A -> Prop) a b : StronglySorted R (a ++ b) -> StronglySorted R b.
Proof. induction a; cbn; intros H; [exact H|]. inversion_clear H. auto. Qed.

Lemma sorted_heads gs : Forall (fun g : commentgroup => g <> []) gs ->
  StronglySorted before (map c_from (List.concat gs)) -> StronglySorted before (map group_pos gs).
Proof.
  induction 1 as [|g gs Hg Hgs IH]; intros S; [constructor|]. cbn [List.concat map] in *.
  rewrite map_app in S. constructor; [apply IH; eapply sorted_app_r; exact S|].
  destruct g as [|c g]; [congruence|]. cbn in S. inversion_clear S. rewrite Forall_forall in *.
  intros p I. apply H0. apply in_or_app. right. apply in_map_iff in I. destruct I as (h & <- & I).
  specialize (Hgs h I). destruct h as [|x h]; [congruence|]. cbn. apply in_map_iff. exists x. split; [reflexivity|].
  apply in_concat. exists (x :: h). split; [exact I|left; reflexivity].
Qed.

Lemma sorted_tokens l : (forall a t b u, l = a ++ t :: b -> In u b -> before (tfrom t) (tfrom u)) ->
  StronglySorted before (map tfrom l).
Proof.
  induction l as [|t l IH]; intros H; [constructor|]. cbn. constructor.
  - apply IH. intros a x b u E I. apply (H (t :: a) x b u); [rewrite E; reflexivity|exact I].
  - rewrite Forall_forall. intros p I. apply in_map_iff in I. destruct I as (u & <- & I).
    exact (H [] t l u eq_refl I).
Qed.

Lemma sorted_comments l : StronglySorted before (map tfrom l) -> StronglySorted before (map c_from (comments l)).
Proof.
  induction l as [|t l IH]; intros H; [constructor|]. cbn in H. inversion_clear H.
  unfold comments in *. cbn [filter]. destruct (is_comment t); [|auto]. cbn [map]. constructor; [auto|].
  rewrite Forall_forall in *. intros p I. apply H1. apply comments_from. exact I.
Qed.

(** C28. *)
Lemma file_comments d src toks f : dialect_ok d -> tokenize d true src = TOk toks ->
  parse_file d src = ROk f ->
  List.concat (f_comments f) = comments toks /\
  (forall g, In g (f_comments f) -> g <> []) /\
  (forall gs, Permutation gs (f_comments f) -> sort_groups gs = f_comments f).
Proof.
  intros D E H. unfold parse_file in H. rewrite E in H.
  destruct (positions_tile d src toks D E) as (_ & _ & _ & Hb). apply sorted_tokens in Hb.
  unfold run_cm in H. destruct (run cm_machine _ _) as [stmts s| | |] eqn:F; try discriminate.
  injection H as <-. cbn [f_comments].
  destruct (parsed_all toks _ stmts s (sorted_nodup _ Hb) F) as [A B].
  assert (Ne : Forall (fun g : commentgroup => g <> []) (map snd (cs_map s))).
  { clear -A. induction A as [|[p g] l (c & g' & X & _) _ IH]; [constructor|]. cbn. constructor; [|exact IH].
    cbn in X. rewrite X. discriminate. }
  assert (So : StronglySorted before (map group_pos (map snd (cs_map s)))).
  { apply sorted_heads; [exact Ne|]. rewrite B. apply sorted_comments. exact Hb. }
  rewrite (sort_sorted _ So). split; [exact B|]. split; [apply Forall_forall; exact Ne|].
  intros gs P. etransitivity; [|apply (sort_sorted _ So)]. apply sort_permutation.
  - exact P.
  - eapply Permutation_NoDup; [apply Permutation_map, Permutation_sym, P|]. apply sorted_nodup. exact So.
Qed.
