(** Running the statement parser on written statements. *)
From Coq Require Import ZArith List Bool String Lia.
From Verif Require Import Base Dialect Token Lexer LexSpec AST Num Prog Parser Sim Erase Grammar NumThms ValueThms Render Spell
  SpPrim SpEq SpExpr SpQuery.
Import ListNotations.
Open Scope string_scope.
Open Scope Z_scope.
Open Scope list_scope.

(** *** What follows statements and their elements *)

Section Style.
Context {sty : style}.
Lemma plain_clear ks kinds l : sane l = true -> iskw "" l = false \/ True ->
  match l with [] => true | t :: _ => match tval t with VStr _ => negb (kmem (tkind t) kinds) | VWord _ => false end end = true ->
  clear ks kinds l = true.
Proof.
  intros S _ H. unfold clear. rewrite S. destruct l as [|t l].
  - discriminate S.
  - destruct (tval t) as [w|v] eqn:V; [discriminate H|]. cbn [andb]. apply andb_true_iff. split; apply forallb_forall.
    + intros s _. cbn [starts iskw]. rewrite V. reflexivity.
    + intros k I. cbn [isk]. unfold is_kind. destruct (kind_eqb (tkind t) k) eqn:E; [|reflexivity].
      apply kind_eqb_eq in E. subst k. apply kmem_In in I. rewrite I in H. discriminate H.
Qed.

(** The end, or a token that is no word. *)
Definition plain (kinds : list kind) (l : list token) : bool :=
  sane l && match l with [] => true | t :: _ => kmem (tkind t) kinds && negb (is_kind SQLKeyword t) end.
End Style.
Notation end_follow := (plain [Semicolon]).
Notation def_follow := (plain [Comma; RParen; Semicolon]).

Section Style.
Context {sty : style}.
Lemma plain_no kinds ks kinds' l : plain kinds l = true -> forallb (fun k => negb (kmem k kinds')) kinds = true ->
  clear ks kinds' l = true.
Proof.
  intros H D. apply andb_true_iff in H as [S H]. apply plain_clear; auto.
  destruct l as [|t l]; [reflexivity|]. apply andb_true_iff in H as [H1 H2]. cbn [sane] in S.
  apply andb_true_iff in S as [S _]. apply negb_true_iff in H2. rewrite H2 in S.
  destruct (tval t); [discriminate S|]. rewrite forallb_forall in D. apply D. apply kmem_In. exact H1.
Qed.
Lemma stmt_plain s l : stmt_follow s l = true -> end_follow l = true.
Proof.
  unfold stmt_follow, plain. destruct l as [|t l]; [discriminate|]. rewrite andb_true_iff. intros [H1 H2].
  rewrite H2. cbn [isk] in H1. unfold is_kind in *. apply kind_eqb_eq in H1. rewrite H1. reflexivity.
Qed.
Lemma end_def l : end_follow l = true -> def_follow l = true.
Proof.
  unfold plain. rewrite !andb_true_iff. intros [H1 H2]. split; [exact H1|]. destruct l; [reflexivity|].
  apply andb_true_iff in H2 as [H2 H3]. rewrite H3. apply kmem_In in H2. destruct H2 as [<- |[]]. reflexivity.
Qed.

Section Stmt.
  Variables (dl : dialect) (r : rec) (N : nat).
  Hypothesis G : good dl r N.
  Notation ok_node := (ok_node dl).
  Notation R_expr := (R_expr dl r N G).
  Notation R_expr_list := (R_expr_list dl r N G).
  Notation fuel := (fuel_ok dl r N G).
  Notation ecoldef := (er_coldef Erase.no_pos same_rune).
  Notation ecc := (er_cc Erase.no_pos same_rune).
  Notation etc := (er_tc Erase.no_pos same_rune).
  Notation eelem := (er_element Erase.no_pos same_rune).
  Notation eass := (er_assign Erase.no_pos same_rune).

  Lemma ids_pos l : wf_ids dl l = true -> (0 < len (t_ids l))%nat.
  Proof. unfold wf_ids. destruct l as [|i l]; [discriminate|]. intros _. unfold t_ids. cbn [map]. rewrite sepby_more. cbn. lia. Qed.
  Lemma name_pos o : wf_on dl o = true -> (0 < len (t_name o))%nat.
  Proof. intros W. destruct (name_head dl o W) as (i & x & ->). cbn. lia. Qed.
  Lemma node_pos e : ok_node e = true -> (0 < len (s_node e))%nat.
  Proof. intros W. destruct (node_head _ _ W) as (t & x & -> & _). cbn. lia. Qed.
  Lemma R_cols l d rest : wf_ids dl l = true -> isk Comma rest = false -> (len (t_ids l) <= N)%nat ->
    R (parse_column_names r) (d, t_ids l ++ rest) = Ok (map eid l) (rev (t_ids l) ++ d, rest).
  Proof. intros W C L. apply (R_columns r dl); auto. apply fuel; [apply ids_pos; exact W|exact L]. Qed.
  Lemma R_oname o d rest : wf_on dl o = true -> isk Period rest = false -> (len (t_name o) <= N)%nat ->
    R (parse_object_name r) (d, t_name o ++ rest) = Ok (eon o) (rev (t_name o) ++ d, rest).
  Proof. intros W C L. apply (R_name r dl); auto. apply fuel; [apply name_pos; exact W|exact L]. Qed.

  (** *** Constraints *)

  Lemma R_tc c d rest : ok_tc dl c = true -> (len (s_tc c) <= N)%nat ->
    R (parse_table_constraints r) (d, s_tc c ++ rest) = Ok (etc c) (rev (s_tc c) ++ d, rest).
  Proof.
    intros W L. destruct c as [p name spec]. unfold ok_tc in W. cbn [tc_name tc_spec] in W. apply andb_true_iff in W as [W1 W2].
    unfold s_tc in *. cbn [tc_name tc_spec] in *. rewrite app_length in L.
    assert (Sp : forall d', R (t <- peek_nn ;;
      w <- word_of t ;;
      spec <-
        (if kw w "UNIQUE" then
           must_next ;;;
           k <- parse_keyword "KEY" ;;
           match k with
           | KwEOF => Err
           | _ =>
               expect_token LParen ;;;
               cols <- parse_column_names r ;;
               rp <- next_kind RParen ;;
               Ret (TCUnique false pos0 (tfrom t) (tto rp) cols)
           end
         else if kw w "PRIMARY" then
           must_next ;;;
           expect_keyword "KEY" ;;;
           expect_token LParen ;;;
           cols <- parse_column_names r ;;
           rp <- next_kind RParen ;;
           Ret (TCUnique true (tfrom t) pos0 (tto rp) cols)
         else if kw w "FOREIGN" then
           must_next ;;;
           expect_keyword "KEY" ;;;
           expect_token LParen ;;;
           cols <- parse_column_names r ;;
           expect_token RParen ;;;
           expect_keyword "REFERENCES" ;;;
           n <- next_nn ;;
           wn <- word_of n ;;
           expect_token LParen ;;;
           rc <- parse_list_of_ids r Comma ;;
           rp <- next_kind RParen ;;
           Ret (TCReferential (tfrom t) cols
                  (mkRefKey (ident_of n wn) (match rc with Some l => l | None => [] end) (tto rp)))
         else if kw w "CHECK" then
           must_next ;;;
           expect_token LParen ;;;
           e <- parse_expr r ;;
           rp <- next_kind RParen ;;
           Ret (TCCheck (tfrom t) (tto rp) e)
         else Err) ;;
      Ret (mkTC pos0 (option_map eid name) spec)) (d', s_tcspec spec ++ rest)
      = Ok (etc (mkTC p name spec)) (rev (s_tcspec spec) ++ d', rest)).
    { intros d'. destruct spec as [pk p1 p2 p3 cols|p1 cols key|p1 p2 e]; cbn [ok_tcspec] in W2; cbn [s_tcspec] in L |- *.
      - unfold parens in *. destruct pk; [|destruct (w_key sty p2)]; cbn [app kws map cond] in *; sh; step; step; kwc.
        + ll L. eapply R_step; [|cbv beta].
          { step. step. step. eapply R_step; [apply R_cols; [exact W2|reflexivity|zl]|cbv beta]. step. reflexivity. }
          rewrite R_ret. fin.
        + ll L. eapply R_step; [|cbv beta].
          { step. step. step. eapply R_step; [apply R_cols; [exact W2|reflexivity|zl]|cbv beta]. step. reflexivity. }
          rewrite R_ret. fin.
        + ll L. eapply R_step; [|cbv beta].
          { step. step. step. eapply R_step; [apply R_cols; [exact W2|reflexivity|zl]|cbv beta]. step. reflexivity. }
          rewrite R_ret. fin.
      - destruct key as [tb kc p2]. cbn [rk_table rk_columns] in *. rewrite !andb_true_iff in W2. destruct W2 as [[Wc Wt] Wk].
        unfold t_refkey in *. cbn [rk_table rk_columns] in *. unfold parens in *. cbn [app]. sh. step. step. kwc. ll L.
        eapply R_step with (a := er_tcspec Erase.no_pos same_rune (TCReferential p1 cols (mkRefKey tb kc p2)))
          (s' := (rev (kwt "FOREIGN" :: kwt "KEY" :: (lpar :: t_ids cols ++ [rpar]) ++ kwt "REFERENCES" :: idt tb :: lpar :: t_ids kc ++ [rpar]) ++ d', rest)).
        { step. step. step. eapply R_step; [apply R_cols; [exact Wc|reflexivity|zl]|cbv beta]. step. step. step. step. step.
          eapply R_step with (a := match kc with [] => None | _ => Some (map eid kc) end)
            (s' := (rev (t_ids kc) ++ lpar :: idt tb :: kwt "REFERENCES" :: rpar :: rev (t_ids cols) ++ lpar :: kwt "KEY" :: kwt "FOREIGN" :: d', rpar :: rest)).
          { destruct kc as [|k kc].
            - unfold parse_list_of_ids. pose proof (fuel 1%nat). destruct (r_fuel r); [exfalso; clear -H L; lia|]. reflexivity.
            - apply (R_ids r dl); [reflexivity|discriminate|exact Wk|reflexivity|].
              apply fuel; [apply (ids_pos (k :: kc)); exact Wk|]. unfold t_ids in L. zl. }
          cbv beta. step. rewrite R_ret. fold (idt tb). rewrite (ident_of_idt dl) by exact Wt.
          cbn [er_tcspec er_refkey rk_table rk_columns]. destruct kc; fin. }
        cbv beta. rewrite R_ret. fin.
      - unfold parens in *. cbn [app]. sh. step. step. kwc. ll L. eapply R_step; [|cbv beta].
        { step. step. eapply R_step; [apply R_expr; [exact W2|zl|reflexivity|reflexivity]|cbv beta]. step. reflexivity. }
        rewrite R_ret. fin. }
    unfold parse_table_constraints. destruct name as [n|]; cbn [t_cname opt app].
    - step. cbn [kwt is_kind tkind kind_eqb negb tval]. kwc. cbv zeta.
      eapply R_step; [step; eapply R_step; [apply (R_ident _ dl); exact W1|reflexivity]|cbv beta iota]. cbn [tfrom].
      etransitivity; [apply Sp|]. fin.
    - step. specialize (Sp d).
      assert (H : exists t x, s_tcspec spec ++ rest = t :: x /\ is_kind SQLKeyword t = true
        /\ match tval t with VWord w => kw w "CONSTRAINT" | VStr _ => false end = false).
      { destruct spec as [[] ? ? ? ?|? ? ?|? ? ?]; eexists; eexists; repeat split; reflexivity. }
      destruct H as (t & x & H & H1 & H2). rewrite H in Sp |- *. rewrite H1, H2. cbn [negb]. cbv zeta. step. exact Sp.
  Qed.

  Lemma R_ccspec spec t w d rest : ok_cc dl (mkCC None pos0 spec) = true -> (len (s_ccspec spec) <= N)%nat ->
    hd comma (s_ccspec spec) = t -> tval t = VWord w ->
    R (parse_column_spec r t w) (d, s_ccspec spec ++ rest)
    = Ok (Some (er_ccspec Erase.no_pos same_rune spec)) (rev (s_ccspec spec) ++ d, rest).
  Proof.
    intros W L <- V. unfold ok_cc in W. cbn [cc_name cc_spec all_opt andb] in W. unfold parse_column_spec.
    destruct spec as [a b|pk a b c|a b tn cols|e a b]; cbn [s_ccspec] in *.
    - injection V as <-. kwc. cbn [kws map app]. step. step. reflexivity.
    - destruct pk; injection V as <-; kwc; cbn [kws map app]; step; [step|]; reflexivity.
    - apply andb_true_iff in W as [W1 W2]. injection V as <-. kwc. unfold parens in *. cbn [app]. sh. ll L. step.
      eapply R_step; [apply R_oname; [exact W1|reflexivity|zl]|cbv beta]. step.
      eapply R_step; [apply R_cols; [exact W2|reflexivity|zl]|cbv beta]. step. rewrite R_ret. fin.
    - injection V as <-. kwc. unfold parens in *. cbn [app]. sh. ll L. step. step.
      eapply R_step; [apply R_expr; [exact W|zl|reflexivity|reflexivity]|cbv beta]. step. rewrite R_ret. fin.
  Qed.

  Lemma ccspec_head s : exists x y, s_ccspec s = x :: y /\ is_kind SQLKeyword x = true /\ exists w, tval x = VWord w /\ kw w "CONSTRAINT" = false.
  Proof. destruct s as [|[]| |]; eexists; eexists; (split; [reflexivity|split; [reflexivity|eexists; split; reflexivity]]). Qed.

  (** What ends a run of column constraints, or any part of a column. *)
  Definition ends_ccs (l : list token) : Prop :=
    def_follow l = true \/ exists s x, l = kwt s :: x /\ In s ["DEFAULT"; "AUTO_INCREMENT"].

  Lemma R_ccs l d rest : forallb (ok_cc dl) l = true -> (len (List.concat (map s_cc l)) <= N)%nat -> (0 < N)%nat ->
    ends_ccs rest ->
    R (parse_column_constraints r) (d, List.concat (map s_cc l) ++ rest)
    = Ok (map ecc l) (rev (List.concat (map s_cc l)) ++ d, rest).
  Proof.
    intros W L NP F. unfold parse_column_constraints. rewrite forallb_forall in W.
    pose proof (fun a H => concat_in_len s_cc a l H) as L2.
    rewrite (loop_more s_cc ecc).
    - reflexivity.
    - intros l1 c l2 acc d' E. assert (I : In c l) by (rewrite E; apply in_or_app; right; left; reflexivity).
      specialize (W c I). specialize (L2 c I). assert (L3 : (len (s_cc c) <= N)%nat) by (clear -L L2; lia). clear L L2. rename L3 into L2. destruct c as [name p spec].
      assert (W2 : ok_cc dl (mkCC None pos0 spec) = true).
      { unfold ok_cc in *. cbn [cc_name cc_spec all_opt andb] in *. apply andb_true_iff in W. apply W. }
      assert (W1 : all_opt (wf_id dl) name = true) by (unfold ok_cc in W; apply andb_true_iff in W; apply W).
      unfold s_cc in L2 |- *. cbn [cc_name cc_spec] in *. rewrite app_length in L2. rewrite <- app_assoc.
      fold s_cc. set (T := List.concat (map s_cc l2) ++ rest).
      assert (Sp : forall d', R (t <- peek_nn ;;
           if negb (is_kind SQLKeyword t) then Ret (inr (rev acc))
           else
             w <- word_of t ;;
             s <- parse_column_spec r t w ;;
             Ret (match s with
                  | None => inr (rev acc)
                  | Some spec => inl (mkCC (option_map eid name) pos0 spec :: acc)
                  end)) (d', s_ccspec spec ++ T) = Ok (inl (ecc (mkCC name p spec) :: acc)) (rev (s_ccspec spec) ++ d', T)).
      { intros d2. destruct (ccspec_head spec) as (x & y & EH & H1 & w & H2 & H3).
        pose proof (fun d => R_ccspec spec x w d T W2) as Q. rewrite EH in Q. cbn [hd] in Q.
        rewrite EH. cbn [app]. step. rewrite H1. cbn [negb].
        eapply R_step; [apply R_word; exact H2|cbv beta].
        eapply R_step; [apply Q; [rewrite <- EH; zl|reflexivity|exact H2]|cbv beta]. rewrite R_ret. reflexivity. }
      destruct name as [n|]; cbn [t_cname opt app].
      + step. cbn [kwt tval]. kwc. cbv zeta.
        eapply R_step; [step; eapply R_step; [apply (R_ident _ dl); exact W1|reflexivity]|cbv beta iota].
        etransitivity; [apply Sp|]. fin.
      + step. specialize (Sp d'). destruct (ccspec_head spec) as (x & y & EH & H1 & w & H2 & H3).
        rewrite EH in Sp |- *. cbn [app] in *. rewrite H2, H3. cbv zeta. step. exact Sp.
    - intros acc d'. step. destruct F as [F|(s & x & -> & I)].
      2: { destruct I as [<-|[<-|[]]]; cbv zeta; cbn [kwt tval]; kwc; cbv zeta; step; step; reflexivity. }
      destruct rest as [|t rest]; [discriminate F|]. unfold plain in F.
      apply andb_true_iff in F as [F1 F2]. apply andb_true_iff in F2 as [F2 F3]. apply negb_true_iff in F3.
      cbn [sane] in F1. rewrite F3 in F1. destruct (tval t); [discriminate F1|]. cbv zeta. step. step. rewrite F3. reflexivity.
    - assert (LL : forall x, (List.length x <= len (List.concat (map s_cc x)))%nat).
      { induction x as [|c x IH]; [apply Nat.le_refl|]. cbn [map List.concat List.length]. rewrite app_length.
        unfold s_cc at 1. rewrite app_length. destruct (ccspec_head (cc_spec c)) as (u & v & -> & _). cbn [List.length]. lia. }
      specialize (LL l). pose proof (fuel N NP (Nat.le_refl _)). lia.
  Qed.

  (** *** Columns *)

  Definition dbody : option node * list colconstraint * list decoration ->
    prog ((option node * list colconstraint * list decoration) + (option node * list colconstraint * list decoration)) :=
    (fun '(def, specs, decs) =>
       o <- peek ;;
       let stop := Ret (inr (def, specs, rev decs)) in
       match o with
       | None => stop
       | Some t =>
           if negb (is_kind SQLKeyword t) then stop
           else
             w <- word_of t ;;
             if kw w "DEFAULT" then
               ok <- kw_ok "DEFAULT" ;;
               if ok then d <- parse_default_expr r ;; Ret (inl (Some d, specs, decs))
               else Ret (inl (def, specs, decs))
             else if kw w "CONSTRAINT" || kw w "NOT" || kw w "UNIQUE" || kw w "PRIMARY"
                     || kw w "REFERENCES" || kw w "CHECK" then
               s <- parse_column_constraints r ;; Ret (inl (def, s, decs))
             else if kw w "AUTO_INCREMENT" then
               must_next ;;; Ret (inl (def, specs, mkAutoInc (tfrom t) (tto t) :: decs))
             else stop
       end).

  Definition cc_heads : list string := ["CONSTRAINT"; "NOT"; "UNIQUE"; "PRIMARY"; "REFERENCES"; "CHECK"].
  Lemma cc_head c : exists s x, s_cc c = kwt s :: x /\ In s cc_heads.
  Proof.
    destruct c as [[n|] p s]; unfold s_cc; cbn [cc_name cc_spec t_cname opt app].
    - eexists; eexists; split; [reflexivity|cbn; tauto].
    - destruct s as [|[]| |]; eexists; eexists; (split; [reflexivity|cbn; tauto]).
  Qed.
  Lemma cc_text_head l rest : l <> [] -> exists s x, List.concat (map s_cc l) ++ rest = kwt s :: x /\ In s cc_heads.
  Proof.
    destruct l as [|c l]; [congruence|]. intros _. destruct (cc_head c) as (s & x & E & I). exists s. eexists. split; [|exact I].
    cbn [map List.concat]. rewrite E. reflexivity.
  Qed.

  Lemma stop_def def specs decs d rest : def_follow rest = true ->
    R (dbody (def, specs, decs)) (d, rest) = Ok (inr (def, specs, rev decs)) (d, rest).
  Proof.
    intros F. unfold dbody. step. cbv zeta. destruct rest as [|t rest]; [discriminate F|]. unfold plain in F.
    apply andb_true_iff in F as [F1 F2]. apply andb_true_iff in F2 as [F2 F3]. rewrite F3. reflexivity.
  Qed.

  (** One part of a column is read by some rounds of the loop. *)
  Definition steps (part T : list token) (a b : option node * list colconstraint * list decoration) : Prop :=
    exists k, (k <= len part)%nat /\ forall n d,
      R (loop (k + n) dbody a) (d, part ++ T) = R (loop n dbody b) (rev part ++ d, T).
  Lemma steps_nil T a : steps [] T a a.
  Proof. exists O. split; [apply Nat.le_refl|]. reflexivity. Qed.
  Lemma steps_app p q T a b c : steps p (q ++ T) a b -> steps q T b c -> steps (p ++ q) T a c.
  Proof.
    intros (k & K1 & K2) (j & J1 & J2). exists (k + j)%nat. rewrite app_length. split; [lia|]. intros n d.
    rewrite <- app_assoc, <- Nat.add_assoc, K2, J2, rev_app_distr, <- app_assoc. reflexivity.
  Qed.
  Lemma steps_end p T a def specs decs n d : steps p T a (def, specs, decs) -> def_follow T = true -> (len p < n)%nat ->
    R (loop n dbody a) (d, p ++ T) = Ok (def, specs, rev decs) (rev p ++ d, T).
  Proof.
    intros (k & K1 & K2) F Hn. replace n with (k + S (n - k - 1))%nat by lia. rewrite K2. cbn [loop].
    eapply R_step; [apply stop_def; exact F|]. reflexivity.
  Qed.

  Lemma steps_ccs l def decs T : forallb (ok_cc dl) l = true -> (len (List.concat (map s_cc l)) <= N)%nat -> (0 < N)%nat ->
    ends_ccs T -> steps (List.concat (map s_cc l)) T (def, [], decs) (def, map ecc l, decs).
  Proof.
    intros W L NP F. destruct l as [|c l]; [apply steps_nil|]. exists 1%nat. split.
    { destruct (cc_text_head (c :: l) []) as (s & x & E & _); [discriminate|]. rewrite app_nil_r in E. rewrite E. cbn. lia. }
    intros n d. cbn [Nat.add loop].
    eapply R_step with (a := inl (def, map ecc (c :: l), decs)) (s' := (rev (List.concat (map s_cc (c :: l))) ++ d, T)).
    - unfold dbody. pose proof (R_ccs (c :: l) d T W L NP F) as Q.
      destruct (cc_text_head (c :: l) T) as (s & x & E & I); [discriminate|]. rewrite E in Q |- *. step. cbv zeta.
      cbn [kwt is_kind tkind kind_eqb negb]. step.
      replace (kw _ "DEFAULT") with false by (cbn in I; repeat (destruct I as [<-|I]; [reflexivity|]); destruct I).
      replace (_ || _) with true by (cbn in I; repeat (destruct I as [<-|I]; [reflexivity|]); destruct I).
      eapply R_step; [exact Q|]. reflexivity.
    - reflexivity.
  Qed.
  Lemma steps_increment m def specs decs T :
    steps (map (fun _ : decoration => kwt "AUTO_INCREMENT") m) T (def, specs, decs)
      (def, specs, rev (map (er_deco Erase.no_pos) m) ++ decs).
  Proof.
    revert decs. induction m as [|x m IH]; intros decs; [apply steps_nil|].
    destruct (IH (er_deco Erase.no_pos x :: decs)) as (k & K1 & K2). exists (S k). split; [cbn; lia|].
    intros n d. cbn [map app Nat.add loop].
    eapply R_step with (a := inl (def, specs, er_deco Erase.no_pos x :: decs))
      (s' := (kwt "AUTO_INCREMENT" :: d, map (fun _ : decoration => kwt "AUTO_INCREMENT") m ++ T)).
    - unfold dbody. step. cbv zeta. cbn [kwt is_kind tkind kind_eqb negb]. step. kwc. step. reflexivity.
    - cbv iota. rewrite K2. cbn [rev]. rewrite <- !app_assoc. reflexivity.
  Qed.

  (** What may follow a part. *)
  Definition part_heads : list string := "DEFAULT" :: "AUTO_INCREMENT" :: cc_heads.
  Definition follows (l : list token) : Prop :=
    def_follow l = true \/ exists s x, l = kwt s :: x /\ In s part_heads.
  Definition partly (p : list token) : Prop := p = [] \/ exists s x, p = kwt s :: x /\ In s part_heads.
  Lemma follows_app p T : partly p -> follows T -> follows (p ++ T).
  Proof. intros [->|(s & x & -> & I)] F; [exact F|]. right. exists s. eexists. split; [reflexivity|exact I]. Qed.
  Lemma partly_ccs c : partly (s_ccs c).
  Proof.
    unfold s_ccs. destruct (cd_constraints c) as [|x l]; [left; reflexivity|]. right.
    destruct (cc_text_head (x :: l) []) as (s & y & E & I); [discriminate|]. rewrite app_nil_r in E. exists s, y. split; [exact E|].
    right. right. exact I.
  Qed.
  Lemma partly_default c : partly (s_default c).
  Proof.
    unfold s_default. destruct (cd_default c); [|left; reflexivity]. right. eexists; eexists. split; [reflexivity|left; reflexivity].
  Qed.
  Lemma partly_increment c : partly (s_increment c).
  Proof.
    unfold s_increment. destruct (cd_decorations c); [left; reflexivity|]. right. eexists; eexists. split; [reflexivity|].
    right. left. reflexivity.
  Qed.
  Lemma ends_default c T : ends_ccs T -> ends_ccs (s_default c ++ T).
  Proof.
    intros F. unfold s_default. destruct (cd_default c); [|exact F]. right. eexists; eexists. split; [reflexivity|left; reflexivity].
  Qed.
  Lemma ends_increment c T : ends_ccs T -> ends_ccs (s_increment c ++ T).
  Proof.
    intros F. unfold s_increment. destruct (cd_decorations c); [exact F|]. right. eexists; eexists. split; [reflexivity|].
    right. left. reflexivity.
  Qed.

  Lemma follows_facts T : follows T -> clear ["UNSIGNED"; "VARYING"; "WITH"; "WITHOUT"; "OVER"] [LParen; LBracket; Period] T = true
      /\ (iskw "NOT" T || iskw "NULL" T || (nprec T =? 0)) = true
      /\ (nprec T <> 0 -> starts "NOT" T = true /\ def_follow T = false /\ nprec T = level ONot).
  Proof.
    intros [F|(s & x & -> & I)].
    - assert (C : clear op_words op_kinds T = true) by (apply (plain_no _ _ _ _ F); reflexivity).
      assert (P0 : nprec T = 0) by (apply (clear_nprec _ _ _ C); reflexivity).
      split; [apply (plain_no _ _ _ _ F); reflexivity|]. rewrite P0. split; [rewrite !orb_true_r; reflexivity|congruence].
    - cbn [In part_heads cc_heads] in I.
      repeat (destruct I as [<-|I]; [split; [reflexivity|split; [reflexivity|intros X; first [exfalso; apply X; reflexivity|split; [reflexivity|split; reflexivity]]]]|]); destruct I.
  Qed.

  Lemma steps_default c specs decs rest :
    all_opt (fun e => ok_node e && s_no_not e &&
             ((level ONot <=? open_right e) || negb (starts "NOT" (after_default c)))) (cd_default c) = true ->
    (len (s_default c) <= N)%nat -> def_follow rest = true -> follows (after_default c ++ rest) ->
    steps (s_default c) (after_default c ++ rest) (None, specs, decs) (option_map enode (cd_default c), specs, decs).
  Proof.
    intros W L E F. unfold s_default in *. destruct (cd_default c) as [e|]; [|apply steps_nil]. cbn [opt option_map all_opt] in *.
    rewrite !andb_true_iff in W. destruct W as [[We Wn] Wo]. destruct (follows_facts _ F) as (H1 & H2 & H3).
    exists 1%nat. split; [cbn; lia|]. intros n d. cbn [List.length] in L. cbn [Nat.add loop].
    set (T := after_default c ++ rest) in *.
    eapply R_step with (a := inl (Some (enode e), specs, decs)) (s' := (rev (s_node e) ++ kwt "DEFAULT" :: d, T)).
    - unfold dbody. cbn [app]. step. cbv zeta. cbn [kwt is_kind tkind kind_eqb negb]. step. kwc. step.
      eapply R_step; [apply (R_default dl r N G); [exact We|zl|exact Wn|side0| |exact H2]|cbv beta; reflexivity].
      pose proof (wf_strength _ _ We) as Ws. destruct (Z.eq_dec (nprec T) 0) as [Z0|Z0]; [rewrite Z0; clear -Ws; lia|].
      destruct (H3 Z0) as (H4 & H5 & ->). apply Z.leb_le. unfold T in H4, H5.
      destruct (after_default c) as [|t x]; [cbn [app] in H5; congruence|].
      rewrite (starts_app "NOT" (t :: x)) in H4 by discriminate. rewrite H4 in Wo. cbn [negb] in Wo. rewrite orb_false_r in Wo. exact Wo.
    - cbv iota. norm. reflexivity.
  Qed.

  Lemma parts_len c : (len (s_default c) <= len (s_parts c) /\ len (s_ccs c) <= len (s_parts c))%nat.
  Proof. unfold s_parts. destruct (w_order sty c); rewrite !app_length; lia. Qed.

  Lemma steps_parts c rest : ok_coldef dl c = true -> (len (s_parts c) <= N)%nat -> (0 < N)%nat -> def_follow rest = true ->
    steps (s_parts c) rest (None, [], [])
      (option_map enode (cd_default c), map ecc (cd_constraints c), rev (map (er_deco Erase.no_pos) (cd_decorations c))).
  Proof.
    intros W L NP F. unfold ok_coldef in W. rewrite !andb_true_iff in W. destruct W as [[[W1 W2] W3] W4].
    destruct (parts_len c) as [L1 L2].
    assert (FO : follows rest) by (left; exact F). assert (EO : ends_ccs rest) by (left; exact F).
    pose proof (partly_ccs c) as PC. pose proof (partly_default c) as PD. pose proof (partly_increment c) as PI.
    assert (Fa : follows (after_default c ++ rest)).
    { unfold after_default. destruct (w_order sty c); rewrite <- ?app_assoc; repeat apply follows_app; auto; left; reflexivity. }
    pose proof (steps_default c) as SD. specialize (fun specs decs => SD specs decs rest W3 (Nat.le_trans _ _ _ L1 L) F Fa).
    pose proof (fun def decs T => steps_ccs (cd_constraints c) def decs T W4 (Nat.le_trans _ _ _ L2 L) NP) as SC. fold (s_ccs c) in SC.
    pose proof (fun def specs T => steps_increment (cd_decorations c) def specs [] T) as SI. fold (s_increment c) in SI.
    rewrite app_nil_r in SI.
    clear W1 W2 W3 W4 L L1 L2. unfold s_parts. unfold after_default in SD.
    destruct (w_order sty c); cbn [app] in SD.
    - eapply steps_app; [rewrite <- app_assoc; rewrite <- app_assoc in SD; apply SD|]. eapply steps_app; [apply SI|]. apply SC, EO.
    - eapply steps_app; [rewrite <- app_assoc; rewrite <- app_assoc in SD; apply SD|]. eapply steps_app; [apply SC, ends_increment, EO|]. apply SI.
    - eapply steps_app; [apply SI|]. eapply steps_app; [apply SD|]. apply SC, EO.
    - eapply steps_app; [apply SI|]. eapply steps_app; [apply SC, ends_default, EO|]. apply SD.
    - eapply steps_app; [rewrite <- app_assoc; apply SC, ends_default, ends_increment, EO|]. eapply steps_app; [apply SD|]. apply SI.
    - eapply steps_app; [rewrite <- app_assoc; apply SC, ends_increment, ends_default, EO|]. eapply steps_app; [apply SI|]. apply SD.
  Qed.
  Lemma follows_parts c rest : def_follow rest = true -> follows (s_parts c ++ rest).
  Proof.
    intros F. assert (FO : follows rest) by (left; exact F).
    pose proof (partly_ccs c) as PC. pose proof (partly_default c) as PD. pose proof (partly_increment c) as PI.
    unfold s_parts. destruct (w_order sty c); rewrite <- !app_assoc; repeat apply follows_app; auto.
  Qed.

  Lemma R_coldef c d rest : ok_coldef dl c = true -> (len (s_coldef c) <= N)%nat -> def_follow rest = true ->
    R (parse_column_def r) (d, s_coldef c ++ rest) = Ok (ecoldef c) (rev (s_coldef c) ++ d, rest).
  Proof.
    intros W L F. unfold s_coldef in *. ll L. assert (NP : (0 < N)%nat) by (clear -L; lia).
    pose proof (fuel N NP (Nat.le_refl _)) as FU.
    assert (LP : (len (s_parts c) <= N)%nat) by (clear -L; lia).
    pose proof (steps_parts c rest W LP NP F) as Q. pose proof (follows_parts c rest F) as FP.
    destruct (follows_facts _ FP) as (H1 & _ & _).
    unfold ok_coldef in W. rewrite !andb_true_iff in W. destruct W as [[[W1 W2] _] _].
    unfold parse_column_def. cbn [app]. step. step. rewrite <- app_assoc.
    eapply R_step; [apply (R_type r dl); [exact W2|side0|zl]|cbv beta].
    eapply R_step; [unfold parse_column_definition; fold dbody; apply (steps_end _ _ _ _ _ _ _ _ Q F); zl|].
    cbv beta iota. rewrite R_ret. fold (idt (cd_name c)). rewrite (ident_of_idt dl) by exact W1. rewrite rev_involutive.
    destruct c as [name ty def decs ccs]. unfold er_coldef.
    cbn [cd_name cd_type cd_default cd_decorations cd_constraints] in *. fin.
  Qed.
End Stmt.
End Style.
