(** Running the statement parser on written statements. *)
From Coq Require Import ZArith List Bool String Lia.
From Verif Require Import Base Dialect Token Lexer LexSpec AST Num Prog Parser Sim Erase Grammar NumThms ValueThms Render
  RtPrim RtEq RtExpr RtQuery.
Import ListNotations.
Open Scope string_scope.
Open Scope Z_scope.
Open Scope list_scope.

(** *** What follows statements and their elements *)

Lemma plain_clear ks kinds l : sane l = true -> iskw "" l = false \/ True ->
  match l with [] => true | t :: _ => match tval t with VStr _ => negb (kmem (tkind t) kinds) | VWord _ => false end end = true ->
  clear ks kinds l = true.
Proof.
  intros S _ H. unfold clear. rewrite S. destruct l as [|t l].
  - cbn [starts iskw isk negb andb]. apply andb_true_iff. split; apply forallb_forall; reflexivity.
  - destruct (tval t) as [w|v] eqn:V; [discriminate H|]. cbn [andb]. apply andb_true_iff. split; apply forallb_forall.
    + intros s _. cbn [starts iskw]. rewrite V. reflexivity.
    + intros k I. cbn [isk]. unfold is_kind. destruct (kind_eqb (tkind t) k) eqn:E; [|reflexivity].
      apply kind_eqb_eq in E. subst k. apply kmem_In in I. rewrite I in H. discriminate H.
Qed.

(** The end, or a token that is no word. *)
Definition plain (kinds : list kind) (l : list token) : bool :=
  sane l && match l with [] => true | t :: _ => kmem (tkind t) kinds && negb (is_kind SQLKeyword t) end.
Notation end_follow := (plain [Semicolon]).
Notation def_follow := (plain [Comma; RParen; Semicolon]).

Lemma plain_no kinds ks kinds' l : plain kinds l = true -> forallb (fun k => negb (kmem k kinds')) kinds = true ->
  clear ks kinds' l = true.
Proof.
  intros H D. apply andb_true_iff in H as [S H]. apply plain_clear; auto.
  destruct l as [|t l]; [reflexivity|]. apply andb_true_iff in H as [H1 H2]. cbn [sane] in S.
  apply andb_true_iff in S as [S _]. apply negb_true_iff in H2. rewrite H2 in S.
  destruct (tval t); [discriminate S|]. rewrite forallb_forall in D. apply D. apply kmem_In. exact H1.
Qed.
Lemma stmt_plain s l : stmt_follow s l = true -> end_follow l = true.
Proof.
  unfold stmt_follow, plain. destruct l as [|t l]; [reflexivity|]. rewrite andb_true_iff. intros [H1 H2].
  rewrite H2. cbn [isk] in H1. unfold is_kind in *. apply kind_eqb_eq in H1. rewrite H1. reflexivity.
Qed.
Lemma end_def l : end_follow l = true -> def_follow l = true.
Proof.
  unfold plain. rewrite !andb_true_iff. intros [H1 H2]. split; [exact H1|]. destruct l; [reflexivity|].
  apply andb_true_iff in H2 as [H2 H3]. rewrite H3. apply kmem_In in H2. destruct H2 as [<- |[]]. reflexivity.
Qed.

Section Stmt.
  Variables (dl : dialect) (r : rec) (N : nat).
  Hypothesis G : good dl r N.
  Notation wf_node := (wf_node dl).
  Notation R_expr := (R_expr dl r N G).
  Notation R_expr_list := (R_expr_list dl r N G).
  Notation fuel := (fuel_ok dl r N G).
  Notation ecoldef := (er_coldef Erase.no_pos same_rune).
  Notation ecc := (er_cc Erase.no_pos same_rune).
  Notation etc := (er_tc Erase.no_pos same_rune).
  Notation eelem := (er_element Erase.no_pos same_rune).
  Notation eass := (er_assign Erase.no_pos same_rune).

  Lemma ids_pos l : wf_ids dl l = true -> (0 < len (t_ids l))%nat.
  Proof. unfold wf_ids. destruct l as [|i l]; [discriminate|]. intros _. unfold t_ids. cbn [map]. rewrite sepby_more. cbn. lia. Qed.
  Lemma name_pos o : wf_on dl o = true -> (0 < len (t_name o))%nat.
  Proof. intros W. destruct (name_head dl o W) as (i & x & ->). cbn. lia. Qed.
  Lemma node_pos e : wf_node e = true -> (0 < len (t_node e))%nat.
  Proof. intros W. destruct (node_head _ _ W) as (t & x & -> & _). cbn. lia. Qed.
  Lemma R_cols l d rest : wf_ids dl l = true -> isk Comma rest = false -> (len (t_ids l) <= N)%nat ->
    R (parse_column_names r) (d, t_ids l ++ rest) = Ok (map eid l) (rev (t_ids l) ++ d, rest).
  Proof. intros W C L. apply (R_columns r dl); auto. apply fuel; [apply ids_pos; exact W|exact L]. Qed.
  Lemma R_oname o d rest : wf_on dl o = true -> isk Period rest = false -> (len (t_name o) <= N)%nat ->
    R (parse_object_name r) (d, t_name o ++ rest) = Ok (eon o) (rev (t_name o) ++ d, rest).
  Proof. intros W C L. apply (R_name r dl); auto. apply fuel; [apply name_pos; exact W|exact L]. Qed.

  (** *** Constraints *)

  Lemma R_tc c d rest : wf_tc dl c = true -> (len (t_tc c) <= N)%nat ->
    R (parse_table_constraints r) (d, t_tc c ++ rest) = Ok (etc c) (rev (t_tc c) ++ d, rest).
  Proof.
    intros W L. destruct c as [p name spec]. unfold wf_tc in W. cbn [tc_name tc_spec] in W. apply andb_true_iff in W as [W1 W2].
    unfold t_tc in *. cbn [tc_name tc_spec] in *. rewrite app_length in L.
    assert (Sp : forall d', R (t <- peek_nn ;;
      w <- word_of t ;;
      spec <-
        (if kw w "UNIQUE" then
           must_next ;;;
           k <- parse_keyword "KEY" ;;
           match k with
           | KwEOF => Err
           | _ =>
               expect_token LParen ;;;
               cols <- parse_column_names r ;;
               rp <- next_kind RParen ;;
               Ret (TCUnique false pos0 (tfrom t) (tto rp) cols)
           end
         else if kw w "PRIMARY" then
           must_next ;;;
           expect_keyword "KEY" ;;;
           expect_token LParen ;;;
           cols <- parse_column_names r ;;
           rp <- next_kind RParen ;;
           Ret (TCUnique true (tfrom t) pos0 (tto rp) cols)
         else if kw w "FOREIGN" then
           must_next ;;;
           expect_keyword "KEY" ;;;
           expect_token LParen ;;;
           cols <- parse_column_names r ;;
           expect_token RParen ;;;
           expect_keyword "REFERENCES" ;;;
           n <- next_nn ;;
           wn <- word_of n ;;
           expect_token LParen ;;;
           rc <- parse_list_of_ids r Comma ;;
           rp <- next_kind RParen ;;
           Ret (TCReferential (tfrom t) cols
                  (mkRefKey (ident_of n wn) (match rc with Some l => l | None => [] end) (tto rp)))
         else if kw w "CHECK" then
           must_next ;;;
           expect_token LParen ;;;
           e <- parse_expr r ;;
           rp <- next_kind RParen ;;
           Ret (TCCheck (tfrom t) (tto rp) e)
         else Err) ;;
      Ret (mkTC pos0 (option_map eid name) spec)) (d', t_tcspec spec ++ rest)
      = Ok (etc (mkTC p name spec)) (rev (t_tcspec spec) ++ d', rest)).
    { intros d'. destruct spec as [pk p1 p2 p3 cols|p1 cols key|p1 p2 e]; cbn [wf_tcspec] in W2; cbn [t_tcspec] in L |- *.
      - unfold parens in *. destruct pk; cbn [app kws map] in *; sh; step; step; kwc.
        + ll L. eapply R_step; [|cbv beta].
          { step. step. step. eapply R_step; [apply R_cols; [exact W2|reflexivity|zl]|cbv beta]. step. reflexivity. }
          rewrite R_ret. fin.
        + ll L. eapply R_step; [|cbv beta].
          { step. step. step. eapply R_step; [apply R_cols; [exact W2|reflexivity|zl]|cbv beta]. step. reflexivity. }
          rewrite R_ret. fin.
      - destruct key as [tb kc p2]. cbn [rk_table rk_columns] in *. rewrite !andb_true_iff in W2. destruct W2 as [[Wc Wt] Wk].
        unfold t_refkey in *. cbn [rk_table rk_columns] in *. unfold parens in *. cbn [app]. sh. step. step. kwc. ll L.
        eapply R_step with (a := er_tcspec Erase.no_pos same_rune (TCReferential p1 cols (mkRefKey tb kc p2)))
          (s' := (rev (kwt "FOREIGN" :: kwt "KEY" :: (lpar :: t_ids cols ++ [rpar]) ++ kwt "REFERENCES" :: idt tb :: lpar :: t_ids kc ++ [rpar]) ++ d', rest)).
        { step. step. step. eapply R_step; [apply R_cols; [exact Wc|reflexivity|zl]|cbv beta]. step. step. step. step. step.
          eapply R_step with (a := match kc with [] => None | _ => Some (map eid kc) end)
            (s' := (rev (t_ids kc) ++ lpar :: idt tb :: kwt "REFERENCES" :: rpar :: rev (t_ids cols) ++ lpar :: kwt "KEY" :: kwt "FOREIGN" :: d', rpar :: rest)).
          { destruct kc as [|k kc].
            - unfold parse_list_of_ids. pose proof (fuel 1%nat). destruct (r_fuel r); [exfalso; clear -H L; lia|]. reflexivity.
            - apply (R_ids r dl); [reflexivity|discriminate|exact Wk|reflexivity|].
              apply fuel; [apply (ids_pos (k :: kc)); exact Wk|]. unfold t_ids in L. zl. }
          cbv beta. step. rewrite R_ret. fold (idt tb). rewrite (ident_of_idt dl) by exact Wt.
          cbn [er_tcspec er_refkey rk_table rk_columns]. destruct kc; fin. }
        cbv beta. rewrite R_ret. fin.
      - unfold parens in *. cbn [app]. sh. step. step. kwc. ll L. eapply R_step; [|cbv beta].
        { step. step. eapply R_step; [apply R_expr; [exact W2|zl|reflexivity|reflexivity]|cbv beta]. step. reflexivity. }
        rewrite R_ret. fin. }
    unfold parse_table_constraints. destruct name as [n|]; cbn [t_cname opt app].
    - step. cbn [kwt is_kind tkind kind_eqb negb tval]. kwc. cbv zeta.
      eapply R_step; [step; eapply R_step; [apply (R_ident _ dl); exact W1|reflexivity]|cbv beta iota]. cbn [tfrom].
      etransitivity; [apply Sp|]. fin.
    - step. specialize (Sp d).
      assert (H : exists t x, t_tcspec spec ++ rest = t :: x /\ is_kind SQLKeyword t = true
        /\ match tval t with VWord w => kw w "CONSTRAINT" | VStr _ => false end = false).
      { destruct spec as [[] ? ? ? ?|? ? ?|? ? ?]; eexists; eexists; repeat split; reflexivity. }
      destruct H as (t & x & H & H1 & H2). rewrite H in Sp |- *. rewrite H1, H2. cbn [negb]. cbv zeta. step. exact Sp.
  Qed.

  Lemma R_ccspec spec t w d rest : wf_cc dl (mkCC None pos0 spec) = true -> (len (t_ccspec spec) <= N)%nat ->
    hd comma (t_ccspec spec) = t -> tval t = VWord w ->
    R (parse_column_spec r t w) (d, t_ccspec spec ++ rest)
    = Ok (Some (er_ccspec Erase.no_pos same_rune spec)) (rev (t_ccspec spec) ++ d, rest).
  Proof.
    intros W L <- V. unfold wf_cc in W. cbn [cc_name cc_spec all_opt andb] in W. unfold parse_column_spec.
    destruct spec as [a b|pk a b c|a b tn cols|e a b]; cbn [t_ccspec] in *.
    - injection V as <-. kwc. cbn [kws map app]. step. step. reflexivity.
    - destruct pk; injection V as <-; kwc; cbn [kws map app]; step; [step|]; reflexivity.
    - apply andb_true_iff in W as [W1 W2]. injection V as <-. kwc. unfold parens in *. cbn [app]. sh. ll L. step.
      eapply R_step; [apply R_oname; [exact W1|reflexivity|zl]|cbv beta]. step.
      eapply R_step; [apply R_cols; [exact W2|reflexivity|zl]|cbv beta]. step. rewrite R_ret. fin.
    - injection V as <-. kwc. unfold parens in *. cbn [app]. sh. ll L. step. step.
      eapply R_step; [apply R_expr; [exact W|zl|reflexivity|reflexivity]|cbv beta]. step. rewrite R_ret. fin.
  Qed.

  Lemma ccspec_head s : exists x y, t_ccspec s = x :: y /\ is_kind SQLKeyword x = true /\ exists w, tval x = VWord w /\ kw w "CONSTRAINT" = false.
  Proof. destruct s as [|[]| |]; eexists; eexists; (split; [reflexivity|split; [reflexivity|eexists; split; reflexivity]]). Qed.

  Lemma R_ccs l d rest : forallb (wf_cc dl) l = true -> (len (List.concat (map t_cc l)) <= N)%nat -> (0 < N)%nat ->
    def_follow rest = true ->
    R (parse_column_constraints r) (d, List.concat (map t_cc l) ++ rest)
    = Ok (map ecc l) (rev (List.concat (map t_cc l)) ++ d, rest).
  Proof.
    intros W L NP F. unfold parse_column_constraints. rewrite forallb_forall in W.
    pose proof (fun a H => concat_in_len t_cc a l H) as L2.
    rewrite (loop_more t_cc ecc).
    - reflexivity.
    - intros l1 c l2 acc d' E. assert (I : In c l) by (rewrite E; apply in_or_app; right; left; reflexivity).
      specialize (W c I). specialize (L2 c I). assert (L3 : (len (t_cc c) <= N)%nat) by (clear -L L2; lia). clear L L2. rename L3 into L2. destruct c as [name p spec].
      assert (W2 : wf_cc dl (mkCC None pos0 spec) = true).
      { unfold wf_cc in *. cbn [cc_name cc_spec all_opt andb] in *. apply andb_true_iff in W. apply W. }
      assert (W1 : all_opt (wf_id dl) name = true) by (unfold wf_cc in W; apply andb_true_iff in W; apply W).
      unfold t_cc in L2 |- *. cbn [cc_name cc_spec] in *. rewrite app_length in L2. rewrite <- app_assoc.
      fold t_cc. set (T := List.concat (map t_cc l2) ++ rest).
      assert (Sp : forall d', R (t <- peek_nn ;;
           if negb (is_kind SQLKeyword t) then Ret (inr (rev acc))
           else
             w <- word_of t ;;
             s <- parse_column_spec r t w ;;
             Ret (match s with
                  | None => inr (rev acc)
                  | Some spec => inl (mkCC (option_map eid name) pos0 spec :: acc)
                  end)) (d', t_ccspec spec ++ T) = Ok (inl (ecc (mkCC name p spec) :: acc)) (rev (t_ccspec spec) ++ d', T)).
      { intros d2. destruct (ccspec_head spec) as (x & y & EH & H1 & w & H2 & H3).
        pose proof (fun d => R_ccspec spec x w d T W2) as Q. rewrite EH in Q. cbn [hd] in Q.
        rewrite EH. cbn [app]. step. rewrite H1. cbn [negb].
        eapply R_step; [apply R_word; exact H2|cbv beta].
        eapply R_step; [apply Q; [rewrite <- EH; zl|reflexivity|exact H2]|cbv beta]. rewrite R_ret. reflexivity. }
      destruct name as [n|]; cbn [t_cname opt app].
      + step. cbn [kwt tval]. kwc. cbv zeta.
        eapply R_step; [step; eapply R_step; [apply (R_ident _ dl); exact W1|reflexivity]|cbv beta iota].
        etransitivity; [apply Sp|]. fin.
      + step. specialize (Sp d'). destruct (ccspec_head spec) as (x & y & EH & H1 & w & H2 & H3).
        rewrite EH in Sp |- *. cbn [app] in *. rewrite H2, H3. cbv zeta. step. exact Sp.
    - intros acc d'. step. destruct rest as [|t rest]; [reflexivity|]. unfold plain in F.
      apply andb_true_iff in F as [F1 F2]. apply andb_true_iff in F2 as [F2 F3]. apply negb_true_iff in F3.
      cbn [sane] in F1. rewrite F3 in F1. destruct (tval t); [discriminate F1|]. cbv zeta. step. step. rewrite F3. reflexivity.
    - assert (LL : forall x, (List.length x <= len (List.concat (map t_cc x)))%nat).
      { induction x as [|c x IH]; [apply Nat.le_refl|]. cbn [map List.concat List.length]. rewrite app_length.
        unfold t_cc at 1. rewrite app_length. destruct (ccspec_head (cc_spec c)) as (u & v & -> & _). cbn [List.length]. lia. }
      specialize (LL l). pose proof (fuel N NP (Nat.le_refl _)). lia.
  Qed.

  (** *** Columns *)

  Definition dbody : option node * list colconstraint * list decoration ->
    prog ((option node * list colconstraint * list decoration) + (option node * list colconstraint * list decoration)) :=
    (fun '(def, specs, decs) =>
       o <- peek ;;
       let stop := Ret (inr (def, specs, rev decs)) in
       match o with
       | None => stop
       | Some t =>
           if negb (is_kind SQLKeyword t) then stop
           else
             w <- word_of t ;;
             if kw w "DEFAULT" then
               ok <- kw_ok "DEFAULT" ;;
               if ok then d <- parse_default_expr r ;; Ret (inl (Some d, specs, decs))
               else Ret (inl (def, specs, decs))
             else if kw w "CONSTRAINT" || kw w "NOT" || kw w "UNIQUE" || kw w "PRIMARY"
                     || kw w "REFERENCES" || kw w "CHECK" then
               s <- parse_column_constraints r ;; Ret (inl (def, s, decs))
             else if kw w "AUTO_INCREMENT" then
               must_next ;;; Ret (inl (def, specs, mkAutoInc (tfrom t) (tto t) :: decs))
             else stop
       end).

  Definition cc_heads : list string := ["CONSTRAINT"; "NOT"; "UNIQUE"; "PRIMARY"; "REFERENCES"; "CHECK"].
  Lemma cc_head c : exists s x, t_cc c = kwt s :: x /\ In s cc_heads.
  Proof.
    destruct c as [[n|] p s]; unfold t_cc; cbn [cc_name cc_spec t_cname opt app].
    - eexists; eexists; split; [reflexivity|cbn; tauto].
    - destruct s as [|[]| |]; eexists; eexists; (split; [reflexivity|cbn; tauto]).
  Qed.
  Lemma cc_text_head l rest : l <> [] -> exists s x, List.concat (map t_cc l) ++ rest = kwt s :: x /\ In s cc_heads.
  Proof.
    destruct l as [|c l]; [congruence|]. intros _. destruct (cc_head c) as (s & x & E & I). exists s. eexists. split; [|exact I].
    cbn [map List.concat]. rewrite E. reflexivity.
  Qed.

  Lemma stop_def def specs decs d rest : def_follow rest = true ->
    R (dbody (def, specs, decs)) (d, rest) = Ok (inr (def, specs, rev decs)) (d, rest).
  Proof.
    intros F. unfold dbody. step. cbv zeta. destruct rest as [|t rest]; [reflexivity|]. unfold plain in F.
    apply andb_true_iff in F as [F1 F2]. apply andb_true_iff in F2 as [F2 F3]. rewrite F3. reflexivity.
  Qed.

  Lemma R_ccs_part l def decs n d rest : forallb (wf_cc dl) l = true -> (len (List.concat (map t_cc l)) <= N)%nat -> (0 < N)%nat ->
    def_follow rest = true -> (1 < n)%nat ->
    R (loop n dbody (def, [], decs)) (d, List.concat (map t_cc l) ++ rest)
    = Ok (def, map ecc l, rev decs) (rev (List.concat (map t_cc l)) ++ d, rest).
  Proof.
    intros W L NP F Hn. destruct l as [|c l].
    - cbn [map List.concat app]. destruct n as [|n]; [lia|]. cbn [loop].
      eapply R_step; [apply stop_def; exact F|]. reflexivity.
    - destruct n as [|[|n]]; try (exfalso; clear -Hn; lia). cbn [loop].
      eapply R_step with (a := inl (def, map ecc (c :: l), decs)) (s' := (rev (List.concat (map t_cc (c :: l))) ++ d, rest)).
      + unfold dbody. pose proof (R_ccs (c :: l) d rest W L NP F) as Q.
        destruct (cc_text_head (c :: l) rest) as (s & x & E & I); [discriminate|]. rewrite E in Q |- *. step. cbv zeta.
        cbn [kwt is_kind tkind kind_eqb negb]. step.
        replace (kw _ "DEFAULT") with false by (cbn in I; repeat (destruct I as [<-|I]; [reflexivity|]); destruct I).
        replace (_ || _) with true by (cbn in I; repeat (destruct I as [<-|I]; [reflexivity|]); destruct I).
        eapply R_step; [exact Q|]. reflexivity.
      + cbn [loop]. cbv iota. eapply R_step; [apply stop_def; exact F|]. reflexivity.
  Qed.

  Lemma R_decs_part m l def decs n d rest : forallb (wf_cc dl) l = true -> (len (List.concat (map t_cc l)) <= N)%nat -> (0 < N)%nat ->
    def_follow rest = true -> (List.length m + 1 < n)%nat ->
    R (loop n dbody (def, [], decs)) (d, map (fun _ : decoration => kwt "AUTO_INCREMENT") m ++ List.concat (map t_cc l) ++ rest)
    = Ok (def, map ecc l, rev decs ++ map (er_deco Erase.no_pos) m)
         (rev (map (fun _ : decoration => kwt "AUTO_INCREMENT") m ++ List.concat (map t_cc l)) ++ d, rest).
  Proof.
    intros W L NP F. revert decs n d. induction m as [|x m IH]; intros decs n d Hn.
    - cbn [map app]. rewrite app_nil_r. apply R_ccs_part; auto.
    - destruct n as [|n]; [cbn in Hn; lia|]. cbn [map app loop].
      eapply R_step with (a := inl (def, [], er_deco Erase.no_pos x :: decs))
        (s' := (kwt "AUTO_INCREMENT" :: d, map (fun _ : decoration => kwt "AUTO_INCREMENT") m ++ List.concat (map t_cc l) ++ rest)).
      + unfold dbody. step. cbv zeta. cbn [kwt is_kind tkind kind_eqb negb]. step. kwc. step. reflexivity.
      + cbv iota. rewrite IH by (cbn in Hn; lia). cbn [rev]. rewrite <- !app_assoc. reflexivity.
  Qed.

  Lemma R_coldef c d rest : wf_coldef dl c = true -> (len (t_coldef c) <= N)%nat -> def_follow rest = true ->
    (rest = [] -> ends_coldef c = true) ->
    R (parse_column_def r) (d, t_coldef c ++ rest) = Ok (ecoldef c) (rev (t_coldef c) ++ d, rest).
  Proof.
    intros W L F EN. destruct c as [name ty def decs ccs]. unfold wf_coldef in W. cbn [cd_name cd_type cd_default cd_decorations cd_constraints] in W.
    rewrite !andb_true_iff in W. destruct W as [[[W1 W2] W3] W4].
    unfold t_coldef in *. cbn [cd_name cd_type cd_default cd_decorations cd_constraints] in *. ll L.
    set (T2 := map (fun _ : decoration => kwt "AUTO_INCREMENT") decs ++ List.concat (map t_cc ccs) ++ rest).
    assert (NP : (0 < N)%nat) by (clear -L; lia). pose proof (fuel N NP (Nat.le_refl _)) as FU.
    assert (Hd : clear ["UNSIGNED"; "VARYING"; "WITH"; "WITHOUT"; "OVER"] [LParen; LBracket; Period] T2 = true
      /\ (iskw "NOT" T2 || iskw "NULL" T2 || (nprec T2 =? 0)) = true
      /\ (nprec T2 <> 0 -> decs = [] /\ starts "NOT" (List.concat (map t_cc ccs)) = true /\ nprec T2 = level ONot)).
    { unfold T2. destruct decs; cbn [map app]; [|split; [reflexivity|split; [reflexivity|intros X; exfalso; apply X; reflexivity]]].
      destruct ccs as [|c ccs].
      - cbn [map List.concat app]. assert (C : clear op_words op_kinds rest = true) by (apply (plain_no _ _ _ _ F); reflexivity).
        assert (P0 : nprec rest = 0) by (apply (clear_nprec _ _ _ C); reflexivity).
        split; [apply (plain_no _ _ _ _ F); reflexivity|]. rewrite P0. split; [rewrite !orb_true_r; reflexivity|congruence].
      - destruct (cc_text_head (c :: ccs) rest) as (s & x & E & I); [discriminate|].
        destruct (cc_text_head (c :: ccs) []) as (s2 & x2 & E2 & I2); [discriminate|]. rewrite app_nil_r in E2.
        rewrite E2 in E. injection E as ES _. 
        assert (E3 : s2 = s) by (unfold kwt in ES; clear -ES I I2; cbn in I, I2; repeat (destruct I as [<-|I]; [repeat (destruct I2 as [<-|I2]; [reflexivity || discriminate ES|]); destruct I2|]); destruct I).
        subst s2. rewrite E2. rewrite <- app_comm_cons.
        clear - I. cbn in I. 
        repeat (destruct I as [<-|I]; [split; [reflexivity|split; [reflexivity|intros X; first [exfalso; apply X; reflexivity|split; [reflexivity|split; reflexivity]]]]|]); destruct I. }
    destruct Hd as (H1 & H2 & H3).
    set (T1 := opt def (fun e => kwt "DEFAULT" :: t_node e) ++ T2).
    unfold parse_column_def. cbn [app]. step. step.
    replace ((t_type ty ++ opt def (fun e => kwt "DEFAULT" :: t_node e) ++
       map (fun _ : decoration => kwt "AUTO_INCREMENT") decs ++ List.concat (map t_cc ccs)) ++ rest) with (t_type ty ++ T1)
      by (unfold T1, T2; rewrite <- !app_assoc; reflexivity).
    eapply R_step; [apply (R_type r dl); [exact W2| | |]|cbv beta].
    { unfold T1. destruct def; [reflexivity|]. cbn [opt app]. side0. }
    { unfold T1, T2. intros X. apply app_eq_nil in X as [X1 X]. apply app_eq_nil in X as [X2 X]. apply app_eq_nil in X as [X3 X4].
      specialize (EN X4). unfold ends_coldef in EN. cbn [cd_default cd_decorations cd_constraints cd_type] in EN.
      destruct def; [discriminate X1|]. destruct decs; [|discriminate X2].
      destruct ccs as [|c ccs]; [exact EN|]. destruct (cc_text_head (c :: ccs) []) as (s & x & E & _); [discriminate|].
      rewrite app_nil_r, X3 in E. discriminate E. }
    { zl. }
    eapply R_step with (a := (option_map enode def, map ecc ccs, map (er_deco Erase.no_pos) decs))
      (s' := (rev (opt def (fun e => kwt "DEFAULT" :: t_node e) ++ map (fun _ : decoration => kwt "AUTO_INCREMENT") decs ++ List.concat (map t_cc ccs)) ++ rev (t_type ty) ++ idt name :: d, rest)).
    { unfold parse_column_definition. fold dbody. unfold T1. rewrite map_length in L. destruct def as [e|]; cbn [opt app option_map].
      - cbn [opt] in L. cbn [List.length] in L. cbn [all_opt] in W3. rewrite !andb_true_iff in W3. destruct W3 as [[We Wn] Wo].
        destruct (r_fuel r) as [|n] eqn:EF; [exfalso; clear -FU; lia|]. cbn [loop].
        eapply R_step with (a := inl (Some (enode e), [], [])) (s' := (rev (t_node e) ++ kwt "DEFAULT" :: rev (t_type ty) ++ idt name :: d, T2)).
        + unfold dbody. step. cbv zeta. cbn [kwt is_kind tkind kind_eqb negb]. step. kwc. step.
          eapply R_step; [apply (R_default dl r N G); [exact We|zl|exact Wn|side0| |exact H2]|cbv beta; reflexivity].
          pose proof (wf_strength _ _ We) as Ws. destruct (Z.eq_dec (nprec T2) 0) as [Z0|Z0]; [rewrite Z0; clear -Ws; lia|].
          destruct (H3 Z0) as (-> & H4 & ->). rewrite H4 in Wo. cbn [nonempty negb orb] in Wo. rewrite !orb_false_r in Wo.
          apply Z.leb_le. exact Wo.
        + cbv iota. unfold T2. rewrite R_decs_part; [norm; reflexivity|exact W4|zl|exact NP|exact F|].
          pose proof (node_pos e We) as PE. zl.
      - unfold T2. rewrite R_decs_part; [norm; reflexivity|exact W4|zl|exact NP|exact F|]. zl. }
    cbv beta iota. rewrite R_ret. fold (idt name). rewrite (ident_of_idt dl) by exact W1. unfold er_coldef.
    cbn [cd_name cd_type cd_default cd_decorations cd_constraints]. fin.
  Qed.
End Stmt.
