(** Running the parser on written statements, and tying the knot. *)
From Coq Require Import ZArith List Bool String Lia.
From Verif Require Import Base Dialect Token Lexer LexSpec AST Num Prog Parser Sim Erase Grammar NumThms ValueThms Render
  RtPrim RtEq RtExpr RtQuery RtStmt.
Import ListNotations.
Open Scope string_scope.
Open Scope Z_scope.
Open Scope list_scope.

(** A list with separators whose last element is followed by a closing token that
    the loop consumes. *)
Lemma loop_sep_end {A B} (f : A -> list token) (g : A -> B) (s e : token)
  (body : list B -> prog (list B + list B)) rest z : forall l acc n d,
  (forall a acc d rest', In a l ->
     R (body acc) (d, f a ++ s :: rest') = Ok (inl (g a :: acc)) (s :: rev (f a) ++ d, rest')) ->
  (forall acc d, R (body acc) (d, f z ++ e :: rest) = Ok (inr (rev (g z :: acc))) (e :: rev (f z) ++ d, rest)) ->
  (List.length l < n)%nat ->
  R (loop n body acc) (d, sepby s (map f (l ++ [z])) ++ e :: rest)
  = Ok (rev acc ++ map g (l ++ [z])) (e :: rev (sepby s (map f (l ++ [z]))) ++ d, rest).
Proof.
  induction l as [|a l IH]; intros acc n d H1 H2 L; (destruct n as [|n]; [cbn in L; lia|]).
  - cbn [app map sepby loop]. eapply R_step; [apply H2|]. cbv beta iota. cbn [rev]. reflexivity.
  - cbn [app map loop].
    assert (E : sepby s (f a :: map f (l ++ [z])) = f a ++ s :: sepby s (map f (l ++ [z]))).
    { destruct (map f (l ++ [z])) eqn:E; [|reflexivity]. destruct l; discriminate E. }
    rewrite E, <- app_assoc, <- app_comm_cons. eapply R_step; [apply H1; left; reflexivity|]. cbv beta iota.
    rewrite IH; [|intros; apply H1; right; assumption|exact H2|cbn in L; lia]. cbn [rev].
    rewrite rev_app_distr. cbn [rev]. rewrite <- !app_assoc. reflexivity.
Qed.

Section Top.
  Variables (dl : dialect) (r : rec) (N : nat).
  Hypothesis G : good dl r N.
  Notation wf_node := (wf_node dl).
  Notation R_expr := (R_expr dl r N G).
  Notation R_expr_list := (R_expr_list dl r N G).
  Notation R_cols := (R_cols dl r N G).
  Notation R_oname := (R_oname dl r N G).
  Notation fuel := (fuel_ok dl r N G).
  Notation ecoldef := (er_coldef Erase.no_pos same_rune).
  Notation etc := (er_tc Erase.no_pos same_rune).
  Notation eelem := (er_element Erase.no_pos same_rune).
  Notation eass := (er_assign Erase.no_pos same_rune).
  Notation erow := (er_row Erase.no_pos same_rune).

  Lemma tc_head c : exists s x, t_tc c = kwt s :: x /\ In s element_words.
  Proof.
    destruct c as [p [n|] s]; unfold t_tc; cbn [tc_name tc_spec t_cname opt app].
    - eexists; eexists; split; [reflexivity|cbn; tauto].
    - destruct s as [[]| |]; eexists; eexists; (split; [reflexivity|cbn; tauto]).
  Qed.

  Lemma R_elements l d rest : nonempty l = true -> forallb (wf_element dl) l = true ->
    (len (parens (commas t_element l)) <= N)%nat ->
    R (parse_elements r) (d, parens (commas t_element l) ++ rest)
    = Ok (map eelem l) (rev (parens (commas t_element l)) ++ d, rest).
  Proof.
    intros NE W L. unfold parse_elements, parens in *. cbn [app]. sh. step. ll L.
    pose proof (sepby_len t_element comma l) as L1.
    pose proof (fun a H => in_split_len t_element comma a l H) as L2. fold (commas t_element l) in L1, L2.
    assert (FU : (N < r_fuel r)%nat) by (apply fuel; [clear -L; lia|apply Nat.le_refl]).
    destruct (snoc l NE) as (i & z & ->). rewrite forallb_forall in W.
    assert (One : forall B (k : tableelement -> prog B) a d t rest, In a (i ++ [z]) -> def_follow (t :: rest) = true ->
      R (o <- Next Ret ;;
         match o with
         | None => Err
         | Some t =>
             if negb (is_kind SQLKeyword t) then Err
             else
               w <- word_of t ;;
               prev ;;;
               el <- (if kw w "CONSTRAINT" || kw w "PRIMARY" || kw w "CHECK" || kw w "FOREIGN"
                         || kw w "UNIQUE"
                      then c <- parse_table_constraints r ;; Ret (TEConstraint c)
                      else c <- parse_column_def r ;; Ret (TEColumn c)) ;;
               k el
         end) (d, t_element a ++ t :: rest) = R (k (eelem a)) (rev (t_element a) ++ d, t :: rest)).
    { intros B k a d' t rest' I F. specialize (L2 _ I). specialize (W _ I). destruct a as [c|c]; cbn [wf_element t_element] in *.
      - apply andb_true_iff in W as [W W2]. pose proof (R_coldef dl r N G c d' (t :: rest') W) as Q.
        destruct c as [name ty def decs ccs].
        set (y := t_type ty ++ opt def (fun e => kwt "DEFAULT" :: t_node e) ++ map (fun _ : decoration => kwt "AUTO_INCREMENT") decs ++
           List.concat (map t_cc ccs)).
        assert (EH : t_coldef (mkColDef name ty def decs ccs) = idt name :: y) by reflexivity.
        rewrite EH in *. rewrite <- app_comm_cons in *. eapply R_step; [reflexivity|cbv beta iota].
        cbn [idt is_kind tkind kind_eqb negb]. step. step.
        replace (_ || _) with false.
        + eapply R_step; [eapply R_step; [apply Q; [zl|exact F|discriminate]|reflexivity]|]. cbv beta. f_equal.
        + cbn [cd_name] in W2. apply negb_true_iff in W2. rewrite !(word_in_kw _ _ _ W2) by reflexivity. reflexivity.
      - pose proof (R_tc dl r N G c d' (t :: rest') W) as Q. destruct (tc_head c) as (s & x & EH & HS). rewrite EH in *.
        rewrite <- app_comm_cons in *. eapply R_step; [reflexivity|cbv beta iota].
        cbn [kwt is_kind tkind kind_eqb negb]. step. step.
        replace (_ || _) with true by (clear -HS; cbn in HS; repeat (destruct HS as [<-|HS]; [reflexivity|]); destruct HS).
        eapply R_step; [eapply R_step; [apply Q; zl|reflexivity]|]. reflexivity. }
    unfold commas. rewrite (loop_sep_end t_element eelem comma rpar).
    - fin.
    - intros a acc d' rest' I. assert (I' : In a (i ++ [z])) by (apply in_or_app; auto).
      etransitivity; [apply (One _ (fun el => o2 <- Next Ret ;;
               match o2 with
               | None => Panic PLog
               | Some t2 =>
                   if is_kind RParen t2 then Ret (inr (rev (el :: acc)))
                   else if is_kind Comma t2 then Ret (inl (el :: acc))
                   else Panic PLog
               end)); [exact I'|reflexivity]|]. reflexivity.
    - intros acc d'. assert (I' : In z (i ++ [z])) by (apply in_or_app; right; left; reflexivity).
      etransitivity; [apply (One _ (fun el => o2 <- Next Ret ;;
               match o2 with
               | None => Panic PLog
               | Some t2 =>
                   if is_kind RParen t2 then Ret (inr (rev (el :: acc)))
                   else if is_kind Comma t2 then Ret (inl (el :: acc))
                   else Panic PLog
               end)); [exact I'|reflexivity]|]. reflexivity.
    - rewrite app_length in L1. cbn in L1. zl.
  Qed.

  Lemma R_value eq n d rest : wf_id dl n = true ->
    R parse_option_value (d, cond eq [sy Eq "="] ++ idt n :: rest)
    = Ok (eq, eid n) (idt n :: cond eq [sy Eq "="] ++ d, rest).
  Proof.
    intros W. unfold parse_option_value. destruct eq; cbn [cond app].
    - step. cbn [sy is_kind tkind kind_eqb]. eapply R_step; [step; step; reflexivity|cbv beta iota].
      cbn [idt is_kind tkind kind_eqb]. eapply R_step; [apply (R_ident _ dl); exact W|]. reflexivity.
    - step. cbn [idt is_kind tkind kind_eqb]. cbv iota. eapply R_step; [reflexivity|cbv beta iota].
      cbn [is_kind tkind kind_eqb]. eapply R_step; [apply (R_ident _ dl); exact W|]. reflexivity.
  Qed.

  Lemma R_options l d rest : forallb (wf_option dl) l = true -> (List.length l <= 1)%nat -> (1 < r_fuel r)%nat ->
    end_follow rest = true ->
    R (parse_table_options r) (d, commas t_option l ++ rest)
    = Ok (map (er_option Erase.no_pos same_rune) l) (rev (commas t_option l) ++ d, rest).
  Proof.
    intros W L NF F. unfold parse_table_options.
    destruct (r_fuel r) as [|[|n]]; try (exfalso; clear -NF; lia).
    assert (Stop : forall m acc d, R (loop (S m) (fun acc =>
       o <- peek ;;
       match o with
       | None => Ret (inr (rev acc))
       | Some t =>
           t' <- (if is_kind Comma t then must_next else Ret t) ;;
           if negb (is_kind SQLKeyword t') then Ret (inr (rev acc))
           else x <- parse_table_option ;; Ret (inl (x :: acc))
       end) acc) (d, rest) = Ok (rev acc) (d, rest)).
    { intros m acc d'. cbn [loop]. eapply R_step with (a := inr (rev acc)) (s' := (d', rest)); [|reflexivity].
      step. destruct rest as [|t rest]; [reflexivity|]. unfold plain in F. apply andb_true_iff in F as [_ F].
      apply andb_true_iff in F as [F1 F2]. apply kmem_In in F1. destruct F1 as [F1|[]].
      unfold is_kind. rewrite <- F1. eapply R_step; [reflexivity|cbv beta]. unfold is_kind. rewrite <- F1. reflexivity. }
    destruct l as [|o [|? ?]]; [apply Stop| |exfalso; cbn in L; lia].
    cbn [commas map sepby]. cbn [loop].
    eapply R_step with (a := inl [er_option Erase.no_pos same_rune o]) (s' := (rev (t_option o) ++ d, rest)).
    - cbn [forallb] in W. apply andb_true_iff in W as [W _]. unfold parse_table_option.
      destruct o as [p eq n0|df p1 p2 eq n0]; cbn [wf_option t_option] in *.
      + cbn [app]. sh. step. eapply R_step; [reflexivity|cbv beta]. cbn [kwt is_kind tkind kind_eqb negb].
        eapply R_step; [step; cbn [is_kind tkind kind_eqb negb]; step; kwc; eapply R_step; [apply R_value; exact W|reflexivity]|].
        rewrite R_ret. destruct eq; fin.
      + destruct df; cbn [cond app]; sh.
        * step. eapply R_step; [reflexivity|cbv beta]. cbn [kwt is_kind tkind kind_eqb negb].
          eapply R_step; [step; cbn [is_kind tkind kind_eqb negb]; step; kwc; step; eapply R_step; [apply R_value; exact W|reflexivity]|].
          rewrite R_ret. destruct eq; fin.
        * step. eapply R_step; [reflexivity|cbv beta]. cbn [kwt is_kind tkind kind_eqb negb].
          eapply R_step; [step; cbn [is_kind tkind kind_eqb negb]; step; kwc; eapply R_step; [apply R_value; exact W|reflexivity]|].
          rewrite R_ret. destruct eq; fin.
    - cbv iota. apply Stop.
  Qed.

  Lemma R_where B (k : option node -> prog B) sel d rest : wf_where dl sel = true -> (len (t_where sel) <= N)%nat ->
    end_follow rest = true ->
    R (w <- kw_ok "WHERE" ;;
       sel <- (if w then e <- parse_expr r ;; Ret (Some e) else Ret None) ;; k sel) (d, t_where sel ++ rest)
    = R (k (option_map enode sel)) (rev (t_where sel) ++ d, rest).
  Proof.
    intros W L F. assert (C : clear ("WHERE" :: "OVER" :: op_words) (LParen :: Period :: op_kinds) rest = true)
      by (apply (plain_no _ _ _ _ F); reflexivity).
    destruct sel as [e|]; cbn [t_where opt app wf_where all_opt] in *.
    - step. cbn [List.length] in L. eapply R_step; [eapply R_step; [apply R_expr; [exact W|zl|side0|apply (clear_nprec _ _ _ C); reflexivity]|reflexivity]|].
      cbv beta. f_equal. fin.
    - step. eapply R_step; [reflexivity|]. reflexivity.
  Qed.

  Lemma R_assigns l d rest : nonempty l = true -> forallb (wf_assign dl) l = true ->
    (len (commas t_assign l) <= N)%nat -> expr_follow rest = true -> nprec rest = 0 -> isk Comma rest = false ->
    R (parse_assignments r) (d, commas t_assign l ++ rest) = Ok (map eass l) (rev (commas t_assign l) ++ d, rest).
  Proof.
    intros NE W L F P C. pose proof (sepby_len t_assign comma l) as L1.
    pose proof (fun a H => in_split_len t_assign comma a l H) as L2. fold (commas t_assign l) in L1, L2.
    assert (L0 : (0 < len (commas t_assign l))%nat).
    { destruct l as [|a l]; [discriminate NE|]. unfold commas. cbn [map]. rewrite sepby_more. cbn. lia. }
    assert (FU : (N < r_fuel r)%nat) by (apply fuel; [clear -L L0; lia|apply Nat.le_refl]).
    destruct (snoc l NE) as (i & z & ->). rewrite forallb_forall in W. unfold parse_assignments, commas.
    assert (One : forall B (k : assignment -> prog B) a d rest, In a (i ++ [z]) -> expr_follow rest = true -> nprec rest = 0 ->
      R (t <- next_kind SQLKeyword ;;
         w <- word_of t ;;
         expect_token Eq ;;;
         v <- parse_expr r ;; k (mkAssign (ident_of t w) v)) (d, t_assign a ++ rest) = R (k (eass a)) (rev (t_assign a) ++ d, rest)).
    { intros B k [id v] d' rest' I F' P'. specialize (L2 _ I). specialize (W _ I). apply andb_true_iff in W as [Wa Wq].
      cbn [as_id as_value] in *. unfold t_assign in *. cbn [as_id as_value] in *. cbn [app List.length] in *.
      step. step. step. eapply R_step; [apply R_expr; [exact Wq|zl|exact F'|exact P']|cbv beta].
      fold (idt id). rewrite (ident_of_idt dl) by exact Wa. f_equal. fin. }
    rewrite (loop_sep t_assign eass comma); auto.
    - intros a acc d' rest' I. assert (I' : In a (i ++ [z])) by (apply in_or_app; auto).
      etransitivity; [apply (One _ (fun x => c <- consume_token Comma ;; let acc' := x :: acc in
         Ret (if c : bool then inl acc' else inr (rev acc')))); [exact I'|reflexivity|reflexivity]|]. step. reflexivity.
    - intros acc d'. assert (I' : In z (i ++ [z])) by (apply in_or_app; right; left; reflexivity).
      etransitivity; [apply (One _ (fun x => c <- consume_token Comma ;; let acc' := x :: acc in
         Ret (if c : bool then inl acc' else inr (rev acc')))); [exact I'|exact F|exact P]|].
      eapply R_step; [apply R_cons_no; exact C|]. reflexivity.
    - rewrite app_length in L1. cbn in L1. zl.
  Qed.

  Lemma R_rows l d rest : nonempty l = true ->
    forallb (fun r => nonempty (row_values r) && forallb wf_node (row_values r)) l = true ->
    (len (commas t_row l) <= N)%nat -> isk Comma rest = false ->
    R (parse_rows r) (d, commas t_row l ++ rest) = Ok (map erow l) (rev (commas t_row l) ++ d, rest).
  Proof.
    intros NE W L C. pose proof (sepby_len t_row comma l) as L1.
    pose proof (fun a H => in_split_len t_row comma a l H) as L2. fold (commas t_row l) in L1, L2.
    assert (L0 : (0 < len (commas t_row l))%nat).
    { destruct l as [|a l]; [discriminate NE|]. unfold commas. cbn [map]. rewrite sepby_more. cbn. lia. }
    assert (FU : (N < r_fuel r)%nat) by (apply fuel; [clear -L L0; lia|apply Nat.le_refl]).
    destruct (snoc l NE) as (i & z & ->). rewrite forallb_forall in W. unfold parse_rows, commas.
    assert (One : forall B (k : rowvalue -> prog B) a d rest, In a (i ++ [z]) ->
      R (l <- next_kind LParen ;;
         v <- parse_expr_list r ;;
         rp <- next_kind RParen ;; k (mkRow v (tfrom l) (tto rp))) (d, t_row a ++ rest) = R (k (erow a)) (rev (t_row a) ++ d, rest)).
    { intros B k [v p1 p2] d' rest' I. specialize (L2 _ I). specialize (W _ I). apply andb_true_iff in W as [Wa Wq].
      cbn [row_values] in *. unfold t_row, parens in *. cbn [row_values] in *. ll L2. cbn [app]. sh.
      step. eapply R_step; [apply R_expr_list; [exact Wa|exact Wq|zl|reflexivity|reflexivity|reflexivity]|cbv beta].
      step. f_equal. f_equal. fin. }
    rewrite (loop_sep t_row erow comma); auto.
    - intros a acc d' rest' I. assert (I' : In a (i ++ [z])) by (apply in_or_app; auto).
      etransitivity; [apply (One _ (fun x => c <- consume_token Comma ;; let acc' := x :: acc in
         Ret (if c : bool then inl acc' else inr (rev acc')))); exact I'|]. step. reflexivity.
    - intros acc d'. assert (I' : In z (i ++ [z])) by (apply in_or_app; right; left; reflexivity).
      etransitivity; [apply (One _ (fun x => c <- consume_token Comma ;; let acc' := x :: acc in
         Ret (if c : bool then inl acc' else inr (rev acc')))); exact I'|].
      eapply R_step; [apply R_cons_no; exact C|]. reflexivity.
    - rewrite app_length in L1. cbn in L1. zl.
  Qed.

  (** *** Statements *)

  Lemma end_query q rest : end_follow rest = true -> (rest = [] -> ends_query q = true) ->
    query_follow rest = true /\ ending_ok (query_end q) rest = true.
  Proof.
    intros F E. split; [apply (plain_no _ _ _ _ F); reflexivity|]. unfold ends_query in E. destruct rest as [|t rest].
    - specialize (E eq_refl). destruct (query_end q); try discriminate E; reflexivity.
    - unfold plain in F. apply andb_true_iff in F as [F1 F2]. apply andb_true_iff in F2 as [_ F2].
      apply negb_true_iff in F2. cbn [sane] in F1. rewrite F2 in F1. unfold ending_ok, no_alias.
      destruct (tval t); [discriminate F1|]. destruct (query_end q); reflexivity.
  Qed.
  Lemma starts_head s : starts_select s = true -> exists y, t_setexpr s = kwt "SELECT" :: y.
  Proof.
    induction s as [s|p1 p2 q|op all l IHl rr _]; cbn [starts_select]; intros H; [| discriminate H|]; rewrite t_setexpr_eq; cbv beta iota.
    - destruct s. rewrite t_select_eq. eauto.
    - destruct (IHl H) as (y & ->). eexists. reflexivity.
  Qed.
  Lemma query_head q : wf_query dl q = true ->
    exists s x, t_query q = s :: x /\ (s = kwt "SELECT" \/ s = kwt "WITH" \/ s = lpar) /\ (top_query q = true -> s <> lpar).
  Proof.
    destruct q as [p ctes body oby lim]. intros W. rewrite wf_query_eq in W. cbv beta iota in W.
    rewrite !andb_true_iff in W. destruct W as [[[[W1 W2] W3] W4] W5]. rewrite t_query_eq. cbv beta iota.
    destruct ctes as [|c ctes]; cbn [list_of app].
    - destruct (set_head dl body W2) as (t & x & EH & HT). rewrite EH. eexists; eexists; split; [reflexivity|]. split; [tauto|].
      unfold top_query. cbn [nonempty orb]. intros S E. subst t.
      destruct (starts_head body S) as (y & E). pose proof (eq_trans (eq_sym EH) E) as X. discriminate X.
    - eexists; eexists; split; [reflexivity|]. split; [tauto|]. discriminate.
  Qed.
  Lemma R_create_table p n els ne opts d rest : wf_stmt dl (StCreateTable p n els ne opts) = true ->
    (len (t_stmt (StCreateTable p n els ne opts)) <= N)%nat -> end_follow rest = true ->
    R (parse_create r) (d, t_stmt (StCreateTable p n els ne opts) ++ rest)
    = Ok (estmt (StCreateTable p n els ne opts)) (rev (t_stmt (StCreateTable p n els ne opts)) ++ d, rest).
  Proof.
    intros W L F. cbn [wf_stmt] in W. rewrite !andb_true_iff in W. destruct W as [[[[W1 W2] W3] W4] W5].
    cbn [t_stmt] in *. ll L. apply Nat.leb_le in W5.
    assert (FU : (N < r_fuel r)%nat) by (apply fuel; [clear -L; lia|apply Nat.le_refl]).
    unfold parse_create. cbn [app]. step. step. unfold parse_create_table. sh.
    destruct (name_head dl n W1) as (i & x & EN).
    eapply R_step with (a := ne) (s' := (rev (cond ne (kws ["IF"; "NOT"; "EXISTS"])) ++ kwt "TABLE" :: kwt "CREATE" :: d,
      t_name n ++ parens (commas t_element els) ++ commas t_option opts ++ rest)).
    { destruct ne; cbn [cond app].
      - apply (R_kws_yes _ _ (kws ["IF"; "NOT"; "EXISTS"])); reflexivity.
      - apply R_kws_no. unfold t_name in *. unfold wf_on in W1. destruct (on_idents n) as [|a [|b l]]; [discriminate W1| |];
          cbn; rewrite ?andb_false_r; reflexivity. }
    eapply R_step; [apply R_oname; [exact W1|reflexivity|zl]|cbv beta].
    eapply R_step; [apply R_elements; [exact W2|exact W3|zl]|cbv beta].
    eapply R_step; [apply R_options; [exact W4|exact W5|zl|exact F]|cbv beta].
    rewrite R_ret. fin.
  Qed.

  Lemma R_create_view p n q m d rest : wf_stmt dl (StCreateView p n q m) = true ->
    (len (t_stmt (StCreateView p n q m)) <= N)%nat -> stmt_follow (StCreateView p n q m) rest = true ->
    R (parse_create r) (d, t_stmt (StCreateView p n q m) ++ rest)
    = Ok (estmt (StCreateView p n q m)) (rev (t_stmt (StCreateView p n q m)) ++ d, rest).
  Proof.
    intros W L F. pose proof (stmt_plain _ _ F) as F'. cbn [wf_stmt] in W. rewrite !andb_true_iff in W. destruct W as [[W1 W2] W3].
    apply negb_true_iff in W3. subst m. cbn [t_stmt cond] in *. cbn [app] in *. ll L.
    destruct (end_query q rest F') as [F1 F2]; [intros ->; exact F|].
    unfold parse_create, parse_create_view. sh. step. step. step. step. cbn [orb]. step. step. step.
    eapply R_step; [apply R_oname; [exact W1|reflexivity|zl]|cbv beta]. step.
    eapply R_step; [apply (R_query dl r N G); [exact W2|zl|exact F1|exact F2]|cbv beta].
    rewrite R_ret. fin.
  Qed.

  Lemma R_create_index p t u idx meth cols p2 sel d rest : wf_stmt dl (StCreateIndex p t u idx meth cols p2 sel) = true ->
    (len (t_stmt (StCreateIndex p t u idx meth cols p2 sel)) <= N)%nat -> end_follow rest = true ->
    R (parse_create r) (d, t_stmt (StCreateIndex p t u idx meth cols p2 sel) ++ rest)
    = Ok (estmt (StCreateIndex p t u idx meth cols p2 sel)) (rev (t_stmt (StCreateIndex p t u idx meth cols p2 sel)) ++ d, rest).
  Proof.
    intros W L F. cbn [wf_stmt] in W. rewrite !andb_true_iff in W. destruct W as [[[[W1 W2] W3] W4] W5].
    cbn [t_stmt] in *. ll L. unfold parens in *. ll L.
    set (T := kwt "ON" :: t_name t ++ opt meth (fun n : ident => [kwt "USING"; idt n]) ++ lpar :: t_ids cols ++ rpar :: t_where sel ++ rest).
    assert (J : forall d', R (parse_create_index r u) (d', opt idx (fun n => [idt n]) ++ T)
      = Ok (estmt (StCreateIndex p t u idx meth cols p2 sel)) (rev (opt idx (fun n => [idt n]) ++ kwt "ON" :: t_name t ++ opt meth (fun n : ident => [kwt "USING"; idt n]) ++ lpar :: t_ids cols ++ rpar :: t_where sel) ++ d', rest)).
    { intros d'. unfold parse_create_index.
      eapply R_step with (a := match idx with Some _ => false | None => true end)
        (s' := match idx with Some _ => (d', opt idx (fun n => [idt n]) ++ T) | None => (kwt "ON" :: d', List.tl T) end).
      { destruct idx as [i|]; cbn [opt app all_opt] in *; [|prim]. apply andb_true_iff in W2 as [_ W2].
        apply R_kw_no. apply negb_true_iff in W2. exact W2. }
      eapply R_step with (a := option_map eid idx) (s' := (kwt "ON" :: rev (opt idx (fun n => [idt n])) ++ d', List.tl T)).
      { destruct idx as [i|]; cbn [opt app all_opt] in *; [|reflexivity]. apply andb_true_iff in W2 as [W2 _].
        eapply R_step; [apply (R_ident _ dl); exact W2|cbv beta]. unfold T. step. reflexivity. }
      unfold T. cbn [List.tl].
      eapply R_step; [apply R_oname; [exact W1|destruct meth; reflexivity|zl]|cbv beta].
      eapply R_step with (a := some meth) (s' := (opt meth (fun _ : ident => [kwt "USING"]) ++ rev (t_name t) ++ kwt "ON" :: rev (opt idx (fun n => [idt n])) ++ d', opt meth (fun n : ident => [idt n]) ++ lpar :: t_ids cols ++ rpar :: t_where sel ++ rest)).
      { destruct meth; cbn [opt app some]; prim. }
      eapply R_step with (a := option_map eid meth) (s' := (rev (opt meth (fun n : ident => [kwt "USING"; idt n])) ++ rev (t_name t) ++ kwt "ON" :: rev (opt idx (fun n => [idt n])) ++ d', lpar :: t_ids cols ++ rpar :: t_where sel ++ rest)).
      { destruct meth as [i|]; cbn [opt app all_opt some option_map] in *; [|reflexivity].
        eapply R_step; [apply (R_ident _ dl); exact W3|]. reflexivity. }
      step. eapply R_step; [eapply R_step; [apply R_cols; [exact W4|reflexivity|zl]|cbv beta]; step; reflexivity|cbv beta].
      rewrite (R_where _ (fun sel => Ret (StCreateIndex pos0 (eon t) u (option_map eid idx) (option_map eid meth) (map eid cols) pos0 sel)));
        [|exact W5|zl|exact F]. rewrite R_ret. cbn [er_stmt]. fin. }
    unfold parse_create. cbn [app]. step. destruct u; cbn [cond app].
    - step. step. step. cbn [orb]. step. eapply R_step; [apply (R_kws_yes _ _ [kwt "UNIQUE"; kwt "INDEX"]); reflexivity|cbv beta iota].
      cbn [orb rev app]. sh. fold T. rewrite J. fin.
    - step. step. step. cbn [orb]. step. eapply R_step; [apply R_kws_no|cbv beta iota].
      { destruct idx; cbn; rewrite ?andb_false_r; reflexivity. }
      cbn [orb]. sh. fold T. rewrite J. fin.
  Qed.

  Lemma R_delete p t sel d rest : wf_stmt dl (StDelete p t sel) = true ->
    (len (t_stmt (StDelete p t sel)) <= N)%nat -> end_follow rest = true ->
    R (parse_delete r) (d, t_stmt (StDelete p t sel) ++ rest)
    = Ok (estmt (StDelete p t sel)) (rev (t_stmt (StDelete p t sel)) ++ d, rest).
  Proof.
    intros W L F. cbn [wf_stmt] in W. rewrite !andb_true_iff in W. destruct W as [W1 W2].
    cbn [t_stmt] in *. ll L. unfold parse_delete. sh. step. step.
    assert (C : isk Period (t_where sel ++ rest) = false).
    { destruct sel; [reflexivity|]. cbn [t_where opt app]. assert (C : clear [] [Period] rest = true) by (apply (plain_no _ _ _ _ F); reflexivity). side0. }
    eapply R_step; [apply R_oname; [exact W1|exact C|zl]|cbv beta].
    rewrite (R_where _ (fun sel => Ret (StDelete pos0 (eon t) sel))); [|exact W2|zl|exact F]. rewrite R_ret. fin.
  Qed.

  Lemma where_follow sel rest : end_follow rest = true ->
    clear ("OVER" :: op_words) (LParen :: Period :: Comma :: op_kinds) (t_where sel ++ rest) = true.
  Proof. intros F. destruct sel; [reflexivity|]. apply (plain_no _ _ _ _ F). reflexivity. Qed.

  Lemma R_update p t ass sel d rest : wf_stmt dl (StUpdate p t ass sel) = true ->
    (len (t_stmt (StUpdate p t ass sel)) <= N)%nat -> end_follow rest = true ->
    R (parse_update r) (d, t_stmt (StUpdate p t ass sel) ++ rest)
    = Ok (estmt (StUpdate p t ass sel)) (rev (t_stmt (StUpdate p t ass sel)) ++ d, rest).
  Proof.
    intros W L F. cbn [wf_stmt] in W. rewrite !andb_true_iff in W. destruct W as [[[W1 W2] W3] W4].
    cbn [t_stmt] in *. ll L. unfold parse_update. sh. step.
    eapply R_step; [apply R_oname; [exact W1|reflexivity|zl]|cbv beta]. step.
    pose proof (where_follow sel rest F) as C.
    eapply R_step; [apply R_assigns; [exact W2|exact W3|zl|side0|apply (clear_nprec _ _ _ C); reflexivity|side0]|cbv beta].
    rewrite (R_where _ (fun sel => Ret (StUpdate pos0 (eon t) (map eass ass) sel))); [|exact W4|zl|exact F]. rewrite R_ret. fin.
  Qed.

  Lemma R_insert p t cols src ups d rest : wf_stmt dl (StInsert p t cols src ups) = true ->
    (len (t_stmt (StInsert p t cols src ups)) <= N)%nat -> stmt_follow (StInsert p t cols src ups) rest = true ->
    R (parse_insert r) (d, t_stmt (StInsert p t cols src ups) ++ rest)
    = Ok (estmt (StInsert p t cols src ups)) (rev (t_stmt (StInsert p t cols src ups)) ++ d, rest).
  Proof.
    intros W L F. pose proof (stmt_plain _ _ F) as F'. cbn [wf_stmt] in W. rewrite !andb_true_iff in W.
    destruct W as [[[[W1 W2] W3] W4] W5]. cbn [t_stmt] in *. ll L. unfold parens in *.
    set (U := list_of ups (kws ["ON"; "DUPLICATE"; "KEY"; "UPDATE"] ++ commas t_assign ups) ++ rest).
    assert (HS : exists s x, t_source src = s :: x /\ (s = kwt "VALUES" \/ s = kwt "SELECT" \/ s = kwt "WITH" \/ (s = lpar /\ cols <> []))).
    { destruct src as [q|pv rows]; cbn [t_source wf_source] in *.
      - destruct (query_head q W3) as (s & x & E & H1 & H2). exists s, x. split; [exact E|].
        destruct H1 as [-> |[-> | ->]]; auto. right; right; right. split; [reflexivity|]. intros ->.
        apply andb_true_iff in W5 as [W5 _]. cbn [nonempty orb] in W5. exact (H2 W5 eq_refl).
      - eexists; eexists; split; [reflexivity|auto]. }
    destruct HS as (s & x & ES & HS).
    unfold parse_insert. sh. fold U. step. step.
    eapply R_step; [apply R_oname; [exact W1| |zl]|cbv beta].
    { destruct cols; [|reflexivity]. cbn [list_of app]. rewrite ES. destruct HS as [-> |[-> |[-> |[-> _]]]]; reflexivity. }
    set (d1 := rev (t_name t) ++ kwt "INTO" :: kwt "INSERT" :: d).
    eapply R_step with (a := nonempty cols) (s' := match cols with [] => (d1, t_source src ++ U) | _ => (lpar :: d1, t_ids cols ++ rpar :: t_source src ++ U) end).
    { destruct cols; cbn [list_of app nonempty]; [|sh; prim]. apply R_cons_no. rewrite ES.
      destruct HS as [-> |[-> |[-> |[_ X]]]]; try reflexivity. congruence. }
    eapply R_step with (a := map eid cols) (s' := (rev (list_of cols (lpar :: t_ids cols ++ [rpar])) ++ d1, t_source src ++ U)).
    { destruct cols as [|c cols]; [reflexivity|]. cbn [nonempty]. cbn [list_of] in L |- *. ll L.
      eapply R_step; [apply R_cols; [exact W2|reflexivity|zl]|cbv beta]. step. rewrite R_ret. fin. }
    set (d2 := rev (list_of cols (lpar :: t_ids cols ++ [rpar])) ++ d1).
    assert (CU : isk Comma U = false).
    { unfold U. destruct ups; [|reflexivity]. cbn [list_of app]. assert (C : clear [] [Comma] rest = true) by (apply (plain_no _ _ _ _ F'); reflexivity). side0. }
    eapply R_step with (a := match src with ISConstructor _ _ => true | ISSubQuery _ => false end)
      (s' := match src with ISConstructor _ rows => (kwt "VALUES" :: d2, commas t_row rows ++ U) | ISSubQuery q => (d2, t_query q ++ U) end).
    { destruct src as [q|pv rows]; cbn [t_source] in *; [|prim]. apply R_kw_no. rewrite ES.
      destruct (query_head q W3) as (s' & x' & E & H1 & H2). rewrite ES in E. injection E as <- _.
      destruct H1 as [-> |[-> | ->]]; reflexivity. }
    eapply R_step with (a := er_src Erase.no_pos same_rune src) (s' := (rev (t_source src) ++ d2, U)).
    { destruct src as [q|pv rows]; cbn [t_source wf_source er_src] in *.
      - apply andb_true_iff in W5 as [_ W5].
        assert (Q : query_follow U = true /\ ending_ok (query_end q) U = true).
        { unfold U. destruct ups as [|a ups].
          - cbn [list_of app]. apply end_query; [exact F'|]. intros ->. exact F.
          - cbn [nonempty negb orb] in W5. split; [reflexivity|]. destruct (query_end q); try discriminate W5; reflexivity. }
        eapply R_step; [apply (R_query dl r N G); [exact W3|zl|apply Q|apply Q]|]. reflexivity.
      - apply andb_true_iff in W3 as [W3 W3']. cbn [List.length] in L.
        eapply R_step; [apply R_rows; [exact W3|exact W3'|zl|exact CU]|cbv beta]. rewrite R_ret. fin. }
    set (d3 := rev (t_source src) ++ d2). unfold U.
    eapply R_step with (a := nonempty ups) (s' := (rev (list_of ups (kws ["ON"; "DUPLICATE"; "KEY"; "UPDATE"])) ++ d3, list_of ups (commas t_assign ups) ++ rest)).
    { destruct ups; cbn [list_of nonempty].
      - rewrite !app_nil_l. assert (C : clear ["ON"] [] rest = true) by (apply (plain_no _ _ _ _ F'); reflexivity). prim.
      - rewrite <- app_assoc. apply R_kws_yes; reflexivity. }
    eapply R_step with (a := map eass ups) (s' := (rev (list_of ups (kws ["ON"; "DUPLICATE"; "KEY"; "UPDATE"] ++ commas t_assign ups)) ++ d3, rest)).
    { destruct ups as [|a ups]; [reflexivity|]. cbn [list_of nonempty] in *. ll L.
      assert (C : clear ("OVER" :: op_words) (LParen :: Period :: Comma :: op_kinds) rest = true) by (apply (plain_no _ _ _ _ F'); reflexivity).
      rewrite R_assigns; [fin|reflexivity|exact W4|zl|side0|apply (clear_nprec _ _ _ C); reflexivity|side0]. }
    rewrite R_ret. unfold d3, d2, d1. cbn [er_stmt]. fin.
  Qed.

  Lemma R_cascade b d rest : clear ["CASCADE"] [] rest = true ->
    R parse_cascade (d, cond b [kwt "CASCADE"] ++ rest) = Ok (b, pos0) (cond b [kwt "CASCADE"] ++ d, rest).
  Proof. intros C. unfold parse_cascade. destruct b; cbn [cond app]; step; reflexivity. Qed.

  Lemma R_drop_table ts casc cp ife dp d rest : wf_stmt dl (StDropTable ts casc cp ife dp) = true ->
    (len (t_stmt (StDropTable ts casc cp ife dp)) <= N)%nat -> end_follow rest = true ->
    R (parse_drop r) (d, t_stmt (StDropTable ts casc cp ife dp) ++ rest)
    = Ok (estmt (StDropTable ts casc cp ife dp)) (rev (t_stmt (StDropTable ts casc cp ife dp)) ++ d, rest).
  Proof.
    intros W L F. cbn [wf_stmt] in W. destruct ts as [|t [|? ?]]; try discriminate W.
    cbn [t_stmt commas map sepby] in *. ll L. unfold parse_drop. sh. step. step.
    assert (C : clear ["CASCADE"; "EXISTS"] [Period] rest = true) by (apply (plain_no _ _ _ _ F); reflexivity).
    assert (C1 : isk Period (cond casc [kwt "CASCADE"] ++ rest) = false) by (destruct casc; [reflexivity|cbn [cond app]; side0]).
    assert (C2 : starts "EXISTS" (cond casc [kwt "CASCADE"] ++ rest) = false) by (destruct casc; [reflexivity|cbn [cond app]; side0]).
    eapply R_step with (a := ife) (s' := (rev (cond ife (kws ["IF"; "EXISTS"])) ++ kwt "TABLE" :: kwt "DROP" :: d,
      t_name t ++ cond casc [kwt "CASCADE"] ++ rest)).
    { destruct ife; cbn [cond app].
      - apply (R_kws_yes _ _ (kws ["IF"; "EXISTS"])); reflexivity.
      - apply R_kws_no. unfold t_name in *. unfold wf_on in W. destruct (on_idents t) as [|a [|b l]]; [discriminate W| |].
        + cbn [t_dots map sepby app]. cbn [all_starts]. apply andb_false_iff. right.
          destruct (cond casc [kwt "CASCADE"] ++ rest); [reflexivity|]. cbn [all_starts].
          cbn [starts] in C2 |- *. rewrite C2. reflexivity.
        + cbn. rewrite ?andb_false_r. reflexivity. }
    eapply R_step; [apply R_oname; [exact W|exact C1|zl]|cbv beta].
    eapply R_step; [apply R_cascade; side0|cbv beta iota]. rewrite R_ret. destruct casc; fin.
  Qed.

  Lemma R_drop_index p ns d rest : wf_stmt dl (StDropIndex p ns) = true ->
    (len (t_stmt (StDropIndex p ns)) <= N)%nat -> end_follow rest = true ->
    R (parse_drop r) (d, t_stmt (StDropIndex p ns) ++ rest)
    = Ok (estmt (StDropIndex p ns)) (rev (t_stmt (StDropIndex p ns)) ++ d, rest).
  Proof.
    intros W L F. cbn [wf_stmt t_stmt] in *. ll L. unfold parse_drop. sh. step. step. step.
    assert (C : clear [] [Comma] rest = true) by (apply (plain_no _ _ _ _ F); reflexivity).
    eapply R_step; [apply R_cols; [exact W|side0|zl]|cbv beta]. rewrite R_ret. fin.
  Qed.

  Lemma R_alter_column a n ac d rest : wf_id dl n = true -> wf_altercol dl ac = true ->
    (len (t_altercol ac) <= N)%nat -> end_follow rest = true ->
    (rest = [] -> match ac with ACType _ t => ends_type t = true | _ => True end) ->
    R (parse_alter_column r a) (d, idt n :: t_altercol ac ++ rest)
    = Ok (ATAlterColumn (eid n) (tfrom a) (er_acaction Erase.no_pos same_rune ac)) (rev (idt n :: t_altercol ac) ++ d, rest).
  Proof.
    intros W1 W2 L F EN. unfold parse_alter_column. eapply R_step; [apply (R_ident _ dl); exact W1|cbv beta].
    destruct ac as [p e|p1 p2|p t|p1 p2|p1 p2]; cbn [wf_altercol t_altercol kws map app List.length] in *.
    - apply andb_true_iff in W2 as [W2 W3]. step. cbn [kwt is_kind tkind kind_eqb negb]. step. kwc. step.
      assert (C : clear ("OVER" :: op_words) (LParen :: Period :: op_kinds) rest = true) by (apply (plain_no _ _ _ _ F); reflexivity).
      assert (P0 : nprec rest = 0) by (apply (clear_nprec _ _ _ C); reflexivity). pose proof (wf_strength _ _ W2) as WS.
      eapply R_step; [apply (R_default dl r N G); [exact W2|zl|exact W3|side0|rewrite P0; clear -WS; lia|rewrite P0, !orb_true_r; reflexivity]|cbv beta].
      rewrite R_ret. fin.
    - step. cbn [kwt is_kind tkind kind_eqb negb]. step. kwc. step. rewrite R_ret. fin.
    - step. cbn [kwt is_kind tkind kind_eqb negb]. step. kwc.
      assert (C : type_follow rest = true) by (apply (plain_no _ _ _ _ F); reflexivity).
      eapply R_step; [apply (R_type r dl); [exact W2|exact C|exact EN|]|cbv beta].
      { assert (FU : (N < r_fuel r)%nat) by (apply fuel; [clear -L; lia|apply Nat.le_refl]). zl. }
      rewrite R_ret. fin.
    - step. cbn [kwt is_kind tkind kind_eqb negb]. step. kwc. step.
      eapply R_step; [apply (R_kwst_yes _ _ [kwt "NOT"; kwt "NULL"]); reflexivity|cbv beta iota]. rewrite R_ret. fin.
    - step. cbn [kwt is_kind tkind kind_eqb negb]. step. kwc. step.
      eapply R_step; [apply (R_kwst_yes _ _ [kwt "NOT"; kwt "NULL"]); reflexivity|cbv beta iota]. rewrite R_ret. fin.
  Qed.

  Lemma R_alter p t a d rest : wf_stmt dl (StAlterTable p t a) = true ->
    (len (t_stmt (StAlterTable p t a)) <= N)%nat -> stmt_follow (StAlterTable p t a) rest = true ->
    R (parse_alter r) (d, t_stmt (StAlterTable p t a) ++ rest)
    = Ok (estmt (StAlterTable p t a)) (rev (t_stmt (StAlterTable p t a)) ++ d, rest).
  Proof.
    intros W L F. pose proof (stmt_plain _ _ F) as F'. cbn [wf_stmt] in W. rewrite !andb_true_iff in W.
    destruct W as [W1 W2]. cbn [t_stmt] in *. ll L. unfold parse_alter. sh. step. step.
    assert (C : clear ["CASCADE"] [] rest = true) by (apply (plain_no _ _ _ _ F'); reflexivity).
    eapply R_step; [apply R_oname; [exact W1|destruct a; reflexivity|zl]|cbv beta].
    destruct a as [pa c|n pa ac|n casc cp pa|pa c|n pa casc cp]; cbn [wf_altertable t_altertable] in *; ll L; sh.
    - eapply R_step; [apply (R_kwst_yes _ _ [kwt "ADD"; kwt "COLUMN"]); reflexivity|cbv beta iota].
      eapply R_step; [apply (R_coldef dl r N G); [exact W2|zl|apply end_def; exact F'|intros ->; exact F]|cbv beta].
      rewrite R_ret. fin.
    - apply andb_true_iff in W2 as [W2 W3]. step. step. step. step.
      eapply R_step; [apply (R_kwst_yes _ _ [kwt "ALTER"; kwt "COLUMN"]); reflexivity|cbv beta iota].
      eapply R_step; [apply R_alter_column; [exact W2|exact W3|zl|exact F'|]|cbv beta].
      { intros ->. destruct ac; try exact I. exact F. }
      rewrite R_ret. fin.
    - step. step. eapply R_step; [apply R_kwst_no; reflexivity|cbv beta iota].
      eapply R_step; [apply (R_kwst_yes _ _ [kwt "DROP"; kwt "COLUMN"]); reflexivity|cbv beta iota].
      eapply R_step; [apply (R_ident _ dl); exact W2|cbv beta].
      eapply R_step; [apply R_cascade; side0|cbv beta iota]. rewrite R_ret. destruct casc; fin.
    - destruct (tc_head c) as (s & x & EH & HS).
      eapply R_step; [apply R_kwst_no|cbv beta iota].
      { rewrite EH. clear -HS. cbn in HS. repeat (destruct HS as [<-|HS]; [reflexivity|]); destruct HS. }
      step. eapply R_step; [apply (R_tc dl r N G); [exact W2|zl]|cbv beta]. rewrite R_ret. fin.
    - step. step. 
      eapply R_step; [apply (R_kwst_yes _ _ [kwt "DROP"; kwt "CONSTRAINT"]); reflexivity|cbv beta iota].
      eapply R_step; [apply (R_ident _ dl); exact W2|cbv beta].
      eapply R_step; [apply R_cascade; side0|cbv beta iota]. rewrite R_ret. destruct casc; fin.
  Qed.

  Lemma R_stmt s d rest : wf_stmt dl s = true -> (len (t_stmt s) <= N)%nat -> stmt_follow s rest = true ->
    R (parse_statement r) (d, t_stmt s ++ rest) = Ok (estmt s) (rev (t_stmt s) ++ d, rest).
  Proof.
    intros W L F. pose proof (stmt_plain _ _ F) as F'. unfold parse_statement.
    destruct s as [q|p t cols src ups|p t ass sel|p t sel|p n q m|p n els ne opts|p t a|ts casc cp ife dp
                   |p t u idx meth cols p2 sel|p ns|s p].
    - cbn [wf_stmt t_stmt er_stmt] in *. apply andb_true_iff in W as [W1 W2].
      destruct (query_head q W1) as (h & x & E & H1 & H2). specialize (H2 W2).
      destruct (end_query q rest F') as [F1 F2]; [intros ->; exact F|].
      pose proof (R_query dl r N G q d rest W1 L F1 F2) as Q. rewrite E in Q |- *. rewrite <- app_comm_cons in *.
      step. assert (H3 : exists w, tval h = VWord w /\ kw w "SELECT" || kw w "WITH" = true).
      { destruct H1 as [-> |[-> | ->]]; [eexists; split; reflexivity|eexists; split; reflexivity|congruence]. }
      destruct H3 as (w & -> & ->). step. eapply R_step; [exact Q|]. reflexivity.
    - pose proof (R_insert p t cols src ups d rest W L F) as Q. cbn [t_stmt app] in Q |- *. step. kwc. step. exact Q.
    - pose proof (R_update p t ass sel d rest W L F') as Q. cbn [t_stmt app] in Q |- *. step. kwc. step. exact Q.
    - pose proof (R_delete p t sel d rest W L F') as Q. cbn [t_stmt app] in Q |- *. step. kwc. step. exact Q.
    - pose proof (R_create_view p n q m d rest W L F) as Q. cbn [t_stmt app] in Q |- *. step. kwc. step. exact Q.
    - pose proof (R_create_table p n els ne opts d rest W L F') as Q. cbn [t_stmt app] in Q |- *. step. kwc. step. exact Q.
    - pose proof (R_alter p t a d rest W L F) as Q. cbn [t_stmt app] in Q |- *. step. kwc. step. exact Q.
    - pose proof (R_drop_table ts casc cp ife dp d rest W L F') as Q. cbn [t_stmt app] in Q |- *. step. kwc. step. exact Q.
    - pose proof (R_create_index p t u idx meth cols p2 sel d rest W L F') as Q. cbn [t_stmt app] in Q |- *. step. kwc. step. exact Q.
    - pose proof (R_drop_index p ns d rest W L F') as Q. cbn [t_stmt app] in Q |- *. step. kwc. step. exact Q.
    - cbn [wf_stmt t_stmt List.length app] in *. step. kwc.
      eapply R_step; [apply (g_stmt _ _ _ G); [exact W|zl|exact F]|cbv beta]. rewrite R_ret. fin.
  Qed.
End Top.

(** *** The knot *)

Theorem knot_good dl m : good dl (knot m) m.
Proof.
  induction m as [|m IH].
  - split; intros; exfalso; lia.
  - split.
    + intros _. cbn [knot r_fuel]. lia.
    + intros. cbn [knot r_subexpr]. eapply R_subexpr; eauto. lia.
    + intros. cbn [knot r_query]. eapply R_query; eauto. lia.
    + intros. cbn [knot r_body]. eapply R_body; eauto. lia.
    + intros. cbn [knot r_tref]. eapply R_tref; eauto. lia.
    + intros. cbn [knot r_stmt]. eapply R_stmt; eauto. lia.
Qed.
