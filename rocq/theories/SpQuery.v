(** Running the query parser on written queries. *)
From Coq Require Import ZArith List Bool String Lia.
From Verif Require Import Base Dialect Token Lexer LexSpec AST Num Prog Parser Sim Erase Grammar NumThms ValueThms Render Spell
  SpPrim SpEq SpExpr.
Import ListNotations.
Open Scope string_scope.
Open Scope Z_scope.
Open Scope list_scope.

(** *** Aliases *)

Notation t_alias a := (match a with Some a => s_alias a | None => [] end).

Section Style.
Context {sty : style}.
(** A word that is none of some words can stand where these would be taken for
    something else. *)
Lemma alias_word dl words a s rest : ok_alias dl words a = true -> w_as sty a = false -> smem s words = true ->
  starts s (idt a :: rest) = false /\ iskw s (idt a :: rest) = false.
Proof.
  unfold ok_alias. intros H W M. rewrite W in H. cbn [orb] in H. apply andb_true_iff in H as [_ H].
  apply negb_true_iff in H. rewrite smem_In in M.
  assert (K : is_word a s = false).
  { destruct (is_word a s) eqn:K; [|reflexivity]. rewrite <- H. symmetry. apply existsb_exists. exists s. auto. }
  unfold is_word in K. apply orb_false_iff in K as [K1 K2]. split; [exact K1|]. cbn [iskw idt tval].
  apply (word_in_kw _ _ _ K2). cbn [smem existsb]. rewrite String.eqb_refl. reflexivity.
Qed.
Lemma alias_clear dl words a ks kinds rest : ok_alias dl words a = true -> w_as sty a = false ->
  forallb (fun s => smem s words) ks = true -> forallb (fun k => negb (kind_eqb SQLKeyword k)) kinds = true ->
  clear ks kinds (idt a :: rest) = true.
Proof.
  intros H W H1 H2. unfold clear. rewrite !andb_true_iff, !forallb_forall. rewrite forallb_forall in H1, H2.
  split; [split; [reflexivity|]|].
  - intros s I. destruct (alias_word dl words a s rest H W (H1 s I)) as [-> ->]. reflexivity.
  - intros k I. exact (H2 k I).
Qed.
Lemma alias_free dl words a : ok_alias dl words a = true -> w_as sty a = false ->
  mem_gs (wkeyword (text_word (id_value a))) (map gs words) = false.
Proof.
  intros H W. unfold mem_gs. destruct (existsb _ (map gs words)) eqn:E; [|reflexivity].
  apply existsb_exists in E as (g & I & E). apply in_map_iff in I as (s & <- & I).
  destruct (alias_word dl words a s [] H W) as [_ K]; [rewrite smem_In; exact I|]. cbn [iskw idt tval] in K.
  unfold kw in K. rewrite E in K. discriminate K.
Qed.

Lemma R_alias dl words reserved a d rest : all_opt (ok_alias dl words) a = true -> smem "AS" words = true ->
  (forall g, mem_gs g (map gs words) = false -> mem_gs g reserved = false) ->
  (a = None -> starts "AS" rest = false /\ no_alias reserved rest = true /\ sane rest = true) ->
  R (parse_optional_alias reserved) (d, t_alias a ++ rest) = Ok (option_map eid a) (rev (t_alias a) ++ d, rest).
Proof.
  intros W As Sub H. unfold parse_optional_alias. destruct a as [a|]; cbn [app].
  - cbn [all_opt] in W. assert (Wa : wf_id dl a = true) by (unfold ok_alias in W; apply andb_true_iff in W; apply W).
    unfold s_alias. destruct (w_as sty a) eqn:E; cbn [cond app].
    + step. cbn [run m_next fm_machine snd fst]. cbn [is_kind idt tkind kind_eqb]. step. cbn [orb].
      cbn [run]. fold (idt a). rewrite (ident_of_idt dl) by exact Wa. reflexivity.
    + eapply R_step; [apply R_kw_no; apply (alias_word dl words a "AS" rest W E As)|].
      cbn [run m_next fm_machine snd fst]. cbn [is_kind idt tkind kind_eqb]. step. cbn [orb].
      rewrite (Sub _ (alias_free dl words a W E)). cbn [negb].
      cbn [run]. fold (idt a). rewrite (ident_of_idt dl) by exact Wa. reflexivity.
  - destruct (H eq_refl) as (H1 & H2 & H3). eapply R_step; [apply R_kw_no; exact H1|]. destruct rest as [|t rest]; [reflexivity|].
    cbn [run m_next fm_machine snd fst]. cbn [sane no_alias] in *.
    apply andb_true_iff in H3 as [H3 _]. destruct (is_kind SQLKeyword t) eqn:K; [|reflexivity].
    destruct (tval t) as [w|] eqn:V; [|discriminate H3].
    rewrite run_bind, (R_word t w) by exact V. cbn [obind]. cbn [orb]. rewrite H2. reflexivity.
Qed.

Lemma table_reserved g : mem_gs g (map gs table_words) = false -> mem_gs g reserved_table_alias = false.
Proof.
  unfold mem_gs, reserved_table_alias. intros H. destruct (existsb _ _) eqn:E in |- *; [|reflexivity].
  rewrite <- H. symmetry. apply existsb_exists in E as (x & I & E). apply existsb_exists. exists x. split; [|exact E].
  apply in_map_iff in I as (s & <- & I). apply in_map. unfold table_words. cbn [In] in I |- *. tauto.
Qed.
Lemma column_reserved g : mem_gs g (map gs column_words) = false -> mem_gs g reserved_column_alias = false.
Proof.
  unfold mem_gs, reserved_column_alias. intros H. destruct (existsb _ _) eqn:E in |- *; [|reflexivity].
  rewrite <- H. symmetry. apply existsb_exists in E as (x & I & E). apply existsb_exists. exists x. split; [|exact E].
  apply in_map_iff in I as (s & <- & I). apply in_map. unfold column_words. cbn [In] in I |- *. tauto.
Qed.
Lemma alias_kind k a x : kind_eqb SQLKeyword k = false -> isk k (s_alias a ++ x) = false.
Proof. intros H. unfold s_alias. destruct (w_as sty a); exact H. Qed.

Section Query.
  Variables (dl : dialect) (r : rec) (N : nat).
  Hypothesis G : good dl r N.
  Notation ok_node := (ok_node dl).
  Notation R_expr := (R_expr dl r N G).
  Notation R_expr_list := (R_expr_list dl r N G).
  Notation fuel := (fuel_ok dl r N G).

  (** *** Tables *)

  Lemma name_head o : wf_on dl o = true -> exists i x, t_name o = idt i :: x.
  Proof. intros W. destruct (dots_head dl _ W) as (i & x & E & _). exists i, x. exact E. Qed.

  Lemma R_factor t d rest : ok_tableref dl t = true -> factor t = true -> (len (s_tableref t) <= N)%nat ->
    tref_follow rest = true -> table_end t rest = true ->
    R (parse_table_factor r) (d, s_tableref t ++ rest) = Ok (etref t) (rev (s_tableref t) ++ d, rest).
  Proof.
    intros W Fa L F E. unfold parse_table_factor. destruct t as [name alias args p1 hints p2|lat p1 p2 p3 q alias| | |]; try discriminate Fa.
    - rewrite wf_tableref_eq in W. cbv beta iota in W. rewrite !andb_true_iff in W. destruct W as [[[[W1 W2] W3] W4] W5].
      destruct args; [|discriminate W4]. clear W4.
      rewrite t_tableref_eq in L |- *. cbv beta iota in *. cbn [list_of app] in *. apply negb_true_iff in W2.
      destruct (name_head _ W1) as (i & x & EN).
      assert (NE : t_name name <> []) by (rewrite EN; discriminate).
      assert (LN : (0 < len (t_name name))%nat) by (rewrite EN; cbn; zl).
      rewrite !app_length in L. sh.
      eapply R_step; [apply R_kw_no; rewrite starts_app by exact NE; exact W2|cbv beta iota].
      eapply R_step; [apply R_cons_no; rewrite EN; reflexivity|cbv beta iota].
      set (H := list_of hints (kwt "WITH" :: parens (commas s_node hints))) in *.
      assert (CH : clear ["OVER"; "AS"] [LParen; LBracket; Period] (H ++ rest) = true).
      { unfold H. destruct hints; cbn [list_of app]; [side0|reflexivity]. }
      eapply R_step; [apply (R_name r dl); [exact W1| |apply fuel; zl]|cbv beta iota].
      { destruct alias; [apply alias_kind; reflexivity|cbn [app]; side0]. }
      eapply R_step; [apply R_cons_no; destruct alias; [apply alias_kind; reflexivity|cbn [app]; side0]|cbv beta iota].
      eapply R_step; [apply R_ret|cbv beta iota].
      eapply R_step; [apply (R_alias dl table_words); [exact W3|reflexivity|exact table_reserved|]|cbv beta iota].
      { intros ->. unfold table_end in E. cbn [bare_table some negb andb] in E. split; [side0|]. split; [|side0].
        unfold H. destruct hints; cbn [list_of app nonempty negb] in *; [exact E|reflexivity]. }
      unfold H. destruct hints as [|h hints]; cbn [list_of app].
      + step. step. rewrite R_ret. destruct name. fin.
      + step. unfold parens. cbn [app]. sh.
        eapply R_step with (a := map enode (h :: hints)) (s' := (rev (kwt "WITH" :: parens (commas s_node (h :: hints))) ++ rev (t_alias alias) ++ rev (t_name name) ++ d, rest)).
        { step. eapply R_step; [apply R_expr_list; [reflexivity|exact W5| |reflexivity|reflexivity|reflexivity]|cbv beta iota].
          - unfold H, parens in L. cbn [list_of] in L. ll L. zl.
          - step. rewrite R_ret. unfold parens. fin. }
        cbv beta iota. rewrite R_ret. unfold parens. destruct name. fin.
    - rewrite wf_tableref_eq in W. cbv beta iota in W. rewrite !andb_true_iff in W. destruct W as [W1 W2].
      rewrite t_tableref_eq in L |- *. cbv beta iota in *. unfold parens in *. ll L. cbn [app]. sh.
      eapply R_step with (a := lat) (s' := (rev (cond lat [kwt "LATERAL"]) ++ d, lpar :: s_query q ++ rpar :: t_alias alias ++ rest)).
      { destruct lat; reflexivity. }
      cbv beta iota. step. eapply R_step; [apply (R_sub dl r N G); [exact W1|zl]|cbv beta iota]. step.
      eapply R_step; [apply (R_alias dl table_words); [exact W2|reflexivity|exact table_reserved|]|cbv beta iota].
      { intros ->. split; [side0|]. split; [exact E|side0]. }
      rewrite R_ret. fin.
  Qed.

  (** The first table of a join chain. *)
  Fixpoint lead (t : tableref) : tableref :=
    match t with
    | TRCross l _ | TRQualified l _ _ _ | TRNatural l _ _ => lead l
    | t => t
    end.

  Definition tbody (left : tableref) : tableref -> prog (tableref + tableref) := fun e =>
       o <- parse_table_reference_right r ;;
       Ret (match o with
            | None => inr e
            | Some (RNatural ty x) => inl (TRNatural e ty x)
            | Some (RCross f) => inl (TRCross left f)
            | Some (RQualified ty x s) => inl (TRQualified e ty x s)
            end).

  Lemma R_right_none d rest : clear joins [] rest = true ->
    R (parse_table_reference_right r) (d, rest) = Ok None (d, rest).
  Proof.
    intros C. unfold parse_table_reference_right. destruct rest as [|t rest]; [reflexivity|].
    destruct (is_kind Comma t) eqn:K.
    - eapply R_step; [apply R_cons_yes; exact K|cbv beta iota]. reflexivity.
    - eapply R_step; [apply R_cons_no; exact K|cbv beta iota]. cbn [run m_next fm_machine snd fst].
      destruct (tval t) as [w|] eqn:V; [|reflexivity].
      assert (KW : forall s, smem s joins = true -> kw w s = false).
      { intros s M. pose proof (clear_iskw _ _ _ _ C M) as Z. cbn [iskw] in Z. rewrite V in Z. exact Z. }
      rewrite !KW by reflexivity. reflexivity.
  Qed.

  Lemma R_joinspec s d rest : ok_joinspec dl s = true -> (len (s_joinspec s) <= N)%nat ->
    clear (["OVER"; "UNSIGNED"; "VARYING"; "WITH"; "WITHOUT"] ++ op_words) ([LParen; LBracket; Period] ++ op_kinds) rest = true ->
    R (parse_join_spec r) (d, s_joinspec s ++ rest)
    = Ok (er_joinspec Erase.no_pos same_rune s) (rev (s_joinspec s) ++ d, rest).
  Proof.
    intros W L F. unfold parse_join_spec. rewrite wf_joinspec_eq in W. rewrite t_joinspec_eq in L |- *.
    destruct s as [l p1 p2|e p]; cbn [app].
    - unfold parens in *. sh. ll L. step. step. step.
      eapply R_step; [apply (R_columns r dl); [exact W|reflexivity|apply fuel; [|zl]]|cbv beta iota].
      { unfold wf_ids in W. destruct l as [|a l]; [discriminate W|]. unfold t_ids. cbn [map].
        rewrite sepby_more, app_length. cbn. zl. }
      step. rewrite R_ret. fin.
    - ll L. step. eapply R_step; [apply R_expr; [exact W|zl|side0|]|cbv beta iota].
      { apply (clear_nprec _ _ _ F); reflexivity. }
      rewrite R_ret. fin.
  Qed.

  Lemma on_follow s x : tref_follow (s_joinspec s ++ x) = true /\ clear joins [] (s_joinspec s ++ x) = true
    /\ no_alias reserved_table_alias (s_joinspec s ++ x) = true.
  Proof. rewrite t_joinspec_eq. destruct s; repeat split; reflexivity. Qed.

  Lemma table_head t : ok_tableref dl t = true -> exists x y, s_tableref t = x :: y.
  Proof.
    induction t as [name alias args p1 hints p2|lat p1 p2 p3 q alias|a IHa b _|a IHa ty b _ s|a IHa ty b _]; intros W;
      rewrite wf_tableref_eq in W; cbv beta iota in W; rewrite t_tableref_eq; cbv beta iota;
      rewrite ?andb_true_iff in W; repeat match goal with H : _ /\ _ |- _ => destruct H end;
      try (destruct IHa as (x & y & ->); [assumption|]; eexists; eexists; reflexivity).
    - destruct (name_head name) as (i & x & ->); [assumption|]. eexists; eexists; reflexivity.
    - destruct lat; eexists; eexists; reflexivity.
  Qed.

  (** A right part: what is parsed, and what the loop makes of it. *)
  Lemma R_right_natural ty t d rest : ok_tableref dl t = true -> (len (s_tableref t) < N)%nat ->
    tref_follow rest = true -> clear joins [] rest = true -> table_end t rest = true ->
    R (parse_table_reference_right r) (d, kwt "NATURAL" :: t_join (jt_cond ty) ++ kwt "JOIN" :: s_tableref t ++ rest)
    = Ok (Some (RNatural (er_jt Erase.no_pos ty) (etref t)))
         (rev (kwt "NATURAL" :: t_join (jt_cond ty) ++ kwt "JOIN" :: s_tableref t) ++ d, rest).
  Proof.
    intros W L F C E. unfold parse_table_reference_right. step. cbn [run m_next fm_machine snd fst]. kwc.
    destruct ty as [c p1 p2]. cbn [jt_cond].
    eapply R_step with (a := mkJT c pos0 pos0) (s' := (rev (t_join c) ++ kwt "NATURAL" :: d, kwt "JOIN" :: s_tableref t ++ rest)).
    { unfold parse_join_type. destruct c; reflexivity. }
    cbv beta iota. step. eapply R_step; [apply (g_tref _ _ _ G); auto|cbv beta iota]. rewrite R_ret. fin.
  Qed.
  Lemma R_right_cross t d rest : ok_tableref dl t = true -> factor t = true -> (len (s_tableref t) <= N)%nat ->
    tref_follow rest = true -> table_end t rest = true ->
    R (parse_table_reference_right r) (d, kwt "CROSS" :: kwt "JOIN" :: s_tableref t ++ rest)
    = Ok (Some (RCross (etref t))) (rev (kwt "CROSS" :: kwt "JOIN" :: s_tableref t) ++ d, rest).
  Proof.
    intros W Fa L F E. unfold parse_table_reference_right. step. cbn [run m_next fm_machine snd fst]. kwc.
    step. eapply R_step; [apply R_factor; auto|cbv beta iota]. rewrite R_ret. fin.
  Qed.
  Lemma R_right_qualified ty t s d rest : ok_tableref dl t = true -> ok_joinspec dl s = true ->
    (len (s_tableref t) < N)%nat -> (len (s_joinspec s) <= N)%nat ->
    clear (["OVER"; "UNSIGNED"; "VARYING"; "WITH"; "WITHOUT"] ++ op_words) ([LParen; LBracket; Period] ++ op_kinds) rest = true ->
    R (parse_table_reference_right r) (d, t_join (jt_cond ty) ++ kwt "JOIN" :: s_tableref t ++ s_joinspec s ++ rest)
    = Ok (Some (RQualified (er_jt Erase.no_pos ty) (etref t) (er_joinspec Erase.no_pos same_rune s)))
         (rev (t_join (jt_cond ty) ++ kwt "JOIN" :: s_tableref t ++ s_joinspec s) ++ d, rest).
  Proof.
    intros W1 W2 L1 L2 F. destruct (on_follow s rest) as (O1 & O2 & O3).
    assert (T : forall d', R (r_tref r) (d', s_tableref t ++ s_joinspec s ++ rest)
                           = Ok (etref t) (rev (s_tableref t) ++ d', s_joinspec s ++ rest)).
    { intros d'. apply (g_tref _ _ _ G); auto. unfold table_end. rewrite O3. destruct (bare_table t); reflexivity. }
    unfold parse_table_reference_right. destruct ty as [c p1 p2]. cbn [jt_cond].
    destruct c; cbn [t_join kws map app]; step; cbn [run m_next fm_machine snd fst]; kwc;
      repeat (step; kwc); try (eapply R_step; [reflexivity|cbv beta iota]; step);
      (eapply R_step; [apply T|cbv beta iota]);
      (eapply R_step; [apply R_joinspec; auto|cbv beta iota]); rewrite R_ret; fin.
  Qed.

  Lemma join_head ty x : tref_follow (t_join ty ++ kwt "JOIN" :: x) = true
    /\ no_alias reserved_table_alias (t_join ty ++ kwt "JOIN" :: x) = true.
  Proof. destruct ty; split; reflexivity. Qed.

  Lemma tref_loop t : ok_tableref dl t = true -> (len (s_tableref t) <= N)%nat -> forall rest,
    tref_follow rest = true -> table_end t rest = true -> (natural t = true -> clear joins [] rest = true) ->
    exists k, (k < len (s_tableref t))%nat /\ forall n d,
      R (left <- parse_table_factor r ;; loop (k + n) (tbody left) left) (d, s_tableref t ++ rest)
      = R (loop n (tbody (etref (lead t))) (etref t)) (rev (s_tableref t) ++ d, rest).
  Proof.
    assert (At : forall t, ok_tableref dl t = true -> (len (s_tableref t) <= N)%nat -> factor t = true -> forall rest,
      tref_follow rest = true -> table_end t rest = true ->
      exists k, (k < len (s_tableref t))%nat /\ forall n d,
      R (left <- parse_table_factor r ;; loop (k + n) (tbody left) left) (d, s_tableref t ++ rest)
      = R (loop n (tbody (etref (lead t))) (etref t)) (rev (s_tableref t) ++ d, rest)).
    { intros x W L A rest F E. exists O. destruct (table_head _ W) as (y & z & E1). split; [rewrite E1; cbn; zl|].
      intros n d. eapply R_step; [apply R_factor; auto|]. replace (lead x) with x by (destruct x; try discriminate A; reflexivity).
      reflexivity. }
    assert (More : forall l x full ops o, s_tableref full = s_tableref l ++ ops -> (0 < len ops)%nat ->
      lead full = lead l ->
      (exists k, (k < len (s_tableref l))%nat /\ forall n d,
        R (left <- parse_table_factor r ;; loop (k + n) (tbody left) left) (d, s_tableref l ++ ops ++ x)
        = R (loop n (tbody (etref (lead l))) (etref l)) (rev (s_tableref l) ++ d, ops ++ x)) ->
      (forall d, R (parse_table_reference_right r) (d, ops ++ x) = Ok (Some o) (rev ops ++ d, x)) ->
      match o with
      | RNatural ty x => TRNatural (etref l) ty x
      | RCross f => TRCross (etref (lead l)) f
      | RQualified ty x s => TRQualified (etref l) ty x s
      end = etref full ->
      exists k, (k < len (s_tableref full))%nat /\ forall n d,
        R (left <- parse_table_factor r ;; loop (k + n) (tbody left) left) (d, s_tableref full ++ x)
        = R (loop n (tbody (etref (lead full))) (etref full)) (rev (s_tableref full) ++ d, x)).
    { intros l x full ops o E NE EL (k & K1 & K2) Ho Ef. exists (S k). rewrite E, app_length. split; [zl|].
      intros n d. replace (S k + n)%nat with (k + S n)%nat by zl. rewrite <- app_assoc, K2, EL. cbn [loop].
      rewrite run_bind. unfold tbody at 1. rewrite run_bind, Ho. cbn [obind run]. rewrite rev_app_distr, <- app_assoc.
      rewrite <- Ef. destruct o; reflexivity. }
    induction t as [name alias args p1 hints p2|lat p1 p2 p3 q alias|a IHa b _|a IHa ty b _ s|a IHa ty b _]; intros W L rest F E C;
      try (apply At; auto; fail).
    - rewrite wf_tableref_eq in W. cbv beta iota in W. rewrite !andb_true_iff in W. destruct W as [[[W1 W2] W3] W4].
      rewrite (t_tableref_eq (TRCross a b)) in L. ll L. unfold table_end in E. cbn [bare_table] in E.
      apply (More a rest (TRCross a b) (kwt "CROSS" :: kwt "JOIN" :: s_tableref b) (RCross (etref b)));
        [rewrite t_tableref_eq; reflexivity|cbn; zl|reflexivity| | |].
      + apply IHa; [exact W1|zl|reflexivity| |].
        * unfold table_end. destruct (bare_table a); reflexivity.
        * destruct a; try discriminate W3; discriminate.
      + intros d. apply R_right_cross; auto. zl.
      + destruct a; try discriminate W3; reflexivity.
    - rewrite wf_tableref_eq in W. cbv beta iota in W. rewrite !andb_true_iff in W. destruct W as [[[W1 W2] W3] W4].
      rewrite (t_tableref_eq (TRQualified a ty b s)) in L. ll L. 
      apply (More a rest (TRQualified a ty b s) (t_join (jt_cond ty) ++ kwt "JOIN" :: s_tableref b ++ s_joinspec s)
        (RQualified (er_jt Erase.no_pos ty) (etref b) (er_joinspec Erase.no_pos same_rune s)));
        [rewrite t_tableref_eq; reflexivity|rewrite app_length; cbn; zl|reflexivity| | |reflexivity].
      + rewrite <- app_assoc. cbn [app]. destruct (join_head (jt_cond ty) ((s_tableref b ++ s_joinspec s) ++ rest)) as [J1 J2].
        apply IHa; [exact W1|zl|exact J1| |].
        * unfold table_end. rewrite J2. destruct (bare_table a); reflexivity.
        * intros X. rewrite X in W2. discriminate W2.
      + intros d. repeat (rewrite <- app_assoc || rewrite <- app_comm_cons). apply R_right_qualified; auto; try zl. side0.
    - rewrite wf_tableref_eq in W. cbv beta iota in W. rewrite !andb_true_iff in W. destruct W as [[W1 W2] W3].
      rewrite (t_tableref_eq (TRNatural a ty b)) in L. ll L. unfold table_end in E. cbn [bare_table] in E.
      apply (More a rest (TRNatural a ty b) (kwt "NATURAL" :: t_join (jt_cond ty) ++ kwt "JOIN" :: s_tableref b)
        (RNatural (er_jt Erase.no_pos ty) (etref b)));
        [rewrite t_tableref_eq; reflexivity|cbn; zl|reflexivity| | |reflexivity].
      + apply IHa; [exact W1|zl|reflexivity| |].
        * unfold table_end. destruct (bare_table a); reflexivity.
        * intros X. rewrite X in W2. discriminate W2.
      + intros d. repeat (rewrite <- app_assoc || rewrite <- app_comm_cons). apply R_right_natural; auto. zl.
  Qed.

  Lemma R_tref t d rest : ok_tableref dl t = true -> (len (s_tableref t) <= N)%nat ->
    tref_follow rest = true -> clear joins [] rest = true -> table_end t rest = true ->
    R (parse_table_reference r) (d, s_tableref t ++ rest) = Ok (etref t) (rev (s_tableref t) ++ d, rest).
  Proof.
    intros W L F C E. unfold parse_table_reference.
    destruct (tref_loop t W L rest F E (fun _ => C)) as (k & K1 & K2).
    pose proof (g_fuel _ _ _ G). replace (r_fuel r) with (k + S (r_fuel r - k - 1))%nat by (clear -K1 L H; lia).
    etransitivity; [apply K2|]. cbn [loop]. rewrite run_bind. unfold tbody at 1. rewrite run_bind, R_right_none by exact C.
    reflexivity.
  Qed.

  (** *** FROM *)

  Lemma R_from l d rest : nonempty l = true -> forallb (ok_tableref dl) l = true ->
    (len (commas s_tableref l) < N)%nat -> tref_follow rest = true -> clear joins [Comma] rest = true ->
    (forall t, last_opt l = Some t -> table_end t rest = true) ->
    R (parse_from_clause r) (d, commas s_tableref l ++ rest) = Ok (map etref l) (rev (commas s_tableref l) ++ d, rest).
  Proof.
    intros NE W L F C E. destruct l as [|x l]; [discriminate NE|]. clear NE.
    pose proof (fun a H => in_split_len s_tableref comma a (x :: l) H) as L2.
    pose proof (sepby_len s_tableref comma (x :: l)) as L1. fold (commas s_tableref (x :: l)) in L1, L2.
    assert (FU : (N < r_fuel r)%nat) by (apply fuel; [clear -L; lia|apply Nat.le_refl]).
    assert (EQ : commas s_tableref (x :: l) = s_tableref x ++ List.concat (map (fun t => comma :: s_tableref t) l)).
    { unfold commas. cbn [map]. rewrite sepby_more, map_map. reflexivity. }
    assert (T : forall l1 a l2 d, x :: l = l1 ++ a :: l2 ->
      R (r_tref r) (d, s_tableref a ++ List.concat (map (fun t => comma :: s_tableref t) l2) ++ rest)
      = Ok (etref a) (rev (s_tableref a) ++ d, List.concat (map (fun t => comma :: s_tableref t) l2) ++ rest)).
    { intros l1 a l2 d' Ed.
      assert (I : In a (x :: l)) by (rewrite Ed; apply in_or_app; right; left; reflexivity).
      rewrite forallb_forall in W. specialize (L2 a I).
      assert (T : table_end a (List.concat (map (fun t => comma :: s_tableref t) l2) ++ rest) = true).
      { destruct l2 as [|b l2].
        - apply E. rewrite Ed. unfold last_opt. rewrite rev_app_distr. reflexivity.
        - unfold table_end. destruct (bare_table a); reflexivity. }
      apply (g_tref _ _ _ G); auto.
      - zl.
      - destruct l2; [exact F|reflexivity].
      - destruct l2; [cbn [map List.concat app]; side0|reflexivity]. }
    unfold parse_from_clause. rewrite EQ. rewrite <- app_assoc.
    eapply R_step; [apply (T [] x l); reflexivity|]. cbv beta.
    rewrite (loop_more (fun t => comma :: s_tableref t) etref); [norm; reflexivity| | |].
    - intros l1 a l2 acc d' Ed. cbn [app]. step.
      eapply R_step; [apply (T (x :: l1) a l2); rewrite Ed; reflexivity|]. cbv beta. rewrite R_ret. fin.
    - intros acc d'. eapply R_step; [apply R_cons_no; side0|]. reflexivity.
    - cbn [List.length] in L1. zl.
  Qed.

  (** *** Select items *)

  Lemma R_item {B} i (k : selitem -> prog B) d rest : ok_selitem dl i = true -> (len (s_selitem i) < N)%nat ->
    expr_follow rest = true -> nprec rest = 0 ->
    (match i with SIUnnamed _ => true | _ => false end = true ->
     starts "AS" rest = false /\ no_alias reserved_column_alias rest = true) ->
    R (e <- parse_expr r ;;
       item <- (match e with
                | EQualWildcard l => Ret (SIQualWildcard (mkON l))
                | _ =>
                    a <- parse_optional_alias reserved_column_alias ;;
                    Ret (match a with Some i => SIAlias e i | None => SIUnnamed e end)
                end) ;; k item) (d, s_selitem i ++ rest)
    = R (k (eitem i)) (rev (s_selitem i) ++ d, rest).
  Proof.
    intros W L F P A.
    assert (Al : forall e a d rest, negb (match e with EQualWildcard _ => true | _ => false end) = true ->
      all_opt (ok_alias dl column_words) a = true ->
      (a = None -> starts "AS" rest = false /\ no_alias reserved_column_alias rest = true /\ sane rest = true) ->
      R (match enode e with
                | EQualWildcard l => Ret (SIQualWildcard (mkON l))
                | _ =>
                    a <- parse_optional_alias reserved_column_alias ;;
                    Ret (match a with Some i => SIAlias (enode e) i | None => SIUnnamed (enode e) end)
                end) (d, t_alias a ++ rest)
      = Ok (match a with Some a => SIAlias (enode e) (eid a) | None => SIUnnamed (enode e) end) (rev (t_alias a) ++ d, rest)).
    { intros e a d' rest' Q Wa Ha.
      transitivity (R (x <- parse_optional_alias reserved_column_alias ;;
                    Ret (match x with Some i => SIAlias (enode e) i | None => SIUnnamed (enode e) end)) (d', t_alias a ++ rest')).
      { destruct e; try reflexivity. discriminate Q. }
      eapply R_step; [apply (R_alias dl column_words); [exact Wa|reflexivity|exact column_reserved|exact Ha]|]. cbv beta. rewrite R_ret. destruct a; reflexivity. }
    destruct i as [e|e a|p|p1 p2]; rewrite wf_selitem_eq in W; cbv beta iota in W; [| | |discriminate W];
      rewrite t_selitem_eq in L |- *; cbv beta iota in *.
    - apply andb_true_iff in W as [W1 W2]. eapply R_step; [apply R_expr; auto|]. cbv beta.
      eapply R_step; [apply (Al e None); [exact W2|reflexivity|]|].
      { intros _. destruct (A eq_refl) as [A1 A2]. split; [exact A1|]. split; [exact A2|side0]. }
      cbv beta. reflexivity.
    - rewrite !andb_true_iff in W. destruct W as [[W1 W2] W3]. ll L. sh.
      assert (Ca : clear (["OVER"; "UNSIGNED"; "VARYING"; "WITH"; "WITHOUT"] ++ op_words) ([LParen; LBracket; Period] ++ op_kinds) (s_alias a ++ rest) = true).
      { unfold s_alias. destruct (w_as sty a) eqn:EA; [reflexivity|].
        apply (alias_clear dl column_words); [exact W3|exact EA|reflexivity|reflexivity]. }
      eapply R_step; [apply R_expr; [exact W1|zl|side0|apply (clear_nprec _ _ _ Ca); reflexivity]|]. cbv beta.
      eapply R_step; [apply (Al e (Some a)); [exact W2|exact W3|discriminate]|]. cbv beta. f_equal. f_equal. fin.
    - apply andb_true_iff in W as [W1 W2]. destruct p as [l]. unfold t_name in *. cbn [on_idents] in *.
      replace (t_dots l ++ [dot; star]) with (s_node (EQualWildcard l)) in L |- * by (rewrite t_node_eq; reflexivity).
      eapply R_step; [apply R_expr; auto|].
      { rewrite wf_node_eq. cbv beta iota. unfold wf_on in W1. cbn [on_idents] in W1. rewrite W1, W2. reflexivity. }
      cbv beta. cbn [er_node]. step. reflexivity.
  Qed.

  Lemma item_head i : ok_selitem dl i = true -> head_ok (s_selitem i).
  Proof.
    intros W. destruct i as [e|e a|p|p1 p2]; rewrite wf_selitem_eq in W; cbv beta iota in W; [| | |discriminate W];
      rewrite t_selitem_eq; cbv beta iota; rewrite ?andb_true_iff in W.
    - apply (node_head dl). apply W.
    - apply head_ok_app, (node_head dl). apply W.
    - destruct W as [W _]. destruct (name_head _ W) as (i & x & ->). hd.
  Qed.

  Definition items_end (l : list selitem) (rest : list token) : bool :=
    match last_opt l with Some (SIUnnamed _) => no_alias reserved_column_alias rest | _ => true end.

  Lemma R_select_list l d rest : nonempty l = true -> forallb (ok_selitem dl) l = true ->
    (len (commas s_selitem l) < N)%nat ->
    clear (["OVER"; "UNSIGNED"; "VARYING"; "WITH"; "WITHOUT"; "AS"] ++ op_words) ([LParen; LBracket; Period; Comma] ++ op_kinds) rest = true -> nonempty rest = true ->
    items_end l rest = true ->
    R (parse_select_list r) (d, commas s_selitem l ++ rest) = Ok (map eitem l) (rev (commas s_selitem l) ++ d, rest).
  Proof.
    intros NE W L F NR E. pose proof (sepby_len s_selitem comma l) as L1.
    pose proof (fun a H => in_split_len s_selitem comma a l H) as L2. fold (commas s_selitem l) in L1, L2.
    assert (FU : (N < r_fuel r)%nat) by (apply fuel; [clear -L; lia|apply Nat.le_refl]). destruct (snoc l NE) as (i & z & ->).
    rewrite forallb_forall in W. unfold parse_select_list, commas.
    assert (P : nprec rest = 0) by (apply (clear_nprec _ _ _ F); reflexivity).
    rewrite (loop_sep s_selitem eitem comma); auto.
    - intros a acc d' rest' I. assert (I' : In a (i ++ [z])) by (apply in_or_app; auto). specialize (L2 a I').
      etransitivity; [apply R_item; [apply W, I'|zl|reflexivity|reflexivity|split; reflexivity]|].
      step. cbn [is_kind comma sy tkind kind_eqb]. step. reflexivity.
    - intros acc d'. assert (I' : In z (i ++ [z])) by (apply in_or_app; right; left; reflexivity). specialize (L2 z I').
      etransitivity; [apply R_item; [apply W, I'|zl|side0|exact P|]|].
      { intros Z. split; [side0|]. unfold items_end, last_opt in E. rewrite rev_app_distr in E. cbn [rev app] in E.
        destruct z; try discriminate Z. exact E. }
      destruct rest as [|t rest]; [discriminate NR|]. step.
      replace (is_kind Comma t) with false by (symmetry; exact (clear_isk _ _ _ Comma F eq_refl)). reflexivity.
    - rewrite app_length in L1. cbn in L1. zl.
  Qed.

  (** *** SELECT *)

  Notation clause_follow ks := (clear (ks ++ ["OVER"; "UNSIGNED"; "VARYING"; "WITH"; "WITHOUT"; "AS"; "WITH"] ++ op_words ++ joins) ([LParen; LBracket; Period; Comma] ++ op_kinds)).
  Notation t_from l := (list_of l (kwt "FROM" :: commas s_tableref l)).
  Notation t_whr o := (match o with Some e => kwt "WHERE" :: s_node e | None => [] end).
  Notation t_gby l := (list_of l (kwt "GROUP" :: kwt "BY" :: commas s_node l)).
  Notation t_hav o := (match o with Some e => kwt "HAVING" :: s_node e | None => [] end).

  Lemma R_select distinct proj from where_ gby having p d rest :
    ok_select dl (Select distinct proj from where_ gby having p) = true ->
    (len (s_select (Select distinct proj from where_ gby having p)) <= N)%nat ->
    body_follow rest = true -> ending_ok (select_end (Select distinct proj from where_ gby having p)) rest = true ->
    R (parse_select r pos0) (d, cond distinct [kwt "DISTINCT"] ++ commas s_selitem proj ++ t_from from ++ t_whr where_ ++
       t_gby gby ++ t_hav having ++ rest)
    = Ok (esel (Select distinct proj from where_ gby having p))
        (rev (cond distinct [kwt "DISTINCT"] ++ commas s_selitem proj ++ t_from from ++ t_whr where_ ++
       t_gby gby ++ t_hav having) ++ d, rest).
  Proof.
    intros W L F E. rewrite wf_select_eq in W. cbv beta iota in W. rewrite !andb_true_iff in W.
    destruct W as [[[[[[[W1 W2] W3] W4] W5] W6] W7] W8].
    rewrite t_select_eq in L. cbv beta iota in L. ll L. cbn [select_end] in E.
    set (T4 := t_hav having ++ rest).
    assert (C4 : clause_follow ["FROM"; "WHERE"; "GROUP"] T4 = true).
    { unfold T4. destruct having; [reflexivity|]. cbn [app]. side0. }
    assert (P4 : nprec T4 = 0) by (apply (clear_nprec _ _ _ C4); reflexivity).
    set (T3 := t_gby gby ++ T4).
    assert (C3 : clause_follow ["FROM"; "WHERE"] T3 = true).
    { unfold T3. destruct gby; [|reflexivity]. cbn [list_of]. rewrite app_nil_l. side0. }
    assert (P3 : nprec T3 = 0) by (apply (clear_nprec _ _ _ C3); reflexivity).
    set (T2 := t_whr where_ ++ T3).
    assert (C2 : clause_follow ["FROM"] T2 = true).
    { unfold T2. destruct where_; [reflexivity|]. rewrite app_nil_l. side0. }
    set (T1 := t_from from ++ T2).
    assert (C1 : clear (["OVER"; "UNSIGNED"; "VARYING"; "WITH"; "WITHOUT"; "AS"; "WITH"] ++ op_words ++ joins) ([LParen; LBracket; Period; Comma] ++ op_kinds) T1 = true).
    { unfold T1. destruct from; [|reflexivity]. cbn [list_of]. rewrite app_nil_l. side0. }
    assert (E2 : forall t, last_opt from = Some t -> table_end t T2 = true).
    { intros t Lt. unfold table_end. destruct (bare_table t) eqn:B; [|reflexivity]. unfold T2, T3, T4, clauses_end in *.
      destruct where_; [reflexivity|]. destruct gby; [|reflexivity]. cbn [some nonempty orb list_of app] in *.
      rewrite Lt, B in *. destruct having; [discriminate W8|]. exact E. }
    assert (E1 : items_end proj T1 = true /\ nonempty T1 = true).
    { unfold items_end. unfold T1, T2, T3, T4, clauses_end in *.
      destruct from; [|split; [destruct (last_opt proj) as [[]|]; reflexivity|reflexivity]].
      destruct where_; [split; [destruct (last_opt proj) as [[]|]; reflexivity|reflexivity]|].
      destruct gby; [|split; [destruct (last_opt proj) as [[]|]; reflexivity|reflexivity]].
      cbn [some nonempty orb list_of app last_opt rev] in *.
      destruct having.
      - destruct (last_opt proj) as [[]|]; [discriminate W8|split; reflexivity..].
      - cbn [some] in E. destruct (last_opt proj) as [[]|]; cbn [ending_ok] in E; [apply andb_true_iff in E as [E3 E4]|..];
          cbn [app]; split; try assumption; reflexivity. }
    destruct E1 as [E1 NR].
    assert (A : forall d', R (proj <- parse_select_list r ;;
      f <- kw_ok "FROM" ;;
      from <- (if f then parse_from_clause r else Ret []) ;;
      w <- kw_ok "WHERE" ;;
      where_ <- (if w then e <- parse_expr r ;; Ret (Some e) else Ret None) ;;
      g <- kws_ok ["GROUP"; "BY"]%string ;;
      gby <- (if g then parse_expr_list r else Ret []) ;;
      h <- kw_ok "HAVING" ;;
      having <- (if h then e <- parse_expr r ;; Ret (Some e) else Ret None) ;;
      Ret (Select distinct proj from where_ gby having pos0)) (d', commas s_selitem proj ++ T1)
      = Ok (esel (Select distinct proj from where_ gby having p))
        (rev (commas s_selitem proj ++ t_from from ++ t_whr where_ ++ t_gby gby ++ t_hav having) ++ d', rest)).
    { intros d'. eapply R_step; [apply R_select_list; [assumption|assumption|zl|side0|assumption|assumption]|]. cbv beta.
      set (d1 := rev (commas s_selitem proj) ++ d'). unfold T1.
      eapply R_step with (a := nonempty from) (s' := match from with [] => (d1, T2) | _ => (kwt "FROM" :: d1, commas s_tableref from ++ T2) end).
      { destruct from; cbn [list_of app nonempty]; prim. }
      eapply R_step with (a := map etref from) (s' := (rev (t_from from) ++ d1, T2)).
      { destruct from as [|x from]; [reflexivity|]. cbn [nonempty]. cbn [list_of List.length] in L |- *.
        rewrite R_from; [fin|reflexivity|exact W4|zl|side0|side0|exact E2]. }
      set (d2 := rev (t_from from) ++ d1). unfold T2.
      eapply R_step with (a := some where_) (s' := match where_ with None => (d2, T3) | Some e => (kwt "WHERE" :: d2, s_node e ++ T3) end).
      { destruct where_; cbn [app some]; prim. }
      eapply R_step with (a := option_map enode where_) (s' := (rev (t_whr where_) ++ d2, T3)).
      { destruct where_ as [e|]; [|reflexivity]. cbn [some]. cbn [List.length] in L.
        eapply R_step; [apply R_expr; [exact W5|zl|side0|exact P3]|]. cbv beta. rewrite R_ret. cbn [option_map]. fin. }
      set (d3 := rev (t_whr where_) ++ d2). unfold T3.
      eapply R_step with (a := nonempty gby) (s' := match gby with [] => (d3, T4) | _ => (kwt "BY" :: kwt "GROUP" :: d3, commas s_node gby ++ T4) end).
      { destruct gby; cbn [list_of app nonempty]; [prim|]. apply (R_kws_yes _ _ [kwt "GROUP"; kwt "BY"]); reflexivity. }
      eapply R_step with (a := map enode gby) (s' := (rev (t_gby gby) ++ d3, T4)).
      { destruct gby as [|x gby]; [reflexivity|]. cbn [nonempty]. cbn [list_of List.length] in L |- *.
        rewrite R_expr_list; [fin|reflexivity|exact W6|zl|side0|exact P4|side0]. }
      set (d4 := rev (t_gby gby) ++ d3). unfold T4.
      eapply R_step with (a := some having) (s' := match having with None => (d4, rest) | Some e => (kwt "HAVING" :: d4, s_node e ++ rest) end).
      { destruct having; cbn [app some]; prim. }
      eapply R_step with (a := option_map enode having) (s' := (rev (t_hav having) ++ d4, rest)).
      { destruct having as [e|]; [|reflexivity]. cbn [some]. cbn [List.length] in L.
        eapply R_step; [apply R_expr; [exact W7|zl|side0|apply (clear_nprec _ _ _ F); reflexivity]|].
        cbv beta. rewrite R_ret. cbn [option_map]. fin. }
      rewrite R_ret. unfold d4, d3, d2, d1. f_equal. f_equal. norm. reflexivity. }
    unfold parse_select. destruct distinct; cbn [cond app].
    - step. cbv zeta. rewrite A. norm. reflexivity.
    - cbn [orb] in W3. apply negb_true_iff in W3.
      assert (H0 : head_ok (commas s_selitem proj)).
      { destruct proj as [|i proj]; [discriminate W1|]. apply commas_head, item_head.
        cbn [forallb] in W2. apply andb_true_iff in W2. apply W2. }
      specialize (A d). fold T4. fold T3. fold T2. fold T1. 
      eapply R_step with (a := KwNo (hd comma (commas s_selitem proj))) (s' := (d, commas s_selitem proj ++ T1)).
      { destruct H0 as (t & x & H0 & _). rewrite H0 in W3 |- *. apply R_pk_no. exact W3. }
      cbv beta iota zeta. exact A.
  Qed.

  (** *** Set operations *)

  Lemma R_select_body s d rest : ok_select dl s = true -> (len (s_select s) <= N)%nat ->
    body_follow rest = true -> ending_ok (select_end s) rest = true ->
    R (s <- kw_tok "SELECT" ;;
       match s with
        | Some t => x <- parse_select r (tfrom t) ;; Ret (SSelect x)
        | None =>
            lp <- consume_token LParen ;;
            if lp then
              q <- r_query r ;;
              expect_token RParen ;;;
              Ret (SQuery pos0 pos0 q)
            else Panic PLog
        end) (d, s_select s ++ rest) = Ok (SSelect (esel s)) (rev (s_select s) ++ d, rest).
  Proof.
    intros W L F E. destruct s as [distinct proj from where_ gby having p]. rewrite t_select_eq. cbv beta iota.
    repeat (rewrite <- app_assoc || rewrite <- app_comm_cons). step. cbn [kwt tfrom].
    eapply R_step; [apply (R_select distinct proj from where_ gby having p); assumption|]. cbv beta. rewrite R_ret.
    cbn [rev]. rewrite <- app_assoc. reflexivity.
  Qed.

  Definition bbody (prec : Z) : setexpr -> prog (setexpr + setexpr) := fun e =>
       o <- peek ;;
       op <- parse_set_operator o ;;
       match op with
       | None => Ret (inr e)
       | Some op =>
           if setop_prec op <=? prec then Ret (inr e)
           else
             must_next ;;;
             all <- kw_ok "ALL" ;;
             rhs <- r_body r (setop_prec op) ;;
             Ret (inl (SSetOp op all e rhs))
       end.

  Lemma set_head s : ok_setexpr dl s = true -> exists t x, s_setexpr s = t :: x /\ (t = kwt "SELECT" \/ t = lpar).
  Proof.
    induction s as [s|p1 p2 q|op all l IHl rr _]; intros W; rewrite wf_setexpr_eq in W; cbv beta iota in W; rewrite t_setexpr_eq; cbv beta iota.
    - destruct s. rewrite t_select_eq. eauto.
    - unfold parens. eauto.
    - rewrite !andb_true_iff in W. destruct IHl as (t & x & -> & H); [apply W|]. exists t. eexists. split; [reflexivity|exact H].
  Qed.

  Lemma bbody_stop prec e d rest : sane rest = true -> sprec rest <= prec ->
    R (bbody prec e) (d, rest) = Ok (inr e) (d, rest).
  Proof.
    intros S P. unfold bbody. step. destruct rest as [|t rest]; [reflexivity|].
    cbn [sane sprec] in *. apply andb_true_iff in S as [S _]. unfold parse_set_operator.
    destruct (is_kind SQLKeyword t) eqn:K; [|reflexivity].
    destruct (tval t) as [w|] eqn:V; [|discriminate S].
    rewrite run_bind, run_bind, (R_word t w) by exact V. cbn [run obind].
    destruct (kw w "UNION"); [cbn [setop_prec]; replace (10 <=? prec) with true by lia; reflexivity|].
    destruct (kw w "EXCEPT"); [cbn [setop_prec]; replace (10 <=? prec) with true by lia; reflexivity|].
    destruct (kw w "INTERSECT"); [cbn [setop_prec]; replace (20 <=? prec) with true by lia; reflexivity|].
    reflexivity.
  Qed.

  Lemma set_loop prec s : ok_setexpr dl s = true -> (len (s_setexpr s) <= N)%nat -> prec < set_top s -> forall rest,
    body_follow rest = true -> ending_ok (set_end s) rest = true -> sprec rest <= set_top s ->
    exists k, (k < len (s_setexpr s))%nat /\ forall n d,
      R (s <- kw_tok "SELECT" ;;
         e <- (match s with
          | Some t => x <- parse_select r (tfrom t) ;; Ret (SSelect x)
          | None =>
              lp <- consume_token LParen ;;
              if lp then
                q <- r_query r ;;
                expect_token RParen ;;;
                Ret (SQuery pos0 pos0 q)
              else Panic PLog
          end) ;; loop (k + n) (bbody prec) e) (d, s_setexpr s ++ rest)
      = R (loop n (bbody prec) (eset s)) (rev (s_setexpr s) ++ d, rest).
  Proof.
    induction s as [s|p1 p2 q|op all l IHl rr _]; intros W L LO rest F E P; rewrite wf_setexpr_eq in W; cbv beta iota in W.
    - exists O. split.
      { destruct (set_head (SSelect s)) as (t & x & -> & _); [rewrite wf_setexpr_eq; exact W|cbn; lia]. }
      intros n d. rewrite t_setexpr_eq in L |- *. cbv beta iota in *.
      pose proof (R_select_body s d rest W L F E) as Q. rewrite run_bind in Q |- *.
      match type of Q with obind ?x _ = _ => destruct x as [o s'| | |]; try discriminate Q end.
      cbn [obind] in Q |- *. rewrite run_bind, Q. reflexivity.
    - exists O. rewrite t_setexpr_eq in L |- *. cbv beta iota in *. unfold parens in *. ll L.
      split; [rewrite app_comm_cons, app_length; cbn; lia|]. intros n d. sh. step.
      eapply R_step; [|cbv beta].
      { step. eapply R_step; [apply (R_sub dl r N G); [exact W|zl]|cbv beta]. step. reflexivity. }
      cbn [plus]. f_equal. f_equal. fin.
    - rewrite !andb_true_iff in W. destruct W as [[[W1 W2] W3] W4].
      rewrite (t_setexpr_eq (SSetOp op all l rr)) in L |- *. cbv beta iota in L |- *. ll L. cbn [set_top set_end] in LO, E, P.
      set (ops := t_setop op :: cond all [kwt "ALL"] ++ s_setexpr rr).
      assert (NA : no_alias reserved_column_alias (ops ++ rest) = true /\ no_alias reserved_table_alias (ops ++ rest) = true
                   /\ body_follow (ops ++ rest) = true /\ sprec (ops ++ rest) = set_level op)
        by (unfold ops; destruct op; repeat split; reflexivity).
      destruct NA as (N1 & N2 & N3 & N4).
      destruct IHl with (rest := ops ++ rest) as (k & K1 & K2); auto.
      + zl.
      + zl.
      + destruct (set_end l); cbn [ending_ok]; rewrite ?N1, ?N2; reflexivity.
      + rewrite N4. zl.
      + exists (S k). split; [rewrite app_length; cbn [List.length ops]; zl|].
        intros n d. replace (S k + n)%nat with (k + S n)%nat by (clear; lia).
        etransitivity; [rewrite <- app_assoc; apply K2|]. cbn [loop]. rewrite run_bind.
        enough (B : forall d', R (bbody prec (eset l)) (d', ops ++ rest) = Ok (inl (eset (SSetOp op all l rr))) (rev ops ++ d', rest)).
        { rewrite B. cbn [obind]. rewrite rev_app_distr, <- app_assoc. reflexivity. }
        intros d'. destruct (set_head rr W2) as (t & x & EH & HT).
        assert (QB : forall d', R (r_body r (set_level op)) (d', s_setexpr rr ++ rest) = Ok (eset rr) (rev (s_setexpr rr) ++ d', rest)).
        { intros d2. apply (g_body _ _ _ G); auto; zl. }
        unfold bbody, ops. cbn [app]. step.
        eapply R_step with (a := Some (er_setop Erase.no_pos op)) (s' := (d', t_setop op :: (cond all [kwt "ALL"] ++ s_setexpr rr) ++ rest)).
        { destruct op; reflexivity. }
        cbv beta iota. replace (setop_prec (er_setop Erase.no_pos op)) with (set_level op) by (destruct op; reflexivity).
        replace (set_level op <=? prec) with false by (clear -LO; lia). step.
        eapply R_step with (a := all) (s' := (rev (cond all [kwt "ALL"]) ++ t_setop op :: d', s_setexpr rr ++ rest)).
        { destruct all; cbn [cond app rev]; [prim|]. apply R_kw_no. rewrite EH. destruct HT as [-> | ->]; reflexivity. }
        cbv beta. eapply R_step; [apply QB|]. cbv beta. rewrite R_ret. fin.
  Qed.

  Lemma R_body s prec d rest : ok_setexpr dl s = true -> (len (s_setexpr s) <= N)%nat -> prec < set_top s ->
    body_follow rest = true -> ending_ok (set_end s) rest = true ->
    sprec rest <= prec -> sprec rest <= set_top s ->
    R (parse_query_body r prec) (d, s_setexpr s ++ rest) = Ok (eset s) (rev (s_setexpr s) ++ d, rest).
  Proof.
    intros W L LO F E P1 P2. unfold parse_query_body, body_loop.
    destruct (set_loop prec s W L LO rest F E P2) as (k & K1 & K2).
    pose proof (g_fuel _ _ _ G). replace (r_fuel r) with (k + S (r_fuel r - k - 1))%nat by (clear -K1 L H; lia).
    etransitivity; [apply K2|]. cbn [loop]. rewrite run_bind, bbody_stop; [reflexivity|side0|exact P1].
  Qed.

  (** *** Queries *)

  Lemma R_limit l d rest : wf_limit l = true -> starts "OFFSET" rest = false ->
    R (x <- parse_limit ;; Ret (Some x)) (kwt "LIMIT" :: d, List.tl (t_limit l) ++ rest)
    = Ok (Some (er_limit Erase.no_pos l)) (rev (t_limit l) ++ d, rest).
  Proof.
    intros W S. unfold t_limit. cbn [app List.tl]. unfold parse_limit. unfold wf_limit in W.
    destruct l as [p1 p2 v o]. cbn [lim_value lim_offset] in *. destruct v as [[v1 v2 v]|].
    - cbn [lv_long] in W. apply andb_true_iff in W as [W1 W2]. destruct o as [[o1 o2 o]|]; cbn [opt app lv_long] in *.
      + eapply R_step; [|cbv beta].
        { eapply R_step; [apply R_kw_no; reflexivity|cbv beta iota]. eapply R_step; [apply R_int; exact W1|cbv beta iota].
          step. eapply R_step; [eapply R_step; [apply R_int; exact W2|reflexivity]|]. reflexivity. }
        reflexivity.
      + eapply R_step; [|cbv beta].
        { eapply R_step; [apply R_kw_no; reflexivity|cbv beta iota]. eapply R_step; [apply R_int; exact W1|cbv beta iota].
          step. step. reflexivity. }
        reflexivity.
    - destruct o; [discriminate W|]. reflexivity.
  Qed.

  Lemma R_ctes l d rest : nonempty l = true -> forallb (ok_cte dl) l = true -> (len (commas s_cte l) < N)%nat ->
    isk Comma rest = false ->
    R (parse_cte_list r) (d, commas s_cte l ++ rest) = Ok (map ecte l) (rev (commas s_cte l) ++ d, rest).
  Proof.
    intros NE W L C. pose proof (sepby_len s_cte comma l) as L1.
    pose proof (fun a H => in_split_len s_cte comma a l H) as L2. fold (commas s_cte l) in L1, L2.
    assert (FU : (N < r_fuel r)%nat) by (apply fuel; [clear -L; lia|apply Nat.le_refl]).
    destruct (snoc l NE) as (i & z & ->). rewrite forallb_forall in W. unfold parse_cte_list, commas.
    assert (One : forall B (k : cte -> prog B) a d rest, In a (i ++ [z]) ->
      R (alias <- parse_identifier ;;
         expect_keyword "AS" ;;;
         expect_token LParen ;;;
         q <- r_query r ;;
         expect_token RParen ;;; k (CTE alias q pos0)) (d, s_cte a ++ rest) = R (k (ecte a)) (rev (s_cte a) ++ d, rest)).
    { intros B k [al q p] d' rest' I. specialize (L2 _ I). specialize (W _ I). rewrite wf_cte_eq in W.
      apply andb_true_iff in W as [Wa Wq]. rewrite t_cte_eq in L2 |- *. unfold parens in *. ll L2. cbn [app]. sh.
      eapply R_step; [apply (R_ident _ dl); exact Wa|cbv beta]. step. step.
      eapply R_step; [apply (R_sub dl r N G); [exact Wq|zl]|cbv beta]. step. f_equal. f_equal. fin. }
    rewrite (loop_sep s_cte ecte comma); auto.
    - intros a acc d' rest' I. assert (I' : In a (i ++ [z])) by (apply in_or_app; auto).
      etransitivity; [apply (One _ (fun x => c <- consume_token Comma ;; let acc' := x :: acc in
         Ret (if c : bool then inl acc' else inr (rev acc')))); exact I'|]. step. reflexivity.
    - intros acc d'. assert (I' : In z (i ++ [z])) by (apply in_or_app; right; left; reflexivity).
      etransitivity; [apply (One _ (fun x => c <- consume_token Comma ;; let acc' := x :: acc in
         Ret (if c : bool then inl acc' else inr (rev acc')))); exact I'|].
      eapply R_step; [apply R_cons_no; exact C|]. reflexivity.
    - rewrite app_length in L1. cbn in L1. zl.
  Qed.

  Lemma R_query q d rest : ok_query dl q = true -> (len (s_query q) <= N)%nat ->
    query_follow rest = true -> ending_ok (query_end q) rest = true ->
    R (parse_query r) (d, s_query q ++ rest) = Ok (equery q) (rev (s_query q) ++ d, rest).
  Proof.
    intros W L F E. destruct q as [p ctes body oby lim]. rewrite wf_query_eq in W. cbv beta iota in W.
    rewrite !andb_true_iff in W. destruct W as [[[[W1 W2] W3] W4] W5].
    rewrite t_query_eq in L |- *. cbv beta iota in L |- *. ll L. cbn [query_end] in E.
    change (match lim with Some l => t_limit l | None => [] end) with (opt lim t_limit) in *.
    set (T2 := opt lim t_limit ++ rest).
    assert (C2 : clear (["OVER"; "UNSIGNED"; "VARYING"; "WITH"; "WITHOUT"; "AS"; "WITH"; "FROM"; "WHERE"; "GROUP"; "HAVING"; "ASC"; "DESC"; "ORDER"; "UNION"; "EXCEPT"; "INTERSECT"]
       ++ op_words ++ joins) ([LParen; LBracket; Period; Comma] ++ op_kinds) T2 = true).
    { unfold T2. destruct lim; [reflexivity|]. cbn [opt app]. side0. }
    set (T1 := list_of oby (kwt "ORDER" :: kwt "BY" :: commas s_orderby oby) ++ T2).
    assert (C1 : clear (["OVER"; "UNSIGNED"; "VARYING"; "WITH"; "WITHOUT"; "AS"; "WITH"; "FROM"; "WHERE"; "GROUP"; "HAVING"; "ASC"; "DESC"; "UNION"; "EXCEPT"; "INTERSECT"]
       ++ op_words ++ joins) ([LParen; LBracket; Period; Comma] ++ op_kinds) T1 = true).
    { unfold T1. destruct oby; [|reflexivity]. cbn [list_of]. rewrite app_nil_l. side0. }
    assert (S1 : sprec T1 = 0).
    { destruct T1 as [|t T]; [reflexivity|]. cbn [sprec].
      pose proof (clear_iskw _ _ _ "UNION" C1 eq_refl) as U1. pose proof (clear_iskw _ _ _ "EXCEPT" C1 eq_refl) as U2.
      pose proof (clear_iskw _ _ _ "INTERSECT" C1 eq_refl) as U3. cbn [iskw] in U1, U2, U3.
      destruct (tval t) as [w|]; [|reflexivity]. rewrite U1, U2, U3. reflexivity. }
    assert (E1 : ending_ok (set_end body) T1 = true).
    { unfold T1, T2. destruct oby as [|o oby].
      - cbn [list_of app nonempty orb] in *. destruct lim as [l|]; cbn [opt some negb orb app] in *.
        + apply negb_true_iff in W5. destruct (set_end body); try discriminate W5; reflexivity.
        + exact E.
      - destruct (set_end body); reflexivity. }
    destruct (set_head body W2) as (t & x & EH & HT).
    replace ((list_of ctes (kwt "WITH" :: commas s_cte ctes) ++ s_setexpr body ++
      list_of oby (kwt "ORDER" :: kwt "BY" :: commas s_orderby oby) ++ opt lim t_limit) ++ rest)
      with (list_of ctes (kwt "WITH" :: commas s_cte ctes) ++ s_setexpr body ++ T1)
      by (unfold T1, T2; rewrite <- !app_assoc; reflexivity).
    unfold parse_query.
    eapply R_step with (a := nonempty ctes) (s' := match ctes with [] => (d, s_setexpr body ++ T1) | _ => (kwt "WITH" :: d, commas s_cte ctes ++ s_setexpr body ++ T1) end).
    { destruct ctes; cbn [list_of app nonempty]; [|prim]. apply R_kw_no. rewrite EH. destruct HT as [-> | ->]; reflexivity. }
    eapply R_step with (a := map ecte ctes) (s' := (rev (list_of ctes (kwt "WITH" :: commas s_cte ctes)) ++ d, s_setexpr body ++ T1)).
    { destruct ctes as [|c ctes]; [reflexivity|]. cbn [nonempty]. cbn [list_of List.length] in L |- *.
      rewrite R_ctes; [fin|reflexivity|exact W1|zl|]. rewrite EH. destruct HT as [-> | ->]; reflexivity. }
    set (d1 := rev (list_of ctes (kwt "WITH" :: commas s_cte ctes)) ++ d).
    eapply R_step; [apply R_body; [exact W2|zl| |side0|exact E1|rewrite S1; apply Z.le_refl|rewrite S1]|].
    { unfold set_top, set_level, closed. destruct body as [| |[] ? ? ?]; reflexivity. }
    { unfold set_top, set_level, closed. destruct body as [| |[] ? ? ?]; discriminate. }
    cbv beta. set (d2 := rev (s_setexpr body) ++ d1). unfold T1.
    eapply R_step with (a := nonempty oby) (s' := match oby with [] => (d2, T2) | _ => (kwt "BY" :: kwt "ORDER" :: d2, commas s_orderby oby ++ T2) end).
    { destruct oby; cbn [list_of app nonempty]; [prim|]. apply (R_kws_yes _ _ [kwt "ORDER"; kwt "BY"]); reflexivity. }
    eapply R_step with (a := map eob oby) (s' := (rev (list_of oby (kwt "ORDER" :: kwt "BY" :: commas s_orderby oby)) ++ d2, T2)).
    { destruct oby as [|o oby]; [reflexivity|]. cbn [nonempty]. cbn [list_of List.length] in L |- *.
      rewrite (R_order_by dl r N G); [fin|reflexivity|exact W3|zl|side0|apply (clear_nprec _ _ _ C2); reflexivity]. }
    set (d3 := rev (list_of oby (kwt "ORDER" :: kwt "BY" :: commas s_orderby oby)) ++ d2). unfold T2.
    eapply R_step with (a := some lim) (s' := match lim with None => (d3, rest) | Some l => (kwt "LIMIT" :: d3, List.tl (t_limit l) ++ rest) end).
    { destruct lim; cbn [opt app some]; prim. }
    eapply R_step with (a := option_map (er_limit Erase.no_pos) lim) (s' := (rev (opt lim t_limit) ++ d3, rest)).
    { destruct lim as [l|]; [|reflexivity]. cbn [some]. apply R_limit; [exact W4|side0]. }
    rewrite R_ret. unfold d3, d2, d1. f_equal. f_equal. norm. reflexivity.
  Qed.
End Query.
End Style.
