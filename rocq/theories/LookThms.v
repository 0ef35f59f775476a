(** Proofs for C54. *)
From Coq Require Import ZArith List Bool String Lia.
From Verif Require Import Base Dialect Token Lexer AST Num Prog Parser Erase ParseSpec Wp Term Natural Sim ErId ParserThms SrcThms ApiThms
  LookSpec LookWalk.
Import ListNotations.
Open Scope Z_scope.

Lemma firstn_nil_eq {A} n (t : list A) : (1 <= n)%nat -> firstn n [] = firstn n t -> t = [].
Proof. destruct n, t; cbn; intros; try lia; try discriminate; auto. Qed.
Lemma firstn_cons_eq {A} n (x : A) t t2 : (1 <= n)%nat -> firstn n (x :: t) = firstn n t2 ->
  exists u, t2 = x :: u /\ firstn (n - 1) t = firstn (n - 1) u.
Proof.
  destruct n; [lia|]. destruct t2 as [|y u]; cbn; [discriminate|]. intros _ [= <- E].
  exists u. rewrite Nat.sub_0_r. auto.
Qed.
Lemma firstn_le_eq {A} n m (t t2 : list A) : (m <= n)%nat -> firstn n t = firstn n t2 -> firstn m t = firstn m t2.
Proof.
  intros L E. replace m with (Nat.min m n) by lia. rewrite <- !firstn_firstn, E. reflexivity.
Qed.

Lemma kws_match_look ks : forall t t2 n, kws_seen ks t <= Z.of_nat n -> firstn n t = firstn n t2 ->
  kws_match ks t2 = kws_match ks t.
Proof.
  induction ks as [|k ks IH]; intros t t2 n L E; [reflexivity|]. cbn [kws_seen] in L.
  destruct t as [|x t].
  - rewrite (firstn_nil_eq n t2) by (auto; lia). reflexivity.
  - pose proof (kws_seen_le ks t) as B.
    destruct (firstn_cons_eq n x t t2) as (u & -> & E'); [destruct (is_kw k x); lia|exact E|].
    cbn [kws_match]. destruct (is_kw k x); [|reflexivity]. rewrite (IH t u (n - 1)%nat) by (auto; lia). reflexivity.
Qed.
Lemma skipn_look {A} m : forall n (t t2 : list A), firstn (m + n) t = firstn (m + n) t2 ->
  firstn n (skipn m t) = firstn n (skipn m t2).
Proof.
  induction m as [|m IH]; intros n t t2 E; [exact E|].
  destruct t as [|x t], t2 as [|y t2]; cbn [plus firstn] in E; try discriminate; auto.
  injection E as -> E. cbn [skipn]. auto.
Qed.

(** A run looks at no more tokens than [wl] says. *)
Section Adequate.
  Variable ok : token -> Prop.

  Lemma wl_run {A} (p : prog A) Q D : forall d t h a e t',
    Forall ok d -> Forall ok t -> 0 <= h -> wl ok p Q d t h ->
    run fm_machine p (d ++ D, t) = Ok a (e, t') ->
    exists d' h', e = d' ++ D /\ Q a d' t' h' /\ 0 <= h' /\ rev d' ++ t' = rev d ++ t /\
      zlen d + h <= zlen d' + h' /\
      forall t2, firstn (Z.to_nat (zlen d' + h' - zlen d)) t = firstn (Z.to_nat (zlen d' + h' - zlen d)) t2 ->
        exists t2', run fm_machine p (d ++ D, t2) = Ok a (e, t2') /\ rev d' ++ t2' = rev d ++ t2 /\
          firstn (Z.to_nat h') t' = firstn (Z.to_nat h') t2'.
  Proof.
    induction p as [a0| |w| |k IH|k IH|k IH|ks k IH]; intros d t h a e t' Fd Ft Hh W R; cbn [run wl] in *; try discriminate.
    - injection R as <- <- <-. exists d, h. repeat split; auto; [lia|]. intros t2 E. exists t2. repeat split; auto.
      replace (zlen d + h - zlen d) with h in E by lia. exact E.
    - destruct t as [|x t]; cbn [m_next fm_machine fst snd] in *.
      + destruct (IH None d [] (Z.max h 1) a e t' Fd Ft ltac:(lia) W R) as (d' & h' & -> & HQ & H1 & E1 & M & K).
        exists d', h'. repeat split; auto; [lia|]. intros t2 E.
        assert (t2 = []) as -> by (eapply firstn_nil_eq; [|exact E]; unfold zlen in *; lia). apply K. reflexivity.
      + inversion_clear Ft. specialize (W H).
        destruct (IH (Some x) (x :: d) t (Z.max (h - 1) 0) a e t' ltac:(auto) H0 ltac:(lia) W R) as (d' & h' & -> & HQ & H1 & E1 & M & K).
        unfold zlen in *. cbn [List.length rev] in *. rewrite <- app_assoc in E1.
        exists d', h'. repeat split; auto; [lia|]. intros t2 E.
        destruct (firstn_cons_eq (Z.to_nat (zlen d' + h' - zlen d)) x t t2 ltac:(unfold zlen in *; lia) E) as (u & -> & E').
        destruct (K u) as (t2' & K1 & K2 & K3).
        { eapply firstn_le_eq; [|exact E']. unfold zlen; cbn [List.length]; lia. }
        cbn [m_next fm_machine fst snd]. exists t2'. rewrite <- app_assoc in K2. auto.
    - destruct t as [|x t]; cbn [m_peek fm_machine fst snd] in *.
      + destruct (IH None d [] (Z.max h 1) a e t' Fd Ft ltac:(lia) W R) as (d' & h' & -> & HQ & H1 & E1 & M & K).
        exists d', h'. repeat split; auto; [lia|]. intros t2 E.
        assert (t2 = []) as -> by (eapply firstn_nil_eq; [|exact E]; unfold zlen in *; lia). apply K. reflexivity.
      + assert (Hx : ok x) by (inversion Ft; auto). specialize (W Hx).
        destruct (IH (Some x) d (x :: t) (Z.max h 1) a e t' Fd Ft ltac:(lia) W R) as (d' & h' & -> & HQ & H1 & E1 & M & K).
        exists d', h'. repeat split; auto; [lia|]. intros t2 E.
        destruct (firstn_cons_eq (Z.to_nat (zlen d' + h' - zlen d)) x t t2 ltac:(unfold zlen in *; lia) E) as (u & -> & E').
        cbn [m_peek fm_machine fst snd]. apply K. exact E.
    - destruct d as [|x d]; [contradiction|]. cbn [m_prev fm_machine fst snd app] in *. inversion_clear Fd.
      destruct (IH d (x :: t) (h + 1) a e t' H0 ltac:(auto) ltac:(lia) W R) as (d' & h' & -> & HQ & H1 & E1 & M & K).
      unfold zlen in *. cbn [List.length rev] in *.
      exists d', h'. repeat split; auto; [rewrite <- app_assoc; exact E1|lia|]. intros t2 E.
      destruct (K (x :: t2)) as (t2' & K1 & K2 & K3).
      { replace (Z.to_nat (Z.of_nat (List.length d') + h' - Z.of_nat (List.length d)))
          with (S (Z.to_nat (Z.of_nat (List.length d') + h' - Z.of_nat (S (List.length d))))) by lia.
        cbn [firstn]. f_equal. exact E. }
      exists t2'. repeat split; auto. rewrite <- app_assoc. exact K2.
    - rewrite run_kws_fm in R. cbn [fst snd] in R. destruct (kws_match ks t) as [l|] eqn:E0.
      + destruct (kws_match_spec _ _ _ E0) as [S1 S2]. cbn [rev app] in R.
        assert (Ft' : Forall ok (l ++ skipn (List.length l) t)) by (rewrite <- S1; exact Ft).
        apply Forall_app in Ft' as [F1 F2]. rewrite app_assoc in R.
        destruct (IH (Some l) (rev l ++ d) _ (Z.max (h - Z.of_nat (List.length ks)) 0) a e t' ltac:(apply Forall_app; split; [apply Forall_rev|]; auto) F2 ltac:(lia) W R)
          as (d' & h' & -> & HQ & H1 & E1 & M & K).
        unfold zlen in *. rewrite app_length, rev_length in *. rewrite rev_app_distr, rev_involutive, <- app_assoc in *.
        exists d', h'. repeat split; auto.
        * rewrite E1. f_equal. symmetry; exact S1.
        * lia.
        * intros t2 E. rewrite run_kws_fm. cbn [fst snd].
          rewrite (kws_match_look ks t t2 (Z.to_nat (zlen d' + h' - zlen d)) ltac:(pose proof (kws_seen_le ks t); unfold zlen; lia) E), E0. cbn [rev app].
          assert (S1' : t2 = l ++ skipn (List.length l) t2).
          { pose proof (kws_match_look ks t t2 (Z.to_nat (zlen d' + h' - zlen d)) ltac:(pose proof (kws_seen_le ks t); unfold zlen; lia) E) as X. rewrite E0 in X. apply (kws_match_spec _ _ _ X). }
          destruct (K (skipn (List.length l) t2)) as (t2' & K1 & K2 & K3).
          { apply skipn_look. eapply firstn_le_eq; [|exact E]. lia. }
          exists t2'. split; [exact K1|split; [|exact K3]]. rewrite K2, <- app_assoc. f_equal. symmetry; exact S1'.
      + destruct (IH None d t (Z.max h (kws_seen ks t)) a e t' Fd Ft ltac:(lia) W R) as (d' & h' & -> & HQ & H1 & E1 & M & K).
        exists d', h'. repeat split; auto; [unfold zlen in *; lia|]. intros t2 E.
        rewrite run_kws_fm. cbn [fst snd]. rewrite (kws_match_look ks t t2 (Z.to_nat (zlen d' + h' - zlen d)) ltac:(pose proof (kws_seen_le ks t); unfold zlen in *; lia) E), E0. apply K. exact E.
  Qed.
End Adequate.

Section Method.
  Context {A : Type} (P : rec -> prog A) (erA : (pos -> pos) -> (rune -> rune) -> A -> A) (k : nat) (K : A -> nat).
  Hypothesis HP : entry P erA k.
  Hypothesis HL : forall n t, wl tok_wf (P (knot n)) (fun a _ _ h' => h' <= Z.of_nat (K a)) [] t 0.

  Lemma base_look t a d' rest t2 : Forall tok_wf t -> Forall tok_wf t2 -> base P t = Ok a (d', rest) ->
    firstn (len d' + K a) t = firstn (len d' + K a) t2 ->
    exists rest2, base P t2 = Ok a (d', rest2) /\ t2 = rev d' ++ rest2.
  Proof.
    intros W W2 B E. set (n := Nat.max (S (S (len t))) (S (S (len t2)))).
    pose proof (base_fuel P erA k HP t n [] W ltac:(lia)) as R. rewrite B in R. unfold frame in R. cbn [fst snd] in R.
    rewrite app_nil_r in R.
    destruct (wl_run tok_wf (P (knot n)) _ [] [] t 0 a d' rest ltac:(constructor) W ltac:(lia) (HL n t) R)
      as (d1 & h' & E1 & HQ & H1 & E2 & M & Q).
    rewrite app_nil_r in E1. subst d1. cbn beta in HQ.
    destruct (Q t2) as (rest2 & R2 & E3 & _).
    { eapply firstn_le_eq; [|exact E]. unfold zlen. cbn [List.length]. lia. }
    cbn [app rev] in R2, E3. exists rest2. split; [|auto].
    pose proof (base_fuel P erA k HP t2 n [] W2 ltac:(lia)) as R3. cbn [app] in R3. rewrite R2 in R3.
    destruct (base P t2) as [b [s1 s2]| | |]; cbn [frame fst snd] in R3; try discriminate.
    injection R3 as -> E4 ->. rewrite !app_nil_r in E4. rewrite E4. reflexivity.
  Qed.

  Lemma call_look done todo a st done' todo' : Forall tok_wf todo -> Forall tok_wf todo' ->
    call P done todo = Ok a st ->
    firstn (len (fsig todo) - len (fsig (snd st)) + K a) (map kv (fsig todo'))
    = firstn (len (fsig todo) - len (fsig (snd st)) + K a) (map kv (fsig todo)) ->
    exists b st', call P done' todo' = Ok b st' /\ erA no_pos same_rune b = erA no_pos same_rune a /\
      fsig (snd st') = skipn (len (fsig todo) - len (fsig (snd st))) (fsig todo').
  Proof.
    intros W W' C E.
    pose proof (call_agrees P erA k HP done todo W) as A1. unfold agrees in A1. rewrite C in A1.
    destruct (base P (fsig todo)) as [a1 [d' rest]| | |] eqn:B; try contradiction.
    destruct A1 as (<- & _ & E1). cbn [snd] in E1. rewrite E1 in *.
    pose proof (base_spec P erA k HP _ (fsig_wf _ W)) as S1. rewrite B in S1. cbn [fst snd] in S1. destruct S1 as [S1 _].
    assert (N : (len (fsig todo) - len rest)%nat = len d').
    { rewrite S1, app_length, rev_length. lia. }
    rewrite N in *. set (m := (len d' + K a)%nat) in *.
    set (t2 := firstn m (fsig todo) ++ skipn m (fsig todo')).
    pose proof (fsig_wf _ W) as V. pose proof (fsig_wf _ W') as V'.
    assert (V2 : Forall tok_wf t2).
    { apply Forall_app. split.
      - rewrite <- (firstn_skipn m (fsig todo)) in V. apply Forall_app in V. apply V.
      - rewrite <- (firstn_skipn m (fsig todo')) in V'. apply Forall_app in V'. apply V'. }
    assert (E2 : map kv t2 = map kv (fsig todo')).
    { unfold t2. rewrite map_app, <- firstn_map, <- E, firstn_map, <- map_app, firstn_skipn. reflexivity. }
    assert (E3 : firstn m (fsig todo) = firstn m t2).
    { unfold t2. rewrite firstn_app, firstn_firstn, Nat.min_id.
      destruct (Nat.le_gt_cases m (len (fsig todo))) as [G|G].
      - rewrite firstn_length_le by exact G. rewrite Nat.sub_diag. cbn [firstn]. rewrite app_nil_r. reflexivity.
      - rewrite (skipn_all2 (fsig todo')); [rewrite firstn_nil, app_nil_r; reflexivity|].
        assert (L : List.length (firstn m (map kv (fsig todo'))) = List.length (firstn m (map kv (fsig todo)))) by (rewrite E; reflexivity).
        rewrite !firstn_length, !map_length in L. lia. }
    destruct (base_look _ _ _ _ _ V V2 B E3) as (rest2 & B2 & E4).
    pose proof (base_er P erA k HP no_pos same_rune no_pos same_rune t2 (fsig todo') eq_refl gok_same eq_refl gok_same V2 V' (kv_er _ _ E2)) as B3.
    rewrite B2 in B3.
    pose proof (call_agrees P erA k HP done' todo' W') as A2. unfold agrees in A2.
    pose proof (base_spec P erA k HP _ V') as S2.
    destruct (base P (fsig todo')) as [b [s1 s2]| | |]; try contradiction.
    destruct (call P done' todo') as [b' st'| | |]; try contradiction.
    destruct A2 as (-> & _ & E5). destruct B3 as [B3 B4]. cbn [fst snd] in *. destruct S2 as [S2 _].
    exists b, st'. repeat split; auto. rewrite E5.
    assert (L : len s1 = len d').
    { unfold er_st in B4. cbn [fst snd] in B4. injection B4 as B4 _.
      rewrite <- (map_length (er_tok no_pos same_rune) s1), <- B4, map_length. reflexivity. }
    rewrite S2, <- L, <- rev_length, skipn_app, skipn_all, Nat.sub_diag. reflexivity.
  Qed.
End Method.

Lemma look_wl {A} (p : prog A) (Q : A -> toks -> toks -> Z -> Prop) (K : A -> Z) t : wl tok_wf p Q [] t 0 ->
  (forall a d' t' h', Q a d' t' h' -> h' <= K a) -> wl tok_wf p (fun a _ _ h' => h' <= K a) [] t 0.
Proof. intros W H. eapply wl_conseq; [exact W|]. cbn. intros. eapply H. eassumption. Qed.

Lemma look_calls {A} (P : rec -> prog A) erA K : looks P erA K ->
  forall done todo a st done' todo', Forall tok_wf todo -> Forall tok_wf todo' ->
  call P done todo = Ok a st -> same_start (K a) todo (snd st) todo' ->
  exists b st', call P done' todo' = Ok b st' /\ erA no_pos same_rune b = erA no_pos same_rune a /\
    sig (snd st') = skipn (List.length (sig todo) - List.length (sig (snd st))) (sig todo').
Proof.
  intros L done todo a st done' todo' W W' C E. unfold same_start, left_over in E. cbn zeta in E.
  rewrite !sig_fsig in E. setoid_rewrite sig_fsig.
  destruct L.
  - refine (call_look parse_expr er_node 1 _ entry_expr _ done todo a st done' todo' W W' C E).
    intros n t. apply (look_wl _ _ (fun _ => 1) _ (parse_expr_la _ (knot_rla n) 1 (or_introl eq_refl) t 0 ltac:(lia))).
    intros ? ? ? ? [_ X]. exact X.
  - refine (call_look parse_data_type er_dtype 1 _ entry_dtype _ done todo a st done' todo' W W' C E).
    intros n t. apply (look_wl _ _ (fun _ => 1) _ (parse_data_type_la _ 1 (or_introl eq_refl) t 0 ltac:(lia))).
    intros ? ? ? ? [_ X]. exact X.
  - refine (call_look parse_statement er_stmt 1 _ entry_stmt _ done todo a st done' todo' W W' C E).
    intros n t. apply (look_wl _ _ (fun a => Z.of_nat (stmt_looks a)) _
      (parse_statement_ls _ (knot_rla n) (knot_stmt_ls n) 1 (or_introl eq_refl) t 0 ltac:(lia))).
    intros ? ? ? ? [_ X]. lia.
Qed.

(** One token less is not enough. *)
Definition lexed (src : gostring) : toks := match tokenize generic true src with TOk ts => ts | _ => [] end.
Lemma lexed_wf src : Forall tok_wf (lexed src).
Proof.
  unfold lexed. destruct (tokenize generic true src) eqn:E; try constructor.
  eapply tokenize_wf; [|exact E]. exact (proj1 LexFacts.shipped_ok).
Qed.

Definition one_less {A} (P : rec -> prog A) (erA : (pos -> pos) -> (rune -> rune) -> A -> A) (K : A -> nat) (x y : gostring) : Prop :=
  match call P [] (lexed x) with
  | Ok a st => same_start (K a - 1) (lexed x) (snd st) (lexed y) /\
      match call P [] (lexed y) with Ok b _ => erA no_pos same_rune b <> erA no_pos same_rune a | _ => True end
  | _ => False
  end.

Lemma differ {A} (P : rec -> prog A) erA K x y (R : A -> Prop) : one_less P erA K x y ->
  match call P [] (lexed x) with Ok a _ => R a | _ => False end ->
  exists todo todo' a st, Forall tok_wf todo /\ Forall tok_wf todo' /\ call P [] todo = Ok a st /\ R a /\
    same_start (K a - 1) todo (snd st) todo' /\
    ~ exists b st', call P [] todo' = Ok b st' /\ erA no_pos same_rune b = erA no_pos same_rune a.
Proof.
  unfold one_less. intros H HR. destruct (call P [] (lexed x)) as [a st| | |] eqn:C; try contradiction. destruct H as [H1 H2].
  exists (lexed x), (lexed y), a, st. repeat split; auto using lexed_wf.
  intros (b & st' & C' & E). rewrite C' in H2. contradiction.
Qed.

Lemma drop_true {X Y Z : Type} (P1 P2 : X -> Prop) (P3 P4 : X -> X -> Y -> Z -> Prop) (P5 : X -> Y -> Prop) :
  (exists (t t' : X) (a : Y) (s : Z), P1 t /\ P2 t' /\ P3 t t' a s /\ True /\ P4 t t' a s /\ P5 t' a) ->
  exists (t t' : X) (a : Y) (s : Z), P1 t /\ P2 t' /\ P3 t t' a s /\ P4 t t' a s /\ P5 t' a.
Proof. intros (t & t' & a & s & H1 & H2 & H3 & _ & H4 & H5). exists t, t', a, s. auto. Qed.

Ltac differ x y := apply (differ _ _ _ (gs x) (gs y)); [vm_compute; split; [reflexivity|first [exact I|discriminate]]|vm_compute; exact I].
Ltac witness := first
  [ differ "SELECT a FROM t u ORDER x"%string "SELECT a FROM t u ORDER BY x"%string
  | differ "INSERT INTO t VALUES (1) ON DUPLICATE KEY x"%string "INSERT INTO t VALUES (1) ON DUPLICATE KEY UPDATE a = 1"%string
  | differ "UPDATE t SET a = 1"%string "UPDATE t SET a = 1 WHERE a"%string
  | differ "DELETE FROM t"%string "DELETE FROM t WHERE a"%string
  | differ "CREATE VIEW v AS SELECT a FROM t u ORDER x"%string "CREATE VIEW v AS SELECT a FROM t u ORDER BY x"%string
  | differ "CREATE TABLE t"%string "CREATE TABLE t (a int)"%string
  | differ "ALTER TABLE t ADD COLUMN a int"%string "ALTER TABLE t ADD COLUMN a int NOT NULL"%string
  | differ "DROP TABLE t"%string "DROP TABLE t CASCADE"%string
  | differ "CREATE INDEX i ON t"%string "CREATE INDEX i ON t (a)"%string
  | differ "DROP INDEX a"%string "DROP INDEX a, b"%string
  | differ "EXPLAIN DELETE FROM t"%string "EXPLAIN DELETE FROM t WHERE a"%string ].

Lemma look_exact_expr : exists todo todo' a st, Forall tok_wf todo /\ Forall tok_wf todo' /\ call parse_expr [] todo = Ok a st /\
    same_start 0 todo (snd st) todo' /\
    ~ exists b st', call parse_expr [] todo' = Ok b st' /\ er_node no_pos same_rune b = er_node no_pos same_rune a.
Proof. apply drop_true, (differ parse_expr er_node (fun _ => 1%nat) (gs "a") (gs "a + b")); vm_compute; [split; [reflexivity|discriminate]|exact I]. Qed.
Lemma look_exact_type : exists todo todo' a st, Forall tok_wf todo /\ Forall tok_wf todo' /\ call parse_data_type [] todo = Ok a st /\
    same_start 0 todo (snd st) todo' /\
    ~ exists b st', call parse_data_type [] todo' = Ok b st' /\ er_dtype no_pos same_rune b = er_dtype no_pos same_rune a.
Proof. apply drop_true, (differ parse_data_type er_dtype (fun _ => 1%nat) (gs "timestamp") (gs "timestamp with time zone")); vm_compute; [split; [reflexivity|discriminate]|exact I]. Qed.
Lemma look_exact_stmt s : exists todo todo' a st, Forall tok_wf todo /\ Forall tok_wf todo' /\ call parse_statement [] todo = Ok a st /\
    same_sort s a /\ same_start (stmt_looks a - 1) todo (snd st) todo' /\
    ~ exists b st', call parse_statement [] todo' = Ok b st' /\ er_stmt no_pos same_rune b = er_stmt no_pos same_rune a.
Proof. destruct s; witness. Qed.
