(** Consequences of the parser metatheory (Natural, Term, Sim) for the public
    calls, for every parser state. *)
From Coq Require Import ZArith List Bool String Lia.
From Verif Require Import Base Dialect Token Lexer AST Num Prog Parser ParseSpec Erase Wp Term Natural Sim ErId.
Import ListNotations.
Open Scope Z_scope.

Definition any_panic (p : panick) : Prop := True.

(** Runs do not depend on what was read before. *)
Definition frame {A} (D : toks) (o : outcome rstate A) : outcome rstate A :=
  match o with
  | Ok a s => Ok a (fst s ++ D, snd s)
  | OErr => OErr
  | OPanic w => OPanic w
  | OFuel => OFuel
  end.

Lemma run_frame {A} pa ok (p : prog A) Q D : forall d t,
  Forall ok d -> Forall ok t -> wp pa ok p Q d t ->
  run fm_machine p (d ++ D, t) = frame D (run fm_machine p (d, t)).
Proof.
  induction p as [a| |w| |k IH|k IH|k IH|ks k IH]; intros d t Hd Ht H; cbn [run wp] in *; auto.
  - destruct t as [|x t]; cbn [m_next fm_machine fst snd].
    + apply (IH None d []); auto.
    + inversion_clear Ht. apply (IH (Some x) (x :: d) t); auto.
  - destruct t as [|x t]; cbn [m_peek fm_machine fst snd]; [apply IH; auto|].
    apply IH; auto. apply H. inversion_clear Ht; auto.
  - destruct d as [|x d]; [contradiction|]. cbn [m_prev fm_machine fst snd app].
    inversion_clear Hd. apply IH; auto.
  - rewrite !run_kws_fm in *. destruct (kws_match ks t) as [l|] eqn:E; cbn [fst snd rev app] in *.
    + destruct (kws_match_spec _ _ _ E) as [E4 _]. rewrite E4 in Ht. apply Forall_app in Ht.
      destruct Ht as [Hl Ht].
      assert (Hd' : Forall ok (rev l ++ d)) by (apply Forall_app; split; [apply Forall_rev|]; auto).
      rewrite app_assoc. apply (IH (Some l)); auto.
    + apply (IH None); auto.
Qed.

(** What an entry point has to satisfy. *)
Definition gok (g : rune -> rune) : Prop :=
  (forall r, fold1 (g r) = fold1 r) /\ g 34 = 34 /\ g 91 = 91 /\ g 93 = 93 /\ g 96 = 96.

Record entry {A} (P : rec -> prog A) (erA : (pos -> pos) -> (rune -> rune) -> A -> A) (k : nat) : Prop := {
  en_nat : forall fp g, fp pos0 = pos0 -> gok g -> forall n n' s, (n <= n')%nat ->
    run fm_machine (P (knot n)) s <> OFuel ->
    run fm_machine (P (knot n')) (er_st fp g s)
    = match run fm_machine (P (knot n)) s with
      | Ok a s' => Ok (erA fp g a) (er_st fp g s')
      | OErr => OErr
      | OPanic w => OPanic w
      | OFuel => OFuel
      end;
  en_sp : forall n t, (len t <= n)%nat -> sp any_panic k (P (knot (S (S n)))) t;
  en_id : forall a, erA (fun p => p) (fun r => r) a = a }.

Lemma map_er_stmt_id l : map (er_stmt (fun p => p) (fun r => r)) l = l.
Proof. apply map_id_ext. intros; apply er_stmt_id; auto. Qed.

Lemma entry_sql pc : entry (parse_sql pc) (fun fp g => map (er_stmt fp g)) 0.
Proof.
  split.
  - intros fp g F (G1 & G2 & G3 & G4 & G5) n n' s. apply nat_sql; auto.
  - intros n t H. apply parse_sql_sp; [exact I..|lia].
  - apply map_er_stmt_id.
Qed.
Lemma entry_stmt : entry parse_statement er_stmt 1.
Proof.
  split.
  - intros fp g F (G1 & G2 & G3 & G4 & G5) n n' s. apply nat_stmt; auto.
  - intros n t H. eapply parse_statement_sp; [exact I..|apply knot_rspec; exact I|apply knot_sspec; exact I|lia].
  - intros; apply er_stmt_id; auto.
Qed.
Lemma entry_expr : entry parse_expr er_node 1.
Proof.
  split.
  - intros fp g F (G1 & G2 & G3 & G4 & G5) n n' s. apply nat_pexpr; auto.
  - intros n t H. eapply parse_expr_sp; [apply knot_rspec; exact I|lia].
  - intros; apply er_node_id; auto.
Qed.
Lemma entry_dtype : entry parse_data_type er_dtype 1.
Proof.
  split.
  - intros fp g F (G1 & G2 & G3 & G4 & G5) n n' s. apply nat_dtype; auto.
  - intros n t H. eapply parse_data_type_sp; [exact I..|apply knot_rspec; exact I|lia].
  - intros; apply er_dtype_id; auto.
Qed.

Lemma er_st_id s : er_st (fun p => p) (fun r => r) s = s.
Proof. destruct s. unfold er_st. cbn. now rewrite !(map_id_ext _ _ (er_tok_id _ _ (fun _ => eq_refl) (fun _ => eq_refl))). Qed.

Lemma gok_id : gok (fun r => r).
Proof. repeat split. Qed.

Section Entry.
  Context {A : Type} (P : rec -> prog A) (erA : (pos -> pos) -> (rune -> rune) -> A -> A) (k : nat).
  Hypothesis HP : entry P erA k.

  (** The answer with just enough fuel. *)
  Definition base (t : toks) : outcome rstate A := run fm_machine (P (knot (S (S (len t))))) ([], t).

  Lemma base_spec t : Forall tok_wf t ->
    match base t with
    | Ok a s => t = rev (fst s) ++ snd s /\ (k <= len (fst s))%nat
    | OErr => True
    | OPanic _ => True
    | OFuel => False
    end.
  Proof.
    intros W. pose proof (en_sp P erA k HP (len t) t ltac:(lia)) as S. unfold sp in S.
    pose proof (wp_run _ _ _ _ [] [] t ltac:(constructor) W S) as R. cbn [app] in R.
    unfold base. destruct (run _ _ _); auto. destruct R as (d1 & t' & -> & H & E).
    clear S. rewrite app_nil_r. cbn [fst snd rev app] in *. auto.
  Qed.

  Lemma base_fuel t n D : Forall tok_wf t -> (S (S (len t)) <= n)%nat ->
    run fm_machine (P (knot n)) (D, t) = frame D (base t).
  Proof.
    intros W Hn. pose proof (base_spec t W) as B.
    assert (B' : base t <> OFuel) by (intros E; rewrite E in B; exact B).
    pose proof (en_nat P erA k HP (fun p => p) (fun r => r) eq_refl gok_id _ n _ Hn B') as E.
    rewrite er_st_id in E.
    assert (E' : run fm_machine (P (knot n)) ([], t) = base t).
    { rewrite E. clear E. unfold base. destruct (run _ _ _); auto. now rewrite er_st_id, (en_id P erA k HP). }
    rewrite <- E'. destruct n as [|[|n]]; [lia|lia|].
    pose proof (en_sp P erA k HP n t ltac:(lia)) as S. unfold sp in S.
    apply (run_frame _ _ _ _ D [] t ltac:(constructor) W S).
  Qed.

  (** A public call with any sufficient fuel. *)
  Definition agrees (done todo : toks) (o : outcome rstate A) : Prop :=
    match o, base (fsig todo) with
    | Ok a s, Ok b s' => a = b /\ fsig (fst s) = fst s' ++ fsig done /\ fsig (snd s) = snd s'
    | OErr, OErr => True
    | OPanic w, OPanic w' => w = w'
    | _, _ => False
    end.

  Lemma fsig_len l : (len (fsig l) <= len l)%nat.
  Proof. induction l as [|x l IH]; [cbn; lia|]. rewrite fsig_cons. destruct (skipped x); cbn; lia. Qed.
  Lemma fsig_wf l : Forall tok_wf l -> Forall tok_wf (fsig l).
  Proof. intros H. rewrite Forall_forall in *. intros x Hx. apply filter_In in Hx. apply H, Hx. Qed.

  Lemma run_agrees n done todo : Forall tok_wf todo -> (fuel_for todo <= n)%nat ->
    agrees done todo (run raw_machine (P (knot n)) (done, todo)).
  Proof.
    intros W Hn. pose proof (sim_raw (P (knot n)) done todo) as S.
    rewrite (base_fuel (fsig todo) n (fsig done)) in S;
      [|apply fsig_wf; assumption|pose proof (fsig_len todo); unfold fuel_for in Hn; lia].
    pose proof (base_spec (fsig todo) (fsig_wf _ W)) as B.
    unfold agrees. destruct (base (fsig todo)) as [b s'| | |]; [| | |contradiction];
      destruct (run raw_machine _ _) as [a s| | |]; cbn [outrel frame] in S; try contradiction; auto.
    destruct S as [-> S]. unfold Rraw in S. destruct s as [s1 s2], s' as [s1' s2']. cbn [fst snd] in *. injection S as -> ->. auto.
  Qed.

  Lemma call_agrees done todo : Forall tok_wf todo -> agrees done todo (call P done todo).
  Proof. intros W. apply run_agrees; auto. Qed.

  Lemma run_cm_agrees toks0 : Forall tok_wf toks0 ->
    match run_cm P toks0, base (fsig toks0) with
    | Ok a s, Ok b s' => a = b /\ fsig (cs_done s) = fst s' /\ fsig (cs_todo s) = snd s'
    | OErr, OErr => True
    | OPanic w, OPanic w' => w = w'
    | _, _ => False
    end.
  Proof.
    intros W. unfold run_cm. set (n := fuel_for toks0).
    pose proof (sim_cm (P (knot n)) [] toks0 []) as S.
    rewrite (base_fuel (fsig toks0) n (fsig [])) in S;
      [|apply fsig_wf; assumption|pose proof (fsig_len toks0); unfold n, fuel_for; lia].
    pose proof (base_spec (fsig toks0) (fsig_wf _ W)) as B.
    destruct (base (fsig toks0)) as [b s'| | |]; [| | |contradiction];
      destruct (run cm_machine _ _) as [a s| | |]; cbn [outrel frame] in S; try contradiction; auto.
    destruct S as [-> S]. unfold Rcm in S. destruct s as [s1 s2 s3], s' as [s1' s2']. cbn [fst snd cs_done cs_todo fsig filter] in *.
    rewrite app_nil_r in S. injection S as -> ->. auto.
  Qed.

  (** Two token lists that become equal when positions and spellings are
      renamed. *)
  Lemma base_er fp g fp' g' t t' :
    fp pos0 = pos0 -> gok g -> fp' pos0 = pos0 -> gok g' ->
    Forall tok_wf t -> Forall tok_wf t' ->
    map (er_tok fp g) t = map (er_tok fp' g') t' ->
    match base t, base t' with
    | Ok a s, Ok b s' => erA fp g a = erA fp' g' b /\ er_st fp g s = er_st fp' g' s'
    | OErr, OErr => True
    | OPanic w, OPanic w' => w = w'
    | _, _ => False
    end.
  Proof.
    intros F G F' G' W W' E.
    assert (L : len t = len t') by (rewrite <- (map_length (er_tok fp g) t), E, map_length; reflexivity).
    pose proof (base_spec t W) as B. pose proof (base_spec t' W') as B'.
    assert (N : base t <> OFuel) by (intros X; rewrite X in B; exact B).
    assert (N' : base t' <> OFuel) by (intros X; rewrite X in B'; exact B').
    pose proof (en_nat P erA k HP fp g F G _ _ _ (le_n _) N) as E1.
    pose proof (en_nat P erA k HP fp' g' F' G' _ _ _ (le_n _) N') as E2.
    unfold er_st in E1 at 1, E2 at 1. cbn [fst snd map] in E1, E2. rewrite <- E, <- L in E2.
    rewrite E1 in E2. fold (base t) in E2. rewrite L in E2 at 1. fold (base t') in E2.
    unfold base in *. rewrite <- L in *.
    destruct (run fm_machine (P (knot (S (S (len t))))) ([], t)),
      (run fm_machine (P (knot (S (S (len t))))) ([], t')); try discriminate E2; auto; try contradiction.
    - injection E2 as E3 E4 E5. split; auto. unfold er_st. congruence.
    - congruence.
  Qed.
End Entry.
