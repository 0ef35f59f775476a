(** The parser theorems in the vocabulary of ParseSpec.v. *)
From Coq Require Import ZArith List Bool String Lia.
From Verif Require Import Base Dialect Token Lexer LexSpec LexFacts LexPos LexThms AST Num Prog Parser ParseSpec Erase Wp Term
  Natural Sim ErId ParserThms Local SqlThms SrcThms PanicThms.
Import ListNotations.
Open Scope Z_scope.

Lemma sig_fsig l : sig l = fsig l.
Proof. apply filter_ext. intros t. unfold blank, signif, skipped. destruct (tkind t); reflexivity. Qed.

Local Opaque sig.

Lemma public_entry {A} (P : rec -> prog A) erA k : public P erA k -> entry P erA k.
Proof. intros H. destruct H; [apply entry_sql|apply entry_stmt|apply entry_expr|apply entry_dtype]. Qed.

(** C12 *)
Lemma calls_terminate {A} (P : rec -> prog A) erA k : public P erA k ->
  forall done todo n, Forall tok_wf todo -> (fuel_for todo <= n)%nat ->
  res_of (run raw_machine (P (knot n)) (done, todo)) = res_of (call P done todo) /\
  res_of (call P done todo) <> RHang.
Proof.
  intros HP done todo n W Hn. apply public_entry in HP.
  pose proof (run_agrees _ _ _ HP n done todo W Hn) as A1.
  pose proof (call_agrees _ _ _ HP done todo W) as A2. unfold agrees in *.
  destruct (base P (fsig todo)); destruct (run raw_machine (P (knot n)) (done, todo)); try contradiction;
    destruct (call P done todo); try contradiction; cbn [res_of]; split; try discriminate; auto.
  - destruct A1 as [-> _], A2 as [-> _]. reflexivity.
  - congruence.
Qed.

Lemma sources_hang {A} (P : rec -> prog A) erA k : public P erA k ->
  forall d src, dialect_ok d ->
  parse_with P d src = RHang <->
  exists l rem, reads d start_pos (skip_bom src) l rem /\ unclosed_delimited d rem.
Proof. intros HP. apply public_entry in HP. exact (parse_with_hang P erA k HP). Qed.

Lemma file_hang d src : dialect_ok d ->
  parse_file d src = RHang <->
  exists l rem, reads d start_pos (skip_bom src) l rem /\ unclosed_delimited d rem.
Proof.
  intros D. rewrite <- (sources_hang _ _ _ (pub_sql false) d src D).
  change (parse_with (parse_sql false) d src) with (parse_source d src).
  rewrite <- parse_file_source by assumption.
  destruct (parse_file d src); cbn; split; congruence.
Qed.

(** C13, C37 *)
Lemma calls_sig {A} (P : rec -> prog A) erA k : public P erA k ->
  forall done todo done' todo', Forall tok_wf todo -> Forall tok_wf todo' -> sig todo = sig todo' ->
  match call P done todo, call P done' todo' with
  | Ok a s, Ok b s' => a = b /\ sig (snd s) = sig (snd s')
  | OErr, OErr => True
  | OPanic w, OPanic w' => w = w'
  | _, _ => False
  end.
Proof.
  intros HP done todo done' todo' W W' E. apply public_entry in HP. rewrite (sig_fsig todo), (sig_fsig todo') in E.
  pose proof (call_agrees _ _ _ HP done todo W) as A1.
  pose proof (call_agrees _ _ _ HP done' todo' W') as A2. unfold agrees in *. rewrite E in A1.
  destruct (base P (fsig todo')); destruct (call P done todo); try contradiction;
    destruct (call P done' todo'); try contradiction; auto.
  - destruct A1 as (-> & _ & E1), A2 as (-> & _ & E2). rewrite (sig_fsig (snd s0)), (sig_fsig (snd s1)), E1, E2. auto.
  - congruence.
Qed.

Lemma calls_progress {A} (P : rec -> prog A) erA k : public P erA k ->
  forall done todo a st, Forall tok_wf todo -> call P done todo = Ok a st ->
  exists used, sig (fst st) = rev used ++ sig done /\ sig todo = used ++ sig (snd st) /\
               (k <= List.length used)%nat.
Proof.
  intros HP done todo a st W E. rewrite (sig_fsig (fst st)), (sig_fsig done), (sig_fsig todo), (sig_fsig (snd st)). apply public_entry in HP.
  exact (call_progress P erA k HP done todo a st W E).
Qed.

Lemma blanks_insignificant {A} (P : rec -> prog A) erA k : public P erA k ->
  forall d src src' a w b la lw p, dialect_ok d ->
  skip_bom src = a ++ b -> skip_bom src' = a ++ w ++ b ->
  reads d start_pos (a ++ b) la b ->
  reads d p (w ++ b) lw b -> Forall (fun x => blank (fst x) = true) lw ->
  keeps d la (w ++ b) ->
  res_map (erA no_pos same_rune) (parse_with P d src')
  = res_map (erA no_pos same_rune) (parse_with P d src).
Proof.
  intros HP d src src' a w b la lw p D E E' R Rw F K. apply public_entry in HP.
  eapply (parse_blank P erA k HP d src src' a w b la lw p); eauto.
Qed.

Lemma whitespace_insignificant {A} (P : rec -> prog A) erA k : public P erA k ->
  forall d src src' a c w b la lw p, dialect_ok d ->
  skip_bom src = a ++ b -> skip_bom src' = a ++ (c :: w) ++ b ->
  reads d start_pos (a ++ b) la b ->
  (forall t s m, rev la = (t, s) :: m -> blank t = false) ->
  blank_char c = true ->
  reads d p ((c :: w) ++ b) lw b -> Forall (fun x => blank (fst x) = true) lw ->
  res_map (erA no_pos same_rune) (parse_with P d src')
  = res_map (erA no_pos same_rune) (parse_with P d src).
Proof.
  intros HP d src src' a c w b la lw p D E E' R N B Rw F.
  eapply blanks_insignificant; eauto. cbn [app]. eapply keeps_blank; eauto.
Qed.

(** C15 *)
Lemma positions_erased {A} (P : rec -> prog A) erA k : public P erA k ->
  forall done todo done' todo', Forall tok_wf todo -> Forall tok_wf todo' ->
  map kv (sig todo) = map kv (sig todo') ->
  res_map (erA no_pos same_rune) (res_of (call P done todo))
  = res_map (erA no_pos same_rune) (res_of (call P done' todo')).
Proof.
  intros HP done todo done' todo' W W' E. apply public_entry in HP. rewrite (sig_fsig todo), (sig_fsig todo') in E.
  rewrite !(call_res P erA k HP) by assumption.
  rewrite <- !(call_res P erA k HP []) by assumption.
  apply (run_raw_er P erA k HP); auto using gok_same. apply kv_er. exact E.
Qed.

Lemma er_tok_wf fp t : tok_wf t -> tok_wf (er_tok fp same_rune t).
Proof.
  unfold tok_wf. cbn [er_tok tkind tval]. destruct (tkind t); destruct (tval t); auto.
  cbn [er_val er_word wvalue wkeyword]. intros ->. unfold same_rune. now rewrite map_id.
Qed.

Lemma fsig_er fp g l : fsig (map (er_tok fp g) l) = map (er_tok fp g) (fsig l).
Proof.
  induction l as [|t l IH]; [reflexivity|]. cbn [map]. rewrite !fsig_cons. unfold skipped. cbn [er_tok tkind].
  destruct (is_ws_kind (tkind t)); auto. cbn [map]. now rewrite IH.
Qed.

Lemma er_tok_same t : er_tok (fun p => p) same_rune t = t.
Proof. apply er_tok_id; reflexivity. Qed.

Lemma positions_copied {A} (P : rec -> prog A) erA k : public P erA k ->
  forall fp done todo, fp pos0 = pos0 -> Forall tok_wf todo ->
  res_of (call P done (map (er_tok fp same_rune) todo))
  = res_map (erA fp same_rune) (res_of (call P done todo)).
Proof.
  intros HP fp done todo F W. apply public_entry in HP.
  assert (W' : Forall tok_wf (map (er_tok fp same_rune) todo)).
  { rewrite Forall_map. eapply Forall_impl; [|exact W]. apply er_tok_wf. }
  rewrite !(call_res P erA k HP) by assumption.
  rewrite <- !(call_res P erA k HP []) by assumption.
  symmetry. transitivity (res_map (erA (fun p => p) same_rune) (res_of (call P [] (map (er_tok fp same_rune) todo)))).
  - apply (run_raw_er P erA k HP); auto using gok_same.
    rewrite fsig_er. rewrite (map_ext _ (fun t => t) er_tok_same), map_id. reflexivity.
  - apply res_map_id. apply (en_id P erA k HP).
Qed.

(** C16 *)
Lemma case_tokens {A} (P : rec -> prog A) erA k : public P erA k ->
  forall done todo done' todo', Forall tok_wf todo -> Forall tok_wf todo' ->
  map (er_tok (fun p => p) asc_up) todo = map (er_tok (fun p => p) asc_up) todo' ->
  res_map (erA (fun p => p) asc_up) (res_of (call P done todo))
  = res_map (erA (fun p => p) asc_up) (res_of (call P done' todo')).
Proof.
  intros HP done todo done' todo' W W' E. apply public_entry in HP.
  rewrite !(call_res P erA k HP) by assumption.
  rewrite <- !(call_res P erA k HP []) by assumption.
  apply (run_raw_er P erA k HP); auto using gok_asc. apply er_fsig. exact E.
Qed.

Lemma case_sources {A} (P : rec -> prog A) erA k : public P erA k ->
  forall d src src' l l' rem, dialect_ok d -> case_blind d ->
  reads d start_pos (skip_bom src) l rem -> recased l l' rem ->
  skip_bom src' = List.concat l' ++ rem ->
  res_map (erA (fun p => p) asc_up) (parse_with P d src')
  = res_map (erA (fun p => p) asc_up) (parse_with P d src).
Proof. intros HP. apply public_entry in HP. exact (parse_recase P erA k HP). Qed.

(** C21 *)
Lemma sql_single' ts s : Forall tok_wf (ts ++ [s]) -> tkind s = Semicolon ->
  Forall (fun x => tkind x <> Semicolon) ts -> sig ts <> [] ->
  sql_of (ts ++ [s]) = res_map (fun x => [x]) (one_of (ts, s)).
Proof.
  intros W E N S. rewrite sig_fsig in S. rewrite sql_single by assumption. unfold one_of. cbn [fst snd].
  destruct (call parse_statement [] (ts ++ [s])) as [a [x rest]| | |]; try reflexivity.
  pose proof (f_equal (fun l => List.length l =? 1)%nat (sig_fsig rest)) as X. cbv beta in X.
  destruct (len (fsig rest) =? 1)%nat, (len (sig rest) =? 1)%nat; try discriminate X; reflexivity.
Qed.

Lemma sql_in_order cs : Forall chunk_ok cs ->
  sql_of (flat_map (fun c => fst c ++ [snd c]) cs) = in_order (map one_of cs).
Proof.
  induction 1 as [|[ts s] cs (W1 & W2 & K & N & S) F IH]; [reflexivity|]. cbn [fst snd] in *.
  assert (WF : Forall tok_wf (flat_map (fun c => fst c ++ [snd c]) cs)).
  { clear - F. induction F as [|[ts s] cs (W1 & W2 & K & N & S) F IH]; [constructor|]. cbn [flat_map fst snd].
    apply Forall_app. split; [apply Forall_app; auto|exact IH]. }
  cbn [flat_map map in_order fst snd]. rewrite <- app_assoc. cbn [app].
  rewrite sql_split; [| |exact K|].
  - rewrite sql_single' by (auto; apply Forall_app; auto). rewrite IH.
    destruct (one_of (ts, s)); cbn [res_map]; auto.
  - apply Forall_app. split; [exact W1|]. constructor; auto.
  - intros x r E. destruct cs as [|[ts2 s2] cs]; [discriminate|]. inversion F as [|? ? (_ & _ & _ & N2 & S2) _]. subst.
    cbn [flat_map fst snd] in E. rewrite sig_fsig in S2. cbn [fst snd] in *.
    rewrite !fsig_app, <- app_assoc in E. destruct (fsig ts2) as [|y u] eqn:E2; [contradiction|].
    injection E as -> _. rewrite Forall_forall in N2. apply N2.
    assert (I : In x (fsig ts2)) by (rewrite E2; left; reflexivity). apply filter_In in I. apply I.
Qed.

Lemma sql_success ts l : Forall tok_wf ts -> sql_of ts = ROk l ->
  sig ts = [] \/ ends_semi (sig ts).
Proof. intros W E. rewrite sig_fsig. exact (sql_closed ts l W E). Qed.

Lemma sql_consumes done todo a st : Forall tok_wf todo ->
  call (parse_sql false) done todo = Ok a st -> sig (snd st) = [].
Proof. intros W E. rewrite sig_fsig. exact (sql_all_read done todo W a st E). Qed.

(** C23 *)
Lemma stmt_assert_head done todo : Forall tok_wf todo -> call parse_statement done todo = OPanic PAssert ->
  exists x rest w, sig todo = x :: rest /\ tval x = VWord w /\
    In (wkeyword w) (map gs ["CREATE"; "ALTER"; "EXPLAIN"]%string).
Proof.
  intros W E. destruct (stmt_assert done todo W E) as (x & w & E1 & E2 & E3). unfold first_sig in E1.
  rewrite sig_fsig. destruct (fsig todo) as [|y r]; [discriminate|]. injection E1 as ->. eauto 6.
Qed.

Lemma sql_nil_end ts : Forall tok_wf ts -> sql_of ts = RPanic PNil -> ~ ends_semi (sig ts).
Proof. intros W E H. rewrite sig_fsig in H. exact (sql_no_nil ts W H E). Qed.
