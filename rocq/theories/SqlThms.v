(** ParseSQL as a loop over ParseStatement, and splitting at semicolons. *)
From Coq Require Import ZArith List Bool String Lia.
From Verif Require Import Base Dialect Token Lexer AST Num Prog Parser ParseSpec Erase Wp Term Natural Sim ErId
  ParserThms Local.
Import ListNotations.
Open Scope Z_scope.

Lemma res_map_id {A} (f : A -> A) r : (forall x, f x = x) -> res_map f r = r.
Proof. intros H. destruct r; cbn; congruence. Qed.
Lemma res_map_map {A B C} (f : A -> B) (g : B -> C) r : res_map g (res_map f r) = res_map (fun x => g (f x)) r.
Proof. destruct r; reflexivity. Qed.
Lemma res_map_ext {A B} (f g : A -> B) r : (forall x, f x = g x) -> res_map f r = res_map g r.
Proof. intros H. destruct r; cbn; congruence. Qed.

Notation st_base := (base parse_statement).

(** One statement at the head of the significant tokens. *)
Definition starts_semi (t : toks) : bool :=
  match t with x :: _ => is_kind Semicolon x | [] => false end.

Fixpoint sql_list (n : nat) (expecting : bool) (t : toks) : result (list stmt) :=
  match n with
  | O => RHang
  | S m =>
      if negb (starts_semi t) && expecting then RErr
      else
        match (if starts_semi t then tl t else t) with
        | [] => ROk []
        | t' => match st_base t' with
                | Ok s st => res_map (cons s) (sql_list m true (snd st))
                | OErr => RErr
                | OPanic w => RPanic w
                | OFuel => RHang
                end
        end
  end.

Lemma st_spec t : Forall tok_wf t ->
  match st_base t with
  | Ok a s => t = rev (fst s) ++ snd s /\ (1 <= len (fst s))%nat
  | OErr => True
  | OPanic _ => True
  | OFuel => False
  end.
Proof. apply (base_spec _ _ _ entry_stmt). Qed.

Lemma st_len t s st : Forall tok_wf t -> st_base t = Ok s st ->
  (len (snd st) < len t)%nat /\ Forall tok_wf (snd st).
Proof.
  intros W E. pose proof (st_spec t W) as H. rewrite E in H. destruct H as [H1 H2].
  split.
  - rewrite H1, app_length, rev_length. lia.
  - rewrite H1 in W. apply Forall_app in W. apply W.
Qed.

Lemma starts_semi_tl t : Forall tok_wf t -> Forall tok_wf (if starts_semi t then tl t else t).
Proof. intros W. destruct t as [|x t]; cbn; auto. destruct (is_kind Semicolon x); auto. now inversion W. Qed.
Lemma starts_semi_len t : (len (if starts_semi t then tl t else t) <= len t)%nat.
Proof. destruct t as [|x t]; cbn; auto. destruct (is_kind Semicolon x); cbn; lia. Qed.

(** Fuel is immaterial. *)
Lemma sql_list_fuel n : forall n' ex t, Forall tok_wf t -> (len t < n)%nat -> (len t < n')%nat ->
  sql_list n ex t = sql_list n' ex t.
Proof.
  induction n as [|n IH]; intros n' ex t W L L'; [lia|]. destruct n' as [|n']; [lia|].
  cbn [sql_list]. destruct (negb (starts_semi t) && ex); [reflexivity|].
  pose proof (starts_semi_tl t W) as W'. pose proof (starts_semi_len t) as L1.
  destruct (if starts_semi t then tl t else t) as [|x t']; [reflexivity|].
  destruct (st_base (x :: t')) as [s st| | |] eqn:E; auto.
  destruct (st_len _ _ _ W' E) as [L2 W2]. rewrite (IH n'); auto; lia.
Qed.

Lemma run_sql_loop m : forall n acc ex D t,
  Forall tok_wf t -> (S (S (len t)) <= m)%nat -> (len t < n)%nat ->
  let o := run fm_machine
    (loop n (fun '(acc, expecting) =>
       ok <- consume_token Semicolon ;;
       if negb ok && (expecting : bool) then Err
       else
         more <- (if false
                  then Next (fun o => match o with None => Ret false | Some _ => prev ;;; Ret true end)
                  else Peek (fun o => Ret (match o with None => false | Some _ => true end))) ;;
         if more : bool then s <- parse_statement (knot m) ;; Ret (inl (s :: acc, true))
         else Ret (inr (rev acc))) (acc, ex)) (D, t) in
  res_of o = res_map (app (rev acc)) (sql_list n ex t) /\
  (forall a st, o = Ok a st -> snd st = []).
Proof.
  induction n as [|n IH]; intros acc ex D t W Hm Hn; [lia|].
  cbn [loop sql_list]. rewrite run_bind, run_bind.
  assert (C : run fm_machine (consume_token Semicolon) (D, t)
              = Ok (starts_semi t) (if starts_semi t then (firstn 1 t ++ D, tl t) else (D, t))).
  { destruct t as [|x t]; [reflexivity|]. cbn. destruct (is_kind Semicolon x) eqn:E; reflexivity. }
  rewrite C. cbn [obind]. destruct (negb (starts_semi t) && ex).
  { cbn. split; [reflexivity|discriminate]. }
  rewrite run_bind.
  pose proof (starts_semi_tl t W) as W'. pose proof (starts_semi_len t) as L1.
  assert (X : exists D', (if starts_semi t then (firstn 1 t ++ D, tl t) else (D, t))
                         = (D', if starts_semi t then tl t else t)).
  { destruct (starts_semi t); eexists; reflexivity. }
  destruct X as [D' ->].
  destruct (if starts_semi t then tl t else t) as [|x t'].
  { cbn. rewrite app_nil_r. split; [reflexivity|]. intros a st [= <- <-]. reflexivity. }
  cbn [run m_peek fm_machine snd obind]. rewrite run_bind.
  rewrite (base_fuel _ _ _ entry_stmt (x :: t') m D' W') by lia.
  destruct (st_base (x :: t')) as [s st| | |] eqn:E; cbn [frame obind run]; try (split; [reflexivity|discriminate]).
  destruct (st_len _ _ _ W' E) as [L2 W2].
  destruct (IH (s :: acc) true (fst st ++ D') (snd st) W2) as [I1 I2]; [lia|lia|].
  rewrite I1. split; [|exact I2]. rewrite res_map_map. apply res_map_ext. intros l. cbn.
  now rewrite <- app_assoc.
Qed.

Lemma sql_base t : Forall tok_wf t ->
  res_of (base (parse_sql false) t) = sql_list (S (len t)) false t /\
  (forall a st, base (parse_sql false) t = Ok a st -> snd st = []).
Proof.
  intros W. unfold base, parse_sql.
  set (m := S (S (len t))).
  destruct (run_sql_loop m (r_fuel (knot m)) [] false [] t W) as [H1 H2].
  - unfold m. lia.
  - unfold m. cbn [knot r_fuel]. lia.
  - split; [|exact H2]. etransitivity; [exact H1|]. cbn [rev app]. rewrite res_map_id by reflexivity.
    apply sql_list_fuel; auto. unfold m. cbn [knot r_fuel]. lia.
Qed.

Lemma frame_nil {A} (o : outcome rstate A) : frame [] o = o.
Proof. destruct o as [a [d t]| | |]; cbn [frame fst snd]; rewrite ?app_nil_r; reflexivity. Qed.

(** Locality of one statement. *)
Lemma st_local t s u : Forall tok_wf (t ++ s :: u) -> tkind s = Semicolon ->
  match st_base (t ++ [s]) with
  | Ok a st => exists t2, snd st = t2 ++ [s] /\ st_base (t ++ s :: u) = Ok a (fst st, t2 ++ s :: u)
  | OErr => st_base (t ++ s :: u) = OErr
  | OPanic w => st_base (t ++ s :: u) = OPanic w
  | OFuel => False
  end.
Proof.
  intros W E. apply Forall_app in W as Wc. destruct Wc as [Wt Ws]. inversion Ws as [|? ? Ws1 Wu]. subst.
  assert (W1 : Forall tok_wf (t ++ [s])) by (apply Forall_app; auto).
  pose proof (st_spec _ W1) as SP.
  set (m := S (S (len (t ++ s :: u)))).
  assert (F1 : run fm_machine (parse_statement (knot m)) ([], t ++ [s]) = st_base (t ++ [s])).
  { rewrite (base_fuel _ _ _ entry_stmt _ m [] W1).
    - apply frame_nil.
    - unfold m. rewrite !app_length. cbn [List.length]. lia. }
  assert (F2 : run fm_machine (parse_statement (knot m)) ([], t ++ s :: u) = st_base (t ++ s :: u)).
  { rewrite (base_fuel _ _ _ entry_stmt _ m [] W).
    - apply frame_nil.
    - unfold m. lia. }
  destruct (knot_rl m) as [R1 R2].
  pose proof (wl_local (parse_statement (knot m)) (fun _ d' _ => nss d') s [] u Ws1 E
                (fun _ _ _ H => H) [] (Forall_nil _)) as [L _].
  specialize (L t Wt (parse_statement_lp _ _ R1 R2)). rewrite F1, F2 in L.
  destruct (st_base (t ++ [s])); auto.
Qed.

Lemma st_semi s u : tok_wf s -> tkind s = Semicolon -> st_base (s :: u) = OErr.
Proof.
  intros W E. unfold base. generalize (knot (S (S (len (s :: u))))). intros r. cbn. unfold tok_wf in W. rewrite E in W.
  destruct (tval s); [contradiction|]. reflexivity.
Qed.

Lemma sql_list_split s u : tkind s = Semicolon -> Forall tok_wf (s :: u) -> starts_semi u = false ->
  forall n t ex, (len t < n)%nat -> Forall tok_wf t ->
  sql_list (S (len (t ++ s :: u))) ex (t ++ s :: u)
  = match sql_list (S (len (t ++ [s]))) ex (t ++ [s]) with
    | ROk l => res_map (app l) (sql_list (S (len u)) false u)
    | r => r
    end.
Proof.
  intros E Ws Hu. inversion_clear Ws as [|? ? W Wu].
  assert (Ks : is_kind Semicolon s = true) by (unfold is_kind; rewrite E; reflexivity).
  induction n as [|n IH]; intros t ex Hn Wt; [lia|].
  assert (NX : forall t1, (len t1 <= len t)%nat -> t1 <> [] -> Forall tok_wf t1 ->
    forall m, m = (len (t ++ s :: u)) ->
    forall m', m' = (len (t ++ [s])) ->
    match st_base (t1 ++ s :: u) with
    | Ok a st => res_map (cons a) (sql_list m true (snd st))
    | OErr => RErr | OPanic w => RPanic w | OFuel => RHang end
    = match match st_base (t1 ++ [s]) with
      | Ok a st => res_map (cons a) (sql_list m' true (snd st))
      | OErr => RErr | OPanic w => RPanic w | OFuel => RHang end
      with
      | ROk l => res_map (app l) (sql_list (S (len u)) false u)
      | r => r
      end).
  { intros t1 L1 N1 W1 m -> m' ->.
    assert (Wl : Forall tok_wf (t1 ++ s :: u)) by (apply Forall_app; auto).
    assert (Wl1 : Forall tok_wf (t1 ++ [s])) by (apply Forall_app; auto).
    pose proof (st_local t1 s u Wl E) as L.
    destruct (st_base (t1 ++ [s])) as [a st| | |] eqn:B1; [|rewrite L; reflexivity..|contradiction].
    destruct L as (t2 & E2 & B2). rewrite B2. cbn [snd]. rewrite E2.
    destruct (st_len _ _ _ Wl1 B1) as [L3 W3]. rewrite E2 in L3, W3.
    apply Forall_app in W3. destruct W3 as [W3 _]. rewrite !app_length in L3. cbn in L3.
    rewrite (sql_list_fuel (len (t ++ s :: u)) (S (len (t2 ++ s :: u)))).
    rewrite (sql_list_fuel (len (t ++ [s])) (S (len (t2 ++ [s])))).
    rewrite (IH t2 true) by (auto; lia).
    destruct (sql_list (S (len (t2 ++ [s]))) true (t2 ++ [s])); cbn [res_map]; auto.
    rewrite res_map_map. reflexivity.
    all: try (apply Forall_app; auto). all: rewrite !app_length; cbn; lia. }
  destruct t as [|x t].
  - cbn [app sql_list starts_semi]. rewrite Ks. cbn [negb andb tl].
    cbn [sql_list]. rewrite Hu. cbn [negb andb]. rewrite res_map_id by reflexivity.
    destruct u as [|y u]; [reflexivity|].
    destruct (st_base (y :: u)) as [a st| | |] eqn:B; auto.
    destruct (st_len _ _ _ Wu B) as [L3 W3]. f_equal. apply sql_list_fuel; auto. clear - L3. cbn [List.length] in *. lia.
  - cbn [sql_list]. cbn [app starts_semi].
    destruct (is_kind Semicolon x) eqn:Kx; cbn [negb andb tl].
    + destruct t as [|y t].
      * cbn [app]. rewrite !st_semi by assumption. reflexivity.
      * cbn [app]. change (y :: t ++ s :: u) with ((y :: t) ++ s :: u).
        change (y :: t ++ [s]) with ((y :: t) ++ [s]).
        apply (NX (y :: t)); [cbn; lia|discriminate|now inversion Wt|reflexivity|reflexivity].
    + destruct ex; [reflexivity|].
      change (x :: t ++ s :: u) with ((x :: t) ++ s :: u). change (x :: t ++ [s]) with ((x :: t) ++ [s]).
      apply (NX (x :: t)); [cbn; lia|discriminate|auto|reflexivity|reflexivity].
Qed.

(** The entry point on raw tokens. *)
Lemma call_res {A} (P : rec -> prog A) erA k : entry P erA k -> forall done todo, Forall tok_wf todo ->
  res_of (call P done todo) = res_of (base P (fsig todo)).
Proof.
  intros H done todo W. pose proof (call_agrees P erA k H done todo W) as A1. unfold agrees in A1.
  destruct (call P done todo), (base P (fsig todo)); cbn in *; try contradiction; try congruence.
  destruct A1 as [-> _]. reflexivity.
Qed.

Lemma sql_of_list l : Forall tok_wf l -> sql_of l = sql_list (S (len (fsig l))) false (fsig l).
Proof.
  intros W. unfold sql_of. change (run_raw (parse_sql false) l) with (call (parse_sql false) [] l).
  rewrite (call_res _ _ _ (entry_sql false)) by assumption.
  apply sql_base. apply fsig_wf. exact W.
Qed.

Lemma fsig_app a b : fsig (a ++ b) = fsig a ++ fsig b.
Proof. apply filter_app. Qed.

Lemma sql_split ts1 s ts2 : Forall tok_wf (ts1 ++ s :: ts2) -> tkind s = Semicolon ->
  (forall x r, fsig ts2 = x :: r -> tkind x <> Semicolon) ->
  sql_of (ts1 ++ s :: ts2)
  = match sql_of (ts1 ++ [s]) with
    | ROk l => res_map (app l) (sql_of ts2)
    | r => r
    end.
Proof.
  intros W E H. pose proof W as W0. apply Forall_app in W0. destruct W0 as [W1 W2].
  inversion W2 as [|? ? Ws Wu]. subst.
  assert (W3 : Forall tok_wf (ts1 ++ [s])) by (apply Forall_app; auto).
  rewrite !sql_of_list by assumption. rewrite !fsig_app.
  assert (Fs : forall l, fsig (s :: l) = s :: fsig l).
  { intros l. rewrite fsig_cons. unfold skipped. rewrite E. reflexivity. }
  rewrite !Fs. cbn [fsig filter].
  apply sql_list_split with (n := S (len (fsig ts1))); auto.
  - constructor; [auto|apply fsig_wf; auto].
  - destruct (fsig ts2) as [|x r]; [reflexivity|]. cbn. specialize (H x r eq_refl).
    unfold is_kind. destruct (tkind x); try reflexivity. congruence.
  - apply fsig_wf; auto.
Qed.

Lemma sql_all_read done todo : Forall tok_wf todo ->
  forall a st, call (parse_sql false) done todo = Ok a st -> fsig (snd st) = [].
Proof.
  intros W a st E. pose proof (call_agrees _ _ _ (entry_sql false) done todo W) as A1.
  unfold agrees in A1. rewrite E in A1.
  pose proof (proj2 (sql_base _ (fsig_wf _ W))) as H.
  destruct (base (parse_sql false) (fsig todo)) as [b s'| | |] eqn:B; try contradiction.
  destruct A1 as (_ & _ & ->). apply (H _ _ eq_refl).
Qed.

(** Success means every statement is closed. *)
Lemma sql_list_closed n : forall t l, Forall tok_wf t -> sql_list n true t = ROk l ->
  exists t' s, t = t' ++ [s] /\ tkind s = Semicolon.
Proof.
  induction n as [|n IH]; intros t l W H; [discriminate|]. cbn [sql_list] in H.
  destruct t as [|x t]; [discriminate|]. cbn [starts_semi] in H.
  destruct (is_kind Semicolon x) eqn:K; cbn [negb andb tl] in H; [|discriminate].
  apply is_kind_eq in K. inversion_clear W as [|? ? Wx Wt].
  destruct t as [|y t]; [exists [], x; auto|].
  destruct (st_base (y :: t)) as [a st| | |] eqn:B; try discriminate.
  destruct (sql_list n true (snd st)) eqn:S1; try discriminate.
  destruct (st_len _ _ _ Wt B) as [_ W2]. pose proof (st_spec _ Wt) as SP. rewrite B in SP. destruct SP as [SP _].
  destruct (IH _ _ W2 S1) as (t' & s & E & E').
  exists (x :: rev (fst st) ++ t'), s. split; [|exact E']. rewrite SP, E. cbn. now rewrite <- app_assoc.
Qed.

Lemma sql_closed ts l : Forall tok_wf ts -> sql_of ts = ROk l ->
  fsig ts = [] \/ exists t' s, fsig ts = t' ++ [s] /\ tkind s = Semicolon.
Proof.
  intros W H. rewrite sql_of_list in H by assumption. pose proof (fsig_wf _ W) as W1.
  destruct (fsig ts) as [|x t]; [left; reflexivity|right]. cbn [sql_list] in H.
  rewrite andb_false_r in H. cbn [starts_semi] in H. destruct (is_kind Semicolon x) eqn:K; cbn [tl] in H.
  - apply is_kind_eq in K. inversion_clear W1 as [|? ? Wx Wt].
    destruct t as [|y t]; [exists [], x; auto|].
    destruct (st_base (y :: t)) as [a st| | |] eqn:B; try discriminate.
    destruct (sql_list _ true (snd st)) eqn:S1; try discriminate.
    destruct (st_len _ _ _ Wt B) as [_ W2]. pose proof (st_spec _ Wt) as SP. rewrite B in SP. destruct SP as [SP _].
    destruct (sql_list_closed _ _ _ W2 S1) as (t' & s & E & E').
    exists (x :: rev (fst st) ++ t'), s. split; [|exact E']. rewrite SP, E. cbn. now rewrite <- app_assoc.
  - destruct (st_base (x :: t)) as [a st| | |] eqn:B; try discriminate.
    destruct (sql_list _ true (snd st)) eqn:S1; try discriminate.
    destruct (st_len _ _ _ W1 B) as [_ W2]. pose proof (st_spec _ W1) as SP. rewrite B in SP. destruct SP as [SP _].
    destruct (sql_list_closed _ _ _ W2 S1) as (t' & s & E & E').
    exists (rev (fst st) ++ t'), s. split; [|exact E']. rewrite SP, E. now rewrite <- app_assoc.
Qed.

(** One statement and its semicolon. *)
Lemma sql_single ts s : Forall tok_wf (ts ++ [s]) -> tkind s = Semicolon ->
  Forall (fun x => tkind x <> Semicolon) ts -> fsig ts <> [] ->
  sql_of (ts ++ [s])
  = match call parse_statement [] (ts ++ [s]) with
    | Ok st (_, rest) => if (List.length (fsig rest) =? 1)%nat then ROk [st] else RErr
    | OErr => RErr
    | OPanic w => RPanic w
    | OFuel => RHang
    end.
Proof.
  intros W E NSm NE. rewrite sql_of_list by assumption.
  pose proof (call_agrees _ _ _ entry_stmt [] _ W) as A1. unfold agrees in A1.
  assert (Fs : fsig (ts ++ [s]) = fsig ts ++ [s]).
  { rewrite fsig_app. f_equal. rewrite fsig_cons. unfold skipped. rewrite E. reflexivity. }
  pose proof (fsig_wf _ W) as W1.
  assert (NS1 : Forall (fun x => tkind x <> Semicolon) (fsig ts)).
  { rewrite Forall_forall in *. intros x Hx. apply filter_In in Hx. apply NSm, Hx. }
  rewrite Fs in *. destruct (fsig ts) as [|x t]; [contradiction|]. cbn [app] in *.
  cbn [sql_list starts_semi]. rewrite andb_false_r.
  inversion_clear NS1 as [|? ? Nx Nt].
  assert (Kx : is_kind Semicolon x = false).
  { unfold is_kind. destruct (tkind x); try reflexivity. congruence. }
  rewrite Kx.
  destruct (st_base (x :: t ++ [s])) as [b st| | |] eqn:B;
    destruct (call parse_statement [] (ts ++ [s])) as [a cst| | |]; try contradiction; try congruence.
  destruct A1 as (-> & _ & A3). destruct cst as [cd ct]. cbn [snd fst] in A3. rewrite A3.
  destruct (st_len _ _ _ W1 B) as [L2 W2]. pose proof (st_spec _ W1) as SP. rewrite B in SP. destruct SP as [SP _].
  change (x :: t ++ [s]) with ((x :: t) ++ [s]) in SP.
  (* what is left ends with [s] *)
  destruct (snd st) as [|y r] eqn:Es.
  - exfalso. pose proof (st_local (x :: t) s [] W1 E) as L. rewrite app_comm_cons in B.
    change ((x :: t) ++ s :: []) with ((x :: t) ++ [s]) in L. rewrite B in L.
    destruct L as (t2 & L & _). rewrite Es in L. destruct t2; discriminate.
  - assert (Y : r = [] /\ y = s \/ r <> [] /\ tkind y <> Semicolon).
    { destruct (exists_last (l := y :: r) ltac:(discriminate)) as (r' & z & Er).
      rewrite Er, app_assoc in SP. apply app_inj_tail in SP. destruct SP as [SP <-].
      destruct r' as [|y' r'].
      - left. cbn in Er. injection Er as -> ->. auto.
      - right. cbn in Er. injection Er as -> ->. split; [destruct r'; discriminate|].
        assert (In y' (x :: t)) by (rewrite SP; apply in_or_app; right; left; reflexivity).
        rewrite Forall_forall in Nt. destruct H; [subst; auto|auto]. }
    cbn [List.length]. destruct Y as [[-> ->]|[Nr Ny]].
    + assert (Ks : is_kind Semicolon s = true) by (unfold is_kind; rewrite E; reflexivity).
      cbn [List.length app]. rewrite app_length. cbn [List.length]. rewrite Nat.add_1_r.
      cbn [sql_list starts_semi]. rewrite Ks. reflexivity.
    + assert (Ky : is_kind Semicolon y = false) by (unfold is_kind; destruct (tkind y); try reflexivity; congruence).
      destruct r as [|r0 r]; [contradiction|]. cbn [List.length Nat.eqb].
      rewrite app_length. cbn [List.length]. rewrite Nat.add_1_r.
      cbn [sql_list starts_semi]. rewrite Ky. reflexivity.
Qed.
