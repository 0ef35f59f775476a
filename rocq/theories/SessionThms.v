(** Proofs for C70. *)
From Coq Require Import ZArith List Bool Lia ZifyBool.
From Verif Require Import Base Dialect Token Lexer AST Num Prog Parser Erase ParseSpec Sim ParserThms ApiThms SqlThms SrcThms Session.
Import ListNotations.
Open Scope Z_scope.

Lemma nth_split' {A} (l : list A) i t : nth_error l i = Some t ->
  skipn i l = t :: skipn (S i) l /\ rev (firstn (S i) l) = t :: rev (firstn i l) /\ (i < List.length l)%nat.
Proof.
  revert i. induction l as [|x l IH]; intros [|i] H; try discriminate H.
  - injection H as ->. cbn. repeat split. lia.
  - cbn [nth_error] in H. destruct (IH i H) as (A1 & A2 & A3). split; [exact A1|]. split; [|cbn; lia].
    cbn [firstn rev] in *. rewrite A2. reflexivity.
Qed.
Lemma nth_past {A} (l : list A) i : nth_error l i = None -> skipn i l = [].
Proof. intros H. apply skipn_all2. apply nth_error_None. exact H. Qed.

(** Where the index stands, as a zipper. *)
Definition zipper (l : list token) (i : nat) (s : rstate) : Prop :=
  ((i <= List.length l)%nat /\ s = (rev (firstn i l), skipn i l)) \/ ((List.length l < i)%nat /\ s = ([], [])).

Definition Rp (l : list token) (c : bool) (cm : cmap) (p : parser) (s : rstate) : Prop :=
  p_tokens p = l /\ p_collect p = c /\ p_comments p = cm /\ zipper l (p_index p) s.

Lemma zipper_next l i t s : zipper l i s -> nth_error l i = Some t ->
  snd s = t :: skipn (S i) l /\ zipper l (S i) (t :: fst s, skipn (S i) l).
Proof.
  intros Z H. destruct (nth_split' l i t H) as (A1 & A2 & A3). destruct Z as [[Z1 ->]|[Z1 ->]]; [|lia].
  cbn [fst snd]. split; [exact A1|]. left. split; [lia|]. rewrite A2. reflexivity.
Qed.
Lemma zipper_end l i s : zipper l i s -> nth_error l i = None -> snd s = [].
Proof. intros Z H. destruct Z as [[Z1 ->]|[Z1 ->]]; [|reflexivity]. cbn [snd]. apply nth_past. exact H. Qed.

Lemma next_plain_raw l cm n : forall p s, Rp l false cm p s -> (List.length l - p_index p <= n)%nat ->
  fst (next_plain n p) = fst (raw_next (fst s) (snd s)) /\ Rp l false cm (snd (next_plain n p)) (snd (raw_next (fst s) (snd s))).
Proof.
  induction n as [|n IH]; intros p s (R1 & R2 & R3 & Z) Hn; cbn [next_plain]; unfold next_no_skip; rewrite R1;
    (destruct (nth_error l (p_index p)) as [t|] eqn:E;
     [destruct (zipper_next _ _ _ _ Z E) as [S1 S2]|pose proof (zipper_end _ _ _ Z E) as S1]).
  - assert (p_index p < List.length l)%nat by (apply nth_error_Some; congruence). lia.
  - rewrite S1. cbn. split; [reflexivity|]. repeat split; auto. destruct s; cbn in *; subst; exact Z.
  - rewrite S1. cbn [raw_next]. destruct (skipped t).
    + apply (IH (at_index p (S (p_index p))) (t :: fst s, skipn (S (p_index p)) l)); [repeat split; auto|cbn; lia].
    + cbn [fst snd]. split; [reflexivity|]. repeat split; auto.
  - rewrite S1. cbn. split; [reflexivity|]. repeat split; auto. destruct s; cbn in *; subst; exact Z.
Qed.

Lemma til_raw l n : forall i s, zipper l i s -> (List.length l - i <= n)%nat ->
  match til_non_whitespace n l i with Some u => nth_error l u | None => None end = raw_peek (snd s).
Proof.
  induction n as [|n IH]; intros i s Z Hn; cbn [til_non_whitespace];
    (destruct (nth_error l i) as [t|] eqn:E; [destruct (zipper_next _ _ _ _ Z E) as [S1 S2]|pose proof (zipper_end _ _ _ Z E) as S1; rewrite S1; reflexivity]).
  - assert (i < List.length l)%nat by (apply nth_error_Some; congruence). lia.
  - rewrite S1. cbn [raw_peek find]. unfold raw_peek. cbn [find]. destruct (skipped t); cbn [negb].
    + apply (IH (S i) _ S2). lia.
    + exact E.
Qed.

Lemma prev_raw l i : forall s, zipper l i s ->
  match prev_index l i, raw_prev (fst s) (snd s) with
  | Some j, Some s' => zipper l j s'
  | None, None => True
  | _, _ => False
  end.
Proof.
  induction i as [|j IH]; intros s Z; cbn [prev_index].
  - destruct Z as [[_ ->]|[Z _]]; [|lia]. cbn. exact I.
  - destruct (nth_error l j) as [t|] eqn:E.
    + destruct (nth_split' l j t E) as (A1 & A2 & A3). destruct Z as [[Z1 ->]|[Z1 ->]]; [|lia].
      cbn [fst snd]. rewrite A2. cbn [raw_prev]. rewrite <- A1.
      assert (Zj : zipper l j (rev (firstn j l), skipn j l)) by (left; split; [lia|reflexivity]).
      destruct (skipped t); [exact (IH _ Zj)|exact Zj].
    + apply nth_error_None in E. destruct Z as [[Z1 _]|[Z1 ->]]; [lia|]. cbn. exact I.
Qed.

Lemma restore_raw l c cm cm' a a' p s : Rp l c cm a a' -> Rp l c cm' p s -> Rp l c cm' (at_index p (p_index a)) a'.
Proof. intros (A1 & A2 & A3 & A4) (B1 & B2 & B3 & B4). repeat split; auto. Qed.

(** Without ParseComment. *)
Lemma plain_sim {A} (q : prog A) l cm p s : Rp l false cm p s ->
  outrel (Rp l false cm) (run parser_machine q p) (run raw_machine q s).
Proof.
  apply sim_run.
  - intros p' s' R. cbn [m_next parser_machine raw_machine]. unfold next_token. destruct (R) as (R1 & R2 & _). rewrite R2, R1.
    apply next_plain_raw; [exact R|lia].
  - intros p' s' (R1 & R2 & R3 & Z). cbn [m_peek parser_machine raw_machine]. unfold peek_token. rewrite R1. apply til_raw; [exact Z|lia].
  - intros p' s' (R1 & R2 & R3 & Z). cbn [m_prev parser_machine raw_machine]. rewrite R1. pose proof (prev_raw l _ _ Z) as H.
    destruct (prev_index l (p_index p')), (raw_prev (fst s') (snd s')); try contradiction; auto. repeat split; auto.
  - intros a a' p' s' Ra Rs. cbn [m_restore parser_machine raw_machine]. eapply restore_raw; eauto.
Qed.

(** With ParseComment. *)
Definition Rc (l : list token) (p : parser) (s : cstate) : Prop :=
  Rp l true (cs_map s) p (cs_done s, cs_todo s).

Lemma zipper_fst l i s : zipper l i s -> snd s <> [] -> fst s = rev (firstn i l).
Proof. intros [[_ ->]|[_ ->]] H; [reflexivity|destruct (H eq_refl)]. Qed.

Lemma split_back_scan l i line : (i <= List.length l)%nat -> split_back l i line = split_scan (rev (firstn i l)) line.
Proof.
  induction i as [|j IH]; intros H; [reflexivity|]. cbn [split_back].
  destruct (nth_error l j) as [t|] eqn:E; [|apply nth_error_None in E; lia].
  destruct (nth_split' l j t E) as (_ & A2 & _). rewrite A2. cbn [split_scan].
  destruct (_ <? _); [reflexivity|]. destruct (negb _); [reflexivity|]. apply IH. lia.
Qed.

Lemma next_collect_cm l n : forall p done todo cm skip groups m, Rc l p (mkCS done todo cm) -> (List.length l - p_index p <= n)%nat ->
  fst (next_collect n p skip groups m) = fst (cm_loop done todo cm skip groups m) /\
  Rc l (snd (next_collect n p skip groups m)) (snd (cm_loop done todo cm skip groups m)).
Proof.
  induction n as [|n IH]; intros p done todo cm skip groups m (R1 & R2 & R3 & Z) Hn; cbn [cs_map cs_done cs_todo] in *;
    cbn [next_collect]; unfold next_no_skip; rewrite R1;
    (destruct (nth_error l (p_index p)) as [t|] eqn:E;
     [destruct (zipper_next _ _ _ _ Z E) as [S1 S2]|pose proof (zipper_end _ _ _ Z E) as S1]); cbn [fst snd] in *; subst todo.
  - assert (p_index p < List.length l)%nat by (apply nth_error_Some; congruence). lia.
  - cbn [cm_loop fst snd]. rewrite R3. split; [reflexivity|]. repeat split; auto.
  - set (p' := at_index p (S (p_index p))).
    assert (Rn : Rc l p' (mkCS (t :: done) (skipn (S (p_index p)) l) cm)) by (repeat split; auto).
    assert (Ln : (List.length l - p_index p' <= n)%nat) by (cbn; lia).
    assert (Lt : (S (p_index p) <= List.length l)%nat) by (destruct (nth_split' _ _ _ E) as (_ & _ & X); lia).
    assert (Sb : split_back (p_tokens p') (p_index p') (pline (tfrom t)) = split_scan (t :: done) (pline (tfrom t))).
    { cbn [p' at_index p_tokens p_index]. rewrite R1, split_back_scan by exact Lt. f_equal.
      destruct S2 as [[_ X]|[X _]]; [|lia]. injection X as X. symmetry. exact X. }
    assert (Cm : p_comments p' = cm) by exact R3.
    cbn [cm_loop]. destruct (tkind t) eqn:K.
    all: try (cbn [fst snd]; rewrite Cm; split; [reflexivity|]; repeat split; auto; fail).
    + destruct (negb (gs_eqb (tok_str t) [10]) || _); [apply IH; auto|]. rewrite Sb.
      destruct (split_scan _ _); apply IH; auto.
    + destruct skip; [apply IH; auto|]. rewrite Cm. destruct (cmap_mem cm (tfrom t)); apply IH; auto.
  - cbn [cm_loop fst snd]. rewrite R3. split; [reflexivity|]. repeat split; auto.
Qed.

Lemma collect_sim {A} (q : prog A) l p s : Rc l p s ->
  outrel (Rc l) (run parser_machine q p) (run cm_machine q s).
Proof.
  apply sim_run.
  - intros p' [done todo cm] R. cbn [m_next parser_machine cm_machine]. unfold next_token, cm_next. destruct (R) as (R1 & R2 & _). rewrite R2, R1.
    cbn [cs_done cs_todo cs_map]. apply next_collect_cm; [exact R|lia].
  - intros p' s' (R1 & R2 & R3 & Z). cbn [m_peek parser_machine cm_machine]. unfold peek_token. rewrite R1.
    refine (til_raw l (List.length l) (p_index p') (cs_done s', cs_todo s') Z _). lia.
  - intros p' s' (R1 & R2 & R3 & Z). cbn [m_prev parser_machine cm_machine]. rewrite R1. pose proof (prev_raw l _ _ Z) as H. cbn [fst snd] in H.
    destruct (prev_index l (p_index p')), (raw_prev (cs_done s') (cs_todo s')) as [[d t]|]; try contradiction; auto. repeat split; auto.
  - intros a a' p' s' Ra Rs. cbn [m_restore parser_machine cm_machine]. destruct Ra as (A1 & A2 & A3 & A4), Rs as (B1 & B2 & B3 & B4).
    repeat split; auto.
Qed.

(** * The struct and the lists *)
Lemma method_run {A} (P : rec -> prog A) toks :
  res_of (method P (new_parser toks false)) = res_of (run_raw P toks).
Proof.
  unfold method, run_raw, new_parser. cbn [p_tokens].
  assert (R : Rp toks false [] (mkP toks 0 [] false) ([], toks)) by (repeat split; left; split; [cbn; lia|reflexivity]).
  pose proof (plain_sim (P (knot (fuel_for toks))) toks [] _ _ R) as H.
  destruct (run parser_machine _ _), (run raw_machine _ _); cbn in H; try contradiction; try reflexivity.
  - destruct H as [-> _]. reflexivity.
  - rewrite H. reflexivity.
Qed.
Lemma file_run d src toks : tokenize d true src = TOk toks -> res_of (ParseFile (new_parser toks true)) = parse_file d src.
Proof.
  intros E. unfold parse_file, ParseFile, ParseSQL, method, run_cm, new_parser. rewrite E. cbn [p_tokens p_collect].
  assert (R : Rc toks (mkP toks 0 [] true) (mkCS [] toks [])) by (repeat split; left; split; [cbn; lia|reflexivity]).
  pose proof (collect_sim (parse_sql true (knot (fuel_for toks))) toks _ _ R) as H.
  destruct (run parser_machine _ _) as [a p'| | |], (run cm_machine _ _) as [b s'| | |]; cbn in H; try contradiction; try reflexivity.
  - destruct H as [-> (_ & _ & Hc & _)]. cbn. rewrite Hc. reflexivity.
  - rewrite H. reflexivity.
Qed.

(** * Any index *)
Lemma skipn_len {A} i (l : list A) : (List.length (skipn i l) <= List.length l)%nat.
Proof. rewrite skipn_length. lia. Qed.
Lemma skipn_forall {A} (Q : A -> Prop) i l : Forall Q l -> Forall Q (skipn i l).
Proof. intros H. rewrite <- (firstn_skipn i l) in H. apply Forall_app in H. apply H. Qed.

Lemma any_index {A} (P : rec -> prog A) erA k : public P erA k -> forall toks i cm, Forall tok_wf toks ->
  match method P (mkP toks i cm false), call P [] (skipn i toks) with
  | Ok a p', Ok b s => a = b /\ p_tokens p' = toks /\ p_collect p' = false /\ p_comments p' = cm /\ sig (skipn (p_index p') toks) = sig (snd s)
  | OErr, OErr => True
  | OPanic w, OPanic w' => w = w'
  | _, _ => False
  end.
Proof.
  intros HP toks i cm W. apply public_entry in HP.
  assert (Ex : exists done, zipper toks i (done, skipn i toks)).
  { destruct (Nat.leb_spec i (List.length toks)).
    - exists (rev (firstn i toks)). left. auto.
    - exists []. right. split; [assumption|]. rewrite skipn_all2 by lia. reflexivity. }
  destruct Ex as [done Z].
  assert (R : Rp toks false cm (mkP toks i cm false) (done, skipn i toks)) by (repeat split; exact Z).
  pose proof (plain_sim (P (knot (fuel_for toks))) toks cm _ _ R) as H. unfold method. cbn [p_tokens].
  pose proof (run_agrees P erA k HP (fuel_for toks) done (skipn i toks) (skipn_forall _ _ _ W)) as G.
  assert (Fu : (fuel_for (skipn i toks) <= fuel_for toks)%nat) by (unfold fuel_for; pose proof (skipn_len i toks); lia).
  specialize (G Fu). pose proof (call_agrees P erA k HP [] (skipn i toks) (skipn_forall _ _ _ W)) as C.
  unfold agrees in G, C.
  destruct (run parser_machine _ _) as [a p'| |w|]; destruct (run raw_machine _ _) as [a2 s2| |w2|]; cbn [outrel] in H; try contradiction;
    destruct (base P (fsig (skipn i toks))) as [b s3| |w3|]; try contradiction;
    destruct (call P [] (skipn i toks)) as [a4 s4| |w4|]; try contradiction; auto; try congruence.
  destruct H as [-> (R1 & R2 & R3 & Z')]. destruct G as (-> & _ & G2). destruct C as (-> & _ & C2).
  split; [reflexivity|]. split; [exact R1|]. split; [exact R2|]. split; [exact R3|].
  change (fsig (skipn (p_index p') toks) = fsig (snd s4)). rewrite C2, <- G2.
  destruct Z' as [[_ ->]|[L ->]]; [reflexivity|]. cbn [snd]. rewrite skipn_all2 by lia. reflexivity.
Qed.
Lemma any_index_result {A} (P : rec -> prog A) erA k : public P erA k -> forall toks i cm, Forall tok_wf toks ->
  res_of (method P (mkP toks i cm false)) = res_of (method P (new_parser (skipn i toks) false)).
Proof.
  intros HP toks i cm W. rewrite method_run. change (run_raw P (skipn i toks)) with (call P [] (skipn i toks)).
  pose proof (any_index P erA k HP toks i cm W) as H.
  destruct (method P _), (call P [] _); try contradiction; cbn; try reflexivity; [destruct H as [-> _]; reflexivity|rewrite H; reflexivity].
Qed.

Lemma fresh_tokens {A} (P : rec -> prog A) d src toks : tokenize d true src = TOk toks ->
  res_of (method P (set_tokens toks (new_parser_with_options false))) = parse_with P d src.
Proof. intros E. unfold parse_with. rewrite E. exact (method_run P toks). Qed.
Lemma fresh_file d src toks : tokenize d true src = TOk toks ->
  res_of (ParseFile (set_tokens toks (new_parser_with_options true))) = parse_file d src.
Proof. intros E. exact (file_run d src toks E). Qed.

(** * Nothing left *)
Lemma nothing_left cm toks i : (List.length toks <= i)%nat -> ParseSQL (mkP toks i cm false) = Ok [] (mkP toks i cm false).
Proof.
  intros L. unfold ParseSQL, method. cbn [p_collect p_tokens].
  assert (Pk : peek_token (mkP toks i cm false) = None).
  { unfold peek_token. cbn [p_tokens p_index]. assert (E : nth_error toks i = None) by (apply nth_error_None; exact L).
    destruct (List.length toks); cbn [til_non_whitespace]; rewrite E; reflexivity. }
  assert (Nx : next_token (mkP toks i cm false) = (None, mkP toks i cm false)).
  { unfold next_token. cbn [p_collect p_tokens]. assert (E : nth_error toks i = None) by (apply nth_error_None; exact L).
    destruct (List.length toks); cbn [next_plain]; unfold next_no_skip; cbn [p_tokens p_index]; rewrite E; reflexivity. }
  unfold parse_sql. unfold fuel_for. cbn [knot r_fuel loop bind consume_token run parser_machine m_peek].
  rewrite Pk. cbn [bind negb andb run parser_machine m_peek]. rewrite Pk. reflexivity.
Qed.
Lemma nothing_left_collect cm toks i : (List.length toks <= i)%nat -> ParseSQL (mkP toks i cm true) = Ok [] (mkP toks i cm true).
Proof.
  intros L. unfold ParseSQL, method. cbn [p_collect p_tokens].
  assert (E : nth_error toks i = None) by (apply nth_error_None; exact L).
  assert (Pk : peek_token (mkP toks i cm true) = None).
  { unfold peek_token. cbn [p_tokens p_index]. destruct (List.length toks); cbn [til_non_whitespace]; rewrite E; reflexivity. }
  assert (Nx : next_token (mkP toks i cm true) = (None, mkP toks i cm true)).
  { unfold next_token. cbn [p_collect p_tokens]. destruct (List.length toks); cbn [next_collect]; unfold next_no_skip; cbn [p_tokens p_index]; rewrite E; reflexivity. }
  unfold parse_sql. unfold fuel_for. cbn [knot r_fuel loop bind consume_token run parser_machine m_peek].
  rewrite Pk. cbn [bind negb andb run parser_machine m_peek m_next]. rewrite Nx. reflexivity.
Qed.

(** After a successful ParseSQL nothing but blanks is left. *)
Lemma all_read toks i cm a p' : Forall tok_wf toks -> ParseSQL (mkP toks i cm false) = Ok a p' ->
  p_collect p' = false /\ sig (skipn (p_index p') toks) = [].
Proof.
  intros W E. unfold ParseSQL in E. cbn [p_collect] in E.
  pose proof (any_index (parse_sql false) _ _ (pub_sql false) toks i cm W) as H. rewrite E in H.
  destruct (call (parse_sql false) [] (skipn i toks)) as [b s| | |] eqn:C; try contradiction.
  destruct H as (-> & R1 & R2 & R3 & R4). split; [exact R2|]. rewrite R4.
  exact (sql_consumes _ _ _ _ (skipn_forall _ _ _ W) C).
Qed.
Lemma reuse_silent toks cm a p' toks' : Forall tok_wf toks -> ParseSQL (mkP toks 0 cm false) = Ok a p' ->
  sig (skipn (p_index p') toks) = [] /\
  ((List.length toks' <= p_index p')%nat -> ParseSQL (set_tokens toks' p') = Ok [] (set_tokens toks' p')).
Proof.
  intros W E. destruct (all_read toks 0 cm a p' W E) as [C S]. split; [exact S|]. intros L.
  unfold set_tokens. rewrite C. apply nothing_left. exact L.
Qed.

Lemma cm_none_end todo : forall done cm skip gs m s, cm_loop done todo cm skip gs m = (None, s) -> cs_todo s = [].
Proof.
  induction todo as [|t todo IH]; intros done cm skip gs0 m s E; cbn [cm_loop] in E; [injection E as <-; reflexivity|].
  destruct (tkind t); try discriminate E; repeat match type of E with context [if ?b then _ else _] => destruct b end; eapply IH; exact E.
Qed.
Lemma sql_loop_end n : forall (r : rec) acc ex s a s',
  run cm_machine (loop n (fun '(acc, expecting) =>
       ok <- consume_token Semicolon ;;
       if negb ok && expecting then Err
       else
         more <- Next (fun o => match o with None => Ret false | Some _ => prev ;;; Ret true end) ;;
         if more : bool then s <- parse_statement r ;; Ret (inl (s :: acc, true))
         else Ret (inr (rev acc))) (acc, ex)) s = Ok a s' -> cs_todo s' = [].
Proof.
  induction n as [|n IH]; intros r acc ex s a s' E; [discriminate E|]. cbn [loop] in E.
  rewrite run_bind, run_bind in E.
  destruct (run cm_machine (consume_token Semicolon) s) as [ok s1| | |]; try discriminate E. cbn [obind] in E.
  destruct (negb ok && ex); [discriminate E|]. rewrite run_bind in E. cbn [run] in E.
  cbn [m_next cm_machine] in E. unfold cm_next in E.
  destruct (cm_loop _ _ _ _ _ _) as [[t|] s2] eqn:F.
  - rewrite run_bind in E. destruct (run cm_machine prev s2) as [u s3| | |]; cbn [obind run] in E; try discriminate E.
    rewrite run_bind in E. destruct (run cm_machine (parse_statement r) s3) as [st s4| | |]; cbn [obind run] in E; try discriminate E.
    eapply IH; exact E.
  - cbn [run obind] in E. injection E as <- <-. eapply cm_none_end; exact F.
Qed.

Lemma file_reuse toks f p' toks' : ParseFile (new_parser toks true) = Ok f p' -> (List.length toks' <= List.length toks)%nat ->
  ParseFile (set_tokens toks' p') = Ok (mkFile [] (f_comments f)) (set_tokens toks' p').
Proof.
  intros E L. unfold ParseFile, ParseSQL, method, new_parser in E. cbn [p_tokens p_collect] in E.
  assert (R : Rc toks (mkP toks 0 [] true) (mkCS [] toks [])) by (repeat split; left; split; [cbn; lia|reflexivity]).
  pose proof (collect_sim (parse_sql true (knot (fuel_for toks))) toks _ _ R) as H.
  destruct (run parser_machine _ _) as [a p1| | |]; try discriminate E. injection E as <- <-.
  destruct (run cm_machine _ _) as [b s'| | |] eqn:F; cbn in H; try contradiction. destruct H as [_ (R1 & R2 & R3 & Z)].
  unfold parse_sql in F. apply sql_loop_end in F. rewrite F in Z.
  assert (Le : (List.length toks <= p_index p1)%nat).
  { destruct Z as [[Z1 Z2]|[Z1 Z2]]; [|lia]. injection Z2 as _ Z2. symmetry in Z2.
    pose proof (skipn_length (p_index p1) toks) as Sl. rewrite Z2 in Sl. cbn in Sl. lia. }
  unfold ParseFile. unfold set_tokens. rewrite R2. rewrite nothing_left_collect by lia. cbn [p_comments f_comments]. reflexivity.
Qed.
