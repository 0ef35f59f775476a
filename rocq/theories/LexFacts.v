(** Proofs that the tokenizer model follows LexSpec. *)
From Coq Require Import ZArith List Bool String Lia ZifyBool.
From Verif Require Import Base Dialect Token Lexer LexSpec.
Import ListNotations.
Open Scope Z_scope.

Lemma gs_eqb_eq a b : gs_eqb a b = true <-> a = b.
Proof.
  revert b; induction a as [|x a IH]; destruct b as [|y b]; cbn; try (split; congruence).
  rewrite andb_true_iff, Z.eqb_eq, IH. split; [intros [-> ->]; auto | intros [= -> ->]; auto].
Qed.

Lemma gs_eqb_refl a : gs_eqb a a = true.
Proof. apply gs_eqb_eq; auto. Qed.

Lemma keywords_upper : forallb (fun k => gs_eqb (upper k) k && gs_eqb (upper (lower k)) k) keywords = true.
Proof. vm_compute. reflexivity. Qed.

(** MakeKeyword's cache is only a shortcut. *)
Lemma make_keyword_spec w q : make_keyword w q = mkWord w q (upper w).
Proof.
  unfold make_keyword, keyword_cache.
  destruct (q =? 0) eqn:Q.
  2:{ cbn. reflexivity. }
  apply Z.eqb_eq in Q; subst q.
  destruct (find _ keywords) as [k|] eqn:F.
  - apply find_some in F as [Hin Hk].
    pose proof keywords_upper as U. rewrite forallb_forall in U.
    specialize (U _ Hin). apply andb_true_iff in U as [U1 U2].
    apply gs_eqb_eq in U1. apply gs_eqb_eq in U2.
    apply orb_true_iff in Hk as [Hk|Hk]; apply gs_eqb_eq in Hk; subst w.
    + now rewrite U1.
    + now rewrite U2.
  - destruct (mem_gs _ _); reflexivity.
Qed.

Lemma shipped_ok : dialect_ok generic /\ dialect_ok postgres /\ dialect_ok mysql.
Proof.
  unfold dialect_ok, generic, postgres, mysql, word_char; cbn;
    unfold is_letter, is_digit; repeat split; intros; lia.
Qed.

(* ------------------------------------------------------------------ *)

Lemma scan_part_spec d s :
  is_part d EOFr = false ->
  exists w rest, scan_part d s = Some (w, rest) /\ s = w ++ rest /\
                 forallb (is_part d) w = true /\ stops (is_part d) rest.
Proof.
  intros E. induction s as [|r s IH]; cbn.
  - rewrite E. exists [], []. cbn. auto.
  - destruct (is_part d r) eqn:R.
    + destruct IH as (w & rest & -> & -> & F & S).
      exists (r :: w), rest. cbn. rewrite R, F. auto.
    + exists [], (r :: s). cbn. auto.
Qed.

Lemma scan_part_complete d w rest :
  is_part d EOFr = false ->
  forallb (is_part d) w = true -> stops (is_part d) rest ->
  scan_part d (w ++ rest) = Some (w, rest).
Proof.
  intros E. induction w as [|r w IH]; cbn; intros F S.
  - destruct rest as [|r rest]; cbn in *; [now rewrite E | now rewrite S].
  - apply andb_true_iff in F as [F1 F2]. rewrite F1, IH; auto.
Qed.

Lemma scan_string_spec_aux n : forall s, (List.length s <= n)%nat ->
  match scan_string s with
  | Some (str, rest) => s = escape str ++ 39 :: rest /\ stops (fun r => r =? 39) rest
  | None => forall str rest, s = escape str ++ 39 :: rest -> exists rest', rest = 39 :: rest'
  end.
Proof.
  induction n as [|n IH]; intros s L.
  - destruct s; cbn in *; [|lia]. intros str rest H.
    destruct (escape str); discriminate.
  - destruct s as [|c s]; cbn [scan_string].
    { intros str rest H. destruct (escape str); discriminate. }
    cbn in L.
    destruct (c =? 39) eqn:C.
    + apply Z.eqb_eq in C; subst c.
      destruct s as [|m s].
      { split; cbn; auto. }
      destruct (m =? 39) eqn:M.
      * apply Z.eqb_eq in M; subst m.
        specialize (IH s ltac:(cbn in L; lia)).
        destruct (scan_string s) as [[str rest]|].
        -- destruct IH as [-> S]. split; auto.
        -- intros str rest H. destruct str as [|a str]; cbn in H.
           ++ injection H as <-. eauto.
           ++ destruct (a =? 39) eqn:A; cbn in H.
              ** injection H as H. eauto.
              ** exfalso. injection H as H1 H. lia.
      * split; cbn; auto.
    + specialize (IH s ltac:(lia)).
      destruct (scan_string s) as [[str rest]|].
      * destruct IH as [-> S]. cbn. rewrite C. auto.
      * intros str rest H. destruct str as [|a str]; cbn in H.
        { exfalso. injection H as H1 _. lia. }
        destruct (a =? 39) eqn:A; cbn in H; injection H as H1 H; [exfalso; lia|].
        eauto.
Qed.

Lemma scan_string_spec s :
  match scan_string s with
  | Some (str, rest) => s = escape str ++ 39 :: rest /\ stops (fun r => r =? 39) rest
  | None => forall str rest, s = escape str ++ 39 :: rest -> exists rest', rest = 39 :: rest'
  end.
Proof. apply (scan_string_spec_aux (List.length s)); auto. Qed.

Lemma scan_string_complete str rest :
  stops (fun r => r =? 39) rest -> scan_string (escape str ++ 39 :: rest) = Some (str, rest).
Proof.
  intros S. induction str as [|a str IH]; cbn.
  - destruct rest as [|m rest]; cbn in *; auto. now rewrite S.
  - destruct (a =? 39) eqn:A; cbn; fold (escape str).
    + apply Z.eqb_eq in A; subst a. now rewrite IH.
    + rewrite A. now rewrite IH.
Qed.

Lemma scan_string_none s :
  (forall str rest, s = escape str ++ 39 :: rest -> exists rest', rest = 39 :: rest') ->
  scan_string s = None.
Proof.
  intros H. pose proof (scan_string_spec s) as P. destruct (scan_string s) as [[str rest]|]; auto.
  destruct P as [E S]. destruct (H _ _ E) as [r ->]. cbn in S. discriminate.
Qed.

Lemma scan_delim_spec q s :
  match scan_delim q s with
  | Some (str, rest) => s = str ++ q :: rest /\ ~ In q str
  | None => ~ In q s
  end.
Proof.
  induction s as [|c s IH]; cbn; auto.
  destruct (c =? q) eqn:C.
  - apply Z.eqb_eq in C; subst. cbn; auto.
  - apply Z.eqb_neq in C.
    destruct (scan_delim q s) as [[str rest]|].
    + destruct IH as [-> N]. split; auto. intros [|]; auto.
    + intros [|]; auto.
Qed.

Lemma scan_delim_complete q str rest :
  ~ In q str -> scan_delim q (str ++ q :: rest) = Some (str, rest).
Proof.
  induction str as [|c str IH]; cbn; intros N.
  - now rewrite Z.eqb_refl.
  - destruct (c =? q) eqn:C.
    + apply Z.eqb_eq in C; subst. tauto.
    + rewrite IH; auto.
Qed.

Lemma scan_delim_none q s : ~ In q s -> scan_delim q s = None.
Proof.
  induction s as [|c s IH]; cbn; auto; intros N.
  destruct (c =? q) eqn:C; [apply Z.eqb_eq in C; tauto|]. rewrite IH; auto.
Qed.

Lemma scan_number_spec s :
  let '(w, rest) := scan_number s in
  s = w ++ rest /\ forallb (fun r => is_digit r || (r =? 46)) w = true /\
  stops (fun r => is_digit r || (r =? 46)) rest.
Proof.
  induction s as [|c s IH]; cbn; auto.
  destruct (is_digit c || (c =? 46)) eqn:C.
  - destruct (scan_number s) as [w rest]. destruct IH as (-> & F & S). cbn. rewrite C, F. auto.
  - cbn. auto.
Qed.

Lemma scan_number_complete w rest :
  forallb (fun r => is_digit r || (r =? 46)) w = true ->
  stops (fun r => is_digit r || (r =? 46)) rest ->
  scan_number (w ++ rest) = (w, rest).
Proof.
  induction w as [|c w IH]; cbn; intros F S.
  - destruct rest; cbn in *; auto. now rewrite S.
  - apply andb_true_iff in F as [F1 F2]. rewrite F1, IH; auto.
Qed.

Lemma scan_line_spec s :
  let '(w, rest) := scan_line s in
  s = w ++ rest /\ ~ In 10 w /\ stops (fun r => negb (r =? 10)) rest.
Proof.
  induction s as [|c s IH]; cbn; auto.
  destruct (c =? 10) eqn:C.
  - cbn. rewrite C. auto.
  - destruct (scan_line s) as [w rest]. destruct IH as (-> & F & S). cbn.
    apply Z.eqb_neq in C. repeat split; auto. intros [|]; auto.
Qed.

Lemma scan_line_complete w rest :
  ~ In 10 w -> stops (fun r => negb (r =? 10)) rest -> scan_line (w ++ rest) = (w, rest).
Proof.
  induction w as [|c w IH]; cbn; intros N S.
  - destruct rest as [|r rest]; cbn in *; auto. destruct (r =? 10); auto. discriminate.
  - destruct (c =? 10) eqn:C; [apply Z.eqb_eq in C; tauto|]. rewrite IH; auto.
Qed.

(* ------------------------------------------------------------------ *)
(** Block comments. *)

(** No closing star-slash in a text. *)
Definition no_close (s : list rune) : Prop := forall a b, s <> a ++ 42 :: 47 :: b.

(** First closing: [body ++ */] contains it only at the end. *)
Definition first_close (body : list rune) : Prop :=
  forall a b, body ++ [42; 47] = a ++ 42 :: 47 :: b -> b = [].

Lemma first_close_tail c s : first_close (c :: s) -> first_close s.
Proof. intros H a b E. apply (H (c :: a)). cbn. now rewrite E. Qed.

Lemma first_close_cons c s :
  first_close s -> (c <> 42 \/ (match s with 47 :: _ => False | _ => True end)) ->
  first_close (c :: s).
Proof.
  intros H O a b E. destruct a as [|x a].
  - cbn in E. injection E as -> E. destruct O as [O|O]; [congruence|].
    destruct s as [|y s]; cbn in E; [discriminate|].
    injection E as -> E. contradiction.
  - cbn in E. injection E as _ E. eauto.
Qed.

Lemma rev_cons_app {A} (x : A) a b : rev (x :: a) ++ b = rev a ++ x :: b.
Proof. cbn. now rewrite <- app_assoc. Qed.

(** What the loop computes, with the position.  [may] means that the previous
    character was a star (already in the text before [s]). *)
Lemma scan_block_complete n : forall body may acc line col rest,
  (List.length body <= n)%nat ->
  first_close (if may : bool then 42 :: body else body) ->
  scan_block (body ++ 42 :: 47 :: rest) may acc line col =
    let p := advance (body ++ [42; 47]) (mkPos line col) in
    inl (rev acc ++ (if may
                     then (match body with
                           | [] => [42]
                           | c :: _ => [c]
                           end)
                     else []) ++ block_text body, rest, pline p, pcol p).
Proof.
  induction n as [|n IH]; intros body may acc line col rest L F.
  - destruct body; [|cbn in L; lia].
    cbn. destruct may; cbn; rewrite ?app_nil_r; reflexivity.
  - destruct body as [|c s].
    { cbn. destruct may; cbn; rewrite ?app_nil_r; reflexivity. }
    cbn [List.length] in L.
    assert (Hs : first_close (c :: s)) by (destruct may; auto; eapply first_close_tail; eauto).
    assert (Hc : may = true -> c <> 47).
    { intros -> ->. specialize (F [] (s ++ [42;47])).
      cbn in F. specialize (F eq_refl). destruct s; discriminate. }
    cbn [app scan_block].
    destruct (c =? 13) eqn:C13.
    { apply Z.eqb_eq in C13; subst c. cbn [Z.eqb Pos.eqb].
      destruct s as [|m s].
      - cbn [app]. cbn [Z.eqb Pos.eqb].
        cbn. destruct may; cbn; rewrite <- ?app_assoc; reflexivity.
      - cbn [app]. destruct (m =? 10) eqn:M.
        + apply Z.eqb_eq in M; subst m.
          rewrite (IH s false); cbn [List.length] in *; try lia.
          2:{ eapply first_close_tail, first_close_tail; eauto. }
          cbn. destruct may; cbn; rewrite <- ?app_assoc; reflexivity.
        + change (m :: s ++ 42 :: 47 :: rest) with ((m :: s) ++ 42 :: 47 :: rest).
          rewrite (IH (m :: s) false); cbn [List.length] in *; try lia.
          2:{ eapply first_close_tail; eauto. }
          cbn [block_text]. cbn [Z.eqb Pos.eqb]. rewrite M.
          cbn [advance app]. cbn [Z.eqb Pos.eqb]. rewrite M.
          destruct may; cbn [rev]; rewrite <- ?app_assoc; reflexivity. }
    destruct (c =? 10) eqn:C10.
    { apply Z.eqb_eq in C10; subst c. cbn [Z.eqb Pos.eqb].
      rewrite (IH s false); try lia; [|eapply first_close_tail; eauto].
      cbn. destruct may; cbn; rewrite <- ?app_assoc; reflexivity. }
    assert (X : (may && (c =? 47)) = false).
    { destruct may; auto. cbn. apply Z.eqb_neq. auto. }
    rewrite X.
    destruct (c =? 42) eqn:C42.
    + apply Z.eqb_eq in C42; subst c.
      rewrite (IH s true); try lia; [|assumption].
      cbn [advance app]. cbn [Z.eqb Pos.eqb pline pcol].
      cbn [block_text]. cbn [Z.eqb Pos.eqb].
      destruct may; destruct s; cbn [rev app block_text]; rewrite <- ?app_assoc; reflexivity.
    + rewrite (IH s false); try lia; [|eapply first_close_tail; eauto].
      cbn [advance app]. rewrite C10, C13. cbn [pline pcol].
      cbn [block_text]. rewrite C42, C13.
      destruct may; cbn [rev app]; rewrite <- ?app_assoc; reflexivity.
Qed.

Lemma no_close_tail c s : no_close (c :: s) -> no_close s.
Proof. intros H a b E. apply (H (c :: a) b). cbn. now rewrite E. Qed.

Lemma scan_block_none n : forall s may acc line col,
  (List.length s <= n)%nat ->
  no_close (if may : bool then 42 :: s else s) ->
  exists l c, scan_block s may acc line col = inr (l, c).
Proof.
  induction n as [|n IH]; intros s may acc line col L F.
  - destruct s; [|cbn in L; lia]. cbn. eauto.
  - destruct s as [|c s]; [cbn; eauto|].
    cbn [List.length] in L.
    assert (Hs : no_close (c :: s)) by (destruct may; auto; eapply no_close_tail; eauto).
    assert (Hc : may = true -> c <> 47).
    { intros -> ->. apply (F [] s). reflexivity. }
    cbn [scan_block].
    destruct (c =? 13) eqn:C13.
    { destruct s as [|m s].
      - cbn. eauto.
      - destruct (m =? 10); apply IH; cbn in *; try lia;
          repeat (eapply no_close_tail; eauto). }
    destruct (c =? 10) eqn:C10.
    { apply IH; try lia. eapply no_close_tail; eauto. }
    assert (X : (may && (c =? 47)) = false).
    { destruct may; auto. cbn. apply Z.eqb_neq. auto. }
    rewrite X. apply IH; try lia.
    destruct (c =? 42) eqn:C42.
    + apply Z.eqb_eq in C42; subst c. assumption.
    + eapply no_close_tail; eauto.
Qed.

(** Every text either has a first closing or none. *)
Lemma close_dec s : (exists body rest, s = body ++ 42 :: 47 :: rest /\ first_close body) \/ no_close s.
Proof.
  induction s as [|c s IH].
  - right. intros a b E. destruct a; discriminate.
  - destruct (Z.eq_dec c 42) as [->|N].
    + destruct s as [|m s].
      { right. intros a b E. destruct a as [|x [|y a]]; discriminate. }
      destruct (Z.eq_dec m 47) as [->|M].
      * left. exists [], s. split; auto.
        intros a b E. destruct a as [|x [|y a]]; cbn in E; try congruence.
        destruct a; discriminate.
      * destruct IH as [(body & rest & E & F)|F].
        -- left. exists (42 :: body), rest. split; [cbn; now rewrite E|].
           apply first_close_cons; auto. right. destruct body as [|y body]; auto.
           cbn in E. injection E as -> _. destruct y; auto.
           destruct p; auto. destruct p; auto. destruct p; auto.
           destruct p; auto. destruct p; auto. destruct p; auto.
        -- right. intros a b E. destruct a as [|x a]; cbn in E.
           ++ injection E as E1 _; congruence.
           ++ injection E as _ E; eapply F; eauto.
    + destruct IH as [(body & rest & -> & F)|F].
      * left. exists (c :: body), rest. split; auto. apply first_close_cons; auto.
      * right. intros a b E. destruct a as [|x a]; cbn in E.
        -- injection E as E1 _; congruence.
        -- injection E as _ E; eapply F; eauto.
Qed.

(* ------------------------------------------------------------------ *)
(** The whole of [next]. *)

Lemma ok_part_eof d : dialect_ok d -> is_part d EOFr = false.
Proof.
  intros (_ & P & _). destruct (is_part d EOFr) eqn:E; auto.
  apply P in E. discriminate.
Qed.

Lemma ok_start_eof d : dialect_ok d -> is_start d EOFr = false.
Proof.
  intros (P & _ & _). destruct (is_start d EOFr) eqn:E; auto.
  apply P in E. destruct E. discriminate.
Qed.

Lemma ok_delim_eof d : dialect_ok d -> is_delim d EOFr = false.
Proof.
  intros (_ & _ & P). destruct (is_delim d EOFr) eqn:E; auto.
  apply P in E. destruct E; discriminate.
Qed.

Lemma zlen_cons {A} (x : A) l : zlen (x :: l) = zlen l + 1.
Proof. unfold zlen. cbn [List.length]. lia. Qed.

Lemma zlen_app {A} (a b : list A) : zlen (a ++ b) = zlen a + zlen b.
Proof. unfold zlen. rewrite app_length. lia. Qed.

Lemma zlen_nonneg {A} (l : list A) : 0 <= zlen l.
Proof. unfold zlen. lia. Qed.

Lemma matching_quote q : q = 34 \/ q = 96 -> matching_end_quote q = q.
Proof. intros [->| ->]; reflexivity. Qed.

Ltac sym s k f :=
  exists (gs s); split; [reflexivity|]; split; [discriminate|]; split;
  [ apply (Lx_symbol _ s k f);
    [ cbn; tauto
    | match goal with |- stops _ ?l => try (is_var l; destruct l); cbn; try lia; auto end ]
  | cbn; unfold zlen; cbn; f_equal; lia ].

Definition next_ok (d : dialect) (src : list rune) (line col : Z) (r : lexres) : Prop :=
  match r with
  | LTok k v rest l c =>
      exists s, src = s ++ rest /\ s <> [] /\ lexeme d k v s rest /\
                mkPos l c = token_end k v s (mkPos line col)
  | LEof => src = []
  | LErr _ _ _ => lex_error src
  | LHang => unclosed_delimited d src
  end.

Lemma word_ok d f s line col :
  dialect_ok d -> is_start d f = true \/ f = 78 ->
  (f = 78 -> stops (fun r => r =? 39) s) ->
  next_ok d (f :: s) line col (tokenize_word d f s line col).
Proof.
  intros D F N. unfold tokenize_word.
  destruct (scan_part_spec d s (ok_part_eof d D)) as (w & rest & -> & -> & P & S).
  rewrite make_keyword_spec.
  exists (f :: w). cbn [app]. repeat split; auto; [discriminate|].
  apply Lx_word; auto. intros E ->. apply N in E. exact E.
Qed.

Lemma string_ok k s line col :
  k = SingleQuotedString \/ k = NationalStringLiteral ->
  match tokenize_string k s line col with
  | LTok k' v rest l c =>
      exists str, k' = k /\ v = VStr str /\ s = escape str ++ 39 :: rest /\
        stops (fun r => r =? 39) rest /\ l = line /\ c = col + 2 + glen str
  | LErr _ _ _ => forall str rest, s = escape str ++ 39 :: rest -> exists rest', rest = 39 :: rest'
  | _ => False
  end.
Proof.
  intros K. unfold tokenize_string. pose proof (scan_string_spec s) as P.
  destruct (scan_string s) as [[str rest]|]; auto.
  destruct P as [-> S]. exists str. repeat split; auto.
Qed.

Lemma starts_symbol_in r : starts_symbol r = true ->
  In r [40; 41; 44; 43; 42; 37; 61; 46; 59; 92; 91; 93; 38; 123; 125; 33; 60; 62; 58; 45; 47].
Proof.
  unfold starts_symbol. rewrite orb_true_iff, existsb_exists.
  intros [[[[s k] f] [I E]]|E].
  - cbn [In symbols] in I.
    repeat destruct I as [I|I]; try contradiction;
      injection I as <- <- <-;
      (apply Z.eqb_eq in E; subst r; cbn; tauto).
  - apply Z.eqb_eq in E; subst r. cbn; tauto.
Qed.

Lemma next_spec d src line col :
  dialect_ok d -> next_ok d src line col (next d src line col).
Proof.
  intros D. unfold next.
  destruct src as [|r s].
  { rewrite (ok_start_eof d D), (ok_delim_eof d D). reflexivity. }
  destruct (r =? 32) eqn:E1.
  { apply Z.eqb_eq in E1; subst. exists [32]. repeat split; try discriminate. constructor. }
  destruct (r =? 9) eqn:E2.
  { apply Z.eqb_eq in E2; subst. exists [9]. repeat split; try discriminate. constructor. }
  destruct (r =? 10) eqn:E3.
  { apply Z.eqb_eq in E3; subst. exists [10]. repeat split; try discriminate. constructor. }
  destruct (r =? 13) eqn:E4.
  { apply Z.eqb_eq in E4; subst. destruct s as [|n s].
    - exists [13]. repeat split; try discriminate. constructor. cbn. auto.
    - destruct (n =? 10) eqn:N.
      + apply Z.eqb_eq in N; subst. exists [13; 10]. repeat split; try discriminate. constructor.
      + exists [13]. repeat split; try discriminate. constructor. exact N. }
  destruct (r =? 78) eqn:E5.
  { apply Z.eqb_eq in E5; subst. destruct s as [|n s].
    - apply word_ok; auto. cbn. auto.
    - destruct (n =? 39) eqn:N.
      + apply Z.eqb_eq in N; subst.
        pose proof (string_ok NationalStringLiteral s line (col + 1) (or_intror eq_refl)) as P.
        unfold tokenize_string in *. destruct (scan_string s) as [[str rest]|]; cbn in *.
        * destruct P as (str' & _ & [= <-] & -> & S & _ & _).
          exists (78 :: 39 :: escape str ++ [39]). repeat split.
          -- cbn. now rewrite <- app_assoc.
          -- discriminate.
          -- now constructor.
          -- cbn. f_equal. lia.
        * now apply Le_nstring.
      + apply word_ok; auto. }
  destruct (is_start d r) eqn:E6.
  { apply word_ok; auto. intros ->. discriminate. }
  destruct (r =? 39) eqn:E7.
  { apply Z.eqb_eq in E7; subst.
    pose proof (string_ok SingleQuotedString s line col (or_introl eq_refl)) as P.
    unfold tokenize_string in *. destruct (scan_string s) as [[str rest]|]; cbn in *.
    - destruct P as (str' & _ & [= <-] & -> & S & _ & _).
      exists (39 :: escape str ++ [39]). repeat split.
      + cbn. now rewrite <- app_assoc.
      + discriminate.
      + now constructor.
    - now apply Le_string. }
  destruct (is_delim d r) eqn:E8.
  { assert (Q : r = 34 \/ r = 96) by (apply D; auto).
    rewrite (matching_quote _ Q). pose proof (scan_delim_spec r s) as P.
    destruct (scan_delim r s) as [[str rest]|].
    - destruct P as [-> N]. rewrite make_keyword_spec.
      exists (r :: str ++ [r]). repeat split.
      + cbn. now rewrite <- app_assoc.
      + discriminate.
      + now constructor.
      + cbn [token_end wquote pline pcol]. rewrite zlen_cons, zlen_app. change (zlen [r]) with 1.
        replace (r =? 0) with false by (destruct Q; subst; reflexivity). f_equal. lia.
    - exists r, s. auto. }
  destruct (is_digit r) eqn:E9.
  { pose proof (scan_number_spec (r :: s)) as P.
    cbn [scan_number] in *. rewrite E9 in *. cbn [orb] in *.
    destruct (scan_number s) as [w rest]. destruct P as (E & F & S).
    injection E as ->. exists (r :: w). repeat split; try discriminate.
    cbn in F. constructor; auto. apply andb_true_iff in F. tauto. }
  destruct (r =? 40) eqn:E10. { apply Z.eqb_eq in E10; subst. sym "("%string LParen ""%string. }
  destruct (r =? 41) eqn:E11. { apply Z.eqb_eq in E11; subst. sym ")"%string RParen ""%string. }
  destruct (r =? 44) eqn:E12. { apply Z.eqb_eq in E12; subst. sym ","%string Comma ""%string. }
  destruct (r =? 45) eqn:E13.
  { apply Z.eqb_eq in E13; subst. destruct s as [|n s]; [sym "-"%string Minus "-"%string|].
    destruct (n =? 45) eqn:N; [|sym "-"%string Minus "-"%string].
    apply Z.eqb_eq in N; subst. pose proof (scan_line_spec s) as P.
    destruct (scan_line s) as [w rest]. destruct P as (-> & F & S).
    exists (45 :: 45 :: w). repeat split; try discriminate.
    - now constructor.
    - cbn [token_end pline pcol]. rewrite !zlen_cons. f_equal. lia. }
  destruct (r =? 47) eqn:E14.
  { apply Z.eqb_eq in E14; subst. destruct s as [|n s]; [sym "/"%string Div "*"%string|].
    destruct (n =? 42) eqn:N; [|sym "/"%string Div "*"%string].
    apply Z.eqb_eq in N; subst.
    destruct (close_dec s) as [(body & rest & -> & F)|F].
    - rewrite (scan_block_complete (List.length body)); auto.
      exists (47 :: 42 :: body ++ [42; 47]). repeat split; try discriminate.
      + cbn. now rewrite <- app_assoc.
      + cbn. now constructor.
      + cbn. rewrite <- Z.add_assoc. cbn.
        match goal with |- context [advance ?a ?b] => destruct (advance a b) end. reflexivity.
    - destruct (scan_block_none (List.length s) s false [] line (col + 2)) as (l & c & ->); auto.
      now apply Le_block. }
  destruct (r =? 43) eqn:E15. { apply Z.eqb_eq in E15; subst. sym "+"%string Plus ""%string. }
  destruct (r =? 42) eqn:E16. { apply Z.eqb_eq in E16; subst. sym "*"%string Mult ""%string. }
  destruct (r =? 37) eqn:E17. { apply Z.eqb_eq in E17; subst. sym "%"%string Mod ""%string. }
  destruct (r =? 61) eqn:E18. { apply Z.eqb_eq in E18; subst. sym "="%string Eq ""%string. }
  destruct (r =? 46) eqn:E19. { apply Z.eqb_eq in E19; subst. sym "."%string Period ""%string. }
  destruct (r =? 33) eqn:E20.
  { apply Z.eqb_eq in E20; subst. destruct s as [|n s]; [now apply Le_bang|].
    destruct (n =? 61) eqn:N; [|now apply Le_bang].
    apply Z.eqb_eq in N; subst. change (33 :: 61 :: s) with ([33; 61] ++ s).
    sym "!="%string Neq ""%string. }
  destruct (r =? 60) eqn:E21.
  { apply Z.eqb_eq in E21; subst. destruct s as [|n s]; [sym "<"%string Lt "=>"%string|].
    destruct (n =? 61) eqn:N.
    { apply Z.eqb_eq in N; subst. change (60 :: 61 :: s) with ([60; 61] ++ s).
      sym "<="%string LtEq ""%string. }
    destruct (n =? 62) eqn:N'.
    { apply Z.eqb_eq in N'; subst. change (60 :: 62 :: s) with ([60; 62] ++ s).
      sym "<>"%string Neq ""%string. }
    sym "<"%string Lt "=>"%string. }
  destruct (r =? 62) eqn:E22.
  { apply Z.eqb_eq in E22; subst. destruct s as [|n s]; [sym ">"%string Gt "="%string|].
    destruct (n =? 61) eqn:N.
    { apply Z.eqb_eq in N; subst. change (62 :: 61 :: s) with ([62; 61] ++ s).
      sym ">="%string GtEq ""%string. }
    sym ">"%string Gt "="%string. }
  destruct (r =? 58) eqn:E23.
  { apply Z.eqb_eq in E23; subst. destruct s as [|n s]; [sym ":"%string Colon ":"%string|].
    destruct (n =? 58) eqn:N.
    { apply Z.eqb_eq in N; subst. change (58 :: 58 :: s) with ([58; 58] ++ s).
      sym "::"%string DoubleColon ""%string. }
    sym ":"%string Colon ":"%string. }
  destruct (r =? 59) eqn:E24. { apply Z.eqb_eq in E24; subst. sym ";"%string Semicolon ""%string. }
  destruct (r =? 92) eqn:E25. { apply Z.eqb_eq in E25; subst. sym "\"%string Backslash ""%string. }
  destruct (r =? 91) eqn:E26. { apply Z.eqb_eq in E26; subst. sym "["%string LBracket ""%string. }
  destruct (r =? 93) eqn:E27. { apply Z.eqb_eq in E27; subst. sym "]"%string RBracket ""%string. }
  destruct (r =? 38) eqn:E28. { apply Z.eqb_eq in E28; subst. sym "&"%string Ampersand ""%string. }
  destruct (r =? 123) eqn:E29. { apply Z.eqb_eq in E29; subst. sym "{"%string LBrace ""%string. }
  destruct (r =? 125) eqn:E30. { apply Z.eqb_eq in E30; subst. sym "}"%string RBrace ""%string. }
  exists [r]. repeat split; try discriminate.
  constructor; auto.
  - cbn. intros X. repeat destruct X as [X|X]; subst; try discriminate; auto.
  - destruct (starts_symbol r) eqn:X; auto. apply starts_symbol_in in X.
    cbn in X. repeat destruct X as [X|X]; subst; try discriminate; try contradiction; auto.
Qed.

Lemma not_start d c : dialect_ok d -> word_char c = false -> is_start d c = false.
Proof.
  intros (D & _) W. destruct (is_start d c) eqn:E; auto. apply D in E. destruct E. congruence.
Qed.

Lemma not_delim d c : dialect_ok d -> c <> 34 -> c <> 96 -> is_delim d c = false.
Proof.
  intros (_ & _ & D) A B. destruct (is_delim d c) eqn:E; auto. apply D in E. tauto.
Qed.

Definition tok_res (k : kind) (v : tvalue) (rest : list rune) (p : pos) : lexres :=
  LTok k v rest (pline p) (pcol p).

Lemma tokenize_word_complete d f w rest line col :
  dialect_ok d -> forallb (is_part d) w = true -> stops (is_part d) rest ->
  tokenize_word d f (w ++ rest) line col =
  LTok SQLKeyword (VWord (mkWord (f :: w) 0 (upper (f :: w)))) rest line (col + glen (f :: w)).
Proof.
  intros D F S. unfold tokenize_word.
  rewrite scan_part_complete, make_keyword_spec; auto. now apply ok_part_eof.
Qed.

Lemma next_complete d k v s rest line col :
  dialect_ok d -> lexeme d k v s rest ->
  next d (s ++ rest) line col = tok_res k v rest (token_end k v s (mkPos line col)).
Proof.
  intros D H. destruct H.
  - reflexivity.
  - reflexivity.
  - reflexivity.
  - destruct rest as [|n rest]; cbn in *; auto. now rewrite H.
  - reflexivity.
  - (* word *)
    assert (W : word_char f = true).
    { destruct H as [H|H]; [now apply D in H| subst; reflexivity]. }
    unfold tok_res; cbn [token_end wquote Z.eqb pline pcol].
    unfold next. cbn [app].
    destruct (f =? 32) eqn:E1; [apply Z.eqb_eq in E1; subst; discriminate|].
    destruct (f =? 9) eqn:E2; [apply Z.eqb_eq in E2; subst; discriminate|].
    destruct (f =? 10) eqn:E3; [apply Z.eqb_eq in E3; subst; discriminate|].
    destruct (f =? 13) eqn:E4; [apply Z.eqb_eq in E4; subst; discriminate|].
    destruct (f =? 78) eqn:E5.
    + apply Z.eqb_eq in E5; subst.
      assert (N : forall n s', w ++ rest = n :: s' -> (n =? 39) = false).
      { intros n s' E. destruct w as [|x w].
        - specialize (H2 eq_refl eq_refl). cbn in E. subst. exact H2.
        - injection E as -> _. cbn in H0. apply andb_true_iff in H0 as [P _].
          apply D in P. destruct (n =? 39) eqn:X; auto.
          apply Z.eqb_eq in X; subst; discriminate. }
      destruct (w ++ rest) as [|n s'] eqn:E.
      * rewrite <- E. now apply tokenize_word_complete.
      * rewrite (N _ _ eq_refl). rewrite <- E. now apply tokenize_word_complete.
    + destruct H as [H|H]; [|subst; discriminate].
      rewrite H. now apply tokenize_word_complete.
  - (* delimited *)
    assert (Q : q = 34 \/ q = 96) by (apply D; auto).
    assert (W : word_char q = false) by (destruct Q; subst; reflexivity).
    unfold tok_res; cbn [token_end wquote pline pcol].
    unfold next. cbn [app]. rewrite <- app_assoc. cbn [app].
    rewrite (not_start d q D W), H.
    replace (scan_delim (matching_end_quote q) (s ++ q :: rest)) with (Some (s, rest))
      by (rewrite (matching_quote q Q), scan_delim_complete; auto).
    rewrite make_keyword_spec.
    assert (Z : zlen (q :: s ++ [q]) = 2 + zlen s).
    { rewrite zlen_cons, zlen_app. change (zlen [q]) with 1. lia. }
    rewrite Z.
    destruct Q; subst; cbn -[zlen Z.add]; f_equal; lia.
  - (* string *)
    unfold tok_res; cbn [token_end pline pcol].
    unfold next. cbn [app]. rewrite <- app_assoc. cbn [app].
    rewrite (not_start d 39 D eq_refl). cbn. unfold tokenize_string.
    now rewrite scan_string_complete.
  - (* national string *)
    unfold tok_res; cbn [token_end pline pcol].
    unfold next. cbn [app]. rewrite <- app_assoc. cbn. unfold tokenize_string.
    rewrite scan_string_complete; auto. f_equal. lia.
  - (* number *)
    unfold tok_res; cbn [token_end pline pcol].
    unfold next. cbn [app].
    assert (N : scan_number (c :: w ++ rest) = (c :: w, rest)).
    { change (c :: w ++ rest) with ((c :: w) ++ rest). apply scan_number_complete; auto.
      cbn. now rewrite H, H0. }
    rewrite N.
    assert (St : is_start d c = false).
    { destruct (is_start d c) eqn:E; auto. apply D in E. destruct E; congruence. }
    assert (De : is_delim d c = false).
    { apply not_delim; auto; unfold is_digit in H; lia. }
    rewrite St, De, H. unfold is_digit in H.
    replace (c =? 32) with false by lia. replace (c =? 9) with false by lia.
    replace (c =? 10) with false by lia. replace (c =? 13) with false by lia.
    replace (c =? 78) with false by lia. replace (c =? 39) with false by lia.
    reflexivity.
  - (* line comment *)
    unfold tok_res; cbn [token_end pline pcol].
    unfold next. cbn [app].
    rewrite (not_start d 45 D eq_refl), (not_delim d 45 D) by lia. cbn -[zlen].
    rewrite scan_line_complete by auto. rewrite !zlen_cons. f_equal. lia.
  - (* block comment *)
    unfold tok_res. unfold next. cbn [app].
    rewrite (not_start d 47 D eq_refl), (not_delim d 47 D) by lia. cbn -[advance].
    rewrite <- app_assoc. cbn [app].
    rewrite (scan_block_complete (List.length body)); auto.
    cbn. rewrite <- Z.add_assoc. cbn. reflexivity.
  - (* symbol *)
    cbn [In symbols] in H.
    repeat destruct H as [H|H]; try contradiction; injection H as <- <- <-;
      unfold tok_res, next; cbn -[zlen existsb Z.add] in *;
      try (rewrite not_start by (auto; reflexivity));
      try (rewrite not_delim by (auto; lia)); cbn in *; auto.
    all: destruct rest as [|n rest]; cbn in *; auto.
    all: repeat match goal with H : orb _ _ = false |- _ => apply orb_false_iff in H as [? H] end.
    all: repeat match goal with H : (_ =? _) = false |- _ => rewrite H; clear H end; auto.
  - (* other *)
    unfold tok_res, next. cbn [app token_end pline pcol].
    assert (X : forall c, In c [32; 9; 10; 13; 78; 39] -> (r =? c) = false).
    { intros c I. destruct (r =? c) eqn:E; auto. apply Z.eqb_eq in E; subst. tauto. }
    assert (Y : forall c, starts_symbol c = true -> (r =? c) = false).
    { intros c I. destruct (r =? c) eqn:E; auto. apply Z.eqb_eq in E; subst. congruence. }
    rewrite !X by (cbn; tauto). rewrite H0, H1, H2.
    rewrite !Y by reflexivity. reflexivity.
Qed.

Lemma next_error d src line col :
  dialect_ok d -> lex_error src -> exists r l c, next d src line col = LErr r l c.
Proof.
  intros D H. destruct H; unfold next.
  - rewrite (not_start d 33 D eq_refl), (not_delim d 33 D) by lia. cbn.
    destruct rest as [|n rest]; cbn in *; eauto. rewrite H. eauto.
  - rewrite (not_start d 39 D eq_refl). cbn. unfold tokenize_string.
    rewrite scan_string_none by auto. eauto.
  - cbn. unfold tokenize_string. rewrite scan_string_none by auto. eauto.
  - rewrite (not_start d 47 D eq_refl), (not_delim d 47 D) by lia. cbn.
    destruct (scan_block_none (List.length s) s false [] line (col + 2)) as (l & c & ->); eauto.
Qed.

Lemma next_hang d src line col :
  dialect_ok d -> unclosed_delimited d src -> next d src line col = LHang.
Proof.
  intros D (q & s & -> & Q & N). unfold next.
  assert (Q' : q = 34 \/ q = 96) by (apply D; auto).
  rewrite (not_start d q D) by (destruct Q'; subst; reflexivity).
  rewrite Q, (matching_quote q Q'), scan_delim_none by auto.
  destruct Q'; subst; reflexivity.
Qed.

(* ------------------------------------------------------------------ *)
(** Tokenize. *)

Lemma scan_eq d pc st :
  scan d pc st =
  let p := mkPos (ts_line st) (ts_col st) in
  match next d (ts_src st) (ts_line st) (ts_col st) with
  | LEof => SEof
  | LHang => SHang
  | LErr rest line col =>
      SErr (mkTok ILLEGAL (VStr []) p (mkPos line col)) (mkTS rest line col)
  | LTok k v rest line col =>
      if negb pc && is_ws_kind k then SSkip (mkTS rest line col)
      else STok (mkTok k v p (mkPos line col)) (mkTS rest line col)
  end.
Proof. reflexivity. Qed.

Definition keep (pc : bool) (t : token) : bool := pc || negb (is_ws_kind (tkind t)).

(** What the loop returns, in terms of [reads]. *)
Definition tok_ok (d : dialect) (pc : bool) (p : pos) (src : list rune) (acc : list token)
  (r : tokres) : Prop :=
  match r with
  | TOk toks => exists l, reads d p src l [] /\ toks = rev acc ++ filter (keep pc) (map fst l)
  | TErr => exists l rem, reads d p src l rem /\ lex_error rem
  | THang => exists l rem, reads d p src l rem /\ unclosed_delimited d rem
  | TFuel => False
  end.

Lemma tokenize_loop_spec d pc : dialect_ok d -> forall fuel src line col acc,
  (List.length src < fuel)%nat ->
  tok_ok d pc (mkPos line col) src acc (tokenize_loop d pc fuel (mkTS src line col) acc).
Proof.
  intros D. induction fuel as [|f IH]; intros src line col acc L; [lia|].
  cbn [tokenize_loop]. rewrite scan_eq. cbn [ts_src ts_line ts_col].
  pose proof (next_spec d src line col D) as N.
  destruct (next d src line col) as [k v rest l c| |r l c|]; cbn in N.
  - destruct N as (s & -> & S & X & E).
    assert (L' : (List.length rest < f)%nat).
    { rewrite app_length in L. destruct s; [congruence|]. cbn in L. lia. }
    destruct (negb pc && is_ws_kind k) eqn:K.
    + specialize (IH rest l c acc L').
      destruct (tokenize_loop d pc f (mkTS rest l c) acc); cbn in *; auto.
      * destruct IH as (m & R & ->). exists ((mkTok k v (mkPos line col) (mkPos l c), s) :: m).
        split; [econstructor; eauto|]. cbn.
        replace (keep pc _) with false; auto.
        unfold keep; cbn. destruct pc, (is_ws_kind k); auto; discriminate.
      * destruct IH as (m & rem & R & F). eexists (_ :: m), rem. split; [econstructor; eauto|auto].
      * destruct IH as (m & rem & R & F). eexists (_ :: m), rem. split; [econstructor; eauto|auto].
    + specialize (IH rest l c (mkTok k v (mkPos line col) (mkPos l c) :: acc) L').
      destruct (tokenize_loop d pc f (mkTS rest l c) _); cbn in *; auto.
      * destruct IH as (m & R & ->). exists ((mkTok k v (mkPos line col) (mkPos l c), s) :: m).
        split; [econstructor; eauto|]. cbn.
        replace (keep pc _) with true; [now rewrite <- app_assoc|].
        unfold keep; cbn. destruct pc, (is_ws_kind k); auto; discriminate.
      * destruct IH as (m & rem & R & F). eexists (_ :: m), rem. split; [econstructor; eauto|auto].
      * destruct IH as (m & rem & R & F). eexists (_ :: m), rem. split; [econstructor; eauto|auto].
  - subst. exists []. split; [constructor|]. cbn. now rewrite app_nil_r.
  - exists [], src. split; [constructor|auto].
  - exists [], src. split; [constructor|auto].
Qed.

Lemma tokenize_spec d pc src : dialect_ok d ->
  tok_ok d pc start_pos (skip_bom src) [] (tokenize d pc src).
Proof. intros D. apply tokenize_loop_spec; auto. Qed.

Lemma lexeme_nonempty d k v s rest : lexeme d k v s rest -> s <> [].
Proof.
  intros H; destruct H; try discriminate.
  cbn [In symbols] in H. repeat destruct H as [H|H]; try contradiction;
    injection H as <- <- <-; discriminate.
Qed.

(** The loop follows [reads]. *)
Lemma tokenize_loop_reads d pc : dialect_ok d -> forall p src l rem,
  reads d p src l rem -> forall fuel acc, (List.length src < fuel)%nat ->
  exists fuel' q, (List.length rem < fuel')%nat /\
    tokenize_loop d pc fuel (mkTS src (pline p) (pcol p)) acc =
    tokenize_loop d pc fuel' (mkTS rem (pline q) (pcol q)) (rev (filter (keep pc) (map fst l)) ++ acc).
Proof.
  intros D p src l rem R. induction R; intros fuel acc L.
  - exists fuel, p. auto.
  - destruct fuel as [|f]; [lia|]. cbn [tokenize_loop]. rewrite scan_eq.
    cbn [ts_src ts_line ts_col]. rewrite (next_complete d k v s text _ _ D H).
    unfold tok_res.
    assert (L' : (List.length text < f)%nat).
    { apply lexeme_nonempty in H. rewrite app_length in L. destruct s; [congruence|]. cbn in L. lia. }
    destruct p as [line col]. cbn [pline pcol].
    rewrite <- H0. cbn [map fst filter]. unfold keep at 1. cbn [tkind].
    destruct (negb pc && is_ws_kind k) eqn:K.
    + destruct (IHR f acc L') as (f' & q' & F & E). exists f', q'. split; auto.
      rewrite E. replace (pc || negb (is_ws_kind k)) with false; auto.
      destruct pc, (is_ws_kind k); auto; discriminate.
    + destruct q as [ql qc]. cbn [pline pcol] in *.
      destruct (IHR f (mkTok k v (mkPos line col) (mkPos ql qc) :: acc) L') as (f' & q' & F & E).
      exists f', q'. split; auto. rewrite E.
      replace (pc || negb (is_ws_kind k)) with true.
      * cbn. now rewrite <- app_assoc.
      * destruct pc, (is_ws_kind k); auto; discriminate.
Qed.

Lemma tokenize_ok_iff d pc src toks : dialect_ok d ->
  tokenize d pc src = TOk toks <->
  exists l, reads d start_pos (skip_bom src) l [] /\ toks = filter (keep pc) (map fst l).
Proof.
  intros D. split.
  - intros E. pose proof (tokenize_spec d pc src D) as T. rewrite E in T. exact T.
  - intros (l & R & ->). unfold tokenize.
    destruct (tokenize_loop_reads d pc D _ _ _ _ R (S (List.length (skip_bom src))) [])
      as (f & q & F & E); [lia|].
    cbn [start_pos pline pcol] in E. rewrite E.
    destruct f as [|f]; [cbn in F; lia|].
    cbn [tokenize_loop]. rewrite scan_eq. cbn [ts_src ts_line ts_col next].
    rewrite (ok_start_eof d D), (ok_delim_eof d D).
    now rewrite app_nil_r, rev_involutive.
Qed.

Lemma tokenize_err_iff d pc src : dialect_ok d ->
  tokenize d pc src = TErr <->
  exists l rem, reads d start_pos (skip_bom src) l rem /\ lex_error rem.
Proof.
  intros D. split.
  - intros E. pose proof (tokenize_spec d pc src D) as T. rewrite E in T. exact T.
  - intros (l & rem & R & F). unfold tokenize.
    destruct (tokenize_loop_reads d pc D _ _ _ _ R (S (List.length (skip_bom src))) [])
      as (f & q & L & E); [lia|].
    cbn [start_pos pline pcol] in E. rewrite E.
    destruct f as [|f]; [cbn in L; lia|].
    cbn [tokenize_loop]. rewrite scan_eq. cbn [ts_src ts_line ts_col].
    destruct (next_error d rem (pline q) (pcol q) D F) as (r & l' & c & ->). reflexivity.
Qed.

Lemma tokenize_hang_iff d pc src : dialect_ok d ->
  tokenize d pc src = THang <->
  exists l rem, reads d start_pos (skip_bom src) l rem /\ unclosed_delimited d rem.
Proof.
  intros D. split.
  - intros E. pose proof (tokenize_spec d pc src D) as T. rewrite E in T. exact T.
  - intros (l & rem & R & F). unfold tokenize.
    destruct (tokenize_loop_reads d pc D _ _ _ _ R (S (List.length (skip_bom src))) [])
      as (f & q & L & E); [lia|].
    cbn [start_pos pline pcol] in E. rewrite E.
    destruct f as [|f]; [cbn in L; lia|].
    cbn [tokenize_loop]. rewrite scan_eq. cbn [ts_src ts_line ts_col].
    rewrite (next_hang d rem (pline q) (pcol q) D F). reflexivity.
Qed.

Lemma tokenize_no_fuel d pc src : dialect_ok d -> tokenize d pc src <> TFuel.
Proof. intros D E. pose proof (tokenize_spec d pc src D) as T. now rewrite E in T. Qed.
