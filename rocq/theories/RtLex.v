(** The text printed for a readable tree is read as the tokens of the tree. *)
From Coq Require Import ZArith List Bool String Lia.
From Verif Require Import Base Dialect Token Lexer LexSpec AST Num Printer WriteThms AstInd ParseSpec Grammar NumThms LexFacts LexThms
  ValueThms Render RtEq.
Import ListNotations.
Open Scope string_scope.
Open Scope Z_scope.
Open Scope list_scope.

(** [lexes d text l rest]: before [rest], [text] is a sequence of tokens, of
    which [l] are the ones that are neither whitespace nor comments. *)
Inductive lexes (d : dialect) : list rune -> list (kind * tvalue) -> list rune -> Prop :=
| Lxs_nil rest : lexes d [] [] rest
| Lxs_blank k v s text l rest : is_ws_kind k = true -> lexeme d k v s (text ++ rest) ->
    lexes d text l rest -> lexes d (s ++ text) l rest
| Lxs_tok k v s text l rest : is_ws_kind k = false -> lexeme d k v s (text ++ rest) ->
    lexes d text l rest -> lexes d (s ++ text) ((k, v) :: l) rest.

Lemma lexes_app d a l1 r : lexes d a l1 r -> forall b l2 rest, r = b ++ rest -> lexes d b l2 rest ->
  lexes d (a ++ b) (l1 ++ l2) rest.
Proof.
  induction 1 as [r|k v s text l r W X _ IH|k v s text l r W X _ IH]; intros b l2 rest -> H; cbn [app]; [exact H| |];
    rewrite <- app_assoc; econstructor; eauto; rewrite <- app_assoc; exact X.
Qed.
Lemma lexes_one d k v s rest : is_ws_kind k = false -> lexeme d k v s rest -> lexes d s [(k, v)] rest.
Proof. intros W X. rewrite <- (app_nil_r s). eapply Lxs_tok; [exact W|exact X|constructor]. Qed.

Lemma lexes_reads d text l rest : lexes d text l rest -> forall p,
  exists tl, LexSpec.reads d p (text ++ rest) tl rest /\ map kv (sig (map fst tl)) = l.
Proof.
  induction 1 as [r|k v s text l r W X _ IH|k v s text l r W X _ IH]; intros p.
  - exists []. split; [constructor|reflexivity].
  - destruct (IH (token_end k v s p)) as (tl & R & E). eexists ((mkTok k v p _, s) :: tl). split.
    + rewrite <- app_assoc. econstructor; [exact X|reflexivity|exact R].
    + cbn [map fst sig filter]. unfold blank. cbn [tkind]. destruct k; try discriminate W; exact E.
  - destruct (IH (token_end k v s p)) as (tl & R & E). eexists ((mkTok k v p _, s) :: tl). split.
    + rewrite <- app_assoc. econstructor; [exact X|reflexivity|exact R].
    + cbn [map fst sig filter]. unfold blank. cbn [tkind]. destruct k; try discriminate W; cbn [negb map]; f_equal; exact E.
Qed.

(** *** What may follow *)

Definition calm_char (c : rune) : bool :=
  (c =? 32) || (c =? 40) || (c =? 41) || (c =? 44) || (c =? 59) || (c =? 91) || (c =? 10).
Definition calm (s : list rune) : bool := match s with [] => true | c :: _ => calm_char c end.
(** After a word a period may follow, too. *)
Definition calmw (s : list rune) : bool := match s with [] => true | c :: _ => calm_char c || (c =? 46) end.
Lemma calm_calmw s : calm s = true -> calmw s = true.
Proof. destruct s; [reflexivity|]. cbn. intros ->. reflexivity. Qed.
Lemma calm_app a b : calm a = true -> calm b = true -> calm (a ++ b) = true.
Proof. destruct a; auto. Qed.

Lemma calm_stops (P : rune -> bool) s : calm s = true -> (forall c, calm_char c = true -> P c = false) -> stops P s.
Proof. destruct s; [constructor|]. cbn. auto. Qed.
Lemma calmw_stops (P : rune -> bool) s : calmw s = true -> (forall c, calm_char c = true -> P c = false) -> P 46 = false -> stops P s.
Proof.
  destruct s as [|c s]; [constructor|]. cbn. intros H K1 K2. apply orb_true_iff in H as [H|H]; [auto|].
  apply Z.eqb_eq in H. subst c. exact K2.
Qed.
Ltac cases H := repeat (apply orb_true_iff in H as [H|H]).
Lemma calm_word c : calm_char c = true -> word_char c = false.
Proof. unfold calm_char. intros H. cases H; apply Z.eqb_eq in H; subst c; reflexivity. Qed.
Lemma calm_num c : calm_char c = true -> is_digit c || (c =? 46) = false.
Proof. unfold calm_char. intros H. cases H; apply Z.eqb_eq in H; subst c; reflexivity. Qed.
Lemma calm_quote c : calm_char c = true -> (c =? 39) = false.
Proof. unfold calm_char. intros H. cases H; apply Z.eqb_eq in H; subst c; reflexivity. Qed.

Section Lex.
  Variable d : dialect.
  Hypothesis D : dialect_words d.
  Notation D0 := (proj1 D).

  Lemma part_calm s : calmw s = true -> stops (is_part d) s.
  Proof.
    intros H. assert (K : forall c, word_char c = false -> is_part d c = false).
    { intros c E. destruct (is_part d c) eqn:P; [|reflexivity]. apply (proj2 D0) in P. congruence. }
    apply (calmw_stops _ _ H); [intros c C; apply K, calm_word, C|apply K; reflexivity].
  Qed.

  (** *** Fixed texts *)

  Definition fsym (c : rune) : option (kind * tvalue) :=
    if c =? 40 then Some (LParen, VStr (gs "(")) else if c =? 41 then Some (RParen, VStr (gs ")"))
    else if c =? 44 then Some (Comma, VStr (gs ",")) else if c =? 42 then Some (Mult, VStr (gs "*"))
    else if c =? 61 then Some (Eq, VStr (gs "=")) else if c =? 46 then Some (Period, VStr (gs "."))
    else if c =? 91 then Some (LBracket, VStr (gs "[")) else if c =? 93 then Some (RBracket, VStr (gs "]"))
    else if c =? 59 then Some (Semicolon, VStr (gs ";"))
    else None.
  Definition flush (w : list rune) (l : list (kind * tvalue)) : list (kind * tvalue) :=
    match w with [] => l | _ => (SQLKeyword, VWord (mkWord w 0 (upper w))) :: l end.
  (** The tokens of a fixed text; the flag tells whether it ends in a word. *)
  Fixpoint frag (s w : list rune) : option (list (kind * tvalue) * bool) :=
    match s with
    | [] => Some (flush w [], match w with [] => false | _ => true end)
    | c :: s' =>
        if is_letter c then frag s' (w ++ [c])
        else if (c =? 95) && match w with [] => false | _ => true end then frag s' (w ++ [c])
        else if negb (calm_char c || (c =? 46)) && match w with [] => false | _ => true end then None
        else if c =? 32 then option_map (fun p => (flush w (fst p), snd p)) (frag s' [])
        else match fsym c with
             | Some x => option_map (fun p => (flush w (x :: fst p), snd p)) (frag s' [])
             | None => None
             end
    end.

  Definition wordish (w : list rune) : Prop :=
    match w with [] => True | c :: w' => is_letter c = true /\ forallb (fun c => is_letter c || (c =? 95)) w' = true end.
  Lemma wordish_snoc w c : wordish w -> is_letter c = true \/ c = 95 /\ w <> [] -> wordish (w ++ [c]).
  Proof.
    destruct w as [|x w]; cbn.
    - intros _ [H|[_ H]]; [auto|congruence].
    - intros [H1 H2] H. split; [exact H1|]. rewrite forallb_app, H2. cbn. destruct H as [->|[-> _]]; reflexivity || (cbn; rewrite orb_true_r; reflexivity).
  Qed.
  Lemma word_lexes w rest : wordish w -> w <> [] -> calmw rest = true -> lexeme d SQLKeyword (VWord (mkWord w 0 (upper w))) w rest.
  Proof.
    destruct w as [|c w]; [congruence|]. intros [H1 H2] _ C. destruct D as (_ & L & U & _). apply Lx_word.
    - left. apply L. exact H1.
    - rewrite forallb_forall in H2 |- *. intros x I. specialize (H2 x I). apply orb_true_iff in H2 as [H2|H2].
      + apply L. exact H2.
      + apply Z.eqb_eq in H2. subst x. exact U.
    - apply part_calm. exact C.
    - intros _ _. apply (calmw_stops _ _ C); [apply calm_quote|reflexivity].
  Qed.
  Lemma flush_lexes w s l rest : wordish w -> lexes d s l rest -> (w <> [] -> calmw (s ++ rest) = true) ->
    lexes d (w ++ s) (flush w l) rest.
  Proof.
    intros W H C. destruct w as [|c w]; [exact H|]. unfold flush. eapply Lxs_tok; [reflexivity| |exact H].
    apply word_lexes; [exact W|discriminate|apply C; discriminate].
  Qed.
  Lemma fsym_lexes c x s l rest : fsym c = Some x -> lexes d s l rest -> lexes d (c :: s) (x :: l) rest.
  Proof.
    intros E H. change (c :: s) with ([c] ++ s). unfold fsym in E.
    repeat (destruct (c =? _) eqn:Q in E; [apply Z.eqb_eq in Q; subst c;
      match type of E with Some ?y = Some _ => assert (X : y = x) by congruence; clear E; subst x end;
      match goal with |- lexes d ([?c] ++ s) ((?k, VStr (gs ?t)) :: l) rest =>
        change [c] with (gs t); eapply Lxs_tok; [reflexivity|eapply (Lx_symbol d t k "")|exact H] end;
      [cbn; tauto|destruct (s ++ rest); [constructor|reflexivity]]|clear Q]).
    discriminate E.
  Qed.

  Lemma frag_lexes s : forall w l b rest, wordish w -> frag s w = Some (l, b) ->
    (b = true -> calm rest = true) -> lexes d (w ++ s) l rest.
  Proof.
    induction s as [|c s IH]; intros w l b rest W E C; cbn [frag] in E.
    - injection E as <- <-. apply flush_lexes; [exact W|constructor|].
      intros NE. cbn. destruct w; [congruence|]. apply calm_calmw, C. reflexivity.
    - destruct (is_letter c) eqn:LC.
      { specialize (IH (w ++ [c]) l b rest). rewrite <- app_assoc in IH. apply IH; [apply wordish_snoc; auto|exact E|exact C]. }
      destruct ((c =? 95) && match w with [] => false | _ => true end) eqn:UC.
      { specialize (IH (w ++ [c]) l b rest). rewrite <- app_assoc in IH. apply andb_true_iff in UC as [U1 U2].
        apply IH; [apply wordish_snoc; [exact W|right; split; [lia|destruct w; congruence]]|exact E|exact C]. }
      destruct (negb (calm_char c || (c =? 46)) && match w with [] => false | _ => true end) eqn:KC; [discriminate E|].
      assert (CW : w <> [] -> forall r, calmw (c :: r) = true).
      { intros NE r. destruct w; [congruence|]. rewrite andb_true_r in KC. apply negb_false_iff in KC. exact KC. }
      destruct (c =? 32) eqn:SP.
      + apply Z.eqb_eq in SP. subst c. destruct (frag s []) as [[l' b']|] eqn:F; [|discriminate E]. injection E as <- <-.
        cbn [fst snd] in *. apply flush_lexes; [exact W| |intros NE; apply CW; exact NE].
        change (32 :: s) with ([32] ++ s). eapply Lxs_blank; [|apply Lx_space|]; [reflexivity|].
        apply (IH [] l' b'); [constructor|exact F|exact C].
      + destruct (fsym c) as [x|] eqn:FS; [|discriminate E]. destruct (frag s []) as [[l' b']|] eqn:F; [|discriminate E].
        injection E as <- <-. cbn [fst snd] in *. apply flush_lexes; [exact W| |intros NE; apply CW; exact NE].
        apply fsym_lexes; [exact FS|]. apply (IH [] l' b'); [constructor|exact F|exact C].
  Qed.

  (** *** Lists of writes *)

  Notation txt := (flat_map op_text).
  Definition lx (ops : list wop) (l : list (kind * tvalue)) : Prop :=
    forall rest, calm rest = true -> lexes d (txt ops) l rest.
  Definition nlx (x : wnode) (l : list (kind * tvalue)) : Prop :=
    forall rest, calm rest = true -> lexes d (text_of x) l rest.

  Lemma lx_nil : lx [] [].
  Proof. intros r _. constructor. Qed.
  Lemma lx_app a b l1 l2 : lx a l1 -> calm (txt b) = true -> lx b l2 -> lx (a ++ b) (l1 ++ l2).
  Proof.
    intros H1 C H2 r K. rewrite flat_map_app. eapply lexes_app; [|reflexivity|apply H2; exact K]. apply H1, calm_app; auto.
  Qed.
  Lemma lx_n x ops l1 l2 : nlx x l1 -> calm (txt ops) = true -> lx ops l2 -> lx (WN x :: ops) (l1 ++ l2).
  Proof.
    intros H1 C H2 r K. cbn [flat_map op_text]. eapply lexes_app; [|reflexivity|apply H2; exact K]. apply H1, calm_app; auto.
  Qed.
  Lemma lx_b0 s ops l1 l2 : frag s [] = Some (l1, false) -> lx ops l2 -> lx (WB s :: ops) (l1 ++ l2).
  Proof.
    intros F H r K. cbn [flat_map op_text]. eapply lexes_app; [|reflexivity|apply H; exact K].
    apply (frag_lexes s [] l1 false); [constructor|exact F|discriminate].
  Qed.
  Lemma lx_b1 s ops l1 l2 : frag s [] = Some (l1, true) -> calm (txt ops) = true -> lx ops l2 -> lx (WB s :: ops) (l1 ++ l2).
  Proof.
    intros F C H r K. cbn [flat_map op_text]. eapply lexes_app; [|reflexivity|apply H; exact K].
    apply (frag_lexes s [] l1 true); [constructor|exact F|intros _; apply calm_app; auto].
  Qed.
  Lemma lx_single b ops l : lx (WB b :: ops) l -> lx (WN (WSingle b) :: ops) l.
  Proof. exact (fun H => H). Qed.
  Lemma lx_sw ops l : lx ops l -> nlx (WSw ops) l.
  Proof. exact (fun H => H). Qed.
  Lemma nlx_single b l : lx [WB b] l -> nlx (WSingle b) l.
  Proof. intros H r K. specialize (H r K). cbn [flat_map op_text] in H. rewrite app_nil_r in H. exact H. Qed.
  Lemma nlx_eq x l l' : nlx x l -> l = l' -> nlx x l'.
  Proof. intros H <-. exact H. Qed.
  Lemma lx_eq x l l' : lx x l -> l = l' -> lx x l'.
  Proof. intros H <-. exact H. Qed.

  Lemma lx_commas {A} (f : A -> wnode) (g : A -> list token) xs : Forall (fun a => nlx (f a) (map kv (g a))) xs ->
    lx (wcomma (map f xs)) (map kv (commas g xs)).
  Proof.
    unfold wcomma, commas. induction 1 as [|a xs H _ IH]; [apply lx_nil|]. destruct xs as [|b xs].
    - cbn [map wjoin sepby]. rewrite <- (app_nil_r (map kv (g a))). apply lx_n; [exact H|reflexivity|apply lx_nil].
    - cbn [map] in IH |- *. cbn [wjoin sepby] in IH |- *. rewrite map_app. apply lx_n; [exact H|reflexivity|].
      cbn [map]. change (kv comma :: ?l) with ([kv comma] ++ l). apply lx_b0; [reflexivity|exact IH].
  Qed.

  Lemma lx_concat {A} (f : A -> list wop) (g : A -> list token) xs :
    Forall (fun a => lx (f a) (map kv (g a)) /\ calm (txt (f a)) = true) xs ->
    lx (List.concat (map f xs)) (map kv (List.concat (map g xs))).
  Proof.
    induction 1 as [|a xs [H1 H2] K IH]; [apply lx_nil|]. cbn [map List.concat]. rewrite map_app. apply lx_app; auto.
    clear -K. induction K as [|a xs [H1 H2] _ IH]; [reflexivity|]. cbn [map List.concat]. rewrite flat_map_app. apply calm_app; auto.
  Qed.
  Lemma calm_concat {A} (f : A -> list wop) xs b : (forall a, calm (txt (f a)) = true) -> calm (txt b) = true ->
    calm (txt (List.concat (map f xs) ++ b)) = true.
  Proof.
    intros H C. induction xs as [|a xs IH]; [exact C|]. cbn [map List.concat]. rewrite <- app_assoc, flat_map_app. apply calm_app; auto.
  Qed.

  (** *** Identifiers and values *)

  Lemma ident_lexes i rest : wf_id d i = true -> calmw rest = true -> lexes d (id_value i) [kv (idt i)] rest.
  Proof.
    unfold wf_id, idt, kv, text_word. cbn [tkind tval]. destruct (id_value i) as [|q s]; [discriminate|]. intros W C.
    destruct ((q =? 34) || (q =? 96)) eqn:Q.
    - rewrite !andb_true_iff, gs_eqb_eq in W. destruct W as [[W1 W2] W3]. rewrite W2 at 1.
      apply lexes_one; [reflexivity|]. apply Lx_delimited; [exact W1|]. intros I. apply negb_true_iff in W3.
      assert (X : existsb (Z.eqb q) (removelast s) = true) by (apply existsb_exists; exists q; split; [exact I|apply Z.eqb_refl]).
      congruence.
    - apply andb_true_iff in W as [W1 W2]. apply lexes_one; [reflexivity|]. apply Lx_word.
      + apply orb_true_iff in W1 as [W1|W1]; [auto|right; lia].
      + exact W2.
      + apply part_calm. exact C.
      + intros _ _. apply (calmw_stops _ _ C); [apply calm_quote|reflexivity].
  Qed.
  Lemma nlx_ident i : wf_id d i = true -> nlx (wt_ident i) [kv (idt i)].
  Proof. intros W r K. apply ident_lexes; [exact W|apply calm_calmw; exact K]. Qed.
  Lemma dots_lexes l rest : forallb (wf_id d) l = true -> calmw rest = true ->
    lexes d (txt (widents "." l)) (map kv (t_dots l)) rest.
  Proof.
    unfold widents, t_dots. induction l as [|i l IH]; intros W C; [constructor|]. cbn [forallb] in W. apply andb_true_iff in W as [W1 W2].
    destruct l as [|j l].
    - cbn. rewrite app_nil_r. apply ident_lexes; auto.
    - specialize (IH W2 C). cbn [map wjoin sepby] in IH |- *. cbn [flat_map op_text] in IH |- *.
      change (map kv ([idt i] ++ dot :: ?x)) with ([kv (idt i)] ++ [kv dot] ++ map kv x).
      eapply lexes_app; [|reflexivity|eapply lexes_app; [|reflexivity|exact IH]].
      + apply ident_lexes; [exact W1|reflexivity].
      + apply (frag_lexes (gs ".") [] _ false); [constructor|reflexivity|discriminate].
  Qed.
  Lemma nlx_name o : wf_on d o = true -> nlx (wt_objname o) (map kv (t_name o)).
  Proof. unfold wf_on, wf_ids. rewrite andb_true_iff. intros [_ W] r K. apply dots_lexes; [exact W|apply calm_calmw; exact K]. Qed.
  Lemma lx_dots l : wf_ids d l = true -> lx (widents "." l) (map kv (t_dots l)).
  Proof. unfold wf_ids. rewrite andb_true_iff. intros [_ W] r K. apply dots_lexes; [exact W|apply calm_calmw; exact K]. Qed.
  Lemma lx_wild l : wf_ids d l = true -> lx (widents "." l ++ [wl ".*"]) (map kv (t_dots l ++ [dot; star])).
  Proof.
    unfold wf_ids. rewrite andb_true_iff. intros [_ W] r K. rewrite flat_map_app, map_app.
    eapply lexes_app; [apply dots_lexes; [exact W|]|reflexivity|apply (frag_lexes _ [] _ false); [constructor|reflexivity|discriminate]].
    reflexivity.
  Qed.
  Lemma lx_ids l : forallb (wf_id d) l = true -> lx (widents ", " l) (map kv (t_ids l)).
  Proof.
    intros W. apply (lx_commas wt_ident (fun i => [idt i])). rewrite forallb_forall in W. apply Forall_forall.
    intros i I. apply nlx_ident. auto.
  Qed.
  Lemma lx_wids l : wf_ids d l = true -> lx (widents ", " l) (map kv (t_ids l)).
  Proof. unfold wf_ids. rewrite andb_true_iff. intros [_ W]. apply lx_ids. exact W. Qed.

  Lemma int_lexes z rest : wf_int z = true -> calm rest = true -> lexes d (format_int z) [kv (num z)] rest.
  Proof.
    unfold wf_int. rewrite andb_true_iff. intros [W _] C. destruct (format_int_ok z) as [[NE H] _]; [lia|].
    unfold num, kv. cbn [tkind tval]. destruct (format_int z) as [|c s]; [congruence|]. cbn [forallb] in H.
    apply andb_true_iff in H as [H1 H2]. apply lexes_one; [reflexivity|]. apply Lx_number; [exact H1| |].
    - rewrite forallb_forall in H2 |- *. intros x I. rewrite (H2 x I). reflexivity.
    - apply (calm_stops _ _ C). apply calm_num.
  Qed.
  Lemma lx_int z ops l : wf_int z = true -> calm (txt ops) = true -> lx ops l -> lx (wint z :: ops) ([kv (num z)] ++ l).
  Proof.
    intros W C H r K. cbn [flat_map op_text wint]. eapply lexes_app; [|reflexivity|apply H; exact K]. apply int_lexes; [exact W|apply calm_app; auto].
  Qed.
  Lemma nlx_long v : wf_int (lv_long v) = true -> nlx (wt_long v) [kv (num (lv_long v))].
  Proof. intros W r K. apply int_lexes; auto. Qed.

  Lemma nlx_op o : op_type o <> ONone -> nlx (wt_operator o) (map kv (t_op (op_type o))).
  Proof.
    intros NE r K. unfold wt_operator.
    assert (Sy : forall s k f, In (s, k, f) symbols -> is_ws_kind k = false ->
      (forall c, calm_char c = true -> existsb (Z.eqb c) (gs f) = false) -> lexes d (gs s) [(k, VStr (gs s))] r).
    { intros s k f I W H. apply lexes_one; [exact W|]. apply (Lx_symbol d s k f); [exact I|]. apply (calm_stops _ _ K). exact H. }
    assert (Kw : forall s l, frag (gs s) [] = Some (l, true) -> lexes d (gs s) l r).
    { intros s l F. apply (frag_lexes (gs s) [] l true); [constructor|exact F|auto]. }
    destruct (op_type o); try congruence; cbn [text_of t_op map]; try (apply Kw; reflexivity);
      (eapply Sy; [cbn; tauto|reflexivity|intros c H; unfold calm_char in H; cases H; apply Z.eqb_eq in H; subst c; reflexivity]).
  Qed.

  (** *** Trees *)

  Lemma Forall_wf {A} (f : A -> bool) (P : A -> Prop) l : Forall (fun a => f a = true -> P a) l -> forallb f l = true -> Forall P l.
  Proof. induction 1 as [|a l H _ IH]; constructor; cbn [forallb] in *; apply andb_true_iff in H0 as [H1 H2]; auto. Qed.

  Ltac cl := reflexivity.
  Ltac nd := first
    [ eassumption
    | match goal with IH : _ -> nlx ?x _ |- nlx ?x _ => apply IH; assumption end
    | apply nlx_ident; assumption | apply nlx_name; assumption | apply nlx_long; assumption
    | match goal with IH : forall x, _ -> nlx (?f x) _ |- nlx (?f _) _ => apply IH; assumption end ].
  Ltac seg := lazymatch goal with
    | |- lx [] _ => apply lx_nil
    | |- lx (wl ?s :: _) _ => unfold wl at 1
    | |- lx (WB (gs ?s) :: _) _ =>
        let r := eval vm_compute in (frag (gs s) []) in
        lazymatch r with
        | Some (?l, false) => eapply (lx_b0 _ _ l); [reflexivity|]
        | Some (?l, true) => eapply (lx_b1 _ _ l); [reflexivity|cl|]
        end
    | |- lx (WN (WSingle (gs _)) :: _) _ => apply lx_single
    | |- lx (wint _ :: _) _ => eapply lx_int; [assumption|cl|]
    | |- lx (WN _ :: _) _ => eapply lx_n; [nd|cl|]
    | |- lx ((_ ++ _) ++ _) _ => rewrite <- app_assoc
    | |- lx ((_ :: _) ++ _) _ => cbn [app]
    | |- lx ([] ++ _) _ => cbn [app]
    | |- lx (wcomma _ ++ _) _ => eapply lx_app; [eapply lx_commas; eassumption|cl|]
    | |- lx (wcomma _) _ => eapply lx_commas; eassumption
    | |- lx (widents ", " _ ++ _) _ => eapply lx_app; [first [apply lx_ids; assumption|apply lx_wids; assumption]|cl|]
    | |- lx (widents ", " _) _ => first [apply lx_ids; assumption|apply lx_wids; assumption]
    end.
  Ltac teq := unfold parens, t_size, t_unsigned; cbn [opt cond list_of];
    repeat (rewrite ?map_app, ?app_nil_r, <- ?app_assoc; cbn [map app]); reflexivity.
  Ltac sw := solve [eapply nlx_eq; [first [apply lx_sw|apply nlx_single]; repeat seg|teq]].
  Ltac spl := rewrite ?andb_true_iff in *; repeat match goal with H : _ /\ _ |- _ => destruct H end.

  Lemma nlx_limit l : wf_limit l = true -> nlx (wt_limit l) (map kv (t_limit l)).
  Proof.
    destruct l as [p1 p2 v o]. unfold wf_limit, wt_limit, t_limit. cbn [AST.lim_value AST.lim_offset].
    destruct v as [v|], o as [o|]; cbn [all_opt some negb app]; intros W; spl; try discriminate W; sw.
  Qed.
  Lemma nlx_bound b : wf_bound b = true -> nlx (wt_wbound b) (map kv (t_bound b)).
  Proof. destruct b; cbn [wf_bound wt_wbound t_bound]; intros W; sw. Qed.
  Lemma nlx_frame f : wf_wframe f = true -> nlx (wt_wframe f) (map kv (t_frame f)).
  Proof.
    destruct f as [u st e]. unfold wf_wframe, wt_wframe, t_frame, wt_wframeunit. cbn [wf_units wf_start wf_end].
    intros W. spl. pose proof (nlx_bound st H) as B.
    destruct e as [e|]; cbn [all_opt] in *; [pose proof (nlx_bound e H0) as B2|]; destruct (wfu_type u); sw.
  Qed.
  Lemma nlx_type t : wf_type d t = true -> nlx (wt_dtype t) (map kv (t_type t)).
  Proof.
    destruct t; cbn [wf_type wt_dtype t_type]; unfold type_with_len; intros W; try discriminate W; spl;
      repeat match goal with
             | o : option Z |- _ => destruct o; cbn [all_opt some] in *
             | |- context [wif ?b _] => destruct b; cbn [wif]
             end; try discriminate; cbn [app]; try sw.
    - destruct t; try discriminate W. assert (B : nlx (wt_dtype (TText from to)) [kv (kwt "text")]) by (cbn [wt_dtype]; sw). sw.
    - apply nlx_name. assumption.
  Qed.

  Lemma nlx_setop o : nlx (wt_setop o) [kv (t_setop o)].
  Proof. destruct o; cbn [wt_setop t_setop]; sw. Qed.
  Lemma lx_jointype j ops l : lx ops l -> lx (WN (wt_jointype j) :: ops) (map kv (t_join (jt_cond j)) ++ l).
  Proof.
    intros H. unfold wt_jointype, jointype_string. destruct (jt_cond j); apply lx_single; cbn [t_join map];
      (apply lx_b0; [reflexivity|exact H]).
  Qed.
  Lemma nlx_float f : wf_node d (EDouble pos0 pos0 f) = true -> nlx (WSingle (format_float f)) [(Number, VStr (format_float f))].
  Proof.
    rewrite wf_node_eq. cbv beta iota. spl. intros W r K. spl. destruct (format_float f) as [|c w]; [discriminate|].
    cbn [forallb text_of] in *. spl. apply lexes_one; [reflexivity|]. apply Lx_number; try assumption.
    apply (calm_stops _ _ K). apply calm_num.
  Qed.
  Lemma no_quote_in s : no_quote s = true -> ~ In 39 s.
  Proof.
    unfold no_quote. rewrite negb_true_iff. intros H I.
    assert (X : existsb (fun c => c =? 39) s = true) by (apply existsb_exists; exists 39; auto). congruence.
  Qed.
  Lemma nlx_string s : no_quote s = true -> nlx (WSeq [gs "'"; s; gs "'"]) [(SingleQuotedString, VStr s)].
  Proof.
    intros W r K. apply no_quote_in in W. apply lexes_one; [reflexivity|]. cbn [text_of List.concat]. rewrite app_nil_r.
    rewrite <- (escape_id s W) at 2. apply Lx_string. apply (calm_stops _ _ K). apply calm_quote.
  Qed.
  Lemma nlx_nstring s : no_quote s = true -> nlx (WSeq [gs "N'"; s; gs "'"]) [(NationalStringLiteral, VStr s)].
  Proof.
    intros W r K. apply no_quote_in in W. apply lexes_one; [reflexivity|]. cbn [text_of List.concat]. rewrite app_nil_r.
    rewrite <- (escape_id s W) at 2. apply Lx_nstring. apply (calm_stops _ _ K). apply calm_quote.
  Qed.

  Ltac seg2 := lazymatch goal with
    | |- lx (WN (wt_jointype _) :: _) _ => eapply lx_jointype
    | _ => seg
    end.
  Ltac sw ::= solve [eapply nlx_eq; [first [apply lx_sw|apply nlx_single]; repeat seg2|teq]].
  Ltac nd ::= first
    [ eassumption
    | match goal with IH : _ -> nlx ?x _ |- nlx ?x _ => apply IH; assumption end
    | apply nlx_ident; assumption | apply nlx_name; assumption | apply nlx_long; assumption
    | apply nlx_type; assumption | apply nlx_frame; assumption | apply nlx_limit; assumption | apply nlx_setop
    | apply nlx_string; assumption | apply nlx_nstring; assumption | apply nlx_float; rewrite wf_node_eq; spl; assumption
    | apply nlx_op; let E := fresh in intros E;
      match goal with H : (match op_type _ with _ => _ end) = true |- _ => rewrite E in H; discriminate H end
    | match goal with IH : forall x, _ -> nlx (?f x) _ |- nlx (?f _) _ => apply IH; assumption end ].

  Lemma nlx_wild p : wf_on d p = true -> nlx (WSw [WN (wt_objname p); wl ".*"]) (map kv (t_name p ++ [dot; star])).
  Proof. intros W r K. pose proof (lx_wild (on_idents p) W r K) as H. rewrite flat_map_app in H. exact H. Qed.

  Lemma case_lex o bs el :
    let P := fun e => wf_node d e = true -> nlx (wt_node e) (map kv (t_node e)) in
    opt_all P o -> Forall (fun b => P (fst b) /\ P (snd b)) bs -> opt_all P el ->
    match o with Some o => wf_node d o && negb (starts "WHEN" (t_node o)) | None => true end = true ->
    forallb (fun p => match p with (c, r) => wf_node d c && wf_node d r end) bs = true ->
    match el with Some e => wf_node d e | None => true end = true ->
    nlx (WSw ([wl "CASE"] ++
       match o with Some o => [wl " "; WN (wt_node o)] | None => [] end ++
       List.concat (map (fun p : node * node => match p with (c, r) =>
             [wl " WHEN "; WN (wt_node c); wl " THEN "; WN (wt_node r)] end) bs) ++
       match el with Some e => [wl " ELSE "; WN (wt_node e)] | None => [] end ++ [wl " END"]))
   (map kv (kwt "CASE" ::
        match o with Some o => t_node o | None => [] end ++
          List.concat (map (fun p => match p with (c, r) => kwt "WHEN" :: t_node c ++ kwt "THEN" :: t_node r end) bs) ++
          match el with Some e => kwt "ELSE" :: t_node e | None => [] end ++ [kwt "END"])).
  Proof.
    intros P Ho Hb He Wo Wb We. apply lx_sw. cbn [app map]. change (kv (kwt "CASE") :: ?l) with ([kv (kwt "CASE")] ++ l).
    set (f := fun p : node * node => match p with (c, r) => [wl " WHEN "; WN (wt_node c); wl " THEN "; WN (wt_node r)] end).
    assert (CE : calm (txt (match el with Some e => [wl " ELSE "; WN (wt_node e)] | None => [] end ++ [wl " END"])) = true)
      by (destruct el; reflexivity).
    assert (CF : calm (txt (List.concat (map f bs) ++
      match el with Some e => [wl " ELSE "; WN (wt_node e)] | None => [] end ++ [wl " END"])) = true)
      by (apply calm_concat; [intros [c r]; reflexivity|exact CE]).
    rewrite !map_app. unfold wl at 1. apply lx_b1; [reflexivity|destruct o; [reflexivity|exact CF]|].
    apply lx_app; [destruct o as [o|]|exact CF|apply lx_app; [|exact CE|]].
    - spl. eapply lx_eq; [seg; seg; eapply lx_n; [apply Ho; assumption|reflexivity|apply lx_nil]|teq].
    - apply lx_nil.
    - apply lx_concat. rewrite Forall_forall in Hb |- *. rewrite forallb_forall in Wb. intros [c r] I. specialize (Wb _ I). specialize (Hb _ I).
      cbv beta iota in Wb. unfold P in Hb. spl. cbn [fst snd] in *. split; [|reflexivity]. unfold f. eapply lx_eq; [repeat seg|teq].
    - unfold P in He. destruct el as [e|]; cbn [opt_all] in *; (eapply lx_eq; [repeat seg|teq]).
  Qed.

  Lemma ast_lex :
    (forall e, wf_node d e = true -> nlx (wt_node e) (map kv (t_node e))) /\
    (forall w, wf_winspec d w = true -> nlx (wt_winspec w) (map kv (t_winspec w))) /\
    (forall o, wf_orderby d o = true -> nlx (wt_orderby o) (map kv (t_orderby o))) /\
    (forall q, wf_query d q = true -> nlx (wt_query q) (map kv (t_query q))) /\
    (forall c, wf_cte d c = true -> nlx (wt_cte c) (map kv (t_cte c))) /\
    (forall b, wf_setexpr d b = true -> nlx (wt_setexpr b) (map kv (t_setexpr b))) /\
    (forall s, wf_select d s = true -> nlx (wt_select s) (map kv (t_select s))) /\
    (forall i, wf_selitem d i = true -> nlx (wt_selitem i) (map kv (t_selitem i))) /\
    (forall t, wf_tableref d t = true -> nlx (wt_tableref t) (map kv (t_tableref t))) /\
    (forall j, wf_joinspec d j = true -> nlx (wt_joinspec j) (map kv (t_joinspec j))).
  Proof.
    apply ast_ind; intros;
      match goal with
      | H : wf_node d _ = true |- _ => rewrite wf_node_eq in H; rewrite wt_node_eq, t_node_eq
      | H : wf_winspec d _ = true |- _ => rewrite wf_winspec_eq in H; rewrite wt_winspec_eq, t_winspec_eq
      | H : wf_orderby d _ = true |- _ => rewrite wf_orderby_eq in H; rewrite wt_orderby_eq, t_orderby_eq
      | H : wf_query d _ = true |- _ => rewrite wf_query_eq in H; rewrite wt_query_eq, t_query_eq
      | H : wf_cte d _ = true |- _ => rewrite wf_cte_eq in H; rewrite wt_cte_eq, t_cte_eq
      | H : wf_setexpr d _ = true |- _ => rewrite wf_setexpr_eq in H; rewrite wt_setexpr_eq, t_setexpr_eq
      | H : wf_select d _ = true |- _ => rewrite wf_select_eq in H; rewrite wt_select_eq, t_select_eq
      | H : wf_selitem d _ = true |- _ => rewrite wf_selitem_eq in H; rewrite wt_selitem_eq, t_selitem_eq
      | H : wf_tableref d _ = true |- _ => rewrite wf_tableref_eq in H; rewrite wt_tableref_eq, t_tableref_eq
      | H : wf_joinspec d _ = true |- _ => rewrite wf_joinspec_eq in H; rewrite wt_joinspec_eq, t_joinspec_eq
      end; cbv beta iota in *; spl;
      repeat match goal with
      | H : Forall (fun a => ?f a = true -> _) ?l, K : forallb ?f ?l = true |- _ => apply (Forall_wf f _ l H) in K; clear H
      end.
    all: try (apply case_lex; assumption).
    all: repeat match goal with
      | H : opt_all _ ?o |- _ => destruct o; cbn [opt_all] in H
      | |- context [wif ?b _] => destruct b; cbn [wif]
      | |- context [match ?o with Some _ => _ | None => _ end] => destruct o
      | |- context [is_nil ?l] => is_var l; destruct l; cbn [is_nil andb]
      | |- context [if ?b then _ else _] => destruct b
      end; cbn [all_opt andb] in *; spl.
    all: try (nd; fail).
    all: try (cbn [nonempty negb] in *; discriminate).
    all: try (sw; fail).
    - apply lx_sw, lx_wild. assumption.
    - apply lx_sw, lx_dots. assumption.
    - apply nlx_float. rewrite wf_node_eq. cbv beta iota. rewrite !andb_true_iff. auto.
    - apply nlx_wild. assumption.
  Qed.

  Definition node_lex := proj1 ast_lex.
  Lemma orderby_lex o : wf_orderby d o = true -> nlx (wt_orderby o) (map kv (t_orderby o)).
  Proof. apply ast_lex. Qed.
  Lemma query_lex q : wf_query d q = true -> nlx (wt_query q) (map kv (t_query q)).
  Proof. apply ast_lex. Qed.

  Lemma forall_lex {A} (f : A -> bool) (g : A -> wnode) (h : A -> list token) l :
    (forall a, f a = true -> nlx (g a) (map kv (h a))) -> forallb f l = true -> Forall (fun a => nlx (g a) (map kv (h a))) l.
  Proof. intros H W. rewrite forallb_forall in W. apply Forall_forall. intros a I. apply H, W, I. Qed.

  Ltac nd ::= first
    [ eassumption
    | apply nlx_ident; assumption | apply nlx_name; assumption | apply nlx_type; assumption
    | apply node_lex; assumption | apply query_lex; assumption ].

  Lemma row_lex r : forallb (wf_node d) (row_values r) = true -> nlx (wt_row r) (map kv (t_row r)).
  Proof. intros W. apply (forall_lex _ wt_node t_node) in W; [|apply node_lex]. unfold wt_row, t_row. sw. Qed.
  Lemma source_lex s : wf_source d s = true -> nlx (wt_source s) (map kv (t_source s)).
  Proof.
    destruct s as [q|p rows]; cbn [wf_source wt_source t_source]; intros W; [apply query_lex; exact W|]. spl.
    apply (forall_lex _ wt_row t_row) in H0; [sw|]. intros r W. spl. apply row_lex. assumption.
  Qed.
  Lemma assign_lex a : wf_assign d a = true -> nlx (wt_assign a) (map kv (t_assign a)).
  Proof. unfold wf_assign, wt_assign, t_assign. intros W. spl. sw. Qed.
  Lemma refkey_lex k : wf_id d (rk_table k) = true -> forallb (wf_id d) (rk_columns k) = true -> nlx (wt_refkey k) (map kv (t_refkey k)).
  Proof. unfold wt_refkey, t_refkey. intros W1 W2. sw. Qed.
  Lemma tcspec_lex s : wf_tcspec d s = true -> nlx (wt_tcspec s) (map kv (t_tcspec s)).
  Proof.
    destruct s as [pk ? ? ? cols|? cols key|? ? e]; cbn [wf_tcspec wt_tcspec t_tcspec]; intros W; spl.
    - destruct pk; sw.
    - pose proof (refkey_lex key H1 H0). sw.
    - sw.
  Qed.
  Lemma tc_lex t : wf_tc d t = true -> nlx (wt_tableconstraint t) (map kv (t_tc t)).
  Proof.
    unfold wf_tc, wt_tableconstraint, t_tc, t_cname. intros W. spl. pose proof (tcspec_lex _ H0).
    destruct (tc_name t); cbn [all_opt] in *; sw.
  Qed.
  Lemma cc_lex c : wf_cc d c = true -> nlx (wt_colconstraint c) (map kv (t_cc c)).
  Proof.
    unfold wf_cc, wt_colconstraint, t_cc, t_cname. intros W. spl.
    assert (X : nlx (wt_ccspec (cc_spec c)) (map kv (t_ccspec (cc_spec c)))).
    { destruct (cc_spec c) as [| pk | |]; cbn [wt_ccspec t_ccspec]; spl; try destruct pk; sw. }
    destruct (cc_name c); cbn [all_opt] in *; sw.
  Qed.

  Lemma lx_list {A} (f : A -> wnode) (g : A -> list token) xs :
    Forall (fun a => nlx (f a) (map kv (g a))) xs -> (forall a, In a xs -> calm (text_of (f a)) = true) ->
    lx (map (fun a => WN (f a)) xs) (map kv (List.concat (map g xs))).
  Proof.
    intros H C. replace (map (fun a => WN (f a)) xs) with (List.concat (map (fun a => [WN (f a)]) xs)).
    - apply lx_concat. apply Forall_forall. intros a I. rewrite Forall_forall in H. specialize (H a I). split.
      + rewrite <- (app_nil_r (map kv (g a))). apply lx_n; [exact H|reflexivity|apply lx_nil].
      + cbn [flat_map op_text]. rewrite app_nil_r. apply C, I.
    - clear. induction xs as [|a xs IH]; [reflexivity|]. cbn [map List.concat app]. f_equal. exact IH.
  Qed.
  Lemma calm_list {A} (f : A -> wnode) xs : (forall a, calm (text_of (f a)) = true) -> calm (txt (map (fun a => WN (f a)) xs)) = true.
  Proof. intros H. induction xs as [|a xs IH]; [reflexivity|]. cbn [map flat_map op_text]. apply calm_app; auto. Qed.

  Lemma coldef_lex c : wf_coldef d c = true -> nlx (wt_columndef c) (map kv (t_coldef c)).
  Proof.
    unfold wf_coldef, wt_columndef, t_coldef. intros W. spl. apply lx_sw.
    assert (K1 : forall k, calm (text_of (wt_colconstraint k)) = true) by reflexivity.
    pose proof (calm_list wt_colconstraint (cd_constraints c) K1) as K2.
    assert (K3 : calm (txt (List.concat (map (fun x => [wl " "; WN (wt_decoration x)]) (cd_decorations c)) ++
      map (fun k => WN (wt_colconstraint k)) (cd_constraints c))) = true).
    { apply calm_concat; [reflexivity|exact K2]. }
    assert (L : lx (List.concat (map (fun x => [wl " "; WN (wt_decoration x)]) (cd_decorations c)) ++
      map (fun k => WN (wt_colconstraint k)) (cd_constraints c))
      (map kv (map (fun _ => kwt "AUTO_INCREMENT") (cd_decorations c)) ++ map kv (List.concat (map t_cc (cd_constraints c))))).
    { apply lx_app; [|exact K2|].
      - replace (map (fun _ => kwt "AUTO_INCREMENT") (cd_decorations c))
          with (List.concat (map (fun _ : decoration => [kwt "AUTO_INCREMENT"]) (cd_decorations c))).
        + apply lx_concat. apply Forall_forall. intros x _. split; [|reflexivity]. unfold wt_decoration. eapply lx_eq; [repeat seg|teq].
        + generalize (cd_decorations c). intros l. induction l as [|x l IH]; [reflexivity|]. cbn [map List.concat app]. f_equal. exact IH.
      - apply lx_list; [|auto]. eapply forall_lex; [apply cc_lex|assumption]. }
    cbn [app map]. rewrite !map_app. change (kv (idt (cd_name c)) :: ?l) with ([kv (idt (cd_name c))] ++ l).
    eapply lx_n; [nd|reflexivity|]. unfold wl at 1. apply (lx_b0 _ _ []); [reflexivity|].
    eapply lx_n; [nd|destruct (cd_default c); [reflexivity|exact K3]|]. apply lx_app; [|exact K3|exact L].
    destruct (cd_default c) as [e|]; [|apply lx_nil]. cbn [all_opt opt] in *. spl. eapply lx_eq; [repeat seg|teq].
  Qed.
  Lemma element_lex e : wf_element d e = true -> nlx (wt_tableelement e) (map kv (t_element e)).
  Proof. destruct e; cbn [wf_element wt_tableelement t_element]; intros W; spl; [apply coldef_lex|apply tc_lex]; assumption. Qed.
  Lemma option_lex o : wf_option d o = true -> nlx (wt_tableoption o) (map kv (t_option o)).
  Proof.
    destruct o as [? b n|b ? ? b2 n]; cbn [wf_option wt_tableoption t_option]; intros W; [destruct b|destruct b, b2]; cbn [wif]; sw.
  Qed.
  Lemma altercol_lex a : wf_altercol d a = true -> nlx (wt_altercol a) (map kv (t_altercol a)).
  Proof. destruct a; cbn [wf_altercol wt_altercol t_altercol]; intros W; spl; sw. Qed.
  Lemma altertable_lex a : wf_altertable d a = true -> nlx (wt_altertable a) (map kv (t_altertable a)).
  Proof.
    destruct a; cbn [wf_altertable wt_altertable t_altertable]; intros W; spl;
      repeat match goal with H : wf_altercol d _ = true |- _ => apply altercol_lex in H
        | H : wf_tc d _ = true |- _ => apply tc_lex in H | H : wf_coldef d _ = true |- _ => apply coldef_lex in H
        | |- context [wif ?b _] => destruct b; cbn [wif] end; sw.
  Qed.

  Lemma stmt_lex s : wf_stmt d s = true -> nlx (wt_stmt s) (map kv (t_stmt s)).
  Proof.
    induction s; cbn [wf_stmt wt_stmt t_stmt]; unfold wf_where, t_where; intros W; spl;
      repeat match goal with
      | H : wf_source d _ = true |- _ => apply source_lex in H
      | H : wf_altertable d _ = true |- _ => apply altertable_lex in H
      | H : forallb (wf_assign d) _ = true |- _ => apply (forall_lex _ wt_assign t_assign) in H; [|apply assign_lex]
      | H : forallb (wf_element d) _ = true |- _ => apply (forall_lex _ wt_tableelement t_element) in H; [|apply element_lex]
      | H : forallb (wf_option d) _ = true |- _ => apply (forall_lex _ wt_tableoption t_option) in H; [|apply option_lex]
      | H : all_opt _ ?o = true |- _ => destruct o; cbn [all_opt] in H; spl
      | |- context [wif ?b _] => destruct b; cbn [wif]
      | |- context [is_nil ?l] => is_var l; destruct l; cbn [is_nil]
      end; try solve [nd]; try sw.
    1-4: (destruct tables as [|t [|t2 tables]]; try discriminate W;
      assert (F : Forall (fun o => nlx (wt_objname o) (map kv (t_name o))) [t]) by (repeat constructor; apply nlx_name; exact W); sw).
    apply IHs in W. sw.
  Qed.
End Lex.
