(** Running parsers on written trees: single tokens, names, types. *)
From Coq Require Import ZArith List Bool String Lia.
From Verif Require Import Base Dialect Token Lexer LexSpec AST Num Prog Parser Sim Erase Grammar NumThms Render.
Import ListNotations.
Open Scope string_scope.
Open Scope Z_scope.
Open Scope list_scope.

Notation R := (run fm_machine).

Lemma R_step {A B} (p : prog A) (f : A -> prog B) s a s' res :
  R p s = Ok a s' -> R (f a) s' = res -> R (bind p f) s = res.
Proof. intros H1 H2. rewrite run_bind, H1. exact H2. Qed.

(** *** First tokens *)

Definition bp (t : token) : Z :=
  match tkind t with
  | SQLKeyword =>
      match tval t with
      | VWord w =>
          if kw w "OR" then 5 else if kw w "AND" then 10 else if kw w "NOT" then 15
          else if kw w "IS" then 17 else if kw w "IN" then 20 else if kw w "BETWEEN" then 20
          else if kw w "LIKE" then 20 else 0
      | VStr _ => 0
      end
  | Eq | Lt | LtEq | Neq | Gt | GtEq => 20
  | Plus | Minus => 30
  | Mult | Div | Mod => 40
  | DoubleColon => 50
  | _ => 0
  end.
Definition nprec (l : list token) : Z := match l with [] => 0 | t :: _ => bp t end.

(** The first token is of a kind. *)
Definition isk (k : kind) (l : list token) : bool := match l with [] => false | t :: _ => is_kind k t end.
(** Keyword comparison of the first token. *)
Definition iskw (s : string) (l : list token) : bool :=
  match l with
  | t :: _ => match tval t with VWord w => kw w s | VStr _ => false end
  | [] => false
  end.
(** The first token's value matches its kind; it has no position. *)
Definition sane (l : list token) : bool :=
  match l with
  | t :: _ => match tval t with VWord _ => is_kind SQLKeyword t | VStr _ => negb (is_kind SQLKeyword t) end
              && Grammar.no_pos (tto t)
  | [] => true
  end.
(** The first token is none of these. *)
Definition clear (ks : list string) (kinds : list kind) (l : list token) : bool :=
  sane l && forallb (fun s => negb (starts s l) && negb (iskw s l)) ks && forallb (fun k => negb (isk k l)) kinds.

Definition smem (s : string) (l : list string) : bool := existsb (String.eqb s) l.
Definition kmem (k : kind) (l : list kind) : bool := existsb (kind_eqb k) l.

Lemma kind_eqb_eq a b : kind_eqb a b = true <-> a = b.
Proof. split; [|intros ->; destruct b; reflexivity]. destruct a, b; intros H; try discriminate H; reflexivity. Qed.

Lemma smem_In s l : smem s l = true <-> In s l.
Proof.
  unfold smem. rewrite existsb_exists. split.
  - intros (x & I & E). apply String.eqb_eq in E. subst. exact I.
  - intros I. exists s. split; [exact I|apply String.eqb_refl].
Qed.
Lemma kmem_In s l : kmem s l = true <-> In s l.
Proof.
  unfold kmem. rewrite existsb_exists. split.
  - intros (x & I & E). apply kind_eqb_eq in E. subst. exact I.
  - intros I. exists s. split; [exact I|apply kind_eqb_eq; reflexivity].
Qed.

Lemma clear_split ks kinds l : clear ks kinds l = true ->
  sane l = true /\ (forall s, In s ks -> starts s l = false /\ iskw s l = false) /\
  (forall k, In k kinds -> isk k l = false).
Proof.
  unfold clear. rewrite !andb_true_iff, !forallb_forall. intros [[H1 H2] H3]. split; [exact H1|]. split.
  - intros s I. specialize (H2 s I). rewrite andb_true_iff, !negb_true_iff in H2. exact H2.
  - intros k I. specialize (H3 k I). rewrite negb_true_iff in H3. exact H3.
Qed.

Lemma clear_weaken ks' kinds' ks kinds l : clear ks' kinds' l = true ->
  forallb (fun s => smem s ks') ks = true -> forallb (fun k => kmem k kinds') kinds = true ->
  clear ks kinds l = true.
Proof.
  intros H H1 H2. destruct (clear_split _ _ _ H) as (A & B & C).
  rewrite forallb_forall in H1, H2. unfold clear. rewrite !andb_true_iff, !forallb_forall. repeat split.
  - exact A.
  - intros s I. specialize (H1 s I). rewrite smem_In in H1. destruct (B s H1) as [-> ->]. reflexivity.
  - intros k I. specialize (H2 k I). rewrite kmem_In in H2. rewrite (C k H2). reflexivity.
Qed.

Lemma clear_starts ks kinds l s : clear ks kinds l = true -> smem s ks = true -> starts s l = false.
Proof. intros H I. apply clear_split in H. rewrite smem_In in I. apply H. exact I. Qed.
Lemma clear_iskw ks kinds l s : clear ks kinds l = true -> smem s ks = true -> iskw s l = false.
Proof. intros H I. apply clear_split in H. rewrite smem_In in I. apply H. exact I. Qed.
Lemma clear_isk ks kinds l k : clear ks kinds l = true -> kmem k kinds = true -> isk k l = false.
Proof. intros H I. apply clear_split in H. rewrite kmem_In in I. apply H. exact I. Qed.
Lemma clear_sane ks kinds l : clear ks kinds l = true -> sane l = true.
Proof. intros H. apply clear_split in H. apply H. Qed.

Lemma clear_app ks kinds a b : a <> [] -> clear ks kinds (a ++ b) = clear ks kinds a.
Proof. destruct a; [congruence|reflexivity]. Qed.
Lemma starts_app s a b : a <> [] -> starts s (a ++ b) = starts s a.
Proof. destruct a; [congruence|reflexivity]. Qed.
Lemma isk_app s a b : a <> [] -> isk s (a ++ b) = isk s a.
Proof. destruct a; [congruence|reflexivity]. Qed.
Lemma iskw_app s a b : a <> [] -> iskw s (a ++ b) = iskw s a.
Proof. destruct a; [congruence|reflexivity]. Qed.

(** Words and kinds that bind expressions together. *)
Definition op_words : list string := ["OR"; "AND"; "NOT"; "IS"; "IN"; "BETWEEN"; "LIKE"].
Definition op_kinds : list kind := [Eq; Lt; LtEq; Neq; Gt; GtEq; Plus; Minus; Mult; Div; Mod; DoubleColon].
Lemma clear_nprec ks kinds l : clear ks kinds l = true ->
  forallb (fun s => smem s ks) op_words = true -> forallb (fun k => kmem k kinds) op_kinds = true ->
  nprec l = 0.
Proof.
  intros H H1 H2. pose proof (clear_weaken _ _ op_words op_kinds _ H H1 H2) as C.
  destruct (clear_split _ _ _ C) as (S & A & B). destruct l as [|t l]; [reflexivity|]. cbn [nprec]. unfold bp.
  assert (K : forall k, In k op_kinds -> tkind t <> k).
  { intros k I E. specialize (B k I). cbn [isk] in B. unfold is_kind in B. rewrite E in B.
    destruct k; discriminate B. }
  cbn [sane] in S.
  assert (W : forall w s, tval t = VWord w -> In s op_words -> kw w s = false).
  { intros w s E I. specialize (A s I). cbn [iskw] in A. rewrite E in A. apply A. }
  destruct (tkind t) eqn:E; try reflexivity;
    try (exfalso; eapply K; [|reflexivity]; cbv; tauto).
  destruct (tval t) as [w|]; [|reflexivity].
  rewrite !(W w); auto; cbv; tauto.
Qed.

(** *** Primitive operations *)

Lemma R_kw_yes s d t l : starts s (t :: l) = true -> R (kw_ok s) (d, t :: l) = Ok true (t :: d, l).
Proof. intros H. cbn [starts] in H. cbn. unfold is_kw. rewrite H. reflexivity. Qed.
Lemma R_kw_no s d l : starts s l = false -> R (kw_ok s) (d, l) = Ok false (d, l).
Proof. intros H. destruct l as [|t l]; [reflexivity|]. cbn [starts] in H. cbn. unfold is_kw. rewrite H. reflexivity. Qed.
Lemma R_kwt_yes s d t l : starts s (t :: l) = true -> R (kw_tok s) (d, t :: l) = Ok (Some t) (t :: d, l).
Proof. intros H. cbn [starts] in H. cbn. unfold is_kw. rewrite H. reflexivity. Qed.
Lemma R_kwt_no s d l : starts s l = false -> R (kw_tok s) (d, l) = Ok None (d, l).
Proof. intros H. destruct l as [|t l]; [reflexivity|]. cbn [starts] in H. cbn. unfold is_kw. rewrite H. reflexivity. Qed.
Lemma R_pk_yes s d t l : starts s (t :: l) = true -> R (parse_keyword s) (d, t :: l) = Ok (KwYes t) (t :: d, l).
Proof. intros H. cbn [starts] in H. cbn. unfold is_kw. rewrite H. reflexivity. Qed.
Lemma R_pk_no s d t l : starts s (t :: l) = false -> R (parse_keyword s) (d, t :: l) = Ok (KwNo t) (d, t :: l).
Proof. intros H. cbn [starts] in H. cbn. unfold is_kw. rewrite H. reflexivity. Qed.
Lemma R_expkw s d t l : starts s (t :: l) = true -> R (expect_keyword s) (d, t :: l) = Ok t (t :: d, l).
Proof. intros H. cbn [starts] in H. cbn. unfold is_kw. rewrite H. reflexivity. Qed.
Lemma R_cons_yes k d t l : isk k (t :: l) = true -> R (consume_token k) (d, t :: l) = Ok true (t :: d, l).
Proof. intros H. cbn [isk] in H. cbn. rewrite H. reflexivity. Qed.
Lemma R_cons_no k d l : isk k l = false -> R (consume_token k) (d, l) = Ok false (d, l).
Proof. intros H. destruct l as [|t l]; [reflexivity|]. cbn [isk] in H. cbn. rewrite H. reflexivity. Qed.
Lemma R_exptok k d t l : isk k (t :: l) = true -> R (expect_token k) (d, t :: l) = Ok tt (t :: d, l).
Proof. intros H. cbn [isk] in H. cbn. rewrite H. reflexivity. Qed.
Lemma R_nextk k d t l : isk k (t :: l) = true -> R (next_kind k) (d, t :: l) = Ok t (t :: d, l).
Proof. intros H. cbn [isk] in H. cbn. rewrite H. reflexivity. Qed.
Lemma R_must d t l : R must_next (d, t :: l) = Ok t (t :: d, l).
Proof. reflexivity. Qed.
Lemma R_nn d t l : R next_nn (d, t :: l) = Ok t (t :: d, l).
Proof. reflexivity. Qed.
Lemma R_nerr d t l : R next_err (d, t :: l) = Ok t (t :: d, l).
Proof. reflexivity. Qed.
Lemma R_pnn d t l : R peek_nn (d, t :: l) = Ok t (d, t :: l).
Proof. reflexivity. Qed.
Lemma R_peek d l : R peek (d, l) = Ok (match l with [] => None | t :: _ => Some t end) (d, l).
Proof. destruct l; reflexivity. Qed.
Lemma R_prev d t l : R prev (t :: d, l) = Ok tt (d, t :: l).
Proof. reflexivity. Qed.
Lemma R_word t w s : tval t = VWord w -> R (word_of t) s = Ok w s.
Proof. unfold word_of. intros ->. reflexivity. Qed.
Lemma R_str t w s : tval t = VStr w -> R (str_of t) s = Ok w s.
Proof. unfold str_of. intros ->. reflexivity. Qed.
Lemma R_ret {A} (a : A) s : R (Ret a) s = Ok a s.
Proof. reflexivity. Qed.

Fixpoint all_starts (l : list string) (ts : list token) : bool :=
  match l, ts with
  | [], _ => true
  | s :: l', t :: ts' => starts s [t] && all_starts l' ts'
  | _ :: _, [] => false
  end.
Lemma run_kws_go ks : forall saved acc d ts rest, all_starts ks ts = true -> List.length ks = List.length ts ->
  run_kws fm_machine saved (map gs ks) acc (d, ts ++ rest) = (Some (rev acc ++ ts), (rev ts ++ d, rest)).
Proof.
  induction ks as [|s ks IH]; intros saved acc d ts rest H L; destruct ts as [|t ts]; try discriminate L.
  - cbn. rewrite app_nil_r. reflexivity.
  - cbn [all_starts] in H. apply andb_true_iff in H as [H1 H2]. injection L as L.
    cbn [map run_kws app]. cbn [m_peek fm_machine snd]. cbn [starts] in H1. unfold is_kw.
    rewrite H1. cbn [m_next fm_machine snd fst]. rewrite IH; auto. cbn [rev].
    rewrite <- !app_assoc. reflexivity.
Qed.
Lemma R_kws_yes ks d ts rest : all_starts ks ts = true -> List.length ks = List.length ts ->
  R (kws_ok ks) (d, ts ++ rest) = Ok true (rev ts ++ d, rest).
Proof. intros H L. unfold kws_ok. cbn [run]. rewrite run_kws_go by assumption. reflexivity. Qed.
Lemma R_kwst_yes ks d ts rest : all_starts ks ts = true -> List.length ks = List.length ts ->
  R (kws_toks ks) (d, ts ++ rest) = Ok (Some ts) (rev ts ++ d, rest).
Proof. intros H L. unfold kws_toks. cbn [run]. rewrite run_kws_go by assumption. reflexivity. Qed.

Lemma run_kws_stop ks : forall saved acc d l, all_starts ks l = false ->
  run_kws fm_machine saved (map gs ks) acc (d, l) = (None, saved).
Proof.
  induction ks as [|s ks IH]; intros saved acc d l H; [discriminate H|].
  cbn [map run_kws]. destruct l as [|t l]; [reflexivity|]. cbn [m_peek fm_machine snd].
  cbn [all_starts] in H. unfold is_kw. cbn [starts] in H.
  destruct (match tval t with VWord w => equal_fold (wvalue w) (gs s) | VStr _ => false end) eqn:E;
    [|reflexivity].
  cbn [m_next fm_machine snd fst]. apply IH. exact H.
Qed.
Lemma R_kws_no ks d l : all_starts ks l = false -> R (kws_ok ks) (d, l) = Ok false (d, l).
Proof. intros H. unfold kws_ok. cbn [run]. rewrite run_kws_stop by assumption. reflexivity. Qed.
Lemma R_kwst_no ks d l : all_starts ks l = false -> R (kws_toks ks) (d, l) = Ok None (d, l).
Proof. intros H. unfold kws_toks. cbn [run]. rewrite run_kws_stop by assumption. reflexivity. Qed.
Lemma all_starts_no s ks l : starts s l = false -> all_starts (s :: ks) l = false.
Proof. destruct l as [|t l]; [reflexivity|]. intros H. cbn [all_starts]. cbn [starts] in *. rewrite H. reflexivity. Qed.

Lemma R_prec d l : sane l = true -> R get_next_precedence (d, l) = Ok (nprec l) (d, l).
Proof.
  intros H. unfold get_next_precedence. eapply R_step; [apply R_peek|]. destruct l as [|t l]; [reflexivity|].
  cbn [nprec]. unfold get_precedence, bp. cbn [sane] in H. apply andb_true_iff in H as [H _].
  destruct (tkind t) eqn:E; try reflexivity. unfold word_of. destruct (tval t); [reflexivity|].
  unfold is_kind in H. rewrite E in H. discriminate H.
Qed.

(** *** Tactics *)

Ltac sidec := match goal with
  | H : clear _ _ ?l = true |- starts _ ?l = false => solve [apply (clear_starts _ _ _ _ H); reflexivity]
  | H : clear _ _ ?l = true |- isk _ ?l = false => solve [apply (clear_isk _ _ _ _ H); reflexivity]
  | H : clear _ _ ?l = true |- iskw _ ?l = false => solve [apply (clear_iskw _ _ _ _ H); reflexivity]
  | H : clear _ _ ?l = true |- sane ?l = true => exact (clear_sane _ _ _ H)
  | H : clear _ _ ?l = true |- clear _ _ ?l = true => solve [apply (clear_weaken _ _ _ _ _ H); reflexivity]
  end.
Ltac side0 := first
  [ reflexivity | assumption | sidec
  | eapply all_starts_no; first [reflexivity|assumption|sidec] ].
Ltac prim := lazymatch goal with
  | |- R (Ret _) _ = _ => apply R_ret
  | |- R must_next _ = _ => apply R_must
  | |- R next_nn _ = _ => apply R_nn
  | |- R next_err _ = _ => apply R_nerr
  | |- R peek_nn _ = _ => apply R_pnn
  | |- R peek _ = _ => apply R_peek
  | |- R prev _ = _ => apply R_prev
  | |- R (kw_ok _) _ = _ => first [apply R_kw_yes; side0 | apply R_kw_no; side0]
  | |- R (kw_tok _) _ = _ => first [apply R_kwt_yes; side0 | apply R_kwt_no; side0]
  | |- R (parse_keyword _) _ = _ => first [apply R_pk_yes; side0 | apply R_pk_no; side0]
  | |- R (expect_keyword _) _ = _ => apply R_expkw; side0
  | |- R (consume_token _) _ = _ => first [apply R_cons_yes; side0 | apply R_cons_no; side0]
  | |- R (expect_token _) _ = _ => apply R_exptok; side0
  | |- R (next_kind _) _ = _ => apply R_nextk; side0
  | |- R (word_of _) _ = _ => apply R_word; side0
  | |- R (str_of _) _ = _ => apply R_str; side0
  | |- R (kws_ok _) _ = _ => apply R_kws_no; side0
  | |- R (kws_toks _) _ = _ => apply R_kwst_no; side0
  | |- R get_next_precedence _ = _ => apply R_prec; side0
  end.
(** One primitive step. *)
Ltac step := eapply R_step; [prim|cbv beta iota].
Ltac steps := repeat step.

(** *** Erased identifiers *)
Notation E0 := (fun (T : Type) (f : (pos -> pos) -> (rune -> rune) -> T) => f no_pos same_rune).
Lemma map_same s : map same_rune s = s.
Proof. induction s; cbn [map]; [reflexivity|]. rewrite IHs. reflexivity. Qed.
Notation eid := (er_ident Erase.no_pos same_rune).
Notation eon := (er_on Erase.no_pos same_rune).
Notation ety := (er_dtype Erase.no_pos same_rune).
Notation enode := (er_node Erase.no_pos same_rune).

Lemma gs_eqb_eq a : forall b, gs_eqb a b = true <-> a = b.
Proof.
  induction a as [|x a IH]; destruct b as [|y b]; cbn; try (split; [discriminate|discriminate]); [tauto|].
  rewrite andb_true_iff, Z.eqb_eq, IH. split; [intros []; congruence|intros E; injection E; auto].
Qed.

Lemma text_word_string d i : wf_id d i = true -> word_string (text_word (id_value i)) = id_value i.
Proof.
  unfold wf_id, text_word, word_string. destruct (id_value i) as [|q s]; [discriminate|].
  destruct ((q =? 34) || (q =? 96)) eqn:Q; cbn [wquote wvalue].
  - rewrite !andb_true_iff, gs_eqb_eq. intros [[_ E] _].
    replace ((q =? 34) || (q =? 91) || (q =? 96)) with true by lia.
    unfold matching_end_quote. apply orb_prop in Q as [Q|Q]; apply Z.eqb_eq in Q; subst q; cbn; congruence.
  - intros _. reflexivity.
Qed.

Lemma ident_of_idt d i : wf_id d i = true -> ident_of (idt i) (text_word (id_value i)) = eid i.
Proof.
  intros H. unfold ident_of, er_ident. rewrite (text_word_string d) by exact H. rewrite map_same. reflexivity.
Qed.

Lemma R_ident d dl i l : wf_id dl i = true -> R parse_identifier (d, idt i :: l) = Ok (eid i) (idt i :: d, l).
Proof.
  intros H. unfold parse_identifier. step. cbn [idt tval]. rewrite (ident_of_idt dl) by exact H. reflexivity.
Qed.

Lemma sepby_cons s x y l : sepby s (x :: y :: l) = x ++ s :: sepby s (y :: l).
Proof. reflexivity. Qed.

Definition ids_body (sep : kind) : list ident * bool -> prog (list ident * bool + option (list ident)) :=
  fun '(acc, expect) =>
       let stop := inr (if expect : bool then None else Some (rev acc)) in
       Next (fun o =>
         match o with
         | None => Ret stop
         | Some t =>
             if is_kind SQLKeyword t && expect
             then w <- word_of t ;; Ret (inl (ident_of t w :: acc, false))
             else if is_kind sep t && negb expect then Ret (inl (acc, true))
             else prev ;;; Ret stop
         end).

Lemma R_ids_loop dl sep s : tkind s = sep -> sep <> SQLKeyword -> forall l i acc n d rest,
  wf_id dl i = true -> forallb (wf_id dl) l = true ->
  isk sep rest = false ->
  (List.length (sepby s (map (fun i => [idt i]) (i :: l))) < n)%nat ->
  R (loop n (ids_body sep) (acc, true)) (d, sepby s (map (fun i => [idt i]) (i :: l)) ++ rest)
  = Ok (Some (rev acc ++ map eid (i :: l))) (rev (sepby s (map (fun i => [idt i]) (i :: l))) ++ d, rest).
Proof.
  intros Ks Ns. induction l as [|j l IH]; intros i acc n d rest Wi Wl Hr Hn.
  - cbn [map sepby] in *. cbn [List.length] in Hn. destruct n as [|[|n]]; try lia.
    cbn [loop app]. eapply R_step; [cbn; reflexivity|]. cbv beta iota.
    eapply R_step with (a := inr (Some (rev acc ++ [eid i]))) (s' := (idt i :: d, rest)).
    + cbn [ids_body]. destruct rest as [|t rest].
      * cbn. rewrite <- (ident_of_idt dl) by exact Wi. reflexivity.
      * cbn [isk] in Hr. cbn. rewrite andb_false_r, Hr. cbn. rewrite <- (ident_of_idt dl) by exact Wi. reflexivity.
    + reflexivity.
  - cbn [forallb] in Wl. apply andb_true_iff in Wl as [Wj Wl].
    assert (E : sepby s (map (fun i => [idt i]) (i :: j :: l)) = idt i :: s :: sepby s (map (fun i => [idt i]) (j :: l)))
      by reflexivity.
    rewrite E in *. cbn [List.length] in Hn. destruct n as [|[|n]]; try lia.
    cbn [loop app]. eapply R_step; [cbn; reflexivity|]. cbv beta iota.
    eapply R_step with (a := inl (eid i :: acc, true)) (s' := (s :: idt i :: d, sepby s (map (fun i => [idt i]) (j :: l)) ++ rest)).
    + cbn. rewrite andb_false_r. unfold is_kind. rewrite Ks.
      replace (kind_eqb sep sep) with true by (symmetry; apply kind_eqb_eq; reflexivity).
      cbn. rewrite <- (ident_of_idt dl) by exact Wi. reflexivity.
    + cbv beta iota. rewrite IH; auto; [|lia]. cbn [rev map]. rewrite <- !app_assoc. reflexivity.
Qed.

Lemma R_ids r dl sep s l d rest : tkind s = sep -> sep <> SQLKeyword -> wf_ids dl l = true -> isk sep rest = false ->
  (List.length (sepby s (map (fun i => [idt i]) l)) < r_fuel r)%nat ->
  R (parse_list_of_ids r sep) (d, sepby s (map (fun i => [idt i]) l) ++ rest)
  = Ok (Some (map eid l)) (rev (sepby s (map (fun i => [idt i]) l)) ++ d, rest).
Proof.
  intros Ks Ns W Hr Hn. unfold wf_ids in W. destruct l as [|i l]; [discriminate W|].
  cbn [nonempty forallb] in W. cbn [andb] in W. apply andb_true_iff in W as [Wi Wl].
  unfold parse_list_of_ids. apply (R_ids_loop dl sep s Ks Ns l i [] (r_fuel r) d rest); auto.
Qed.

Lemma R_name r dl o d rest : wf_on dl o = true -> isk Period rest = false ->
  (List.length (t_name o) < r_fuel r)%nat ->
  R (parse_object_name r) (d, t_name o ++ rest) = Ok (eon o) (rev (t_name o) ++ d, rest).
Proof.
  intros W Hr Hn. unfold parse_object_name. eapply R_step; [apply (R_ids r dl); auto; discriminate|].
  cbv beta iota. cbn. reflexivity.
Qed.

Lemma R_columns r dl l d rest : wf_ids dl l = true -> isk Comma rest = false ->
  (List.length (t_ids l) < r_fuel r)%nat ->
  R (parse_column_names r) (d, t_ids l ++ rest) = Ok (map eid l) (rev (t_ids l) ++ d, rest).
Proof.
  intros W Hr Hn. unfold parse_column_names. eapply R_step; [apply (R_ids r dl); auto; discriminate|].
  reflexivity.
Qed.

(** *** Integers *)

Lemma atoi_format z : wf_int z = true -> atoi (format_int z) = AOk z.
Proof.
  unfold wf_int. intros H. pose proof (format_int_ok z ltac:(lia)) as [D V].
  rewrite atoi_ok; [rewrite V; reflexivity|exact D|rewrite V; lia].
Qed.
Lemma R_int z d l : wf_int z = true -> R parse_literal_int (d, num z :: l) = Ok (z, num z) (num z :: d, l).
Proof.
  intros H. unfold parse_literal_int. step. cbn [num is_kind tkind kind_eqb]. step.
  rewrite atoi_format by exact H. reflexivity.
Qed.

(** *** Types *)

Notation type_follow := (clear ["UNSIGNED"; "VARYING"; "WITH"; "WITHOUT"] [LParen; LBracket; Period]).

Lemma kw_text v s : kw (text_word v) s = gs_eqb (upper (wvalue (text_word v))) (gs s).
Proof.
  unfold text_word, kw. destruct v as [|q v]; [reflexivity|].
  destruct ((q =? 34) || (q =? 96)); reflexivity.
Qed.
Lemma word_in_kw ws i s : word_in ws i = false -> smem s ws = true -> kw (text_word (id_value i)) s = false.
Proof.
  intros H M. rewrite kw_text. unfold word_in, mem_gs in H. rewrite smem_In in M.
  destruct (gs_eqb _ (gs s)) eqn:E; [|reflexivity]. rewrite <- H. symmetry.
  apply existsb_exists. exists (gs s). split; [apply in_map; exact M|exact E].
Qed.

Lemma R_precision size d rest : all_opt wf_int size = true -> isk LParen rest = false ->
  R parse_optional_precision (d, t_size size ++ rest) = Ok (size, pos0) (rev (t_size size) ++ d, rest).
Proof.
  intros H Hr. unfold parse_optional_precision, t_size, opt, parens. destruct size as [n|]; cbn [app].
  - step. eapply R_step; [apply R_int; exact H|]. cbv beta iota. step. reflexivity.
  - step. reflexivity.
Qed.
Lemma R_unsigned u d rest : starts "UNSIGNED" rest = false ->
  R parse_my_unsigned (d, t_unsigned u ++ rest) = Ok (u, pos0) (rev (t_unsigned u) ++ d, rest).
Proof. intros H. unfold parse_my_unsigned, t_unsigned. destruct u; cbn [cond app]; step; reflexivity. Qed.

Lemma no_pos_eq p : Grammar.no_pos p = true -> p = pos0.
Proof. destruct p as [a b]. unfold Grammar.no_pos. cbn. intros H. assert (a = 0 /\ b = 0) as [-> ->] by lia. reflexivity. Qed.
Lemma sane_to t l : sane (t :: l) = true -> tto t = pos0.
Proof. cbn [sane]. rewrite andb_true_iff. intros [_ H]. apply no_pos_eq. exact H. Qed.

Lemma clear_size ks kinds n l : forallb (fun k => negb (kind_eqb LParen k)) kinds = true ->
  clear ks kinds l = true -> clear ks kinds (t_size n ++ l) = true.
Proof.
  destruct n; [|auto]. intros H _. cbn [t_size opt parens app]. unfold clear. cbn [sane lpar sy tval tkind tto].
  rewrite !andb_true_iff, !forallb_forall. repeat split; auto. rewrite forallb_forall in H. exact H.
Qed.

Lemma R_type r dl t d rest : wf_type dl t = true -> type_follow rest = true ->
  (rest = [] -> ends_type t = true) -> (List.length (t_type t) < r_fuel r)%nat ->
  R (parse_data_type r) (d, t_type t ++ rest) = Ok (ety t) (rev (t_type t) ++ d, rest).
Proof.
  intros W F EN N.  unfold parse_data_type.
  destruct t as [size f0 t0 r0|size f0 t0 r0|f0 t0|n f0 t0|n f0 t0|n f0 t0|n f0 t0|p s n0 r0 u u0|size f0 t0 r0 u u0
    |f0 t0 u u0|f0 t0 u u0|f0 t0 u u0|f0 t0 u u0|f0 t0|f0 t0|f0 t0|f0 t0|tz f0 t0|f0 t0|f0 t0|f0 t0|t r0|o];
    try discriminate W; cbn [t_type kws map] in *; cbn [wf_type] in W; cbn [app];
    try (step; cbn [kwt tval];
         repeat match goal with |- context [kw (mkWord ?a ?b ?c) ?s] =>
           let x := eval vm_compute in (kw (mkWord a b c) s) in change (kw (mkWord a b c) s) with x end;
         cbv beta iota; cbn [orb]; cbv beta iota).
  - (* char *)
    destruct size as [n|]; (step; eapply R_step; [apply R_precision; [exact W|side0]|cbv beta iota]);
      cbn [rev t_size opt]; rewrite <- app_assoc; reflexivity.
  - (* varchar *)
    step. eapply R_step; [apply R_precision; [exact W|side0]|cbv beta iota].
    cbn [rev]. rewrite <- !app_assoc. reflexivity.
  - reflexivity.
  - (* numeric *)
    destruct p as [p|]; [|discriminate W]. cbn [some andb all_opt] in W. apply andb_true_iff in W as [W1 W2].
    unfold parse_optional_precision_scale. cbn [opt]. unfold parens. cbn [app].
    eapply R_step with (a := (Some p, s)) (s' := (rpar :: rev (opt s (fun k => [comma; num k])) ++ num p :: lpar :: kwt "numeric" :: d, t_unsigned u ++ rest)).
    { rewrite <- !app_assoc. step. eapply R_step; [apply R_int; exact W1|cbv beta iota]. destruct s as [s|]; cbn [app].
      - step. eapply R_step; [eapply R_step; [apply R_int; exact W2|cbv beta iota; apply R_ret]|cbv beta iota].
        cbn [app]. step. apply R_ret.
      - step. eapply R_step; [apply R_ret|cbv beta iota]. step. apply R_ret. }
    cbv beta iota. step. step. eapply R_step; [apply R_unsigned; side0|cbv beta iota].
    destruct s; cbn; destruct u; reflexivity.
  - (* float *)
    eapply R_step; [rewrite <- app_assoc; apply R_precision; [exact W|]; destruct u; cbn [t_unsigned cond app]; side0|].
    cbv beta iota. eapply R_step; [apply R_unsigned; side0|cbv beta iota].
    cbn [rev]. rewrite rev_app_distr, <- !app_assoc. reflexivity.
  - eapply R_step; [apply R_unsigned; side0|cbv beta iota]. cbn [rev]. rewrite <- !app_assoc. reflexivity.
  - eapply R_step; [apply R_unsigned; side0|cbv beta iota]. cbn [rev]. rewrite <- !app_assoc. reflexivity.
  - (* bigint *)
    destruct u; cbn [t_unsigned cond app].
    + step. reflexivity.
    + destruct rest as [|t rest]; [discriminate (EN eq_refl)|].
      step. rewrite (sane_to t rest) by side0. reflexivity.
  - eapply R_step; [apply R_unsigned; side0|cbv beta iota]. cbn [rev]. rewrite <- !app_assoc. reflexivity.
  - step. reflexivity.
  - reflexivity.
  - reflexivity.
  - (* time *) unfold parse_time_zone. rewrite !run_bind.
    rewrite (R_kw_no "WITH") by side0. cbn [obind]. rewrite run_bind. rewrite (R_kw_no "WITHOUT") by side0.
    reflexivity.
  - (* timestamp *) unfold parse_time_zone. destruct tz; cbn [cond app].
    + reflexivity.
    + eapply R_step; [step; step; cbn [orb]; eapply R_step; [apply R_ret|apply R_ret]|]. reflexivity.
  - reflexivity.
  - (* text *) step. reflexivity.
  - reflexivity.
  - (* array *) destruct t; try discriminate W. reflexivity.
  - (* custom *)
    apply andb_true_iff in W as [W1 W2]. apply negb_true_iff in W2.
    destruct (on_idents o) as [|i l] eqn:E.
    { unfold wf_on, wf_ids in W1. rewrite E in W1. discriminate W1. }
    cbn [first_in] in W2.
    assert (T : exists x, t_name o ++ rest = idt i :: x).
    { unfold t_name, t_dots. rewrite E. destruct l; cbn; eexists; reflexivity. }
    destruct T as [x T]. rewrite T. step. cbn [idt tval].
    rewrite !(word_in_kw _ _ _ W2) by reflexivity. cbn [orb]. step.
    rewrite <- T. eapply R_step; [apply (R_name r dl); [exact W1|side0|exact N]|]. reflexivity.
Qed.
