(** Proofs about dialects. *)
From Coq Require Import ZArith List Bool String Lia ZifyBool.
From Verif Require Import Base Dialect Token Lexer LexSpec LexFacts LexThms AST Prog Parser DialectSpec.
Import ListNotations.
Open Scope list_scope.
Open Scope Z_scope.

Lemma forallb_same (P Q : rune -> bool) w : Forall (fun r => P r = Q r) w -> forallb P w = forallb Q w.
Proof. induction 1 as [|r w E _ IH]; [reflexivity|]. cbn. now rewrite E, IH. Qed.

Lemma lexeme_alike d d' k v s rest p q : dialect_ok d' -> alike_slice d d' (mkTok k v p q, s) ->
  (forall c r, rest = c :: r -> is_part d c = is_part d' c) -> lexeme d k v s rest -> lexeme d' k v s rest.
Proof.
  intros D A N L. destruct L; try (constructor; auto; fail).
  - destruct A as [[A1 [A2 A3]] A4]. cbn in A4. specialize (A4 eq_refl).
    constructor.
    + rewrite <- A1. assumption.
    + rewrite <- (forallb_same _ _ _ A4). assumption.
    + destruct rest as [|c r]; [exact I|]. cbn in *. rewrite <- (N c r eq_refl). assumption.
    + assumption.
  - destruct A as [[A1 [A2 A3]] A4]. constructor; [rewrite <- A3|]; assumption.
  - econstructor; eauto.
  - destruct A as [[A1 [A2 A3]] A4]. constructor; auto; congruence.
Qed.

Lemma lexeme_ne d k v s rest : lexeme d k v s rest -> s <> [].
Proof.
  intros L. destruct L; try discriminate. intros E. cbn in H.
  repeat (destruct H as [H|H]; [injection H as <- <- <-; discriminate E|]). exact H.
Qed.

Lemma reads_alike d d' p text l rest : dialect_ok d' -> reads d p text l rest -> rest = [] ->
  Forall (alike_slice d d') l -> reads d' p text l rest.
Proof.
  intros D R. induction R as [p text|p q s text k v l rest L E R IH]; intros Er A; [constructor|].
  inversion_clear A as [|? ? A1 A2]. econstructor; [|exact E|apply IH; auto].
  eapply lexeme_alike; [exact D|exact A1| |exact L]. intros c r ->. subst rest.
  remember (c :: r) as t eqn:Et. remember (@nil rune) as z eqn:Ez.
  destruct R as [p0 t0|p0 q0 s0 text0 k0 v0 l0 rest0 L0 E0 R0]; [congruence|].
  pose proof (lexeme_ne _ _ _ _ _ L0) as Ne. destruct s0 as [|c0 s0]; [congruence|]. cbn in Et. injection Et as -> _.
  inversion_clear A2 as [|? ? A3 _]. apply A3.
Qed.

Lemma tokens_alike d d' src l : dialect_ok d -> dialect_ok d' -> reads d start_pos (skip_bom src) l [] ->
  Forall (alike_slice d d') l -> tokenize d true src = tokenize d' true src.
Proof.
  intros D D' R A. rewrite (tokenize_complete _ _ _ D R), (tokenize_complete d' src l D'); [reflexivity|].
  now apply (reads_alike d d').
Qed.

Lemma parse_alike d d' src l : dialect_ok d -> dialect_ok d' -> reads d start_pos (skip_bom src) l [] ->
  Forall (alike_slice d d') l ->
  parse_source d src = parse_source d' src /\ parse_stmt_source d src = parse_stmt_source d' src /\
  parse_expr_source d src = parse_expr_source d' src /\ parse_dtype_source d src = parse_dtype_source d' src /\
  parse_file d src = parse_file d' src.
Proof.
  intros D D' R A. pose proof (tokens_alike d d' src l D D' R A) as T.
  unfold parse_source, parse_stmt_source, parse_expr_source, parse_dtype_source, parse_file, parse_with. rewrite T. auto.
Qed.

Lemma common_alike d d' x : In d [generic; postgres; mysql] -> In d' [generic; postgres; mysql] -> common_slice x -> alike_slice d d' x.
Proof.
  intros I I' C. unfold common_slice, alike_slice in *. destruct (snd x) as [|c s]; [auto|]. destruct C as [C1 C2].
  assert (P : forall r, ~ In r [64; 36] -> is_part d r = is_part d' r).
  { intros r N. assert (r <> 64 /\ r <> 36) by (repeat split; intros ->; apply N; cbn; tauto). cbn in I, I'.
    repeat (destruct I as [<-|I]; [|]); try contradiction; repeat (destruct I' as [<-|I']; [|]); try contradiction; cbn; lia. }
  split.
  - assert (c <> 64 /\ c <> 36 /\ c <> 95 /\ c <> 96) by (repeat split; intros ->; apply C1; cbn; tauto).
    split; [|split; [apply P; cbn; intuition lia|]]; cbn in I, I';
      repeat (destruct I as [<-|I]; [|]); try contradiction; repeat (destruct I' as [<-|I']; [|]); try contradiction; cbn; lia.
  - destruct (tval (fst x)) as [w|]; [|exact Logic.I]. intros Q. specialize (C2 Q). eapply Forall_impl; [|exact C2]. exact P.
Qed.

Lemma shipped_alike d d' src l : In d [generic; postgres; mysql] -> In d' [generic; postgres; mysql] ->
  reads d start_pos (skip_bom src) l [] -> Forall common_slice l ->
  parse_source d src = parse_source d' src /\ parse_stmt_source d src = parse_stmt_source d' src /\
  parse_expr_source d src = parse_expr_source d' src /\ parse_dtype_source d src = parse_dtype_source d' src /\
  parse_file d src = parse_file d' src.
Proof.
  intros I I' R C.
  assert (O : forall x, In x [generic; postgres; mysql] -> dialect_ok x).
  { intros x H. destruct shipped_ok as (A & B & E). cbn in H. intuition (subst; assumption). }
  eapply parse_alike; eauto. eapply Forall_impl; [|exact C]. intros x. now apply common_alike.
Qed.

(** * All texts *)

Lemma scan_part_alike d d' s : Forall (alike d d') s -> alike d d' EOFr -> scan_part d s = scan_part d' s.
Proof.
  intros A E. induction A as [|r s (_ & P & _) _ IH]; cbn [scan_part].
  - destruct E as (_ & E & _). now rewrite E.
  - now rewrite P, IH.
Qed.

Lemma word_alike d d' f s line col : Forall (alike d d') s -> alike d d' EOFr ->
  tokenize_word d f s line col = tokenize_word d' f s line col.
Proof. intros A E. unfold tokenize_word. now rewrite (scan_part_alike d d'). Qed.

Lemma next_alike d d' src line col : Forall (alike d d') src -> alike d d' EOFr ->
  next d src line col = next d' src line col.
Proof.
  intros A E. destruct A as [|r s (S1 & _ & S3) A]; unfold next.
  - destruct E as (E1 & _ & E3). now rewrite E1, E3.
  - rewrite S1, S3, (word_alike d d' 78), (word_alike d d' r) by assumption. reflexivity.
Qed.

Lemma loop_alike d d' pc : dialect_ok d -> alike d d' EOFr -> forall fuel st acc,
  Forall (alike d d') (ts_src st) -> tokenize_loop d pc fuel st acc = tokenize_loop d' pc fuel st acc.
Proof.
  intros D E. induction fuel as [|f IH]; intros [src line col] acc A; [reflexivity|]. cbn [ts_src] in A.
  cbn [tokenize_loop]. rewrite !scan_eq. cbn [ts_src ts_line ts_col].
  rewrite <- (next_alike d d') by assumption.
  pose proof (next_spec d src line col D) as N. destruct (next d src line col) as [k v rest l c| | |]; try reflexivity.
  destruct N as (s & -> & _). apply Forall_app in A as [_ A].
  destruct (negb pc && is_ws_kind k); apply IH; exact A.
Qed.

Lemma skip_bom_forall (P : rune -> Prop) s : Forall P s -> Forall P (skip_bom s).
Proof. intros A. unfold skip_bom. destruct A as [|r s H A]; [constructor|]. destruct (r =? _); [assumption|now constructor]. Qed.

Lemma all_alike d d' src : dialect_ok d -> dialect_ok d' -> Forall (alike d d') src ->
  (forall pc, tokenize d pc src = tokenize d' pc src) /\
  parse_source d src = parse_source d' src /\ parse_stmt_source d src = parse_stmt_source d' src /\
  parse_expr_source d src = parse_expr_source d' src /\ parse_dtype_source d src = parse_dtype_source d' src /\
  parse_file d src = parse_file d' src.
Proof.
  intros D D' A.
  assert (E : alike d d' EOFr).
  { repeat split; [rewrite (ok_start_eof d D), (ok_start_eof d' D')|rewrite (ok_part_eof d D), (ok_part_eof d' D')|rewrite (ok_delim_eof d D), (ok_delim_eof d' D')]; reflexivity. }
  assert (T : forall pc, tokenize d pc src = tokenize d' pc src).
  { intros pc. apply loop_alike; try assumption. cbn. now apply skip_bom_forall. }
  split; [exact T|].
  unfold parse_source, parse_stmt_source, parse_expr_source, parse_dtype_source, parse_file, parse_with. rewrite !T. auto.
Qed.

(** * A text cut into slices, for examples *)

Fixpoint cut (d : dialect) (fuel : nat) (p : pos) (src : list rune) : option (list (token * list rune)) :=
  match fuel with
  | O => None
  | S f =>
      match next d src (pline p) (pcol p) with
      | LEof => Some []
      | LTok k v rest l c =>
          match cut d f (mkPos l c) rest with
          | Some m => Some ((mkTok k v p (mkPos l c), firstn (List.length src - List.length rest) src) :: m)
          | None => None
          end
      | _ => None
      end
  end.

Lemma cut_reads d : dialect_ok d -> forall fuel p src l, cut d fuel p src = Some l -> reads d p src l [].
Proof.
  intros D. induction fuel as [|f IH]; intros [line col] src l E; [discriminate|]. cbn [cut pline pcol] in E.
  pose proof (next_spec d src line col D) as N. destruct (next d src line col) as [k v rest l' c| | |]; try discriminate.
  - destruct N as (s & -> & Ne & L & P). destruct (cut d f (mkPos l' c) rest) as [m|] eqn:C; [|discriminate].
    injection E as <-. rewrite app_length, Nat.add_sub, firstn_app, Nat.sub_diag, firstn_all, app_nil_r.
    econstructor; eauto.
  - cbn in N. subst src. injection E as <-. constructor.
Qed.
