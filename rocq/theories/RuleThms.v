(** Which node a comment group belongs to: proofs for C43. *)
From Coq Require Import ZArith String List Bool Lia.
From Verif Require Import Base Dialect Token Lexer AST Prog Parser CommentSpec LexSpec LexThms CommentThms.
From Verif Require Import Nodes Walk WalkSpec WalkThms PosEnd CommentMap MapSpec MapThms RuleSpec.
Import ListNotations.
Open Scope list_scope.
Open Scope Z_scope.

Lemma cmp_gt a b : compare_pos a b =? 1 = true <-> before b a.
Proof.
  unfold compare_pos, before. destruct (pline a =? pline b) eqn:E1, (pcol a =? pcol b) eqn:E2; cbn [andb];
    destruct (pline b <? pline a) eqn:E3, (pline a <? pline b) eqn:E4, (pcol b <? pcol a) eqn:E5; cbn; lia.
Qed.
Lemma cmp_lt a b : compare_pos a b =? -1 = true <-> before a b.
Proof.
  unfold compare_pos, before. destruct (pline a =? pline b) eqn:E1, (pcol a =? pcol b) eqn:E2; cbn [andb];
    destruct (pline b <? pline a) eqn:E3, (pline a <? pline b) eqn:E4, (pcol b <? pcol a) eqn:E5; cbn; lia.
Qed.
Ltac pl := unfold before in *; lia.

Lemma holder_important x : holder x <-> important x = true.
Proof.
  unfold holder. set (names := _ : list string).
  assert (E : existsb (String.eqb (gotype x)) names = important x).
  { unfold names. unfold gotype. destruct x; try reflexivity;
      match goal with |- context [match ?v with _ => _ end] => destruct v; reflexivity end. }
  rewrite <- E, existsb_exists. split.
  - intros I. exists (gotype x). split; [exact I|apply String.eqb_refl].
  - intros (y & I & Q). apply String.eqb_eq in Q. subst y. exact I.
Qed.

Definition stops_at (st : list ptr) (p : pos) : Prop :=
  match st with [] => True | n :: _ => exists e, End (snd n) = Some e /\ before p e end.

Lemma pop_stops st p top r t : pop st p top = Some (r, t) -> stops_at r p.
Proof.
  revert top. induction st as [|n st IH]; intros top E; cbn [pop] in E; [injection E as <- _; exact I|].
  destruct (End (snd n)) as [e|] eqn:EN; [|discriminate]. destruct (compare_pos e p =? 1) eqn:C; [|eapply IH; exact E].
  injection E as <- _. exists e. split; [exact EN|]. apply cmp_gt. exact C.
Qed.
Lemma pop_top st p top r t : pop st p top = Some (r, t) ->
  t = top \/ exists n e, t = Some n /\ In n st /\ End (snd n) = Some e /\ ~ before p e.
Proof.
  revert top. induction st as [|n st IH]; intros top E; cbn [pop] in E; [injection E as _ <-; auto|].
  destruct (End (snd n)) as [e|] eqn:EN; [|discriminate]. destruct (compare_pos e p =? 1) eqn:C; [injection E as _ <-; auto|].
  right. destruct (IH _ E) as [->|(m & e' & -> & Im & Em & B)].
  - exists n, e. repeat split; [left; reflexivity|exact EN|]. intros B. apply cmp_gt in B. congruence.
  - exists m, e'. repeat split; auto. right. exact Im.
Qed.
Lemma pop_incl st p top r t : pop st p top = Some (r, t) -> exists a, st = a ++ r.
Proof.
  revert top. induction st as [|n st IH]; intros top E; cbn [pop] in E; [injection E as <- _; exists []; reflexivity|].
  destruct (End (snd n)) as [e|] eqn:EN; [|discriminate]. destruct (compare_pos e p =? 1) eqn:C.
  - injection E as <- _. exists []. reflexivity.
  - destruct (IH _ E) as [a ->]. exists (n :: a). reflexivity.
Qed.
(** The node [n] in the stack is not popped, or everything down to it is. *)
Lemma pop_keeps zs n st p top r t to : pop (zs ++ n :: st) p top = Some (r, t) -> End (snd n) = Some to -> before p to ->
  exists a zs', zs = a ++ zs' /\ r = zs' ++ n :: st.
Proof.
  intros E EN B. revert top E. induction zs as [|z zs IH]; intros top E; cbn [app pop] in E.
  - rewrite EN in E. apply cmp_gt in B. rewrite B in E. injection E as <- _. exists [], []. auto.
  - destruct (End (snd z)) as [e|]; [|discriminate]. destruct (compare_pos e p =? 1).
    + injection E as <- _. exists [], (z :: zs). auto.
    + destruct (IH _ E) as (a & zs' & -> & ->). exists (z :: a), zs'. auto.
Qed.
Lemma pop_down zs n st p top r t to : pop (zs ++ n :: st) p top = Some (r, t) -> End (snd n) = Some to -> ~ before p to -> stops_at st p ->
  (exists a zs', zs = a ++ zs' /\ r = zs' ++ n :: st) \/ (r = st /\ t = Some n).
Proof.
  intros E EN B S. revert top E. induction zs as [|z zs IH]; intros top E; cbn [app pop] in E.
  - rewrite EN in E. destruct (compare_pos to p =? 1) eqn:C; [apply cmp_gt in C; contradiction|]. right.
    destruct st as [|m st]; cbn [pop] in E; [injection E as <- <-; auto|]. destruct S as (e & E1 & E2). rewrite E1 in E. apply cmp_gt in E2.
    rewrite E2 in E. injection E as <- <-. auto.
  - destruct (End (snd z)) as [e|]; [|discriminate]. destruct (compare_pos e p =? 1).
    + injection E as <- _. left. exists [], (z :: zs). auto.
    + destruct (IH _ E) as [(a & zs' & -> & ->)|X]; [left; exists (z :: a), zs'; auto|right; exact X].
Qed.
Lemma pop_all zs n st p top to : Forall (fun z => exists e, End (snd z) = Some e /\ ~ before p e) zs ->
  End (snd n) = Some to -> ~ before p to -> stops_at st p -> pop (zs ++ n :: st) p top = Some (st, Some n).
Proof.
  intros F EN B S. revert top. induction F as [|z zs (e & E & BE) F IH]; intros top; cbn [app pop].
  - rewrite EN. destruct (compare_pos to p =? 1) eqn:C; [apply cmp_gt in C; contradiction|].
    destruct st as [|m st]; [reflexivity|]. cbn [pop]. destruct S as (e & E1 & E2). rewrite E1. apply cmp_gt in E2. rewrite E2. reflexivity.
  - rewrite E. destruct (compare_pos e p =? 1) eqn:C; [apply cmp_gt in C; contradiction|]. apply IH.
Qed.
Lemma pop_none st p top : stops_at st p -> pop st p top = Some (st, top).
Proof. destruct st as [|n st]; [reflexivity|]. cbn. intros (e & -> & B). apply cmp_gt in B. rewrite B. reflexivity. Qed.

Lemma next_unique l e a b : next_place l e a -> next_place l e b -> a = b.
Proof.
  assert (H : forall a b, next_place l e a -> next_place l e b -> ~ (a < b)%nat).
  { intros a' b' (La & Ba & Na) (Lb & Bb & Nb) L. destruct (nth_error l a') as [x|] eqn:E.
    - destruct (Na x eq_refl) as (p & P1 & P2). destruct (Bb a' x L E) as (p' & P3 & P4). congruence.
    - apply nth_error_None in E. lia. }
  intros A B. pose proof (H a b A B). pose proof (H b a B A). lia.
Qed.
Lemma span_unique g s e s' e' : group_span g s e -> group_span g s' e' -> s = s' /\ e = e'.
Proof. intros [A B] [C D]. split; congruence. Qed.
Lemma next_line_unique l q n n' : next_line l q n -> next_line l q n' -> n = n'.
Proof. unfold next_line. destruct (nth_error l q); [|congruence]. intros (p & P & <-) (p' & P' & <-). congruence. Qed.

Lemma f2_len {A B} (P : A -> B -> Prop) a b : Forall2 P a b -> List.length a = List.length b.
Proof. induction 1; cbn; congruence. Qed.
Arguments f2_len {A B P a b}.

Lemma group_end c s : pos_group c = Some s -> exists e, end_group c = Some e.
Proof.
  unfold pos_group, end_group. destruct c as [|a c]; [discriminate|]. intros _. revert a. induction c as [|b c IH]; intros a; [cbn; eauto|].
  cbn [last_end]. apply (IH b).
Qed.
Lemma group_pos c s : end_group c = Some s -> exists e, pos_group c = Some e.
Proof. unfold pos_group, end_group. destruct c as [|a c]; [discriminate|]. cbn. eauto. Qed.

Section Rule.
  Variable l : list any.

  Definition R (g : commentgroup) (k : nat) : Prop :=
    belongs l g k /\ forall k0, just_ended l g k0 -> near_end l g k0 -> k = k0.

  Definition keyed2 (done : list commentgroup) (m : cmap) : Prop :=
    exists places, Forall2 R done places /\ forall k, cm_get m k = given places done k.

  Lemma keyed2_add done m n c : keyed2 done m -> R c (fst n) -> keyed2 (done ++ [c]) (add_comment m n c).
  Proof.
    intros (pl & F & G) V. exists (pl ++ [fst n]). split; [apply Forall2_app; [exact F|repeat constructor; apply V]|].
    intros k. unfold add_comment. rewrite cm_get_set, given_snoc by (symmetry; exact (f2_len F)). rewrite (Nat.eqb_sym (fst n) k).
    destruct (Nat.eqb k (fst n)) eqn:E.
    - apply Nat.eqb_eq in E. subst k. rewrite G. destruct (given pl done (fst n)); reflexivity.
    - rewrite app_nil_r. apply G.
  Qed.

  (** A listed node, its place. *)
  Definition at_ (n : ptr) : Prop := nth_error l (fst n) = Some (snd n).
  Definition good_in (i : nat) (n : ptr) : Prop := at_ n /\ important (snd n) = true /\ (fst n < i)%nat /\ End (snd n) <> None.

  (** Nodes from [k] to [i] lie in the node that ends at [to]. *)
  Definition inside (k i : nat) (to : pos) : Prop :=
    (forall j z, (k < j < i)%nat -> nth_error l j = Some z -> forall p, Pos z = Some p -> before p to) /\
    (forall j z, (k < j < i)%nat -> nth_error l j = Some z -> important z = true -> forall p, End z = Some p -> ~ before to p).
  Definition open_or_gone (k : nat) (from s : pos) : Prop :=
    forall i y, (i < k)%nat -> nth_error l i = Some y -> important y = true -> forall p, End y = Some p -> ~ before from p \/ before s p.

  Definition shape (i : nat) (k : nat) (x : any) (from to : pos) (s : state) : Prop :=
    exists st', Forall (good_in k) st' /\ stops_at st' from /\
      ((exists zs, Forall (fun z => good_in i z /\ (k < fst z)%nat) zs /\ st_stack s = zs ++ (k, x) :: st') \/
       (st_pg s = Some ((k, x), to) /\ st_stack s = st' /\ forall y p, nth_error l i = Some y -> Pos y = Some p -> ~ before p to)).

  Record inv (i : nat) (s : state) (cs : list commentgroup) : Prop := {
    i_p : match i with
          | O => st_p s = None
          | S j => exists x e, nth_error l j = Some x /\ End x = Some e /\ st_p s = Some ((j, x), e)
          end;
    i_pg : forall n e, st_pg s = Some (n, e) -> good_in i n /\ End (snd n) = Some e /\
             forall c s', In c cs -> pos_group c = Some s' -> ~ before s' e;
    i_st : Forall (good_in i) (st_stack s);
    i_le : (i <= List.length l)%nat;
    i_pos : forall c e, In c cs -> end_group c = Some e -> forall j x, (j < i)%nat -> nth_error l j = Some x -> exists p, Pos x = Some p /\ before p e;
    i_sh : forall c s', In c cs -> pos_group c = Some s' -> forall k x from to, good_in i (k, x) -> Pos x = Some from -> End x = Some to ->
             inside k i to -> open_or_gone k from s' -> shape i k x from to s }.

  Lemma stops_later k from s' r st : stops_at st from -> Forall (good_in k) st -> open_or_gone k from s' -> ~ before s' r -> stops_at st r.
  Proof.
    destruct st as [|[j y] st]; [auto|]. intros (e & E & B) F O L. inversion F as [|? ? (V & I & J & _) _]; subst. cbn [fst snd] in *.
    exists e. split; [exact E|]. destruct (O j y J V I e E) as [X|X]; [contradiction|]. pl.
  Qed.

  Definition stage (i : nat) (q : option ptr) (qpos : pos) : Prop :=
    match nth_error l i with
    | Some x => q = Some (i, x) /\ Pos x = Some qpos
    | None => q = None /\ qpos = infinity
    end.

  Lemma stage_line i q qpos : stage i q qpos -> next_line l i (pline qpos).
  Proof. unfold stage, next_line. destruct (nth_error l i); [intros [_ E]; eauto|intros [_ ->]; reflexivity]. Qed.

  Lemma near_close e s f n : (pline e =? pline s) || ((pline e + 1 =? pline s) && (pline f + 1 <? n)) = true <-> close_to e s f n.
  Proof. unfold close_to. rewrite orb_true_iff, andb_true_iff, !Z.eqb_eq, Z.ltb_lt. tauto. Qed.

  Lemma step i q qpos s c rest rpos rend stack top pg n :
    stage i q qpos -> in_order (c :: rest) -> inv i s (c :: rest) ->
    pos_group c = Some rpos -> end_group c = Some rend -> ~ before qpos rend ->
    pop (st_stack s) rpos None = Some (stack, top) ->
    match top with
    | Some n => match End (snd n) with Some e => Some (Some (n, e)) | None => None end
    | None => Some (st_pg s)
    end = Some pg ->
    association (st_p s) pg q qpos rpos rend = Some n ->
    R c (fst n) /\ forall m, inv i (mkSt (st_p s) pg stack m) rest.
  Proof.
    intros Q (OC & OF & OR) H P1 P2 B PP PG A. destruct H as [Hp Hpg Hst Hle Hpos Hsh].
    pose proof (OC rpos rend (conj P1 P2)) as SE.
    assert (NP : next_place l rend i).
    { split; [exact Hle|]. split; [intros j x; apply (Hpos c rend (or_introl eq_refl) P2)|]. intros x E. unfold stage in Q. rewrite E in Q.
      exists qpos. split; [apply Q|exact B]. }
    assert (GS : Forall (good_in i) stack).
    { destruct (pop_incl _ _ _ _ _ PP) as [a E]. rewrite E in Hst. apply Forall_app in Hst. apply Hst. }
    assert (GP : forall m e, pg = Some (m, e) -> good_in i m /\ End (snd m) = Some e /\ ~ before rpos e).
    { intros m e ->. destruct (pop_top _ _ _ _ _ PP) as [->|(m' & e' & -> & I & E & L)].
      - injection PG as PG. destruct (Hpg m e PG) as (X & Y & Z). split; [exact X|]. split; [exact Y|]. apply (Z c); [left; reflexivity|exact P1].
      - rewrite E in PG. injection PG as <- <-. rewrite Forall_forall in Hst. auto. }
    split.
    - split.
      + exists rpos, rend, i, (pline qpos). split; [split; assumption|]. split; [exact NP|]. split; [eapply stage_line; exact Q|].
        assert (X : match st_p s with
                    | Some (n', e') => if (pline e' =? pline rpos) || ((pline e' + 1 =? pline rpos) && (pline rend + 1 <? pline qpos))
                                          || match q with None => true | _ => false end then Some n' else q
                    | None => q
                    end = Some n ->
          (exists x p, i = S (fst n) /\ nth_error l (fst n) = Some x /\ End x = Some p /\ (close_to p rpos rend (pline qpos) \/ i = List.length l)) \/
          (fst n = i /\ (i < List.length l)%nat /\ forall x p, i <> O -> nth_error l (pred i) = Some x -> End x = Some p -> ~ close_to p rpos rend (pline qpos))).
        { intros E. destruct i as [|j].
          - rewrite Hp in E. right. unfold stage in Q. destruct (nth_error l 0) as [x|] eqn:E0; destruct Q as [Q1 Q2]; [|congruence].
            rewrite Q1 in E. injection E as <-. split; [reflexivity|]. split; [apply nth_error_Some; congruence|]. congruence.
          - destruct Hp as (x & e & E1 & E2 & E3). rewrite E3 in E.
            destruct ((pline e =? pline rpos) || ((pline e + 1 =? pline rpos) && (pline rend + 1 <? pline qpos))) eqn:N.
            + cbn [orb] in E. injection E as <-. apply near_close in N. left. exists x, e. cbn [fst]. auto.
            + assert (NC : ~ close_to e rpos rend (pline qpos)) by (intros X; apply near_close in X; congruence).
              cbn [orb] in E. unfold stage in Q. destruct (nth_error l (S j)) as [y|] eqn:EN; destruct Q as [-> Q].
              * injection E as <-. right. cbn [fst pred]. split; [reflexivity|]. split; [apply nth_error_Some; congruence|].
                intros x' p' _ E4 E5. congruence.
              * injection E as <-. left. exists x, e. cbn [fst]. repeat split; auto. right. apply nth_error_None in EN. lia. }
        unfold association in A. destruct pg as [[m e]|]; [|right; exact (X A)].
        destruct ((pline e =? pline rpos) || ((pline e + 1 =? pline rpos) && (pline rend + 1 <? pline qpos))) eqn:N; [|right; exact (X A)].
        injection A as <-. apply near_close in N. destruct (GP m e eq_refl) as ((V & I & J & _) & E & L). left.
        exists (snd m), e. repeat split; auto. apply holder_important. exact I.
      + intros k0 (s0 & e0 & q0 & x & from & to & SP & NP0 & V & HO & K & EP & EE & L & IN1 & IN2 & OG)
          (s1 & e1 & q1 & x1 & to1 & n1 & SP1 & NP1 & NL1 & V1 & EE1 & CL).
        destruct (span_unique _ _ _ _ _ SP (conj P1 P2)) as [-> ->]. destruct (span_unique _ _ _ _ _ SP1 (conj P1 P2)) as [-> ->].
        rewrite (next_unique _ _ _ _ NP0 NP) in *. rewrite (next_unique _ _ _ _ NP1 NP) in *.
        rewrite (next_line_unique _ _ _ _ NL1 (stage_line _ _ _ Q)) in CL. rewrite V in V1. injection V1 as <-. rewrite EE in EE1. injection EE1 as <-.
        assert (OG' : open_or_gone k0 from rpos) by (intros j y J E I; apply (OG j y J E); apply holder_important; exact I).
        destruct (Hsh c rpos (or_introl eq_refl) P1 k0 x from to) as (st' & F1 & F2 & [(zs & F3 & E3)|(E3 & E4 & _)]); auto.
        { repeat split; cbn [fst snd]; auto; [apply holder_important; exact HO|congruence]. }
        { split; [exact IN1|]. intros j z J E I. apply (IN2 j z J E). apply holder_important. exact I. }
        * assert (PA : pop (st_stack s) rpos None = Some (st', Some (k0, x))).
          { rewrite E3. apply (pop_all _ _ _ _ _ to); auto.
            - eapply Forall_impl; [|exact F3]. intros [j z] ((V2 & I2 & J2 & N2) & J3). cbn [fst snd] in *.
              destruct (End z) as [ez|] eqn:EZ; [|congruence]. exists ez. split; [reflexivity|].
              assert (X : ~ before to ez) by (apply (IN2 j z (conj J3 J2) V2); [apply holder_important; exact I2|exact EZ]). pl.
            - eapply stops_later; eauto. unfold before; lia. }
          rewrite PA in PP. injection PP as <- <-. cbn [snd] in PG. rewrite EE in PG. injection PG as <-.
          unfold association in A. apply near_close in CL. rewrite CL in A. injection A as <-. reflexivity.
        * rewrite E4 in PP. rewrite pop_none in PP by (eapply stops_later; eauto; unfold before; lia). injection PP as <- <-.
          injection PG as <-. rewrite E3 in A. unfold association in A. apply near_close in CL. rewrite CL in A. injection A as <-. reflexivity.
    - intros m. split; cbn [st_p st_pg st_stack]; auto.
      + intros n0 e E. destruct (GP n0 e E) as (X & Y & Z). split; [exact X|]. split; [exact Y|]. intros c' s' I E'.
        destruct (group_end _ _ E') as [e' EE].
        destruct (OF c' I rpos rend s' e' (conj P1 P2) (conj E' EE)) as [O1 _]. pl.
      + intros c' e I. apply (Hpos c' e (or_intror I)).
      + intros c' s' I E' k x from to G EP EE IN OG.
        assert (L : ~ before s' rpos).
        { destruct (group_end _ _ E') as [e' EE']. apply (OF c' I rpos rend s' e' (conj P1 P2) (conj E' EE')). }
        destruct (Hsh c' s' (or_intror I) E' k x from to G EP EE IN OG) as (st' & F1 & F2 & [(zs & F3 & E3)|(E3 & E4 & E5)]);
          exists st'; split; auto; split; auto.
        * rewrite E3 in PP. destruct (compare_pos to rpos =? 1) eqn:C.
          -- apply cmp_gt in C. destruct (pop_keeps _ _ _ _ _ _ _ to PP EE C) as (a & zs' & -> & ->). left. exists zs'. split; [|reflexivity].
             apply Forall_app in F3. apply F3.
          -- assert (NB : ~ before rpos to) by (intros X; apply cmp_gt in X; congruence).
             destruct (pop_down _ _ _ _ _ _ _ to PP EE NB) as [(a & zs' & -> & ->)|[-> ->]].
             ++ eapply stops_later; eauto.
             ++ left. exists zs'. split; [|reflexivity]. apply Forall_app in F3. apply F3.
             ++ right. cbn [snd] in PG. rewrite EE in PG. injection PG as <-. split; [reflexivity|]. split; [reflexivity|].
                intros y p EY P. unfold stage in Q. rewrite EY in Q. destruct Q as [_ Q]. rewrite Q in P. injection P as <-. pl.
        * right. rewrite E4 in PP. rewrite pop_none in PP by (eapply stops_later; eauto). injection PP as <- <-. injection PG as <-. auto.
  Qed.

  Lemma inner_rule i q qpos rest : stage i q qpos -> forall s c done, in_order (c :: rest) -> inv i s (c :: rest) -> keyed2 done (st_map s) ->
    match inner q qpos s c rest with
    | Returned m => keyed2 (done ++ c :: rest) m
    | Panicked => True
    | GoOn s' c' rest' => exists done', done ++ c :: rest = done' ++ c' :: rest' /\ in_order (c' :: rest') /\ inv i s' (c' :: rest') /\
                          keyed2 done' (st_map s') /\ exists e, end_group c' = Some e /\ before qpos e
    end.
  Proof.
    intros Q. induction rest as [|c1 rest IH]; intros s c done O H K; cbn [inner].
    all: destruct (pos_group c) as [rpos|] eqn:P1; [|exact I]; destruct (end_group c) as [rend|] eqn:P2; [|exact I];
      destruct (compare_pos qpos rend =? -1) eqn:C;
        [exists done; split; [reflexivity|]; split; [exact O|]; split; [exact H|]; split; [exact K|]; exists rend; split; [exact P2|apply cmp_lt; exact C]|];
      destruct (pop (st_stack s) rpos None) as [[stack top]|] eqn:PP; [|exact I];
      match goal with |- context [match ?m with None => Panicked | Some _ => _ end] => destruct m as [pg|] eqn:PG end; [|exact I];
      destruct (association (st_p s) pg q qpos rpos rend) as [n|] eqn:A; [|exact I];
      assert (NB : ~ before qpos rend) by (intros X; apply cmp_lt in X; congruence);
      destruct (step _ _ _ _ _ _ _ _ _ _ _ _ Q O H P1 P2 NB PP PG A) as [X Y].
    - apply keyed2_add; assumption.
    - specialize (IH (mkSt (st_p s) pg stack (add_comment (st_map s) n c)) c1 (done ++ [c])).
      rewrite <- app_assoc in IH. apply IH; [apply O|apply Y|apply keyed2_add; assumption].
  Qed.

  Lemma inside_less k i to : inside k (S i) to -> inside k i to.
  Proof. intros [A B]. split; intros j z J; [apply (A j z)|apply (B j z)]; lia. Qed.

  Lemma outer_rule nodes : forall i s c rest done, nodes = combine (seq i (List.length l - i)) (skipn i l) ->
    in_order (c :: rest) -> inv i s (c :: rest) -> keyed2 done (st_map s) ->
    match outer nodes s c rest with
    | Returned m => keyed2 (done ++ c :: rest) m
    | _ => True
    end.
  Proof.
    induction nodes as [|q nodes IH]; intros i s c rest done EN O H K; cbn [outer].
    - assert (L : nth_error l i = None).
      { apply nth_error_None. destruct (Nat.ltb i (List.length l)) eqn:Z; [|apply Nat.ltb_ge in Z; exact Z]. apply Nat.ltb_lt in Z.
        assert (LL : List.length (combine (seq i (List.length l - i)) (skipn i l)) = (List.length l - i)%nat)
          by (rewrite combine_length, seq_length, skipn_length; lia).
        rewrite <- EN in LL. cbn in LL. lia. }
      pose proof (inner_rule i None infinity rest ltac:(unfold stage; rewrite L; auto) s c done O H K) as X.
      destruct (inner None infinity s c rest); try exact I. exact X.
    - assert (L : nth_error l i = Some (snd q) /\ fst q = i /\ nodes = combine (seq (S i) (List.length l - S i)) (skipn (S i) l)).
      { pose proof (nth_error_None l i) as NN. assert (LI : (i < List.length l)%nat).
        { destruct (Nat.ltb i (List.length l)) eqn:Z; [apply Nat.ltb_lt in Z; exact Z|]. apply Nat.ltb_ge in Z.
          rewrite skipn_all2, combine_nil in EN by lia. discriminate EN. }
        replace (List.length l - i)%nat with (S (List.length l - S i)) in EN by lia. cbn [seq] in EN.
        assert (SK : exists x, nth_error l i = Some x /\ skipn i l = x :: skipn (S i) l).
        { clear -LI. revert l LI. induction i as [|i IHi]; intros [|x l] LI; cbn in LI; try lia; [exists x; auto|].
          destruct (IHi l ltac:(lia)) as (y & A & B). exists y. cbn [nth_error skipn]. auto. }
        destruct SK as (x & E1 & E2). rewrite E2 in EN. cbn [combine] in EN. injection EN as -> ->. auto. }
      destruct L as (L & FQ & EN'). destruct q as [i' x]. cbn [fst snd] in *. subst i'.
      destruct (Pos x) as [qpos|] eqn:EP; [|exact I].
      pose proof (inner_rule i (Some (i, x)) qpos rest ltac:(unfold stage; rewrite L; auto) s c done O H K) as X.
      match goal with |- context [inner ?a qpos s c rest] => change (inner _ qpos s c rest) with (inner a qpos s c rest) in X;
        destruct (inner a qpos s c rest) as [m| |s' c' rest'] end; [exact X|exact I|].
      destruct X as (done' & E & O' & H' & K' & re & EE & BE). rewrite E.
      destruct (End x) as [e|] eqn:EX; [|exact I].
      match goal with |- context [match ?m with None => Panicked | Some _ => _ end] => destruct m as [stack|] eqn:PS end; [|exact I].
      apply (IH (S i)); [exact EN'|exact O'| |exact K']. clear IH H K. destruct H' as [Hp Hpg Hst Hle Hpos Hsh].
      assert (up : forall j, Forall (good_in i) j -> Forall (good_in (S i)) j).
      { intros j. apply Forall_impl. intros n (A & B & C & D). repeat split; auto. }
      assert (GX : important x = true -> good_in (S i) (i, x)) by (intros IX; repeat split; cbn [fst snd]; auto; congruence).
      split; cbn [st_p st_pg st_stack].
      + exists x, e. auto.
      + intros n e' E'. destruct (Hpg n e' E') as ((A & B & C & D) & F). split; [repeat split; auto|exact F].
      + destruct (important x); [|injection PS as <-; apply up; exact Hst].
        unfold push in PS. cbn [snd] in PS. rewrite EP in PS. destruct (pop (st_stack s') qpos None) as [[st top]|] eqn:PP; [|discriminate].
        injection PS as <-. constructor; [apply GX; reflexivity|]. apply up. destruct (pop_incl _ _ _ _ _ PP) as [a Ea]. rewrite Ea in Hst.
        apply Forall_app in Hst. apply Hst.
      + assert (i < List.length l)%nat by (apply nth_error_Some; congruence). lia.
      + intros c0 e0 I0 E0 j y J Y. assert (D : (j < i)%nat \/ j = i) by lia. destruct D as [D| ->]; [apply (Hpos c0 e0 I0 E0 j y D Y)|].
        rewrite L in Y. injection Y as <-. exists qpos. split; [exact EP|]. destruct I0 as [<-|I0]; [congruence|].
        destruct O' as (OC & OF & _). destruct (end_group c0) as [e1|] eqn:E1; [injection E0 as ->|discriminate].
        destruct (group_pos _ _ EE) as [p1 P1]. destruct (group_pos _ _ E1) as [p2 P2].
        destruct (OF c0 I0 p1 re p2 e0 (conj P1 EE) (conj P2 E1)) as [_ X]. pl.
      + intros c0 s0 I0 E0 k y from to (V & IY & KY & NY) P1 P2 IN OG. cbn [fst snd] in *.
        assert (D : (k < i)%nat \/ k = i) by lia. destruct D as [D| ->].
        * assert (BQ : before qpos to) by (destruct IN as [IN _]; apply (IN i x ltac:(lia) L); exact EP).
          destruct (Hsh c0 s0 I0 E0 k y from to ltac:(repeat split; auto) P1 P2 (inside_less _ _ _ IN) OG)
            as (st' & F1 & F2 & [(zs & F3 & E3)|(E3 & E4 & E5)]); [|exfalso; exact (E5 x qpos L EP BQ)].
          assert (UZ : forall z, Forall (fun z => good_in i z /\ (k < fst z)%nat) z -> Forall (fun z => good_in (S i) z /\ (k < fst z)%nat) z).
          { intros z. apply Forall_impl. intros n ((A & B & C & D') & F). repeat split; auto. }
          exists st'. split; [exact F1|]. split; [exact F2|]. left. cbn [st_stack].
          destruct (important x) eqn:IX; [|injection PS as <-; exists zs; auto].
          unfold push in PS. cbn [snd] in PS. rewrite EP, E3 in PS.
          destruct (pop (zs ++ (k, y) :: st') qpos None) as [[st top]|] eqn:PP; [|discriminate]. injection PS as <-.
          destruct (pop_keeps _ _ _ _ _ _ _ to PP P2 BQ) as (a & zs' & -> & ->). exists ((i, x) :: zs'). split; [|reflexivity].
          constructor; [split; [apply GX; reflexivity|exact D]|]. apply UZ. apply Forall_app in F3. apply F3.
        * unfold at_ in V. cbn [fst snd] in V. rewrite L in V. injection V as <-. rewrite IY in PS. unfold push in PS. cbn [snd] in PS. rewrite EP in PS, P1. injection P1 as <-.
          destruct (pop (st_stack s') qpos None) as [[st top]|] eqn:PP; [|discriminate]. injection PS as <-.
          exists st. split; [|split; [eapply pop_stops; exact PP|left; exists []; split; [constructor|reflexivity]]].
          destruct (pop_incl _ _ _ _ _ PP) as [a Ea]. rewrite Ea in Hst. apply Forall_app in Hst. apply Hst.
  Qed.
End Rule.

Lemma comment_rule f m : NewCommentMap f = CMMap m -> in_order (f_comments f) ->
  exists l places, preorder (AFile f) l /\ Forall2 (R l) (f_comments f) places /\ forall k, cm_get m k = given places (f_comments f) k.
Proof.
  unfold NewCommentMap. destruct (node_list_preorder f) as (l & EL & PO). rewrite EL.
  destruct (f_comments f) as [|c rest]; [discriminate|]. intros E O.
  pose proof (outer_rule l (combine (seq 0 (List.length l)) l) 0 (mkSt None None [] []) c rest []) as H.
  destruct (outer _ _ c rest) as [m'| |]; try discriminate. injection E as <-.
  destruct H as (pl & F & G).
  - rewrite Nat.sub_0_r. reflexivity.
  - exact O.
  - split; cbn; try discriminate; auto; try lia; intros; try lia. destruct H1 as (_ & _ & X & _). cbn in X. lia.
  - exists []. split; [constructor|reflexivity].
  - exists l, pl. auto.
Qed.

(** *** Parsed files *)

Fixpoint apart (l : list comment) : Prop :=
  match l with
  | [] => True
  | c :: l' => before (c_from c) (c_to c) /\ (forall c', In c' l' -> ~ before (c_from c') (c_to c)) /\ apart l'
  end.
Lemma apart_app a b : apart (a ++ b) <-> apart a /\ apart b /\ forall x y, In x a -> In y b -> ~ before (c_from y) (c_to x).
Proof.
  induction a as [|c a IH]; cbn [app apart]; [intuition|]. rewrite IH. setoid_rewrite in_app_iff. cbn [In]. split.
  - intros (A & B & C & D & E). repeat split; auto. intros x y [<-|X] Y; auto.
  - intros ((A & B & C) & D & E). repeat split; auto. intros c' [X|X]; auto.
Qed.
Lemma apart_span g s e : apart g -> group_span g s e ->
  (exists c, In c g /\ c_from c = s) /\ (exists c, In c g /\ c_to c = e) /\ ~ before e s /\
  (forall c, In c g -> ~ before (c_from c) s) /\ (forall c, In c g -> ~ before e (c_to c)).
Proof.
  unfold group_span, pos_group, end_group. destruct g as [|c g]; [intros _ [X _]; discriminate X|].
  cbn [first_pos]. intros A [[= <-] E].
  assert (H : (exists c', In c' (c :: g) /\ c_to c' = e) /\ forall c', In c' (c :: g) -> ~ before e (c_to c')).
  { revert c A E. induction g as [|b g IH]; intros c A E.
    - cbn in E. injection E as <-. split; [exists c; cbn; auto|]. intros c' [<-|[]]. pl.
    - cbn [last_end] in E. destruct A as (A1 & A2 & A3). destruct (IH b A3 E) as ((c' & I & <-) & X). split; [exists c'; cbn; auto|].
      intros c0 [<-|I0]; [|apply X; exact I0]. pose proof (A2 c' I). assert (before (c_from c') (c_to c')).
      { clear -A3 I. revert b A3 I. induction g as [|y g IH]; intros b A [<-|I]; try apply A; [destruct I|]. apply (IH y); [apply A|exact I]. }
      pl. }
  destruct H as [H1 H2]. destruct A as (A1 & A2 & A3).
  split; [exists c; cbn; auto|]. split; [exact H1|]. split; [|split; [|exact H2]].
  - pose proof (H2 c (or_introl eq_refl)). pl.
  - intros c' [<-|I]; [pl|]. pose proof (A2 c' I). pl.
Qed.
Lemma apart_order gs : apart (List.concat gs) -> in_order gs.
Proof.
  induction gs as [|g gs IH]; cbn [List.concat in_order]; [auto|]. rewrite apart_app. intros (A & B & C).
  split; [intros s e S; apply (apart_span g s e A S)|]. split; [|apply IH; exact B].
  intros b I s e s' e' S1 S2. destruct (apart_span g s e A S1) as ((c1 & I1 & <-) & (c2 & I2 & <-) & N & X & Y).
  assert (Ab : apart b).
  { apply in_split in I as (x & y & ->). rewrite concat_app in B. cbn [List.concat] in B. apply apart_app in B as (_ & B & _).
    apply apart_app in B. apply B. }
  destruct (apart_span b s' e' Ab S2) as ((d1 & J1 & <-) & (d2 & J2 & <-) & N' & X' & Y').
  assert (J : forall d, In d b -> In d (List.concat gs)) by (intros d D; apply in_concat; exists b; auto).
  pose proof (C c2 d1 I2 (J d1 J1)). split; pl.
Qed.
Lemma comments_apart toks :
  (forall a t u b, toks = a ++ t :: u :: b -> tfrom u = tto t) -> (forall t, In t toks -> before (tfrom t) (tto t)) ->
  (forall a t b u, toks = a ++ t :: b -> In u b -> before (tfrom t) (tfrom u)) -> apart (CommentSpec.comments toks).
Proof.
  intros T B S. unfold CommentSpec.comments. induction toks as [|t toks IH]; [exact I|].
  assert (IH' : apart (map CommentSpec.comment_of (filter CommentSpec.is_comment toks))).
  { apply IH.
    - intros a x u b ->. apply (T (t :: a) x u b). reflexivity.
    - intros x X. apply B. right. exact X.
    - intros a x b u -> X. apply (S (t :: a) x b u); [reflexivity|exact X]. }
  cbn [filter]. destruct (CommentSpec.is_comment t); [|exact IH']. cbn [map apart]. split; [apply B; left; reflexivity|]. split; [|exact IH'].
  intros c' X. apply in_map_iff in X as (u & <- & X). apply filter_In in X as [X _]. cbn [CommentSpec.comment_of c_from c_to].
  destruct toks as [|u1 toks]; [destruct X|]. pose proof (T [] t u1 toks eq_refl) as E.
  destruct X as [<-|X]; [rewrite E; pl|]. pose proof (S [t] u1 toks u eq_refl X). rewrite E in *. pl.
Qed.
Lemma parsed_in_order d src f : dialect_ok d -> parse_file d src = ROk f -> in_order (f_comments f).
Proof.
  intros D E. assert (T : exists toks, tokenize d true src = TOk toks).
  { unfold parse_file in E. destruct (tokenize d true src); try discriminate; eauto. }
  destruct T as [toks T]. destruct (CommentThms.file_comments d src toks f D T E) as (C & _). apply apart_order. rewrite C.
  destruct (LexThms.positions_tile d src toks D T) as (_ & A & B & S). apply comments_apart; assumption.
Qed.

Lemma above l g k s e q : belongs l g k -> group_span g s e -> next_place l e q -> (q < List.length l)%nat ->
  (forall x p, In x l -> End x = Some p -> pline p <> pline s /\ pline p + 1 <> pline s) -> k = q.
Proof.
  intros (s' & e' & q' & n & S & N & _ & H) S' N' L A. destruct (span_unique _ _ _ _ _ S S') as [-> ->].
  rewrite (next_unique _ _ _ _ N N') in *.
  destruct H as [(x & p & E & _ & _ & EP & _ & C)|[(x & p & -> & E & EP & [C|C])|(-> & _)]]; auto; try lia;
    apply nth_error_In in E; destruct (A x p E EP); unfold close_to in C; lia.
Qed.

(** *** A check, to show cases *)

Definition beforeb (p q : pos) : bool := (pline p <? pline q) || ((pline p =? pline q) && (pcol p <? pcol q)).
Lemma beforeb_spec p q : beforeb p q = true <-> before p q.
Proof. unfold beforeb, before. rewrite orb_true_iff, andb_true_iff, !Z.ltb_lt, Z.eqb_eq. tauto. Qed.
Lemma beforeb_not p q : negb (beforeb p q) = true <-> ~ before p q.
Proof. rewrite negb_true_iff. rewrite <- beforeb_spec. destruct (beforeb p q); intuition congruence. Qed.

Definition indexed (l : list any) : list (nat * any) := combine (seq 0 (List.length l)) l.
Lemma indexed_in l i x : nth_error l i = Some x -> In (i, x) (indexed l).
Proof.
  unfold indexed. assert (H : forall l k i x, nth_error l i = Some x -> In ((k + i)%nat, x) (combine (seq k (@List.length any l)) l)).
  { clear. induction l as [|y l IH]; intros k [|i] x E; cbn in E; try discriminate; cbn [List.length seq combine].
    - injection E as ->. left. f_equal. lia.
    - right. replace (k + S i)%nat with (S k + i)%nat by lia. apply IH. exact E. }
  apply (H l 0%nat).
Qed.

Definition check (l : list any) (g : commentgroup) (k q : nat) : bool :=
  match pos_group g, end_group g, nth_error l k, nth_error l q with
  | Some s, Some e, Some x, Some y =>
      match Pos x, End x, Pos y with
      | Some from, Some to, Some py =>
          important x && Nat.ltb k q && negb (beforeb s to) && negb (beforeb py e) && (pline to =? pline s) &&
          forallb (fun m => match Pos (snd m), End (snd m) with
            | Some p, Some f =>
                (negb (Nat.ltb (fst m) q) || beforeb p e) &&
                (negb (Nat.ltb k (fst m) && Nat.ltb (fst m) q) || (beforeb p to && (negb (important (snd m)) || negb (beforeb to f)))) &&
                (negb (Nat.ltb (fst m) k && important (snd m)) || negb (beforeb from f) || beforeb s f)
            | _, _ => false
            end) (indexed l)
      | _, _, _ => false
      end
  | _, _, _, _ => false
  end.
Lemma check_sound l g k q : check l g k q = true -> just_ended l g k /\ near_end l g k.
Proof.
  unfold check. destruct (pos_group g) as [s|] eqn:E1; [|discriminate]. destruct (end_group g) as [e|] eqn:E2; [|discriminate].
  destruct (nth_error l k) as [x|] eqn:E3; [|discriminate]. destruct (nth_error l q) as [y|] eqn:E4; [|discriminate].
  destruct (Pos x) as [from|] eqn:E5; [|discriminate]. destruct (End x) as [to|] eqn:E6; [|discriminate].
  destruct (Pos y) as [py|] eqn:E7; [|discriminate]. rewrite !andb_true_iff, !beforeb_not, Nat.ltb_lt, Z.eqb_eq.
  intros (((((A & B) & C) & D) & F) & G). rewrite forallb_forall in G.
  assert (H : forall i z, nth_error l i = Some z -> exists p f, Pos z = Some p /\ End z = Some f /\
    ((i < q)%nat -> before p e) /\ ((k < i < q)%nat -> before p to /\ (important z = true -> ~ before to f)) /\
    ((i < k)%nat -> important z = true -> ~ before from f \/ before s f)).
  { intros i z E. specialize (G (i, z) (indexed_in l i z E)). cbn [fst snd] in G. destruct (Pos z) as [p|]; [|discriminate].
    destruct (End z) as [f|]; [|discriminate]. exists p, f. rewrite !andb_true_iff, !orb_true_iff, !andb_true_iff, !orb_true_iff, !beforeb_not in G.
    rewrite !negb_true_iff in G.
    rewrite !andb_false_iff, !Nat.ltb_ge, !beforeb_spec in G. destruct G as ((G1 & G2) & G3). split; [reflexivity|]. split; [reflexivity|].
    split; [intros L; destruct G1; [lia|assumption]|]. split.
    - intros L. destruct G2 as [[G2|G2]|(G2 & G4)]; try lia. split; [exact G2|]. intros I. destruct G4; [congruence|assumption].
    - intros L I. destruct G3 as [[[G3|G3]|G3]|G3]; try lia; try congruence; auto. }
  assert (NP : next_place l e q).
  { split; [assert (q < List.length l)%nat by (apply nth_error_Some; congruence); lia|]. split.
    - intros i z L E. destruct (H i z E) as (p & f & P1 & _ & P3 & _). eauto.
    - intros z E. rewrite E4 in E. injection E as <-. eauto. }
  split.
  - exists s, e, q, x, from, to. split; [split; assumption|]. split; [exact NP|]. split; [exact E3|]. split; [apply holder_important; exact A|].
    split; [exact B|]. split; [exact E5|]. split; [exact E6|]. split; [exact C|]. split; [|split].
    + intros i z L E p P. destruct (H i z E) as (p' & f & P1 & _ & _ & P4 & _). rewrite P1 in P. injection P as <-. apply P4. exact L.
    + intros i z L E I p P. destruct (H i z E) as (p' & f & _ & P2 & _ & P4 & _). rewrite P2 in P. injection P as <-. apply P4; [exact L|].
      apply holder_important. exact I.
    + intros i z L E I p P. destruct (H i z E) as (p' & f & _ & P2 & _ & _ & P5). rewrite P2 in P. injection P as <-. apply P5; [exact L|].
      apply holder_important. exact I.
  - exists s, e, q, x, to, (pline py). split; [split; assumption|]. split; [exact NP|]. split; [unfold next_line; rewrite E4; eauto|].
    split; [exact E3|]. split; [exact E6|]. left. exact F.
Qed.
