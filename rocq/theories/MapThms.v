(** Comment maps and positions. *)
From Coq Require Import ZArith String List Bool Lia Permutation.
From Verif Require Import Base Dialect Token AST Nodes Walk WalkSpec WalkThms PosEnd CommentMap MapSpec.
Import ListNotations.
Open Scope list_scope.
Open Scope Z_scope.

Lemma cm_get_set m k l k' : cm_get (cm_set m k l) k' = if Nat.eqb k' k then l else cm_get m k'.
Proof.
  induction m as [|[k1 l1] m IH]; cbn [cm_set cm_get].
  - destruct (Nat.eqb k' k); reflexivity.
  - destruct (Nat.eqb k k1) eqn:E; cbn [cm_get].
    + apply Nat.eqb_eq in E. subst k1. destruct (Nat.eqb k' k); reflexivity.
    + rewrite IH. destruct (Nat.eqb k' k1) eqn:E1, (Nat.eqb k' k) eqn:E2; try reflexivity.
      apply Nat.eqb_eq in E1, E2. subst. rewrite Nat.eqb_refl in E. discriminate.
Qed.

Lemma given_snoc places cs k p c : List.length places = List.length cs ->
  given (places ++ [p]) (cs ++ [c]) k = given places cs k ++ (if Nat.eqb p k then [c] else []).
Proof.
  unfold given. revert cs. induction places as [|q places IH]; intros [|d cs] L; try discriminate.
  - cbn. destruct (Nat.eqb p k); reflexivity.
  - cbn in L. injection L as L. specialize (IH cs L). cbn [app combine filter fst].
    destruct (Nat.eqb q k); cbn [map snd app]; rewrite IH; reflexivity.
Qed.

Section Map.
  Variable l : list any.
  Definition valid (n : ptr) : Prop := nth_error l (fst n) = Some (snd n).

  Definition st_ok (s : state) : Prop :=
    (forall n e, st_p s = Some (n, e) -> valid n) /\ (forall n e, st_pg s = Some (n, e) -> valid n) /\
    Forall valid (st_stack s).

  Definition keyed (done : list commentgroup) (m : cmap) : Prop :=
    exists places, List.length places = List.length done /\ (forall k, cm_get m k = given places done k) /\
      Forall (fun k => k < List.length l)%nat places.

  Lemma keyed_add done m n c : keyed done m -> valid n -> keyed (done ++ [c]) (add_comment m n c).
  Proof.
    intros (pl & L & G & B) V. exists (pl ++ [fst n]). split; [rewrite !app_length, L; reflexivity|]. split.
    - intros k. unfold add_comment. rewrite cm_get_set, given_snoc by exact L. rewrite (Nat.eqb_sym (fst n) k).
      destruct (Nat.eqb k (fst n)) eqn:E.
      + apply Nat.eqb_eq in E. subst k. rewrite G. destruct (given pl done (fst n)); reflexivity.
      + rewrite app_nil_r. apply G.
    - apply Forall_app. split; [exact B|]. constructor; [|constructor]. apply nth_error_Some. rewrite V. discriminate.
  Qed.

  Lemma pop_valid st p top st' top' : pop st p top = Some (st', top') -> Forall valid st ->
    (forall n, top = Some n -> valid n) -> Forall valid st' /\ forall n, top' = Some n -> valid n.
  Proof.
    revert top. induction st as [|n st IH]; intros top E F T; cbn [pop] in E.
    - injection E as <- <-. auto.
    - inversion F; subst. destruct (End (snd n)); [|discriminate].
      destruct (compare_pos p0 p =? 1).
      + injection E as <- <-. auto.
      + eapply IH; [exact E|assumption|]. intros u [= <-]. assumption.
  Qed.

  Lemma association_valid p pg q qpos rpos rend n :
    association p pg q qpos rpos rend = Some n ->
    (forall n e, p = Some (n, e) -> valid n) -> (forall n e, pg = Some (n, e) -> valid n) ->
    (forall n, q = Some n -> valid n) -> valid n.
  Proof.
    unfold association. intros E P G Q.
    destruct pg as [[a e]|].
    - destruct (_ || _) in E; [injection E as <-; eapply G; reflexivity|].
      destruct p as [[b e']|]; [|auto]. destruct (_ || _) in E; [injection E as <-; eapply P; reflexivity|auto].
    - destruct p as [[b e']|]; [|auto]. destruct (_ || _) in E; [injection E as <-; eapply P; reflexivity|auto].
  Qed.

  Lemma inner_keyed q qpos rest : forall s c done, (forall n, q = Some n -> valid n) -> st_ok s -> keyed done (st_map s) ->
    match inner q qpos s c rest with
    | Returned m => keyed (done ++ c :: rest) m
    | Panicked => True
    | GoOn s' c' rest' => exists done', done ++ c :: rest = done' ++ c' :: rest' /\ st_ok s' /\ keyed done' (st_map s')
                          /\ st_p s' = st_p s
    end.
  Proof.
    induction rest as [|c1 rest IH]; intros s c done Q (P & G & F) K; cbn [inner].
    all: destruct (pos_group c) as [rpos|]; [|exact I]; destruct (end_group c) as [rend|]; [|exact I];
      destruct (compare_pos qpos rend =? -1); [exists done; repeat split; assumption|];
      destruct (pop (st_stack s) rpos None) as [[stack top]|] eqn:PP; [|exact I];
      destruct (pop_valid _ _ _ _ _ PP F ltac:(discriminate)) as [F' T];
      match goal with |- context [match ?m with None => Panicked | Some _ => _ end] => destruct m as [pg|] eqn:PG end; [|exact I];
      assert (G' : forall n e, pg = Some (n, e) -> valid n)
        by (destruct top as [n|]; [destruct (End (snd n)); [|discriminate]; injection PG as <-; intros u e [= <- <-]; apply T; reflexivity
                                  |injection PG as <-; exact G]);
      destruct (association (st_p s) pg q qpos rpos rend) as [n|] eqn:A; [|exact I];
      apply association_valid in A; auto.
    - apply keyed_add; assumption.
    - specialize (IH (mkSt (st_p s) pg stack (add_comment (st_map s) n c)) c1 (done ++ [c]) Q).
      rewrite <- app_assoc in IH. apply IH; [repeat split; assumption|]. apply keyed_add; assumption.
  Qed.

  Lemma outer_keyed nodes : forall s c rest done, Forall valid nodes -> st_ok s -> keyed done (st_map s) ->
    match outer nodes s c rest with
    | Returned m => keyed (done ++ c :: rest) m
    | _ => True
    end.
  Proof.
    induction nodes as [|q nodes IH]; intros s c rest done V O K; cbn [outer].
    - pose proof (inner_keyed None infinity rest s c done ltac:(discriminate) O K).
      destruct (inner None infinity s c rest); try exact I. exact H.
    - inversion V as [|? ? V1 V2]; subst. destruct (Pos (snd q)) as [qpos|]; [|exact I].
      pose proof (inner_keyed (Some q) qpos rest s c done) as H. specialize (H ltac:(intros n [= <-]; exact V1) O K).
      destruct (inner (Some q) qpos s c rest) as [m| |s' c' rest']; [exact H|exact I|].
      destruct H as (done' & E & (P & G & F) & K' & _). rewrite E.
      destruct (End (snd q)) as [e|]; [|exact I].
      match goal with |- context [match ?m with None => Panicked | Some _ => _ end] => destruct m as [stack|] eqn:PS end; [|exact I].
      apply IH; [exact V2| |exact K']. repeat split; cbn.
      + intros n e' [= <- <-]. exact V1.
      + exact G.
      + destruct (important (snd q)); [|injection PS as <-; exact F].
        unfold push in PS. destruct (Pos (snd q)); [|discriminate].
        destruct (pop (st_stack s') p None) as [[st top]|] eqn:PP; [|discriminate].
        injection PS as <-. constructor; [exact V1|]. eapply pop_valid; [exact PP|exact F|discriminate].
  Qed.
End Map.

Lemma places_valid (l : list any) : Forall (valid l) (combine (seq 0 (List.length l)) l).
Proof.
  apply Forall_forall. intros [k x] I. unfold valid. cbn [fst snd].
  assert (H : forall n (l : list any) k x, In (k, x) (combine (seq n (List.length l)) l) ->
            (n <= k)%nat /\ nth_error l (k - n) = Some x).
  { clear. intros n l. revert n. induction l as [|y l IH]; intros n k x I; [destruct I|].
    cbn [List.length seq combine] in I. destruct I as [[= <- <-]|I].
    - rewrite Nat.sub_diag. split; [lia|reflexivity].
    - apply IH in I. destruct I as [L E]. split; [lia|]. replace (k - n)%nat with (S (k - S n)) by lia. exact E. }
  apply H in I. rewrite Nat.sub_0_r in I. apply I.
Qed.

(** C29. *)
Lemma comment_map_exact f m : NewCommentMap f = CMMap m ->
  exists l places, node_list f = Some l /\ List.length places = List.length (f_comments f) /\
    Forall (fun k => k < List.length l)%nat places /\ forall k, cm_get m k = given places (f_comments f) k.
Proof.
  unfold NewCommentMap. destruct (f_comments f) as [|c rest]; [discriminate|].
  destruct (node_list f) as [l|]; [|discriminate].
  pose proof (outer_keyed l (combine (seq 0 (List.length l)) l) (mkSt None None [] []) c rest [] (places_valid l)) as H.
  destruct (outer _ _ c rest) as [m'| |]; try discriminate. intros [= <-].
  destruct H as (pl & L & G & B).
  - repeat split; cbn; try discriminate. constructor.
  - exists []. split; [reflexivity|]. split; [intros k; reflexivity|constructor].
  - exists l, pl. repeat split; assumption.
Qed.

(** The node list holds the reached nodes in walking order. *)
Lemma collect_state n : forall x s l s' e, walk (noting collect) n x (s, l) = (s', e) -> s = nodes_of l -> fst s' = nodes_of (snd s').
Proof.
  assert (N : forall s l x s' b, noting collect (s, l) x = (s', b) -> s = nodes_of l -> fst s' = nodes_of (snd s')).
  { intros s l x s' b E ->. unfold noting in E. destruct x as [y|]; cbn in E; injection E as <- <-; cbn [fst snd];
      rewrite nodes_of_app; cbn; rewrite ?app_nil_r; reflexivity. }
  induction n as [|n IH]; intros x s l s' e E H; cbn [walk] in E.
  - injection E as <- _. exact H.
  - destruct (noting collect (s, l) x) as [[s1 l1] b] eqn:E1. apply N in E1; [|exact H]. cbn [fst snd] in E1.
    assert (Q : forall ks s l s' e, seq_nodes (walk (noting collect) n) ks (s, l) = (s', e) -> s = nodes_of l -> fst s' = nodes_of (snd s')).
    { clear - IH. induction ks as [|k ks IHk]; intros s l s' e E H; cbn [seq_nodes] in E.
      - injection E as <- _. exact H.
      - destruct (walk (noting collect) n k (s, l)) as [[s1 l1] e1] eqn:E1. apply IH in E1; [|exact H]. cbn [fst snd] in E1.
        destruct e1; try (injection E as <- _; exact E1). eapply IHk; eassumption. }
    destruct b; [|injection E as <- _; exact E1].
    destruct x as [y|]; [|injection E as <- _; exact E1].
    destruct (kids y) as [ks|]; [|injection E as <- _; exact E1].
    destruct (seq_nodes (walk (noting collect) n) ks (s1, l1)) as [[s2 l2] e2] eqn:E2.
    apply Q in E2; [|exact E1]. cbn [fst snd] in E2.
    destruct e2; try (injection E as <- _; exact E2).
    destruct (noting collect (s2, l2) None) as [s3 b3] eqn:E3. injection E as <- _. apply N in E3; [exact E3|exact E2].
Qed.

Lemma node_list_preorder f : exists l, node_list f = Some l /\ preorder (AFile f) l.
Proof.
  assert (V : forall s x, snd (collect s x) = match x with Some _ => true | None => false end) by (intros s [x|]; reflexivity).
  destruct (Walk_all collect (AFile f) [] V I) as (s' & log & E & P).
  destruct (Walk_trace collect (AFile f) []) as (s2 & log2 & e2 & E1 & E2 & _).
  rewrite E in E2. injection E2 as <- <- <-.
  pose proof (collect_state _ _ _ _ _ _ E eq_refl) as C. cbn [fst snd] in C.
  exists (nodes_of log). split; [|exact P]. unfold node_list, Inspect. rewrite E1, C. reflexivity.
Qed.

Lemma preorder_head x l : preorder x l -> exists l', l = x :: l'.
Proof. inversion 1. eexists. reflexivity. Qed.

(** C30: the trees on which Pos and End are total. *)
Lemma last_end_total {A} (f : A -> option pos) (l : list A) : l <> [] -> (forall a, In a l -> f a <> None) -> last_end f l <> None.
Proof.
  induction l as [|a l IH]; intros N H; [congruence|]. cbn [last_end]. destruct l as [|b l].
  - apply H. left. reflexivity.
  - apply IH; [discriminate|]. intros c I. apply H. right. exact I.
Qed.

Lemma last_end_none {A} (f : A -> option pos) (l : list A) : (forall a, In a l -> f a <> None) -> last_end f l = None -> l = [].
Proof. intros H E. destruct l; [reflexivity|]. exfalso. revert E. apply last_end_total; [discriminate|exact H]. Qed.

Ltac insub := unfold subnodes, f1, f01, fl, AIdent, ALong; cbn; repeat (rewrite ?in_app_iff, ?in_map_iff; cbn); eauto 14.
Lemma of_stmt_pos s : Pos (of_stmt s) = pos_stmt s. Proof. destruct s; reflexivity. Qed.
Lemma of_stmt_end s : End (of_stmt s) = end_stmt s. Proof. destruct s; reflexivity. Qed.

Ltac close S :=
  match goal with
  | |- Some _ <> None => discriminate
  | |- pos_node ?e <> None => refine (proj1 (S (AExpr e) _)); insub
  | |- end_node ?e <> None => refine (proj2 (S (AExpr e) _)); insub
  | |- pos_name ?e <> None => refine (proj1 (S (AName e) _)); insub
  | |- end_name ?e <> None => refine (proj2 (S (AName e) _)); insub
  | |- pos_win ?e <> None => refine (proj1 (S (AWin e) _)); insub
  | |- end_win ?e <> None => refine (proj2 (S (AWin e) _)); insub
  | |- pos_frame ?e <> None => refine (proj1 (S (AFrame e) _)); insub
  | |- end_frame ?e <> None => refine (proj2 (S (AFrame e) _)); insub
  | |- pos_bound ?e <> None => refine (proj1 (S (ABound e) _)); insub
  | |- end_bound ?e <> None => refine (proj2 (S (ABound e) _)); insub
  | |- pos_order ?e <> None => refine (proj1 (S (AOrder e) _)); insub
  | |- end_order ?e <> None => refine (proj2 (S (AOrder e) _)); insub
  | |- pos_query ?e <> None => refine (proj1 (S (AQuery e) _)); insub
  | |- end_query ?e <> None => refine (proj2 (S (AQuery e) _)); insub
  | |- pos_cte ?e <> None => refine (proj1 (S (ACte e) _)); insub
  | |- end_cte ?e <> None => refine (proj2 (S (ACte e) _)); insub
  | |- pos_set ?e <> None => refine (proj1 (S (ASet e) _)); insub
  | |- end_set ?e <> None => refine (proj2 (S (ASet e) _)); insub
  | |- pos_item ?e <> None => refine (proj1 (S (AItem e) _)); insub
  | |- end_item ?e <> None => refine (proj2 (S (AItem e) _)); insub
  | |- pos_spec ?e <> None => refine (proj1 (S (ASpec e) _)); insub
  | |- end_spec ?e <> None => refine (proj2 (S (ASpec e) _)); insub
  | |- pos_limit ?e <> None => refine (proj1 (S (ALimit e) _)); insub
  | |- end_limit ?e <> None => refine (proj2 (S (ALimit e) _)); insub
  | |- pos_dtype ?e <> None => refine (proj1 (S (AType e) _)); insub
  | |- end_dtype ?e <> None => refine (proj2 (S (AType e) _)); insub
  | |- pos_source ?e <> None => refine (proj1 (S (ASource e) _)); insub
  | |- end_source ?e <> None => refine (proj2 (S (ASource e) _)); insub
  | |- pos_row ?e <> None => refine (proj1 (S (ARow e) _)); insub
  | |- end_row ?e <> None => refine (proj2 (S (ARow e) _)); insub
  | |- pos_assign ?e <> None => refine (proj1 (S (AAssign e) _)); insub
  | |- end_assign ?e <> None => refine (proj2 (S (AAssign e) _)); insub
  | |- pos_elem ?e <> None => refine (proj1 (S (AElem e) _)); insub
  | |- end_elem ?e <> None => refine (proj2 (S (AElem e) _)); insub
  | |- pos_tspec ?e <> None => refine (proj1 (S (ATSpec e) _)); insub
  | |- end_tspec ?e <> None => refine (proj2 (S (ATSpec e) _)); insub
  | |- pos_refkey ?e <> None => refine (proj1 (S (ARefKey e) _)); insub
  | |- end_refkey ?e <> None => refine (proj2 (S (ARefKey e) _)); insub
  | |- pos_ccons ?e <> None => refine (proj1 (S (ACCons e) _)); insub
  | |- end_ccons ?e <> None => refine (proj2 (S (ACCons e) _)); insub
  | |- pos_cspec ?e <> None => refine (proj1 (S (ACSpec e) _)); insub
  | |- end_cspec ?e <> None => refine (proj2 (S (ACSpec e) _)); insub
  | |- pos_action ?e <> None => refine (proj1 (S (AAction e) _)); insub
  | |- end_action ?e <> None => refine (proj2 (S (AAction e) _)); insub
  | |- pos_colact ?e <> None => refine (proj1 (S (AColAction e) _)); insub
  | |- end_colact ?e <> None => refine (proj2 (S (AColAction e) _)); insub
  | |- pos_group ?e <> None => refine (proj1 (S (AGroup e) _)); insub
  | |- end_group ?e <> None => refine (proj2 (S (AGroup e) _)); insub
  | |- pos_stmt ?e <> None => rewrite <- of_stmt_pos; refine (proj1 (S (of_stmt e) _)); insub
  | |- end_stmt ?e <> None => rewrite <- of_stmt_end; refine (proj2 (S (of_stmt e) _)); insub
  | |- pos_ref ?e <> None => first [refine (proj1 (S (ARef e) _)); solve [insub] | refine (proj1 (S (AElement e) _)); insub]
  | |- end_ref ?e <> None => first [refine (proj2 (S (ARef e) _)); solve [insub] | refine (proj2 (S (AElement e) _)); insub]
  | |- pos_tcons ?e <> None => refine (proj1 (S (AElem (TEConstraint e)) _)); insub
  | |- end_tcons ?e <> None => refine (proj2 (S (AElem (TEConstraint e)) _)); insub
  | |- pos_col ?e <> None => refine (proj1 (S (AElem (TEColumn e)) _)); insub
  | |- end_col ?e <> None => refine (proj2 (S (AElem (TEColumn e)) _)); insub
  end.

Lemma positions_total x : (forall z, within x z -> has_parts z) -> Pos x <> None /\ End x <> None.
Proof.
  remember (size x) as n eqn:N. revert x N. induction n as [n IH] using lt_wf_ind. intros x -> H.
  assert (S : forall y, In y (subnodes x) -> Pos y <> None /\ End y <> None).
  { intros y I. apply (IH (size y)); [apply sub_size; exact I|reflexivity|].
    intros z W. apply H. econstructor; eassumption. }
  pose proof (H x (within_self x)) as L. clear IH H.
  assert (ON : forall (l : list ident), l <> [] -> last_end end_ident l <> None).
  { intros l N. apply last_end_total; [exact N|]. intros i _. discriminate. }
  revert S L. cases x;
    try match goal with
        | |- context [AFile ?y] => destruct y
        | |- context [AName ?y] => destruct y
        | |- context [ARow ?y] => destruct y
        | |- context [AAssign ?y] => destruct y
        end;
    intros S L; cbn [has_parts AST.f_stmts AST.on_idents AST.cd_constraints] in L; try (split; cbn; discriminate).
  all: split; cbn [Pos End];
    unfold pos_file, end_file, end_frame, end_limit, end_assign, end_col, end_ccons, end_row;
    cbn [pos_node end_node pos_win end_win pos_frame end_frame pos_order end_order pos_query end_query pos_set end_set pos_select end_select
         pos_item end_item pos_ref end_ref pos_spec end_spec pos_limit end_limit pos_dtype end_dtype pos_stmt end_stmt pos_source end_source
         pos_elem end_elem pos_tspec end_tspec pos_ccons end_ccons pos_cspec end_cspec pos_action end_action pos_colact end_colact pos_bound end_bound
         AST.f_stmts AST.f_comments AST.wf_end AST.wf_start AST.lim_value AST.lim_offset AST.as_value AST.cd_constraints AST.cc_spec AST.cc_name];
    try discriminate;
    repeat match goal with
    | |- match ?x with _ => _ end <> None => is_var x; destruct x
    end; cbn [first_pos obind]; try discriminate; try solve [close S].
  all: unfold pos_tcons, end_tcons, pos_ccons, end_col, pos_name, end_name, pos_group, end_group;
    cbn [AST.cd_constraints AST.tc_name AST.tc_spec AST.tc_constraint AST.cc_name AST.cc_constraint AST.on_idents];
    try apply ON; try assumption; try discriminate;
    repeat match goal with
    | |- match ?x with _ => _ end <> None => is_var x; destruct x
    end; try discriminate; try solve [close S];
    try match goal with |- end_limit ?l <> None => unfold end_limit; destruct (lim_value l); discriminate end;
    try match goal with |- first_pos ?f ?l <> None => destruct l; cbn [first_pos]; [congruence|try discriminate; try solve [close S]] end;
    try match goal with
        | |- obind (end_node ?e) _ <> None =>
            let H := fresh in assert (H : end_node e <> None) by close S; destruct (end_node e); [discriminate|congruence]
        | |- obind (last_end end_ident (on_idents ?e)) _ <> None =>
            let H := fresh in assert (H : end_name e <> None) by close S; unfold end_name in H; destruct (last_end end_ident (on_idents e)); [discriminate|congruence]
        end;
    try tauto.
  all: try (apply last_end_total; [first [discriminate|tauto|assumption]|intros u I; try discriminate;
    try (destruct I as [->|I]); try solve [close S]]).
  - assert (P : first_pos pos_stmt f_stmts <> None) by (destruct f_stmts; [congruence|cbn [first_pos]; close S]).
    assert (G : pos_group c <> None) by close S. unfold pos_group in G.
    destruct (first_pos pos_stmt f_stmts); [|congruence]. cbn [obind].
    destruct (first_pos _ c); [discriminate|congruence].
  - assert (P : last_end end_stmt f_stmts <> None) by (apply last_end_total; [assumption|intros u I; close S]).
    assert (G : last_end end_group (c :: f_comments) <> None)
      by (apply last_end_total; [discriminate|intros u [->|I]; close S]).
    change (last_end _ (c :: f_comments)) with (last_end end_group (c :: f_comments)).
    destruct (last_end end_group (c :: f_comments)); [|congruence]. cbn [obind].
    destruct (last_end end_stmt f_stmts); [discriminate|congruence].
  - apply last_end_total; [intuition congruence|]. intros u I. change (end_name u <> None). close S.
Qed.

Lemma parts_needed x : Pos x <> None -> End x <> None -> has_parts x.
Proof.
  cases x; cbn [has_parts]; intros P E; try exact I; cbn in P, E;
    unfold pos_name, end_name, pos_file, end_file, pos_group, end_col in *; cbn in P, E;
    repeat match goal with |- _ \/ _ => idtac | |- ?l <> [] => intros Z; rewrite Z in *; cbn in *; congruence end.
  - intros Z. rewrite Z in P. destruct (f_comments f); cbn in P; congruence.
  - destruct partition_by; [|left; discriminate]. destruct order_by; [|right; left; discriminate].
    destruct frame; [right; right; discriminate|congruence].
  - destruct projection; [|left; discriminate]. destruct from; [|right; left; discriminate].
    destruct where_; [right; right; left; discriminate|]. destruct group_by; [|right; right; right; left; discriminate].
    destruct having; [right; right; right; right; discriminate|]. cbn in E. congruence.
  - destruct assigns; [|left; discriminate]. destruct selection; [right; discriminate|cbn in E; congruence].
  - destruct tables; [|left; discriminate]. destruct cascade; [right; reflexivity|cbn in E; congruence].
  - cbn. intros ->. cbn in E. congruence.
Qed.

Lemma positions_iff x : (forall z, within x z -> Pos z <> None /\ End z <> None) <-> (forall z, within x z -> has_parts z).
Proof.
  assert (T : forall x y z, within x y -> within y z -> within x z).
  { clear. intros x y z W. revert z. induction W; intros u V; [exact V|]. econstructor; [eassumption|]. apply IHW, V. }
  split; intros H z W.
  - destruct (H z W). apply parts_needed; assumption.
  - apply positions_total. intros u V. apply H. eapply T; eassumption.
Qed.

(** NewCommentMap on trees with positions. *)
Definition located (n : ptr) : Prop := Pos (snd n) <> None /\ End (snd n) <> None.

Lemma pop_total st p top : Forall located st -> exists st' top', pop st p top = Some (st', top') /\ Forall located st' /\
  (top' = top \/ exists n, top' = Some n /\ located n).
Proof.
  intros F. revert top. induction F as [|n st L F IH]; intros top; cbn [pop].
  - exists [], top. auto.
  - destruct (End (snd n)) as [e|] eqn:E; [|destruct L; congruence]. destruct (compare_pos e p =? 1).
    + exists (n :: st), top. auto.
    + destruct (IH (Some n)) as (st' & top' & P & F' & T). exists st', top'. split; [exact P|]. split; [exact F'|].
      right. destruct T as [->|T]; [exists n; auto|exact T].
Qed.

Definition placed (c : commentgroup) : Prop :=
  exists p e, pos_group c = Some p /\ end_group c = Some e /\ compare_pos infinity e <> -1.

Lemma inner_total q qpos rest : forall s c, (q <> None \/ st_p s <> None) -> Forall located (st_stack s) ->
  placed c -> Forall placed rest ->
  match inner q qpos s c rest with
  | Panicked => False
  | Returned _ => True
  | GoOn s' c' rest' => Forall located (st_stack s') /\ placed c' /\ Forall placed rest' /\
      exists e, end_group c' = Some e /\ compare_pos qpos e = -1
  end.
Proof.
  induction rest as [|c1 rest IH]; intros s c Q F (p & e & P & E & INF) R; cbn [inner]; rewrite P, E.
  all: destruct (compare_pos qpos e =? -1) eqn:C;
      [apply Z.eqb_eq in C; repeat split; [exact F|exists p, e; auto|exact R|exists e; auto]|];
    destruct (pop_total (st_stack s) p None F) as (st' & top & -> & F' & T);
    match goal with |- context [match ?m with None => Panicked | Some _ => _ end] => assert (PG : exists pg, m = Some pg) end;
      [destruct T as [->|(n & -> & L)]; [eexists; reflexivity|destruct (End (snd n)) eqn:EE; [eexists; reflexivity|destruct L; congruence]]|];
    destruct PG as [pg ->];
    destruct (association (st_p s) pg q qpos p e) as [n|] eqn:A;
    try (exfalso; unfold association in A; destruct q as [q|];
         [destruct pg as [[? ?]|], (st_p s) as [[? ?]|]; repeat (destruct (_ || _) in A; try discriminate); discriminate|];
         destruct Q as [Q|Q]; [congruence|]; destruct (st_p s) as [[? ?]|]; [|congruence];
         destruct pg as [[? ?]|]; rewrite ?orb_true_r in A; repeat (destruct (_ || _) in A; try discriminate); discriminate).
  - exact I.
  - inversion R; subst. apply IH; assumption.
Qed.

Lemma outer_total nodes : forall s c rest, Forall located nodes -> (nodes <> [] \/ st_p s <> None) ->
  Forall located (st_stack s) -> placed c -> Forall placed rest ->
  exists m, outer nodes s c rest = Returned m.
Proof.
  induction nodes as [|q nodes IH]; intros s c rest V Q F P R; cbn [outer].
  - pose proof (inner_total None infinity rest s c) as H. destruct Q as [Q|Q]; [congruence|].
    specialize (H (or_intror Q) F P R). destruct (inner None infinity s c rest) as [m| |s' c' rest']; [eauto|destruct H|].
    destruct H as (_ & (p & e & _ & E & N) & _ & e' & E' & C). congruence.
  - inversion V as [|? ? V1 V2]; subst. pose proof V1 as [LP LE].
    destruct (Pos (snd q)) as [qpos|] eqn:EP; [|congruence].
    pose proof (inner_total (Some q) qpos rest s c) as H. specialize (H ltac:(left; discriminate) F P R).
    destruct (inner (Some q) qpos s c rest) as [m| |s' c' rest']; [eauto|destruct H|].
    destruct H as (F' & P' & R' & _).
    destruct (End (snd q)) as [e|] eqn:EE; [|congruence].
    assert (S : exists st, (if important (snd q) then push (st_stack s') q else Some (st_stack s')) = Some st /\ Forall located st).
    { destruct (important (snd q)); [|eauto]. unfold push. rewrite EP.
      destruct (pop_total (st_stack s') qpos None F') as (st & top & -> & F2 & _). eexists. split; [reflexivity|]. constructor; assumption. }
    destruct S as (st & -> & F2). apply IH; auto. right. cbn. discriminate.
Qed.

Lemma comment_map_total f :
  (forall z, reach (AFile f) z -> Pos z <> None /\ End z <> None) ->
  (forall g, In g (f_comments f) -> placed g) -> NewCommentMap f <> CMPanic.
Proof.
  intros H G. unfold NewCommentMap. destruct (f_comments f) as [|c rest]; [discriminate|].
  destruct (node_list_preorder f) as (l & -> & P).
  destruct (outer_total (combine (seq 0 (List.length l)) l) (mkSt None None [] []) c rest) as [m ->]; try discriminate.
  - apply Forall_forall. intros [k x] I. apply H, (proj1 preorder_reach _ _ P). apply in_combine_r in I. exact I.
  - left. destruct (preorder_head _ _ P) as [l' ->]. discriminate.
  - constructor.
  - apply G. left. reflexivity.
  - apply Forall_forall. intros g I. apply G. right. exact I.
Qed.

Lemma comment_map_nodes f m : NewCommentMap f = CMMap m ->
  exists l places, preorder (AFile f) l /\ List.length places = List.length (f_comments f) /\
    Forall (fun k => k < List.length l)%nat places /\ forall k, cm_get m k = given places (f_comments f) k.
Proof.
  intros H. destruct (comment_map_exact f m H) as (l & pl & E & L & F & G).
  destruct (node_list_preorder f) as (l' & E' & P). rewrite E in E'. injection E' as <-. exists l, pl. auto.
Qed.

Lemma comment_map_nil f : NewCommentMap f = CMNil <-> f_comments f = [].
Proof.
  unfold NewCommentMap. destruct (f_comments f) as [|c rest]; [tauto|].
  destruct (node_list f); [destruct (outer _ _ _ _)|]; split; discriminate.
Qed.

Lemma comment_map_parts f :
  (forall z, within (AFile f) z -> has_parts z) ->
  (forall g p, In g (f_comments f) -> end_group g = Some p -> pline p < 2 ^ 30) ->
  NewCommentMap f <> CMPanic.
Proof.
  intros H L. pose proof (proj2 (positions_iff (AFile f)) H) as T. apply comment_map_total.
  - intros z R. apply T, reach_within, R.
  - intros g I. assert (W : within (AFile f) (AGroup g)).
    { econstructor; [|constructor]. unfold subnodes, fl. cbn. rewrite in_app_iff. right. rewrite in_app_iff. left. apply in_map, I. }
    destruct (T _ W) as [P E]. cbn in P, E. destruct (pos_group g) as [p|] eqn:EP; [|congruence].
    destruct (end_group g) as [e|] eqn:EE; [|congruence]. exists p, e. split; [exact EP|split; [exact EE|]]. specialize (L g e I EE).
    unfold compare_pos, infinity. cbn [pline pcol].
    destruct (2 ^ 30 =? pline e) eqn:E1; [apply Z.eqb_eq in E1; lia|].
    cbn [andb]. destruct (pline e <? 2 ^ 30) eqn:E2; [discriminate|apply Z.ltb_ge in E2; lia].
Qed.
