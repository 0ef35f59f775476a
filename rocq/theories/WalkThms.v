(** Walk: order, bracketing, completeness, panics. *)
From Coq Require Import ZArith String List Bool Lia Permutation.
From Verif Require Import Base Dialect Token AST Nodes Walk WalkSpec.
Import ListNotations.
Open Scope list_scope.
Open Scope Z_scope.

Lemma opt_flat {A B} (f : A -> B) o :
  match option_map f o with Some x => [Some x] | None => [] end =
  match o with Some a => [Some (f a)] | None => [] end.
Proof. destruct o; reflexivity. Qed.

Lemma somes_map {A} (l : list A) : somes (map Some l) = l.
Proof. induction l; [reflexivity|]. cbn. f_equal. exact IHl. Qed.

Lemma somes_app {A} (a b : list (option A)) : somes (a ++ b) = somes a ++ somes b.
Proof. apply flat_map_app. Qed.

Ltac cases x :=
  destruct x;
  try match goal with
      | |- context [AExpr ?y] => is_var y; destruct y
      | |- context [AWin ?y] => is_var y; destruct y
      | |- context [AFrame ?y] => is_var y; destruct y
      | |- context [ABound ?y] => is_var y; destruct y
      | |- context [AOrder ?y] => is_var y; destruct y
      | |- context [AQuery ?y] => is_var y; destruct y
      | |- context [ACte ?y] => is_var y; destruct y
      | |- context [ASet ?y] => is_var y; destruct y
      | |- context [ASetOp ?y] => is_var y; destruct y
      | |- context [AItem ?y] => is_var y; destruct y
      | |- context [ARef ?y] => is_var y; destruct y
      | |- context [ASpec ?y] => is_var y; destruct y
      | |- context [ALimit ?y] => is_var y; destruct y
      | |- context [AType ?y] => is_var y; destruct y
      | |- context [AStmt ?y] => is_var y; destruct y
      | |- context [ASource ?y] => is_var y; destruct y
      | |- context [AElem ?y] => is_var y; destruct y
      | |- context [ATSpec ?y] => is_var y; destruct y
      | |- context [ACCons ?y] => is_var y; destruct y
      | |- context [ACSpec ?y] => is_var y; destruct y
      | |- context [AAction ?y] => is_var y; destruct y
      | |- context [AColAction ?y] => is_var y; destruct y
      | |- context [AOption ?y] => is_var y; destruct y
      end;
  try match goal with
      | |- context [SSelect ?y] => is_var y; destruct y
      | |- context [StQuery ?y] => is_var y; destruct y
      | |- context [TEColumn ?y] => is_var y; destruct y
      | |- context [TEConstraint ?y] => is_var y; destruct y
      end.
Ltac opts := repeat match goal with |- context [option_map _ ?o] => destruct o; cbn end.

(** The table computes the order. *)
Lemma kids_order x : walkable x -> kids x = Some (order x).
Proof.
  cases x; cbn [walkable]; intros H; try contradiction H; unfold kids; cbn;
    repeat match goal with |- context [option_map _ ?o] => destruct o; cbn end;
    rewrite ?app_nil_r; repeat (rewrite map_app; cbn); rewrite ?map_map; try reflexivity;
    rewrite <- ?map_map; try reflexivity.
Qed.

Lemma walkable_kids x : walkable x <-> kids x <> None.
Proof.
  split.
  - intros H. rewrite kids_order by exact H. discriminate.
  - destruct x; cbn; auto; try destruct o; unfold kids; cbn; congruence.
Qed.

Lemma somes_mapf {A B} (f : A -> B) (l : list A) : somes (map (fun a => Some (f a)) l) = map f l.
Proof. induction l; [reflexivity|]. cbn. f_equal. exact IHl. Qed.

(** The order and the hidden nodes make up all sub-nodes. *)
Lemma order_complete x : Permutation (somes (order x) ++ hidden x) (subnodes x).
Proof.
  cases x;
    try match goal with |- Permutation (somes (WalkSpec.order ?y) ++ _) _ =>
          change (WalkSpec.order y) with (map Some (subnodes y)); rewrite somes_map; cbn [hidden]; rewrite app_nil_r; reflexivity end;
    unfold subnodes; cbn [WalkSpec.order hidden fields flat_map snd f1 f01 fl held].
  - rewrite somes_mapf, app_nil_r. reflexivity.
  - destruct operand, else_; cbn; rewrite ?app_nil_r; reflexivity.
  - apply perm_swap.
  - apply perm_swap.
  - cbn. rewrite app_nil_r. reflexivity.
  - reflexivity.
  - reflexivity.
  - rewrite !somes_app, somes_mapf. destruct selection; cbn; rewrite ?app_nil_r; reflexivity.
  - cbn. fold (somes (map (fun e => Some (AElem e)) elements)). rewrite somes_mapf, app_nil_r. reflexivity.
  - cbn. fold (somes (match cd_default with Some e => [Some (AExpr e)] | None => [] end ++ map (fun c => Some (ACCons c)) cd_constraints)).
    rewrite somes_app, somes_mapf, app_nil_r.
    do 2 apply perm_skip. destruct cd_default; cbn; [apply perm_skip|]; apply Permutation_app_comm.
Qed.

Lemma order_sub x y : In (Some y) (order x) -> In y (subnodes x).
Proof.
  intros H. eapply Permutation_in; [apply order_complete|]. apply in_or_app. left.
  apply in_flat_map. exists (Some y). split; [exact H|left; reflexivity].
Qed.

Lemma order_nil x : In None (order x) <-> passes_nil x.
Proof.
  assert (M : forall A B (f : A -> B) l, ~ In None (map (fun a => Some (f a)) l)).
  { intros A B f l I. apply in_map_iff in I. destruct I as (a & E & _). discriminate. }
  assert (M' : forall A (l : list A), ~ In None (map Some l)) by (intros A l; apply (M A A (fun a => a) l)).
  cases x;
    try match goal with |- In None (WalkSpec.order ?y) <-> _ =>
          change (WalkSpec.order y) with (map Some (subnodes y)); cbn [passes_nil]; split; [apply M'|tauto] end;
    cbn [WalkSpec.order passes_nil].
  - split; [apply M|tauto].
  - destruct operand; cbn; intuition congruence.
  - cbn. intuition congruence.
  - cbn. intuition congruence.
  - cbn. tauto.
  - cbn. tauto.
  - cbn. tauto.
  - rewrite !in_app_iff. destruct selection; cbn.
    + split; [|tauto]. intros [[H|[]]|[H|[H|[]]]]; try discriminate H. apply M in H. exact H.
    + tauto.
  - cbn. split; [intros [H|H]; [discriminate|apply M in H; exact H]|tauto].
  - rewrite !in_app_iff. split; [|tauto]. intros [[H|[H|[]]]|[H|H]]; try discriminate H.
    + destruct (cd_default); cbn in H; [destruct H as [H|[]]; discriminate H|exact H].
    + apply M in H. exact H.
Qed.

(** The walk of a sub-node is shorter. *)
Lemma lsum_in {A} (f : A -> nat) l a : In a l -> (f a <= lsum f l)%nat.
Proof. induction l as [|b l IH]; intros []; cbn [lsum fold_right]; [subst; lia|]. apply IH in H. unfold lsum in H. lia. Qed.

Lemma lsum_length {A} (f : A -> nat) (l : list A) : (forall a, 1 <= f a)%nat -> (List.length l <= lsum f l)%nat.
Proof. intros P. induction l; cbn [lsum fold_right List.length]; [lia|]. specialize (P a). unfold lsum in IHl. lia. Qed.

Lemma sz_node_pos e : (1 <= sz_node e)%nat. Proof. destruct e; cbn [sz_node]; lia. Qed.
Lemma sz_of_stmt s : size (of_stmt s) = sz_stmt s. Proof. destruct s; reflexivity. Qed.

Ltac insplit :=
  repeat match goal with
  | H : In _ (_ ++ _) |- _ => apply in_app_or in H
  | H : _ \/ _ |- _ => destruct H
  | H : False |- _ => destruct H
  | H : In _ [] |- _ => destruct H
  | H : In _ (_ :: _) |- _ => destruct H
  | H : In _ (held (FMany (map _ _))) |- _ => cbn [held] in H
  | H : In _ (map _ _) |- _ => apply in_map_iff in H; destruct H as (? & ? & H)
  | H : In _ (held (FOne (option_map _ ?o))) |- _ => destruct o eqn:?; cbn [held option_map] in H
  | H : In _ (held (FOne _)) |- _ => cbn [held] in H
  end; subst.

Lemma sub_size x y : In y (subnodes x) -> (size y < size x)%nat.
Proof.
  revert y. cases x; intros y H; unfold subnodes in H; cbn [fields flat_map snd f1 f01 fl] in H; insplit.
  all: try (cbn; lia).
  all: rewrite ?sz_of_stmt;
    unfold AIdent, ALong; cbn [size sz_node sz_win sz_order sz_query sz_cte sz_set sz_select sz_item sz_ref sz_spec sz_row sz_source
         sz_assign sz_refkey sz_tspec sz_cspec sz_ccons sz_tcons sz_col sz_elem sz_colact sz_action sz_stmt sz_dtype
         osum AST.lim_value AST.lim_offset AST.wf_units AST.wf_start AST.wf_end AST.cd_type AST.cd_default AST.cd_decorations
         AST.cd_constraints AST.rk_columns AST.row_values AST.as_value AST.cc_spec AST.tc_spec];
    repeat match goal with
    | H : In ?a ?l |- context [lsum ?f ?l] => pose proof (lsum_in f l a H); clear H
    | H : In ?a ?l |- context [List.length ?l] => assert (1 <= List.length l)%nat by (destruct l; [destruct H|cbn; lia]); clear H
    end; unfold sz_name, sz_limit, sz_frame, sz_refkey in *; try (cbn in *; lia).
  - destruct x0; cbn in *; lia.
  - destruct x0; cbn in *; lia.
  - assert (on_idents n <> []) by (intros E; rewrite E in H; destruct H). destruct (on_idents n); [congruence|cbn [List.length]; lia].
  - unfold sz_row. pose proof (lsum_in sz_node _ _ H). lia.
  - cbn in *. subst. cbn. lia.
  - cbn [AST.cd_constraints] in H. pose proof (lsum_in sz_ccons _ _ H).
    unfold sz_col; cbn [AST.cd_constraints]. lia.
Qed.

Lemma order_size x y : In (Some y) (WalkSpec.order x) -> (size y < size x)%nat.
Proof. intros H. apply sub_size, order_sub, H. Qed.

Lemma order_walkable x y : walkable x -> In (Some y) (WalkSpec.order x) -> walkable y.
Proof.
  cases x; intros W H; cbn [walkable] in W; try tauto; cbn [WalkSpec.order] in H; 
    unfold subnodes in H; cbn [fields flat_map snd f1 f01 fl] in H;
    repeat match goal with
    | H : In _ (_ ++ _) |- _ => apply in_app_or in H
    | H : _ \/ _ |- _ => destruct H
    | H : In _ [] |- _ => destruct H
    | H : In _ (_ :: _) |- _ => destruct H
    | H : In _ (held (FMany (map _ _))) |- _ => cbn [held] in H
    | H : In _ (map _ _) |- _ => apply in_map_iff in H; destruct H as (? & ? & H)
    | H : In _ (held (FOne (option_map _ ?o))) |- _ => destruct o; cbn [held option_map] in H
    | H : In _ (held (FOne _)) |- _ => cbn [held] in H
    | H : Some _ = Some _ |- _ => injection H as H
    | H : option_map _ ?o = Some _ |- _ => destruct o; cbn in H
    | H : In _ (match ?o with Some _ => _ | None => _ end) |- _ => destruct o
    end; subst; try discriminate; try exact I.
  destruct x; exact I.
  destruct s; exact I.
Qed.

Section Trace.
  Context {S : Type}.
  Variable visit : S -> option any -> S * bool.

  Definition osize (x : option any) : nat := match x with Some y => size y | None => 0%nat end.

  Definition traced (x : option any) (n : nat) (s : S) (l : list call) : Prop :=
    exists s' log e, walk visit n x s = (s', e) /\ walk (noting visit) n x (s, l) = ((s', l ++ log), e) /\
      (e = WDone /\ walked x log \/ e = WPanic /\ broken x log).

  Lemma seq_trace n xs :
    (forall x s l, In x xs -> traced x n s l) ->
    forall s l, exists s' log e,
      seq_nodes (walk visit n) xs s = (s', e) /\
      seq_nodes (walk (noting visit) n) xs (s, l) = ((s', l ++ log), e) /\
      (e = WDone /\ walked_all xs log \/
       e = WPanic /\ exists before y after l1 l2, xs = before ++ y :: after /\ walked_all before l1 /\ broken y l2 /\ log = l1 ++ l2).
  Proof.
    induction xs as [|x xs IH]; intros H s l.
    - exists s, [], WDone. cbn. rewrite app_nil_r. repeat split. left. split; [reflexivity|constructor].
    - destruct (H x s l (or_introl eq_refl)) as (s1 & l1 & e1 & E1 & E2 & D).
      cbn [seq_nodes]. rewrite E1, E2. destruct D as [[-> D]|[-> D]].
      + destruct (IH (fun y s l I => H y s l (or_intror I)) s1 (l ++ l1)) as (s2 & l2 & e2 & F1 & F2 & F).
        exists s2, (l1 ++ l2), e2. rewrite F1, F2, app_assoc. repeat split.
        destruct F as [[-> F]|[-> (b & y & a & m1 & m2 & -> & W & B & ->)]].
        * left. split; [reflexivity|]. constructor; assumption.
        * right. split; [reflexivity|]. exists (x :: b), y, a, (l1 ++ m1), m2.
          repeat split; [constructor; assumption|exact B|]. rewrite app_assoc. reflexivity.
      + exists s1, l1, WPanic. repeat split. right. split; [reflexivity|].
        exists [], x, xs, [], l1. repeat split; [constructor|exact D].
  Qed.

  Lemma walk_trace n : forall x s l, (osize x < n)%nat -> traced x n s l.
  Proof.
    induction n as [|n IH]; intros x s l L; [lia|]. unfold traced.
    cbn [walk]. unfold noting at 1. cbn [fst snd]. destruct (visit s x) as [s1 [|]].
    - destruct x as [y|].
      2: { exists s1, [(None, true)], WPanic. repeat split. right. split; [reflexivity|constructor]. }
      destruct (kids y) as [ks|] eqn:K.
      + assert (W : walkable y) by (apply walkable_kids; congruence).
        rewrite kids_order in K by exact W. injection K as <-.
        destruct (seq_trace n (WalkSpec.order y)) with (s := s1) (l := l ++ [(Some y, true)])
          as (s2 & l2 & e2 & F1 & F2 & F).
        { intros x s0 l0 I. apply IH. destruct x as [z|]; cbn [osize] in *.
          - apply order_size in I. lia.
          - pose proof (order_size y). cbn in L. destruct (size y) eqn:Z; [|lia].
            exfalso. revert Z. clear. cases y; cbn; try discriminate; unfold sz_row, sz_col, sz_name; try discriminate. }
        rewrite F1, F2. destruct F as [[-> F]|[-> (b & z & a & m1 & m2 & E & Wb & B & ->)]].
        * destruct (visit s2 None) as [s3 b3] eqn:V. unfold noting. cbn [fst snd]. rewrite V. cbn [fst snd].
          exists s3, ((Some y, true) :: l2 ++ [(None, b3)]), WDone.
          repeat split; [rewrite <- !app_assoc; reflexivity|].
          left. split; [reflexivity|]. constructor; assumption.
        * exists s2, ((Some y, true) :: m1 ++ m2), WPanic. repeat split; [rewrite <- !app_assoc; reflexivity|].
          right. split; [reflexivity|]. econstructor; eassumption.
      + exists s1, [(Some y, true)], WPanic. repeat split. right. split; [reflexivity|].
        constructor. rewrite walkable_kids. intros N. apply N, K.
    - exists s1, [(x, false)], WDone. repeat split. left. split; [reflexivity|].
      destruct x; constructor.
  Qed.

  (** C31. *)
  Lemma Walk_trace x s :
    exists s' log e, Walk visit x s = (s', e) /\ Walk (noting visit) x (s, []) = ((s', log), e) /\
      (e = WDone /\ walked (Some x) log \/ e = WPanic /\ broken (Some x) log).
  Proof. apply (walk_trace (Datatypes.S (size x)) (Some x) s []). cbn. lia. Qed.
End Trace.

Scheme walked_mut := Induction for walked Sort Prop
  with walked_all_mut := Induction for walked_all Sort Prop.
Combined Scheme walked_both from walked_mut, walked_all_mut.

(** The nodes of a trace. *)
Definition nodes_of (l : list call) : list any := somes (map fst l).

Lemma nodes_of_app a b : nodes_of (a ++ b) = nodes_of a ++ nodes_of b.
Proof. unfold nodes_of. rewrite map_app. apply somes_app. Qed.

(** Entering every node but never nil. *)
Definition enters (l : list call) : Prop := forall x b, In (x, b) l -> b = match x with Some _ => true | None => false end.

Lemma enters_app a b : enters (a ++ b) -> enters a /\ enters b.
Proof. intros H. split; intros x c I; apply (H x c), in_or_app; tauto. Qed.

Lemma walked_preorder :
  (forall x l, walked x l -> enters l -> match x with Some y => preorder y (nodes_of l) | None => nodes_of l = [] end) /\
  (forall xs l, walked_all xs l -> enters l -> preorders (somes xs) (nodes_of l)).
Proof.
  apply walked_both.
  - intros _. reflexivity.
  - intros x H. specialize (H _ _ (or_introl eq_refl)). discriminate.
  - intros x l b W WA IH H.
    change ((Some x, true) :: l ++ [(None, b)]) with ([(Some x, true)] ++ l ++ [(None, b)]) in *.
    destruct (enters_app _ _ H) as [_ H1]. destruct (enters_app _ _ H1) as [H2 _].
    rewrite !nodes_of_app. cbn. rewrite app_nil_r. constructor. apply IH, H2.
  - intros _. constructor.
  - intros x xs l ls W IH W' IH' H. destruct (enters_app _ _ H) as [H1 H2]. rewrite nodes_of_app.
    destruct x as [y|]; cbn.
    + constructor; auto.
    + rewrite (IH H1). apply IH', H2.
Qed.

Lemma noting_enters {S} (visit : S -> option any -> S * bool)
  (V : forall s x, snd (visit s x) = match x with Some _ => true | None => false end) n :
  forall x s l s' e, walk (noting visit) n x (s, l) = (s', e) -> enters l -> enters (snd s').
Proof.
  assert (N : forall s l x s' b, noting visit (s, l) x = (s', b) -> enters l -> enters (snd s')).
  { intros s l x s' b E H. unfold noting in E. cbn [fst snd] in E. specialize (V s x).
    destruct (visit s x) as [s1 b1]. injection E as <- <-. cbn [snd] in *. intros y c I.
    apply in_app_or in I. destruct I as [I|[I|[]]]; [apply (H _ _ I)|]. injection I as <- <-. exact V. }
  induction n as [|n IH]; intros x s l s' e E H; cbn [walk] in E.
  - injection E as <- _. exact H.
  - destruct (noting visit (s, l) x) as [[s1 l1] b] eqn:E1. apply N in E1; [|exact H]. cbn [snd] in E1.
    assert (Q : forall ks s l s' e, seq_nodes (walk (noting visit) n) ks (s, l) = (s', e) -> enters l -> enters (snd s')).
    { clear - IH. induction ks as [|k ks IHk]; intros s l s' e E H; cbn [seq_nodes] in E.
      - injection E as <- _. exact H.
      - destruct (walk (noting visit) n k (s, l)) as [[s1 l1] e1] eqn:E1. apply IH in E1; [|exact H]. cbn [snd] in E1.
        destruct e1; try (injection E as <- _; exact E1). eapply IHk; eassumption. }
    destruct b; [|injection E as <- _; exact E1].
    destruct x as [y|]; [|injection E as <- _; exact E1].
    destruct (kids y) as [ks|]; [|injection E as <- _; exact E1].
    destruct (seq_nodes (walk (noting visit) n) ks (s1, l1)) as [[s2 l2] e2] eqn:E2.
    apply Q in E2; [|exact E1]. cbn [snd] in E2.
    destruct e2; try (injection E as <- _; exact E2).
    injection E as <- _. destruct (noting visit (s2, l2) None) as [s3 b3] eqn:E3. apply N in E3; [exact E3|exact E2].
Qed.

Lemma broken_enters x l : broken x l -> (forall y, x = Some y -> walkable y) -> ~ enters l.
Proof.
  induction 1 as [|x NW|x b y a l l' W O WA B IH]; intros H E.
  - specialize (E _ _ (or_introl eq_refl)). discriminate.
  - apply NW, (H x eq_refl).
  - change ((Some x, true) :: l ++ l') with ([(Some x, true)] ++ l ++ l') in E.
    apply enters_app in E. destruct E as [_ E]. apply enters_app in E. destruct E as [_ E].
    apply IH; [|exact E]. intros z ->. eapply order_walkable; [exact W|]. rewrite O. apply in_or_app. right. left. reflexivity.
Qed.

(** C32, C33: a visitor that enters all nodes and rejects nil. *)
Lemma Walk_all {S} (visit : S -> option any -> S * bool) x s :
  (forall s x, snd (visit s x) = match x with Some _ => true | None => false end) -> walkable x ->
  exists s' log, Walk (noting visit) x (s, []) = ((s', log), WDone) /\ preorder x (nodes_of log).
Proof.
  intros V W. destruct (Walk_trace visit x s) as (s' & log & e & _ & E & D).
  assert (N : enters log) by (apply (noting_enters visit V _ _ _ _ _ _ E); intros y c []).
  destruct D as [[-> D]|[-> D]].
  - exists s', log. split; [exact E|]. apply (proj1 walked_preorder _ _ D N).
  - exfalso. revert N. apply (broken_enters _ _ D). intros y [= <-]. exact W.
Qed.

Scheme preorder_mut := Induction for preorder Sort Prop
  with preorders_mut := Induction for preorders Sort Prop.
Combined Scheme preorder_both from preorder_mut, preorders_mut.

Lemma preorder_reach :
  (forall x l, preorder x l -> forall z, In z l <-> reach x z) /\
  (forall xs l, preorders xs l -> forall z, In z l <-> exists x, In x xs /\ reach x z).
Proof.
  assert (SO : forall x y, In y (somes (WalkSpec.order x)) <-> In (Some y) (WalkSpec.order x)).
  { intros x y. unfold somes. rewrite in_flat_map. split.
    - intros (o & I & J). destruct o; [|destruct J]. destruct J as [->|[]]. exact I.
    - intros I. exists (Some y). split; [exact I|left; reflexivity]. }
  apply preorder_both.
  - intros x ls P IH z. split.
    + intros [->|I]; [constructor|]. apply IH in I. destruct I as (y & I & R).
      econstructor; [apply SO; exact I|exact R].
    + inversion 1 as [|? y ? I R]; subst; [left; reflexivity|right]. apply IH. exists y. split; [apply SO; exact I|exact R].
  - intros z. split; [intros []|intros (x & [] & _)].
  - intros x xs l ls P IH Ps IHs z. rewrite in_app_iff, IH, IHs. split.
    + intros [R|(y & I & R)]; [exists x|exists y]; split; auto; [left; reflexivity|right; exact I].
    + intros (y & [->|I] & R); [left; exact R|right; exists y; auto].
Qed.

(** With a visitor that accepts everything. *)
Lemma accept_all {S} (visit : S -> option any -> S * bool) (V : forall s x, snd (visit s x) = true) n :
  forall x s, (osize x < n)%nat -> (forall y, x = Some y -> walkable y) ->
    (snd (walk visit n x s) = WPanic <-> match x with None => True | Some y => exists z, reach y z /\ passes_nil z end) /\
    snd (walk visit n x s) <> WFuel.
Proof.
  induction n as [|n IH]; intros x s L W; [lia|]. cbn [walk].
  specialize (V s x). destruct (visit s x) as [s1 b]. cbn [snd] in V. subst b.
  destruct x as [y|]; [|cbn; split; [tauto|discriminate]].
  specialize (W y eq_refl). rewrite kids_order by exact W.
  assert (Z : (0 < size y)%nat).
  { destruct (size y) eqn:Z; [|lia].
    exfalso. revert Z. clear. cases y; cbn; try discriminate; unfold sz_row, sz_col, sz_name; try discriminate. }
  assert (Q : forall ks s, (forall k, In k ks -> In k (WalkSpec.order y)) ->
     (snd (seq_nodes (walk visit n) ks s) = WPanic <->
        exists k, In k ks /\ match k with None => True | Some u => exists z, reach u z /\ passes_nil z end) /\
     snd (seq_nodes (walk visit n) ks s) <> WFuel).
  { induction ks as [|k ks IHk]; intros s0 S0; cbn [seq_nodes].
    - cbn. split; [|discriminate]. split; [discriminate|intros (k & [] & _)].
    - destruct (IH k s0) as [H1 H2].
      { specialize (S0 k (or_introl eq_refl)). destruct k as [u|]; cbn [osize] in *; [apply order_size in S0|]; lia. }
      { intros u ->. eapply order_walkable; [exact W|]. apply S0. left. reflexivity. }
      destruct (walk visit n k s0) as [s2 e2]. cbn [snd] in *. destruct e2.
      + destruct (IHk s2) as [G1 G2]; [intros u I; apply S0; right; exact I|]. split; [|exact G2]. rewrite G1. split.
        * intros (u & I & M). exists u. split; [right; exact I|exact M].
        * intros (u & [<-|I] & M); [apply H1 in M; discriminate|]. exists u. auto.
      + cbn. split; [|discriminate]. split; [|reflexivity]. intros _. exists k. split; [left; reflexivity|]. apply H1. reflexivity.
      + congruence. }
  specialize (Q (WalkSpec.order y) s1 (fun k I => I)). destruct Q as [Q1 Q2].
  assert (R : (exists k, In k (WalkSpec.order y) /\
       match k with None => True | Some u => exists z, reach u z /\ passes_nil z end) <->
      exists z, reach y z /\ passes_nil z).
  { split.
    - intros (k & I & M). destruct k as [u|].
      + destruct M as (z & R & P). exists z. split; [econstructor; eassumption|exact P].
      + apply order_nil in I. exists y. split; [constructor|exact I].
    - intros (z & R & P). inversion R as [|? u ? I R']; subst.
      + exists None. split; [apply order_nil; exact P|exact I].
      + exists (Some u). split; [exact I|]. exists z. auto. }
  rewrite R in Q1. destruct (seq_nodes (walk visit n) (WalkSpec.order y) s1) as [s2 e2]. cbn [snd] in *.
  destruct e2; cbn [snd]; split; auto; try discriminate.
Qed.

Lemma Walk_accept {S} (visit : S -> option any -> S * bool) x s :
  (forall s x, snd (visit s x) = true) -> walkable x ->
  (snd (Walk visit x s) = WPanic <-> exists z, reach x z /\ passes_nil z) /\ snd (Walk visit x s) <> WFuel.
Proof.
  intros V W. apply (accept_all visit V (Datatypes.S (size x)) (Some x) s); [cbn; lia|]. intros y [= <-]. exact W.
Qed.

Lemma broken_reach x l : broken x l -> forall y, x = Some y -> walkable y ->
  (forall c, In c l -> fst c = None -> snd c = false) -> False.
Proof.
  induction 1 as [|x NW|x b y a l l' W O WA B IH]; intros u E Wu H; try discriminate E.
  - injection E as ->. exact (NW Wu).
  - destruct y as [v|].
    + apply (IH v eq_refl).
      * eapply order_walkable; [exact W|]. rewrite O. apply in_or_app. right. left. reflexivity.
      * intros c I. apply H. right. apply in_or_app. right. exact I.
    + inversion B; subst. specialize (H (None, true)). cbn in H. rewrite in_app_iff in H.
      discriminate H; auto. right. right. left. reflexivity.
Qed.

(** A visitor that rejects nil never makes Walk panic. *)
Lemma noting_rejects {S} (visit : S -> option any -> S * bool) (V : forall s, snd (visit s None) = false) n :
  forall x s l s' e, walk (noting visit) n x (s, l) = (s', e) ->
    (forall c, In c l -> fst c = None -> snd c = false) -> forall c, In c (snd s') -> fst c = None -> snd c = false.
Proof.
  set (ok := fun l : list call => forall c, In c l -> fst c = None -> snd c = false).
  change (forall x s l s' e, walk (noting visit) n x (s, l) = (s', e) -> ok l -> ok (snd s')).
  assert (N : forall s l x s' b, noting visit (s, l) x = (s', b) -> ok l -> ok (snd s')).
  { intros s l x s' b E H. unfold noting in E. cbn [fst snd] in E. specialize (V s).
    destruct (visit s x) as [s1 b1] eqn:Vx. injection E as <- <-. cbn [snd] in *. intros c I.
    apply in_app_or in I. destruct I as [I|[I|[]]]; [apply (H _ I)|]. subst c. cbn. intros ->. rewrite Vx in V. exact V. }
  induction n as [|n IH]; intros x s l s' e E H; cbn [walk] in E.
  - injection E as <- _. exact H.
  - destruct (noting visit (s, l) x) as [[s1 l1] b] eqn:E1. apply N in E1; [|exact H]. cbn [snd] in E1.
    assert (Q : forall ks s l s' e, seq_nodes (walk (noting visit) n) ks (s, l) = (s', e) -> ok l -> ok (snd s')).
    { clear - IH. induction ks as [|k ks IHk]; intros s l s' e E H; cbn [seq_nodes] in E.
      - injection E as <- _. exact H.
      - destruct (walk (noting visit) n k (s, l)) as [[s1 l1] e1] eqn:E1. apply IH in E1; [|exact H]. cbn [snd] in E1.
        destruct e1; try (injection E as <- _; exact E1). eapply IHk; eassumption. }
    destruct b; [|injection E as <- _; exact E1].
    destruct x as [y|]; [|injection E as <- _; exact E1].
    destruct (kids y) as [ks|]; [|injection E as <- _; exact E1].
    destruct (seq_nodes (walk (noting visit) n) ks (s1, l1)) as [[s2 l2] e2] eqn:E2.
    apply Q in E2; [|exact E1]. cbn [snd] in E2.
    destruct e2; try (injection E as <- _; exact E2).
    injection E as <- _. destruct (noting visit (s2, l2) None) as [s3 b3] eqn:E3. apply N in E3; [exact E3|exact E2].
Qed.

Lemma Walk_reject {S} (visit : S -> option any -> S * bool) x s :
  (forall s, snd (visit s None) = false) -> walkable x -> snd (Walk visit x s) = WDone.
Proof.
  intros V W. destruct (Walk_trace visit x s) as (s' & log & e & E1 & E2 & D). rewrite E1. cbn [snd].
  destruct D as [[-> D]|[-> D]]; [reflexivity|]. exfalso.
  eapply (broken_reach _ _ D x eq_refl W). change log with (snd (s', log)).
  eapply (noting_rejects visit V); [exact E2|]. intros c [].
Qed.

Lemma Walk_visits {S} (visit : S -> option any -> S * bool) x s :
  (forall s x, snd (visit s x) = match x with Some _ => true | None => false end) -> walkable x ->
  exists s' log, Walk (noting visit) x (s, []) = ((s', log), WDone) /\
    preorder x (nodes_of log) /\ forall z, In z (nodes_of log) <-> reach x z.
Proof.
  intros V W. destruct (Walk_all visit x s V W) as (s' & log & E & P). exists s', log.
  repeat split; try assumption; apply (proj1 preorder_reach _ _ P).
Qed.

Lemma reach_within x z : reach x z -> within x z.
Proof. induction 1; [constructor|]. econstructor; [apply order_sub; eassumption|assumption]. Qed.

Lemma within_reach x z : within x z -> (forall y, reach x y -> hidden y = []) -> reach x z.
Proof.
  induction 1 as [|x y z I W IH]; intros H; [constructor|].
  assert (J : In (Some y) (WalkSpec.order x)).
  { pose proof (order_complete x) as P. rewrite (H x (reach_self x)), app_nil_r in P.
    apply (Permutation_in _ (Permutation_sym P)) in I. apply in_flat_map in I. destruct I as ([u|] & I & J); [|destruct J].
    destruct J as [->|[]]. exact I. }
  econstructor; [exact J|]. apply IH. intros u R. apply H. econstructor; eassumption.
Qed.

Lemma Walk_complete {S} (visit : S -> option any -> S * bool) x s :
  (forall s x, snd (visit s x) = match x with Some _ => true | None => false end) -> walkable x ->
  (forall y, reach x y -> hidden y = []) ->
  exists s' log, Walk (noting visit) x (s, []) = ((s', log), WDone) /\
    forall z, In z (nodes_of log) <-> within x z.
Proof.
  intros V W H. destruct (Walk_visits visit x s V W) as (s' & log & E & _ & R). exists s', log.
  split; [exact E|]. intros z. rewrite R. split; [apply reach_within|]. intros I. apply within_reach; assumption.
Qed.

Lemma nodes_to_within n : forall x z, In z (nodes_to n x) -> within x z.
Proof.
  induction n as [|n IH]; intros x z I; cbn [nodes_to] in I.
  - destruct I as [->|[]]. constructor.
  - destruct I as [->|I]; [constructor|]. apply in_flat_map in I. destruct I as (y & I & J).
    econstructor; [exact I|]. apply IH, J.
Qed.
