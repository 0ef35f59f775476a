(** Proofs about Apply (C34, C35). *)
From Coq Require Import ZArith List Bool String Lia.
From Verif Require Import Base Dialect Token AST Nodes Walk WalkSpec WalkThms Apply ApplySpec.
Import ListNotations.
Open Scope string_scope.
Open Scope Z_scope.
Open Scope list_scope.

(* ------------------------------------------------------------------ *)
(** ** Addresses, lookups *)

Lemma addr_eqb_refl a : addr_eqb a a = true.
Proof. unfold addr_eqb. destruct (list_eq_dec Nat.eq_dec a a); congruence. Qed.
Lemma addr_eqb_eq a b : addr_eqb a b = true <-> a = b.
Proof. unfold addr_eqb. destruct (list_eq_dec Nat.eq_dec a b); split; congruence. Qed.
Lemma addr_eqb_neq a b : addr_eqb a b = false <-> a <> b.
Proof. unfold addr_eqb. destruct (list_eq_dec Nat.eq_dec a b); split; congruence. Qed.
Lemma addr_opt_eqb_eq a b : addr_opt_eqb a b = true <-> a = b.
Proof.
  destruct a, b; cbn; try (split; congruence). rewrite addr_eqb_eq. split; congruence.
Qed.

Lemma at_slot_true p f x e : at_slot p f x e = true <-> e_parent e = p /\ e_name e = f /\ e_node e = x.
Proof.
  unfold at_slot. rewrite !andb_true_iff, addr_eqb_eq, String.eqb_eq, addr_opt_eqb_eq. tauto.
Qed.

Lemma lookup_put f g v l :
  lookup g (put f v l) = if String.eqb f g then option_map (fun _ => v) (lookup g l) else lookup g l.
Proof.
  unfold put. induction l as [|[k u] l IH]; cbn [map lookup fst].
  - destruct (String.eqb f g); reflexivity.
  - destruct (String.eqb k f) eqn:K.
    + apply String.eqb_eq in K. subst k. cbn [lookup fst]. rewrite IH. destruct (String.eqb f g) eqn:E.
      * apply String.eqb_eq in E. subst g. rewrite ?String.eqb_refl. reflexivity.
      * rewrite ?E. try rewrite String.eqb_sym, E. reflexivity.
    + cbn [lookup fst]. rewrite IH. destruct (String.eqb f g) eqn:E.
      * apply String.eqb_eq in E. subst g. rewrite ?K. rewrite ?(String.eqb_sym f k), ?K. reflexivity.
      * reflexivity.
Qed.

Lemma get_set_same h p f v u : get_field h p f = Some u -> get_field (set_field h p f v) p f = Some v.
Proof.
  unfold get_field, set_field. intros H. rewrite addr_eqb_refl. cbn [c_fields]. rewrite lookup_put, String.eqb_refl, H.
  reflexivity.
Qed.

Lemma get_set_other h p f v q g : (q, g) <> (p, f) -> get_field (set_field h p f v) q g = get_field h q g.
Proof.
  unfold get_field, set_field. intros H. destruct (addr_eqb q p) eqn:E; [|reflexivity].
  apply addr_eqb_eq in E. subst q. cbn [c_fields]. rewrite lookup_put.
  destruct (String.eqb f g) eqn:F; [|reflexivity]. apply String.eqb_eq in F. congruence.
Qed.

Lemma type_set h p f v q : c_type (set_field h p f v q) = c_type (h q) /\ c_all (set_field h p f v q) = c_all (h q).
Proof.
  unfold set_field. destruct (addr_eqb q p) eqn:E; [|auto]. apply addr_eqb_eq in E. subst q. auto.
Qed.

(* ------------------------------------------------------------------ *)
(** ** Logs *)

Lemma edits_app l1 l2 p f x : edits_at (l1 ++ l2) p f x = edits_at l1 p f x ++ edits_at l2 p f x.
Proof. unfold edits_at. rewrite filter_app, flat_map_app. reflexivity. Qed.

Lemma edits_none l p f x : (forall e, In e l -> ~ (e_parent e = p /\ e_name e = f /\ e_node e = x)) ->
  edits_at l p f x = [].
Proof.
  intros H. unfold edits_at. induction l as [|e l IH]; [reflexivity|]. cbn [filter].
  destruct (at_slot p f x e) eqn:E.
  - apply at_slot_true in E. destruct (H e (or_introl eq_refl) E).
  - apply IH. intros e' I. apply H. right. exact I.
Qed.

Lemma edits_one e p f x : edits_at [e] p f x = if at_slot p f x e then e_edits e else [].
Proof. unfold edits_at. cbn. destruct (at_slot p f x e); cbn; rewrite ?app_nil_r; reflexivity. Qed.

Lemma orderly_app a b : orderly (a ++ b) -> orderly a.
Proof.
  induction a as [|[] a IH]; cbn; auto. intros H e I. apply H, in_or_app. auto.
Qed.

Lemma orderly_prefix l1 l2 : orderly_log (l1 ++ l2) -> orderly_log l1.
Proof.
  intros H e I X. specialize (H e (in_or_app _ _ _ (or_introl I)) X). rewrite edits_app in H.
  apply orderly_app in H. exact H.
Qed.

Definition slot_of (es : list edit) (x : addr) : slot := fold_left edit_slot es ([], Some x, []).
Lemma slot_app es es' x : slot_of (es ++ es') x = fold_left edit_slot es' (slot_of es x).
Proof. apply fold_left_app. Qed.

Definition present (s : slot) : option addr := snd (fst s).
Definition zopt {A} (o : option A) : Z := match o with Some _ => 1 | None => 0 end.

(** An orderly edit finds its element, or is an InsertBefore. *)
Lemma orderly_next es e es' x : orderly (es ++ e :: es') ->
  (exists y, present (slot_of es x) = Some y) \/ (exists r, e = InsertBefore r).
Proof.
  unfold slot_of. set (s := (([], Some x, []) : slot)).
  assert (P : exists y, present s = Some y) by (exists x; reflexivity).
  clearbody s. revert s P. induction es as [|d es IH]; intros s P O; [left; exact P|].
  cbn [fold_left]. destruct d as [r| |r|r]; cbn [app orderly] in O.
  - apply IH; [|exact O]. destruct s as [[b o] a]. exists r. reflexivity.
  - right. apply O. apply in_or_app. right. left. reflexivity.
  - apply IH; [|exact O]. destruct s as [[b o] a]. exact P.
  - apply IH; [|exact O]. destruct s as [[b o] a]. exact P.
Qed.

(* ------------------------------------------------------------------ *)
(** ** One edit *)

Lemma upto_app (a b : list addr) i : i = zlen a -> upto i (a ++ b) = a.
Proof. intros ->. unfold upto, zlen. rewrite Nat2Z.id, firstn_app, Nat.sub_diag, firstn_all, app_nil_r. reflexivity. Qed.
Lemma from_app (a b : list addr) i : i = zlen a -> from i (a ++ b) = b.
Proof. intros ->. unfold from, zlen. rewrite Nat2Z.id, skipn_app, Nat.sub_diag, skipn_all. reflexivity. Qed.
Lemma zlen_app {A} (a b : list A) : zlen (a ++ b) = zlen a + zlen b.
Proof. unfold zlen. rewrite app_length. lia. Qed.
Lemma zlen_cons {A} (a : A) b : zlen (a :: b) = 1 + zlen b.
Proof. unfold zlen. cbn [List.length]. lia. Qed.
Lemma zlen_pos {A} (a : list A) : 0 <= zlen a. Proof. unfold zlen. lia. Qed.
Lemma zlen_nil {A} : zlen (@nil A) = 0. Proof. reflexivity. Qed.

Definition iter_at (base : Z) (s : slot) (i step : Z) : Prop :=
  let '(b, x, a) := s in i = base + zlen b /\ step = zopt x + zlen a.

Section User.
  Context {S : Type}.
  Implicit Type st : state S.

  Lemma list_edit p f e st L s R :
    get_field (st_heap st) p f = Some (FMany (L ++ flat s ++ R)) ->
    iter_at (zlen L) s (st_index st) (st_step st) ->
    (exists y, present s = Some y) \/ (exists r, e = InsertBefore r) ->
    exists i step, run_edit p f true e st =
      Some (mkState (set_field (st_heap st) p f (FMany (L ++ flat (edit_slot s e) ++ R))) i step (st_user st)) /\
      iter_at (zlen L) (edit_slot s e) i step.
  Proof.
    destruct s as [[b o] a]. cbn [iter_at]. intros G (Hi & Hs) OK. unfold run_edit. rewrite G.
    assert (P0 := zlen_pos L). assert (P1 := zlen_pos b). assert (P2 := zlen_pos a). assert (P3 := zlen_pos R).
    destruct e as [r| |r|r]; cbn [edit_slot].
    - destruct OK as [(y & E)|(r' & E)]; [|discriminate]. cbn in E. subst o. cbn [flat].
      replace (L ++ (b ++ [y] ++ a) ++ R) with ((L ++ b) ++ [y] ++ (a ++ R)) by (rewrite <- !app_assoc; reflexivity).
      rewrite !zlen_app, zlen_cons, (zlen_nil (A:=addr)).
      destruct (0 <=? st_index st) eqn:A; [|lia]. destruct (st_index st <? _) eqn:B; [|lia]. cbn [andb].
      exists (st_index st), (st_step st). split; [|split; [exact Hi|exact Hs]].
      rewrite upto_app by (rewrite zlen_app; lia).
      rewrite (app_assoc (L ++ b) [y]), from_app by (rewrite !zlen_app, zlen_cons, (zlen_nil (A:=addr)); lia).
      do 4 f_equal. rewrite <- !app_assoc. reflexivity.
    - destruct OK as [(y & E)|(r' & E)]; [|discriminate]. cbn in E. subst o. cbn [flat].
      replace (L ++ (b ++ [y] ++ a) ++ R) with ((L ++ b) ++ [y] ++ (a ++ R)) by (rewrite <- !app_assoc; reflexivity).
      rewrite !zlen_app, zlen_cons, (zlen_nil (A:=addr)).
      destruct (0 <=? st_index st) eqn:A; [|lia]. destruct (st_index st <? _) eqn:B; [|lia]. cbn [andb].
      exists (st_index st), (st_step st - 1). split; [|split; [exact Hi|cbn [zopt] in *; lia]].
      rewrite upto_app by (rewrite zlen_app; lia).
      rewrite (app_assoc (L ++ b) [y]), from_app by (rewrite !zlen_app, zlen_cons, (zlen_nil (A:=addr)); lia).
      do 4 f_equal. rewrite <- !app_assoc. reflexivity.
    - destruct OK as [(y & E)|(r' & E)]; [|discriminate]. cbn in E. subst o. cbn [flat].
      replace (L ++ (b ++ [y] ++ a) ++ R) with ((L ++ b ++ [y]) ++ (a ++ R)) by (rewrite <- !app_assoc; reflexivity).
      rewrite !zlen_app, zlen_cons, (zlen_nil (A:=addr)).
      destruct (0 <=? st_index st) eqn:A; [|lia]. destruct (st_index st <? _) eqn:B; [|lia]. cbn [andb].
      exists (st_index st), (st_step st + 1). split; [|split; [exact Hi|rewrite zlen_cons; cbn [zopt] in *; lia]].
      rewrite upto_app by (rewrite !zlen_app, zlen_cons, (zlen_nil (A:=addr)); lia).
      rewrite from_app by (rewrite !zlen_app, zlen_cons, (zlen_nil (A:=addr)); lia).
      do 4 f_equal. rewrite <- !app_assoc. reflexivity.
    - clear OK. cbn [flat]. set (m := match o with Some x => [x] | None => [] end).
      replace (L ++ (b ++ m ++ a) ++ R) with ((L ++ b) ++ (m ++ a ++ R)) by (rewrite <- !app_assoc; reflexivity).
      assert (P4 := zlen_pos m).
      rewrite !zlen_app.
      destruct (0 <=? st_index st) eqn:A; [|lia]. destruct (st_index st <=? _) eqn:B; [|lia]. cbn [andb].
      exists (st_index st + 1), (st_step st). split; [|split; [rewrite zlen_app, zlen_cons, (zlen_nil (A:=addr)); lia|exact Hs]].
      rewrite upto_app by (rewrite !zlen_app; lia).
      rewrite from_app by (rewrite !zlen_app; lia).
      do 4 f_equal. rewrite <- !app_assoc. reflexivity.
  Qed.

  Lemma list_edits p f x es : forall st L R es0,
    get_field (st_heap st) p f = Some (FMany (L ++ flat (slot_of es0 x) ++ R)) ->
    iter_at (zlen L) (slot_of es0 x) (st_index st) (st_step st) ->
    orderly (es0 ++ es) ->
    exists st', run_edits p f true es st = Some st' /\ st_user st' = st_user st /\
      iter_at (zlen L) (slot_of (es0 ++ es) x) (st_index st') (st_step st') /\
      get_field (st_heap st') p f = Some (FMany (L ++ flat (slot_of (es0 ++ es) x) ++ R)) /\
      (forall q g, (q, g) <> (p, f) -> get_field (st_heap st') q g = get_field (st_heap st) q g) /\
      (forall q, c_type (st_heap st' q) = c_type (st_heap st q) /\ c_all (st_heap st' q) = c_all (st_heap st q)).
  Proof.
    induction es as [|e es IH]; intros st L R es0 G I O.
    - exists st. rewrite app_nil_r. cbn. auto 10.
    - destruct (list_edit p f e st L _ R G I (orderly_next _ _ _ x O)) as (i & step & E & I').
      cbn [run_edits]. rewrite E.
      assert (X : edit_slot (slot_of es0 x) e = slot_of (es0 ++ [e]) x) by (rewrite slot_app; reflexivity).
      rewrite X in *.
      match type of E with _ = Some ?v => set (st1 := v) in * end.
      assert (U1 : st_user st1 = st_user st) by reflexivity.
      edestruct (IH st1 L R (es0 ++ [e])) as (st' & E' & U & I2 & G2 & F2 & T2); cycle 3.
      + rewrite E'. exists st'. replace (es0 ++ e :: es) with ((es0 ++ [e]) ++ es) by (rewrite <- app_assoc; reflexivity).
        split; [reflexivity|]. split; [congruence|]. split; [exact I2|]. split; [exact G2|]. split.
        * intros q g N. rewrite F2 by exact N. apply get_set_other, N.
        * intros q. destruct (T2 q) as [A B]. rewrite A, B. apply type_set.
      + eapply get_set_same, G.
      + exact I'.
      + rewrite <- app_assoc. exact O.
  Qed.

  Lemma single_edits p f es : forall st x, get_field (st_heap st) p f = Some (FOne x) ->
    match run_edits p f false es st with
    | Some st' => (forall d, In d es -> exists r, d = Replace r) /\
        st_user st' = st_user st /\ st_index st' = st_index st /\ st_step st' = st_step st /\
        get_field (st_heap st') p f = Some (FOne (replaced es x)) /\
        (forall q g, (q, g) <> (p, f) -> get_field (st_heap st') q g = get_field (st_heap st) q g) /\
        (forall q, c_type (st_heap st' q) = c_type (st_heap st q) /\ c_all (st_heap st' q) = c_all (st_heap st q))
    | None => exists d, In d es /\ forall r, d <> Replace r
    end.
  Proof.
    induction es as [|e es IH]; intros st x G; cbn [run_edits].
    - cbn. split; [tauto|]. auto 10.
    - unfold run_edit at 1. rewrite G. destruct e as [r| |r|r].
      2-4: eexists; split; [left; reflexivity|congruence].
      specialize (IH (mkState (set_field (st_heap st) p f (FOne (Some r))) (st_index st) (st_step st) (st_user st)) (Some r)).
      cbn [st_heap st_user st_index st_step] in IH. specialize (IH (get_set_same _ _ _ _ _ G)).
      destruct (run_edits _ _ _ _ _) as [st'|].
      + destruct IH as (AR & U & I & T & G' & F & Y). split; [intros d [<-|D]; eauto|]. repeat (split; [assumption|]). split.
        * intros q g N. rewrite F by exact N. apply get_set_other, N.
        * intros q. destruct (Y q) as [A B]. rewrite A, B. apply type_set.
      + destruct IH as (d & D & N). exists d. split; [right; exact D|exact N].
  Qed.

  Lemma no_edits p f es : forall st, get_field (st_heap st) p f = None ->
    run_edits p f false es st = if es then Some st else None.
  Proof. destruct es as [|[] es]; intros st G; cbn; rewrite ?G; reflexivity. Qed.
End User.

(* ------------------------------------------------------------------ *)
(** ** The memory of a forest *)

Inductive placed (w : list any) : field any -> field addr -> Prop :=
| placed_none : placed w (FOne None) (FOne None)
| placed_one y b : node_of w b = Some y -> placed w (FOne (Some y)) (FOne (Some b))
| placed_many ys bs : Forall2 (fun y b => node_of w b = Some y) ys bs -> placed w (FMany ys) (FMany bs).

Lemma place_placed w a l : forall i,
  (forall j y, nth_error (flat_map (fun e => held (snd e)) l) j = Some y -> node_of w ((i + j)%nat :: a) = Some y) ->
  Forall2 (fun e e' => fst e = fst e' /\ placed w (snd e) (snd e')) l (place a i l).
Proof.
  induction l as [|[f v] l IH]; intros i H; [constructor|].
  destruct v as [[y|]|ys]; cbn [place].
  - constructor.
    + split; [reflexivity|]. constructor. specialize (H 0%nat y eq_refl). rewrite Nat.add_0_r in H. exact H.
    + apply IH. intros j z N. specialize (H (S j) z N). rewrite Nat.add_succ_r in H. exact H.
  - constructor; [split; [reflexivity|constructor]|]. apply IH. exact H.
  - constructor.
    + split; [reflexivity|]. constructor. cbn [flat_map held snd] in H.
      assert (G : forall j y, nth_error ys j = Some y -> node_of w ((i + j)%nat :: a) = Some y).
      { intros j y N. apply H. rewrite nth_error_app1; [exact N|]. apply nth_error_Some. congruence. }
      clear - G. revert i G. induction ys as [|y ys IH]; intros i G; [constructor|]. cbn. constructor.
      * specialize (G 0%nat y eq_refl). rewrite Nat.add_0_r in G. exact G.
      * apply IH. intros j z N. specialize (G (S j) z N). rewrite Nat.add_succ_r in G. exact G.
    + apply IH. intros j z N. cbn [flat_map held snd] in H. rewrite <- Nat.add_assoc. apply H.
      rewrite nth_error_app2 by lia. replace (List.length ys + j - List.length ys)%nat with j by lia. exact N.
Qed.

Lemma place_addrs a l : forall i,
  flat_map (fun e => held (snd e)) (place a i l) =
  map (fun j => j :: a) (seq i (List.length (flat_map (fun e => held (snd e)) l))).
Proof.
  induction l as [|[f [[y|]|ys]] l IH]; intros i; cbn [place flat_map held snd List.length app]; [reflexivity| | |].
  - rewrite IH. reflexivity.
  - apply IH.
  - rewrite IH, app_length, seq_app, map_app. reflexivity.
Qed.

Lemma lookup_in {V} f (l : list (string * V)) v : lookup f l = Some v -> In (f, v) l.
Proof.
  induction l as [|[g u] l IH]; cbn [lookup]; [discriminate|].
  destruct (String.eqb g f) eqn:E; rewrite ?(String.eqb_sym f g), ?E; intros H.
  - apply String.eqb_eq in E. left. congruence.
  - right. apply IH, H.
Qed.

Lemma lookup_placed w f l l' : Forall2 (fun e e' => fst e = fst e' /\ placed w (snd e) (snd e')) l l' ->
  match lookup f l, lookup f l' with Some v, Some v' => placed w v v' | None, None => True | _, _ => False end.
Proof.
  induction 1 as [|[g v] [g' v'] l l' [E P] F IH]; [exact I|]. cbn in E. subst g'. cbn [lookup fst snd] in *.
  destruct (String.eqb g f) eqn:E; rewrite ?(String.eqb_sym f g), ?E; auto.
Qed.

Lemma held_in {X} f (l : list (string * field X)) v b : lookup f l = Some v -> In b (held v) ->
  In b (flat_map (fun e => held (snd e)) l).
Proof. intros L I. apply in_flat_map. exists (f, v). split; [apply lookup_in, L|exact I]. Qed.

Lemma NoDup_app_inv {A} (a b : list A) : NoDup (a ++ b) -> NoDup a /\ NoDup b /\ forall x, In x a -> In x b -> False.
Proof.
  induction a as [|x a IH]; cbn; intros H; [repeat split; auto; constructor|].
  inversion H as [|? ? N D]; subst. destruct (IH D) as (Da & Db & X). repeat split; auto.
  - constructor; [|exact Da]. intros I. apply N, in_or_app. auto.
  - intros y [<-|I] J; [apply N, in_or_app; auto|]. eapply X; eauto.
Qed.

Lemma lookup_nodup {X} f (l : list (string * field X)) v : NoDup (flat_map (fun e => held (snd e)) l) ->
  lookup f l = Some v -> NoDup (held v).
Proof.
  intros N L. apply lookup_in in L. induction l as [|e l IH]; [destruct L|]. cbn [flat_map] in N.
  apply NoDup_app_inv in N. destruct N as (Na & Nb & _). destruct L as [->|L]; auto.
Qed.

Lemma lookup_apart {X} f g (l : list (string * field X)) v u b : NoDup (flat_map (fun e => held (snd e)) l) ->
  lookup f l = Some v -> lookup g l = Some u -> In b (held v) -> In b (held u) -> f = g.
Proof.
  intros N L M. apply lookup_in in L, M. revert L M. induction l as [|e l IH]; intros L M I J; [destruct L|].
  cbn [flat_map] in N. apply NoDup_app_inv in N. destruct N as (_ & Nb & D).
  destruct L as [->|L], M as [E|M].
  - congruence.
  - destruct (D b I). apply in_flat_map. exists (g, u). auto.
  - subst e. destruct (D b J). apply in_flat_map. exists (f, v). auto.
  - eauto.
Qed.

Lemma seq_nodup (a : addr) i n : NoDup (map (fun j => j :: a) (seq i n)).
Proof. apply FinFun.Injective_map_NoDup; [intros x y [= E]; exact E|apply seq_NoDup]. Qed.

Lemma memory_cell w a x : node_of w a = Some x ->
  memory w a = mkCell (gotype x) (all_flag x) (place a 0 (fields x)).
Proof. destruct a; intros H; [discriminate|]. unfold memory. rewrite H. reflexivity. Qed.

Lemma node_of_sub w a x i : node_of w a = Some x -> node_of w (i :: a) = nth_error (subnodes x) i.
Proof. destruct a; intros H; [discriminate|]. cbn [node_of] in *. rewrite H. reflexivity. Qed.

Lemma memory_placed w a x : node_of w a = Some x ->
  Forall2 (fun e e' => fst e = fst e' /\ placed w (snd e) (snd e')) (fields x) (c_fields (memory w a)).
Proof.
  intros H. rewrite (memory_cell w a x H). cbn [c_fields]. apply place_placed.
  intros j y N. cbn [Nat.add]. rewrite (node_of_sub w a x j H). exact N.
Qed.

Lemma memory_nodup w a : NoDup (flat_map (fun e => held (snd e)) (c_fields (memory w a))).
Proof.
  unfold memory. destruct a as [|i a]; [cbn; repeat constructor; intros []|].
  destruct (node_of w (i :: a)); [|constructor]. cbn [c_fields]. rewrite place_addrs. apply seq_nodup.
Qed.

Lemma memory_kid w p f v b : get_field (memory w) p f = Some v -> In b (held v) -> exists i, b = i :: p.
Proof.
  unfold get_field, memory. destruct p as [|j p].
  - cbn [c_fields lookup]. destruct (String.eqb _ _); [|discriminate]. intros [= <-] [<-|[]]. eauto.
  - destruct (node_of w (j :: p)); [|discriminate]. cbn [c_fields]. intros L I.
    pose proof (held_in _ _ _ _ L I) as J. rewrite place_addrs in J. apply in_map_iff in J.
    destruct J as (i & E & _). eauto.
Qed.

(* ------------------------------------------------------------------ *)
(** ** The table *)

Definition step_name (s : step) : string := match s with SOne c _ | SIf c _ | SNotAll c _ => c | SEach f => f end.
Definition step_field (s : step) : string := match s with SOne _ f | SIf _ f | SNotAll _ f | SEach f => f end.

Fixpoint nodupb (l : list string) : bool :=
  match l with [] => true | x :: l' => negb (existsb (String.eqb x) l') && nodupb l' end.
Lemma nodupb_ok l : nodupb l = true -> NoDup l.
Proof.
  induction l as [|x l IH]; cbn; [constructor|]. rewrite andb_true_iff, negb_true_iff. intros (A & B).
  constructor; [|auto]. intros I. assert (existsb (String.eqb x) l = true); [|congruence].
  apply existsb_exists. exists x. split; [exact I|apply String.eqb_refl].
Qed.

Lemma table_ok :
  forallb (fun e => nodupb (map step_name (snd e)) && nodupb (map step_field (snd e))) apply_table = true.
Proof. vm_compute. reflexivity. Qed.

Lemma table_nodup t steps : lookup t apply_table = Some steps ->
  NoDup (map step_name steps) /\ NoDup (map step_field steps).
Proof.
  intros L. apply lookup_in in L. pose proof table_ok as T. rewrite forallb_forall in T. specialize (T _ L).
  cbn [snd] in T. apply andb_true_iff in T. destruct T. split; apply nodupb_ok; assumption.
Qed.

(** A step fits the fields of a node. *)
Definition step_ok (x : any) (s : step) : Prop :=
  match s with
  | SOne c f | SIf c f | SNotAll c f =>
      (exists o, lookup f (fields x) = Some (FOne o)) /\
      (c = f \/ c = "QueryStmt" /\ lookup "QueryStmt" (fields x) = None)
  | SEach f => exists l, lookup f (fields x) = Some (FMany l)
  end.

Ltac step_done :=
  cbn; first [eexists; reflexivity | split; [eexists; reflexivity|first [left; reflexivity|right; split; reflexivity]]].

Lemma steps_ok x steps : lookup (gotype x) apply_table = Some steps -> Forall (step_ok x) steps.
Proof.
  cases x; intros L; vm_compute in L; try discriminate L; injection L as <-; repeat (constructor; [step_done|]); constructor.
Qed.

Lemma table_unknown x : lookup (gotype x) apply_table = None <-> ~ walkable x \/ is_using x.
Proof.
  split.
  - cases x; intros L; vm_compute in L; try discriminate L; cbn; tauto.
  - intros [H|H].
    + cases x; cbn in H; try tauto; vm_compute; reflexivity.
    + destruct x; try destruct H. destruct s; [|destruct H]. vm_compute. reflexivity.
Qed.

(** The table computes the order. *)
Lemma steps_order x steps : lookup (gotype x) apply_table = Some steps ->
  flat_map (step_nodes (all_flag x) (fields x)) steps = order x.
Proof.
  intros L.
  assert (W : walkable x /\ ~ is_using x).
  { split; [destruct x; cbn; auto; vm_compute in L; try destruct o; discriminate L|].
    intros U. assert (N : lookup (gotype x) apply_table = None) by (apply table_unknown; auto). congruence. }
  destruct W as [W U]. pose proof (kids_order x W) as K. unfold kids in K.
  destruct (lookup (gotype x) walk_table) as [steps'|] eqn:L'; [|discriminate]. injection K as K.
  rewrite <- K. clear K W.
  revert L L'. cases x; intros L L'; try (destruct (U I)); vm_compute in L, L'; try discriminate L;
    injection L as <-; injection L' as <-; cbn; reflexivity.
Qed.

Lemma no_querystmt w p : get_field (memory w) p "QueryStmt" = None.
Proof.
  assert (H : forall x, lookup "QueryStmt" (fields x) = None) by (intros x; cases x; reflexivity).
  destruct p as [|i p]; [reflexivity|]. unfold get_field. destruct (node_of w (i :: p)) as [x|] eqn:N.
  - pose proof (lookup_placed w "QueryStmt" _ _ (memory_placed w _ _ N)) as P. rewrite H in P.
    destruct (lookup _ _); [destruct P|reflexivity].
  - unfold memory. rewrite N. reflexivity.
Qed.

(* ------------------------------------------------------------------ *)
(** ** The number of sub-nodes *)

Lemma lsum_pair {A B} (f : A -> nat) (g : B -> nat) (l : list (A * B)) :
  (forall a, 1 <= f a)%nat -> (forall a, 1 <= g a)%nat ->
  (2 * List.length l <= lsum (fun '(x, y) => f x + g y) l)%nat.
Proof.
  intros P Q. induction l as [|[a b] l IH]; cbn [lsum fold_right List.length]; [lia|].
  specialize (P a). specialize (Q b). unfold lsum in IH. lia.
Qed.
Lemma sz_win_pos x : (1 <= sz_win x)%nat. Proof. destruct x; cbn [sz_win]; lia. Qed.
Lemma sz_order_pos x : (1 <= sz_order x)%nat. Proof. destruct x; cbn [sz_order]; lia. Qed.
Lemma sz_query_pos x : (1 <= sz_query x)%nat. Proof. destruct x; cbn [sz_query]; lia. Qed.
Lemma sz_cte_pos x : (1 <= sz_cte x)%nat. Proof. destruct x; cbn [sz_cte]; lia. Qed.
Lemma sz_select_pos x : (1 <= sz_select x)%nat. Proof. destruct x; cbn [sz_select]; lia. Qed.
Lemma sz_set_pos x : (1 <= sz_set x)%nat.
Proof. destruct x; cbn [sz_set]; try lia. apply sz_select_pos. Qed.
Lemma sz_item_pos x : (1 <= sz_item x)%nat. Proof. destruct x; cbn [sz_item]; lia. Qed.
Lemma sz_ref_pos x : (1 <= sz_ref x)%nat. Proof. destruct x; cbn [sz_ref]; lia. Qed.
Lemma sz_spec_pos x : (1 <= sz_spec x)%nat. Proof. destruct x; cbn [sz_spec]; lia. Qed.
Lemma sz_row_pos x : (1 <= sz_row x)%nat. Proof. unfold sz_row. lia. Qed.
Lemma sz_source_pos x : (1 <= sz_source x)%nat. Proof. destruct x; cbn [sz_source]; lia. Qed.
Lemma sz_assign_pos x : (1 <= sz_assign x)%nat. Proof. unfold sz_assign. lia. Qed.
Lemma sz_tspec_pos x : (1 <= sz_tspec x)%nat. Proof. destruct x; cbn [sz_tspec]; lia. Qed.
Lemma sz_cspec_pos x : (1 <= sz_cspec x)%nat. Proof. destruct x; cbn [sz_cspec]; lia. Qed.
Lemma sz_ccons_pos x : (1 <= sz_ccons x)%nat. Proof. unfold sz_ccons. lia. Qed.
Lemma sz_tcons_pos x : (1 <= sz_tcons x)%nat. Proof. unfold sz_tcons. lia. Qed.
Lemma sz_col_pos x : (1 <= sz_col x)%nat. Proof. unfold sz_col. lia. Qed.
Lemma sz_elem_pos x : (1 <= sz_elem x)%nat. Proof. destruct x; [apply sz_col_pos|apply sz_tcons_pos]. Qed.
Lemma sz_colact_pos x : (1 <= sz_colact x)%nat. Proof. destruct x; cbn [sz_colact]; lia. Qed.
Lemma sz_action_pos x : (1 <= sz_action x)%nat. Proof. destruct x; cbn [sz_action]; lia. Qed.
Lemma sz_dtype_pos x : (1 <= sz_dtype x)%nat. Proof. destruct x; cbn [sz_dtype]; lia. Qed.
Lemma sz_stmt_pos x : (1 <= sz_stmt x)%nat.
Proof. destruct x; cbn [sz_stmt]; try lia. apply sz_query_pos. Qed.
Lemma sz_name_pos x : (1 <= sz_name x)%nat. Proof. unfold sz_name. lia. Qed.
Lemma sz_group_pos (x : commentgroup) : (1 <= S (List.length x))%nat. Proof. lia. Qed.

Ltac known H := let t := type of H in match goal with _ : t |- _ => fail 1 | _ => pose proof H end.
Ltac positives :=
  repeat match goal with
  | |- context [sz_node ?y] => known (sz_node_pos y)
  | |- context [sz_win ?y] => known (sz_win_pos y)
  | |- context [sz_query ?y] => known (sz_query_pos y)
  | |- context [sz_set ?y] => known (sz_set_pos y)
  | |- context [sz_ref ?y] => known (sz_ref_pos y)
  | |- context [sz_spec ?y] => known (sz_spec_pos y)
  | |- context [sz_source ?y] => known (sz_source_pos y)
  | |- context [sz_tspec ?y] => known (sz_tspec_pos y)
  | |- context [sz_cspec ?y] => known (sz_cspec_pos y)
  | |- context [sz_tcons ?y] => known (sz_tcons_pos y)
  | |- context [sz_col ?y] => known (sz_col_pos y)
  | |- context [sz_colact ?y] => known (sz_colact_pos y)
  | |- context [sz_action ?y] => known (sz_action_pos y)
  | |- context [sz_dtype ?y] => known (sz_dtype_pos y)
  | |- context [sz_stmt ?y] => known (sz_stmt_pos y)
  | |- context [lsum sz_node ?l] => known (lsum_length sz_node l sz_node_pos)
  | |- context [lsum sz_order ?l] => known (lsum_length sz_order l sz_order_pos)
  | |- context [lsum sz_cte ?l] => known (lsum_length sz_cte l sz_cte_pos)
  | |- context [lsum sz_item ?l] => known (lsum_length sz_item l sz_item_pos)
  | |- context [lsum sz_ref ?l] => known (lsum_length sz_ref l sz_ref_pos)
  | |- context [lsum sz_row ?l] => known (lsum_length sz_row l sz_row_pos)
  | |- context [lsum sz_assign ?l] => known (lsum_length sz_assign l sz_assign_pos)
  | |- context [lsum sz_ccons ?l] => known (lsum_length sz_ccons l sz_ccons_pos)
  | |- context [lsum sz_elem ?l] => known (lsum_length sz_elem l sz_elem_pos)
  | |- context [lsum sz_stmt ?l] => known (lsum_length sz_stmt l sz_stmt_pos)
  | |- context [lsum sz_name ?l] => known (lsum_length sz_name l sz_name_pos)
  | |- context [lsum (fun '(x, y) => _) ?l] => known (lsum_pair sz_node sz_node l sz_node_pos sz_node_pos)
  | |- context [lsum (fun g : list comment => _) ?l] => known (lsum_length (fun g : list comment => S (List.length g)) l sz_group_pos)
  end.

Lemma subnodes_length x : (List.length (subnodes x) < Walk.size x)%nat.
Proof.
  cases x; unfold subnodes; cbn [fields flat_map snd f1 f01 fl held app List.length AST.cd_default];
    repeat match goal with |- context [option_map _ ?o] => destruct o; cbn [option_map held app List.length] end;
    rewrite ?app_length; cbn [List.length]; rewrite ?app_length; cbn [List.length]; rewrite ?map_length;
    unfold AIdent, ALong; cbn [Walk.size sz_node sz_win sz_order sz_query sz_cte sz_set sz_select sz_item sz_ref sz_spec sz_source
         sz_tspec sz_cspec sz_elem sz_colact sz_action sz_stmt sz_dtype osum];
    unfold sz_name, sz_limit, sz_frame, sz_refkey, sz_row, sz_assign, sz_ccons, sz_tcons, sz_col;
    cbn [osum AST.lim_value AST.lim_offset AST.wf_units AST.wf_start AST.wf_end AST.cd_type AST.cd_default AST.cd_decorations
         AST.cd_constraints AST.rk_columns AST.row_values AST.as_value AST.cc_spec AST.tc_spec on_idents];
    positives; try lia.
  all: try (destruct cd_default; cbn [osum]; positives; cbn; lia).
  all: repeat match goal with
       | |- context [lsum ?f ?l] =>
           let H := fresh in assert (H : (List.length l <= lsum f l)%nat) by
             (apply lsum_length; intros a; try destruct a; first [apply sz_stmt_pos|cbn; lia]);
           generalize dependent (lsum f l); intros
       end; cbn in *; lia.
Qed.

(* ------------------------------------------------------------------ *)
(** ** Where events happen *)

Definition inside (a : addr) (e : event) : Prop := exists q, e_parent e = q ++ a.
Definition here (p : addr) (f : string) (x : option addr) (e : event) : Prop :=
  e_parent e = p /\ e_name e = f /\ e_node e = x.
Definition located p f x e : Prop := here p f x e \/ match x with Some a => inside a e | None => False end.

Lemma suffix_cons (q : addr) i a : q ++ i :: a <> a.
Proof. intros E. apply (f_equal (@List.length nat)) in E. rewrite app_length in E. cbn in E. lia. Qed.

Lemma suffix_eq (q r : addr) i j a : q ++ i :: a = r ++ j :: a -> i = j.
Proof.
  intros E. assert (L : List.length q = List.length r).
  { apply (f_equal (@List.length nat)) in E. rewrite !app_length in E. cbn in E. lia. }
  revert r E L. induction q as [|k q IH]; intros [|k' r] E L; try discriminate L; cbn in E; injection E; [auto|].
  intros E' _. apply (IH r E'). now injection L.
Qed.

Definition kid_of (a : addr) (x : option addr) : Prop := forall b, x = Some b -> exists i, b = i :: a.

Lemma located_inside a c x e : kid_of a x -> located a c x e -> inside a e.
Proof.
  intros K [(P & _)|H]; [exists []; exact P|]. destruct x as [b|]; [|destruct H].
  destruct (K b eq_refl) as (i & ->). destruct H as (q & E). exists (q ++ [i]). rewrite <- app_assoc. exact E.
Qed.

Lemma located_eq a c c' x x' e : kid_of a x -> kid_of a x' -> located a c x e -> located a c' x' e ->
  x = x' /\ (c = c' \/ x <> None).
Proof.
  intros K K' [(P & N & X)|H] [(P' & N' & X')|H'].
  - split; [congruence|left; congruence].
  - destruct x' as [b|]; [|destruct H']. destruct (K' b eq_refl) as (i & ->). destruct H' as (q & E).
    rewrite P in E. symmetry in E. destruct (suffix_cons _ _ _ E).
  - destruct x as [b|]; [|destruct H]. destruct (K b eq_refl) as (i & ->). destruct H as (q & E).
    rewrite P' in E. symmetry in E. destruct (suffix_cons _ _ _ E).
  - destruct x as [b|]; [|destruct H]. destruct x' as [b'|]; [|destruct H'].
    destruct (K b eq_refl) as (i & ->). destruct (K' b' eq_refl) as (j & ->).
    destruct H as (q & E), H' as (q' & E'). rewrite E in E'. apply suffix_eq in E'. subst j.
    split; [reflexivity|right; discriminate].
Qed.

(* ------------------------------------------------------------------ *)
(** ** The traversal *)

Section World.
Context (w : list any).
Let h0 : heap := memory w.

Definition nodes_at (a : addr) (s : step) : list (option addr) :=
  step_nodes (c_all (h0 a)) (c_fields (h0 a)) s.
Definition stops_of (a : addr) (s : step) : list (string * option addr) := map (pair (step_name s)) (nodes_at a s).
Definition stops (a : addr) (steps : list step) := flat_map (stops_of a) steps.

Definition is_call (b : bool) p f x (ans : bool) (e : event) : Prop :=
  e_pre e = b /\ here p f x e /\ e_answer e = ans.

Inductive toured : addr -> string -> option addr -> list event -> Prop :=
| toured_skip p f x e : is_call true p f x false e -> toured p f x [e]
| toured_enter p f a y steps e1 l e2 :
    node_of w a = Some y -> lookup (gotype y) apply_table = Some steps ->
    is_call true p f (Some a) true e1 -> toured_all a (stops a steps) l -> is_call false p f (Some a) true e2 ->
    toured p f (Some a) (e1 :: l ++ [e2])
with toured_all : addr -> list (string * option addr) -> list event -> Prop :=
| toured_none a : toured_all a [] []
| toured_more a c x xs l ls : toured a c x l -> toured_all a xs ls -> toured_all a ((c, x) :: xs) (l ++ ls).

Lemma toured_all_app a xs ys l ls : toured_all a xs l -> toured_all a ys ls -> toured_all a (xs ++ ys) (l ++ ls).
Proof.
  intros H H'. remember a as a' eqn:E. revert E. induction H as [|a0 c x xs l l' T TA IH]; intros ->; [exact H'|].
  cbn. rewrite <- app_assoc. constructor; [exact T|]. apply IH; [exact H'|reflexivity].
Qed.

(** Every slot after the edits logged so far. *)
Definition Inv (log : list event) (h : heap) : Prop := edited_memory h0 log h.
Definition edL log p f (l : list addr) : list addr := flat_map (fun y => edited (edits_at log p f (Some y)) y) l.

Lemma edL_ext log log' p f l : (forall y, In y l -> edits_at log p f (Some y) = edits_at log' p f (Some y)) ->
  edL log p f l = edL log' p f l.
Proof.
  unfold edL. induction l as [|y l IH]; intros H; [reflexivity|]. cbn. rewrite (H y (or_introl eq_refl)). f_equal.
  apply IH. intros z I. apply H. right. exact I.
Qed.

Lemma edL_id log p f l : (forall y, In y l -> edits_at log p f (Some y) = []) -> edL log p f l = l.
Proof.
  unfold edL. induction l as [|y l IH]; intros H; [reflexivity|]. cbn. rewrite (H y (or_introl eq_refl)). cbn. f_equal.
  apply IH. intros z I. apply H. right. exact I.
Qed.

Lemma Inv_get log h p f : Inv log h -> get_field h p f = option_map (edited_field log p f) (get_field h0 p f).
Proof. intros I. apply I. Qed.

(** The place the cursor is at. *)
Inductive spot := Single | Listed (l1 l2 : list addr).
Definition inlist (q : spot) : bool := match q with Single => false | Listed _ _ => true end.

Section Callbacks.
Context {U : Type}.
Variable pre post : option (callback U).
Let Pre := logging true pre.
Let Post := logging false post.
Notation st_log st := (snd (st_user (S:=(U * list event)%type) st)).

Definition spot_ok (q : spot) log p f x (st : state (U * list event)) : Prop :=
  match q with
  | Single => get_field h0 p f = Some (FOne x) \/ get_field h0 p f = None /\ f = "QueryStmt"
  | Listed l1 l2 => exists a, x = Some a /\ get_field h0 p f = Some (FMany (l1 ++ a :: l2)) /\
      iter_at (zlen (edL log p f l1)) (slot_of (edits_at log p f x) a) (st_index st) (st_step st)
  end.

Definition same_iter (st st' : state (U * list event)) : Prop := st_index st' = st_index st /\ st_step st' = st_step st.

Lemma list_nodup p f l : get_field h0 p f = Some (FMany l) -> NoDup l.
Proof. intros G. exact (lookup_nodup f _ (FMany l) (memory_nodup w p) G). Qed.

Lemma callback_ok is_pre g q p f x st : Inv (st_log st) (st_heap st) -> spot_ok q (st_log st) p f x st ->
  exists st' r ev, run_callback (logging is_pre g) p f (inlist q) x st = (st', r) /\
    st_log st' = st_log st ++ [ev] /\ e_pre ev = is_pre /\ here p f x ev /\ e_heap ev = st_heap st /\
    e_index ev = (if inlist q then Some (st_index st) else None) /\
    (orderly_log (st_log st ++ [ev]) ->
     match r with
     | Some b => (e_answer ev = b /\ ~ edit_culprit ev) /\ Inv (st_log st') (st_heap st') /\ spot_ok q (st_log st') p f x st' /\
                 (q = Single -> same_iter st st')
     | None => culprit w ev
     end).
Proof.
  intros I Q. unfold run_callback, logging. set (c := mkCursor _ _ _ _).
  destruct (total g (fst (st_user st)) (st_heap st) c) as [[u es] b] eqn:E. clear E.
  set (ev := mkEvent is_pre (st_heap st) c es b). set (log := st_log st) in *.
  set (st1 := mkState _ _ _ _).
  assert (H : here p f x ev) by (repeat split).
  assert (X : e_index ev = (if inlist q then Some (st_index st) else None)) by reflexivity.
  assert (EX : edits_at (log ++ [ev]) p f x = edits_at log p f x ++ es).
  { rewrite edits_app, edits_one. destruct (at_slot p f x ev) eqn:A; [reflexivity|].
    exfalso. apply at_slot_true in H. congruence. }
  assert (EO : forall p' f' x', (p', f', x') <> (p, f, x) -> edits_at (log ++ [ev]) p' f' x' = edits_at log p' f' x').
  { intros p' f' x' N. rewrite edits_app, edits_one. destruct (at_slot p' f' x' ev) eqn:A; [|apply app_nil_r].
    exfalso. apply at_slot_true in A. destruct A as (A1 & A2 & A3). destruct H as (H1 & H2 & H3). apply N. congruence. }
  assert (G0 := Inv_get log _ p f I).
  (* the invariant from the change of the field *)
  assert (INV : forall h' v, get_field h0 p f = Some v ->
            get_field h' p f = Some (edited_field (log ++ [ev]) p f v) ->
            (forall q g, (q, g) <> (p, f) -> get_field h' q g = get_field (st_heap st) q g) ->
            (forall q, c_type (h' q) = c_type (st_heap st q) /\ c_all (h' q) = c_all (st_heap st q)) ->
            Inv (log ++ [ev]) h').
  { intros h' v V G F T a. destruct (T a) as (T1 & T2). destruct (I a) as (I1 & I2 & I3).
    split; [congruence|]. split; [congruence|]. intros f'.
    destruct (addr_eqb a p && String.eqb f' f) eqn:A.
    - apply andb_true_iff in A. rewrite addr_eqb_eq, String.eqb_eq in A. destruct A as [-> ->]. rewrite V. exact G.
    - assert (N : (a, f') <> (p, f)).
      { intros [= -> ->]. rewrite addr_eqb_refl, String.eqb_refl in A. discriminate. }
      rewrite F, I3 by exact N. destruct (get_field h0 a f') as [v'|]; [|reflexivity]. cbn. f_equal.
      destruct v' as [o|l]; cbn [edited_field].
      + rewrite EO by congruence. reflexivity.
      + f_equal. apply (edL_ext log (log ++ [ev]) a f' l). intros y _. symmetry. apply EO. congruence. }
  destruct q as [|l1 l2]; cbn [inlist spot_ok] in *.
  - destruct Q as [Q|[Q ->]]; rewrite Q in G0; cbn [option_map edited_field] in G0.
    + pose proof (single_edits p f es st1 _ G0) as R. destruct (run_edits p f false es st1) as [st2|].
      * destruct R as (RR & RU & RI & RS & RG & RF & RT).
        exists st2, (Some b), ev. split; [reflexivity|]. rewrite RU. cbn [snd st1 st_user].
        do 5 (split; [solve [auto]|]). intros _. split.
        { split; [reflexivity|]. intros (_ & [(d & D1 & D2)|(D & _)]).
          - destruct (RR d D1) as (r & ->). exact (D2 r eq_refl).
          - cbn in D. subst f. pose proof (no_querystmt w p). unfold h0 in Q. congruence. }
        split.
        { eapply INV; [exact Q| |exact RF|exact RT]. rewrite RG. cbn [edited_field]. rewrite EX.
          unfold replaced. rewrite fold_left_app. reflexivity. }
        split; [left; exact Q|]. intros _. split; assumption.
      * exists st1, None, ev. split; [reflexivity|]. do 5 (split; [solve [auto]|]). intros _. right. split; [exact X|].
        left. exact R.
    + rewrite (no_edits p "QueryStmt" es st1) by exact G0. destruct es as [|d es].
      * exists st1, (Some b), ev. split; [reflexivity|]. do 5 (split; [solve [auto]|]). intros _.
        split; [split; [reflexivity|]; intros (_ & [(d & [] & _)|(_ & D)]); exact (D eq_refl)|]. split; [|split; [auto|intros _; split; reflexivity]].
        cbn [st1 st_user snd st_heap]. intros a. destruct (I a) as (I1 & I2 & I3). split; [exact I1|]. split; [exact I2|].
        intros f'. rewrite I3. destruct (get_field h0 a f') as [v'|] eqn:V; [|reflexivity]. cbn. f_equal.
        assert (N : (a, f') <> (p, "QueryStmt")) by (intros [= -> ->]; congruence).
        destruct v' as [o|l]; cbn [edited_field].
        { rewrite EO by congruence. reflexivity. }
        { f_equal. apply (edL_ext log (log ++ [ev]) a f' l). intros y _. symmetry. apply EO. congruence. }
      * exists st1, None, ev. split; [reflexivity|]. do 5 (split; [solve [auto]|]). intros _. right. split; [exact X|].
        right. split; [reflexivity|discriminate].
  - destruct Q as (a & -> & Q & IT).
    assert (ND := list_nodup _ _ _ Q). apply NoDup_app_inv in ND. destruct ND as (N1 & N2 & ND).
    inversion N2 as [|? ? N3 N4]; subst. clear N2.
    rewrite Q in G0. cbn [option_map edited_field] in G0. rewrite flat_map_app in G0. cbn [flat_map] in G0.
    fold (edL log p f l1) in G0. fold (edL log p f l2) in G0.
    destruct (run_edits p f true es st1) as [st2|] eqn:RE.
    + exists st2, (Some b), ev. split; [reflexivity|].
      assert (UU : forall es' (s s' : state (U * list event)), run_edits p f true es' s = Some s' -> st_user s' = st_user s).
      { clear. induction es' as [|e es' IH]; cbn [run_edits]; intros s s'; [congruence|].
        destruct (run_edit p f true e s) as [s1|] eqn:E; [|discriminate]. intros R. rewrite (IH _ _ R).
        unfold run_edit in E. destruct e, (get_field (st_heap s) p f) as [[|]|]; try discriminate E;
          destruct (_ && _); try discriminate E; injection E as <-; reflexivity. }
      rewrite (UU _ _ _ RE). split; [reflexivity|]. do 4 (split; [solve [auto]|]). intros OL.
      assert (O : orderly (edits_at log p f (Some a) ++ es)).
      { rewrite <- EX. apply (OL ev); [apply in_or_app; right; left; reflexivity|].
        rewrite X. discriminate. }
      destruct (list_edits p f a es st1 _ _ _ G0 IT O) as (st2' & E2 & _ & IT' & G' & F' & T').
      rewrite RE in E2. injection E2 as <-. split; [split; [reflexivity|]; intros (D & _); rewrite X in D; discriminate D|]. cbn [snd st1 st_user].
      assert (L1 : edL log p f l1 = edL (log ++ [ev]) p f l1).
      { apply edL_ext. intros y IY. symmetry. apply EO. intros [= ->]. eapply ND; [exact IY|left; reflexivity]. }
      assert (L2 : edL log p f l2 = edL (log ++ [ev]) p f l2).
      { apply edL_ext. intros y IY. symmetry. apply EO. intros [= ->]. apply N3, IY. }
      split; [|split; [|discriminate]].
      * eapply INV; [exact Q| |exact F'|exact T']. rewrite G'. cbn [edited_field]. rewrite flat_map_app. cbn [flat_map].
        rewrite EX. fold (edL (log ++ [ev]) p f l1). fold (edL (log ++ [ev]) p f l2). rewrite <- L1, <- L2. reflexivity.
      * exists a. split; [reflexivity|]. split; [exact Q|]. rewrite <- L1, EX. exact IT'.
    + exists st1, None, ev. split; [reflexivity|]. do 5 (split; [solve [auto]|]). intros OL.
      assert (O : orderly (edits_at log p f (Some a) ++ es)).
      { rewrite <- EX. apply (OL ev); [apply in_or_app; right; left; reflexivity|].
        rewrite X. discriminate. }
      destruct (list_edits p f a es st1 _ _ _ G0 IT O) as (st2' & E2 & _). congruence.
Qed.

(* ------------------------------------------------------------------ *)
(** ** The main induction *)

(** Logs only grow. *)
Definition grows (st : state (U * list event)) (r : state (U * list event) * aend) : Prop :=
  exists new, st_log (fst r) = st_log st ++ new.

Lemma grows_refl st e : grows st (st, e).
Proof. exists []. rewrite app_nil_r. reflexivity. Qed.
Lemma grows_trans st r1 r : grows st r1 -> grows (fst r1) r -> grows st r.
Proof. intros (n1 & E1) (n2 & E2). exists (n1 ++ n2). rewrite E2, E1, app_assoc. reflexivity. Qed.
Lemma grows_user st st' r : st_user st' = st_user st -> grows st' r -> grows st r.
Proof. unfold grows. intros E. rewrite E. auto. Qed.

Lemma edits_user {S} p f b es : forall (s s' : state S), run_edits p f b es s = Some s' -> st_user s' = st_user s.
Proof.
  induction es as [|e es IH]; cbn [run_edits]; intros s s'; [congruence|].
  destruct (run_edit p f b e s) as [s1|] eqn:E; [|discriminate]. intros R. rewrite (IH _ _ R).
  unfold run_edit in E. destruct e, b, (get_field (st_heap s) p f) as [[|]|]; try discriminate E;
    try (destruct (_ && _); try discriminate E); injection E as <-; reflexivity.
Qed.

Lemma callback_grows is_pre g p f b x st st' r e : run_callback (logging is_pre g) p f b x st = (st', r) ->
  grows st (st', e).
Proof.
  unfold run_callback, logging. destruct (total _ _ _ _) as [[u es] ans].
  destruct (run_edits _ _ _ _ _) as [st2|] eqn:E; intros [= <- <-]; eexists; cbn [fst].
  - rewrite (edits_user _ _ _ _ _ _ E). reflexivity.
  - reflexivity.
Qed.

Definition go_grows (go : addr -> string -> bool -> option addr -> state (U * list event) -> state (U * list event) * aend) :=
  forall p f b x st, grows st (go p f b x st).

Lemma loop_grows go (G : go_grows go) k : forall a f st, grows st (apply_loop go k a f st).
Proof.
  induction k as [|k IH]; intros a f st; cbn [apply_loop]; [apply grows_refl|].
  destruct (get_field _ _ _) as [[o|l]|]; try apply grows_refl.
  destruct (_ >=? _); [apply grows_refl|]. destruct (_ <? 0); [apply grows_refl|].
  match goal with |- context [go ?a ?b ?c ?d ?e] => pose proof (G a b c d e) as X; destruct (go a b c d e) as [st1 []] end;
    try exact (grows_user st _ _ eq_refl X).
  eapply grows_trans; [exact (grows_user st _ _ eq_refl X)|]. eapply grows_user; [|apply IH]. reflexivity.
Qed.

Lemma list_grows go (G : go_grows go) k a f st : grows st (apply_list go k a f st).
Proof.
  unfold apply_list. match goal with |- context [apply_loop go k a f ?s] =>
    pose proof (loop_grows go G k a f s) as X; destruct (apply_loop go k a f s) as [st1 []] end; exact X.
Qed.

Lemma step_grows go (G : go_grows go) k a st s : grows st (apply_step go k a st s).
Proof.
  destruct s; cbn [apply_step].
  - destruct (get_field _ _ _) as [[o|l]|]; try apply grows_refl. apply G.
  - destruct (get_field _ _ _) as [[[o|]|l]|]; try apply grows_refl. apply G.
  - destruct (c_all _); [apply grows_refl|]. destruct (get_field _ _ _) as [[o|l]|]; try apply grows_refl. apply G.
  - apply list_grows, G.
Qed.

Lemma steps_grows go (G : go_grows go) k a l : forall st, grows st (apply_steps go k a l st).
Proof.
  induction l as [|s l IH]; intros st; cbn [apply_steps]; [apply grows_refl|].
  pose proof (step_grows go G k a st s) as X. destruct (apply_step go k a st s) as [st1 []]; try exact X.
  eapply grows_trans; [exact X|apply IH].
Qed.

Lemma apply_grows n : go_grows (apply Pre Post n).
Proof.
  induction n as [|m IH]; intros p f b x st; cbn [apply]; [apply grows_refl|].
  destruct (run_callback Pre p f b x st) as [st1 [[]|]] eqn:C; try (eapply callback_grows, C).
  destruct x as [a|]; [|eapply callback_grows, C]. destruct (lookup _ _) as [steps|]; [|eapply callback_grows, C].
  pose proof (steps_grows _ IH m a steps st1) as X. apply (callback_grows _ _ _ _ _ _ _ _ _ ADone) in C.
  destruct (apply_steps _ _ _ _ _) as [st2 []]; try exact (grows_trans st (st1, ADone) _ C X).
  destruct (run_callback Post p f b (Some a) st2) as [st3 [[]|]] eqn:C2;
    apply (callback_grows _ _ _ _ _ _ _ _ _ ADone) in C2;
    exact (grows_trans st (st1, ADone) _ C (grows_trans st1 (st2, ADone) _ X C2)).
Qed.

Definition clean (new : list event) : Prop := Forall (fun e => ~ culprit w e) new.
Definition ends (log new : list event) (r : state (U * list event) * aend) (done : Prop) : Prop :=
  match snd r with
  | ADone => (Inv (log ++ new) (st_heap (fst r)) /\ clean new) /\ done
  | AAbort => (Inv (log ++ new) (st_heap (fst r)) /\ clean new) /\
      exists new' e, new = new' ++ [e] /\ e_pre e = false /\ e_answer e = false
  | APanic => Exists (culprit w) new
  | AFuel => False
  end.

Definition truth (new : list event) : Prop := Forall (fun e => e_pre e = true -> truthful e) new.

Definition runs (loc : event -> Prop) (st : state (U * list event)) (r : state (U * list event) * aend)
    (done : list event -> Prop) : Prop :=
  forall new, st_log (fst r) = st_log st ++ new -> orderly_log (st_log st ++ new) ->
    Forall loc new /\ truth new /\ ends (st_log st) new r (done new).

Lemma runs_ext loc st r (d d' : list event -> Prop) :
  (forall new, st_log (fst r) = st_log st ++ new -> Forall loc new -> d new -> d' new) ->
  runs loc st r d -> runs loc st r d'.
Proof.
  intros H R new L O. destruct (R new L O) as (F & T & X).
  split; [exact F|]. split; [exact T|]. unfold ends in *. destruct (snd r); auto. destruct X. split; auto.
Qed.

Lemma runs_loc (loc loc' : event -> Prop) st r d : (forall e, loc e -> loc' e) -> runs loc st r d -> runs loc' st r d.
Proof.
  intros H R new L O. destruct (R new L O) as (F & X). split; [|exact X]. eapply Forall_impl; [|exact F]. exact H.
Qed.

(** One part after another. *)
Lemma runs_seq loc st r1 r (d1 d : list event -> Prop) :
  runs loc st r1 d1 -> grows st r1 ->
  (snd r1 <> ADone -> r = r1) -> (snd r1 = ADone -> grows (fst r1) r) ->
  (forall new1, snd r1 = ADone -> st_log (fst r1) = st_log st ++ new1 -> Forall loc new1 ->
     Inv (st_log (fst r1)) (st_heap (fst r1)) -> d1 new1 ->
     runs loc (fst r1) r (fun new2 => d (new1 ++ new2))) ->
  runs loc st r d.
Proof.
  intros R1 (new1 & L1) N G C new L O.
  destruct (snd r1) eqn:S1.
  2-4: rewrite N in * by discriminate; destruct (R1 new L O) as (F & T & X);
       (split; [exact F|]); (split; [exact T|]); unfold ends in *; rewrite S1 in *; exact X.
  destruct (G eq_refl) as (new2 & L2).
  assert (new = new1 ++ new2) as -> by (rewrite L2, L1, <- app_assoc in L; apply app_inv_head in L; auto).
  rewrite app_assoc in O. pose proof (orderly_prefix _ _ O) as O1. destruct (R1 new1 L1 O1) as (F1 & T1 & X1).
  unfold ends in X1. rewrite S1 in X1. destruct X1 as ((I1 & C1) & D1). rewrite <- L1 in I1, O.
  destruct (C new1 eq_refl L1 F1 I1 D1 new2 L2 O) as (F2 & T2 & X2).
  split; [apply Forall_app; auto|]. split; [apply Forall_app; auto|].
  unfold ends in *. rewrite L1, <- app_assoc in X2. destruct (snd r).
  - destruct X2 as ((I2 & C2) & D2). split; [split; [exact I2|apply Forall_app; auto]|exact D2].
  - destruct X2 as [(I2 & C2) (n & e & -> & P & A)]. split; [split; [exact I2|apply Forall_app; auto]|]. exists (new1 ++ n), e. rewrite app_assoc. auto.
  - apply Exists_app. right. exact X2.
  - exact X2.
Qed.

Lemma runs_done loc st (d : list event -> Prop) : Inv (st_log st) (st_heap st) -> d [] -> runs loc st (st, ADone) d.
Proof.
  intros I D new L O. cbn [fst] in L. assert (new = []) as ->.
  { rewrite <- (app_nil_r (st_log st)) in L at 1. apply app_inv_head in L. auto. }
  split; [constructor|]. split; [constructor|]. split; [split; [rewrite app_nil_r; exact I|constructor]|exact D].
Qed.

Definition valid (n : nat) (x : option addr) : Prop :=
  (0 < n)%nat /\ forall a, x = Some a -> exists y, node_of w a = Some y /\ (Walk.size y < n)%nat.

Definition fresh (st : state (U * list event)) (p : addr) (f : string) (x : option addr) : Prop :=
  forall e, In e (st_log st) -> ~ located p f x e.

Lemma fresh_edits st p f x : fresh st p f x -> edits_at (st_log st) p f x = [].
Proof. intros F. apply edits_none. intros e I H. apply (F e I). left. exact H. Qed.

Definition outcome q p f x (st st' : state (U * list event)) (new : list event) : Prop :=
  toured p f x new /\ spot_ok q (st_log st') p f x st' /\ (q = Single -> same_iter st st').

Definition goes (n : nat) : Prop := forall q p f x st,
  valid n x -> kid_of p x -> Inv (st_log st) (st_heap st) -> spot_ok q (st_log st) p f x st -> fresh st p f x ->
  runs (located p f x) st (apply Pre Post n p f (inlist q) x st)
       (outcome q p f x st (fst (apply Pre Post n p f (inlist q) x st))).

(** The steps of a node of the original forest. *)
Lemma child_node a y f v b : node_of w a = Some y -> get_field h0 a f = Some v -> In b (held v) ->
  exists z, node_of w b = Some z /\ In z (subnodes y).
Proof.
  intros N G I. destruct (memory_kid w a f v b G I) as (i & ->). rewrite (node_of_sub w a y i N).
  unfold get_field, h0 in G. pose proof (held_in _ _ _ _ G I) as J. rewrite (memory_cell w a y N) in J.
  cbn [c_fields] in J. rewrite place_addrs in J. apply in_map_iff in J. destruct J as (j & [= ->] & J).
  apply in_seq in J. fold (subnodes y) in J.
  destruct (nth_error (subnodes y) i) as [z|] eqn:E; [|apply nth_error_None in E; lia].
  exists z. split; [reflexivity|]. eapply nth_error_In, E.
Qed.

Lemma field_kid a f v b : get_field h0 a f = Some v -> In b (held v) -> kid_of a (Some b).
Proof. intros G I c [= <-]. eapply memory_kid; eauto. Qed.

Lemma nodes_at_field a s x : In x (nodes_at a s) -> exists v, get_field h0 a (step_field s) = Some v /\
  match v with FOne o => x = o | FMany l => exists b, x = Some b /\ In b l end.
Proof.
  unfold nodes_at, step_nodes, get_field. destruct s as [c f|c f|c f|f]; cbn [step_field].
  - destruct (lookup f _) as [[o|l]|]; intros H; cbn in H; try tauto. destruct H as [<-|[]]. eexists. split; reflexivity.
  - destruct (lookup f _) as [[[o|]|l]|]; intros H; cbn in H; try tauto. destruct H as [<-|[]]. eexists. split; reflexivity.
  - destruct (c_all _); [intros []|].
    destruct (lookup f _) as [[o|l]|]; intros H; cbn in H; try tauto. destruct H as [<-|[]]. eexists. split; reflexivity.
  - destruct (lookup f _) as [[o|l]|]; intros H; cbn in H; try tauto.
    change (In x (map Some l)) in H. apply in_map_iff in H. destruct H as (b & <- & H). eexists. split; [reflexivity|]. cbn. eauto.
Qed.

Lemma nodes_at_kid a s x : In x (nodes_at a s) -> kid_of a x.
Proof.
  intros H. destruct (nodes_at_field a s x H) as (v & G & V). intros b ->.
  destruct v as [o|l].
  - subst o. eapply (memory_kid w a _ _ b G). left. reflexivity.
  - destruct V as (c & [= <-] & I). eapply (memory_kid w a _ _ b G). exact I.
Qed.

Definition step_in (a : addr) (s : step) (e : event) : Prop :=
  exists x, In x (nodes_at a s) /\ located a (step_name s) x e.

Lemma steps_disjoint a s s' e : step_name s <> step_name s' -> step_field s <> step_field s' ->
  step_in a s e -> step_in a s' e -> False.
Proof.
  intros N F (x & I & L) (x' & I' & L').
  destruct (located_eq a _ _ _ _ e (nodes_at_kid _ _ _ I) (nodes_at_kid _ _ _ I') L L') as (<- & [E|E]); [auto|].
  destruct x as [b|]; [|congruence]. apply F.
  destruct (nodes_at_field _ _ _ I) as (v & G & V). destruct (nodes_at_field _ _ _ I') as (v' & G' & V').
  apply (lookup_apart _ _ (c_fields (h0 a)) v v' b (memory_nodup w a) G G').
  - destruct v as [o|l]; [subst o; left; reflexivity|destruct V as (c & [= <-] & V); exact V].
  - destruct v' as [o|l]; [subst o; left; reflexivity|destruct V' as (c & [= <-] & V'); exact V'].
Qed.

Lemma valid_child m a y f v b : node_of w a = Some y -> (Walk.size y <= m)%nat -> get_field h0 a f = Some v ->
  In b (held v) -> valid m (Some b).
Proof.
  intros N Z G I. destruct (child_node a y f v b N G I) as (z & Nz & Iz). pose proof (sub_size _ _ Iz).
  split; [lia|]. intros c [= <-]. exists z. split; [exact Nz|lia].
Qed.

(** The list loop. *)
Lemma loop_ok m a y f l (IH : goes m) : node_of w a = Some y -> (Walk.size y <= m)%nat ->
  get_field h0 a f = Some (FMany l) -> forall l2 k l1 st,
  l = l1 ++ l2 -> (List.length l2 < k)%nat -> Inv (st_log st) (st_heap st) ->
  st_index st = zlen (edL (st_log st) a f l1) -> (forall b, In b l2 -> fresh st a f (Some b)) ->
  runs (fun e => exists b, In b l2 /\ located a f (Some b) e) st (apply_loop (apply Pre Post m) k a f st)
       (toured_all a (map (fun b => (f, Some b)) l2)).
Proof.
  intros N Z G. pose proof (list_nodup _ _ _ G) as ND.
  induction l2 as [|b l2 IHl]; intros k l1 st El K I X F.
  - destruct k as [|k]; [lia|]. cbn [apply_loop].
    assert (H : get_field (st_heap st) a f = Some (FMany (edL (st_log st) a f l1))).
    { rewrite (Inv_get _ _ a f I), G, El, app_nil_r. reflexivity. }
    rewrite H. destruct (st_index st >=? _) eqn:E; [|lia]. apply runs_done; [exact I|constructor].
  - destruct k as [|k]; [lia|]. cbn [apply_loop].
    assert (H : get_field (st_heap st) a f = Some (FMany (edL (st_log st) a f l1 ++ b :: l2))).
    { rewrite (Inv_get _ _ a f I), G, El. cbn [option_map edited_field]. do 2 f_equal.
      rewrite flat_map_app. f_equal. change (edL (st_log st) a f (b :: l2) = b :: l2). apply edL_id.
      intros c Ic. apply fresh_edits, F, Ic. }
    rewrite H. rewrite zlen_app, zlen_cons. pose proof (zlen_pos l2). pose proof (zlen_pos (edL (st_log st) a f l1)).
    destruct (st_index st >=? _) eqn:E; [lia|]. destruct (st_index st <? 0) eqn:E2; [lia|]. clear E E2.
    assert (NE : nth_error (edL (st_log st) a f l1 ++ b :: l2) (Z.to_nat (st_index st)) = Some b).
    { rewrite X. unfold zlen. rewrite Nat2Z.id, nth_error_app2, Nat.sub_diag by lia. reflexivity. }
    rewrite NE. set (st0 := mkState (st_heap st) (st_index st) 1 (st_user st)).
    assert (KB : forall c, In c (b :: l2) -> kid_of a (Some c)).
    { intros c Ic. eapply field_kid; [exact G|]. cbn [held]. rewrite El. apply in_or_app. right. exact Ic. }
    pose proof (IH (Listed l1 l2) a f (Some b) st0) as R. cbn [inlist] in R.
    assert (GG := apply_grows m a f true (Some b) st0).
    destruct (apply Pre Post m a f true (Some b) st0) as [st1 e1] eqn:AP.
    assert (R' : runs (located a f (Some b)) st (st1, e1) (outcome (Listed l1 l2) a f (Some b) st0 st1)).
    { apply R.
      - eapply (valid_child m a y f _ b N Z G). cbn [held]. rewrite El. apply in_or_app. right. left. reflexivity.
      - apply KB. left. reflexivity.
      - exact I.
      - exists b. split; [reflexivity|]. split; [rewrite G, El; reflexivity|].
        change (st_log st0) with (st_log st). rewrite (fresh_edits st a f (Some b)) by (apply F; left; reflexivity).
        cbn [slot_of fold_left iter_at st0 st_index st_step zopt]. rewrite X, (zlen_nil (A:=addr)). split; lia.
      - exact (F b (or_introl eq_refl)). }
    clear R.
    eapply (runs_seq _ st (st1, e1)).
    + eapply runs_loc; [|eapply runs_ext; [intros new _ FL D; exact (conj FL D)|exact R']].
      intros e L. exists b. split; [left; reflexivity|exact L].
    + exact GG.
    + cbn [snd]. destruct e1; congruence.
    + cbn [snd fst]. intros ->. eapply grows_user; [|apply loop_grows, apply_grows]. reflexivity.
    + cbn [snd fst]. intros new1 -> L1 _ I1 (F1 & T1 & (b' & [= <-] & G1 & IT) & _).
      set (st2 := mkState (st_heap st1) (st_index st1 + st_step st1) (st_step st1) (st_user st1)).
      assert (ND2 : ~ In b l1 /\ ~ In b l2).
      { rewrite El in ND. apply NoDup_remove_2 in ND. split; intros J; apply ND, in_or_app; auto. }
      specialize (IHl k (l1 ++ [b]) st2).
      eapply runs_ext; [|eapply runs_loc; [|apply IHl]].
      * intros new2 _ _ T2. cbn [map]. constructor; [exact T1|exact T2].
      * intros e (c & Ic & L). exists c. split; [right; exact Ic|exact L].
      * rewrite <- app_assoc. exact El.
      * cbn [List.length] in K. lia.
      * exact I1.
      * cbn [st2 st_index]. change (st_log st2) with (st_log st1).
        unfold edL. rewrite flat_map_app. fold (edL (st_log st1) a f l1). cbn [flat_map]. rewrite app_nil_r, zlen_app.
        unfold edited. fold (slot_of (edits_at (st_log st1) a f (Some b)) b).
        destruct (slot_of _ b) as [[be o] af]. cbn [iter_at flat] in *. destruct IT as (-> & ->).
        rewrite !zlen_app. destruct o; cbn [zopt]; rewrite ?zlen_cons, ?(zlen_nil (A:=addr)); lia.
      * intros c Ic e Ie. change (st_log st2) with (st_log st1) in Ie. rewrite L1 in Ie. apply in_app_or in Ie.
        destruct Ie as [Ie|Ie]; [apply (F c (or_intror Ic) e Ie)|]. intros Lc.
        rewrite Forall_forall in F1.
        destruct (located_eq a f f _ _ e (KB _ (or_intror Ic)) (KB _ (or_introl eq_refl)) Lc (F1 e Ie)) as ([= ->] & _).
        tauto.
Qed.

Lemma Forall2_len {A B} (R : A -> B -> Prop) l l' : Forall2 R l l' -> List.length l = List.length l'.
Proof. induction 1; cbn; congruence. Qed.

Lemma field_of a y f : node_of w a = Some y ->
  match lookup f (fields y), get_field h0 a f with Some v, Some v' => placed w v v' | None, None => True | _, _ => False end.
Proof. intros N. apply lookup_placed. exact (memory_placed w a y N). Qed.

Lemma runs_one m a y c f x st (IH : goes m) (d : list event -> Prop) :
  node_of w a = Some y -> (Walk.size y <= m)%nat -> get_field h0 a f = Some (FOne x) ->
  c = f \/ c = "QueryStmt" /\ lookup "QueryStmt" (fields y) = None ->
  Inv (st_log st) (st_heap st) -> fresh st a c x ->
  (forall new, toured a c x new -> d new) ->
  runs (located a c x) st (apply Pre Post m a c false x st)
       (fun new => d new /\ same_iter st (fst (apply Pre Post m a c false x st))).
Proof.
  intros N Z G C I F D.
  assert (KX : kid_of a x). { intros b ->. eapply memory_kid; [exact G|left; reflexivity]. }
  assert (V : valid m x).
  { split; [pose proof (subnodes_length y); lia|]. intros b ->.
    eapply (valid_child m a y f _ b N Z G); [left; reflexivity|reflexivity]. }
  assert (Q : spot_ok Single (st_log st) a c x st).
  { destruct C as [->|(-> & L)]; [left; exact G|right]. split; [|reflexivity].
    pose proof (field_of a y "QueryStmt" N) as P. rewrite L in P. destruct (get_field h0 a "QueryStmt"); [destruct P|reflexivity]. }
  eapply runs_ext; [|exact (IH Single a c x st V KX I Q F)].
  intros new _ _ (T & _ & S1). split; [apply D, T|apply S1; reflexivity].
Qed.

Lemma step_run m a y s st (IH : goes m) :
  node_of w a = Some y -> (Walk.size y <= m)%nat -> step_ok y s -> Inv (st_log st) (st_heap st) ->
  (forall e, In e (st_log st) -> ~ step_in a s e) -> (forall x, edits_at (st_log st) a (step_field s) x = []) ->
  runs (step_in a s) st (apply_step (apply Pre Post m) m a st s)
       (fun new => toured_all a (stops_of a s) new /\ same_iter st (fst (apply_step (apply Pre Post m) m a st s))).
Proof.
  intros N Z OK I NI FE.
  assert (TS : forall c x new, toured a c x new -> toured_all a [(c, x)] new).
  { intros c x new T. rewrite <- (app_nil_r new). constructor; [exact T|constructor]. }
  assert (SI : forall (s' : step) x, s' = s -> In x (nodes_at a s) -> fresh st a (step_name s') x).
  { intros s' x -> IX e IE L. apply (NI e IE). exists x. auto. }
  assert (HG := Inv_get _ _ a (step_field s) I).
  assert (HA : c_all (st_heap st a) = c_all (h0 a)) by (apply I).
  destruct s as [c f|c f|c f|f]; cbn [step_ok step_field step_name apply_step] in *.
  - destruct OK as ((o & LO) & C). pose proof (field_of a y f N) as P. rewrite LO in P.
    destruct (get_field h0 a f) as [v|] eqn:G; [|destruct P].
    assert (exists x, v = FOne x) as (x & ->) by (inversion P; eauto). clear P.
    cbn in HG. rewrite FE in HG. rewrite HG. cbn [replaced fold_left].
    assert (NA : nodes_at a (SOne c f) = [x]).
    { unfold nodes_at. cbn [step_nodes]. unfold get_field in G. rewrite G. reflexivity. }
    eapply runs_loc; [|apply (runs_one m a y c f x st IH _ N Z G C I)].
    + intros e L. exists x. split; [rewrite NA; left; reflexivity|exact L].
    + apply (SI _ x eq_refl). rewrite NA. left. reflexivity.
    + unfold stops_of. rewrite NA. apply TS.
  - destruct OK as ((o & LO) & C). pose proof (field_of a y f N) as P. rewrite LO in P.
    destruct (get_field h0 a f) as [v|] eqn:G; [|destruct P].
    assert (exists x, v = FOne x) as (x & ->) by (inversion P; eauto). clear P.
    cbn in HG. rewrite FE in HG. rewrite HG. cbn [replaced fold_left]. destruct x as [x|].
    + assert (NA : nodes_at a (SIf c f) = [Some x]).
      { unfold nodes_at. cbn [step_nodes]. unfold get_field in G. rewrite G. reflexivity. }
      eapply runs_loc; [|apply (runs_one m a y c f _ st IH _ N Z G C I)].
      * intros e L. exists (Some x). split; [rewrite NA; left; reflexivity|exact L].
      * apply (SI _ (Some x) eq_refl). rewrite NA. left. reflexivity.
      * unfold stops_of. rewrite NA. apply TS.
    + apply runs_done; [exact I|]. split; [|split; reflexivity].
      assert (NA : nodes_at a (SIf c f) = []).
      { unfold nodes_at. cbn [step_nodes]. unfold get_field in G. rewrite G. reflexivity. }
      unfold stops_of. rewrite NA. constructor.
  - rewrite HA. destruct (c_all (h0 a)) eqn:AL.
    + apply runs_done; [exact I|]. split; [|split; reflexivity]. unfold stops_of, nodes_at. cbn [step_nodes]. rewrite AL.
      constructor.
    + destruct OK as ((o & LO) & C). pose proof (field_of a y f N) as P. rewrite LO in P.
      destruct (get_field h0 a f) as [v|] eqn:G; [|destruct P].
      assert (exists x, v = FOne x) as (x & ->) by (inversion P; eauto). clear P.
      cbn in HG. rewrite FE in HG. rewrite HG. cbn [replaced fold_left].
      assert (NA : nodes_at a (SNotAll c f) = [x]).
      { unfold nodes_at. cbn [step_nodes]. rewrite AL. unfold get_field in G. rewrite G. reflexivity. }
      eapply runs_loc; [|apply (runs_one m a y c f x st IH _ N Z G C I)].
      * intros e L. exists x. split; [rewrite NA; left; reflexivity|exact L].
      * apply (SI _ x eq_refl). rewrite NA. left. reflexivity.
      * unfold stops_of. rewrite NA. apply TS.
  - destruct OK as (l0 & LO). pose proof (field_of a y f N) as P. rewrite LO in P.
    destruct (get_field h0 a f) as [v|] eqn:G; [|destruct P].
    assert (exists l, v = FMany l) as (l & ->) by (inversion P; eauto).
    assert (NA : nodes_at a (SEach f) = map Some l).
    { unfold nodes_at. cbn [step_nodes]. unfold get_field in G. rewrite G. reflexivity. }
    assert (LL : (List.length l < m)%nat).
    { inversion P as [| |ys bs F2]; subst. apply Forall2_len in F2. rewrite <- F2.
      pose proof (subnodes_length y). apply lookup_in in LO.
      assert (LE : (List.length l0 <= List.length (subnodes y))%nat); [|lia].
      apply in_split in LO. destruct LO as (A & B & E). unfold subnodes. rewrite E, flat_map_app. cbn [flat_map held snd].
      rewrite !app_length. lia. }
    unfold apply_list. set (st0 := mkState (st_heap st) 0 (st_step st) (st_user st)).
    assert (R := loop_ok m a y f l IH N Z G l m [] st0 eq_refl LL I eq_refl).
    assert (GG := loop_grows (apply Pre Post m) (apply_grows m) m a f st0).
    destruct (apply_loop (apply Pre Post m) m a f st0) as [st1 e1].
    assert (FR : forall b, In b l -> fresh st0 a f (Some b)).
    { intros b IB. apply (SI _ (Some b) eq_refl). rewrite NA. apply in_map, IB. }
    specialize (R FR).
    assert (R' : runs (step_in a (SEach f)) st0 (st1, e1) (toured_all a (stops_of a (SEach f)))).
    { eapply runs_ext; [|eapply runs_loc; [|exact R]].
      - intros new _ _ T. unfold stops_of. rewrite NA, map_map. exact T.
      - intros e (b & IB & L). exists (Some b). split; [rewrite NA; apply in_map, IB|exact L]. }
    destruct e1; intros new L O; destruct (R' new L O) as (F1 & T1 & E1); (split; [exact F1|]); (split; [exact T1|]);
      try exact E1. destruct E1 as (I1 & T2). split; [exact I1|]. split; [exact T2|split; reflexivity].
Qed.

Lemma steps_run m a y (IH : goes m) :
  node_of w a = Some y -> (Walk.size y <= m)%nat -> forall todo done steps st,
  lookup (gotype y) apply_table = Some steps -> steps = done ++ todo -> Inv (st_log st) (st_heap st) ->
  (forall e, In e (st_log st) -> inside a e -> exists s, In s done /\ step_in a s e) ->
  runs (fun e => exists s, In s todo /\ step_in a s e) st (apply_steps (apply Pre Post m) m a todo st)
       (fun new => toured_all a (stops a todo) new /\ same_iter st (fst (apply_steps (apply Pre Post m) m a todo st))).
Proof.
  intros N Z. induction todo as [|s todo IHt]; intros done steps st LT ES I D.
  - cbn [apply_steps]. apply runs_done; [exact I|]. split; [constructor|split; reflexivity].
  - assert (OK := steps_ok y steps LT). destruct (table_nodup _ _ LT) as (NN & NF).
    rewrite Forall_forall in OK. rewrite ES, map_app in NN, NF. cbn [map] in NN, NF.
    apply NoDup_remove_2 in NN. apply NoDup_remove_2 in NF.
    assert (OKs : step_ok y s) by (apply OK; rewrite ES; apply in_or_app; right; left; reflexivity).
    assert (DN : forall s', In s' done -> step_name s' <> step_name s /\ step_field s' <> step_field s).
    { intros s' IS. split; intros E; [apply NN|apply NF]; apply in_or_app; left; rewrite <- E; apply in_map, IS. }
    assert (R := step_run m a y s st IH N Z OKs I).
    assert (GG := step_grows (apply Pre Post m) (apply_grows m) m a st s).
    cbn [apply_steps]. destruct (apply_step (apply Pre Post m) m a st s) as [st1 e1].
    assert (R' : runs (step_in a s) st (st1, e1) (fun new => toured_all a (stops_of a s) new /\ same_iter st st1)).
    { apply R.
      - intros e IE SI. destruct (D e IE) as (s' & IS & SI').
        { destruct SI as (x & IX & L). eapply located_inside; [eapply nodes_at_kid, IX|exact L]. }
        destruct (DN s' IS). eapply steps_disjoint; eauto.
      - intros x. apply edits_none. intros e IE (H1 & H2 & H3).
        destruct (D e IE) as (s' & IS & x' & IX & L); [exists []; exact H1|].
        destruct L as [(H1' & H2' & H3')|L].
        + assert (OK' := OK s' ltac:(rewrite ES; apply in_or_app; left; exact IS)).
          destruct (DN s' IS) as (DN1 & DN2). rewrite H2 in H2'.
          assert (FX : lookup (step_field s) (fields y) <> None).
          { clear - OKs. destruct s; cbn in *; [destruct OKs as ((? & ->) & _)..|destruct OKs as (? & ->)]; discriminate. }
          destruct s' as [c f|c f|c f|f]; cbn [step_ok step_name step_field] in *; try congruence;
            destruct OK' as (_ & [->|(-> & QN)]); congruence.
        + pose proof (nodes_at_kid _ _ _ IX) as KX. destruct x' as [b|]; [|destruct L]. destruct (KX b eq_refl) as (i & ->).
          destruct L as (q & E). rewrite H1 in E. symmetry in E. destruct (suffix_cons _ _ _ E). }
    clear R.
    eapply (runs_seq _ st (st1, e1)).
    + eapply runs_loc; [|eapply runs_ext; [intros new _ FL T; exact (conj FL T)|exact R']].
      intros e L. exists s. split; [left; reflexivity|exact L].
    + exact GG.
    + cbn [snd]. destruct e1; congruence.
    + cbn [snd fst]. intros ->. apply steps_grows, apply_grows.
    + cbn [snd fst]. intros new1 -> L1 _ I1 (F1 & T1 & S1).
      eapply runs_ext; [|eapply runs_loc; [|apply (IHt (done ++ [s]) steps st1 LT)]].
      * intros new2 _ _ (T2 & S2). split.
        { cbn [stops flat_map]. apply toured_all_app; assumption. }
        { destruct S1, S2. split; congruence. }
      * intros e (s' & IS & L). exists s'. split; [right; exact IS|exact L].
      * rewrite <- app_assoc. exact ES.
      * exact I1.
      * intros e IE IN. rewrite L1 in IE. apply in_app_or in IE. destruct IE as [IE|IE].
        { destruct (D e IE IN) as (s' & IS & L). exists s'. split; [apply in_or_app; left; exact IS|exact L]. }
        { rewrite Forall_forall in F1. exists s. split; [apply in_or_app; right; left; reflexivity|apply F1, IE]. }
Qed.

Lemma spot_later q p f x (st1 st2 : state (U * list event)) new : kid_of p x ->
  spot_ok q (st_log st1) p f x st1 -> same_iter st1 st2 -> st_log st2 = st_log st1 ++ new ->
  (forall e, In e new -> match x with Some a => inside a e | None => False end) -> spot_ok q (st_log st2) p f x st2.
Proof.
  intros K Q (SI & SS) L F. destruct q as [|l1 l2]; [exact Q|].
  destruct Q as (a & -> & G & IT). exists a. split; [reflexivity|]. split; [exact G|].
  assert (E : forall z, edits_at (st_log st2) p f z = edits_at (st_log st1) p f z).
  { intros z. rewrite L, edits_app, (edits_none new), app_nil_r; [reflexivity|]. intros e IE (H1 & _).
    destruct (F e IE) as (r & R). destruct (K a eq_refl) as (i & ->). rewrite H1 in R. symmetry in R.
    destruct (suffix_cons _ _ _ R). }
  rewrite (edL_ext (st_log st2) (st_log st1) p f l1) by (intros; apply E). rewrite E, SI, SS. exact IT.
Qed.

Lemma stepped_inside a s e : step_in a s e -> inside a e.
Proof. intros (x & IX & L). eapply located_inside; [eapply nodes_at_kid, IX|exact L]. Qed.

Lemma goes_all n : goes n.
Proof.
  induction n as [|m IH]; intros q p f x st V K I Q F; [destruct V; lia|].
  destruct (callback_ok true pre q p f x st I Q) as (st1 & r1 & ev & C1 & L1 & P1 & H1 & HH1 & X1 & O1).
  assert (LOC : located p f x ev) by (left; exact H1).
  assert (E0 := fresh_edits _ _ _ _ F).
  assert (TR : truthful ev).
  { unfold truthful. rewrite X1, HH1. destruct H1 as (-> & -> & ->). destruct q as [|l1 l2]; cbn [inlist spot_ok] in *.
    - destruct Q as [Q|(Q & E)]; [left|right; exact E]. rewrite (Inv_get _ _ p f I), Q. cbn. rewrite E0. reflexivity.
    - destruct Q as (a & -> & G & IT). rewrite E0 in IT. cbn in IT. destruct IT as (IT & _).
      pose proof (zlen_pos (edL (st_log st) p f l1)). change (zlen []) with 0 in IT. split; [lia|].
      eexists. split; [rewrite (Inv_get _ _ p f I), G; reflexivity|]. rewrite flat_map_app. cbn [flat_map]. rewrite E0.
      fold (edL (st_log st) p f l1). cbn. rewrite IT, Z.add_0_r. unfold zlen.
      rewrite Nat2Z.id, nth_error_app2, Nat.sub_diag by lia. reflexivity. }
  assert (ONE : forall new, st_log st1 = st_log st ++ new -> new = [ev]).
  { intros new L. rewrite L1 in L. apply app_inv_head in L. auto. }
  assert (TRF : truth [ev]) by (constructor; [intros _; exact TR|constructor]).
  assert (LF : Forall (located p f x) [ev]) by (constructor; [exact LOC|constructor]).
  cbn [apply]. fold Pre in C1. rewrite C1. destruct r1 as [[|]|].
  3: { intros new L O. apply ONE in L. subst new. split; [exact LF|]. split; [exact TRF|]. constructor. apply O1, O. }
  2: { intros new L O. apply ONE in L. subst new. split; [exact LF|]. split; [exact TRF|].
       destruct (O1 O) as ((A & NC) & I1 & Q1 & S1). split; [split; [rewrite <- L1; exact I1|]|split; [|split; assumption]].
       { constructor; [|constructor]. intros [(_ & A' & _)|C]; [congruence|exact (NC C)]. }
       constructor. repeat split; assumption || apply H1. }
  destruct x as [a|].
  2: { intros new L O. apply ONE in L. subst new. split; [exact LF|]. split; [exact TRF|]. constructor. left.
       destruct (O1 O) as ((A & _) & _). split; [exact P1|]. split; [exact A|]. destruct H1 as (_ & _ & ->). exact Logic.I. }
  destruct V as (_ & V). destruct (V a eq_refl) as (y & N & Z). clear V.
  assert (TY : orderly_log (st_log st ++ [ev]) -> c_type (st_heap st1 a) = gotype y).
  { intros O. destruct (O1 O) as (_ & I1 & _). destruct (I1 a) as (T & _). rewrite T. unfold h0.
    rewrite (memory_cell w a y N). reflexivity. }
  destruct (lookup (c_type (st_heap st1 a)) apply_table) as [steps|] eqn:LT.
  2: { intros new L O. apply ONE in L. subst new. split; [exact LF|]. split; [exact TRF|]. constructor. left.
       destruct (O1 O) as ((A & _) & _). split; [exact P1|]. split; [exact A|]. destruct H1 as (_ & _ & ->).
       exists y. split; [exact N|]. apply table_unknown. rewrite <- (TY O). exact LT. }
  set (r := match apply_steps _ _ _ _ _ with (st2, ADone) => _ | r => r end).
  set (d := outcome q p f (Some a) st (fst r)).
  assert (GS := steps_grows (apply Pre Post m) (apply_grows m) m a steps st1).
  assert (RUN := fun LT' I1 D => steps_run m a y IH N ltac:(lia) steps [] steps st1 LT' eq_refl I1 D).
  destruct (apply_steps (apply Pre Post m) m a steps st1) as [st2 e2].
  assert (GR : forall e, grows st2 r \/ e2 <> ADone \/ e = ADone).
  { destruct e2; try (right; left; discriminate). left. subst r.
    destruct (run_callback Post p f (inlist q) (Some a) st2) as [st3 [[|]|]] eqn:C2; eapply callback_grows, C2. }
  eapply (runs_seq _ st (st1, ADone) r
            (fun new1 => new1 = [ev] /\ e_answer ev = true /\ c_type (st_heap st1 a) = gotype y /\
                         spot_ok q (st_log st1) p f (Some a) st1 /\ (q = Single -> same_iter st st1))).
  - intros new L O. apply ONE in L. subst new. split; [exact LF|]. split; [exact TRF|].
    destruct (O1 O) as ((A & NC) & I1 & Q1 & S1). split; [split; [rewrite <- L1; exact I1|]|auto 10].
    constructor; [|constructor]. intros [(_ & _ & B)|C]; [|exact (NC C)]. destruct H1 as (_ & _ & HN). rewrite HN in B.
    destruct B as (y' & N' & B). rewrite N in N'. injection N' as <-. apply table_unknown in B. rewrite (TY O) in LT. congruence.
  - exists [ev]. exact L1.
  - intros X. destruct (X eq_refl).
  - cbn [snd fst]. intros _. eapply grows_trans; [exact GS|]. cbn [fst]. subst r.
    destruct e2; try apply grows_refl. destruct (GR AFuel) as [G|[G|G]]; [exact G|congruence|discriminate].
  - cbn [snd fst]. intros new1 _ _ _ I1 (-> & A & T1 & Q1 & S1). rewrite T1 in LT.
    assert (R2 : runs (fun e => exists s, In s steps /\ step_in a s e) st1 (st2, e2)
                      (fun new => toured_all a (stops a steps) new /\ same_iter st1 st2)).
    { apply RUN; [exact LT|exact I1|]. intros e IE IN. exfalso. rewrite L1 in IE. apply in_app_or in IE.
      destruct IE as [IE|[<-|[]]]; [apply (F e IE); right; exact IN|].
      destruct IN as (z & IN). destruct H1 as (H1 & _). rewrite H1 in IN. destruct (K a eq_refl) as (i & ->).
      symmetry in IN. destruct (suffix_cons _ _ _ IN). }
    assert (LI : forall e, (exists s, In s steps /\ step_in a s e) -> located p f (Some a) e).
    { intros e (s & _ & SI). right. eapply stepped_inside, SI. }
    eapply (runs_seq _ st1 (st2, e2) r).
    + eapply runs_loc; [exact LI|]. eapply runs_ext; [intros new _ FL T; exact (conj FL T)|exact R2].
    + exact GS.
    + cbn [snd]. subst r. destruct e2; congruence.
    + cbn [snd fst]. intros ->. destruct (GR AFuel) as [G|[G|G]]; [exact G|congruence|discriminate].
    + cbn [snd fst]. intros new2 -> L2 _ I2 (F2 & T2 & S2).
      assert (Q2 : spot_ok q (st_log st2) p f (Some a) st2).
      { eapply spot_later; [exact K|exact Q1|exact S2|exact L2|]. intros e IE. rewrite Forall_forall in F2.
        destruct (F2 e IE) as (s & _ & SI). eapply stepped_inside, SI. }
      destruct (callback_ok false post q p f (Some a) st2 I2 Q2) as (st3 & r3 & ev3 & C3 & L3 & P3 & H3 & HH3 & X3 & O3).
      subst d. subst r. fold Post in C3. rewrite C3. clear GR.
      assert (ONE3 : forall new, st_log st3 = st_log st2 ++ new -> new = [ev3]).
      { intros new L. rewrite L3 in L. apply app_inv_head in L. auto. }
      assert (CL3 : ~ edit_culprit ev3 -> clean [ev3]).
      { intros NC. constructor; [|constructor]. intros [(PP & _)|C]; [congruence|exact (NC C)]. }
      assert (TRF3 : truth [ev3]) by (constructor; [congruence|constructor]).
      assert (LF3 : Forall (located p f (Some a)) [ev3]) by (constructor; [left; exact H3|constructor]).
      destruct r3 as [[|]|]; intros new L O; apply ONE3 in L; subst new; (split; [exact LF3|]); (split; [exact TRF3|]).
      * destruct (O3 O) as ((A3 & NC3) & I3 & Q3 & S3). split; [split; [rewrite <- L3; exact I3|apply CL3, NC3]|]. split; [|split; [exact Q3|]].
        { rewrite app_assoc. change ([ev] ++ new2) with (ev :: new2). cbn [app].
          eapply toured_enter; [exact N|exact LT| |exact T2|]; repeat split; assumption || apply H1 || apply H3. }
        { intros QS. destruct (S1 QS), S2, (S3 QS). cbn [fst]. split; congruence. }
      * destruct (O3 O) as ((A3 & NC3) & I3 & _). split; [split; [rewrite <- L3; exact I3|apply CL3, NC3]|]. exists [], ev3. auto.
      * constructor. apply O3, O.
Qed.
End Callbacks.

(* ------------------------------------------------------------------ *)
(** ** What a tour visits *)

Scheme toured_mut := Induction for toured Sort Prop
with toured_all_mut := Induction for toured_all Sort Prop.
Combined Scheme toured_both from toured_mut, toured_all_mut.

Definition dec (x : option addr) : option any := match x with Some a => node_of w a | None => None end.
Definition exists_at (x : option addr) : Prop := forall a, x = Some a -> node_of w a <> None.

Lemma stops_valid a y steps c x : node_of w a = Some y -> In (c, x) (stops a steps) -> kid_of a x /\ exists_at x.
Proof.
  intros N H. apply in_flat_map in H. destruct H as (s & _ & H). unfold stops_of in H. apply in_map_iff in H.
  destruct H as (x' & [= <- <-] & H). split; [eapply nodes_at_kid, H|].
  destruct (nodes_at_field a s x' H) as (v & G & V). intros b ->.
  assert (I : In b (held v)) by (destruct v; [subst; left; reflexivity|destruct V as (c & [= <-] & V); exact V]).
  destruct (child_node a y _ v b N G I) as (z & E & _). congruence.
Qed.

Lemma stops_order a y steps : node_of w a = Some y -> lookup (gotype y) apply_table = Some steps ->
  map (fun t => dec (snd t)) (stops a steps) = order y.
Proof.
  intros N L. rewrite <- (steps_order y steps L). unfold stops. rewrite flat_map_concat_map, concat_map, map_map.
  rewrite flat_map_concat_map. f_equal. apply map_ext. intros s. unfold stops_of, nodes_at. rewrite map_map. cbn [snd].
  assert (AF : c_all (h0 a) = all_flag y) by (unfold h0; rewrite (memory_cell w a y N); reflexivity).
  assert (FO := fun f => field_of a y f N). unfold get_field in FO.
  destruct s as [c f|c f|c f|f]; cbn [step_nodes]; specialize (FO f).
  - destruct (lookup f (fields y)), (lookup f (c_fields (h0 a))); try contradiction FO; [|reflexivity].
    destruct FO; cbn; try reflexivity. congruence.
  - destruct (lookup f (fields y)), (lookup f (c_fields (h0 a))); try contradiction FO; [|reflexivity].
    destruct FO; cbn; try reflexivity. congruence.
  - rewrite AF. destruct (all_flag y); [reflexivity|].
    destruct (lookup f (fields y)), (lookup f (c_fields (h0 a))); try contradiction FO; [|reflexivity].
    destruct FO; cbn; try reflexivity. congruence.
  - destruct (lookup f (fields y)), (lookup f (c_fields (h0 a))); try contradiction FO; [|reflexivity].
    destruct FO as [| |ys bs F2]; cbn; try reflexivity. rewrite map_map.
    induction F2 as [|y0 b ys bs E F2 IH]; [reflexivity|]. cbn. rewrite E. f_equal. exact IH.
Qed.

Lemma toured_walked :
  (forall p f x l, toured p f x l -> exists_at x -> walked (dec x) (map (as_call w) l)) /\
  (forall a xs l, toured_all a xs l -> (forall c x, In (c, x) xs -> exists_at x) ->
     walked_all (map (fun t => dec (snd t)) xs) (map (as_call w) l)).
Proof.
  apply toured_both.
  - intros p f x e (P & (_ & _ & X) & A) V. cbn. unfold as_call. rewrite P, X, A. destruct x as [a|]; cbn; [|constructor].
    destruct (node_of w a) eqn:E; [constructor|]. destruct (V a eq_refl E).
  - intros p f a y steps e1 l e2 N L (P1 & (_ & _ & X1) & A1) TA IH (P2 & (_ & _ & X2) & A2) V.
    cbn [map dec]. rewrite map_app. cbn [map]. unfold as_call at 1 3. rewrite P1, X1, A1, P2, A2, N.
    constructor.
    + destruct (lookup (gotype y) apply_table) eqn:E; [|discriminate].
      assert (D : walkable y \/ ~ walkable y) by (destruct y; cbn; tauto). destruct D as [D|D]; [exact D|].
      assert (lookup (gotype y) apply_table = None) by (apply table_unknown; auto). congruence.
    + rewrite <- (stops_order a y steps N L). apply IH. intros c x I. eapply stops_valid; eauto.
  - intros a _. constructor.
  - intros a c x xs l ls T IHT TA IHA V. cbn [map]. rewrite map_app. cbn [snd]. constructor.
    + apply IHT. eapply V. left. reflexivity.
    + apply IHA. intros c' x' I. eapply V. right. exact I.
Qed.

Definition region (b v : addr) : Prop := exists q, v = q ++ b.

(** Everything happens at the node or below it. *)
Lemma toured_where :
  (forall p f x l, toured p f x l -> kid_of p x -> forall e, In e l ->
     located p f x e /\ forall v, e_node e = Some v -> exists a, x = Some a /\ region a v) /\
  (forall a xs l, toured_all a xs l -> (forall c x, In (c, x) xs -> kid_of a x) -> forall e, In e l ->
     exists c x, In (c, x) xs /\ located a c x e /\ forall v, e_node e = Some v -> exists b, x = Some b /\ region b v).
Proof.
  apply toured_both.
  - intros p f x e (P & H & A) K e' [<-|[]]. split; [left; exact H|]. intros v E. destruct H as (_ & _ & H).
    exists v. split; [congruence|]. exists []. reflexivity.
  - intros p f a y steps e1 l e2 N L (P1 & H1 & A1) TA IH (P2 & H2 & A2) K e I.
    assert (KS : forall c x, In (c, x) (stops a steps) -> kid_of a x) by (intros; eapply stops_valid; eauto).
    assert (HE : here p f (Some a) e -> located p f (Some a) e /\
                   forall v, e_node e = Some v -> exists b, Some a = Some b /\ region b v).
    { intros H. split; [left; exact H|]. intros v E. destruct H as (_ & _ & H). exists a. split; [reflexivity|].
      exists []. cbn. congruence. }
    destruct I as [<-|I]; [auto|]. apply in_app_or in I. destruct I as [I|[<-|[]]]; [|auto].
    destruct (IH KS e I) as (c & x & IX & LX & RX). split.
    + right. eapply located_inside; [eapply KS, IX|exact LX].
    + intros v E. destruct (RX v E) as (b & -> & (q & ->)). exists a. split; [reflexivity|].
      destruct (KS _ _ IX b eq_refl) as (i & ->). exists (q ++ [i]). rewrite <- app_assoc. reflexivity.
  - intros a _ e [].
  - intros a c x xs l ls T IHT TA IHA K e I. apply in_app_or in I. destruct I as [I|I].
    + exists c, x. split; [left; reflexivity|]. apply IHT; [eapply K; left; reflexivity|exact I].
    + destruct (IHA (fun c' x' J => K c' x' (or_intror J)) e I) as (c' & x' & J & R). exists c', x'. split; [right; exact J|exact R].
Qed.

Lemma visits_app a b : visits (a ++ b) = visits a ++ visits b.
Proof. unfold visits. rewrite filter_app, map_app. apply somes_app. Qed.

Lemma visits_in l v : In v (visits l) <-> exists e, In e l /\ e_pre e = true /\ e_node e = Some v.
Proof.
  unfold visits, somes. rewrite in_flat_map. split.
  - intros (o & I & J). apply in_map_iff in I. destruct I as (e & E & I). apply filter_In in I. destruct o; [|destruct J].
    destruct J as [->|[]]. exists e. tauto.
  - intros (e & I & P & E). exists (Some v). split; [|left; reflexivity]. apply in_map_iff. exists e. split; [exact E|].
    apply filter_In. auto.
Qed.

Lemma visits_one e x : e_pre e = true -> e_node e = x -> visits [e] = match x with Some a => [a] | None => [] end.
Proof. intros P E. unfold visits. cbn. rewrite P. cbn. rewrite E. destruct x; reflexivity. Qed.

Lemma NoDup_app {A} (a b : list A) : NoDup a -> NoDup b -> (forall x, In x a -> In x b -> False) -> NoDup (a ++ b).
Proof.
  intros Na Nb D. induction Na as [|x a N Na IH]; [exact Nb|]. cbn. constructor.
  - intros I. apply in_app_or in I. destruct I as [I|I]; [auto|]. eapply D; [left; reflexivity|exact I].
  - apply IH. intros y I J. eapply D; [right; exact I|exact J].
Qed.

Lemma region_kids a i j v : region (i :: a) v -> region (j :: a) v -> i = j.
Proof. intros (q & ->) (r & E). eapply suffix_eq, E. Qed.

Lemma stops_nodup a steps : NoDup (map step_field steps) -> NoDup (somes (map snd (stops a steps))).
Proof.
  induction steps as [|s steps IH]; cbn [map]; intros N; [constructor|]. inversion N as [|? ? NI NS]; subst.
  cbn [stops flat_map]. rewrite map_app, somes_app. unfold stops_of at 1. rewrite map_map. cbn [snd]. rewrite map_id.
  assert (SI : forall s b, In b (somes (nodes_at a s)) -> exists v, get_field h0 a (step_field s) = Some v /\ In b (held v)).
  { intros s' b I. unfold somes in I. apply in_flat_map in I. destruct I as (o & I & J). destruct o; [|destruct J].
    destruct J as [->|[]]. destruct (nodes_at_field _ _ _ I) as (v & G & V). exists v. split; [exact G|].
    destruct v; [subst; left; reflexivity|destruct V as (c & [= <-] & V); exact V]. }
  apply NoDup_app; [|apply IH, NS|].
  - unfold nodes_at. destruct s as [c f|c f|c f|f]; cbn [step_nodes].
    + destruct (lookup f _) as [[[b|]|l]|]; repeat constructor. intros [].
    + destruct (lookup f _) as [[[b|]|l]|]; repeat constructor. intros [].
    + destruct (c_all _); [constructor|]. destruct (lookup f _) as [[[b|]|l]|]; repeat constructor. intros [].
    + destruct (lookup f _) as [[o|l]|] eqn:E; try constructor. rewrite somes_map.
      exact (lookup_nodup f _ (FMany l) (memory_nodup w a) E).
  - intros b I J. destruct (SI s b I) as (v & G & V). unfold somes in J. apply in_flat_map in J. destruct J as (o & J & O).
    destruct o; [|destruct O]. destruct O as [->|[]]. apply in_map_iff in J. destruct J as ((c & x) & E & J). cbn in E. subst x.
    apply in_flat_map in J. destruct J as (s' & IS & J). unfold stops_of in J. apply in_map_iff in J.
    destruct J as (x & [= <- ->] & J).
    destruct (SI s' b) as (v' & G' & V').
    { unfold somes. apply in_flat_map. exists (Some b). split; [exact J|left; reflexivity]. }
    apply NI. rewrite (lookup_apart _ _ _ v v' b (memory_nodup w a) G G' V V'). apply in_map, IS.
Qed.

Lemma toured_nodup :
  (forall p f x l, toured p f x l -> kid_of p x -> NoDup (visits l)) /\
  (forall a xs l, toured_all a xs l -> (forall c x, In (c, x) xs -> kid_of a x) -> NoDup (somes (map snd xs)) ->
     NoDup (visits l)).
Proof.
  apply toured_both.
  - intros p f x e (P & (_ & _ & H) & A) K. rewrite (visits_one e x P H). destruct x; repeat constructor. intros [].
  - intros p f a y steps e1 l e2 N L (P1 & (_ & _ & H1) & A1) TA IH (P2 & H2 & A2) K.
    assert (KS : forall c x, In (c, x) (stops a steps) -> kid_of a x) by (intros; eapply stops_valid; eauto).
    change (e1 :: l ++ [e2]) with ([e1] ++ l ++ [e2]). rewrite !visits_app, (visits_one e1 _ P1 H1).
    assert (visits [e2] = []) as -> by (unfold visits; cbn; rewrite P2; reflexivity). rewrite app_nil_r.
    destruct (table_nodup _ _ L) as (_ & NF).
    constructor; [|apply IH; [exact KS|apply stops_nodup, NF]]. intros I. apply visits_in in I. destruct I as (e & I & P & E).
    destruct (proj2 toured_where _ _ _ TA KS e I) as (c & x & IX & _ & R). destruct (R a E) as (b & -> & (q & EQ)).
    destruct (KS _ _ IX b eq_refl) as (i & ->). symmetry in EQ. destruct (suffix_cons _ _ _ EQ).
  - intros. constructor.
  - intros a c x xs l ls T IHT TA IHA K ND. rewrite visits_app. cbn [map snd somes flat_map] in ND.
    apply NoDup_app_inv in ND. destruct ND as (_ & N2 & ND).
    assert (K' : forall c x, In (c, x) xs -> kid_of a x) by (intros; eapply K; right; eauto).
    apply NoDup_app; [apply IHT; eapply K; left; reflexivity|apply IHA; assumption|].
    intros v I J. apply visits_in in I, J. destruct I as (e & I & _ & E), J as (e' & J & _ & E').
    destruct (proj1 toured_where _ _ _ _ T (K _ _ (or_introl eq_refl)) e I) as (_ & R). destruct (R v E) as (b & -> & R1).
    destruct (proj2 toured_where _ _ _ TA K' e' J) as (c' & x' & IX & _ & R'). destruct (R' v E') as (b' & -> & R2).
    destruct (K _ _ (or_introl eq_refl) b eq_refl) as (i & ->). destruct (K' _ _ IX b' eq_refl) as (j & ->).
    rewrite (region_kids a i j v R1 R2) in *. eapply ND; [left; reflexivity|].
    unfold somes. apply in_flat_map. exists (Some (j :: a)). split; [|left; reflexivity].
    apply in_map_iff. exists (c', Some (j :: a)). auto.
Qed.

(** The visits from one list field. *)
Lemma visits_of_app p f a b : visits_of p f (a ++ b) = visits_of p f a ++ visits_of p f b.
Proof. unfold visits_of. rewrite filter_app. apply map_app. Qed.

Lemma visits_of_none p f l : (forall e, In e l -> e_pre e = true -> e_parent e <> p) -> visits_of p f l = [].
Proof.
  intros H. unfold visits_of. induction l as [|e l IH]; [reflexivity|]. cbn [filter].
  destruct (e_pre e && addr_eqb (e_parent e) p && String.eqb (e_name e) f) eqn:E.
  - apply andb_true_iff in E. destruct E as (E & _). apply andb_true_iff in E. destruct E as (P & E).
    apply addr_eqb_eq in E. destruct (H e (or_introl eq_refl) P E).
  - apply IH. intros e' I. apply H. right. exact I.
Qed.

Lemma visits_of_one p f x e g : e_pre e = true -> here p f x e ->
  visits_of p g [e] = if String.eqb f g then [x] else [].
Proof.
  intros P (H1 & H2 & H3). unfold visits_of. cbn [filter]. rewrite P, H1, H2, addr_eqb_refl. cbn [andb].
  destruct (String.eqb f g); [|reflexivity]. cbn. rewrite H3. reflexivity.
Qed.

Lemma toured_head p f x l g : toured p f x l -> kid_of p x -> visits_of p g l = if String.eqb f g then [x] else [].
Proof.
  intros T K. inversion T as [? ? ? e (P & H & A)|? ? a y steps e1 l' e2 N L (P1 & H1 & A1) TA (P2 & H2 & A2)]; subst.
  - apply visits_of_one; assumption.
  - change (e1 :: l' ++ [e2]) with ([e1] ++ l' ++ [e2]). rewrite !visits_of_app, (visits_of_one _ _ _ _ g P1 H1).
    rewrite (visits_of_none p g l'), (visits_of_none p g [e2]), app_nil_r; [reflexivity| |].
    + intros e [<-|[]] P. congruence.
    + intros e I _ E. assert (KS : forall c x, In (c, x) (stops a steps) -> kid_of a x) by (intros; eapply stops_valid; eauto).
      destruct (proj2 toured_where _ _ _ TA KS e I) as (c & x & IX & LX & _).
      destruct (located_inside a c x e (KS _ _ IX) LX) as (q & Q). destruct (K a eq_refl) as (i & ->).
      rewrite E in Q. symmetry in Q. destruct (suffix_cons _ _ _ Q).
Qed.

Lemma toured_all_heads a xs l g : toured_all a xs l -> (forall c x, In (c, x) xs -> kid_of a x) ->
  visits_of a g l = flat_map (fun t => if String.eqb (fst t) g then [snd t] else []) xs.
Proof.
  induction 1 as [a|a c x xs l ls T TA IH]; intros K; [reflexivity|]. rewrite visits_of_app. cbn [flat_map fst snd].
  rewrite (toured_head a c x l g T), IH; [reflexivity| |]; intros; eapply K; [right; eauto|left; reflexivity].
Qed.

Lemma stops_named a steps g : NoDup (map step_name steps) -> In (SEach g) steps ->
  flat_map (fun t => if String.eqb (fst t) g then [snd t] else []) (stops a steps) = nodes_at a (SEach g).
Proof.
  assert (ST : forall s, flat_map (fun t => if String.eqb (fst t) g then [snd t] else []) (stops_of a s) =
                         if String.eqb (step_name s) g then nodes_at a s else []).
  { intros s. unfold stops_of. rewrite flat_map_concat_map, map_map. cbn [fst snd]. destruct (String.eqb (step_name s) g).
    - induction (nodes_at a s) as [|x l IH]; [reflexivity|]. cbn. f_equal. exact IH.
    - induction (nodes_at a s) as [|x l IH]; [reflexivity|]. exact IH. }
  induction steps as [|s steps IH]; cbn [map]; intros ND I; [destruct I|].
  inversion ND as [|? ? NI NS]; subst. cbn [stops flat_map]. rewrite flat_map_app, ST. destruct I as [->|I].
  - cbn [step_name] in *. rewrite String.eqb_refl. fold (stops a steps).
    replace (flat_map _ (stops a steps)) with (@nil (option addr)); [apply app_nil_r|].
    clear IH ND. induction steps as [|s steps IH]; [reflexivity|]. cbn [stops flat_map]. rewrite flat_map_app, ST.
    destruct (String.eqb (step_name s) g) eqn:E.
    + apply String.eqb_eq in E. destruct NI. left. exact E.
    + cbn [app]. apply IH; [intros J; apply NI; right; exact J|]. inversion NS; assumption.
  - fold (stops a steps). rewrite IH by assumption. destruct (String.eqb (step_name s) g) eqn:E; [|reflexivity].
    apply String.eqb_eq in E. destruct NI. rewrite E. apply (in_map step_name) in I. exact I.
Qed.

Lemma listed_step y steps g l : lookup (gotype y) apply_table = Some steps -> lookup g (fields y) = Some (FMany l) ->
  ~ In (gotype y, g) unlisted -> In (SEach g) steps.
Proof.
  intros L G. apply lookup_in in G. revert L G.
  cases y; intros L G U; vm_compute in L; try discriminate L; injection L as <-; cbn [fields f1 f01 fl In] in G;
    repeat (destruct G as [G|G]; [solve [discriminate G]||(apply (f_equal fst) in G; cbn in G; subst g)|]); try destruct G.
  all: try solve [cbn; tauto]; destruct U; cbn; tauto.
Qed.

Lemma toured_lists :
  (forall p f x l, toured p f x l -> kid_of p x -> forall e a y g bs, In e l ->
     e_pre e = true -> e_answer e = true -> e_node e = Some a -> node_of w a = Some y ->
     get_field h0 a g = Some (FMany bs) -> ~ In (gotype y, g) unlisted -> visits_of a g l = map Some bs) /\
  (forall a0 xs l, toured_all a0 xs l -> (forall c x, In (c, x) xs -> kid_of a0 x) -> NoDup (somes (map snd xs)) ->
     forall e a y g bs, In e l ->
     e_pre e = true -> e_answer e = true -> e_node e = Some a -> node_of w a = Some y ->
     get_field h0 a g = Some (FMany bs) -> ~ In (gotype y, g) unlisted -> visits_of a g l = map Some bs).
Proof.
  apply toured_both.
  - intros p f x e (P & H & A) K e' a y g bs [<-|[]] P' A'. congruence.
  - intros p f a0 y0 steps e1 l e2 N L (P1 & H1 & A1) TA IH (P2 & H2 & A2) K e a y g bs I P A E Na G U.
    assert (KS : forall c x, In (c, x) (stops a0 steps) -> kid_of a0 x) by (intros; eapply stops_valid; eauto).
    destruct (table_nodup _ _ L) as (NN & NF).
    change (e1 :: l ++ [e2]) with ([e1] ++ l ++ [e2]). rewrite !visits_of_app.
    rewrite (visits_of_none a g [e2]), app_nil_r by (intros e' [<-|[]] P'; congruence).
    destruct (K a0 eq_refl) as (i & EA).
    destruct I as [<-|I].
    + destruct H1 as (HP & HN & HX). assert (a = a0) by congruence. subst a. assert (y0 = y) by congruence. subst y0.
      rewrite (visits_of_none a0 g [e1]).
      2: { intros e' [<-|[]] _. rewrite HP, EA. intros X. apply (f_equal (@List.length nat)) in X. cbn in X. lia. }
      cbn [app]. rewrite (toured_all_heads _ _ _ g TA KS).
      pose proof (field_of a0 y g N) as P0. rewrite G in P0. destruct (lookup g (fields y)) as [v|] eqn:LG; [|destruct P0].
      clear EA. inversion P0 as [| |ys bs' F2]; subst. rewrite (stops_named a0 steps g NN).
      * unfold nodes_at. cbn [step_nodes]. unfold get_field in G. rewrite G. reflexivity.
      * eapply listed_step; eauto.
    + apply in_app_or in I. destruct I as [I|[<-|[]]]; [|congruence].
      rewrite (IH KS (stops_nodup a0 steps NF) e a y g bs I P A E Na G U).
      rewrite (visits_of_none a g [e1]); [reflexivity|]. intros e' [<-|[]] _. destruct H1 as (-> & _).
      destruct (proj2 toured_where _ _ _ TA KS e I) as (c & x & IX & _ & R). destruct (R a E) as (b & -> & (q & EQ)).
      destruct (KS _ _ IX b eq_refl) as (j & ->). rewrite EQ, EA. intros X.
      apply (f_equal (@List.length nat)) in X. rewrite app_length in X. cbn in X. lia.
  - intros a0 K ND e a y g bs [].
  - intros a0 c x xs l ls T IHT TA IHA K ND e a y g bs I P A E Na G U. rewrite visits_of_app.
    assert (K1 : kid_of a0 x) by (eapply K; left; reflexivity).
    assert (K' : forall c x, In (c, x) xs -> kid_of a0 x) by (intros; eapply K; right; eauto).
    cbn [map snd somes flat_map] in ND. apply NoDup_app_inv in ND. destruct ND as (_ & N2 & ND).
    assert (CL : forall b b' e' c', region b a -> (exists i, b = i :: a0) -> (exists i, b' = i :: a0) ->
                 located a0 c' (Some b') e' -> e_parent e' = a -> b = b').
    { intros b b' e' c' R (j & ->) (k & ->) [(H & _)|(q & H)] EP.
      - destruct R as (q & R). rewrite EP in H. rewrite H in R. symmetry in R. destruct (suffix_cons _ _ _ R).
      - rewrite EP in H. f_equal. eapply region_kids; [exact R|]. exists q. exact H. }
    assert (CN : forall b c' e', region b a -> (exists i, b = i :: a0) -> located a0 c' None e' -> e_parent e' = a -> False).
    { intros b c' e' (q & R) (j & ->) [(H & _)|[]] EP. rewrite EP in H. rewrite H in R. symmetry in R.
      destruct (suffix_cons _ _ _ R). }
    apply in_app_or in I. destruct I as [I|I].
    + rewrite (IHT K1 e a y g bs I P A E Na G U). rewrite (visits_of_none a g ls); [apply app_nil_r|].
      intros e' I' _ EP. destruct (proj1 toured_where _ _ _ _ T K1 e I) as (_ & R). destruct (R a E) as (b & -> & RB).
      destruct (proj2 toured_where _ _ _ TA K' e' I') as (c' & x' & IX & LX & _). destruct x' as [b'|].
      * assert (b = b') by exact (CL b b' e' c' RB (K1 b eq_refl) (K' _ _ IX b' eq_refl) LX EP). subst b'. eapply ND; [left; reflexivity|]. unfold somes. apply in_flat_map.
        exists (Some b). split; [|left; reflexivity]. apply in_map_iff. exists (c', Some b). auto.
      * exact (CN b c' e' RB (K1 b eq_refl) LX EP).
    + rewrite (IHA K' N2 e a y g bs I P A E Na G U). rewrite (visits_of_none a g l); [reflexivity|].
      intros e' I' _ EP. destruct (proj2 toured_where _ _ _ TA K' e I) as (c' & x' & IX & _ & R).
      destruct (R a E) as (b & -> & RB). destruct (proj1 toured_where _ _ _ _ T K1 e' I') as (LX & _). destruct x as [b'|].
      * assert (b = b') by exact (CL b b' e' c RB (K' _ _ IX b eq_refl) (K1 b' eq_refl) LX EP). subst b'. eapply ND; [left; reflexivity|]. unfold somes. apply in_flat_map.
        exists (Some b). split; [|left; reflexivity]. apply in_map_iff. exists (c', Some b). auto.
      * exact (CN b c e' RB (K' _ _ IX b eq_refl) LX EP).
Qed.

Lemma toured_exist :
  (forall p f x l, toured p f x l -> exists_at x -> forall e v, In e l -> e_node e = Some v -> node_of w v <> None) /\
  (forall a xs l, toured_all a xs l -> (forall c x, In (c, x) xs -> exists_at x) ->
     forall e v, In e l -> e_node e = Some v -> node_of w v <> None).
Proof.
  apply toured_both.
  - intros p f x e (P & (_ & _ & H) & A) V e' v [<-|[]] E. apply V. congruence.
  - intros p f a y steps e1 l e2 N L (P1 & (_ & _ & H1) & A1) TA IH (P2 & (_ & _ & H2) & A2) V e v I E.
    destruct I as [<-|I]; [apply V; congruence|]. apply in_app_or in I. destruct I as [I|[<-|[]]]; [|apply V; congruence].
    eapply IH; [|exact I|exact E]. intros; eapply stops_valid; eauto.
  - intros a _ e v [].
  - intros a c x xs l ls T IHT TA IHA V e v I E. apply in_app_or in I. destruct I as [I|I].
    + eapply IHT; eauto. eapply V. left. reflexivity.
    + eapply IHA; eauto. intros. eapply V. right. eauto.
Qed.
End World.

(* ------------------------------------------------------------------ *)
(** ** A run of Apply *)

Theorem Apply_log {U} (pre post : option (callback U)) x rest u n : (Walk.size x < n)%nat ->
  let w := x :: rest in
  let r := Apply (logging true pre) (logging false post) n [] [0%nat] (memory w) (u, []) in
  let log := snd (st_user (fst r)) in
  orderly_log log ->
  Forall (fun e => e_pre e = true -> truthful e) log /\
  match snd r with
  | ADone =>
      (edited_memory (memory w) log (st_heap (fst r)) /\ Forall (fun e => ~ culprit w e) log) /\
      walked (Some x) (map (as_call w) log) /\ NoDup (visits log) /\
      (forall v, In v (visits log) -> (exists q, v = q ++ [0%nat]) /\ node_of w v <> None) /\
      (forall e a y g bs, In e log -> e_pre e = true -> e_answer e = true -> e_node e = Some a -> node_of w a = Some y ->
         get_field (memory w) a g = Some (FMany bs) -> ~ In (gotype y, g) unlisted -> visits_of a g log = map Some bs)
  | AAbort =>
      (edited_memory (memory w) log (st_heap (fst r)) /\ Forall (fun e => ~ culprit w e) log) /\
      exists log' e, log = log' ++ [e] /\ e_pre e = false /\ e_answer e = false
  | APanic => Exists (culprit w) log
  | AFuel => False
  end.
Proof.
  intros Z w r log O. unfold Apply in r.
  set (st := mkState (memory w) 0 0 (u, []) : state (U * list event)) in *.
  assert (V : valid w n (Some [0%nat])) by (split; [lia|]; intros a [= <-]; exists x; split; [reflexivity|exact Z]).
  assert (K : kid_of [] (Some [0%nat])) by (intros b [= <-]; exists 0%nat; reflexivity).
  assert (I : Inv w (snd (st_user st)) (st_heap st)).
  { intros a. split; [reflexivity|]. split; [reflexivity|]. intros f. change (st_heap st) with (memory w).
    destruct (get_field (memory w) a f) as [[o|l]|]; cbn; try reflexivity. do 2 f_equal.
    symmetry. apply (edL_id [] a f l). reflexivity. }
  assert (R := goes_all w pre post n Single [] "Node" (Some [0%nat]) st V K I (or_introl eq_refl) (fun e IE => match IE with end)).
  change (runs w (located [] "Node" (Some [0%nat])) st r (outcome w Single [] "Node" (Some [0%nat]) st (fst r))) in R.
  clearbody r. specialize (R log eq_refl O). cbn [st st_user snd app] in R.
  destruct R as (_ & T & E). split; [exact T|]. unfold ends in E. cbn [app] in E. revert E. unfold log in *. clear log. destruct r as [fin []]; cbn [fst snd] in *; auto.
  intros E. destruct E as (C & (TO & _)). split; [exact C|].
  assert (EX : exists_at w (Some [0%nat])) by (intros a [= <-]; discriminate).
  split; [exact (proj1 (toured_walked w) _ _ _ _ TO EX)|].
  split; [exact (proj1 (toured_nodup w) _ _ _ _ TO K)|]. split.
  - intros v IV. apply visits_in in IV. destruct IV as (e & IE & _ & EV). split.
    + destruct (proj1 (toured_where w) _ _ _ _ TO K e IE) as (_ & RG). destruct (RG v EV) as (a & [= <-] & RR). exact RR.
    + exact (proj1 (toured_exist w) _ _ _ _ TO EX e v IE EV).
  - exact (proj1 (toured_lists w) _ _ _ _ TO K).
Qed.

(** Writing down the calls changes nothing else. *)
Definition erase {U} (st : state (U * list event)) : state U :=
  mkState (st_heap st) (st_index st) (st_step st) (fst (st_user st)).

Lemma edits_erase {U} p f b es : forall st : state (U * list event),
  run_edits p f b es (erase st) = option_map erase (run_edits p f b es st).
Proof.
  induction es as [|e es IH]; intros st; [reflexivity|]. cbn [run_edits].
  assert (E : run_edit p f b e (erase st) = option_map erase (run_edit p f b e st)).
  { unfold run_edit. cbn [erase st_heap st_index st_step st_user].
    destruct e, b, (get_field (st_heap st) p f) as [[|]|]; try reflexivity; destruct (_ && _); reflexivity. }
  rewrite E. destruct (run_edit p f b e st); [apply IH|reflexivity].
Qed.

Lemma callback_erase {U} is_pre (g : option (callback U)) p f b x st :
  run_callback g p f b x (erase st) =
  (erase (fst (run_callback (logging is_pre g) p f b x st)), snd (run_callback (logging is_pre g) p f b x st)).
Proof.
  unfold run_callback, logging. cbn [erase st_user st_heap st_index st_step].
  destruct g as [g|]; cbn [total].
  - destruct (g _ _ _) as [[u es] ans] eqn:E.
    match goal with |- context [mkState (st_heap st) (st_index st) (st_step st) (u, ?l)] => generalize l as lg end.
    intros lg. pose proof (edits_erase p f b es (mkState (st_heap st) (st_index st) (st_step st) (u, lg))) as EE.
    unfold erase in EE at 1. cbn [st_heap st_index st_step st_user fst] in EE |- *. rewrite EE.
    destruct (run_edits p f b es (mkState (st_heap st) (st_index st) (st_step st) (u, lg))); reflexivity.
  - reflexivity.
Qed.

Section Erase.
  Context {U : Type}.
  Variable pre post : option (callback U).
  Notation goL := (apply (logging true pre) (logging false post)).
  Notation goP := (apply pre post).
  Definition erased (r : state (U * list event) * aend) : state U * aend := (erase (fst r), snd r).

  Lemma apply_erase n : forall p f b x st, goP n p f b x (erase st) = erased (goL n p f b x st).
  Proof.
    induction n as [|m IH]; intros p f b x st; [reflexivity|].
    assert (LOOP : forall k a g s, apply_loop (goP m) k a g (erase s) = erased (apply_loop (goL m) k a g s)).
    { induction k as [|k IHk]; intros a g s; [reflexivity|]. cbn [apply_loop]. cbn [erase st_heap st_index st_user].
      destruct (get_field (st_heap s) a g) as [[|l]|]; try reflexivity.
      destruct (_ >=? _); [reflexivity|]. destruct (_ <? 0); [reflexivity|].
      pose proof (IH a g true (nth_error l (Z.to_nat (st_index s))) (mkState (st_heap s) (st_index s) 1 (st_user s))) as E.
      unfold erase in E at 1. cbn [st_heap st_index st_step st_user] in E. rewrite E.
      destruct (goL m a g true _ _) as [s1 []]; try reflexivity. cbn [erased fst snd].
      rewrite <- IHk. reflexivity. }
    assert (STEP : forall a s t, apply_step (goP m) m a (erase s) t = erased (apply_step (goL m) m a s t)).
    { intros a s [c g|c g|c g|g]; cbn [apply_step]; cbn [erase st_heap].
      - destruct (get_field (st_heap s) a g) as [[|l]|]; try reflexivity. apply IH.
      - destruct (get_field (st_heap s) a g) as [[[o|]|l]|]; try reflexivity. apply IH.
      - destruct (c_all _); [reflexivity|]. destruct (get_field (st_heap s) a g) as [[|l]|]; try reflexivity. apply IH.
      - unfold apply_list.
        pose proof (LOOP m a g (mkState (st_heap s) 0 (st_step s) (st_user s))) as E.
        unfold erase in E at 1. cbn [erase st_heap st_index st_step st_user] in E |- *. rewrite E.
        destruct (apply_loop (goL m) m a g _) as [s1 []]; reflexivity. }
    assert (STEPS : forall a l s, apply_steps (goP m) m a l (erase s) = erased (apply_steps (goL m) m a l s)).
    { intros a l. induction l as [|t l IHl]; intros s; [reflexivity|]. cbn [apply_steps]. rewrite STEP.
      destruct (apply_step (goL m) m a s t) as [s1 []]; try reflexivity. apply IHl. }
    cbn [apply]. rewrite (callback_erase true).
    destruct (run_callback (logging true pre) p f b x st) as [st1 [[|]|]]; cbn [fst snd]; try reflexivity.
    destruct x as [a|]; [|reflexivity]. cbn [erase st_heap].
    destruct (lookup _ _) as [steps|]; [|reflexivity]. rewrite STEPS.
    destruct (apply_steps (goL m) m a steps st1) as [st2 []]; cbn [erased fst snd]; try reflexivity.
    rewrite (callback_erase false).
    destruct (run_callback (logging false post) p f b (Some a) st2) as [st3 [[|]|]]; reflexivity.
  Qed.

  Theorem Apply_logged n wr root h u :
    Apply pre post n wr root h u = erased (Apply (logging true pre) (logging false post) n wr root h (u, [])).
  Proof. unfold Apply. rewrite <- apply_erase. reflexivity. Qed.
End Erase.

(* ------------------------------------------------------------------ *)
(** ** Callbacks that do not edit *)

Definition never_edits {U} (g : option (callback U)) : Prop :=
  forall f s h c, g = Some f -> snd (fst (f s h c)) = [].

Section Unedited.
  Context {U : Type}.
  Variable pre post : option (callback U).
  Hypothesis Npre : never_edits pre.
  Hypothesis Npost : never_edits post.

  Lemma callback_same g p f b x (st : state U) : never_edits g -> st_heap (fst (run_callback g p f b x st)) = st_heap st /\
    st_index (fst (run_callback g p f b x st)) = st_index st /\ st_step (fst (run_callback g p f b x st)) = st_step st /\
    snd (run_callback g p f b x st) <> None.
  Proof.
    intros N. unfold run_callback. destruct g as [g|]; [|repeat split; discriminate].
    specialize (N g (st_user st) (st_heap st) (mkCursor p f (if b then Some (st_index st) else None) x) eq_refl).
    destruct (g _ _ _) as [[u es] ans]. cbn in N. subst es. cbn. repeat split; discriminate.
  Qed.

  Lemma apply_same n : forall p f b x st, st_heap (fst (apply pre post n p f b x st)) = st_heap st.
  Proof.
    induction n as [|m IH]; intros p f b x st; [reflexivity|].
    assert (LOOP : forall k a g s, st_heap (fst (apply_loop (apply pre post m) k a g s)) = st_heap s).
    { induction k as [|k IHk]; intros a g s; [reflexivity|]. cbn [apply_loop].
      destruct (get_field (st_heap s) a g) as [[|l]|]; try reflexivity.
      destruct (_ >=? _); [reflexivity|]. destruct (_ <? 0); [reflexivity|].
      match goal with |- context [apply pre post m a g true ?x ?s] => pose proof (IH a g true x s) as E;
        destruct (apply pre post m a g true x s) as [s1 []] end; try exact E. rewrite IHk. exact E. }
    assert (STEP : forall a s t, st_heap (fst (apply_step (apply pre post m) m a s t)) = st_heap s).
    { intros a s [c g|c g|c g|g]; cbn [apply_step].
      - destruct (get_field (st_heap s) a g) as [[|l]|]; try reflexivity. apply IH.
      - destruct (get_field (st_heap s) a g) as [[[o|]|l]|]; try reflexivity. apply IH.
      - destruct (c_all _); [reflexivity|]. destruct (get_field (st_heap s) a g) as [[|l]|]; try reflexivity. apply IH.
      - unfold apply_list. pose proof (LOOP m a g (mkState (st_heap s) 0 (st_step s) (st_user s))) as E.
        destruct (apply_loop _ m a g _) as [s1 []]; exact E. }
    assert (STEPS : forall a l s, st_heap (fst (apply_steps (apply pre post m) m a l s)) = st_heap s).
    { intros a l. induction l as [|t l IHl]; intros s; [reflexivity|]. cbn [apply_steps]. pose proof (STEP a s t) as E.
      destruct (apply_step _ m a s t) as [s1 []]; try exact E. rewrite IHl. exact E. }
    cbn [apply]. pose proof (callback_same pre p f b x st Npre) as (E & _).
    destruct (run_callback pre p f b x st) as [st1 [[|]|]]; try exact E.
    destruct x as [a|]; [|exact E]. destruct (lookup _ _) as [steps|]; [|exact E]. pose proof (STEPS a steps st1) as E2.
    destruct (apply_steps _ m a steps st1) as [st2 []]; cbn [fst] in *; try congruence.
    pose proof (callback_same post p f b (Some a) st2 Npost) as (E3 & _).
    destruct (run_callback post p f b (Some a) st2) as [st3 [[|]|]]; cbn [fst] in *; congruence.
  Qed.

  Theorem Apply_same n wr root h u : st_heap (fst (Apply pre post n wr root h u)) = h.
  Proof. apply apply_same. Qed.
End Unedited.

(** Apply as Walk. *)
Section LikeWalk.
  Context {U : Type}.
  Variable visit : U -> option any -> U * bool.
  Variable w : list any.
  Let go := apply (Some (pre_of w visit)) (Some (post_of visit)).

  Definition same_end (e : aend) (e' : wend) : Prop :=
    match e, e' with ADone, WDone | APanic, WPanic => True | _, _ => False end.
  Definition agrees (st : state U) (r : state U * aend) (r' : U * wend) : Prop :=
    st_heap (fst r) = st_heap st /\ st_user (fst r) = fst r' /\ same_end (snd r) (snd r') /\
    (snd r = ADone -> st_index (fst r) = st_index st /\ st_step (fst r) = st_step st).

  Lemma seq_nodes_app g l1 l2 (s : U) :
    seq_nodes g (l1 ++ l2) s = match seq_nodes g l1 s with (s1, WDone) => seq_nodes g l2 s1 | r => r end.
  Proof.
    revert s. induction l1 as [|x l1 IH]; intros s; [reflexivity|]. cbn. destruct (g x s) as [s1 []]; auto.
  Qed.

  Definition okay (x : option addr) : Prop :=
    forall a, x = Some a -> exists y, node_of w a = Some y /\ walkable y /\ forall z, reach y z -> ~ is_using z.
  Definition smaller (n : nat) (x : option addr) : Prop :=
    forall a y, x = Some a -> node_of w a = Some y -> (Walk.size y < n)%nat.

  Lemma agrees_ends st r r' : agrees st r r' ->
    snd r = ADone /\ snd r' = WDone \/ snd r = APanic /\ snd r' = WPanic.
  Proof. intros (_ & _ & E & _). unfold same_end in E. destruct (snd r), (snd r'); try destruct E; auto. Qed.

  Lemma go_walk n : forall p f b x st, st_heap st = memory w -> (0 < n)%nat -> okay x -> smaller n x ->
    agrees st (go n p f b x st) (walk visit n (dec w x) (st_user st)).
  Proof.
    induction n as [|m IH]; intros p f b x st H Z O SM; [lia|]. clear Z.
    assert (LOOP : forall a y g l, node_of w a = Some y -> get_field (memory w) a g = Some (FMany l) -> forall l2 l1 k s,
      l = l1 ++ l2 -> (List.length l2 < k)%nat -> st_heap s = memory w -> st_index s = zlen l1 ->
      (0 < m)%nat -> (forall b, In b l -> okay (Some b) /\ smaller m (Some b)) ->
      let r := apply_loop (go m) k a g s in let r' := seq_nodes (walk visit m) (map (fun b => dec w (Some b)) l2) (st_user s) in
      st_heap (fst r) = st_heap s /\ st_user (fst r) = fst r' /\ same_end (snd r) (snd r')).
    { intros a y g l N G. induction l2 as [|c l2 IHl]; intros l1 k s El K Hs X M OS; cbn zeta; (destruct k as [|k]; [lia|]);
        cbn [apply_loop]; rewrite Hs, G, El; pose proof (zlen_pos l1).
      - rewrite app_nil_r. destruct (_ >=? _) eqn:E; [|lia]. cbn. auto.
      - rewrite zlen_app, zlen_cons. pose proof (zlen_pos l2).
        destruct (_ >=? _) eqn:E; [lia|]. destruct (_ <? 0) eqn:E2; [lia|]. clear E E2.
        assert (NE : nth_error (l1 ++ c :: l2) (Z.to_nat (st_index s)) = Some c).
        { rewrite X. unfold zlen. rewrite Nat2Z.id, nth_error_app2, Nat.sub_diag by lia. reflexivity. }
        rewrite NE. destruct (OS c) as (OC & SC); [rewrite El; apply in_or_app; right; left; reflexivity|].
        pose proof (IH a g true (Some c) (mkState (memory w) (st_index s) 1 (st_user s)) eq_refl M OC SC) as A.
        cbn [st_user] in A. cbn [map seq_nodes].
        destruct (go m a g true (Some c) _) as [s1 e1], (walk visit m (dec w (Some c)) (st_user s)) as [u1 e1'].
        destruct (agrees_ends _ _ _ A) as [(E1 & E2)|(E1 & E2)]; cbn [fst snd] in E1, E2; subst e1 e1';
          destruct A as (A1 & A2 & A3 & A4); cbn [fst snd st_heap] in A1, A2, A4.
        + destruct (A4 eq_refl) as (A5 & A6). cbn [st_index st_step] in A5, A6.
          specialize (IHl (l1 ++ [c]) k (mkState (st_heap s1) (st_index s1 + st_step s1) (st_step s1) (st_user s1))).
          cbn [st_heap st_index st_user] in IHl. rewrite A2 in IHl. cbn zeta in IHl. cbn [List.length] in K.
          rewrite A2. rewrite A1 in *. apply IHl; auto; try lia.
          * rewrite <- app_assoc. exact El.
          * rewrite zlen_app, zlen_cons. change (zlen (@nil addr)) with 0. lia.
        + cbn [fst snd same_end]. auto. }
    assert (STEPS : forall a y, node_of w a = Some y -> (Walk.size y <= m)%nat -> forall steps s,
      Forall (step_ok y) steps -> st_heap s = memory w -> (forall c x, In (c, x) (stops w a steps) -> okay x) ->
      agrees s (apply_steps (go m) m a steps s)
             (seq_nodes (walk visit m) (map (fun t => dec w (snd t)) (stops w a steps)) (st_user s))).
    { intros a y N Z. assert (M : (0 < m)%nat) by (pose proof (subnodes_length y); lia).
      assert (SK : forall g v c, get_field (memory w) a g = Some v -> In c (held v) -> smaller m (Some c)).
      { intros g v c G I c' y' [= <-] N'. destruct (child_node w a y g v c N G I) as (z & Nz & Iz).
        rewrite Nz in N'. injection N' as <-. pose proof (sub_size _ _ Iz). lia. }
      induction steps as [|t steps IHs]; intros s OK Hs OS.
      { cbn. repeat split. }
      inversion OK as [|? ? OKt OKs]; subst. cbn [stops flat_map]. rewrite map_app, seq_nodes_app. cbn [apply_steps].
      assert (A : agrees s (apply_step (go m) m a s t)
                   (seq_nodes (walk visit m) (map (fun t => dec w (snd t)) (stops_of w a t)) (st_user s))).
      { assert (OST : forall x, In x (nodes_at w a t) -> okay x).
        { intros x1 I. apply (OS (step_name t) x1). cbn [stops flat_map]. apply in_or_app. left. unfold stops_of.
          apply in_map, I. }
        assert (ONE : forall c x, okay x -> smaller m x -> agrees s (go m a c false x s)
                       (seq_nodes (walk visit m) [dec w x] (st_user s))).
        { intros c x1 OX SX. pose proof (IH a c false x1 s Hs M OX SX) as A. cbn [seq_nodes].
          destruct (walk visit m (dec w x1) (st_user s)) as [u1 []]; exact A. }
        assert (NIL : agrees s (s, ADone) (seq_nodes (walk visit m) [] (st_user s))) by (cbn; repeat split).
        unfold stops_of. rewrite map_map. cbn [snd]. revert OST. unfold nodes_at.
        destruct t as [c g|c g|c g|g]; cbn [step_ok step_nodes apply_step] in *; try rewrite Hs.
        - destruct OKt as ((o & LO) & _). pose proof (field_of w a y g N) as P. rewrite LO in P. unfold get_field in P.
          destruct (get_field (memory w) a g) as [v|] eqn:G; unfold get_field in G; rewrite G in P |- *; [|destruct P].
          assert (exists x1, v = FOne x1) as (x1 & ->) by (inversion P; eauto). intros OST. cbn [map]. apply ONE.
          + apply OST. left. reflexivity.
          + intros c0 y' -> N'. exact (SK g _ c0 G (or_introl eq_refl) c0 y' eq_refl N').
        - destruct OKt as ((o & LO) & _). pose proof (field_of w a y g N) as P. rewrite LO in P. unfold get_field in P.
          destruct (get_field (memory w) a g) as [v|] eqn:G; unfold get_field in G; rewrite G in P |- *; [|destruct P].
          assert (exists x1, v = FOne x1) as (x1 & ->) by (inversion P; eauto). destruct x1 as [x1|]; intros OST; [|exact NIL].
          cbn [map]. apply ONE.
          + apply OST. left. reflexivity.
          + intros c0 y' [= <-] N'. exact (SK g _ x1 G (or_introl eq_refl) x1 y' eq_refl N').
        - destruct (c_all (memory w a)); [intros _; exact NIL|].
          destruct OKt as ((o & LO) & _). pose proof (field_of w a y g N) as P. rewrite LO in P. unfold get_field in P.
          destruct (get_field (memory w) a g) as [v|] eqn:G; unfold get_field in G; rewrite G in P |- *; [|destruct P].
          assert (exists x1, v = FOne x1) as (x1 & ->) by (inversion P; eauto). intros OST. cbn [map]. apply ONE.
          + apply OST. left. reflexivity.
          + intros c0 y' -> N'. exact (SK g _ c0 G (or_introl eq_refl) c0 y' eq_refl N').
        - destruct OKt as (l0 & LO). pose proof (field_of w a y g N) as P. rewrite LO in P. unfold get_field in P.
          destruct (get_field (memory w) a g) as [v|] eqn:G; unfold get_field in G; rewrite G in P |- *; [|destruct P].
          assert (exists l, v = FMany l) as (l & ->) by (inversion P; eauto). intros OST.
          assert (LL : (List.length l < m)%nat).
          { inversion P as [| |ys bs F2]; subst. apply Forall2_len in F2. rewrite <- F2.
            pose proof (subnodes_length y). apply lookup_in in LO.
            assert (LE : (List.length l0 <= List.length (subnodes y))%nat); [|lia].
            apply in_split in LO. destruct LO as (A & B & E). unfold subnodes. rewrite E, flat_map_app.
            cbn [flat_map held snd]. rewrite !app_length. lia. }
          unfold apply_list.
          assert (G' : get_field (memory w) a g = Some (FMany l)) by exact G.
          pose proof (LOOP a y g l N G' l [] m (mkState (memory w) 0 (st_step s) (st_user s)) eq_refl LL eq_refl eq_refl M) as R.
          cbn [st_heap st_user] in R. cbn zeta in R. rewrite map_map. specialize (R ltac:(
            intros b0 I; split; [apply OST; change (In (Some b0) (map Some l)); apply in_map, I|exact (SK g _ b0 G' I)])).
          rewrite Hs. destruct (apply_loop (go m) m a g _) as [s1 e1]. destruct R as (R1 & R2 & R3).
          cbn [fst snd] in R1, R2, R3.
          destruct e1; unfold agrees; cbn [fst snd st_heap st_user st_index st_step]; repeat split; try congruence; try exact R3. }
      destruct (apply_step (go m) m a s t) as [s1 e1].
      destruct (seq_nodes (walk visit m) (map _ (stops_of w a t)) (st_user s)) as [u1 e1'].
      destruct (agrees_ends _ _ _ A) as [(E1 & E2)|(E1 & E2)]; cbn [fst snd] in E1, E2; subst e1 e1'; [|exact A].
      destruct A as (A1 & A2 & A3 & A4). cbn [fst snd] in A1, A2, A4. destruct (A4 eq_refl) as (A5 & A6).
      assert (B := IHs s1 OKs ltac:(congruence) (fun c x I => OS c x ltac:(cbn [stops flat_map]; apply in_or_app; right; exact I))).
      rewrite A2 in B. destruct B as (B1 & B2 & B3 & B4). split; [congruence|]. split; [exact B2|]. split; [exact B3|].
      intros E. destruct (B4 E). split; congruence. }
    unfold go at 1. cbn [apply walk]. unfold run_callback at 1. unfold pre_of at 1. cbn [cu_node]. fold (dec w x).
    destruct (visit (st_user st) (dec w x)) as [u1 ans]. cbn [run_edits]. destruct ans.
    2: { cbn. repeat split. }
    destruct x as [a|].
    2: { cbn. repeat split; discriminate. }
    destruct (O a eq_refl) as (y & N & W & NU). cbn [dec]. rewrite N. cbn [st_heap].
    assert (TY : c_type (st_heap st a) = gotype y) by (rewrite H, (memory_cell w a y N); reflexivity). rewrite TY.
    destruct (lookup (gotype y) apply_table) as [steps|] eqn:LT.
    2: { apply table_unknown in LT. destruct LT as [LT|LT]; [destruct (LT W)|destruct (NU y (reach_self y) LT)]. }
    rewrite (kids_order y W).
    assert (Zy : (Walk.size y <= m)%nat) by (specialize (SM a y eq_refl N); lia).
    pose proof (STEPS a y N Zy steps (mkState (st_heap st) (st_index st) (st_step st) u1) (steps_ok y steps LT) H) as A.
    rewrite (stops_order w a y steps N LT) in A. cbn [st_user] in A. fold go.
    assert (OS : forall c x, In (c, x) (stops w a steps) -> okay x).
    { intros c x1 I b1 ->. destruct (stops_valid w a y steps c _ N I) as (_ & EX).
      destruct (node_of w b1) as [z|] eqn:Nb; [|destruct (EX b1 eq_refl Nb)]. exists z. split; [reflexivity|].
      assert (IO : In (Some z) (order y)).
      { rewrite <- (stops_order w a y steps N LT). apply in_map_iff. exists (c, Some b1). split; [exact Nb|exact I]. }
      split; [eapply order_walkable; eauto|]. intros z' R. apply NU. eapply reach_sub; eauto. }
    specialize (A OS). change (apply (Some (pre_of w visit)) (Some (post_of visit)) m) with (go m).
    destruct (apply_steps (go m) m a steps _) as [st2 e2], (seq_nodes (walk visit m) (order y) u1) as [u2 e2'].
    destruct (agrees_ends _ _ _ A) as [(E1 & E2)|(E1 & E2)]; cbn [fst snd] in E1, E2; subst e2 e2'.
    - destruct A as (A1 & A2 & _ & A4). cbn [fst snd st_heap st_index st_step] in A1, A2, A4. destruct (A4 eq_refl).
      unfold run_callback, post_of. cbn [run_edits]. unfold agrees. cbn [fst snd st_heap st_index st_step st_user].
      rewrite A2. repeat split; auto.
    - destruct A as (A1 & A2 & A3 & A4). unfold agrees. cbn [fst snd] in *. repeat split; auto; discriminate.
  Qed.
End LikeWalk.

Theorem Apply_walk {U} (visit : U -> option any -> U * bool) x rest u n : walkable x ->
  (forall z, reach x z -> ~ is_using z) -> (Walk.size x < n)%nat ->
  let w := x :: rest in
  let r := Apply (Some (pre_of w visit)) (Some (post_of visit)) n [] [0%nat] (memory w) u in
  st_user (fst r) = fst (walk visit n (Some x) u) /\
  match snd r, snd (walk visit n (Some x) u) with ADone, WDone | APanic, WPanic => True | _, _ => False end.
Proof.
  intros W NU Z w r.
  destruct (go_walk visit w n [] "Node" false (Some [0%nat]) (mkState (memory w) 0 0 u) eq_refl ltac:(lia)) as (_ & A & B & _).
  - intros a [= <-]. exists x. auto.
  - intros a y [= <-] [= <-]. exact Z.
  - split; [exact A|exact B].
Qed.

(** What callbacks keep of their state, a run keeps. *)
Definition keeps {U} (P : U -> Prop) (g : option (callback U)) : Prop :=
  forall f s h c, g = Some f -> P s -> P (fst (fst (f s h c))).

Section Kept.
  Context {U : Type}.
  Variable pre post : option (callback U).
  Variable P : U -> Prop.
  Hypothesis Kpre : keeps P pre.
  Hypothesis Kpost : keeps P post.

  Lemma edits_keep_user p f b es : forall st st' : state U, run_edits p f b es st = Some st' -> st_user st' = st_user st.
  Proof.
    induction es as [|e es IH]; intros st st' E; cbn [run_edits] in E; [injection E as <-; reflexivity|].
    destruct (run_edit p f b e st) as [s1|] eqn:E1; [|discriminate]. rewrite (IH _ _ E). clear IH E.
    unfold run_edit in E1.
    destruct e, b, (get_field (st_heap st) p f) as [[|]|]; try discriminate; try destruct (_ && _); try discriminate;
      injection E1 as <-; reflexivity.
  Qed.

  Lemma callback_keeps g p f b x (st : state U) : keeps P g -> P (st_user st) -> P (st_user (fst (run_callback g p f b x st))).
  Proof.
    intros K H. unfold run_callback. destruct g as [g|]; [|exact H].
    specialize (K g (st_user st) (st_heap st) (mkCursor p f (if b then Some (st_index st) else None) x) eq_refl H).
    destruct (g _ _ _) as [[u es] ans]. cbn [fst] in K.
    destruct (run_edits p f b es _) as [s1|] eqn:E; [|exact K]. apply edits_keep_user in E. cbn [fst]. rewrite E. exact K.
  Qed.

  Lemma apply_keeps n : forall p f b x st, P (st_user st) -> P (st_user (fst (apply pre post n p f b x st))).
  Proof.
    induction n as [|m IH]; intros p f b x st H; [exact H|].
    assert (LOOP : forall k a g s, P (st_user s) -> P (st_user (fst (apply_loop (apply pre post m) k a g s)))).
    { induction k as [|k IHk]; intros a g s Hs; [exact Hs|]. cbn [apply_loop].
      destruct (get_field (st_heap s) a g) as [[|l]|]; try exact Hs.
      destruct (_ >=? _); [exact Hs|]. destruct (_ <? 0); [exact Hs|].
      match goal with |- context [apply pre post m a g true ?x ?s] => pose proof (IH a g true x s Hs) as E;
        destruct (apply pre post m a g true x s) as [s1 []] end; try exact E. apply IHk. exact E. }
    assert (STEP : forall a s t, P (st_user s) -> P (st_user (fst (apply_step (apply pre post m) m a s t)))).
    { intros a s [c g|c g|c g|g] Hs; cbn [apply_step].
      - destruct (get_field (st_heap s) a g) as [[|l]|]; try exact Hs. apply IH, Hs.
      - destruct (get_field (st_heap s) a g) as [[[o|]|l]|]; try exact Hs. apply IH, Hs.
      - destruct (c_all _); [exact Hs|]. destruct (get_field (st_heap s) a g) as [[|l]|]; try exact Hs. apply IH, Hs.
      - unfold apply_list. pose proof (LOOP m a g (mkState (st_heap s) 0 (st_step s) (st_user s)) Hs) as E.
        destruct (apply_loop _ m a g _) as [s1 []]; exact E. }
    assert (STEPS : forall a l s, P (st_user s) -> P (st_user (fst (apply_steps (apply pre post m) m a l s)))).
    { intros a l. induction l as [|t l IHl]; intros s Hs; [exact Hs|]. cbn [apply_steps]. pose proof (STEP a s t Hs) as E.
      destruct (apply_step _ m a s t) as [s1 []]; try exact E. apply IHl, E. }
    cbn [apply]. pose proof (callback_keeps pre p f b x st Kpre H) as E.
    destruct (run_callback pre p f b x st) as [st1 [[|]|]]; try exact E.
    destruct x as [a|]; [|exact E]. destruct (lookup _ _) as [steps|]; [|exact E]. pose proof (STEPS a steps st1 E) as E2.
    destruct (apply_steps _ m a steps st1) as [st2 []]; try exact E2.
    pose proof (callback_keeps post p f b (Some a) st2 Kpost E2) as E3.
    destruct (run_callback post p f b (Some a) st2) as [st3 [[|]|]]; exact E3.
  Qed.
End Kept.

(** Callbacks that do not edit leave an orderly log. *)
Definition always {U} (g : option (callback U)) : Prop := forall f s h c, g = Some f -> snd (f s h c) = true.

Lemma logging_keeps {U} b (g : option (callback U)) (Q : list edit -> bool -> Prop) :
  (forall s h c, Q (snd (fst (total g s h c))) (snd (total g s h c))) ->
  keeps (fun s => Forall (fun e => Q (e_edits e) (e_answer e)) (snd s)) (logging b g).
Proof.
  intros H f [u lg] h c [= <-] F. specialize (H u h c). cbn [fst snd] in *.
  destruct (total g u h c) as [[u' es] ans]. cbn [fst snd] in *. apply Forall_app. split; [exact F|]. repeat constructor. exact H.
Qed.

Lemma unedited_orderly log : Forall (fun e => e_edits e = []) log -> orderly_log log.
Proof.
  intros F e _ _. assert (E : forall p f x, edits_at log p f x = []); [|rewrite E; exact I].
  intros p f x. unfold edits_at. induction F as [|e' l E F IH]; [reflexivity|]. cbn [filter].
  destruct (at_slot p f x e'); [cbn [flat_map]; rewrite E|]; exact IH.
Qed.

Lemma walked_reach x l : walked (Some x) l -> (forall y b, In (Some y, b) l -> b = true) ->
  forall z, reach x z -> In (Some z, true) l.
Proof.
  intros W A z R. revert l W A. induction R as [x|x y z I R IH]; intros l W A.
  - inversion W; subst; [|left; reflexivity]. specialize (A x false (or_introl eq_refl)). discriminate A.
  - inversion W as [|x' E1 E2|x' l' b WK WA E1 E2]; subst.
    { specialize (A x false (or_introl eq_refl)). discriminate A. }
    right. apply in_or_app. left.
    assert (A' : forall y b, In (Some y, b) l' -> b = true).
    { intros y' b' J. apply (A y' b'). right. apply in_or_app. left. exact J. }
    clear - I IH WA A'. induction WA as [|x1 xs l ls W1 WA IHA]; [destruct I|]. apply in_or_app. destruct I as [->|I].
    + left. apply IH; [exact W1|]. intros y' b' J. apply (A' y' b'). apply in_or_app. left. exact J.
    + right. apply IHA; [exact I|]. intros y' b' J. apply (A' y' b'). apply in_or_app. right. exact J.
Qed.

Theorem Apply_using {U} (pre post : option (callback U)) x rest z u n :
  never_edits pre -> never_edits post -> always pre -> always post -> reach x z -> is_using z ->
  (Walk.size x < n)%nat ->
  snd (Apply pre post n [] [0%nat] (memory (x :: rest)) u) = APanic.
Proof.
  intros N1 N2 A1 A2 R UZ Z. rewrite Apply_logged. unfold erased. cbn [snd].
  pose proof (Apply_log pre post x rest u n Z) as H. cbn zeta in H.
  assert (F : Forall (fun e => e_edits e = [] /\ e_answer e = true)
                (snd (st_user (fst (Apply (logging true pre) (logging false post) n [] [0%nat] (memory (x :: rest)) (u, [])))))).
  { unfold Apply. apply (apply_keeps (logging true pre) (logging false post)
      (fun s => Forall (fun e => e_edits e = [] /\ e_answer e = true) (snd s))); [| |constructor].
    - apply (logging_keeps true pre (fun es b => es = [] /\ b = true)). intros s h c. destruct pre as [g|]; [|split; reflexivity].
      split; [apply (N1 g s h c eq_refl)|apply (A1 g s h c eq_refl)].
    - apply (logging_keeps false post (fun es b => es = [] /\ b = true)). intros s h c. destruct post as [g|]; [|split; reflexivity].
      split; [apply (N2 g s h c eq_refl)|apply (A2 g s h c eq_refl)]. }
  revert H F. generalize (Apply (logging true pre) (logging false post) n [] [0%nat] (memory (x :: rest)) (u, [])).
  intros [st e] H F. cbn [fst snd] in *. set (log := snd (st_user st)) in *. clearbody log.
  specialize (H (unedited_orderly log (Forall_impl _ (fun e E => proj1 E) F))). destruct H as (_ & H).
  rewrite Forall_forall in F. destruct e; [| |reflexivity|destruct H].
  - destruct H as ((_ & C) & W & _). exfalso. rewrite Forall_forall in C.
    assert (I : In (Some z, true) (map (as_call (x :: rest)) log)).
    { eapply walked_reach; eauto. intros y b I. apply in_map_iff in I. destruct I as (e & E & I). unfold as_call in E.
      injection E as _ <-. apply F, I. }
    apply in_map_iff in I. destruct I as (e & E & I). unfold as_call in E. injection E as E1 E2.
    apply (C e I). left. destruct (e_pre e); [|discriminate]. split; [reflexivity|]. split; [exact E2|].
    unfold bad_node. destruct (e_node e) as [a|]; [|exact Logic.I]. exists z. auto.
  - destruct H as (_ & log' & e & -> & _ & E). exfalso. destruct (F e) as (_ & F'); [apply in_or_app; right; left; reflexivity|].
    congruence.
Qed.

(** A run that is not logged, in terms of the logged one. *)
Theorem Apply_edits {U} (pre post : option (callback U)) x rest u n : (Walk.size x < n)%nat ->
  let w := x :: rest in
  exists st log e,
    Apply pre post n [] [0%nat] (memory w) u = (st, e) /\
    (exists st', Apply (logging true pre) (logging false post) n [] [0%nat] (memory w) (u, []) = (st', e) /\
       st_user st' = (st_user st, log) /\ st_heap st' = st_heap st) /\
    (orderly_log log ->
     Forall (fun e => e_pre e = true -> truthful e) log /\
     match e with
     | ADone =>
         edited_memory (memory w) log (st_heap st) /\ Forall (fun e => ~ culprit w e) log /\
         walked (Some x) (map (as_call w) log) /\ NoDup (visits log) /\
         (forall v, In v (visits log) -> (exists q, v = q ++ [0%nat]) /\ node_of w v <> None) /\
         (forall e a y g bs, In e log -> e_pre e = true -> e_answer e = true -> e_node e = Some a -> node_of w a = Some y ->
            get_field (memory w) a g = Some (FMany bs) -> ~ In (gotype y, g) unlisted -> visits_of a g log = map Some bs)
     | AAbort =>
         edited_memory (memory w) log (st_heap st) /\ Forall (fun e => ~ culprit w e) log /\
         exists log' e, log = log' ++ [e] /\ e_pre e = false /\ e_answer e = false
     | APanic => Exists (culprit w) log
     | AFuel => False
     end).
Proof.
  intros Z w. pose proof (Apply_log pre post x rest u n Z) as H. cbn zeta in H.
  pose proof (Apply_logged pre post n [] [0%nat] (memory w) u) as E. fold w in H.
  destruct (Apply (logging true pre) (logging false post) n [] [0%nat] (memory w) (u, [])) as [st' e].
  exists (erase st'), (snd (st_user st')), e. cbn [fst snd] in *. split; [exact E|]. split.
  - exists st'. split; [reflexivity|]. split; [apply surjective_pairing|reflexivity].
  - intros O. destruct (H O) as (T & R). split; [exact T|]. cbn [erase st_heap].
    destruct e; try exact R; destruct R as ((R1 & R2) & R3); auto.
Qed.

(** What Apply returns. *)
Theorem Apply_result {U} (pre post : option (callback U)) x rest u n : (Walk.size x < n)%nat ->
  let w := x :: rest in
  exists st log e,
    Apply pre post n [] [0%nat] (memory w) u = (st, e) /\
    (exists st', Apply (logging true pre) (logging false post) n [] [0%nat] (memory w) (u, []) = (st', e) /\
       snd (st_user st') = log) /\
    (orderly_log log -> e = ADone \/ e = AAbort ->
     result_node [] st = replaced (edits_at log [] "Node" (Some [0%nat])) (Some [0%nat])).
Proof.
  intros Z w. destruct (Apply_edits pre post x rest u n Z) as (st & log & e & E & (st' & E1 & E2 & E3) & H).
  exists st, log, e. split; [exact E|]. split; [exists st'; split; [exact E1|rewrite E2; reflexivity]|].
  intros O D. destruct (H O) as (_ & H'). clear H.
  assert (M : edited_memory (memory w) log (st_heap st)).
  { destruct D as [-> | ->]; apply H'. }
  destruct (M []) as (_ & _ & M'). specialize (M' "Node"). unfold result_node. rewrite M'. reflexivity.
Qed.
