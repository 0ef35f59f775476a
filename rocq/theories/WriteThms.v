(** WriteTo against an arbitrary io.Writer. *)
From Coq Require Import ZArith List Bool Lia.
From Verif Require Import Base Printer WriteSpec.
Import ListNotations.
Open Scope Z_scope.

Lemma utf8_len r : zlen (utf8 r) = rune_len r.
Proof. unfold utf8, rune_len. repeat (destruct (_ <? _)); reflexivity. Qed.

Lemma bytes_len s : zlen (bytes s) = glen s.
Proof.
  induction s as [|r s IH]; [reflexivity|].
  cbn [bytes flat_map glen]. fold (bytes s).
  unfold zlen in *. rewrite app_length, Nat2Z.inj_add, IH.
  pose proof (utf8_len r) as H. unfold zlen in H. lia.
Qed.

Lemma bytes_app a b : bytes (a ++ b) = bytes a ++ bytes b.
Proof. apply flat_map_app. Qed.

(** Nested induction on write trees. *)
Section Ind.
  Variable P : wnode -> Prop.
  Definition on_op (o : wop) : Prop := match o with WB _ => True | WN x => P x end.
  Variable Hsw : forall ops, Forall on_op ops -> P (WSw ops).
  Variable Hsg : forall b, P (WSingle b).
  Variable Hsq : forall l, P (WSeq l).
  Variable Hno : P WNone.
  Fixpoint wnode_ind' (x : wnode) : P x :=
    match x with
    | WSw ops =>
        Hsw ops (list_ind (Forall on_op) (Forall_nil _)
                   (fun o l h => Forall_cons o (wop_ind' o) h) ops)
    | WSingle b => Hsg b
    | WSeq l => Hsq l
    | WNone => Hno
    end
  with wop_ind' (o : wop) : on_op o :=
    match o with WB _ => I | WN x => wnode_ind' x end.
End Ind.

(** The text of a tree of writes. *)
Fixpoint text_of (x : wnode) : gostring :=
  match x with
  | WSw ops => flat_map (fun o => match o with WB b => b | WN y => text_of y end) ops
  | WSingle b => b
  | WSeq l => List.concat l
  | WNone => []
  end.
Definition op_text (o : wop) : gostring := match o with WB b => b | WN y => text_of y end.

Lemma builder_seq l : forall w n, write_seq builder_write l w n = (w ++ List.concat l, n + glen (List.concat l), None).
Proof.
  induction l as [|b l IH]; intros w n; cbn [write_seq builder_write List.concat].
  - rewrite app_nil_r. cbn. f_equal. f_equal. lia.
  - rewrite IH, app_assoc. f_equal. f_equal.
    rewrite <- !bytes_len, bytes_app. unfold zlen. rewrite app_length. lia.
Qed.

Lemma glen_app a b : glen (a ++ b) = glen a + glen b.
Proof. rewrite <- !bytes_len, bytes_app. unfold zlen. rewrite app_length. lia. Qed.

Lemma builder_text x : forall w, write_node builder_write x w = (w ++ text_of x, glen (text_of x), None).
Proof.
  induction x as [ops IH|b|l|] using wnode_ind'; intros w; cbn [write_node text_of].
  - assert (G : forall n w, write_ops_with builder_write (write_node builder_write) ops w n None
        = (w ++ flat_map op_text ops, n + glen (flat_map op_text ops), None)).
    { clear w. induction IH as [|o ops Ho Hops IHo]; intros n w; cbn [write_ops_with flat_map].
      - rewrite app_nil_r. f_equal. f_equal. cbn. lia.
      - destruct o as [b|y]; cbn [builder_write op_text] in *.
        + rewrite IHo, app_assoc, glen_app. f_equal. f_equal. lia.
        + rewrite Ho, IHo, app_assoc, glen_app. f_equal. f_equal. lia. }
    rewrite G. f_equal.
  - reflexivity.
  - rewrite builder_seq. reflexivity.
  - rewrite app_nil_r. reflexivity.
Qed.

Lemma builder_string_text x : builder_string x = text_of x.
Proof. unfold builder_string. rewrite builder_text. reflexivity. Qed.

Section Logged.
  Context {W E : Type} (write : W -> gostring -> W * Z * option E) (Hw : obeys write).

  (** What one execution of [text] may do to a log. *)
  Definition does (s : W * list (wcall E)) (t : gostring)
    (r : (W * list (wcall E)) * Z * option E) : Prop :=
    let '(s', n, e) := r in
    exists log, snd s' = snd s ++ log /\ n = zlen (accepted log) /\ stops_at log e /\
      prefix (accepted log) (bytes t) /\ (e = None -> accepted log = bytes t).

  Lemma accepted_app (a b : list (wcall E)) : accepted (a ++ b) = accepted a ++ accepted b.
  Proof. apply flat_map_app. Qed.

  Lemma does_write s b : does s b (logged write s b).
  Proof.
    destruct s as [w log]. unfold does, logged; cbn [fst snd].
    pose proof (Hw w b) as H. destruct (write w b) as [[w' n] e]. destruct H as [Hn He].
    exists [mkCall (bytes b) n e]. cbn [snd accepted flat_map taken offered]. rewrite app_nil_r.
    unfold zlen in *.
    split; [reflexivity|]. split; [|split; [|split]].
    - rewrite firstn_length. lia.
    - destruct e; cbn.
      + exists [], (mkCall (bytes b) n (Some e)). split; [reflexivity|split; [reflexivity|intros ? []]].
      + intros c [<-|[]]. reflexivity.
    - exists (skipn (Z.to_nat n) (bytes b)). symmetry; apply firstn_skipn.
    - intros ->. apply firstn_all2. destruct (Z.lt_ge_cases n (Z.of_nat (length (bytes b)))); [|lia].
      exfalso. apply He; auto.
  Qed.

  Lemma does_nil s : does s [] (s, 0, None).
  Proof.
    exists []. rewrite app_nil_r. repeat split; [intros ? []|exists []; reflexivity].
  Qed.

  Lemma does_stop s t u r n x : does s t (r, n, Some x) -> does s (t ++ u) (r, n, Some x).
  Proof.
    intros (log & H1 & H2 & H3 & [c H4] & H5). exists log. repeat (split; [assumption|]).
    split; [|discriminate]. exists (c ++ bytes u). rewrite bytes_app, H4, app_assoc. reflexivity.
  Qed.

  Lemma does_app s t u s' n s'' k e :
    does s t (s', n, None) -> does s' u (s'', k, e) -> does s (t ++ u) (s'', n + k, e).
  Proof.
    intros (log & H1 & H2 & H3 & H4 & H5) (log' & G1 & G2 & G3 & [c G4] & G5).
    exists (log ++ log'). rewrite accepted_app, bytes_app, (H5 eq_refl).
    split; [rewrite G1, H1, app_assoc; reflexivity|].
    split; [rewrite H2, G2, (H5 eq_refl); unfold zlen; rewrite app_length; lia|].
    split; [|split].
    - destruct e; cbn in *.
      + destruct G3 as (l & c0 & -> & F & G). exists (log ++ l), c0.
        split; [apply app_assoc|]. split; [exact F|]. intros c' I. apply in_app_or in I. destruct I; auto.
      + intros c' I. apply in_app_or in I. destruct I; auto.
    - exists c. rewrite G4, app_assoc. reflexivity.
    - intros ->. rewrite (G5 eq_refl). reflexivity.
  Qed.

  Lemma does_seq l : forall s0 s t n, does s0 t (s, n, None) ->
    does s0 (t ++ List.concat l) (write_seq (logged write) l s n).
  Proof.
    induction l as [|b l IH]; intros s0 s t n H; cbn [write_seq List.concat].
    - rewrite app_nil_r. exact H.
    - pose proof (does_write s b) as G. destruct (logged write s b) as [[s' k] [x|]].
      + rewrite app_assoc. apply does_stop. eapply does_app; eauto.
      + rewrite app_assoc. apply IH. eapply does_app; eauto.
  Qed.

  Lemma does_node x : forall s, does s (text_of x) (write_node (logged write) x s).
  Proof.
    induction x as [ops IH|b|l|] using wnode_ind'; intros s; cbn [write_node text_of].
    - assert (G : forall s0 t n e s, does s0 t (s, n, e) ->
          does s0 (t ++ flat_map op_text ops)
               (write_ops_with (logged write) (write_node (logged write)) ops s n e)).
      { clear s. induction IH as [|o ops Ho Hops IHo]; intros s0 t n e s H; cbn [write_ops_with flat_map].
        - rewrite app_nil_r. exact H.
        - rewrite app_assoc. destruct e as [x|].
          + apply IHo. apply does_stop. exact H.
          + destruct o as [b|y]; cbn [op_text].
            * pose proof (does_write s b) as G. destruct (logged write s b) as [[s' k] e'].
              apply IHo. eapply does_app; eauto.
            * pose proof (Ho s) as G. destruct (write_node (logged write) y s) as [[s' k] e'].
              apply IHo. eapply does_app; eauto. }
      apply (G s [] 0 None s). apply does_nil.
    - apply does_write.
    - apply (does_seq l s s [] 0). apply does_nil.
    - apply does_nil.
  Qed.

  (** Logging does not change what is done. *)
  Definition same (r : (W * list (wcall E)) * Z * option E) (q : W * Z * option E) : Prop :=
    let '(s, n, e) := r in q = (fst s, n, e).

  Lemma logged_write s b : same (logged write s b) (write (fst s) b).
  Proof. unfold logged. destruct (write (fst s) b) as [[w n] e]. reflexivity. Qed.

  Lemma logged_same x : forall s, same (write_node (logged write) x s) (write_node write x (fst s)).
  Proof.
    induction x as [ops IH|b|l|] using wnode_ind'; intros s; cbn [write_node].
    - generalize 0 at 1 2. generalize (@None E) at 1 2. revert s.
      induction IH as [|o ops Ho Hops IHo]; intros s e n; cbn [write_ops_with]; [reflexivity|].
      destruct e; [apply IHo|]. destruct o as [b|y].
      + pose proof (logged_write s b) as G. destruct (logged write s b) as [[s' k] e'].
        cbn [same] in G. rewrite G. apply IHo.
      + pose proof (Ho s) as G. destruct (write_node (logged write) y s) as [[s' k] e'].
        cbn [same] in G. rewrite G. apply IHo.
    - apply logged_write.
    - generalize 0. revert s. induction l as [|b l IH]; intros s n; cbn [write_seq]; [reflexivity|].
      pose proof (logged_write s b) as G. destruct (logged write s b) as [[s' k] e'].
      cbn [same] in G. rewrite G. destruct e'; [reflexivity|apply IH].
    - reflexivity.
  Qed.
End Logged.

(** Everything C36 says about one call of WriteTo. *)
Lemma write_to {W E} (write : W -> gostring -> W * Z * option E) (Hw : obeys write) x w :
  exists log w' n e,
    write_node (logged write) x (w, []) = ((w', log), n, e) /\
    write_node write x w = (w', n, e) /\
    n = zlen (accepted log) /\ stops_at log e /\
    prefix (accepted log) (bytes (builder_string x)) /\
    (e = None -> accepted log = bytes (builder_string x)).
Proof.
  pose proof (does_node write Hw x (w, [])) as H. pose proof (logged_same write x (w, [])) as G.
  destruct (write_node (logged write) x (w, [])) as [[[w' log] n] e].
  destruct H as (log' & H1 & H2 & H3 & H4 & H5). cbn [snd app fst same] in *. subst log'.
  exists log, w', n, e. rewrite builder_string_text. repeat split; auto.
Qed.
