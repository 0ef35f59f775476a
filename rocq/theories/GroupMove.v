(** Consequences for C69. *)
From Coq Require Import ZArith List Bool Lia ZifyBool.
From Verif Require Import Base Dialect Token Lexer LexSpec LexFacts LexThms AST Num Prog Parser Erase ParseSpec Sim SrcThms ApiThms SqlThms CommentSpec CommentThms MoveSpec MoveThms GroupSpec GroupThms.
Import ListNotations.
Open Scope Z_scope.

(** The whole file. *)
Lemma file_exact d src : dialect_ok d ->
  parse_file d src = res_map (fun ss => mkFile ss (groups_of (tokens_of d src))) (parse_source d src).
Proof.
  intros D. rewrite <- (parse_file_source d src D). unfold tokens_of.
  destruct (tokenize d true src) as [toks| | |] eqn:E; [|unfold parse_file; rewrite E; reflexivity..].
  destruct (parse_file d src) as [f| | |] eqn:F; try reflexivity. cbn [res_map].
  rewrite <- (file_groups d src toks f D E F). destruct f; reflexivity.
Qed.

(** A complete beginning. *)
Lemma gather_done g t : exists u, close (gather g t) = g_done g ++ u /\ exists v, g_done (gather g t) = g_done g ++ v.
Proof.
  assert (C : exists u, close g = g_done g ++ u).
  { unfold close. destruct (g_open g); [exists []; now rewrite app_nil_r|eexists; reflexivity]. }
  destruct C as [u C].
  unfold gather. destruct (tkind t).
  all: try (exists u; rewrite <- C; split; [reflexivity|exists u; rewrite <- C; reflexivity]).
  - destruct (line_break t && _); [exists u; rewrite <- C; split; [reflexivity|exists u; rewrite <- C; reflexivity]|].
    exists u. split; [exact C|exists []; now rewrite app_nil_r].
  - unfold close. cbn [g_open g_done]. destruct (g_open g ++ [comment_of t]); [exists []; rewrite app_nil_r; split; [reflexivity|exists []; now rewrite app_nil_r]|].
    eexists. split; [reflexivity|exists []; now rewrite app_nil_r].
Qed.
Lemma fold_done l : forall g, exists u, close (fold_left gather l g) = g_done g ++ u.
Proof.
  induction l as [|t l IH]; intros g; cbn [fold_left].
  - unfold close. destruct (g_open g); [exists []; now rewrite app_nil_r|eexists; reflexivity].
  - destruct (gather_done g t) as (_ & _ & v & V). destruct (IH (gather g t)) as [u U]. exists (v ++ u). rewrite U, V, app_assoc. reflexivity.
Qed.
Lemma groups_prefix p r : g_open (gathered p) = [] -> exists u, groups_of (p ++ r) = groups_of p ++ u.
Proof.
  intros O. unfold groups_of. rewrite fold_left_app. destruct (fold_done r (gathered p)) as [u U]. exists u.
  change (fold_left gather p (mkG [] [] None)) with (gathered p). rewrite U. f_equal. unfold close. now rewrite O.
Qed.

(** Code ends a group. *)
Lemma groups_code a t r : signif t = true -> exists u, groups_of (a ++ t :: r) = groups_of a ++ u.
Proof.
  intros S. assert (O : g_open (gathered (a ++ [t])) = []) by (rewrite gathered_app, gather_signif by exact S; reflexivity).
  destruct (groups_prefix (a ++ [t]) r O) as [u U]. exists u. rewrite <- app_assoc in U. cbn [app] in U. rewrite U. f_equal.
  rewrite !groups_eq, gathered_app, gather_signif by exact S. reflexivity.
Qed.
(** And so does the end of a line with code. *)
Lemma groups_eol a t m w r : signif t = true -> sig m = [] -> line_break w = true -> pline (tfrom w) = pline (tto t) ->
  exists u, groups_of (a ++ t :: m ++ w :: r) = groups_of (a ++ t :: m) ++ u.
Proof.
  intros S M B L.
  assert (G : g_line (gathered (a ++ t :: m)) = Some (pline (tto t))).
  { rewrite <- (rev_involutive (a ++ t :: m)), gathered_line, rev_app_distr. cbn [rev]. rewrite <- app_assoc.
    assert (Nm : Forall (fun x => signif x = false) (rev m)).
    { apply Forall_forall. intros x X. apply in_rev in X. destruct (signif x) eqn:Sx; [|reflexivity].
      assert (In x (sig m)); [|rewrite M in H; destruct H]. apply filter_In. split; [exact X|].
      unfold signif, skipped in Sx. unfold blank. destruct (tkind x); cbn in *; auto. }
    clear -Nm S. induction Nm as [|x l Hx _ IH]; cbn [app last_sig]; [rewrite S; reflexivity|rewrite Hx; exact IH]. }
  assert (K : tkind w = Whitespace) by (unfold line_break in B; destruct (tkind w); try discriminate B; reflexivity).
  assert (E : gathered ((a ++ t :: m) ++ [w]) = mkG (close (gathered (a ++ t :: m))) [] (Some (pline (tto t)))).
  { rewrite gathered_app. unfold gather. rewrite K, B, G, L, Z.eqb_refl. cbn [andb]. reflexivity. }
  destruct (groups_prefix ((a ++ t :: m) ++ [w]) r) as [u U]; [rewrite E; reflexivity|].
  exists u. 
  replace (a ++ t :: m ++ w :: r) with (((a ++ t :: m) ++ [w]) ++ r) by (rewrite <- !app_assoc; cbn [app]; rewrite <- ?app_assoc; reflexivity).
  rewrite U. f_equal.
  rewrite !groups_eq.
  rewrite E. reflexivity.
Qed.

(** Without code there is one group at most. *)
Lemma header_gathered h : sig h = [] -> gathered h = mkG [] (comments h) None.
Proof.
  induction h as [|t h IH] using rev_ind; intros S; [reflexivity|].
  unfold sig in S. rewrite filter_app in S. apply app_eq_nil in S as [S1 S2].
  rewrite gathered_app, (IH S1). unfold gather. cbn [filter] in S2. unfold blank in S2. rewrite comments_app.
  assert (C : comments [t] = if is_comment t then [comment_of t] else []) by (unfold comments; cbn [filter]; destruct (is_comment t); reflexivity).
  rewrite C. unfold is_comment.
  destruct (tkind t) eqn:K; try discriminate S2; cbn [g_done g_open g_line map]; [|reflexivity].
  rewrite andb_false_r, app_nil_r. reflexivity.
Qed.
Lemma groups_header h : sig h = [] -> comments h <> [] -> groups_of h = [comments h].
Proof. intros S N. rewrite groups_eq, (header_gathered h S). unfold close. cbn [g_open g_done]. destruct (comments h); [congruence|reflexivity]. Qed.

(** No code between the comments of a group. *)
Lemma groups_solid l g : In g (groups_of l) -> exists a m b, l = a ++ m ++ b /\ sig m = [] /\ comments m = g.
Proof.
  assert (H : (forall g, In g (g_done (gathered l)) -> exists a m b, l = a ++ m ++ b /\ sig m = [] /\ comments m = g) /\
    exists a m, l = a ++ m /\ sig m = [] /\ comments m = g_open (gathered l)).
  { clear g. induction l as [|t l IH] using rev_ind.
    - split; [intros g []|]. exists [], []. repeat split.
    - destruct IH as [I1 (a & m & El & Sm & Cm)].
      assert (J : forall g, In g (g_done (gathered l)) -> exists a m b, l ++ [t] = a ++ m ++ b /\ sig m = [] /\ comments m = g).
      { intros g Hg. destruct (I1 g Hg) as (a' & m' & b' & X & Y & Z). exists a', m', (b' ++ [t]). split; [|auto]. rewrite X, <- !app_assoc. reflexivity. }
      assert (Jc : forall g, In g (close (gathered l)) -> exists a m b, l ++ [t] = a ++ m ++ b /\ sig m = [] /\ comments m = g).
      { intros g. unfold close. destruct (g_open (gathered l)) as [|c o] eqn:O; [exact (J g)|]. intros Hg. apply in_app_or in Hg as [Hg|[<-|[]]]; [exact (J g Hg)|].
        exists a, m, [t]. split; [rewrite El, <- app_assoc; reflexivity|auto]. }
      rewrite gathered_app. unfold gather. destruct (tkind t) eqn:K; cbn [g_done g_open].
      all: try (split; [exact Jc|exists (l ++ [t]), []; rewrite app_nil_r; repeat split]).
      + destruct (line_break t && _); cbn [g_done g_open].
        * split; [exact Jc|]. exists (l ++ [t]), []. rewrite app_nil_r. repeat split.
        * split; [exact J|]. exists a, (m ++ [t]). split; [rewrite El, <- app_assoc; reflexivity|].
          unfold sig, comments in *. rewrite !filter_app, !map_app, Sm. cbn [filter]. unfold blank, is_comment. rewrite K. cbn. rewrite app_nil_r. auto.
      + split; [exact J|]. exists a, (m ++ [t]). split; [rewrite El, <- app_assoc; reflexivity|].
        unfold sig, comments in *. rewrite !filter_app, !map_app, Sm, Cm. cbn [filter]. unfold blank, is_comment. rewrite K. cbn. auto. }
  destruct H as [H1 (a & m & El & Sm & Cm)]. rewrite groups_eq. unfold close.
  destruct (g_open (gathered l)) eqn:O; [apply H1|]. intros Hg. apply in_app_or in Hg as [Hg|[<-|[]]]; [apply H1, Hg|].
  exists a, m, []. rewrite app_nil_r. auto.
Qed.

(** * Below empty lines *)
Definition down_g (k : Z) (g : gathering) : gathering :=
  mkG (map (map (down_comment k)) (g_done g)) (map (down_comment k) (g_open g)) (option_map (fun l => l + k) (g_line g)).
Lemma down_close k g : close (down_g k g) = map (map (down_comment k)) (close g).
Proof. unfold close, down_g. cbn [g_open g_done]. destruct (g_open g); [reflexivity|]. rewrite map_app. reflexivity. Qed.

Definition set_lines (t : token) : Prop := 1 <= pline (tfrom t) /\ 1 <= pline (tto t).
Lemma down_line k p : 1 <= pline p -> pline (down k p) = pline p + k.
Proof. intros H. unfold down. destruct (_ && _) eqn:E; [lia|reflexivity]. Qed.
Lemma down_gather k g t : set_lines t -> gather (down_g k g) (down_token k t) = down_g k (gather g t).
Proof.
  intros [H1 H2]. unfold gather. cbn [tkind down_token].
  assert (X : mkG (close (down_g k g)) [] (Some (pline (tto (down_token k t)))) = down_g k (mkG (close g) [] (Some (pline (tto t))))).
  { rewrite down_close. unfold down_g. cbn [g_done g_open g_line map option_map tto down_token]. rewrite (down_line k _ H2). reflexivity. }
  destruct (tkind t) eqn:K; try exact X.
  - change (line_break (down_token k t)) with (line_break t). cbn [g_line down_g tfrom down_token].
    assert (Y : match option_map (fun l => l + k) (g_line g) with Some l => l =? pline (down k (tfrom t)) | None => false end
      = match g_line g with Some l => l =? pline (tfrom t) | None => false end).
    { destruct (g_line g); [|reflexivity]. cbn [option_map]. rewrite (down_line k _ H1). lia. }
    rewrite Y. destruct (line_break t && _); [|reflexivity]. rewrite down_close. reflexivity.
  - unfold down_g. cbn [g_done g_open g_line]. rewrite map_app. reflexivity.
Qed.
Lemma down_fold k l : Forall set_lines l -> forall g, fold_left gather (map (down_token k) l) (down_g k g) = down_g k (fold_left gather l g).
Proof. induction 1 as [|t l Ht _ IH]; intros g; [reflexivity|]. cbn [map fold_left]. rewrite down_gather by exact Ht. apply IH. Qed.

Lemma lines_set d src toks : dialect_ok d -> tokenize d true src = TOk toks -> Forall set_lines toks.
Proof.
  intros D E. destruct (positions_tile d src toks D E) as (P1 & _ & P3 & P4). destruct toks as [|t toks]; [constructor|].
  specialize (P1 t toks eq_refl). apply Forall_forall. intros x X.
  assert (L : 1 <= pline (tfrom x)).
  { destruct X as [->|X]; [rewrite P1; cbn; lia|]. pose proof (before_line _ _ (P4 [] t toks x eq_refl X)) as B. rewrite P1 in B. exact B. }
  split; [exact L|]. pose proof (before_line _ _ (P3 x X)). lia.
Qed.

Lemma spaces_gathered l : Forall (fun t => tkind t = Whitespace) l -> gathered l = mkG [] [] None.
Proof.
  induction l as [|t l IH] using rev_ind; intros H; [reflexivity|]. apply Forall_app in H as [H1 H2]. inversion_clear H2.
  rewrite gathered_app, (IH H1). unfold gather. rewrite H. cbn [g_line]. rewrite andb_false_r. reflexivity.
Qed.

Lemma file_moves d a b ta tx : dialect_ok d -> tokenize d true a = TOk ta -> tokenize d true (a ++ [10]) = TOk tx ->
  Forall (fun t => tkind t = Whitespace) tx -> skip_bom b = b ->
  parse_file d (a ++ 10 :: b) = res_map (down_file (lines_in d a)) (parse_file d b).
Proof.
  intros D Ta Tx Wx Sb. rewrite !file_exact by exact D.
  destruct (tokens_move d a b ta D Ta Sb) as (tx' & Tx' & Sx & Tc). rewrite Tx in Tx'. injection Tx' as <-.
  assert (Sa : sig ta = []).
  { rewrite <- Sx. clear -Wx. induction Wx as [|t l H _ IH]; [reflexivity|]. unfold sig, blank in *. cbn [filter]. rewrite H. exact IH. }
  unfold parse_source. rewrite (method_moves (parse_sql false) _ _ (pub_sql false) d a b ta D Ta Sa Sb).
  unfold tokens_of. rewrite Tc. destruct (tokenize d true b) as [tb| | |] eqn:Tb; [|unfold parse_with; rewrite Tb; reflexivity..].
  assert (G : groups_of (tx ++ map (down_token (lines_in d a)) tb) = map (map (down_comment (lines_in d a))) (groups_of tb)).
  { unfold groups_of. rewrite fold_left_app. change (fold_left gather tx (mkG [] [] None)) with (gathered tx). rewrite (spaces_gathered tx Wx).
    change (mkG [] [] None) with (down_g (lines_in d a) (mkG [] [] None)) at 1. rewrite down_fold by (eapply lines_set; eauto).
    apply down_close. }
  rewrite G. destruct (parse_with (parse_sql false) d b); reflexivity.
Qed.

Lemma spaces_lines d n : forall p, exists l, reads d p (repeat 10 n) l [] /\ Forall (fun t => tkind t = Whitespace) (map fst l).
Proof.
  induction n as [|n IH]; intros p.
  - exists []. split; constructor.
  - destruct (IH (mkPos (pline p + 1) 1)) as (l & R & S).
    exists ((mkTok Whitespace (VStr [10]) p (mkPos (pline p + 1) 1), [10]) :: l). split.
    + cbn [repeat]. change (10 :: repeat 10 n) with ([10] ++ repeat 10 n). econstructor; [apply Lx_lf|reflexivity|exact R].
    + constructor; [reflexivity|exact S].
Qed.
Lemma file_empty_lines d n b : dialect_ok d -> skip_bom b = b ->
  parse_file d (repeat 10 (S n) ++ b) = res_map (down_file (Z.of_nat (S n))) (parse_file d b).
Proof.
  intros D Sb. rewrite <- repeat_snoc, <- app_assoc. cbn [app]. rewrite <- (lines_in_blank d n D).
  destruct (spaces_lines d n start_pos) as (l & R & S). destruct (spaces_lines d (Datatypes.S n) start_pos) as (l' & R' & S').
  apply (file_moves d (repeat 10 n) b (map fst l) (map fst l') D); [| |exact S'|exact Sb].
  - apply tokenize_complete; [exact D|]. destruct n; exact R.
  - apply tokenize_complete; [exact D|]. rewrite repeat_snoc. exact R'.
Qed.
