(** Running the expression parser on written expressions. *)
From Coq Require Import ZArith List Bool String Lia.
From Verif Require Import Base Dialect Token Lexer LexSpec AST Num Prog Parser Sim Erase Grammar NumThms ValueThms Render Spell
  SpPrim SpEq.
Import ListNotations.
Open Scope string_scope.
Open Scope Z_scope.
Open Scope list_scope.

Notation equery := (er_query Erase.no_pos same_rune).
Notation eset := (er_setexpr Erase.no_pos same_rune).
Notation esel := (er_select Erase.no_pos same_rune).
Notation eitem := (er_selitem Erase.no_pos same_rune).
Notation etref := (er_tableref Erase.no_pos same_rune).
Notation eob := (er_orderby Erase.no_pos same_rune).
Notation ecte := (er_cte Erase.no_pos same_rune).
Notation estmt := (er_stmt Erase.no_pos same_rune).
Notation len := (@List.length token).

(** *** What may follow *)

Section Style.
Context {sty : style}.
Definition joins : list string := ["NATURAL"; "CROSS"; "INNER"; "LEFT"; "RIGHT"; "FULL"; "JOIN"].
End Style.
Notation expr_follow := (clear ["OVER"; "UNSIGNED"; "VARYING"; "WITH"; "WITHOUT"] [LParen; LBracket; Period]).
Notation tref_follow := (clear (["OVER"; "UNSIGNED"; "VARYING"; "WITH"; "WITHOUT"; "AS"; "WITH"] ++ op_words) ([LParen; LBracket; Period] ++ op_kinds)).
Notation body_follow := (clear (["OVER"; "UNSIGNED"; "VARYING"; "WITH"; "WITHOUT"; "AS"; "WITH"; "FROM"; "WHERE"; "GROUP"; "HAVING"; "ASC"; "DESC"] ++ op_words ++ joins)
        ([LParen; LBracket; Period; Comma] ++ op_kinds)).
Notation query_follow := (clear (["OVER"; "UNSIGNED"; "VARYING"; "WITH"; "WITHOUT"; "AS"; "WITH"; "FROM"; "WHERE"; "GROUP"; "HAVING"; "ASC"; "DESC";
          "ORDER"; "LIMIT"; "OFFSET"; "UNION"; "EXCEPT"; "INTERSECT"] ++ op_words ++ joins)
        ([LParen; LBracket; Period; Comma] ++ op_kinds)).

Section Style.
Context {sty : style}.
Definition no_alias (reserved : list gostring) (l : list token) : bool :=
  match l with
  | t :: _ => match tval t with VWord w => mem_gs (wkeyword w) reserved | VStr _ => true end
  | [] => true
  end.
Definition ending_ok (e : ending) (l : list token) : bool :=
  match e with
  | EndBareItem => nonempty l && no_alias reserved_column_alias l
  | EndItem => nonempty l
  | EndBareTable => no_alias reserved_table_alias l
  | EndOther => true
  end.
Definition sprec (l : list token) : Z :=
  match l with
  | t :: _ => match tval t with
              | VWord w => if kw w "UNION" then 10 else if kw w "EXCEPT" then 10
                           else if kw w "INTERSECT" then 20 else 0
              | VStr _ => 0
              end
  | [] => 0
  end.
Definition table_end (t : tableref) (l : list token) : bool :=
  if bare_table t then no_alias reserved_table_alias l else true.
Definition stmt_follow (s : stmt) (l : list token) : bool :=
  isk Semicolon l && sane l.

(** *** The recursive calls read what they should, up to a length *)
Record good (dl : dialect) (r : rec) (N : nat) : Prop := mkGood {
  g_fuel : (0 < N -> N < r_fuel r)%nat;
  g_expr : forall e prec d rest, ok_node dl e = true -> (len (s_node e) < N)%nat -> prec < s_lopen e ->
    expr_follow rest = true -> nprec rest <= prec -> nprec rest <= open_right e ->
    R (r_subexpr r prec) (d, s_node e ++ rest) = Ok (enode e) (rev (s_node e) ++ d, rest);
  g_query : forall q d rest, ok_query dl q = true -> (len (s_query q) < N)%nat ->
    query_follow rest = true -> ending_ok (query_end q) rest = true ->
    R (r_query r) (d, s_query q ++ rest) = Ok (equery q) (rev (s_query q) ++ d, rest);
  g_body : forall s prec d rest, ok_setexpr dl s = true -> (len (s_setexpr s) < N)%nat -> prec < set_top s ->
    body_follow rest = true -> ending_ok (set_end s) rest = true ->
    sprec rest <= prec -> sprec rest <= set_top s ->
    R (r_body r prec) (d, s_setexpr s ++ rest) = Ok (eset s) (rev (s_setexpr s) ++ d, rest);
  g_tref : forall t d rest, ok_tableref dl t = true -> (len (s_tableref t) < N)%nat ->
    tref_follow rest = true -> clear joins [] rest = true -> table_end t rest = true ->
    R (r_tref r) (d, s_tableref t ++ rest) = Ok (etref t) (rev (s_tableref t) ++ d, rest);
  g_stmt : forall s d rest, ok_stmt dl s = true -> (len (s_stmt s) < N)%nat -> stmt_follow s rest = true ->
    R (r_stmt r) (d, s_stmt s ++ rest) = Ok (estmt s) (rev (s_stmt s) ++ d, rest) }.

(** *** Lists *)

Lemma loop_sep {A B} (f : A -> list token) (g : A -> B) (s : token)
  (body : list B -> prog (list B + list B)) rest z : forall l acc n d,
  (forall a acc d rest', In a l ->
     R (body acc) (d, f a ++ s :: rest') = Ok (inl (g a :: acc)) (s :: rev (f a) ++ d, rest')) ->
  (forall acc d, R (body acc) (d, f z ++ rest) = Ok (inr (rev (g z :: acc))) (rev (f z) ++ d, rest)) ->
  (List.length l < n)%nat ->
  R (loop n body acc) (d, sepby s (map f (l ++ [z])) ++ rest)
  = Ok (rev acc ++ map g (l ++ [z])) (rev (sepby s (map f (l ++ [z]))) ++ d, rest).
Proof.
  induction l as [|a l IH]; intros acc n d H1 H2 L; (destruct n as [|n]; [cbn in L; lia|]).
  - cbn [app map sepby loop]. eapply R_step; [apply H2|]. cbv beta iota. cbn [rev]. reflexivity.
  - cbn [app map loop].
    assert (E : sepby s (f a :: map f (l ++ [z])) = f a ++ s :: sepby s (map f (l ++ [z]))).
    { destruct (map f (l ++ [z])) eqn:E; [|reflexivity]. destruct l; discriminate E. }
    rewrite E, <- app_assoc, <- app_comm_cons. eapply R_step; [apply H1; left; reflexivity|]. cbv beta iota.
    rewrite IH; [|intros; apply H1; right; assumption|exact H2|cbn in L; lia].
    cbn [rev map]. rewrite rev_app_distr. cbn [rev]. rewrite <- !app_assoc. reflexivity.
Qed.

(** Continuations after the first element. *)
Lemma loop_more {A B} (f : A -> list token) (g : A -> B)
  (body : list B -> prog (list B + list B)) rest : forall l acc n d,
  (forall l1 a l2 acc d, l = l1 ++ a :: l2 ->
     R (body acc) (d, f a ++ List.concat (map f l2) ++ rest)
     = Ok (inl (g a :: acc)) (rev (f a) ++ d, List.concat (map f l2) ++ rest)) ->
  (forall acc d, R (body acc) (d, rest) = Ok (inr (rev acc)) (d, rest)) ->
  (List.length l < n)%nat ->
  R (loop n body acc) (d, List.concat (map f l) ++ rest)
  = Ok (rev acc ++ map g l) (rev (List.concat (map f l)) ++ d, rest).
Proof.
  induction l as [|a l IH]; intros acc n d H1 H2 L; (destruct n as [|n]; [cbn in L; lia|]).
  - cbn [app map List.concat loop]. eapply R_step; [apply H2|]. cbv beta iota. rewrite app_nil_r. reflexivity.
  - cbn [map List.concat loop]. rewrite <- app_assoc. eapply R_step; [apply (H1 [] a l); reflexivity|].
    cbv beta iota. rewrite IH; [|intros l1 x l2 acc' d' E; apply (H1 (a :: l1) x l2); rewrite E; reflexivity
                                |exact H2|cbn in L; lia].
    cbn [rev map]. rewrite rev_app_distr, <- !app_assoc. reflexivity.
Qed.

Lemma sepby_more s (x : list token) l : sepby s (x :: l) = x ++ List.concat (map (fun y => s :: y) l).
Proof.
  revert x. induction l as [|y l IH]; intros x.
  - cbn. rewrite app_nil_r. reflexivity.
  - rewrite sepby_cons, IH. reflexivity.
Qed.

Lemma in_split_len {A} (f : A -> list token) s a l : In a l -> (len (f a) <= len (sepby s (map f l)))%nat.
Proof.
  induction l as [|x l IH]; intros I; [destruct I|].
  assert (E : (len (sepby s (map f (x :: l))) >= len (f x) /\ len (sepby s (map f (x :: l))) >= len (sepby s (map f l)))%nat).
  { destruct l as [|y l]; [cbn; lia|]. cbn [map]. rewrite sepby_cons, app_length. cbn [List.length].
    change (sepby s (f y :: map f l)) with (sepby s (map f (y :: l))). cbn [map]. lia. }
  destruct I as [<-|I]; [lia|]. specialize (IH I). lia.
Qed.
Lemma sepby_len {A} (f : A -> list token) s l : (List.length l <= S (len (sepby s (map f l))))%nat.
Proof.
  induction l as [|x l IH]; [cbn; lia|]. destruct l as [|y l]; [cbn; lia|].
  cbn [map]. rewrite sepby_cons, app_length. cbn [List.length] in *.
  change (sepby s (f y :: map f l)) with (sepby s (map f (y :: l))). lia.
Qed.
Lemma concat_in_len {A} (f : A -> list token) a l : In a l -> (len (f a) <= len (List.concat (map f l)))%nat.
Proof.
  induction l as [|x l IH]; intros I; [destruct I|]. cbn [map List.concat]. rewrite app_length.
  destruct I as [<-|I]; [lia|]. specialize (IH I). lia.
Qed.

Lemma snoc {A} (l : list A) : nonempty l = true -> exists i z, l = i ++ [z].
Proof. intros H. destruct l as [|x l]; [discriminate H|]. destruct (@exists_last _ (x :: l)) as (i & z & E); [discriminate|]. eauto. Qed.

(** *** Strengths *)

Lemma wf_strength dl e : ok_node dl e = true ->
  5 <= s_lopen e <= closed /\ 5 <= open_right e <= closed /\ Z.min (s_lopen e) 15 <= open_right e.
Proof.
  unfold closed.
  induction e; intros W; cbn [s_lopen open_right]; try lia; rewrite wf_node_eq in W; cbv beta iota in W;
    rewrite ?andb_true_iff in W; repeat match goal with H : _ /\ _ |- _ => destruct H end;
    repeat match goal with IH : ok_node dl ?x = true -> _, H : ok_node dl ?x = true |- _ => specialize (IH H) end;
    unfold in_level, is_level, s_atomic, closed in *;
    try (match goal with |- context [if ?b then _ else _] => destruct b end); try lia; cbn [orb] in *; unfold cast_level in *; try lia;
    destruct (op_type op); try discriminate; cbn [level] in *; lia.
Qed.

Lemma level_le o : level o <= 40.
Proof. destruct o; cbn; lia. Qed.

(** *** First tokens of expressions *)

Definition head_ok (l : list token) : Prop :=
  exists t x, l = t :: x /\ kmem (tkind t) [RParen; Comma] = false.
Lemma head_ok_app a b : head_ok a -> head_ok (a ++ b).
Proof. intros (t & x & -> & H). exists t, (x ++ b). auto. Qed.
Lemma head_ok_ne a : head_ok a -> a <> [].
Proof. intros (t & x & -> & H). discriminate. Qed.
Lemma head_ok_isk a k : head_ok a -> kmem k [RParen; Comma] = true -> isk k a = false.
Proof.
  intros (t & x & -> & H) K. cbn [isk]. unfold is_kind. destruct (kind_eqb (tkind t) k) eqn:E; [|reflexivity].
  apply kind_eqb_eq in E. subst k. congruence.
Qed.

Lemma dots_head dl l : wf_ids dl l = true -> exists i x, t_dots l = idt i :: x /\ hd_error l = Some i.
Proof.
  unfold wf_ids. destruct l as [|i l]; [discriminate|]. intros _. exists i. destruct l; eexists; split; reflexivity.
Qed.

End Style.
Ltac hd := eexists; eexists; split; [reflexivity|reflexivity].

Section Style.
Context {sty : style}.
Lemma node_head dl e : ok_node dl e = true -> head_ok (s_node e).
Proof.
  induction e; intros W; rewrite wf_node_eq in W; cbv beta iota in W; rewrite t_node_eq; cbv beta iota;
    rewrite ?andb_true_iff in W; repeat match goal with H : _ /\ _ |- _ => destruct H end;
    try (apply head_ok_app; auto; fail); try hd.
  - destruct (dots_head dl _ H) as (i & x & E & _). apply head_ok_app. rewrite E. hd.
  - destruct (dots_head dl _ H) as (i & x & E & _). rewrite E. hd.
  - destruct (w_cast sty cast); [hd|apply head_ok_app; auto].
  - unfold s_op. destruct (op_type op); try discriminate; hd.
  - destruct (dots_head dl _ H) as (i & x & E & _). apply head_ok_app. unfold t_name. rewrite E. hd.
  - destruct negated; hd.
Qed.

Lemma commas_head {A} (f : A -> list token) a l : head_ok (f a) -> head_ok (commas f (a :: l)).
Proof. intros H. unfold commas. cbn [map]. rewrite sepby_more. apply head_ok_app. exact H. Qed.

(** *** Dotted names *)

Lemma dots_more i l : t_dots (i :: l) = idt i :: List.concat (map (fun j => [dot; idt j]) l).
Proof. unfold t_dots. cbn [map]. rewrite sepby_more, map_map. reflexivity. Qed.

Lemma R_dotted r dl i l d rest : forallb (wf_id dl) l = true -> (List.length l < r_fuel r)%nat ->
  isk Period rest = false ->
  R (parse_dotted r i) (d, List.concat (map (fun j => [dot; idt j]) l) ++ rest)
  = Ok (i :: map eid l, false) (rev (List.concat (map (fun j => [dot; idt j]) l)) ++ d, rest).
Proof.
  intros W L Hr. unfold parse_dotted. change (i :: map eid l) with (rev [i] ++ map eid l).
  generalize [i] as acc. revert d L. generalize (r_fuel r) as n. revert W.
  induction l as [|j l IH]; intros W n d L acc; (destruct n as [|n]; [cbn in L; lia|]).
  - cbn [loop map List.concat app rev]. eapply R_step; [step; apply R_ret|]. cbv beta iota. rewrite app_nil_r. reflexivity.
  - cbn [forallb] in W. apply andb_true_iff in W as [Wj W]. cbn [loop map List.concat app].
    eapply R_step; [step; step; cbn [is_kind idt tkind kind_eqb]; step; apply R_ret|]. cbv beta iota.
    fold (idt j). rewrite (ident_of_idt dl) by exact Wj.
    rewrite IH; [|exact W|cbn in L; lia]. cbn [rev app]. rewrite <- !app_assoc. reflexivity.
Qed.
Lemma R_dotted_star r dl i l d rest : forallb (wf_id dl) l = true -> (List.length l < r_fuel r)%nat ->
  R (parse_dotted r i) (d, List.concat (map (fun j => [dot; idt j]) l) ++ dot :: star :: rest)
  = Ok (i :: map eid l, true) (star :: dot :: rev (List.concat (map (fun j => [dot; idt j]) l)) ++ d, rest).
Proof.
  intros W L. unfold parse_dotted. change (i :: map eid l) with (rev [i] ++ map eid l).
  generalize [i] as acc. revert d L. generalize (r_fuel r) as n. revert W.
  induction l as [|j l IH]; intros W n d L acc; (destruct n as [|n]; [cbn in L; lia|]).
  - cbn [loop map List.concat app rev]. eapply R_step; [step; step; apply R_ret|]. cbv beta iota. rewrite app_nil_r. reflexivity.
  - cbn [forallb] in W. apply andb_true_iff in W as [Wj W]. cbn [loop map List.concat app].
    eapply R_step; [step; step; cbn [is_kind idt tkind kind_eqb]; step; apply R_ret|]. cbv beta iota.
    fold (idt j). rewrite (ident_of_idt dl) by exact Wj.
    rewrite IH; [|exact W|cbn in L; lia]. cbn [rev app]. rewrite <- !app_assoc. reflexivity.
Qed.

(** *** Running expressions *)

End Style.
Ltac sh := repeat (rewrite <- app_assoc || rewrite <- app_comm_cons); cbn [app].
Ltac ll L := repeat (rewrite ?app_length in L; cbn [List.length app] in L).
Ltac norm := repeat (rewrite ?rev_app_distr, <- ?app_assoc; cbn [rev app]).
Ltac fin := norm; reflexivity.
(** Length bounds. *)
Ltac lens := unfold parens, commas, t_ids, t_name in *; repeat (rewrite ?app_length in *; cbn [List.length app] in * ); lia.
(** Keyword comparisons on written words. *)
Ltac kwc := cbn [kwt tval idt tkind sy];
  repeat match goal with |- context [kw (mkWord ?a ?b ?c) ?s] =>
    let x := eval vm_compute in (kw (mkWord a b c) s) in change (kw (mkWord a b c) s) with x end;
  cbn [orb]; cbv beta iota.

(** Arithmetic without the boolean hypotheses. *)
Ltac zl := repeat match goal with
  | H : @eq bool (Z.leb _ _) true |- _ => apply Z.leb_le in H
  | H : @eq bool (Z.ltb _ _) true |- _ => apply Z.ltb_lt in H
  | H : @eq bool _ _ |- _ => clear H
  | H : _ -> _ |- _ => clear H
  | H : forall _, _ |- _ => clear H
  end; lia.

Section Style.
Context {sty : style}.
Section Expr.
  Variables (dl : dialect) (r : rec) (N : nat).
  Hypothesis G : good dl r N.
  Notation ok_node := (ok_node dl).

  Lemma fuel_ok n : (0 < n)%nat -> (n <= N)%nat -> (n < r_fuel r)%nat.
  Proof. intros A B. pose proof (g_fuel _ _ _ G). lia. Qed.

  Lemma R_expr e d rest : ok_node e = true -> (len (s_node e) < N)%nat -> expr_follow rest = true ->
    nprec rest = 0 -> R (parse_expr r) (d, s_node e ++ rest) = Ok (enode e) (rev (s_node e) ++ d, rest).
  Proof.
    intros W L F P. pose proof (wf_strength _ _ W). apply (g_expr _ _ _ G); auto; lia.
  Qed.

  Lemma R_expr_list l d rest : nonempty l = true -> forallb ok_node l = true ->
    (len (commas s_node l) < N)%nat -> expr_follow rest = true -> nprec rest = 0 -> isk Comma rest = false ->
    R (parse_expr_list r) (d, commas s_node l ++ rest) = Ok (map enode l) (rev (commas s_node l) ++ d, rest).
  Proof.
    intros NE W L F P C. pose proof (sepby_len s_node comma l) as L1.
    pose proof (fun a H => in_split_len s_node comma a l H) as L2. fold (commas s_node l) in L1, L2.
    pose proof (fuel_ok N) as FU. destruct (snoc l NE) as (i & z & ->).
    rewrite forallb_forall in W. unfold parse_expr_list, commas.
    rewrite (loop_sep s_node enode comma); auto.
    - intros a acc d' rest' I. assert (I' : In a (i ++ [z])) by (apply in_or_app; auto).
      eapply R_step; [apply R_expr; [auto|specialize (L2 a I'); lia|reflexivity|reflexivity]|]. cbv beta iota.
      step. cbn [is_kind comma sy tkind kind_eqb]. step. reflexivity.
    - intros acc d'. assert (I' : In z (i ++ [z])) by (apply in_or_app; right; left; reflexivity).
      eapply R_step; [apply R_expr; [auto|specialize (L2 z I'); lia|auto|auto]|]. cbv beta iota.
      step. destruct rest as [|t rest]; [reflexivity|]. cbn [isk] in C. rewrite C. reflexivity.
    - rewrite app_length in L1. cbn in L1. lia.
  Qed.

  Lemma R_args l d rest : forallb ok_node l = true -> (len (commas s_node l) < N)%nat ->
    R (parse_optional_args r) (d, commas s_node l ++ rpar :: rest)
    = Ok (map enode l) (rev (commas s_node l) ++ d, rpar :: rest).
  Proof.
    intros W L. unfold parse_optional_args. destruct l as [|e l].
    - cbn [commas map sepby app]. step. step. reflexivity.
    - eapply R_step; [apply R_cons_no|cbv beta iota; apply R_expr_list; auto].
      cbn [forallb] in W. apply andb_true_iff in W as [W _].
      apply head_ok_isk; [|reflexivity]. apply head_ok_app, commas_head, (node_head dl); exact W.
  Qed.

  Lemma R_order_by l d rest : nonempty l = true -> forallb (ok_orderby dl) l = true ->
    (len (commas s_orderby l) < N)%nat ->
    clear ["OVER"; "UNSIGNED"; "VARYING"; "WITH"; "WITHOUT"; "ASC"; "DESC"] [LParen; LBracket; Period; Comma] rest = true -> nprec rest = 0 ->
    R (parse_order_by_list r) (d, commas s_orderby l ++ rest)
    = Ok (map eob l) (rev (commas s_orderby l) ++ d, rest).
  Proof.
    intros NE W L F P. pose proof (sepby_len s_orderby comma l) as L1.
    pose proof (fun a H => in_split_len s_orderby comma a l H) as L2. fold (commas s_orderby l) in L1, L2.
    pose proof (fuel_ok N) as FU. destruct (snoc l NE) as (i & z & ->).
    rewrite forallb_forall in W. unfold parse_order_by_list, commas.
    assert (Nt : (len (commas s_orderby (i ++ [z])) < N)%nat) by exact L.
    rewrite (loop_sep s_orderby eob comma); auto.
    - intros [e p asc] acc d' rest' I. assert (I' : In (OrderBy e p asc) (i ++ [z])) by (apply in_or_app; auto).
      specialize (L2 _ I'). specialize (W _ I'). rewrite wf_orderby_eq in W. rewrite t_orderby_eq in *.
      rewrite app_length in L2. rewrite <- app_assoc.
      eapply R_step; [apply R_expr; [auto|lia|destruct asc as [[]|]; reflexivity|destruct asc as [[]|]; reflexivity]|].
      cbv beta iota. destruct asc as [[]|]; cbn [app].
      + step. eapply R_step; [apply R_ret|cbv beta iota]. cbv zeta. step. cbn [is_kind comma sy tkind kind_eqb].
        step. fin.
      + step. eapply R_step; [step; apply R_ret|cbv beta iota]. cbv zeta. step. cbn [is_kind comma sy tkind kind_eqb].
        step. fin.
      + step. eapply R_step; [step; apply R_ret|cbv beta iota]. cbv zeta. step. cbn [is_kind comma sy tkind kind_eqb].
        step. fin.
    - intros acc d'. destruct z as [e p asc].
      assert (I' : In (OrderBy e p asc) (i ++ [OrderBy e p asc])) by (apply in_or_app; right; left; reflexivity).
      specialize (L2 _ I'). specialize (W _ I'). rewrite wf_orderby_eq in W. rewrite t_orderby_eq in *.
      rewrite app_length in L2. rewrite <- app_assoc.
      assert (C : isk Comma rest = false) by (eapply clear_isk; [exact F|reflexivity]).
      eapply R_step; [apply R_expr; [auto|lia|..]|].
      { destruct asc as [[]|]; try reflexivity. cbn [app]. side0. }
      { destruct asc as [[]|]; try reflexivity. exact P. }
      cbv beta iota.
      assert (K : forall (x : list orderby), R (o <- peek ;; match o with
        | Some t => if is_kind Comma t then must_next ;;; Ret (inl x) else Ret (inr (rev x))
        | None => Ret (inr (rev x)) end) (rev (match asc with None => [] | Some true => [kwt "ASC"] | Some false => [kwt "DESC"] end) ++ rev (s_node e) ++ d', rest)
        = Ok (@inr (list orderby) _ (rev x)) (rev (match asc with None => [] | Some true => [kwt "ASC"] | Some false => [kwt "DESC"] end) ++ rev (s_node e) ++ d', rest)).
      { intros x. step. destruct rest as [|t rest']; [reflexivity|]. cbn [isk] in C. rewrite C. reflexivity. }
      destruct asc as [[]|]; cbn [app].
      + step. eapply R_step; [apply R_ret|cbv beta iota]. cbv zeta. etransitivity; [apply K|]. fin.
      + step. eapply R_step; [step; apply R_ret|cbv beta iota]. cbv zeta. etransitivity; [apply K|]. fin.
      + step. eapply R_step; [step; apply R_ret|cbv beta iota]. cbv zeta. etransitivity; [apply K|]. fin.
    - rewrite app_length in L1. cbn in L1. lia.
  Qed.

  Lemma R_bound b d rest : wf_bound b = true ->
    R parse_window_frame_bound (d, t_bound b ++ rest)
    = Ok (er_bound Erase.no_pos b) (rev (t_bound b) ++ d, rest).
  Proof.
    intros W. unfold parse_window_frame_bound. destruct b; cbn [t_bound kws map app wf_bound] in *.
    - reflexivity.
    - reflexivity.
    - reflexivity.
    - step. step. eapply R_step; [apply R_int; exact W|cbv beta iota].
      replace (_ <? 0) with false by (unfold wf_int in W; lia). step. reflexivity.
    - step. step. eapply R_step; [apply R_int; exact W|cbv beta iota].
      replace (_ <? 0) with false by (unfold wf_int in W; lia). step. step. reflexivity.
  Qed.

  Lemma R_frame f d rest : all_opt wf_wframe f = true ->
    R parse_window_frame (d, opt f t_frame ++ rpar :: rest)
    = Ok (option_map (er_wframe Erase.no_pos) f) (rpar :: rev (opt f t_frame) ++ d, rest).
  Proof.
    intros W. unfold parse_window_frame. destruct f as [[[uf ut u] s e]|].
    - cbn [all_opt] in W. unfold wf_wframe in W. cbn [wf_start wf_end] in W. apply andb_true_iff in W as [W1 W2].
      cbn [opt]. unfold t_frame. cbn [wf_units wfu_type wf_start wf_end]. rewrite <- app_comm_cons. step.
      eapply R_step with (a := Some (mkWF (mkWFU pos0 pos0 u) (er_bound Erase.no_pos s) (option_map (er_bound Erase.no_pos) e)))
        (s' := (rev (t_frame (mkWF (mkWFU uf ut u) s e)) ++ d, rpar :: rest)).
      + replace (is_kind SQLKeyword _) with true by (destruct u; reflexivity). cbv beta iota.
        eapply R_step; [apply R_word; reflexivity|cbv beta iota].
        replace (unit_from_str _) with (Some u) by (destruct u; reflexivity). cbv beta iota.
        step. cbv zeta. destruct e as [e|].
        * rewrite <- app_comm_cons. step. rewrite <- app_assoc. eapply R_step; [apply R_bound; exact W1|cbv beta iota].
          rewrite <- app_comm_cons. step. eapply R_step; [apply R_bound; exact W2|cbv beta iota]. rewrite R_ret. unfold t_frame. cbn [wf_units wfu_type wf_start wf_end]. fin.
        * eapply R_step; [apply R_kw_no; destruct s; reflexivity|cbv beta iota].
          eapply R_step; [apply R_bound; exact W1|cbv beta iota]. rewrite R_ret. unfold t_frame. cbn [wf_units wfu_type wf_start wf_end]. fin.
      + cbv beta iota. step. reflexivity.
    - reflexivity.
  Qed.

  Lemma R_winspec_tail (name : objname) (args : list node) o d rest : ok_winspec dl o = true ->
    (len (s_winspec o) < N)%nat ->
    R (pt <- kw_tok "PARTITION" ;;
       '(pby, ppos) <- (match pt with
                        | Some t => expect_keyword "BY" ;;; el <- parse_expr_list r ;; Ret (el, tfrom t)
                        | None => Ret ([], pos0)
                        end) ;;
       ot <- kw_tok "ORDER" ;;
       '(oby, opos) <- (match ot with
                        | Some t => expect_keyword "BY" ;;; el <- parse_order_by_list r ;; Ret (el, tfrom t)
                        | None => Ret ([], pos0)
                        end) ;;
       frame <- parse_window_frame ;;
       Ret (EFunction name args pos0 (Some (WinSpec pby oby frame ppos opos)) pos0))
      (d, s_winspec o ++ rpar :: rest)
    = Ok (EFunction name args pos0 (Some (er_winspec Erase.no_pos same_rune o)) pos0)
         (rpar :: rev (s_winspec o) ++ d, rest).
  Proof.
    intros W L. destruct o as [pby oby fr p1 p2]. rewrite wf_winspec_eq in W. rewrite t_winspec_eq in *.
    rewrite !andb_true_iff in W. destruct W as [[W1 W2] W3].
    assert (C0 : clear ["OVER"; "UNSIGNED"; "VARYING"; "WITH"; "WITHOUT"; "ASC"; "DESC"; "PARTITION"; "ORDER"] [LParen; LBracket; Period; Comma] (opt fr t_frame ++ rpar :: rest) = true
                 /\ nprec (opt fr t_frame ++ rpar :: rest) = 0).
    { destruct fr as [[[uf ut u] s e]|]; [|split; reflexivity]. destruct u; split; reflexivity. }
    destruct C0 as [C0 C0'].
    set (T1 := list_of oby (kwt "ORDER" :: kwt "BY" :: commas s_orderby oby) ++ opt fr t_frame ++ rpar :: rest).
    assert (C1 : clear ["OVER"; "UNSIGNED"; "VARYING"; "WITH"; "WITHOUT"; "PARTITION"] [LParen; LBracket; Period; Comma] T1 = true /\ nprec T1 = 0).
    { unfold T1. destruct oby; cbn [list_of app]; [split; [side0|exact C0']|split; reflexivity]. }
    destruct C1 as [C1 C1'].
    change (match fr with Some f => t_frame f | None => [] end) with (opt fr t_frame) in *.
    replace ((list_of pby (kwt "PARTITION" :: kwt "BY" :: commas s_node pby) ++
      list_of oby (kwt "ORDER" :: kwt "BY" :: commas s_orderby oby) ++ opt fr t_frame) ++ rpar :: rest)
      with (list_of pby (kwt "PARTITION" :: kwt "BY" :: commas s_node pby) ++ T1)
      by (unfold T1; rewrite <- !app_assoc; reflexivity).
    rewrite !app_length in L.
    eapply R_step with (a := match pby with [] => None | _ => Some (kwt "PARTITION") end)
      (s' := match pby with [] => (d, T1) | _ => (kwt "PARTITION" :: d, kwt "BY" :: commas s_node pby ++ T1) end).
    { destruct pby; cbn [list_of app]; prim. }
    eapply R_step with (a := (map enode pby, pos0))
      (s' := (rev (list_of pby (kwt "PARTITION" :: kwt "BY" :: commas s_node pby)) ++ d, T1)).
    { destruct pby as [|x pby]; [reflexivity|]. step.
      eapply R_step; [apply R_expr_list; [reflexivity|exact W1|cbn [list_of List.length] in L; lia|side0|exact C1'|side0]|].
      rewrite R_ret. cbn [list_of]. fin. }
    cbv beta iota. unfold T1. set (d1 := rev (list_of pby (kwt "PARTITION" :: kwt "BY" :: commas s_node pby)) ++ d).
    eapply R_step with (a := match oby with [] => None | _ => Some (kwt "ORDER") end)
      (s' := match oby with [] => (d1, opt fr t_frame ++ rpar :: rest)
             | _ => (kwt "ORDER" :: d1, kwt "BY" :: commas s_orderby oby ++ opt fr t_frame ++ rpar :: rest) end).
    { destruct oby; cbn [list_of app]; prim. }
    eapply R_step with (a := (map eob oby, pos0))
      (s' := (rev (list_of oby (kwt "ORDER" :: kwt "BY" :: commas s_orderby oby)) ++ d1, opt fr t_frame ++ rpar :: rest)).
    { destruct oby as [|x oby]; [reflexivity|]. step.
      eapply R_step; [apply R_order_by; [reflexivity|exact W2|cbn [list_of List.length] in L; lia|side0|exact C0']|].
      rewrite R_ret. cbn [list_of]. fin. }
    cbv beta iota. eapply R_step; [apply R_frame; exact W3|]. cbv beta iota.
    rewrite R_ret. unfold d1. fin.
  Qed.

  Lemma R_function o args (rp : pos) over orp d rest :
    forallb ok_node args = true -> match over with Some w => ok_winspec dl w | None => true end = true ->
    (len (parens (commas s_node args) ++ match over with Some o => kwt "OVER" :: parens (s_winspec o) | None => [] end) < N)%nat ->
    expr_follow rest = true ->
    R (parse_function r (eon o))
      (d, (parens (commas s_node args) ++ match over with Some o => kwt "OVER" :: parens (s_winspec o) | None => [] end) ++ rest)
    = Ok (enode (EFunction o args rp over orp))
         (rev (parens (commas s_node args) ++ match over with Some o => kwt "OVER" :: parens (s_winspec o) | None => [] end) ++ d, rest).
  Proof.
    intros W1 W2 L F. unfold parse_function, parens in *. rewrite <- !app_assoc. cbn [app].
    step. rewrite <- app_assoc. cbn [app].
    assert (L1 : (len (commas s_node args) < N)%nat).
    { repeat (rewrite ?app_length in L; cbn [List.length app] in L). lia. }
    eapply R_step; [apply R_args; [exact W1|exact L1]|]. cbv beta iota. step.
    destruct over as [w|]; cbn [app].
    - step. step. rewrite <- app_assoc. cbn [app rpar sy tto].
      rewrite (R_winspec_tail (eon o) (map enode args) w); [fin|exact W2|].
      repeat (rewrite ?app_length in L; cbn [List.length app] in L). lia.
    - step. rewrite R_ret. fin.
  Qed.

  Definition t_branch (p : node * node) : list token := match p with (c, v) => s_node c ++ kwt "THEN" :: s_node v end.

  Lemma branches_sep x l :
    List.concat (map (fun p => match p with (c, v) => kwt "WHEN" :: s_node c ++ kwt "THEN" :: s_node v end) (x :: l))
    = kwt "WHEN" :: sepby (kwt "WHEN") (map t_branch (x :: l)).
  Proof.
    revert x. induction l as [|y l IH]; intros [c v].
    - cbn. rewrite !app_nil_r. reflexivity.
    - cbn [map]. rewrite sepby_cons. cbn [map] in IH. rewrite <- (IH y). cbn [List.concat map t_branch].
      rewrite <- app_comm_cons. reflexivity.
  Qed.

  Lemma R_branches l d rest : nonempty l = true ->
    forallb (fun p => match p with (c, v) => ok_node c && ok_node v end) l = true ->
    (len (sepby (kwt "WHEN") (map t_branch l)) < N)%nat -> clear ["OVER"; "UNSIGNED"; "VARYING"; "WITH"; "WITHOUT"; "WHEN"] [LParen; LBracket; Period] rest = true ->
    nprec rest = 0 ->
    R (loop (r_fuel r)
        (fun acc =>
           c <- parse_expr r ;;
           expect_keyword "THEN" ;;;
           v <- parse_expr r ;;
           w <- kw_ok "WHEN" ;;
           Ret (if w : bool then inl ((c, v) :: acc) else inr (rev ((c, v) :: acc)))) [])
      (d, sepby (kwt "WHEN") (map t_branch l) ++ rest)
    = Ok (map (fun b => (enode (fst b), enode (snd b))) l)
         (rev (sepby (kwt "WHEN") (map t_branch l)) ++ d, rest).
  Proof.
    intros NE W L F P. pose proof (sepby_len t_branch (kwt "WHEN") l) as L1.
    pose proof (fun a H => in_split_len t_branch (kwt "WHEN") a l H) as L2.
    pose proof (fuel_ok N) as FU. destruct (snoc l NE) as (i & z & ->).
    rewrite forallb_forall in W.
    rewrite (loop_sep t_branch (fun b => (enode (fst b), enode (snd b))) (kwt "WHEN")); auto.
    - intros [c v] acc d' rest' I. assert (I' : In (c, v) (i ++ [z])) by (apply in_or_app; auto).
      specialize (L2 _ I'). specialize (W _ I'). cbn beta iota in W. apply andb_true_iff in W as [W1 W2].
      cbn [t_branch] in *. rewrite app_length in L2. cbn [List.length] in L2. rewrite <- app_assoc, <- app_comm_cons.
      eapply R_step; [apply R_expr; [auto|lia|reflexivity|reflexivity]|]. cbv beta iota. step.
      eapply R_step; [apply R_expr; [auto|lia|reflexivity|reflexivity]|]. cbv beta iota. step.
      rewrite R_ret. fin.
    - intros acc d'. destruct z as [c v].
      assert (I' : In (c, v) (i ++ [(c, v)])) by (apply in_or_app; right; left; reflexivity).
      specialize (L2 _ I'). specialize (W _ I'). cbn beta iota in W. apply andb_true_iff in W as [W1 W2].
      cbn [t_branch] in *. rewrite app_length in L2. cbn [List.length] in L2. rewrite <- app_assoc, <- app_comm_cons.
      eapply R_step; [apply R_expr; [auto|lia|reflexivity|reflexivity]|]. cbv beta iota. step.
      eapply R_step; [apply R_expr; [auto|lia|side0|exact P]|]. cbv beta iota. step.
      rewrite R_ret. fin.
    - rewrite app_length in L1. cbn in L1. lia.
  Qed.

  Lemma R_case a b o bs el d rest : ok_node (ECase a b o bs el) = true -> (len (s_node (ECase a b o bs el)) <= N)%nat ->
    R (parse_case r) (d, s_node (ECase a b o bs el) ++ rest)
    = Ok (enode (ECase a b o bs el)) (rev (s_node (ECase a b o bs el)) ++ d, rest).
  Proof.
    intros W L. rewrite wf_node_eq in W. rewrite t_node_eq in *. cbv beta iota in *.
    rewrite !andb_true_iff in W. destruct W as [[[W1 W2] W3] W4].
    destruct bs as [|x bs]; [discriminate W2|]. rewrite branches_sep in *. set (bl := x :: bs) in *. clearbody bl.
    set (T1 := match el with Some e => kwt "ELSE" :: s_node e | None => [] end ++ [kwt "END"]) in *.
    assert (C1 : clear ["OVER"; "UNSIGNED"; "VARYING"; "WITH"; "WITHOUT"; "WHEN"] [LParen; LBracket; Period] (T1 ++ rest) = true /\ nprec (T1 ++ rest) = 0)
      by (unfold T1; destruct el; split; reflexivity).
    destruct C1 as [C1 C1'].
    unfold parse_case. rewrite <- app_comm_cons. step.
    repeat (rewrite <- app_assoc || rewrite <- app_comm_cons).
    assert (L1 : (len (match o with Some o => s_node o | None => [] end) < N /\
                  len (sepby (kwt "WHEN") (map t_branch bl)) < N /\ len T1 < N)%nat).
    { repeat (rewrite ?app_length in L; cbn [List.length app] in L). lia. }
    destruct L1 as (L1 & L2 & L3). clear L.
    eapply R_step with (a := negb (some o)) (s' := match o with
       | Some o => (kwt "CASE" :: d, s_node o ++ kwt "WHEN" :: sepby (kwt "WHEN") (map t_branch bl) ++ T1 ++ rest)
       | None => (kwt "WHEN" :: kwt "CASE" :: d, sepby (kwt "WHEN") (map t_branch bl) ++ T1 ++ rest) end).
    { destruct o as [o|]; [|apply R_kw_yes; reflexivity]. apply R_kw_no.
      apply andb_true_iff in W1 as [W1 W1']. rewrite starts_app by (apply head_ok_ne, (node_head dl); exact W1).
      apply negb_true_iff. exact W1'. }
    eapply R_step with (a := option_map enode o)
      (s' := (kwt "WHEN" :: rev (match o with Some o => s_node o | None => [] end) ++ kwt "CASE" :: d,
              sepby (kwt "WHEN") (map t_branch bl) ++ T1 ++ rest)).
    { destruct o as [o|]; [|reflexivity]. apply andb_true_iff in W1 as [W1 _]. cbn [some negb].
      eapply R_step; [apply R_expr; [exact W1|exact L1|reflexivity|reflexivity]|]. cbv beta iota. step. reflexivity. }
    cbv beta iota.
    eapply R_step; [apply R_branches; [destruct bl; [discriminate W2|reflexivity]|exact W3|exact L2|exact C1|exact C1']|].
    cbv beta iota. unfold T1.
    destruct el as [e|]; cbn [app].
    - step. eapply R_step.
      { rewrite <- app_assoc. cbn [app].
        eapply R_step; [apply R_expr; [exact W4| |reflexivity|reflexivity]|apply R_ret].
        unfold T1 in L3. rewrite app_length in L3. cbn in L3. lia. }
      cbv beta iota. step. rewrite R_ret. cbn [kwt tfrom tto]. fin.
    - step. eapply R_step; [apply R_ret|cbv beta iota]. step. rewrite R_ret. fin.
  Qed.

  Lemma R_cast e ty a b d rest : w_cast sty a = true -> ok_node (ECast e ty a b) = true -> (len (s_node (ECast e ty a b)) <= N)%nat ->
    R (parse_cast r) (d, s_node (ECast e ty a b) ++ rest)
    = Ok (enode (ECast e ty a b)) (rev (s_node (ECast e ty a b)) ++ d, rest).
  Proof.
    intros WC W L. rewrite wf_node_eq in W. rewrite t_node_eq in *. cbv beta iota in *. rewrite WC in *.
    rewrite !andb_true_iff in W. destruct W as [[W1 W2] _]. unfold parens in *. cbn [app].
    repeat (rewrite ?app_length in L; cbn [List.length app] in L).
    sh. unfold parse_cast. step. step.
    eapply R_step; [apply R_expr; [exact W1|lia|reflexivity|reflexivity]|cbv beta iota]. step.
    eapply R_step; [apply (R_type r dl); [exact W2|reflexivity|]|cbv beta iota].
    { pose proof (fuel_ok N). lia. }
    step. rewrite R_ret. fin.
  Qed.

  (** A subquery in parentheses. *)
  Lemma R_sub q d rest : ok_query dl q = true -> (len (s_query q) < N)%nat ->
    R (r_query r) (d, s_query q ++ rpar :: rest) = Ok (equery q) (rev (s_query q) ++ d, rpar :: rest).
  Proof.
    intros W L. apply (g_query _ _ _ G); auto. destruct (query_end q); reflexivity.
  Qed.
  Lemma R_exists (neg : option token) n q a b c d rest : ok_query dl q = true -> (len (s_query q) < N)%nat ->
    n = some neg -> match neg with Some t => tfrom t = pos0 | None => True end ->
    R (parse_exists r neg) (d, kwt "EXISTS" :: parens (s_query q) ++ rest)
    = Ok (enode (EExists n q a b c)) (rev (kwt "EXISTS" :: parens (s_query q)) ++ d, rest).
  Proof.
    intros W L -> Hn. unfold parse_exists, parens. cbn [app]. rewrite <- app_assoc. cbn [app]. step. step.
    eapply R_step; [apply R_sub; [exact W|exact L]|cbv beta iota]. step. rewrite R_ret.
    destruct neg as [t|]; cbn [some]; [rewrite Hn|]; fin.
  Qed.

  (** A query that may stand where an expression might. *)
  Lemma sub_query_starts q : ok_query dl q = true -> s_sub_query q = true ->
    exists x, (s_query q = kwt "SELECT" :: x /\ forall rest, starts "WITH" (x ++ rpar :: rest) = false)
              \/ s_query q = kwt "WITH" :: x.
  Proof.
    destruct q as [w ctes body oby lim]. rewrite wf_query_eq, t_query_eq. cbv beta iota. cbn [s_sub_query].
    destruct ctes as [|c ctes]; [|intros _ _; eexists; right; reflexivity].
    cbn [nonempty orb list_of app]. rewrite !andb_true_iff. intros [[[[_ W] _] _] _] [H1 H2].
    apply negb_true_iff in H2.
    enough (E : exists x, s_setexpr body = kwt "SELECT" :: x /\ x <> [] /\ starts "WITH" x = false).
    { destruct E as (x & -> & NE & S). eexists. left. split; [reflexivity|]. intros rest.
      rewrite <- app_assoc. rewrite starts_app; assumption. }
    clear oby lim w. induction body as [s| |op all l IHl rr _]; try discriminate H1.
    - rewrite t_setexpr_eq. destruct s as [dis proj from where_ gby having p]. rewrite t_select_eq. cbv beta iota.
      rewrite wf_setexpr_eq, wf_select_eq in W. cbv beta iota in W. rewrite !andb_true_iff in W.
      destruct W as [[[[[[[W1 W2] _] _] _] _] _] _]. cbn [s_selects_with] in H2.
      eexists. split; [reflexivity|]. destruct dis; [split; [discriminate|reflexivity]|].
      destruct proj as [|i proj]; [discriminate W1|]. cbn [cond app negb andb] in *.
      assert (NE : s_selitem i <> []).
      { cbn [forallb] in W2. apply andb_true_iff in W2 as [W2 _]. rewrite wf_selitem_eq in W2. rewrite t_selitem_eq.
        destruct i; try discriminate W2; rewrite ?andb_true_iff in W2.
        - apply head_ok_ne, (node_head dl). apply W2.
        - apply head_ok_ne, head_ok_app, (node_head dl). apply W2.
        - intros E. apply app_eq_nil in E. destruct E as [_ E]. discriminate E. }
      unfold commas. cbn [map]. rewrite sepby_more, <- app_assoc.
      split; [intros E; apply app_eq_nil in E; tauto|]. rewrite starts_app; assumption.
    - rewrite wf_setexpr_eq in W. cbv beta iota in W. rewrite !andb_true_iff in W. destruct W as [[[W _] _] _].
      destruct IHl as (x & E & NE & S); auto. rewrite t_setexpr_eq. cbv beta iota. rewrite E.
      eexists. split; [reflexivity|]. split; [intros F; apply app_eq_nil in F; tauto|]. rewrite starts_app; assumption.
  Qed.

  Lemma R_prefix e d rest : ok_node e = true -> (len (s_node e) <= N)%nat -> s_atomic e = true ->
    expr_follow rest = true -> nprec rest <= open_right e ->
    R (parse_prefix r) (d, s_node e ++ rest) = Ok (enode e) (rev (s_node e) ++ d, rest).
  Proof.
    intros W L A F P. unfold s_atomic in A.
    assert (FU : (N < r_fuel r)%nat).
    { pose proof (g_fuel _ _ _ G). pose proof (node_head _ _ W) as H0. apply head_ok_ne in H0.
      destruct (s_node e); [congruence|]. cbn in L. lia. }
    destruct e as [i|p|l|l|x|x|e l neg p|e q neg p|e neg lo hi|l op rr|e ty p1 p2|e p1 p2|f op e|o args p1 over p2
                  |p1 p2 o bs el|neg q p1 p2 p3|q p1 p2|v|p1 p2 f|p1 p2 s|p1 p2 s|p1 p2 b|p1 p2];
      try (exfalso; cbn [s_lopen] in A; unfold closed, is_level, in_level in A;
           try (pose proof (level_le (op_type op))); try destruct neg; lia).
    - (* identifier *)
      rewrite wf_node_eq in W. cbv beta iota in W. apply andb_true_iff in W as [W1 W2]. apply negb_true_iff in W2.
      rewrite t_node_eq. cbn [app]. unfold parse_prefix. step. cbn [idt tkind]. step.
      rewrite !(word_in_kw _ _ _ W2) by reflexivity. cbn [orb]. step.
      fold (idt i). rewrite (ident_of_idt dl) by exact W1.
      assert (H1 : isk LParen rest = false) by side0. assert (H2 : isk Period rest = false) by side0.
      destruct rest as [|t rest]; [reflexivity|]. cbn [isk] in H1, H2. rewrite H1, H2. reflexivity.
    - (* star *) reflexivity.
    - (* qualified star *)
      rewrite wf_node_eq in W. cbv beta iota in W. apply andb_true_iff in W as [W1 W2]. apply negb_true_iff in W2.
      rewrite (t_node_eq (EQualWildcard _)) in L |- *. cbv beta iota in *. destruct l as [|i l]; [discriminate W1|]. cbn [first_in] in W2.
      rewrite dots_more in *. cbn [app]. unfold parse_prefix. step. cbn [idt tkind]. step.
      rewrite !(word_in_kw _ _ _ W2) by reflexivity. cbn [orb]. step.
      fold (idt i). unfold wf_ids in W1. cbn [nonempty forallb andb] in W1. apply andb_true_iff in W1 as [Wi Wl].
      rewrite (ident_of_idt dl) by exact Wi. cbv zeta.
      replace (match _ with Some n => negb (is_kind LParen n) && negb (is_kind Period n) | None => true end) with false
        by (destruct l; reflexivity).
      rewrite <- app_assoc. cbn [app].
      assert (L2 : (List.length l < r_fuel r)%nat).
      { rewrite app_length in L. cbn [List.length] in L. clear -L FU.
        assert (H : (List.length l <= len (List.concat (map (fun j => [dot; idt j]) l)))%nat).
        { clear. induction l; cbn in *; lia. } lia. }
      eapply R_step; [apply (R_dotted_star r dl); [exact Wl|exact L2]|cbv beta iota].
      rewrite R_ret. fin.
    - (* compound *)
      rewrite wf_node_eq in W. cbv beta iota in W. rewrite !andb_true_iff in W. destruct W as [[W1 W2] W3].
      apply negb_true_iff in W2.
      rewrite (t_node_eq (ECompound _)) in L |- *. cbv beta iota in *. destruct l as [|i [|j l]]; try discriminate W3. cbn [first_in] in W2.
      rewrite dots_more in *. unfold parse_prefix. cbn [app]. step. cbn [idt tkind]. step.
      rewrite !(word_in_kw _ _ _ W2) by reflexivity. cbn [orb]. step.
      fold (idt i). unfold wf_ids in W1. cbn [nonempty andb] in W1.
      change (forallb (wf_id dl) (i :: j :: l)) with (wf_id dl i && forallb (wf_id dl) (j :: l)) in W1.
      apply andb_true_iff in W1 as [Wi Wl].
      rewrite (ident_of_idt dl) by exact Wi. cbv zeta.
      replace (match _ with Some n => negb (is_kind LParen n) && negb (is_kind Period n) | None => true end) with false
        by reflexivity.
      assert (L2 : (List.length (j :: l) < r_fuel r)%nat).
      { cbn [List.length] in *. clear -L FU.
        assert (H : (List.length (j :: l) <= len (List.concat (map (fun j => [dot; idt j]) (j :: l))))%nat).
        { generalize (j :: l). clear. intros l. induction l; cbn in *; lia. } cbn [List.length] in H. lia. }
      eapply R_step; [apply (R_dotted r dl); [exact Wl|exact L2|side0]|cbv beta iota].
      step. rewrite R_ret. fin.
    - (* cast *)
      assert (WC : w_cast sty p1 = true).
      { cbn [s_lopen] in A. destruct (w_cast sty p1); [reflexivity|].
        apply Z.eqb_eq in A. unfold closed, cast_level in A. exfalso. clear -A. lia. }
      unfold parse_prefix. rewrite (t_node_eq (ECast _ _ _ _)). cbv beta iota. rewrite WC. cbn [app]. step. cbn [kwt tkind]. step.
      kwc. step. fold (kwt "CAST").
      change (kwt "CAST" :: parens (s_node e ++ kwt "AS" :: s_type ty) ++ rest)
        with ((kwt "CAST" :: parens (s_node e ++ kwt "AS" :: s_type ty)) ++ rest).
      pose proof (R_cast e ty p1 p2 d rest WC W L) as Q. rewrite (t_node_eq (ECast _ _ _ _)), WC in Q. exact Q.
    - (* nested *)
      rewrite wf_node_eq in W. cbv beta iota in W. rewrite !andb_true_iff in W. destruct W as [[W1 W2] W3].
      apply negb_true_iff in W2, W3. rewrite (t_node_eq (ENested _ _ _)) in L |- *. cbv beta iota in *. unfold parens in *. cbn [app].
      ll L.
      rewrite <- app_assoc. cbn [app]. unfold parse_prefix. step. cbn [lpar sy tkind].
      assert (NE : s_node e <> []) by (apply head_ok_ne, (node_head dl); exact W1).
      eapply R_step; [apply R_kw_no; rewrite starts_app; assumption|cbv beta iota].
      eapply R_step; [apply R_kw_no; rewrite starts_app; assumption|cbv beta iota]. cbn [orb].
      eapply R_step; [apply R_expr; [exact W1|lia|reflexivity|reflexivity]|cbv beta iota].
      step. rewrite R_ret. fin.
    - (* unary *)
      rewrite wf_node_eq in W. cbv beta iota in W. rewrite !andb_true_iff in W. destruct W as [[W1 W2] W3].
      rewrite (t_node_eq (EUnary _ _ _)) in L |- *. cbv beta iota in *. cbn [open_right] in P.
      destruct op as [o po1 po2]. cbn [op_type] in *.
      unfold s_op in L |- *; cbn [op_type] in *; destruct o; try discriminate W3; cbn [t_op app level] in *; cbn [List.length] in L; unfold parse_prefix; step;
        cbn [sy kwt tkind].
      + eapply R_step; [apply (g_expr _ _ _ G); [exact W1|lia|lia|exact F|lia|lia]|]. rewrite R_ret. fin.
      + eapply R_step; [apply (g_expr _ _ _ G); [exact W1|lia|lia|exact F|lia|lia]|]. rewrite R_ret. fin.
      + step. kwc. apply negb_true_iff in W3.
        eapply R_step; [apply R_kw_no; rewrite starts_app; [exact W3|apply head_ok_ne, (node_head dl); exact W1]|].
        cbv beta iota.
        eapply R_step; [apply (g_expr _ _ _ G); [exact W1|lia|lia|exact F|lia|lia]|]. rewrite R_ret. fin.
    - (* function *)
      rewrite wf_node_eq in W. cbv beta iota in W. rewrite !andb_true_iff in W. destruct W as [[[W1 W2] W3] W4].
      apply negb_true_iff in W2. rewrite (t_node_eq (EFunction _ _ _ _ _)) in L |- *. cbv beta iota in *.
      set (T := parens (commas s_node args) ++ match over with Some o => kwt "OVER" :: parens (s_winspec o) | None => [] end) in *.
      rewrite <- app_assoc. destruct o as [l]. unfold wf_on in W1. unfold t_name in *. cbn [on_idents] in *.
      destruct l as [|i l]; [discriminate W1|]. cbn [first_in] in W2.
      rewrite dots_more in *. unfold parse_prefix. rewrite <- app_comm_cons. step. cbn [idt tkind]. step.
      rewrite !(word_in_kw _ _ _ W2) by reflexivity. cbn [orb]. step.
      fold (idt i). unfold wf_ids in W1. cbn [nonempty forallb andb] in W1. apply andb_true_iff in W1 as [Wi Wl].
      rewrite (ident_of_idt dl) by exact Wi. cbv zeta.
      replace (match _ with Some n => negb (is_kind LParen n) && negb (is_kind Period n) | None => true end) with false
        by (destruct l; reflexivity).
      rewrite app_length in L. cbn [List.length] in L.
      assert (L2 : (List.length l < r_fuel r)%nat).
      { clear -L FU.
        assert (H : (List.length l <= len (List.concat (map (fun j => [dot; idt j]) l)))%nat).
        { clear. induction l; cbn in *; lia. } lia. }
      eapply R_step; [apply (R_dotted r dl); [exact Wl|exact L2|reflexivity]|cbv beta iota].
      change (T ++ rest) with (lpar :: tl T ++ rest). step. step.
      change (lpar :: tl T ++ rest) with (T ++ rest).
      pose proof (R_function (mkON (i :: l)) args p1 over p2) as Q. fold T in Q. unfold er_on in Q at 1. cbn [on_idents map] in Q.
      rewrite Q; [fin|exact W3|exact W4|lia|exact F].
    - (* case *)
      unfold parse_prefix. pose proof (R_case p1 p2 o bs el d rest W L) as Q.
      rewrite (t_node_eq (ECase _ _ _ _ _)) in *. cbv beta iota in *. rewrite <- app_comm_cons in *. step. cbn [kwt tkind]. step.
      kwc. step. exact Q.
    - (* exists *)
      rewrite wf_node_eq in W. cbv beta iota in W. rewrite (t_node_eq (EExists _ _ _ _ _)) in L |- *. cbv beta iota in *. unfold parse_prefix.
      destruct neg; cbn [cond app] in *.
      + step. cbn [kwt tkind]. step. kwc. step. step.
        pose proof (R_exists (Some (kwt "NOT")) true q p1 p2 p3) as Q. cbn [app] in Q. cbn [kwt] in Q. rewrite Q; auto; [fin|].
        unfold parens in L. repeat (rewrite ?app_length in L; cbn [List.length app] in L). lia.
      + step. cbn [kwt tkind]. step. kwc. step.
        pose proof (R_exists None false q p1 p2 p3) as Q. cbn [app] in Q. cbn [kwt] in Q. rewrite Q; auto.
        unfold parens in L. repeat (rewrite ?app_length in L; cbn [List.length app] in L). lia.
    - (* subquery *)
      rewrite wf_node_eq in W. cbv beta iota in W. rewrite !andb_true_iff in W. destruct W as [W1 W2].
      rewrite (t_node_eq (ESubQuery _ _ _)) in L |- *. cbv beta iota in *. unfold parens in *. cbn [app].
      ll L.
      rewrite <- app_assoc. cbn [app]. unfold parse_prefix. step. cbn [lpar sy tkind].
      assert (Q : R (r_query r) (lpar :: d, s_query q ++ rpar :: rest) = Ok (equery q) (rev (s_query q) ++ lpar :: d, rpar :: rest))
        by (apply R_sub; [exact W1|lia]).
      destruct (sub_query_starts q W1 W2) as (x & [[E S]|E]); rewrite E in Q |- *; rewrite <- app_comm_cons in *.
      + step. eapply R_step; [apply R_kw_no, S|]. cbv beta iota. cbn [orb]. step.
        eapply R_step; [exact Q|cbv beta iota]. step. rewrite R_ret. fin.
      + step. step. cbn [orb]. step.
        eapply R_step; [exact Q|cbv beta iota]. step. rewrite R_ret. fin.
    - (* integer *)
      rewrite wf_node_eq in W. cbv beta iota in W. rewrite t_node_eq. cbn [app]. unfold parse_prefix, parse_value.
      step. cbn [num tkind]. step. step. cbn [tkind]. step.
      rewrite atoi_format by exact W.
      replace (existsb _ (format_int _)) with false.
      2:{ symmetry. apply digits_nodot. apply format_int_ok. unfold wf_int in W. lia. }
      destruct v. reflexivity.
    - (* double *)
      rewrite wf_node_eq in W. cbv beta iota in W. rewrite !andb_true_iff in W. destruct W as [[[W1 W2] _] _].
      rewrite t_node_eq. cbn [app]. unfold parse_prefix, parse_value. step. cbn [tkind]. step. step. cbn [tkind]. step.
      rewrite W2. destruct (parse_float (format_float f)) as [g|]; [|discriminate W1].
      assert (g = f) as ->.
      { destruct f as [a b], g as [a' b']. cbn in W1. f_equal; lia. }
      reflexivity.
    - reflexivity.
    - reflexivity.
    - destruct b; reflexivity.
    - reflexivity.
  Qed.

  (** *** Operators *)

  Definition binary (o : optype) : bool := match o with ONot | ONone => false | _ => true end.
  Lemma nprec_op o x : binary (op_type o) = true -> nprec (s_op o ++ x) = level (op_type o) /\ expr_follow (s_op o ++ x) = true.
  Proof. unfold s_op. destruct (op_type o); intros H; try discriminate H; try destruct (w_neq sty o); split; reflexivity. Qed.

  Lemma R_infix_binary e0 o rr d rest : binary (op_type o) = true -> ok_node rr = true -> (len (s_node rr) < N)%nat ->
    level (op_type o) < s_lopen rr -> expr_follow rest = true -> nprec rest <= level (op_type o) -> nprec rest <= open_right rr ->
    R (parse_infix r e0 (level (op_type o))) (d, s_op o ++ s_node rr ++ rest)
    = Ok (EBinary e0 (mkOp (op_type o) pos0 pos0) (enode rr)) (rev (s_op o ++ s_node rr) ++ d, rest).
  Proof.
    intros B W L LO F P1 P2. unfold parse_infix, s_op.
    destruct (op_type o); try discriminate B; try destruct (w_neq sty o); cbn [t_op app kws map]; step;
      (eapply R_step; [reflexivity|cbv beta iota]);
      (eapply R_step; [apply (g_expr _ _ _ G); assumption|]); rewrite R_ret; fin.
  Qed.

  Lemma R_infix_cast e0 ty d rest : wf_type dl ty = true -> (len (s_type ty) < r_fuel r)%nat -> expr_follow rest = true ->
    R (parse_infix r e0 cast_level) (d, sy DoubleColon "::" :: s_type ty ++ rest)
    = Ok (ECast e0 (ety ty) pos0 pos0) (rev (sy DoubleColon "::" :: s_type ty) ++ d, rest).
  Proof.
    intros W L F. unfold parse_infix. step. eapply R_step; [reflexivity|cbv beta iota]. cbn [sy tkind].
    eapply R_step; [apply (R_type r dl); [exact W|side0|exact L]|cbv beta iota]. rewrite R_ret. fin.
  Qed.

  Lemma R_infix_null e0 p d rest :
    R (parse_infix r e0 p) (d, kws ["IS"; "NULL"] ++ rest) = Ok (EIsNull e0) (rev (kws ["IS"; "NULL"]) ++ d, rest).
  Proof. reflexivity. Qed.
  Lemma R_infix_notnull e0 p d rest :
    R (parse_infix r e0 p) (d, kws ["IS"; "NOT"; "NULL"] ++ rest)
    = Ok (EIsNotNull e0) (rev (kws ["IS"; "NOT"; "NULL"]) ++ d, rest).
  Proof. reflexivity. Qed.

  Lemma R_in_list e0 l neg d rest : nonempty l = true -> forallb ok_node l = true ->
    negb (starts "SELECT" (commas s_node l)) = true -> negb (starts "WITH" (commas s_node l)) = true ->
    (len (commas s_node l) < N)%nat ->
    R (parse_in r e0 neg) (d, parens (commas s_node l) ++ rest)
    = Ok (EInList e0 (map enode l) neg pos0) (rev (parens (commas s_node l)) ++ d, rest).
  Proof.
    intros NE W S1 S2 L. apply negb_true_iff in S1, S2. unfold parse_in, parens. sh. step.
    assert (E : commas s_node l <> []).
    { destruct l as [|e l]; [discriminate NE|]. apply head_ok_ne, commas_head, (node_head dl).
      cbn [forallb] in W. apply andb_true_iff in W. apply W. }
    eapply R_step; [apply R_kw_no; rewrite starts_app; assumption|cbv beta iota].
    eapply R_step; [apply R_kw_no; rewrite starts_app; assumption|cbv beta iota]. cbn [orb].
    eapply R_step; [apply R_expr_list; auto|cbv beta iota]. step. rewrite R_ret. fin.
  Qed.
  Lemma R_in_query e0 q neg d rest : ok_query dl q = true -> s_sub_query q = true -> (len (s_query q) < N)%nat ->
    R (parse_in r e0 neg) (d, parens (s_query q) ++ rest)
    = Ok (EInSubQuery e0 (equery q) neg pos0) (rev (parens (s_query q)) ++ d, rest).
  Proof.
    intros W1 W2 L. unfold parse_in, parens. sh. step.
    assert (Q : R (r_query r) (lpar :: d, s_query q ++ rpar :: rest) = Ok (equery q) (rev (s_query q) ++ lpar :: d, rpar :: rest))
      by (apply R_sub; [exact W1|lia]).
    destruct (sub_query_starts q W1 W2) as (x & [[E S]|E]); rewrite E in Q |- *; rewrite <- app_comm_cons in *.
    - step. eapply R_step; [apply R_kw_no, S|]. cbv beta iota. cbn [orb]. step.
      eapply R_step; [exact Q|cbv beta iota]. step. rewrite R_ret. fin.
    - step. step. cbn [orb]. step.
      eapply R_step; [exact Q|cbv beta iota]. step. rewrite R_ret. fin.
  Qed.

  Lemma R_infix_in e0 p neg d rest :
    R (parse_infix r e0 p) (d, cond neg [kwt "NOT"] ++ kwt "IN" :: rest)
    = R (parse_in r e0 neg) (kwt "IN" :: rev (cond neg [kwt "NOT"]) ++ d, rest).
  Proof.
    unfold parse_infix. destruct neg; cbn [cond app].
    - step. eapply R_step; [reflexivity|cbv beta iota]. cbn [kwt tkind]. step. kwc. step. step. step. fin.
    - step. eapply R_step; [reflexivity|cbv beta iota]. cbn [kwt tkind]. step. kwc. step. step. step. fin.
  Qed.
  Lemma R_infix_between e0 p neg lo hi d rest : ok_node lo = true -> ok_node hi = true -> s_atomic lo = true ->
    s_atomic hi = true -> (len (s_node lo) <= N)%nat -> (len (s_node hi) <= N)%nat ->
    expr_follow rest = true -> nprec rest <= open_right hi ->
    R (parse_infix r e0 p) (d, cond neg [kwt "NOT"] ++ kwt "BETWEEN" :: s_node lo ++ kwt "AND" :: s_node hi ++ rest)
    = Ok (EBetween e0 neg (enode lo) (enode hi))
         (rev (cond neg [kwt "NOT"] ++ kwt "BETWEEN" :: s_node lo ++ kwt "AND" :: s_node hi) ++ d, rest).
  Proof.
    intros W1 W2 A1 A2 L1 L2 F P.
    assert (B : forall d', R (parse_between r e0 neg) (d', s_node lo ++ kwt "AND" :: s_node hi ++ rest)
      = Ok (EBetween e0 neg (enode lo) (enode hi)) (rev (s_node lo ++ kwt "AND" :: s_node hi) ++ d', rest)).
    { intros d'. unfold parse_between. eapply R_step; [apply R_prefix; auto|cbv beta iota].
      { pose proof (wf_strength _ _ W1). unfold s_atomic, closed in *. change (nprec _) with 10. lia. }
      step. eapply R_step; [apply R_prefix; auto|cbv beta iota]. rewrite R_ret. fin. }
    unfold parse_infix. destruct neg; cbn [cond app].
    - step. eapply R_step; [reflexivity|cbv beta iota]. cbn [kwt tkind]. step. kwc. step. step. step. step.
      rewrite B. fin.
    - step. eapply R_step; [reflexivity|cbv beta iota]. cbn [kwt tkind]. step. kwc. step. step. step. step.
      rewrite B. fin.
  Qed.

  Lemma neg_ops neg w y rest : w = "IN"%string \/ w = "BETWEEN"%string ->
    exists ops, ops = cond neg [kwt "NOT"] ++ kwt w :: y /\ (0 < len ops)%nat /\
      nprec (ops ++ rest) = in_level neg /\ expr_follow (ops ++ rest) = true /\ sane (ops ++ rest) = true /\
      (neg = false -> iskw "NOT" (ops ++ rest) = false /\ iskw "NULL" (ops ++ rest) = false).
  Proof.
    intros H. eexists. split; [reflexivity|]. split; [rewrite app_length; apply Nat.add_pos_r, Nat.lt_0_succ|].
    destruct H as [-> | ->], neg; (split; [reflexivity|split; [reflexivity|split; [reflexivity|]]]); intros X; first [discriminate X|split; reflexivity].
  Qed.

  Section Pratt.
    Variables (prec : Z) (body : node -> prog (node + node)) (dflt : bool).
    Hypothesis Hb : forall e d ts, sane ts = true -> prec < nprec ts ->
      (dflt = true -> iskw "NOT" ts = false /\ iskw "NULL" ts = false) ->
      R (body e) (d, ts) = R (e' <- parse_infix r e (nprec ts) ;; Ret (inl e')) (d, ts).

    Lemma pratt e : ok_node e = true -> (len (s_node e) <= N)%nat -> prec < s_lopen e ->
      (dflt = true -> s_no_not e = true) -> forall rest, expr_follow rest = true -> nprec rest <= open_right e ->
      exists k, (k < len (s_node e))%nat /\ forall n d,
        R (bind (parse_prefix r) (fun x => loop (k + n) body x)) (d, s_node e ++ rest)
        = R (loop n body (enode e)) (rev (s_node e) ++ d, rest).
    Proof.
      assert (At : forall e, ok_node e = true -> (len (s_node e) <= N)%nat -> s_atomic e = true -> forall rest,
        expr_follow rest = true -> nprec rest <= open_right e ->
        exists k, (k < len (s_node e))%nat /\ forall n d,
        R (bind (parse_prefix r) (fun x => loop (k + n) body x)) (d, s_node e ++ rest)
        = R (loop n body (enode e)) (rev (s_node e) ++ d, rest)).
      { intros x W L A rest F P. exists O. split.
        - pose proof (node_head _ _ W) as H0. apply head_ok_ne in H0. destruct (s_node x); [congruence|cbn; lia].
        - intros n d. eapply R_step; [apply R_prefix; auto|]. reflexivity. }
      (* one more operator after a left operand *)
      assert (More : forall l x full (ops : list token) lv, s_node full = s_node l ++ ops ->
        (0 < len ops)%nat -> prec < lv ->
        (exists k, (k < len (s_node l))%nat /\ forall n d,
          R (bind (parse_prefix r) (fun y => loop (k + n) body y)) (d, s_node l ++ ops ++ x)
          = R (loop n body (enode l)) (rev (s_node l) ++ d, ops ++ x)) ->
        sane (ops ++ x) = true -> nprec (ops ++ x) = lv ->
        (dflt = true -> iskw "NOT" (ops ++ x) = false /\ iskw "NULL" (ops ++ x) = false) ->
        (forall d, R (parse_infix r (enode l) lv) (d, ops ++ x) = Ok (enode full) (rev ops ++ d, x)) ->
        exists k, (k < len (s_node full))%nat /\ forall n d,
          R (bind (parse_prefix r) (fun y => loop (k + n) body y)) (d, s_node full ++ x)
          = R (loop n body (enode full)) (rev (s_node full) ++ d, x)).
      { intros l x full ops lv E NE Hp (k & K1 & K2) Hs Hn Hd Hi. exists (S k). rewrite E, app_length. split; [lia|].
        intros n d. replace (S k + n)%nat with (k + S n)%nat by lia. rewrite <- app_assoc, K2. cbn [loop].
        rewrite run_bind, Hb; [|exact Hs|lia|exact Hd]. rewrite run_bind, Hn, Hi. cbn [obind run]. 
        rewrite rev_app_distr, <- app_assoc. reflexivity. }
      induction e as [i|p|l|l|x IH|x IH|e IH l neg p|e IH q neg p|e IH neg lo _ hi _|l IHl op rr _|e IH ty p1 p2|e _ p1 p2|f op e _
                  |o args p1 over p2|p1 p2 o bs el|neg q p1 p2 p3|q p1 p2|v|p1 p2 f|p1 p2 s|p1 p2 s|p1 p2 b|p1 p2];
        intros W L LO D rest F P; try (apply At; auto; fail).
      - (* is null *)
        rewrite wf_node_eq in W. cbv beta iota in W. apply andb_true_iff in W as [W1 W2].
        rewrite (t_node_eq (EIsNull x)) in L. ll L. cbn [s_lopen] in LO. unfold is_level in *. cbn [s_no_not] in D.
        apply (More x rest (EIsNull x) (kws ["IS"; "NULL"]) 17); [rewrite t_node_eq; reflexivity|cbn; lia|lia| |reflexivity|reflexivity|split; reflexivity|].
        + apply IH; auto; try lia. change (nprec (kws ["IS"; "NULL"] ++ rest)) with 17. lia.
        + intros d. apply R_infix_null.
      - rewrite wf_node_eq in W. cbv beta iota in W. apply andb_true_iff in W as [W1 W2].
        rewrite (t_node_eq (EIsNotNull x)) in L. ll L. cbn [s_lopen] in LO. unfold is_level in *. cbn [s_no_not] in D.
        apply (More x rest (EIsNotNull x) (kws ["IS"; "NOT"; "NULL"]) 17); [rewrite t_node_eq; reflexivity|cbn; lia|lia| |reflexivity|reflexivity|split; reflexivity|].
        + apply IH; auto; try lia. change (nprec (kws ["IS"; "NOT"; "NULL"] ++ rest)) with 17. lia.
        + intros d. apply R_infix_notnull.
      - (* in list *)
        rewrite wf_node_eq in W. cbv beta iota in W. rewrite !andb_true_iff in W. destruct W as [[[[[W1 W2] W3] W4] W5] W6].
        rewrite (t_node_eq (EInList e l neg p)) in L. unfold parens in L. ll L. cbn [s_lopen] in LO. cbn [s_no_not] in D. cbn [open_right] in P.
        destruct (neg_ops neg "IN" (parens (commas s_node l)) rest) as (ops & E & O1 & O2 & O3 & O4 & O5); [auto|].
        apply (More e rest (EInList e l neg p) ops (in_level neg));
          [rewrite t_node_eq, E; reflexivity|exact O1|zl| |exact O4|exact O2| |].
        + apply IH; [exact W1|zl|zl| |exact O3|rewrite O2; zl].
          intros Hd. specialize (D Hd). apply andb_true_iff in D. apply D.
        + intros Hd. specialize (D Hd). apply andb_true_iff in D as [D _]. apply O5. destruct neg; [discriminate D|reflexivity].
        + intros d. rewrite E. repeat (rewrite <- app_assoc || rewrite <- app_comm_cons).
          rewrite R_infix_in, R_in_list; [fin|assumption..|zl].
      - (* in query *)
        rewrite wf_node_eq in W. cbv beta iota in W. rewrite !andb_true_iff in W. destruct W as [[[W1 W2] W3] W4].
        rewrite (t_node_eq (EInSubQuery e q neg p)) in L. unfold parens in L. ll L. cbn [s_lopen] in LO. cbn [s_no_not] in D. cbn [open_right] in P.
        destruct (neg_ops neg "IN" (parens (s_query q)) rest) as (ops & E & O1 & O2 & O3 & O4 & O5); [auto|].
        apply (More e rest (EInSubQuery e q neg p) ops (in_level neg));
          [rewrite t_node_eq, E; reflexivity|exact O1|zl| |exact O4|exact O2| |].
        + apply IH; [exact W1|zl|zl| |exact O3|rewrite O2; zl].
          intros Hd. specialize (D Hd). apply andb_true_iff in D. apply D.
        + intros Hd. specialize (D Hd). apply andb_true_iff in D as [D _]. apply O5. destruct neg; [discriminate D|reflexivity].
        + intros d. rewrite E. repeat (rewrite <- app_assoc || rewrite <- app_comm_cons).
          rewrite R_infix_in, R_in_query; [fin|assumption..|zl].
      - (* between *)
        rewrite wf_node_eq in W. cbv beta iota in W. rewrite !andb_true_iff in W. destruct W as [[[[[W1 W2] W3] W4] W5] W6].
        rewrite (t_node_eq (EBetween e neg lo hi)) in L. ll L. cbn [s_lopen] in LO. cbn [s_no_not] in D. cbn [open_right] in P.
        destruct (neg_ops neg "BETWEEN" (s_node lo ++ kwt "AND" :: s_node hi) rest) as (ops & E & O1 & O2 & O3 & O4 & O5); [auto|].
        apply (More e rest (EBetween e neg lo hi) ops (in_level neg));
          [rewrite t_node_eq, E; reflexivity|exact O1|zl| |exact O4|exact O2| |].
        + apply IH; [exact W1|zl|zl| |exact O3|rewrite O2; zl].
          intros Hd. specialize (D Hd). apply andb_true_iff in D. apply D.
        + intros Hd. specialize (D Hd). apply andb_true_iff in D as [D _]. apply O5. destruct neg; [discriminate D|reflexivity].
        + intros d. rewrite E. repeat (rewrite <- app_assoc || rewrite <- app_comm_cons).
          rewrite (R_infix_between (enode e) (in_level neg) neg lo hi d rest); try assumption; [fin|zl|zl].
      - (* binary *)
        rewrite wf_node_eq in W. cbv beta iota in W. rewrite !andb_true_iff in W. destruct W as [[[[W1 W2] W3] W4] W5].
        rewrite (t_node_eq (EBinary _ _ _)) in L. ll L. cbn [s_lopen] in LO. cbn [s_no_not] in D. cbn [open_right] in P.
        assert (B : binary (op_type op) = true) by (destruct (op_type op); try discriminate W3; reflexivity).
        assert (L1 : (0 < len (s_op op))%nat)
          by (unfold s_op; destruct (op_type op); try discriminate B; try destruct (w_neq sty op); cbn; zl).
        assert (L2 : (0 < len (s_node l))%nat).
        { pose proof (node_head _ _ W1) as H0. apply head_ok_ne in H0. destruct (s_node l); [congruence|cbn; zl]. }
        apply (More l rest (EBinary l op rr) (s_op op ++ s_node rr) (level (op_type op)));
          [rewrite t_node_eq; reflexivity|rewrite app_length; zl|zl| | | | |].
        + apply IHl; auto; try zl.
          * intros Hd. specialize (D Hd). apply andb_true_iff in D. apply D.
          * rewrite <- app_assoc. apply nprec_op. exact B.
          * rewrite <- app_assoc. destruct (nprec_op op (s_node rr ++ rest) B) as [-> _]. zl.
        + rewrite <- app_assoc. destruct (nprec_op op (s_node rr ++ rest) B) as [_ C]. side0.
        + rewrite <- app_assoc. apply nprec_op. exact B.
        + intros Hd. specialize (D Hd). apply andb_true_iff in D as [D _].
          rewrite <- app_assoc. unfold s_op. destruct (op_type op); try discriminate B; try discriminate D; try destruct (w_neq sty op); split; reflexivity.
        + intros d. rewrite <- app_assoc. rewrite R_infix_binary; auto; zl.
      - (* cast *)
        destruct (w_cast sty p1) eqn:WC.
        { apply At; auto. unfold s_atomic. cbn [s_lopen]. rewrite WC. reflexivity. }
        rewrite wf_node_eq in W. cbv beta iota in W. rewrite WC in W. cbn [orb] in W. rewrite !andb_true_iff in W. destruct W as [[W1 W2] W3].
        rewrite (t_node_eq (ECast e ty p1 p2)), WC in L. ll L. cbn [s_lopen] in LO. cbn [s_no_not] in D. rewrite WC in LO, D.
        assert (FU : (N < r_fuel r)%nat) by (pose proof (g_fuel _ _ _ G); clear -H L; lia).
        apply (More e rest (ECast e ty p1 p2) (sy DoubleColon "::" :: s_type ty) cast_level);
          [rewrite t_node_eq, WC; reflexivity|cbn; zl|zl| |reflexivity|reflexivity|split; reflexivity|].
        + apply IH; auto; try zl. change (nprec ((sy DoubleColon "::" :: s_type ty) ++ rest)) with cast_level. zl.
        + intros d. rewrite <- app_comm_cons. rewrite R_infix_cast; [fin|exact W2|zl|exact F].
    Qed.
  End Pratt.

  Lemma R_subexpr e prec d rest : ok_node e = true -> (len (s_node e) <= N)%nat -> prec < s_lopen e ->
    expr_follow rest = true -> nprec rest <= prec -> nprec rest <= open_right e ->
    R (parse_subexpr r prec) (d, s_node e ++ rest) = Ok (enode e) (rev (s_node e) ++ d, rest).
  Proof.
    intros W L LO F P1 P2. unfold parse_subexpr, infix_loop.
    destruct (pratt prec (fun e => np <- get_next_precedence ;;
       if np <=? prec then Ret (inr e) else e' <- parse_infix r e np ;; Ret (inl e')) false) with (e := e) (rest := rest)
      as (k & K1 & K2); auto; try discriminate.
    { intros x d' ts Hs Hp _. rewrite run_bind, R_prec by exact Hs. cbn [obind].
      replace (nprec ts <=? prec) with false by lia. reflexivity. }
    pose proof (g_fuel _ _ _ G). replace (r_fuel r) with (k + S (r_fuel r - k - 1))%nat by lia.
    rewrite K2. cbn [loop]. rewrite run_bind, run_bind, R_prec by side0. cbn [obind].
    replace (nprec rest <=? prec) with true by lia. reflexivity.
  Qed.

  Lemma R_default e d rest : ok_node e = true -> (len (s_node e) <= N)%nat -> s_no_not e = true ->
    expr_follow rest = true -> nprec rest <= open_right e ->
    iskw "NOT" rest || iskw "NULL" rest || (nprec rest =? 0) = true ->
    R (parse_default_expr r) (d, s_node e ++ rest) = Ok (enode e) (rev (s_node e) ++ d, rest).
  Proof.
    intros W L NN F P ST. unfold parse_default_expr.
    set (body := fun e => o <- peek ;;
       stop <- (match o with
                | Some t => if is_kind SQLKeyword t
                            then w <- word_of t ;; Ret (kw w "NOT" || kw w "NULL")
                            else Ret false
                | None => Ret false
                end) ;;
       if stop : bool then Ret (inr e)
       else
         np <- get_next_precedence ;;
         if np <=? 0 then Ret (inr e)
         else e' <- parse_infix r e np ;; Ret (inl e')).
    assert (B : forall x d' ts, sane ts = true ->
      R (body x) (d', ts) = if iskw "NOT" ts || iskw "NULL" ts then Ok (inr x) (d', ts)
        else R (np <- get_next_precedence ;; if np <=? 0 then Ret (inr x) else e' <- parse_infix r x np ;; Ret (inl e')) (d', ts)).
    { intros x d' ts Hs. unfold body. rewrite run_bind, R_peek. cbn [obind]. rewrite run_bind.
      destruct ts as [|t ts]; [reflexivity|]. cbn [sane iskw] in *. apply andb_true_iff in Hs as [Hs _].
      destruct (tval t) as [w|] eqn:V.
      - rewrite Hs, run_bind, (R_word t w) by exact V. cbn [obind run]. destruct (kw w "NOT" || kw w "NULL"); reflexivity.
      - apply negb_true_iff in Hs. rewrite Hs. reflexivity. }
    destruct (pratt 0 body true) with (e := e) (rest := rest) as (k & K1 & K2); auto.
    { intros x d' ts Hs Hp Hd. rewrite B by exact Hs. destruct (Hd eq_refl) as [-> ->]. cbn [orb].
      rewrite run_bind, R_prec by exact Hs. cbn [obind]. replace (nprec ts <=? 0) with false by (clear -Hp; lia). reflexivity. }
    { pose proof (wf_strength _ _ W) as Z. clear -Z. lia. }
    pose proof (g_fuel _ _ _ G). replace (r_fuel r) with (k + S (r_fuel r - k - 1))%nat by (clear -K1 L H; lia).
    etransitivity; [apply K2|]. cbn [loop]. rewrite run_bind, B by side0.
    destruct (iskw "NOT" rest || iskw "NULL" rest); [reflexivity|]. cbn [orb] in ST. apply Z.eqb_eq in ST.
    rewrite run_bind, R_prec by side0. cbn [obind]. rewrite ST. reflexivity.
  Qed.
End Expr.
End Style.
