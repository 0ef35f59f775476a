(** Proofs about genmark. *)
From Coq Require Import ZArith List Bool String Lia ZifyBool.
From Verif Require Import Base Genmark GenmarkSpec CharSpec.
Import ListNotations.
Open Scope Z_scope.

Lemma cap_spec r : is_cap r = true <-> capital r. Proof. unfold is_cap, capital. lia. Qed.
Lemma low_spec r : is_low r = true <-> small r. Proof. unfold is_low, small. lia. Qed.
Lemma lower_cap r : capital r -> to_lower r = r + 32.
Proof. unfold capital, to_lower. intros H. destruct (_ && _) eqn:E; lia. Qed.

(** ** SQL becomes Sql *)
Definition mixed (w : cword) : gostring := match w with SQLw => gs "Sql" | Word c l => c :: l end.

Lemma replace_nosql a t : (forall b c r, t = b :: c :: r -> is_sql a b c = false) -> replace_sql (a :: t) = a :: replace_sql t.
Proof. intros H. cbn [replace_sql]. destruct t as [|b [|c r]]; auto. now rewrite (H b c r eq_refl). Qed.
Lemma replace_small s t : Forall small s -> replace_sql (s ++ t) = s ++ replace_sql t.
Proof.
  induction 1 as [|a s Ha Hs IH]; [reflexivity|]. cbn [app]. rewrite replace_nosql; [now rewrite IH|].
  intros b c r _. unfold is_sql, small in *. lia.
Qed.
Lemma replace_words l : words_ok l -> replace_sql (List.concat (map camel l)) = List.concat (map mixed l).
Proof.
  induction l as [|[|c s] l IH]; intros H; [reflexivity| |]; cbn [map List.concat camel mixed].
  - cbn [words_ok] in H. change (gs "SQL" ++ ?t) with (83 :: 81 :: 76 :: t). change (gs "Sql" ++ ?t) with (83 :: 113 :: 108 :: t).
    cbn [replace_sql]. change (is_sql 83 81 76) with true. cbv iota. now rewrite IH.
  - cbn [words_ok] in H. destruct H as (Hc & Hs & Hn & Hl). cbn [app]. rewrite replace_nosql.
    + rewrite replace_small by exact Hs. now rewrite IH.
    + intros b c' r E. destruct s as [|x s].
      * destruct l as [|w l]; [discriminate E|]. destruct Hn; [discriminate|reflexivity].
      * injection E as <- _. inversion Hs; subst. unfold is_sql, small in *. lia.
Qed.

(** ** Underscores *)
Lemma rest_small s t : Forall small s -> (match t with [] => True | b :: _ => is_cap b = false end) -> snake_rest (s ++ t) = s ++ snake_rest t.
Proof.
  intros Hs Ht. induction Hs as [|a s Ha Hs IH]; [reflexivity|]. cbn [app]. destruct (s ++ t) as [|b r] eqn:E.
  - apply app_eq_nil in E as [-> ->]. reflexivity.
  - change (snake_rest (a :: b :: r)) with (if is_low a && is_cap b then a :: 95 :: to_lower b :: snake_rest r else a :: snake_rest (b :: r)).
    assert (C : is_cap b = false).
    { destruct s as [|x s]; cbn [app] in E; [subst t; exact Ht|]. injection E as <- _. inversion Hs; subst. unfold small, is_cap in *. lia. }
    rewrite C, andb_false_r, <- IH. reflexivity.
Qed.
Lemma rest_last s a c t : Forall small s -> small a -> capital c ->
  snake_rest (s ++ a :: c :: t) = s ++ a :: 95 :: (c + 32) :: snake_rest t.
Proof.
  intros Hs Ha Hc. induction Hs as [|x s Hx Hs IH].
  - cbn [app snake_rest]. rewrite (proj2 (low_spec a) Ha), (proj2 (cap_spec c) Hc), (lower_cap c Hc). reflexivity.
  - cbn [app]. assert (E : exists b r, s ++ a :: c :: t = b :: r /\ small b).
    { destruct s as [|b s]; [eexists _, _; split; [reflexivity|exact Ha]|]. inversion Hs; subst. eexists _, _. split; [reflexivity|assumption]. }
    destruct E as (b & r & E & Hb). rewrite E in *.
    change (snake_rest (x :: b :: r)) with (if is_low x && is_cap b then x :: 95 :: to_lower b :: snake_rest r else x :: snake_rest (b :: r)).
    assert (C : is_cap b = false) by (unfold small, is_cap in *; lia). rewrite C, andb_false_r, IH. reflexivity.
Qed.

(** A word after its first letter. *)
Definition first (w : cword) : rune := match w with SQLw => 83 | Word c _ => c end.
Definition others (w : cword) : list rune := match w with SQLw => [113; 108] | Word _ l => l end.
Lemma rest_words w l : words_ok (w :: l) -> snake_rest (others w ++ List.concat (map mixed l)) = others w ++ List.concat (map (fun x => 95 :: snake x) l).
Proof.
  revert w. induction l as [|v l IH]; intros w H.
  - cbn [map List.concat]. rewrite (rest_small (others w) []); [reflexivity| |exact I].
    destruct w; cbn [others]; [repeat constructor; unfold small; lia|]. apply H.
  - assert (Ho : Forall small (others w)) by (destruct w; cbn [others]; [repeat constructor; unfold small; lia|apply H]).
    assert (Hn : others w <> []) by (destruct w; cbn [others]; [discriminate|]; apply H; discriminate).
    assert (Hv : words_ok (v :: l)) by (destruct w; apply H).
    assert (Hc : capital (first v)) by (destruct v; cbn [first]; [unfold capital; lia|apply Hv]).
    destruct (exists_last Hn) as (s & a & E). rewrite E in *. apply Forall_app in Ho as [Hs Ha]. inversion Ha; subst.
    assert (M : mixed v = first v :: others v) by (destruct v; reflexivity). cbn [map List.concat]. rewrite M.
    cbn [app]. rewrite <- !app_assoc. cbn [app]. rewrite rest_last by assumption. rewrite (IH v Hv).
    assert (S : snake v = (first v + 32) :: others v) by (destruct v; reflexivity). rewrite S. reflexivity.
Qed.
Lemma join_words w l : snake w ++ List.concat (map (fun x => 95 :: snake x) l) = join [95] (map snake (w :: l)).
Proof.
  revert w. induction l as [|v l IH]; intros w; [cbn; apply app_nil_r|]. cbn [map List.concat]. rewrite <- app_comm_cons, IH. reflexivity.
Qed.
Lemma to_snake_words l : words_ok l -> to_snake (List.concat (map camel l)) = join [95] (map snake l).
Proof.
  intros H. unfold to_snake. rewrite replace_words by exact H. destruct l as [|w l]; [reflexivity|].
  assert (M : mixed w = first w :: others w) by (destruct w; reflexivity). cbn [map List.concat]. rewrite M. cbn [app snake_all].
  assert (Hc : capital (first w)) by (destruct w; cbn [first]; [unfold capital; lia|apply H]).
  rewrite (proj2 (cap_spec _) Hc), (lower_cap _ Hc), rest_words by exact H.
  assert (S : snake w = (first w + 32) :: others w) by (destruct w; reflexivity).
  transitivity (snake w ++ List.concat (map (fun x => 95 :: snake x) l)); [rewrite S; reflexivity|]. apply (join_words w l).
Qed.
Lemma snake_small l : words_ok l -> Forall (fun r => small r \/ r = 95) (join [95] (map snake l)).
Proof.
  intros H. assert (W : Forall (fun w => Forall small (snake w)) l).
  { induction l as [|[|c s] l IH]; constructor.
    - cbn. repeat (apply Forall_cons; [unfold small; lia|]). apply Forall_nil.
    - apply IH, H.
    - unfold snake. destruct H as (Hc & Hs & _). constructor; [unfold capital, small in *; lia|exact Hs].
    - apply IH. apply H. }
  clear H. assert (I : forall s, Forall small s -> Forall (fun r => small r \/ r = 95) s) by (intros s; apply Forall_impl; auto).
  induction W as [|w l Hw Hl IH]; [constructor|]. cbn [map join]. destruct (map snake l) eqn:E; [now apply I|].
  apply Forall_app. split; [now apply I|]. cbn [app]. constructor; [now right|exact IH].
Qed.

(** ** Private names *)
Lemma to_private_some c r : exists x r', to_private (c :: r) = Some (x :: r') /\ (capital c -> small x).
Proof.
  unfold to_private. destruct r as [|b [|d r]]; cbv zeta; try (eexists _, _; split; [reflexivity|]; intros H; rewrite (lower_cap c H); unfold capital, small in *; lia).
  destruct (is_sql c b d); eexists _, _; (split; [reflexivity|]); intros H.
  - change (to_lower 115) with 115. unfold small. lia.
  - rewrite (lower_cap c H). unfold capital, small in *. lia.
Qed.
Definition begins (p s : gostring) : Prop := exists r, s = p ++ r.
Lemma to_private_cases s n : (exists c r, s = c :: r /\ capital c) -> to_private s = Some n ->
  (exists r, s = gs "SQL" ++ r /\ n = gs "sql" ++ r) \/ (~ begins (gs "SQL") s /\ exists c r, s = c :: r /\ n = (c + 32) :: r).
Proof.
  intros (c & r & -> & Hc) E. unfold to_private in E. cbv zeta in E.
  assert (N : forall t, n = (c + 32) :: t -> t = r -> ~ begins (gs "SQL") (c :: r) -> (exists r0, c :: r = gs "SQL" ++ r0 /\ n = gs "sql" ++ r0) \/ (~ begins (gs "SQL") (c :: r) /\ exists c0 r0, c :: r = c0 :: r0 /\ n = (c0 + 32) :: r0)).
  { intros t -> -> B. right. split; [exact B|]. now exists c, r. }
  destruct r as [|b [|d r]].
  - injection E as <-. apply (N []); auto; [now rewrite lower_cap|]. intros [x X]. discriminate X.
  - injection E as <-. apply (N [b]); auto; [now rewrite lower_cap|]. intros [x X]. discriminate X.
  - destruct (is_sql c b d) eqn:Q.
    + left. exists r. unfold is_sql in Q. assert (c = 83 /\ b = 81 /\ d = 76) as (-> & -> & ->) by lia. injection E as <-. auto.
    + injection E as <-. apply (N (b :: d :: r)); auto; [now rewrite lower_cap|]. intros [x X]. cbn in X. injection X as -> -> -> _. discriminate Q.
Qed.
Lemma to_private_inj s t n : (exists c r, s = c :: r /\ capital c) -> (exists c r, t = c :: r /\ capital c) ->
  ~ begins (gs "Sql") s -> ~ begins (gs "Sql") t -> to_private s = Some n -> to_private t = Some n -> s = t.
Proof.
  intros Cs Ct Bs Bt Es Et.
  destruct (to_private_cases s n Cs Es) as [(r & -> & ->)|(Ns & c & r & -> & ->)];
    destruct (to_private_cases t _ Ct Et) as [(r' & -> & E)|(Nt & c' & r' & -> & E)].
  - apply app_inv_head in E. now subst.
  - exfalso. cbn in E. injection E as E1 E2. apply Bt. exists r. assert (c' = 83) as -> by lia. subst r'. reflexivity.
  - exfalso. cbn in E. injection E as E1 E2. apply Bs. exists r'. assert (c = 83) as -> by lia. subst r. reflexivity.
  - injection E as E1 ->. f_equal. lia.
Qed.
Lemma to_private_other s n : (exists c r, s = c :: r /\ capital c) -> to_private s = Some n -> exists x r, n = x :: r /\ small x.
Proof. intros (c & r & -> & Hc) E. destruct (to_private_some c r) as (x & r' & E' & H). rewrite E in E'. injection E' as ->. eauto. Qed.

(** ** The generated file *)
Lemma lines_line s r : ~ In 10 s -> lines (s ++ 10 :: r) = s :: lines r.
Proof.
  induction s as [|c s IH]; intros N; cbn [lines app]; [reflexivity|].
  destruct (Z.eqb_spec c 10) as [->|]; [destruct N; now left|]. rewrite IH; [reflexivity|]. intros I. apply N. now right.
Qed.
Lemma split_join s : join [44] (split_comma s) = s /\ split_comma s <> [] /\ Forall (fun x => ~ In 44 x) (split_comma s).
Proof.
  induction s as [|c s (J & N & F)]; [repeat constructor; auto; discriminate|]. cbn [split_comma]. destruct (Z.eqb_spec c 44) as [->|C].
  - split; [|split; [discriminate|constructor; auto]]. destruct (split_comma s) as [|x l]; [congruence|].
    change (join [44] ([] :: x :: l)) with (44 :: join [44] (x :: l)). now rewrite J.
  - destruct (split_comma s) as [|x l]; [congruence|]. inversion F; subst. split; [|split; [discriminate|]].
    + cbn [join] in *. destruct l; cbn [app] in *; congruence.
    + constructor; auto. intros [E|E]; auto.
Qed.
Lemma embedded_lines l r : Forall (fun x => ~ In 10 x) l -> lines (List.concat (map (fun e => e ++ [10]) l) ++ r) = l ++ lines r.
Proof.
  induction 1 as [|x l Hx Hl IH]; [reflexivity|]. cbn [map List.concat app]. rewrite <- !app_assoc. cbn [app]. rewrite lines_line by exact Hx. now rewrite IH.
Qed.
Lemma in_split_comma s x c : In x (split_comma s) -> In c x -> In c s.
Proof.
  revert x. induction s as [|a s IH]; intros x I J; cbn [split_comma] in I.
  - destruct I as [<-|[]]. destruct J.
  - destruct (a =? 44); [destruct I as [<-|I]; [destruct J|right; eauto]|].
    destruct (split_comma s) as [|y l] eqn:E.
    + destruct I as [<-|[]]. destruct J as [<-|[]]. now left.
    + destruct I as [<-|I].
      * destruct J as [<-|J]; [now left|right]. apply (IH y); [now left|exact J].
      * right. apply (IH x); [now right|exact J].
Qed.
Lemma genmark_file f c r : g_type f = c :: r -> capital c ->
  ~ In 10 (g_type f) -> ~ In 10 (g_pkg f) -> ~ In 10 (g_embed f) ->
  exists impl out text l, to_private (g_type f) = Some impl /\ genmark f = GFile (out ++ gs "_gen.go") text /\
    (g_out f <> [] -> out = g_out f) /\ (g_out f = [] -> out = to_snake (g_type f)) /\
    lines text = marker_file (g_pkg f) (g_type f) impl l /\
    (g_embed f = [] -> l = []) /\ (g_embed f <> [] -> join [44] l = g_embed f /\ l <> [] /\ Forall (fun x => ~ In 44 x) l).
Proof.
  intros E Hc N1 N2 N3. destruct (to_private_some c r) as (x & r' & P & _).
  assert (N4 : ~ In 10 (x :: r')).
  { intros I. rewrite E in N1. unfold to_private in P. cbv zeta in P. assert (Hx : to_lower c <> 10) by (rewrite lower_cap by exact Hc; unfold capital in Hc; lia).
    destruct r as [|b [|d r]]; try (injection P as <- <-; destruct I as [I|I]; [congruence|]; apply N1; now right).
    destruct (is_sql c b d); injection P as <- <-.
    - destruct I as [I|[I|[I|I]]]; try discriminate I. apply N1. right. right. now right.
    - destruct I as [I|I]; [congruence|]. apply N1. now right. }
  assert (P' : to_private (g_type f) = Some (x :: r')) by (rewrite E; exact P).
  unfold genmark. destruct (g_type f) as [|c' t] eqn:Et; [discriminate E|]. injection E as -> ->. rewrite (proj2 (cap_spec c) Hc), P'. cbn [negb].
  rewrite <- Et in *.
  set (impl := x :: r') in *. set (l := match g_embed f with [] => [] | e => split_comma e end).
  set (out := match g_out f with [] => to_snake (g_type f) | o => o end).
  exists impl, out. eexists. exists l. split; [first [reflexivity|exact P']|]. split; [reflexivity|].
  split; [unfold out; destruct (g_out f); congruence|]. split; [unfold out; intros ->; reflexivity|]. split.
  - assert (L : Forall (fun x => ~ In 10 x) l).
    { unfold l. destruct (g_embed f) as [|e1 e2] eqn:Ee; [constructor|]. apply Forall_forall. intros y I J. apply N3. exact (in_split_comma _ _ _ I J). }
    clearbody l impl. clear P P' out.
    assert (G : forall s, ~ In 10 (gs s) -> forall t, ~ In 10 t -> ~ In 10 (gs s ++ t)) by (intros s A t B I; apply in_app_iff in I as [I|I]; auto).
    assert (A : forall s t : gostring, ~ In 10 s -> ~ In 10 t -> ~ In 10 (s ++ t)) by (intros s t A B I; apply in_app_iff in I as [I|I]; auto).
    assert (K : forall s, forallb (fun c => negb (c =? 10)) (gs s) = true -> ~ In 10 (gs s)).
    { intros s F I. apply (proj1 (forallb_forall _ _) F) in I. discriminate I. }
    unfold marker_file. 
    replace (gs "package " ++ g_pkg f ++ [10] ++ gs "// Code generated by genmark. DO NOT EDIT." ++ [10; 10] ++ gs "type " ++ g_type f ++ gs " interface {" ++ [10] ++ impl ++ gs "Marker()" ++ [10] ++
      List.concat (map (fun e => e ++ [10]) l) ++ gs "}" ++ [10] ++ gs "type " ++ impl ++ gs " struct {}" ++ [10] ++ gs "func (" ++ impl ++ gs ") " ++ impl ++ gs "Marker() {}" ++ [10])
    with ((gs "package " ++ g_pkg f) ++ 10 :: gs "// Code generated by genmark. DO NOT EDIT." ++ 10 :: [] ++ 10 :: (gs "type " ++ g_type f ++ gs " interface {") ++ 10 :: (impl ++ gs "Marker()") ++ 10 ::
      List.concat (map (fun e => e ++ [10]) l) ++ gs "}" ++ 10 :: (gs "type " ++ impl ++ gs " struct {}") ++ 10 :: (gs "func (" ++ impl ++ gs ") " ++ impl ++ gs "Marker() {}") ++ 10 :: [])
    by (rewrite <- !app_assoc; reflexivity).
    rewrite lines_line by (auto using K). rewrite lines_line by (apply K; reflexivity). rewrite lines_line by (intros []).
    rewrite lines_line by (auto 10 using K). rewrite lines_line by (auto using K). rewrite embedded_lines by exact L.
    rewrite lines_line by (apply K; reflexivity). rewrite lines_line by (auto 10 using K). rewrite lines_line by (auto 10 using K).
    reflexivity.
  - unfold l. split; [intros ->; reflexivity|]. intros Ne. destruct (g_embed f) as [|e1 e2] eqn:Ee; [congruence|]. apply (split_join (e1 :: e2)).
Qed.
Lemma genmark_errors f : (exists m, genmark f = GFlag m) <-> ~ (exists c r, g_type f = c :: r /\ capital c).
Proof.
  unfold genmark. destruct (g_type f) as [|c r].
  - split; [intros _ (c & r & E & _); discriminate E|]. intros _. now eexists.
  - destruct (is_cap c) eqn:C; cbn [negb].
    + apply cap_spec in C. destruct (to_private_some c r) as (x & r' & -> & _). split; [intros [m E]; discriminate E|].
      intros N. destruct N. eauto.
    + split; [|intros _; now eexists]. intros _ (c' & r' & E & H). injection E as <- <-. apply cap_spec in H. congruence.
Qed.
