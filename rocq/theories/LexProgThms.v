(** Proofs about the calls of the tokenizer on its scanner (C72). *)
From Coq Require Import ZArith List Bool String Lia.
From Verif Require Import Base Dialect Token Lexer LexSpec Utf8 Reader ReaderSpec ReaderThms LexProg.
Import ListNotations.
Open Scope list_scope.
Open Scope Z_scope.

Definition real (s : list rune) : Prop := Forall (fun r => r <> EOFr) s.
Definition sees_no_eof (d : dialect) : Prop := is_start d EOFr = false /\ is_part d EOFr = false /\ is_delim d EOFr = false.

Lemma dialect_ok_eof d : dialect_ok d -> sees_no_eof d.
Proof.
  intros (S & P & D). repeat split.
  - destruct (is_start d EOFr) eqn:E; [|reflexivity]. destruct (S _ E) as [W _]. vm_compute in W. discriminate.
  - destruct (is_part d EOFr) eqn:E; [|reflexivity]. specialize (P _ E). vm_compute in P. discriminate.
  - destruct (is_delim d EOFr) eqn:E; [|reflexivity]. destruct (D _ E) as [H|H]; discriminate.
Qed.

(** Running [sbind] *)
Lemma exec_bind {S A B} (pk nx : S -> rune * S) (p : sprog A) (f : A -> sprog B) : forall s,
  exec pk nx (sbind p f) s =
  let '(o, s1, u) := exec pk nx p s in
  match o with
  | None => (None, s1, u)
  | Some a => let '(b, s2, v) := exec pk nx (f a) s1 in (b, s2, mkUsage (peeks u + peeks v) (nexts u + nexts v))
  end.
Proof.
  induction p as [a|k IH|k IH|]; intros s; cbn [sbind exec].
  - destruct (exec pk nx (f a) s) as [[b s2] [v1 v2]]. reflexivity.
  - destruct (pk s) as [r s']. rewrite IH. destruct (exec pk nx (k r) s') as [[[a|] s1] [u1 u2]]; [|reflexivity].
    destruct (exec pk nx (f a) s1) as [[b s2] [v1 v2]]. reflexivity.
  - destruct (nx s) as [r s']. rewrite IH. destruct (exec pk nx (k r) s') as [[[a|] s1] [u1 u2]]; [|reflexivity].
    destruct (exec pk nx (f a) s1) as [[b s2] [v1 v2]]. reflexivity.
  - reflexivity.
Qed.

Lemma text_bind {A B} (p : sprog A) (f : A -> sprog B) s a s1 u :
  on_text p s = (Some a, s1, u) ->
  on_text (sbind p f) s = let '(b, s2, v) := on_text (f a) s1 in (b, s2, mkUsage (peeks u + peeks v) (nexts u + nexts v)).
Proof. intros H. unfold on_text in *. rewrite exec_bind, H. reflexivity. Qed.

Lemma text_bind_out {A B} (p : sprog A) (f : A -> sprog B) s :
  fst (fst (on_text p s)) = None -> fst (fst (on_text (sbind p f) s)) = None.
Proof. intros H. unfold on_text in *. rewrite exec_bind. destruct (exec _ _ p s) as [[[a|] s1] u]; [discriminate|reflexivity]. Qed.

(** The loops *)
Lemma word_runs d s : is_part d EOFr = false -> forall n acc w rest, scan_part d s = Some (w, rest) -> (List.length w < n)%nat ->
  on_text (word_loop d n acc) s = (Some (acc ++ w), rest, mkUsage (S (List.length w)) (List.length w)) /\ List.length s = (List.length w + List.length rest)%nat.
Proof.
  intros PE. induction s as [|r s IH]; intros n acc w rest H L; cbn [scan_part] in H.
  - rewrite PE in H. injection H as <- <-. destruct n; [cbn in L; lia|]. unfold on_text. cbn [word_loop exec text_peek hd]. rewrite PE. cbn. rewrite app_nil_r. auto.
  - destruct n; [lia|]. unfold on_text. cbn [word_loop exec text_peek hd]. destruct (is_part d r) eqn:P.
    + destruct (scan_part d s) as [[w' rest']|] eqn:E; [|discriminate]. injection H as <- <-. cbn [List.length] in L.
      destruct (IH n (acc ++ [r]) w' rest' eq_refl ltac:(lia)) as [X Y]. unfold on_text in X. cbn [exec text_next tl hd]. rewrite X. cbn. rewrite <- app_assoc, Y. auto.
    + injection H as <- <-. cbn. rewrite app_nil_r. auto.
Qed.

Lemma word_total d s : is_part d EOFr = false -> exists w rest, scan_part d s = Some (w, rest).
Proof.
  intros PE. induction s as [|r s (w & rest & IH)]; cbn [scan_part]; [rewrite PE; eauto|].
  destruct (is_part d r); [rewrite IH|]; eauto.
Qed.

Lemma number_runs s : forall n acc w rest, scan_number s = (w, rest) -> (List.length w < n)%nat ->
  on_text (number_loop n acc) s = (Some (acc ++ w), rest, mkUsage (S (List.length w)) (List.length w)) /\ List.length s = (List.length w + List.length rest)%nat.
Proof.
  induction s as [|r s IH]; intros n acc w rest H L; cbn [scan_number] in H.
  - injection H as <- <-. destruct n; [cbn in L; lia|]. cbn. rewrite app_nil_r. auto.
  - destruct n; [lia|]. unfold on_text. cbn [number_loop exec text_peek hd]. destruct (is_digit r || (r =? 46)) eqn:P.
    + destruct (scan_number s) as [w' rest'] eqn:E. injection H as <- <-. cbn [List.length] in L.
      destruct (IH n (acc ++ [r]) w' rest' eq_refl ltac:(lia)) as [X Y]. unfold on_text in X. cbn [exec text_next tl hd]. rewrite X. cbn. rewrite <- app_assoc, Y. auto.
    + injection H as <- <-. cbn. rewrite app_nil_r. auto.
Qed.

Lemma line_runs s : real s -> forall n acc w rest, scan_line s = (w, rest) -> (List.length w < n)%nat ->
  on_text (line_loop n acc) s = (Some (acc ++ w), rest, mkUsage (S (List.length w)) (List.length w)) /\ List.length s = (List.length w + List.length rest)%nat.
Proof.
  induction s as [|r s IH]; intros R n acc w rest H L; cbn [scan_line] in H.
  - injection H as <- <-. destruct n; [cbn in L; lia|]. cbn. rewrite app_nil_r. auto.
  - inversion R as [|? ? NE R']; subst. destruct n; [lia|]. unfold on_text. cbn [line_loop exec text_peek hd].
    replace (r =? EOFr) with false by (symmetry; apply Z.eqb_neq; exact NE). cbn [negb andb]. destruct (r =? 10) eqn:P; cbn [negb].
    + injection H as <- <-. cbn. rewrite app_nil_r. auto.
    + destruct (scan_line s) as [w' rest'] eqn:E. injection H as <- <-. cbn [List.length] in L.
      destruct (IH R' n (acc ++ [r]) w' rest' eq_refl ltac:(lia)) as [X Y]. unfold on_text in X. cbn [exec text_next tl hd]. rewrite X. cbn. rewrite <- app_assoc, Y. auto.
Qed.

Lemma delim_runs q s : forall n acc w rest, scan_delim q s = Some (w, rest) -> (List.length s <= n)%nat ->
  on_text (delim_loop q n acc) s = (Some (acc ++ w), rest, mkUsage 0 (S (List.length w))) /\ List.length s = (S (List.length w) + List.length rest)%nat.
Proof.
  induction s as [|r s IH]; intros n acc w rest H L; cbn [scan_delim] in H; [discriminate|].
  destruct n; [cbn in L; lia|]. unfold on_text. cbn [delim_loop exec text_next hd tl]. destruct (r =? q).
  - injection H as <- <-. cbn. rewrite app_nil_r. auto.
  - destruct (scan_delim q s) as [[w' rest']|] eqn:E; [|discriminate]. injection H as <- <-. cbn [List.length] in L.
    destruct (IH n (acc ++ [r]) w' rest' eq_refl ltac:(lia)) as [X Y]. unfold on_text in X. rewrite X. cbn. rewrite <- app_assoc, Y. auto.
Qed.

Lemma delim_hangs q : q <> EOFr -> forall n s acc, scan_delim q s = None -> fst (fst (on_text (delim_loop q n acc) s)) = None.
Proof.
  intros Q. induction n as [|n IH]; intros s acc H; [reflexivity|]. unfold on_text. cbn [delim_loop exec text_next].
  assert (X : exists s', tl s = s' /\ scan_delim q s' = None /\ (hd EOFr s =? q) = false).
  { destruct s as [|r s]; cbn [scan_delim hd tl] in *.
    - exists []. split; [reflexivity|]. split; [reflexivity|]. apply Z.eqb_neq. congruence.
    - destruct (r =? q); [discriminate|]. destruct (scan_delim q s) as [[? ?]|] eqn:E; [discriminate|]. eauto. }
  destruct X as (s' & -> & H' & ->). specialize (IH s' (acc ++ [hd EOFr s]) H'). unfold on_text in IH.
  destruct (exec text_peek text_next (delim_loop q n (acc ++ [hd EOFr s])) s') as [[a s2] u]. exact IH.
Qed.

Lemma string_runs n : forall s acc, real s -> (List.length s < n)%nat ->
  match scan_string s with
  | Some (w, rest) => exists k, List.length s = (k + List.length rest)%nat /\ (0 < k)%nat /\ on_text (string_loop n acc) s = (Some (Some (acc ++ w)), rest, mkUsage (S k) k)
  | None => on_text (string_loop n acc) s = (Some None, [], mkUsage (S (List.length s)) (List.length s))
  end.
Proof.
  induction n as [|n IH]; intros s acc R L; [lia|]. unfold on_text. cbn [string_loop exec text_peek].
  destruct s as [|r s]; [reflexivity|]. cbn [scan_string hd]. inversion R as [|? ? NE R']; subst. cbn [List.length] in L.
  destruct (r =? 39) eqn:Q.
  - cbn [exec text_next text_peek hd tl]. destruct s as [|m s].
    + exists 1%nat. cbn. rewrite app_nil_r. auto.
    + cbn [hd]. destruct (m =? 39) eqn:Q2.
      * inversion R' as [|? ? NE' R2]; subst. cbn [List.length] in L. specialize (IH s (acc ++ [39]) R2 ltac:(lia)). cbn [exec text_next tl].
        destruct (scan_string s) as [[w rest]|].
        -- destruct IH as (k & K1 & K2 & X). exists (S (S k)). cbn [List.length]. split; [lia|]. split; [lia|]. unfold on_text in X. rewrite X. cbn [peeks nexts Nat.add]. rewrite <- app_assoc. reflexivity.
        -- unfold on_text in IH. rewrite IH. reflexivity.
      * exists 1%nat. cbn. rewrite app_nil_r. auto.
  - replace (r =? EOFr) with false by (symmetry; apply Z.eqb_neq; exact NE). cbn [exec text_next tl].
    specialize (IH s (acc ++ [r]) R' ltac:(lia)). destruct (scan_string s) as [[w rest]|].
    + destruct IH as (k & K1 & K2 & X). exists (S k). cbn [List.length]. split; [lia|]. split; [lia|]. unfold on_text in X. rewrite X. cbn [peeks nexts Nat.add]. rewrite <- app_assoc. reflexivity.
    + unfold on_text in IH. rewrite IH. reflexivity.
Qed.

Lemma block_runs n : forall s may acc line col, real s -> (List.length s < n)%nat ->
  match scan_block s may (rev acc) line col with
  | inl (w, rest, l, c) => exists k p, List.length s = (k + List.length rest)%nat /\ (p <= k)%nat /\
      on_text (block_loop n may acc line col) s = (Some (inl (w, l, c)), rest, mkUsage p k)
  | inr (l, c) => exists p, (p <= List.length s)%nat /\
      on_text (block_loop n may acc line col) s = (Some (inr (l, c)), [], mkUsage p (S (List.length s)))
  end.
Proof.
  induction n as [|n IH]; intros s may acc line col R L; [lia|]. unfold on_text. cbn [block_loop exec text_next].
  destruct s as [|r s]; [exists 0%nat; split; [cbn; lia|reflexivity]|]. cbn [scan_block hd tl]. inversion R as [|? ? NE R']; subst. cbn [List.length] in L.
  set (acc2 := if r =? 42 then if may then acc ++ [r] else acc else (if may then acc ++ [r] else acc) ++ [r]).
  assert (RA : (if r =? 42 then if may then r :: rev acc else rev acc else r :: (if may then r :: rev acc else rev acc)) = rev acc2).
  { subst acc2. destruct (r =? 42), may; rewrite ?rev_app_distr; reflexivity. }
  rewrite RA. clear RA.
  destruct (r =? 13) eqn:Q13; [|destruct (r =? 10) eqn:Q10].
  - assert (Q47 : (r =? 47) = false) by lia. assert (Q42 : (r =? 42) = false) by lia. rewrite Q47, !andb_false_r. cbn [exec text_peek].
    subst acc2. rewrite Q42 in *.
    set (acc2 := (if may then acc ++ [r] else acc) ++ [r]) in *. change ((if may then acc ++ [r] else acc) ++ [r]) with acc2.
    destruct s as [|m s]; [|cbn [hd]; destruct (m =? 10) eqn:M].
    + replace (hd EOFr [] =? 10) with false by reflexivity.
      specialize (IH [] false acc2 (line + 1) 1 R' ltac:(cbn [List.length]; lia)). cbn [scan_block] in *. destruct IH as (p & P & X).
      exists (S p). cbn [List.length] in *. split; [lia|]. unfold on_text in X. rewrite X. reflexivity.
    + inversion R' as [|? ? NE' R2]; subst. cbn [List.length] in L. specialize (IH s false acc2 (line + 1) 1 R2 ltac:(lia)). cbn [exec text_next tl].
      destruct (scan_block s false (rev acc2) (line + 1) 1) as [[[[w rest] l] c]|[l c]].
      * destruct IH as (k & p & K & P & X). exists (S (S k)), (S p). cbn [List.length]. split; [lia|]. split; [lia|]. unfold on_text in X. rewrite X. reflexivity.
      * destruct IH as (p & P & X). exists (S p). cbn [List.length]. split; [lia|]. unfold on_text in X. rewrite X. reflexivity.
    + specialize (IH (m :: s) false acc2 (line + 1) 1 R' ltac:(lia)).
      destruct (scan_block (m :: s) false (rev acc2) (line + 1) 1) as [[[[w rest] l] c]|[l c]].
      * destruct IH as (k & p & K & P & X). exists (S k), (S p). cbn [List.length] in *. split; [lia|]. split; [lia|]. unfold on_text in X. rewrite X. reflexivity.
      * destruct IH as (p & P & X). exists (S p). cbn [List.length] in *. split; [lia|]. unfold on_text in X. rewrite X. reflexivity.
  - assert (Q47 : (r =? 47) = false) by lia. assert (Q42 : (r =? 42) = false) by lia. rewrite Q47, !andb_false_r.
    subst acc2. rewrite Q42 in *.
    set (acc2 := (if may then acc ++ [r] else acc) ++ [r]) in *. change ((if may then acc ++ [r] else acc) ++ [r]) with acc2.
    specialize (IH s false acc2 (line + 1) 1 R' ltac:(lia)).
    destruct (scan_block s false (rev acc2) (line + 1) 1) as [[[[w rest] l] c]|[l c]].
    + destruct IH as (k & p & K & P & X). exists (S k), p. cbn [List.length] in *. split; [lia|]. split; [lia|]. unfold on_text in X. rewrite X. reflexivity.
    + destruct IH as (p & P & X). exists p. cbn [List.length] in *. split; [lia|]. unfold on_text in X. rewrite X. reflexivity.
  - replace (r =? EOFr) with false by (symmetry; apply Z.eqb_neq; exact NE).
    destruct (may && (r =? 47)) eqn:Q.
    + rewrite rev_involutive. exists 1%nat, 0%nat. cbn. auto.
    + cbv zeta. specialize (IH s (r =? 42) acc2 line (col + 1) R' ltac:(lia)).
      destruct (scan_block s (r =? 42) (rev acc2) line (col + 1)) as [[[[w rest] l] c]|[l c]].
      * destruct IH as (k & p & K & P & X). exists (S k), p. cbn [List.length] in *. split; [lia|]. split; [lia|]. unfold on_text in X. match goal with |- context [exec _ _ ?p s] => change p with (block_loop n (r =? 42) acc2 line (col + 1)) end. rewrite X. reflexivity.
      * destruct IH as (p & P & X). exists p. cbn [List.length] in *. split; [lia|]. unfold on_text in X. match goal with |- context [exec _ _ ?p s] => change p with (block_loop n (r =? 42) acc2 line (col + 1)) end. rewrite X. reflexivity.
Qed.

(** One token *)
Definition next_ok (d : dialect) (n : nat) (src : list rune) (line col : Z) : Prop :=
  match next d src line col with
  | LTok k v rest l c => exists p x, List.length src = (x + List.length rest)%nat /\ (0 < x)%nat /\ (p <= x + 2)%nat /\
      on_text (next_prog d n line col) src = (Some (ATok k v l c), rest, mkUsage p x)
  | LEof => src = [] /\ on_text (next_prog d n line col) src = (Some AEof, [], mkUsage 1 0)
  | LErr rest l c => exists p x y, List.length src = (y + List.length rest)%nat /\ (x <= y + 1)%nat /\ (p <= List.length src + 2)%nat /\
      on_text (next_prog d n line col) src = (Some (AErr l c), rest, mkUsage p x)
  | LHang => fst (fst (on_text (next_prog d n line col) src)) = None
  end.

Lemma meq_eof q : matching_end_quote q <> EOFr.
Proof. unfold matching_end_quote, EOFr. destruct (q =? 34), (q =? 91), (q =? 96); discriminate. Qed.

Ltac one := eexists _, _; (split; [|split; [|split]]); [| | |unfold on_text; cbn [exec text_peek text_next hd tl]; reflexivity]; cbn [List.length peeks nexts]; lia.

Lemma next_runs d n src line col : sees_no_eof d -> real src -> (List.length src < n)%nat -> next_ok d n src line col.
Proof.
  intros (SE & PE & DE) R L. unfold next_ok. destruct src as [|r s].
  - cbn [next]. rewrite SE, DE. split; [reflexivity|]. unfold on_text, next_prog. cbn [exec text_peek hd]. rewrite SE, DE. reflexivity.
  - cbn [List.length] in L. inversion R as [|? ? NE R']; subst.
    assert (W : forall f, match tokenize_word d f s line col with
      | LTok k v rest l c => exists p x, List.length s = (x + List.length rest)%nat /\ (p <= x + 1)%nat /\
          on_text (word_prog d n f line col) s = (Some (ATok k v l c), rest, mkUsage p x)
      | _ => False end).
    { intros f. unfold tokenize_word. destruct (word_total d s PE) as (w & rest & E). rewrite E.
      assert (LW : (List.length w < n)%nat). { destruct (word_runs d s PE (S (List.length w)) [] w rest E ltac:(lia)) as [_ Y]. lia. }
      destruct (word_runs d s PE n [f] w rest E LW) as [X Y]. exists (S (List.length w)), (List.length w). split; [exact Y|]. split; [lia|].
      unfold word_prog. rewrite (text_bind _ _ _ _ _ _ X). unfold on_text. cbn [exec]. cbn [peeks nexts]. rewrite !Nat.add_0_r. reflexivity. }
    assert (ST : forall k s1 col, s1 = tl s1 \/ s1 <> [] -> real (tl s1) -> (List.length (tl s1) < n)%nat -> match tokenize_string k (tl s1) line col with
      | LTok k' v rest l c => exists p x, List.length (tl s1) = (x + List.length rest)%nat /\ (p <= x + 1)%nat /\
          on_text (string_prog k n line col) s1 = (Some (ATok k' v l c), rest, mkUsage p (S x))
      | LErr rest l c => rest = [] /\ on_text (string_prog k n line col) s1 = (Some (AErr l c), [], mkUsage (S (List.length (tl s1))) (S (List.length (tl s1))))
      | _ => False end).
    { intros k s1 col0 _ R1 L1. unfold tokenize_string. pose proof (string_runs n (tl s1) [] R1 L1) as X. destruct (scan_string (tl s1)) as [[w rest]|].
      - destruct X as (x & X1 & X2 & X). exists (S x), x. split; [exact X1|]. split; [lia|]. unfold string_prog, on_text. cbn [exec text_next].
        pose proof (text_bind (string_loop n []) (fun o : option (list rune) => SRet match o with Some s => ATok k (VStr s) line (col0 + 2 + glen s) | None => AErr line col0 end) _ _ _ _ X) as Y.
        unfold on_text in Y. rewrite Y. cbn [exec peeks nexts]. rewrite !Nat.add_0_r. reflexivity.
      - split; [reflexivity|]. unfold string_prog, on_text. cbn [exec text_next].
        pose proof (text_bind (string_loop n []) (fun o : option (list rune) => SRet match o with Some s => ATok k (VStr s) line (col0 + 2 + glen s) | None => AErr line col0 end) _ _ _ _ X) as Y.
        unfold on_text in Y. rewrite Y. cbn [exec peeks nexts]. rewrite !Nat.add_0_r. reflexivity. }
    unfold next, next_prog. unfold sym1, sym2.
    assert (PK : forall (k : rune -> sprog lexans), on_text (SPeek k) (r :: s) = let '(a, s', u) := on_text (k r) (r :: s) in (a, s', mkUsage (1 + peeks u) (nexts u))) by reflexivity.
    assert (NX : forall (k : rune -> sprog lexans), on_text (SNext k) (r :: s) = let '(a, s', u) := on_text (k r) s in (a, s', mkUsage (peeks u) (1 + nexts u))) by reflexivity.
    assert (PKs : forall (k : rune -> sprog lexans), on_text (SPeek k) s = let '(a, s', u) := on_text (k (hd EOFr s)) s in (a, s', mkUsage (1 + peeks u) (nexts u))) by reflexivity.
    assert (NXs : forall (k : rune -> sprog lexans), on_text (SNext k) s = let '(a, s', u) := on_text (k (hd EOFr s)) (tl s) in (a, s', mkUsage (peeks u) (1 + nexts u))) by reflexivity.
    assert (RT : forall (a : lexans) s0, on_text (SRet a) s0 = (Some a, s0, mkUsage 0 0)) by reflexivity.
    rewrite PK. cbv beta.
    assert (FIN : forall k v l c, exists p x, List.length (r :: s) = (x + List.length s)%nat /\ (0 < x)%nat /\ (p <= x + 2)%nat /\
      (let '(a, s', u) := on_text (SNext (fun _ => SRet (ATok k v l c))) (r :: s) in (a, s', mkUsage (1 + peeks u) (nexts u))) = (Some (ATok k v l c), s, mkUsage p x)).
    { intros. exists 1%nat, 1%nat. cbn. repeat split; lia. }
    assert (TWO : forall (t : rune -> bool) (yes no : sprog lexans), on_text (SNext (fun _ => SPeek (fun m => if t m then yes else no))) (r :: s) =
      let '(a, s', u) := (if t (hd EOFr s) then on_text yes s else on_text no s) in (a, s', mkUsage (1 + peeks u) (1 + nexts u))).
    { intros. rewrite NX, PKs. destruct (t (hd EOFr s)); destruct (on_text _ s) as [[? ?] [? ?]]; reflexivity. }
    destruct (r =? 32); [apply FIN|]. destruct (r =? 9); [apply FIN|]. destruct (r =? 10); [apply FIN|].
    destruct (r =? 13).
    { rewrite (TWO (fun m => m =? 10)). destruct s as [|m s]; cbn [hd]; [one|]. destruct (m =? 10); one. }
    destruct (r =? 78).
    { rewrite (TWO (fun m => m =? 39)). destruct s as [|m s]; cbn [hd].
      - specialize (W 78). replace (EOFr =? 39) with false by reflexivity. destruct (tokenize_word d 78 [] line col); try contradiction.
        destruct W as (p & x & X1 & X2 & ->). exists (2 + p)%nat, (S x). cbn [List.length peeks nexts Nat.add] in *. repeat split; lia || reflexivity.
      - destruct (m =? 39).
        + inversion R' as [|? ? _ R2]; subst. cbn [List.length] in L.
          specialize (ST NationalStringLiteral (m :: s) (col + 1) ltac:(right; discriminate) R2 ltac:(cbn; lia)). cbn [tl] in ST.
          destruct (tokenize_string NationalStringLiteral s line (col + 1)); try contradiction.
          * destruct ST as (p & x & X1 & X2 & ->). exists (2 + p)%nat, (2 + x)%nat. cbn [List.length peeks nexts Nat.add] in *. repeat split; lia || reflexivity.
          * destruct ST as (-> & ->). exists (2 + S (List.length s))%nat, (2 + List.length s)%nat, (2 + List.length s)%nat. cbn [List.length peeks nexts Nat.add] in *. repeat split; lia || reflexivity.
        + specialize (W 78). destruct (tokenize_word d 78 (m :: s) line col); try contradiction.
          destruct W as (p & x & X1 & X2 & ->). exists (2 + p)%nat, (S x). cbn [List.length peeks nexts Nat.add] in *. repeat split; lia || reflexivity. }
    destruct (is_start d r).
    { rewrite NX. specialize (W r). destruct (tokenize_word d r s line col); try contradiction.
      destruct W as (p & x & X1 & X2 & ->). exists (1 + p)%nat, (S x). cbn [List.length peeks nexts Nat.add] in *. repeat split; lia || reflexivity. }
    destruct (r =? 39).
    { specialize (ST SingleQuotedString (r :: s) col ltac:(right; discriminate) R' ltac:(cbn; lia)). cbn [tl] in ST.
      destruct (tokenize_string SingleQuotedString s line col); try contradiction.
      - destruct ST as (p & x & X1 & X2 & ->). exists (1 + p)%nat, (1 + x)%nat. cbn [List.length peeks nexts Nat.add] in *. repeat split; lia || reflexivity.
      - destruct ST as (-> & ->). exists (2 + List.length s)%nat, (1 + List.length s)%nat, (1 + List.length s)%nat. cbn [List.length peeks nexts Nat.add] in *. repeat split; lia || reflexivity. }
    destruct (is_delim d r).
    { rewrite NX. destruct (scan_delim (matching_end_quote r) s) as [[w rest]|] eqn:E.
      - destruct (delim_runs _ s n [] w rest E ltac:(lia)) as [X Y]. rewrite (text_bind _ _ _ _ _ _ X), RT.
        exists 1%nat, (2 + List.length w)%nat. cbn [List.length peeks nexts Nat.add app] in *. rewrite Nat.add_0_r. repeat split; lia || reflexivity.
      - pose proof (text_bind_out (delim_loop (matching_end_quote r) n [])
          (fun s0 => SRet (ATok SQLKeyword (VWord (make_keyword s0 r)) line (col + 2 + zlen s0))) s (delim_hangs _ (meq_eof r) n s [] E)) as X.
        destruct (on_text (sbind _ _) s) as [[a s'] u]. exact X. }
    destruct (is_digit r) eqn:DG.
    { destruct (scan_number (r :: s)) as [w rest] eqn:E.
      assert (LW : (List.length w < n)%nat). { destruct (number_runs (r :: s) (S (List.length w)) [] w rest E ltac:(lia)) as [_ Y]. cbn [List.length] in Y. lia. }
      destruct (number_runs (r :: s) n [] w rest E LW) as [X Y]. rewrite (text_bind _ _ _ _ _ _ X), RT.
      exists (2 + List.length w)%nat, (List.length w). cbn [peeks nexts Nat.add app]. rewrite !Nat.add_0_r. split; [exact Y|]. split; [|split; [lia|reflexivity]].
      cbn [scan_number] in E. rewrite DG in E. cbn [orb] in E. destruct (scan_number s) as [w' rest']. injection E as <- <-. cbn. lia. }
    destruct (r =? 40); [apply FIN|]. destruct (r =? 41); [apply FIN|]. destruct (r =? 44); [apply FIN|].
    destruct (r =? 45).
    { rewrite (TWO (fun m => m =? 45)). destruct s as [|m s]; cbn [hd]; [one|]. destruct (m =? 45); [|one].
      rewrite NXs. cbn [tl]. inversion R' as [|? ? _ R2]; subst. cbn [List.length] in L. destruct (scan_line s) as [w rest] eqn:E.
      assert (LW : (List.length w < n)%nat). { destruct (line_runs s R2 (S (List.length w)) [] w rest E ltac:(lia)) as [_ Y]. lia. }
      destruct (line_runs s R2 n [] w rest E LW) as [X Y]. rewrite (text_bind _ _ _ _ _ _ X), RT.
      exists (3 + List.length w)%nat, (2 + List.length w)%nat. cbn [List.length peeks nexts Nat.add app]. rewrite !Nat.add_0_r. repeat split; lia || reflexivity. }
    destruct (r =? 47).
    { rewrite (TWO (fun m => m =? 42)). destruct s as [|m s]; cbn [hd]; [one|]. destruct (m =? 42); [|one].
      rewrite NXs. cbn [tl]. inversion R' as [|? ? _ R2]; subst. cbn [List.length] in L.
      pose proof (block_runs n s false [] line (col + 2) R2 ltac:(lia)) as B. cbn [rev] in B.
      destruct (scan_block s false [] line (col + 2)) as [[[[w rest] l] c]|[l c]].
      - destruct B as (k & p & K & P & X). rewrite (text_bind _ _ _ _ _ _ X), RT. exists (2 + p)%nat, (2 + k)%nat.
        cbn [List.length peeks nexts Nat.add]. rewrite !Nat.add_0_r. repeat split; lia || reflexivity.
      - destruct B as (p & P & X). rewrite (text_bind _ _ _ _ _ _ X), RT. exists (2 + p)%nat, (3 + List.length s)%nat, (2 + List.length s)%nat.
        cbn [List.length peeks nexts Nat.add]. rewrite !Nat.add_0_r. repeat split; lia || reflexivity. }
    destruct (r =? 43); [apply FIN|]. destruct (r =? 42); [apply FIN|]. destruct (r =? 37); [apply FIN|]. destruct (r =? 61); [apply FIN|]. destruct (r =? 46); [apply FIN|].
    destruct (r =? 33).
    { rewrite (TWO (fun m => m =? 61)). destruct s as [|m s]; cbn [hd].
      - exists 2%nat, 1%nat, 1%nat. cbn. repeat split; lia.
      - destruct (m =? 61); [one|]. exists 2%nat, 1%nat, 1%nat. cbn. repeat split; lia. }
    destruct (r =? 60).
    { rewrite NX, PKs. destruct s as [|m s]; cbn [hd]; [one|]. destruct (m =? 61); [one|]. destruct (m =? 62); one. }
    destruct (r =? 62). { rewrite (TWO (fun m => m =? 61)). destruct s as [|m s]; cbn [hd]; [one|]. destruct (m =? 61); one. }
    destruct (r =? 58). { rewrite (TWO (fun m => m =? 58)). destruct s as [|m s]; cbn [hd]; [one|]. destruct (m =? 58); one. }
    destruct (r =? 59); [apply FIN|]. destruct (r =? 92); [apply FIN|]. destruct (r =? 91); [apply FIN|]. destruct (r =? 93); [apply FIN|].
    destruct (r =? 38); [apply FIN|]. destruct (r =? 123); [apply FIN|]. destruct (r =? 125); [apply FIN|].
    replace (r =? EOFr) with false by (symmetry; apply Z.eqb_neq; exact NE). apply FIN.
Qed.

Lemma t_peek {A} (k : rune -> sprog A) s : on_text (SPeek k) s = let '(a, s', u) := on_text (k (hd EOFr s)) s in (a, s', mkUsage (1 + peeks u) (nexts u)).
Proof. reflexivity. Qed.
Lemma t_next {A} (k : rune -> sprog A) s : on_text (SNext k) s = let '(a, s', u) := on_text (k (hd EOFr s)) (tl s) in (a, s', mkUsage (peeks u) (1 + nexts u)).
Proof. reflexivity. Qed.

Lemma exec_real {A} (p : sprog A) : forall s, real s -> real (snd (fst (on_text p s))).
Proof.
  induction p as [a|k IH|k IH|]; intros s R; try exact R.
  - rewrite t_peek. specialize (IH (hd EOFr s) s R). destruct (on_text (k (hd EOFr s)) s) as [[a s'] u]. exact IH.
  - rewrite t_next. assert (R' : real (tl s)) by (destruct R; [constructor|assumption]).
    specialize (IH (hd EOFr s) (tl s) R'). destruct (on_text (k (hd EOFr s)) (tl s)) as [[a s'] u]. exact IH.
Qed.

(** All tokens *)
Lemma tokens_run d pc n : sees_no_eof d -> forall f s line col acc, real s -> (List.length s < n)%nat -> (List.length s < f)%nat ->
  match tokenize_loop d pc f (mkTS s line col) (rev acc) with
  | TOk l => exists p m, on_text (tokenize_prog d pc n f line col acc) s = (Some (TOk l), [], mkUsage p (List.length s)) /\
      (p <= List.length s + 2 * m + 1)%nat /\ (m <= List.length s)%nat /\ (pc = true -> List.length l = List.length acc + m)%nat
  | TErr => exists p x rest, on_text (tokenize_prog d pc n f line col acc) s = (Some TErr, rest, mkUsage p x) /\
      (p <= 3 * List.length s)%nat /\ (x <= List.length s + 1)%nat
  | THang => fst (fst (on_text (tokenize_prog d pc n f line col acc) s)) = None
  | TFuel => False
  end.
Proof.
  intros D. induction f as [|f IH]; intros s line col acc R L F; [lia|]. cbn [tokenize_loop tokenize_prog]. unfold scan. cbn [ts_src ts_line ts_col].
  pose proof (next_runs d n s line col D R L) as N. unfold next_ok in N. destruct (next d s line col) as [k v rest l c| |rest l c|] eqn:E.
  - destruct N as (p & x & X1 & X2 & X3 & X). 
    assert (R2 : real rest).
    { pose proof (f_equal (fun z => snd (fst z)) X) as Y. cbn [fst snd] in Y. rewrite <- Y. apply exec_real. exact R. }
    set (acc' := if negb pc && is_ws_kind k then acc else acc ++ [mkTok k v (mkPos line col) (mkPos l c)]).
    specialize (IH rest l c acc' R2 ltac:(lia) ltac:(lia)).
    assert (Q : tokenize_loop d pc f (mkTS rest l c) (rev acc') =
      match (if negb pc && is_ws_kind k then SSkip (mkTS rest l c) else STok (mkTok k v (mkPos line col) (mkPos l c)) (mkTS rest l c)) with
      | STok t st' => tokenize_loop d pc f st' (t :: rev acc) | SSkip st' => tokenize_loop d pc f st' (rev acc)
      | SEof => TOk (rev (rev acc)) | SErr _ _ => TErr | SHang => THang end).
    { subst acc'. destruct (negb pc && is_ws_kind k); [reflexivity|]. rewrite rev_app_distr. reflexivity. }
    rewrite <- Q. clear Q.
    pose proof (text_bind (next_prog d n line col) (fun a => match a with
        | AEof => SRet (TOk acc) | AErr _ _ => SRet TErr
        | ATok k v line' col' => tokenize_prog d pc n f line' col'
              (if negb pc && is_ws_kind k then acc else acc ++ [mkTok k v (mkPos line col) (mkPos line' col')]) end) s _ _ _ X) as B.
    cbv beta iota in B. fold acc' in B.
    destruct (tokenize_loop d pc f (mkTS rest l c) (rev acc')) as [toks| | |].
    + destruct IH as (p2 & m & Y & P2 & M & T). exists (p + p2)%nat, (S m). rewrite Y in B. cbn [peeks nexts] in B.
      split; [etransitivity; [exact B|]; repeat f_equal; lia|]. split; [lia|]. split; [lia|]. intros PC. rewrite (T PC). subst acc'. rewrite PC. cbn [negb andb]. rewrite app_length. cbn. lia.
    + destruct IH as (p2 & x2 & rest2 & Y & P2 & M). exists (p + p2)%nat, (x + x2)%nat, rest2. rewrite Y in B. split; [exact B|]. split; lia.
    + destruct (on_text (tokenize_prog d pc n f l c acc') rest) as [[a s2] u]. cbn [fst] in IH. subst a. pose proof (f_equal (fun z => fst (fst z)) B) as B'. exact B'.
    + exact IH.
  - destruct N as [-> X]. rewrite rev_involutive. exists 1%nat, 0%nat. split; [|cbn; repeat split; lia].
    rewrite (text_bind _ _ _ _ _ _ X). reflexivity.
  - destruct N as (p & x & y & X1 & X2 & X3 & X). exists p, x, rest. split; [rewrite (text_bind _ _ _ _ _ _ X); cbn; rewrite !Nat.add_0_r; reflexivity|].
    split; [|lia]. destruct s as [|r s]; [|cbn [List.length] in *; lia].
    exfalso. cbn [next] in E. destruct D as (D1 & _ & D3). rewrite D1, D3 in E. discriminate.
  - apply text_bind_out. exact N.
Qed.

(** One character is seen behind a token *)
Lemma exec_len {A} (p : sprog A) : forall s, (List.length (snd (fst (on_text p s))) <= List.length s)%nat.
Proof.
  induction p as [a|k IH|k IH|]; intros s; try (cbn; lia).
  - rewrite t_peek. specialize (IH (hd EOFr s) s). destruct (on_text (k (hd EOFr s)) s) as [[a s'] u]. exact IH.
  - rewrite t_next. specialize (IH (hd EOFr s) (tl s)). destruct (on_text (k (hd EOFr s)) (tl s)) as [[a s'] u]. cbn [fst snd] in *.
    destruct s; cbn [tl List.length] in *; lia.
Qed.

Lemma sees_one {A} (p : sprog A) : forall a r s s' x u, on_text p (a ++ r :: s) = (x, r :: s, u) -> on_text p (a ++ r :: s') = (x, r :: s', u).
Proof.
  induction p as [v|k IH|k IH|]; intros a r s s' x u H.
  - assert (E : a = []).
    { apply (f_equal (fun z => List.length (snd (fst z)))) in H. cbn [on_text exec fst snd] in H. rewrite app_length in H. destruct a; [reflexivity|cbn in H; lia]. }
    subst a. cbn in *. injection H as <- <-. reflexivity.
  - rewrite t_peek in *. assert (HD : hd EOFr (a ++ r :: s') = hd EOFr (a ++ r :: s)) by (destruct a; reflexivity). rewrite HD.
    destruct (on_text (k (hd EOFr (a ++ r :: s))) (a ++ r :: s)) as [[v s1] u1] eqn:E. injection H as -> -> <-.
    rewrite (IH _ _ _ _ s' _ _ E). reflexivity.
  - rewrite t_next in *. destruct a as [|b a]; cbn [app hd tl] in *.
    + exfalso. pose proof (exec_len (k r) s) as Y. destruct (on_text (k r) s) as [[v s1] u1]. injection H as -> -> <-.
      cbn in Y. lia.
    + destruct (on_text (k b) (a ++ r :: s)) as [[v s1] u1] eqn:E. injection H as -> -> <-. rewrite (IH _ _ _ _ s' _ _ E). reflexivity.
  - assert (E : a = []).
    { apply (f_equal (fun z => List.length (snd (fst z)))) in H. cbn [on_text exec fst snd] in H. rewrite app_length in H. destruct a; [reflexivity|cbn in H; lia]. }
    subst a. cbn in *. injection H as <- <-. reflexivity.
Qed.

Lemma next_sees_one d line col a r s s' k v l c : sees_no_eof d -> real (a ++ r :: s) -> real s' ->
  next d (a ++ r :: s) line col = LTok k v (r :: s) l c -> next d (a ++ r :: s') line col = LTok k v (r :: s') l c.
Proof.
  intros D R R' H.
  set (n := (S (List.length (a ++ r :: s) + List.length (a ++ r :: s')))%nat).
  assert (R2 : real (a ++ r :: s')).
  { unfold real in *. rewrite Forall_app in R. destruct R as [Ra Rr]. inversion Rr; subst. apply Forall_app. split; [assumption|]. constructor; assumption. }
  pose proof (next_runs d n (a ++ r :: s) line col D R ltac:(unfold n; lia)) as N. unfold next_ok in N. rewrite H in N. destruct N as (p & x & _ & _ & _ & X).
  apply (sees_one _ a r s s') in X.
  pose proof (next_runs d n (a ++ r :: s') line col D R2 ltac:(unfold n; lia)) as N. unfold next_ok in N.
  destruct (next d (a ++ r :: s') line col) as [k' v' rest l' c'| |rest l' c'|].
  - destruct N as (p' & x' & _ & _ & _ & Y). rewrite X in Y. injection Y as -> -> -> -> <- _ _. reflexivity.
  - destruct N as (_ & Y). rewrite X in Y. discriminate.
  - destruct N as (p' & x' & y' & _ & _ & _ & Y). rewrite X in Y. discriminate.
  - rewrite X in N. discriminate.
Qed.

(** text/scanner over an io.Reader *)
Lemma exec_ahead {A} (p : sprog A) : forall s text, ahead s text ->
  exists s', on_reader p s = (fst (fst (on_text p text)), s', snd (on_text p text)) /\ ahead s' (snd (fst (on_text p text))).
Proof.
  unfold on_reader, on_text. induction p as [v|k IH|k IH|]; intros s text H; cbn [exec]; try (exists s; split; [reflexivity|exact H]).
  - pose proof H as (c & H1 & H2 & H3). assert (P : sc_peek s = (c, s)) by (unfold sc_peek; rewrite H1; reflexivity). rewrite P. change (text_peek text) with (hd EOFr text, text). cbv iota beta.
    rewrite <- (ahead_hd s text c H1 H). destruct (IH c s text H) as (s' & E & H'). exists s'. rewrite E.
    destruct (exec text_peek text_next (k c) text) as [[v t] u]. split; [reflexivity|exact H'].
  - assert (X : exists s1, sc_next s = (hd EOFr text, s1) /\ ahead s1 (tl text)).
    { pose proof H as (c & H1 & H2 & H3). assert (P : sc_peek s = (c, s)) by (unfold sc_peek; rewrite H1; reflexivity). unfold sc_next. rewrite P.
      destruct (c =? EOFr) eqn:Q.
      - subst text. exists s. split; [cbn; apply Z.eqb_eq in Q; subst c; reflexivity|exact H].
      - subst text. destruct (read_rune (sc_buf s) (sc_src s)) as [c' [buf src]] eqn:E. eexists. split; [reflexivity|].
        exists c'. cbn [sc_ch sc_buf sc_src tl]. destruct (read_rune_bytes _ _ _ _ _ H2 E) as (F' & _). split; [reflexivity|]. split; [exact F'|]. apply rest_step; assumption. }
    destruct X as (s1 & E1 & H1). rewrite E1. change (text_next text) with (hd EOFr text, tl text). cbv iota beta. destruct (IH (hd EOFr text) s1 (tl text) H1) as (s' & E & H'). exists s'. rewrite E.
    destruct (exec text_peek text_next (k (hd EOFr text)) (tl text)) as [[v t] u]. split; [reflexivity|exact H'].
Qed.

Lemma reader_text {A} (p : sprog A) src : Forall byteP (bytes src) ->
  fst (fst (on_reader p (init src))) = fst (fst (on_text p (skip_bom (runes_of src)))) /\
  snd (on_reader p (init src)) = snd (on_text p (skip_bom (runes_of src))).
Proof.
  intros F. destruct (peek_ahead src F) as (c & s & P & H & A0).
  assert (P' : sc_peek s = (c, s)) by (unfold sc_peek; rewrite H; reflexivity).
  destruct p as [v|k|k|]; try (split; reflexivity).
  - destruct (exec_ahead (SPeek k) s _ A0) as (s' & E & _). unfold on_reader in *. cbn [exec] in *. rewrite P. rewrite P' in E. rewrite E. split; reflexivity.
  - destruct (exec_ahead (SNext k) s _ A0) as (s' & E & _). unfold on_reader in *. cbn [exec] in *. unfold sc_next in *. rewrite P. rewrite P' in E. rewrite E. split; reflexivity.
Qed.

Lemma runes_real src : real (runes_of src).
Proof.
  unfold runes_of. generalize (S (List.length (flat_map fst src))). intros n. generalize (@nil byte) as buf. revert src. induction n as [|n IH]; intros src buf; cbn [all_runes]; [constructor|].
  destruct (read_rune buf src) as [c [buf' src']]. destruct (c =? EOFr) eqn:Q; [constructor|]. constructor; [apply Z.eqb_neq; exact Q|apply IH].
Qed.

Lemma bom_real s : real s -> real (skip_bom s) /\ (List.length (skip_bom s) <= List.length s)%nat.
Proof. intros R. destruct s as [|r s]; [split; [exact R|cbn; lia]|]. cbn [skip_bom]. destruct (r =? 65279); [|split; [exact R|lia]]. inversion R; subst. split; [assumption|cbn; lia]. Qed.

Lemma enough_rounds d pc f g st acc : sees_no_eof d -> real (ts_src st) -> (List.length (ts_src st) < f)%nat -> (List.length (ts_src st) < g)%nat ->
  tokenize_loop d pc f st acc = tokenize_loop d pc g st acc.
Proof.
  intros D. revert g st acc. induction f as [|f IH]; intros g [s line col] acc R Lf Lg; cbn [ts_src] in *; [lia|]. destruct g as [|g]; [lia|]. cbn [tokenize_loop].
  unfold scan. cbn [ts_src ts_line ts_col]. pose proof (next_runs d (S (List.length s)) s line col D R ltac:(lia)) as N. unfold next_ok in N.
  destruct (next d s line col) as [k v rest l c| |rest l c|] eqn:E; try reflexivity. destruct N as (p & x & X1 & X2 & _ & X).
  assert (R2 : real rest).
  { pose proof (f_equal (fun z => snd (fst z)) X) as Y. cbn [fst snd] in Y. rewrite <- Y. apply exec_real. exact R. }
  destruct (negb pc && is_ws_kind k); apply IH; cbn [ts_src]; auto; lia.
Qed.

Lemma tokenize_calls d pc src n : dialect_ok d -> Forall byteP (bytes src) -> (List.length (runes_of src) < n)%nat ->
  let text := skip_bom (runes_of src) in
  match tokenize d pc (runes_of src) with
  | TOk l => exists p s, tokenize_reader d pc n src = (Some (TOk l), s, mkUsage p (List.length text)) /\
      (p <= 3 * List.length text + 1)%nat /\ (pc = true -> p <= List.length text + 2 * List.length l + 1)%nat
  | TErr => exists p x s, tokenize_reader d pc n src = (Some TErr, s, mkUsage p x) /\ (p <= 3 * List.length text)%nat /\ (x <= List.length text + 1)%nat
  | THang => fst (fst (tokenize_reader d pc n src)) = None
  | TFuel => False
  end.
Proof.
  intros D F L. cbv zeta. destruct (bom_real _ (runes_real src)) as [R LB]. pose proof (dialect_ok_eof d D) as D'.
  pose proof (tokens_run d pc n D' n (skip_bom (runes_of src)) 1 1 [] R ltac:(lia) ltac:(lia)) as T. cbn [rev] in T.
  destruct (reader_text (tokenize_prog d pc n n 1 1 []) src F) as [V U]. fold (tokenize_reader d pc n src) in V, U.
  unfold tokenize. rewrite (enough_rounds d pc _ n _ [] D') by (cbn [ts_src]; try exact R; lia).
  destruct (tokenize_reader d pc n src) as [[a s] u]. cbn [fst snd] in V, U.
  destruct (tokenize_loop d pc n (mkTS (skip_bom (runes_of src)) 1 1) []) as [l| | |].
  - destruct T as (p & m & E & P & M & C). rewrite E in V, U. cbn [fst snd] in V, U. subst. exists p, s. split; [reflexivity|]. split; [lia|]. intros PC. specialize (C PC). cbn in C. lia.
  - destruct T as (p & x & rest & E & P & X). rewrite E in V, U. cbn [fst snd] in V, U. subst. exists p, x, s. repeat split; lia.
  - cbn [fst]. rewrite V. exact T.
  - exact T.
Qed.
