(** Properties C34, C35 and C39: Apply and its cursor. *)
From Coq Require Import ZArith String List Bool.
From Verif Require Import Base Dialect Token Lexer AST Prog Parser Nodes Walk WalkSpec Apply ApplySpec ApplyThms.
Import ListNotations.
Open Scope Z_scope.

(** C34.  Callbacks that do not edit ([never_edits]: the list of edits they make
    is always empty) leave the memory as it is, whatever they answer and however
    the run ends. *)
Theorem C34_tree_unchanged : forall U (pre post : option (callback U)),
  never_edits pre -> never_edits post ->
  forall n wrapper root h u, st_heap (fst (Apply pre post n wrapper root h u)) = h.
Proof. exact @Apply_same. Qed.
Print Assumptions C34_tree_unchanged.

(** A visitor given to Apply as callbacks makes the same steps as given to Walk:
    it ends in the same state (so it saw the same nodes in the same order), and
    the run ends in the same way, if no USING is reached.  The tree [x] may be in
    memory with other trees [rest]. *)
Theorem C34_like_walk : forall U (visit : U -> option any -> U * bool) x rest u n, walkable x ->
  (forall z, reach x z -> ~ is_using z) -> (Walk.size x < n)%nat ->
  let w := x :: rest in
  let r := Apply (Some (pre_of w visit)) (Some (post_of visit)) n [] [0%nat] (memory w) u in
  st_user (fst r) = fst (walk visit n (Some x) u) /\
  match snd r, snd (walk visit n (Some x) u) with ADone, WDone | APanic, WPanic => True | _, _ => False end.
Proof. exact @Apply_walk. Qed.
Print Assumptions C34_like_walk.

(** With a USING that is reached, Apply panics. *)
Theorem C34_using_panics : forall U (pre post : option (callback U)) x rest z u n,
  never_edits pre -> never_edits post -> always pre -> always post -> reach x z -> is_using z ->
  (Walk.size x < n)%nat ->
  snd (Apply pre post n [] [0%nat] (memory (x :: rest)) u) = APanic.
Proof. exact @Apply_using. Qed.
Print Assumptions C34_using_panics.

Definition tree (src : string) : any :=
  match parse_file generic (gs src) with ROk f => AFile f | _ => AExpr (EIdent (mkIdent [] (mkPos 0 0) (mkPos 0 0))) end.

(** A visitor that writes down the types of the nodes and does not enter
    BinaryExpr. *)
Definition no_binary (l : list string) (x : option any) : list string * bool :=
  match x with
  | Some x => (l ++ [gotype x], match x with AExpr (EBinary _ _ _) => false | _ => true end)
  | None => (l ++ ["nil"%string], false)
  end.

Fixpoint joined (n : nat) (x : any) : bool :=
  match n with
  | O => true
  | S m => match x with ASpec (JUsing _ _ _) => true | _ => existsb (joined m) (somes (order x)) end
  end.

Example C34_ex :
  let x := tree "DELETE FROM t WHERE NOT (a = b);" in
  let w := [x] in
  walkable x /\ joined 20 x = false /\ (Walk.size x < 20)%nat /\
  let r := Apply (Some (pre_of w no_binary)) (Some (post_of no_binary)) 20 [] [0%nat] (memory w) [] in
  snd r = ADone /\
  st_user (fst r) = ["File"; "DeleteStmt"; "ObjectName"; "Ident"; "nil"; "nil"; "UnaryExpr"; "Operator"; "nil"; "Nested";
     "BinaryExpr"; "nil"; "nil"; "nil"; "nil"]%string.
Proof. vm_compute. repeat split; repeat constructor. Qed.

Example C34_using_ex :
  let x := tree "SELECT a FROM t JOIN u USING (k);" in
  snd (@Apply unit None None 40 [] [0%nat] (memory [x]) tt) = APanic /\
  snd (walk (fun s x => (s, match x with Some _ => true | None => false end)) 40 (Some x) tt) = WDone.
Proof. vm_compute. split; reflexivity. Qed.

(** C35.  For all callbacks and all trees: let [log] be the calls of the
    callbacks, with what they saw and the edits they made.  If on no list element
    anything but InsertBefore follows a Delete ([orderly_log]), then
    - after a run that comes to its end or is aborted by post, every list is the
      original one with every element replaced by what its edits make of it;
    - the calls are those of a walk of the original tree; no node is visited
      twice, and all visited nodes are nodes of the original tree, so none that
      was inserted;
    - of every node that was entered the elements of the lists are visited in
      order, each once;
    - the run only panics if a callback accepted a node that Apply does not know
      or nil, or made a list edit on a single node, or used a cursor whose name
      is not that of a field ([culprit]). *)
Theorem C35_list_edits : forall U (pre post : option (callback U)) x rest u n, (Walk.size x < n)%nat ->
  let w := x :: rest in
  exists st log e,
    Apply pre post n [] [0%nat] (memory w) u = (st, e) /\
    (exists st', Apply (logging true pre) (logging false post) n [] [0%nat] (memory w) (u, []) = (st', e) /\
       st_user st' = (st_user st, log) /\ st_heap st' = st_heap st) /\
    (orderly_log log ->
     Forall (fun e => e_pre e = true -> truthful e) log /\
     match e with
     | ADone =>
         edited_memory (memory w) log (st_heap st) /\ Forall (fun e => ~ culprit w e) log /\
         walked (Some x) (map (as_call w) log) /\ NoDup (visits log) /\
         (forall v, In v (visits log) -> (exists q, v = q ++ [0%nat]) /\ node_of w v <> None) /\
         (forall e a y g bs, In e log -> e_pre e = true -> e_answer e = true -> e_node e = Some a -> node_of w a = Some y ->
            get_field (memory w) a g = Some (FMany bs) -> ~ In (gotype y, g) unlisted -> visits_of a g log = map Some bs)
     | AAbort =>
         edited_memory (memory w) log (st_heap st) /\ Forall (fun e => ~ culprit w e) log /\
         exists log' e, log = log' ++ [e] /\ e_pre e = false /\ e_answer e = false
     | APanic => Exists (culprit w) log
     | AFuel => False
     end).
Proof. exact @Apply_edits. Qed.
Print Assumptions C35_list_edits.

(** The items of a projection: their texts in the original forest. *)
Definition ident_of (x : any) : gostring :=
  match x with AItem (SIUnnamed (EIdent i)) => id_value i | _ => [] end.
Definition item (s : string) : any := AItem (SIUnnamed (EIdent (mkIdent (gs s) pos0 pos0))).
Definition forest : list any := [tree "SELECT a, b, c FROM t;"; item "x"; item "y"; item "z"].
Definition named (c : cursor) (s : string) : bool :=
  match cu_node c with
  | Some a => match node_of forest a with Some x => gs_eqb (ident_of x) (gs s) && negb (gs_eqb (ident_of x) []) | None => false end
  | None => false
  end.
(** The field Projection of the statement, as texts. *)
Definition projection (h : heap) : option (list gostring) :=
  match get_field h [0; 0; 0]%nat "Projection" with
  | Some (FMany l) => Some (map (fun a => match node_of forest a with Some x => ident_of x | None => [] end) l)
  | _ => None
  end.

(** Around [a] two items are inserted, [b] is replaced and followed by one more,
    [c] is deleted after an insertion before it. *)
Definition script (s : nat) (h : heap) (c : cursor) : nat * list edit * bool :=
  (S s,
   if named c "a" then [InsertBefore [1%nat]; InsertAfter [2%nat]]
   else if named c "b" then [InsertAfter [3%nat]; Replace [1%nat]]
   else if named c "c" then [InsertBefore [2%nat]; Delete; InsertBefore [3%nat]] else [], true).

Example C35_ex :
  let r := Apply (Some script) None 40 [] [0%nat] (memory forest) 0%nat in
  snd r = ADone /\ projection (memory forest) = Some [gs "a"; gs "b"; gs "c"] /\
  projection (st_heap (fst r)) = Some [gs "x"; gs "a"; gs "y"; gs "x"; gs "z"; gs "y"; gs "z"].
Proof. vm_compute. repeat split. Qed.

Fixpoint orderlyb (es : list edit) : bool :=
  match es with
  | [] => true
  | Delete :: es' => forallb (fun e => match e with InsertBefore _ => true | _ => false end) es'
  | _ :: es' => orderlyb es'
  end.
Definition orderly_logb (log : list event) : bool :=
  forallb (fun e => match e_index e with None => true | Some _ => orderlyb (edits_at log (e_parent e) (e_name e) (e_node e)) end) log.

Lemma orderlyb_ok es : orderlyb es = true -> orderly es.
Proof.
  induction es as [|e es IH]; [constructor|]. destruct e; cbn [orderlyb orderly]; try exact IH.
  intros H e I. rewrite forallb_forall in H. specialize (H e I). destruct e; try discriminate. eexists. reflexivity.
Qed.
Lemma orderly_logb_ok log : orderly_logb log = true -> orderly_log log.
Proof.
  intros H e I N. unfold orderly_logb in H. rewrite forallb_forall in H. specialize (H e I).
  destruct (e_index e); [apply orderlyb_ok, H|destruct (N eq_refl)].
Qed.

(** The hypothesis of the theorem is met by this run. *)
Example C35_orderly_ex :
  orderly_log (snd (st_user (fst (Apply (logging true (Some script)) (logging false None) 40 [] [0%nat] (memory forest) (0%nat, []))))) /\
  (Walk.size (hd (item "") forest) < 40)%nat.
Proof. split; [apply orderly_logb_ok; vm_compute; reflexivity|vm_compute; repeat constructor]. Qed.

(** Without it the claim is false: after Delete, InsertAfter inserts behind the
    next element, and the next element is not visited, but the inserted one is. *)
Definition hasty (s : list gostring) (h : heap) (c : cursor) : list gostring * list edit * bool :=
  (match cu_node c with
   | Some a => match node_of forest a with Some (AItem i) => s ++ [ident_of (AItem i)] | _ => s end
   | None => s
   end, if named c "a" then [Delete; InsertAfter [1%nat]] else [], true).

Theorem C35_delete_first_refuted :
  let r := Apply (Some hasty) None 40 [] [0%nat] (memory forest) [] in
  snd r = ADone /\ projection (st_heap (fst r)) = Some [gs "b"; gs "x"; gs "c"] /\ st_user (fst r) = [gs "a"; gs "x"; gs "c"].
Proof. vm_compute. repeat split. Qed.
Print Assumptions C35_delete_first_refuted.

(** C39.  What Apply returns is the root, or what last replaced it. *)
Theorem C39_result : forall U (pre post : option (callback U)) x rest u n, (Walk.size x < n)%nat ->
  let w := x :: rest in
  exists st log e,
    Apply pre post n [] [0%nat] (memory w) u = (st, e) /\
    (exists st', Apply (logging true pre) (logging false post) n [] [0%nat] (memory w) (u, []) = (st', e) /\
       snd (st_user st') = log) /\
    (orderly_log log -> e = ADone \/ e = AAbort ->
     result_node [] st = replaced (edits_at log [] "Node" (Some [0%nat])) (Some [0%nat])).
Proof. exact @Apply_result. Qed.
Print Assumptions C39_result.

Example C39_ex :
  let swap (s : unit) (h : heap) (c : cursor) := (s, if addr_opt_eqb (cu_node c) (Some [0%nat]) then [Replace [1%nat]] else [], true) in
  let r := Apply None (Some swap) 40 [] [0%nat] (memory forest) tt in
  snd r = ADone /\ result_node [] (fst r) = Some [1%nat].
Proof. vm_compute. split; reflexivity. Qed.

(** The cursor tells the truth ([truthful], part of C35_list_edits), except for
    the cursors on queries below EXISTS, sub-queries, CTEs and views, whose name
    is that of no field: Replace panics there. *)
Theorem C39_query_cursor_refuted :
  let w := [tree "SELECT a FROM t WHERE EXISTS (SELECT b FROM u);"; tree "SELECT b FROM v;"] in
  let swap (s : unit) (h : heap) (c : cursor) :=
    (s, if String.eqb (c_type (h (cu_parent c))) "Exists" then [Replace [1%nat]] else [], true) in
  snd (Apply (Some swap) None 40 [] [0%nat] (memory w) tt) = APanic.
Proof. vm_compute. reflexivity. Qed.
Print Assumptions C39_query_cursor_refuted.
