(** What Apply means (properties C34 and C35). *)
From Coq Require Import ZArith List Bool String.
From Verif Require Import Base Dialect Token AST Nodes Walk WalkSpec Apply.
Import ListNotations.
Open Scope Z_scope.

(* ------------------------------------------------------------------ *)
(** ** Trees in memory *)

(** A forest in memory: the root of tree number k is at [[k]], the i-th sub-node
    of the node at [a] at [i :: a]. *)
Fixpoint node_of (w : list any) (a : addr) : option any :=
  match a with
  | [] => None
  | i :: p => match p with
              | [] => nth_error w i
              | _ => match node_of w p with Some x => nth_error (subnodes x) i | None => None end
              end
  end.

(** The fields of a node with the addresses of the sub-nodes, numbered from [i]. *)
Fixpoint place (a : addr) (i : nat) (l : list (string * field any)) : list (string * field addr) :=
  match l with
  | [] => []
  | (f, FOne None) :: l' => (f, FOne None) :: place a i l'
  | (f, FOne (Some _)) :: l' => (f, FOne (Some (i :: a))) :: place a (S i) l'
  | (f, FMany xs) :: l' =>
      (f, FMany (map (fun j => j :: a) (seq i (List.length xs)))) :: place a (i + List.length xs) l'
  end.

(** The struct that Apply hangs the first tree below is at []. *)
Definition memory (w : list any) : heap := fun a =>
  match a with
  | [] => mkCell "" false [("Node"%string, FOne (Some [0%nat]))]
  | _ => match node_of w a with
         | Some x => mkCell (gotype x) (all_flag x) (place a 0 (fields x))
         | None => mkCell "" false []
         end
  end.

(* ------------------------------------------------------------------ *)
(** ** What callbacks did *)

(** A call of a callback: pre or post, the memory and the cursor it saw, the
    edits it made, its answer. *)
Record event := mkEvent {
  e_pre : bool; e_heap : heap; e_cursor : cursor; e_edits : list edit; e_answer : bool }.
Definition e_parent e := cu_parent (e_cursor e).
Definition e_name e := cu_name (e_cursor e).
Definition e_index e := cu_index (e_cursor e).
Definition e_node e := cu_node (e_cursor e).

(** Callbacks that write down their calls; a missing callback accepts. *)
Definition total {S} (g : option (callback S)) : callback S :=
  match g with Some g => g | None => fun s _ _ => (s, [], true) end.
Definition logging {S} (is_pre : bool) (g : option (callback S)) : option (callback (S * list event)) :=
  Some (fun s h c => let '(u, es, b) := total g (fst s) h c in ((u, snd s ++ [mkEvent is_pre h c es b]), es, b)).

(** The edits made at one place: a field of a node and what was there. *)
Definition addr_opt_eqb (a b : option addr) : bool :=
  match a, b with Some a, Some b => addr_eqb a b | None, None => true | _, _ => false end.
Definition at_slot (p : addr) (f : string) (x : option addr) (e : event) : bool :=
  addr_eqb (e_parent e) p && String.eqb (e_name e) f && addr_opt_eqb (e_node e) x.
Definition edits_at (log : list event) (p : addr) (f : string) (x : option addr) : list edit :=
  flat_map e_edits (filter (at_slot p f x) log).

(** What edits make of one list element: what was inserted before it, the
    element itself if it is still there, what was inserted after it. *)
Definition slot := (list addr * option addr * list addr)%type.
Definition edit_slot (s : slot) (e : edit) : slot :=
  let '(b, x, a) := s in
  match e with
  | Replace r => (b, Some r, a)
  | Delete => (b, None, a)
  | InsertBefore r => (b ++ [r], x, a)
  | InsertAfter r => (b, x, r :: a)
  end.
Definition flat (s : slot) : list addr := let '(b, x, a) := s in b ++ match x with Some x => [x] | None => [] end ++ a.
Definition edited (es : list edit) (x : addr) : list addr := flat (fold_left edit_slot es ([], Some x, [])).

(** What edits make of a single node. *)
Definition replaced (es : list edit) (x : option addr) : option addr :=
  fold_left (fun x e => match e with Replace r => Some r | _ => x end) es x.

(** After a Delete only InsertBefore may follow. *)
Fixpoint orderly (es : list edit) : Prop :=
  match es with
  | [] => True
  | Delete :: es' => forall e, In e es' -> exists r, e = InsertBefore r
  | _ :: es' => orderly es'
  end.
Definition orderly_log (log : list event) : Prop :=
  forall e, In e log -> e_index e <> None -> orderly (edits_at log (e_parent e) (e_name e) (e_node e)).

(** The memory after all edits of the log: every list is the original list with
    every element replaced by what its edits make of it, every single node what
    the last Replace put there. *)
Definition edited_field (log : list event) (p : addr) (f : string) (v : field addr) : field addr :=
  match v with
  | FMany l => FMany (flat_map (fun x => edited (edits_at log p f (Some x)) x) l)
  | FOne x => FOne (replaced (edits_at log p f x) x)
  end.
Definition edited_memory (h : heap) (log : list event) (h' : heap) : Prop :=
  forall a, c_type (h' a) = c_type (h a) /\ c_all (h' a) = c_all (h a) /\
    forall f, get_field h' a f = option_map (edited_field log a f) (get_field h a f).

(* ------------------------------------------------------------------ *)
(** ** Order *)

(** The calls as those of a walk: pre is Visit(node), post is Visit(nil). *)
Definition as_call (w : list any) (e : event) : WalkSpec.call :=
  (if e_pre e then match e_node e with Some a => node_of w a | None => None end else None, e_answer e).

Definition is_using (x : any) : Prop := match x with ASpec (JUsing _ _ _) => True | _ => False end.

(** Calls that make Apply panic: nil or a node of an unknown type accepted, a
    list edit on a single node, an edit through a cursor whose name is not that
    of a field. *)
Definition bad_node (w : list any) (x : option addr) : Prop :=
  match x with Some a => exists y, node_of w a = Some y /\ (~ walkable y \/ is_using y) | None => True end.
Definition edit_culprit (e : event) : Prop :=
  e_index e = None /\ ((exists d, In d (e_edits e) /\ forall r, d <> Replace r) \/
                       e_name e = "QueryStmt"%string /\ e_edits e <> []).
Definition culprit (w : list any) (e : event) : Prop :=
  e_pre e = true /\ e_answer e = true /\ bad_node w (e_node e) \/ edit_culprit e.

(** What the cursor says is so: the node is in the named field of the parent, at
    the index. *)
Definition truthful (e : event) : Prop :=
  match e_index e with
  | Some i => 0 <= i /\ exists l, get_field (e_heap e) (e_parent e) (e_name e) = Some (FMany l) /\
                                 nth_error l (Z.to_nat i) = e_node e
  | None => get_field (e_heap e) (e_parent e) (e_name e) = Some (FOne (e_node e)) \/ e_name e = "QueryStmt"%string
  end.

(** List fields that are not gone through. *)
Definition unlisted : list (string * string) :=
  [("File", "Comments"); ("CaseExpr", "Conditions"); ("CaseExpr", "Results"); ("NamedColumnsJoin", "ColumnList");
   ("CreateTableStmt", "Options"); ("ColumnDef", "MyDataTypeDecoration")]%string.

(** The nodes given to pre, and those given to it from one field of one node. *)
Definition visits (log : list event) : list addr := somes (map e_node (filter e_pre log)).
Definition visits_of (p : addr) (f : string) (log : list event) : list (option addr) :=
  map e_node (filter (fun e => e_pre e && addr_eqb (e_parent e) p && String.eqb (e_name e) f) log).

(** The visitor of Walk as callbacks that do not edit. *)
Definition pre_of {S} (w : list any) (visit : S -> option any -> S * bool) : callback S := fun s _ c =>
  let '(s', b) := visit s (match cu_node c with Some a => node_of w a | None => None end) in (s', [], b).
Definition post_of {S} (visit : S -> option any -> S * bool) : callback S := fun s _ _ => (fst (visit s None), [], true).
