(** Properties C29 and C30: comment maps and positions. *)
From Coq Require Import ZArith String List Bool.
From Verif Require Import Base Dialect Token AST Prog Parser Nodes Walk WalkSpec WalkThms PosEnd CommentMap MapSpec MapThms.
Import ListNotations.
Open Scope Z_scope.

(** C29.  When NewCommentMap returns a map, there is for every comment group of
    the file exactly one place among the nodes of the file ([places], as long as
    the list of groups), and what the map holds for a place are the groups given
    to it, in the order of the file. *)
Theorem C29_every_group_once : forall f m, NewCommentMap f = CMMap m ->
  exists l places, preorder (AFile f) l /\ List.length places = List.length (f_comments f) /\
    Forall (fun k => k < List.length l)%nat places /\ forall k, cm_get m k = given places (f_comments f) k.
Proof. exact comment_map_nodes. Qed.
Print Assumptions C29_every_group_once.

(** nil is returned exactly for files without comments. *)
Theorem C29_nil_iff_no_comments : forall f, NewCommentMap f = CMNil <-> f_comments f = [].
Proof. exact comment_map_nil. Qed.
Print Assumptions C29_nil_iff_no_comments.

Definition parsed (src : string) : file :=
  match parse_file generic (gs src) with ROk f => f | _ => mkFile [] [] end.

(** The comments of a file by the Go type of the node they are attached to. *)
Definition attached (f : file) : option (list (string * nat)) :=
  match NewCommentMap f, node_list f with
  | CMMap m, Some l =>
      Some (flat_map (fun e => match nth_error l (fst e) with Some x => [(gotype x, List.length (snd e))] | None => [] end) m)
  | _, _ => None
  end.

Example C29_ex :
  attached (parsed "/* 1 */ SELECT a -- 2
FROM t; -- 3

-- 4

SELECT b /* 5 */ FROM u;") = 
  Some [("QueryStmt", 2%nat); ("Ident", 1%nat); ("QueryStmt", 1%nat); ("Ident", 1%nat)]%string.
Proof. vm_compute. reflexivity. Qed.

(** C30.  Pos and End of a node and of everything below it are defined exactly
    when everything below it has the parts that they look at ([has_parts]). *)
Theorem C30_positions_iff : forall x,
  (forall z, within x z -> Pos z <> None /\ End z <> None) <-> (forall z, within x z -> has_parts z).
Proof. exact positions_iff. Qed.
Print Assumptions C30_positions_iff.

(** And then NewCommentMap does not panic. *)
Theorem C30_comment_map_total : forall f,
  (forall z, within (AFile f) z -> has_parts z) ->
  (forall g p, In g (f_comments f) -> end_group g = Some p -> pline p < 2 ^ 30) ->
  NewCommentMap f <> CMPanic.
Proof. exact comment_map_parts. Qed.
Print Assumptions C30_comment_map_total.

Definition lost (z : any) : bool := match Pos z, End z with Some _, Some _ => false | _, _ => true end.

(** Not all parsed files are such: a column without constraints has no end, an
    empty OVER no position, a file without statements neither. *)
Theorem C30_parsed_total_refuted : forall src,
  In src ["CREATE TABLE t (a int); -- c
"; "SELECT count(*) OVER () FROM t; -- c
"; "-- c
"]%string ->
  exists f, parse_file generic (gs src) = ROk f /\ NewCommentMap f = CMPanic /\
    exists z, within (AFile f) z /\ (Pos z = None \/ End z = None).
Proof.
  intros src H.
  assert (K : 
    match parse_file generic (gs src) with
    | ROk f => NewCommentMap f = CMPanic /\ existsb lost (nodes_to 8 (AFile f)) = true
    | _ => False
    end).
  { cbn [In] in H. destruct H as [<-|[<-|[<-|[]]]]; vm_compute; split; reflexivity. }
  clear H. destruct (parse_file generic (gs src)) as [f| | |]; try contradiction.
  destruct K as [M E]. apply existsb_exists in E. destruct E as (z & I & L). exists f.
  split; [reflexivity|]. split; [exact M|]. exists z. split; [exact (nodes_to_within _ _ _ I)|].
  unfold lost in L. destruct (Pos z); [|left; reflexivity]. destruct (End z); [discriminate|right; reflexivity].
Qed.
Print Assumptions C30_parsed_total_refuted.
