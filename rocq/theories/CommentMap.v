(** sqlast.NewCommentMap. *)
From Coq Require Import ZArith String List Bool.
From Verif Require Import Base Dialect Token AST Nodes Walk PosEnd.
Import ListNotations.
Open Scope list_scope.
Open Scope Z_scope.

(** commentmap.go:23-36: the nodes of the file as Inspect comes to them; the
    callback accepts every node and rejects nil.  [None]: a panic. *)
Definition collect (l : list any) (x : option any) : list any * bool :=
  match x with None => (l, false) | Some y => (l ++ [y], true) end.

Definition node_list (f : file) : option (list any) :=
  match Inspect collect (AFile f) [] with (l, WDone) => Some l | _ => None end.

(** A node pointer: a place in the node list and the node there.  Map keys are
    pointers, so places stand for keys. *)
Definition ptr := (nat * any)%type.

(** commentmap.go:9-21. *)
Definition cmap := list (nat * list commentgroup).

Fixpoint cm_get (m : cmap) (k : nat) : list commentgroup :=
  match m with
  | [] => []
  | (k', l) :: m' => if Nat.eqb k k' then l else cm_get m' k
  end.

Fixpoint cm_set (m : cmap) (k : nat) (l : list commentgroup) : cmap :=
  match m with
  | [] => [(k, l)]
  | (k', l') :: m' => if Nat.eqb k k' then (k, l) :: m' else (k', l') :: cm_set m' k l
  end.

Definition add_comment (m : cmap) (n : ptr) (c : commentgroup) : cmap :=
  cm_set m (fst n) (match cm_get m (fst n) with [] => [c] | l => l ++ [c] end).

(** commentmap.go:65-75: pop; the stack's top is the list's head.  The last
    node popped is returned; an End() may panic. *)
Fixpoint pop (st : list ptr) (p : pos) (top : option ptr) : option (list ptr * option ptr) :=
  match st with
  | [] => Some ([], top)
  | n :: st' =>
      match End (snd n) with
      | None => None
      | Some e => if compare_pos e p =? 1 then Some (st, top) else pop st' p (Some n)
      end
  end.

(** commentmap.go:60-63. *)
Definition push (st : list ptr) (n : ptr) : option (list ptr) :=
  match Pos (snd n) with
  | None => None
  | Some p => match pop st p None with Some (st', _) => Some (n :: st') | None => None end
  end.

(** commentmap.go:143-150. *)
Definition important (x : any) : bool :=
  match x with
  | AQuery _ | AStmt _ => true
  | AElem _ => true
  | _ => false
  end.

(** The loop's variables: p with pend, pg with pgend, the stack, the map
    (commentmap.go:82, 92-98).  [pend] is read only when p is not nil. *)
Record state := mkSt {
  st_p : option (ptr * pos); st_pg : option (ptr * pos); st_stack : list ptr; st_map : cmap }.

Inductive outcome :=
| Returned (m : cmap)
| Panicked
| GoOn (s : state) (c : commentgroup) (rest : list commentgroup).

(** commentmap.go:116-131: the node that gets the comment; [None]: the internal
    error of line 128. *)
Definition association (p pg : option (ptr * pos)) (q : option ptr) (qpos rpos rend : pos) : option ptr :=
  let near e := (pline e =? pline rpos) || ((pline e + 1 =? pline rpos) && (pline rend + 1 <? pline qpos)) in
  match pg with
  | Some (n, e) => if near e then Some n else
      match p with
      | Some (n', e') => if near e' || match q with None => true | _ => false end then Some n' else q
      | None => q
      end
  | None =>
      match p with
      | Some (n', e') => if near e' || match q with None => true | _ => false end then Some n' else q
      | None => q
      end
  end.

(** commentmap.go:109-138: the inner loop, with the reader's current comment
    [c] and what follows it. *)
Fixpoint inner (q : option ptr) (qpos : pos) (s : state) (c : commentgroup) (rest : list commentgroup) : outcome :=
  match pos_group c, end_group c with
  | Some rpos, Some rend =>
      if compare_pos qpos rend =? -1 then GoOn s c rest
      else
        match pop (st_stack s) rpos None with
        | None => Panicked
        | Some (stack, top) =>
            match match top with
                  | Some n => match End (snd n) with Some e => Some (Some (n, e)) | None => None end
                  | None => Some (st_pg s)
                  end with
            | None => Panicked
            | Some pg =>
                match association (st_p s) pg q qpos rpos rend with
                | None => Panicked
                | Some n =>
                    let m := add_comment (st_map s) n c in
                    match rest with
                    | [] => Returned m
                    | c' :: rest' => inner q qpos (mkSt (st_p s) pg stack m) c' rest'
                    end
                end
            end
        end
  | _, _ => Panicked
  end.

(** commentmap.go:105-106. *)
Definition infinity : pos := mkPos (2 ^ 30) (2 ^ 30).

(** commentmap.go:100-153, over the node list followed by nil. *)
Fixpoint outer (nodes : list ptr) (s : state) (c : commentgroup) (rest : list commentgroup) : outcome :=
  match nodes with
  | [] =>
      match inner None infinity s c rest with
      | GoOn _ _ _ => Panicked                     (* 140-141: End of the nil node *)
      | r => r
      end
  | q :: nodes' =>
      match Pos (snd q) with
      | None => Panicked
      | Some qpos =>
          match inner (Some q) qpos s c rest with
          | GoOn s' c' rest' =>
              match End (snd q) with
              | None => Panicked
              | Some e =>
                  match (if important (snd q) then push (st_stack s') q else Some (st_stack s')) with
                  | None => Panicked
                  | Some stack => outer nodes' (mkSt (Some (q, e)) (st_pg s') stack (st_map s')) c' rest'
                  end
              end
          | r => r
          end
      end
  end.

(** What NewCommentMap returns: nil, a map, or a panic. *)
Inductive cmres := CMNil | CMMap (m : cmap) | CMPanic.

(** commentmap.go:77-154. *)
Definition NewCommentMap (f : file) : cmres :=
  match f_comments f with
  | [] => CMNil
  | c :: rest =>
      match node_list f with
      | None => CMPanic
      | Some l =>
          match outer (combine (seq 0 (List.length l)) l) (mkSt None None [] []) c rest with
          | Returned m => CMMap m
          | _ => CMPanic
          end
      end
  end.
