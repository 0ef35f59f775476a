(** Literals: Value() and the literals the parser never builds. *)
From Coq Require Import ZArith List Bool String.
From Verif Require Import Base Dialect Token AST Num Printer.
Import ListNotations.
Open Scope list_scope.
Open Scope Z_scope.

(** A time.Time in its location: the fields time.Time.Format uses.  Simplified:
    fractions of a second and the zone are never printed by these layouts. *)
Record civil := mkCivil { c_year : Z; c_month : Z; c_day : Z; c_hour : Z; c_min : Z; c_sec : Z }.

(** Go time.appendInt: at least [w] digits. *)
Definition pad (w : nat) (z : Z) : gostring :=
  (if z <? 0 then [45] else []) ++
  repeat 48 (w - List.length (format_int (Z.abs z))) ++ format_int (Z.abs z).

(** time.Time.AppendFormat for the layouts "2006-01-02", "15:04:05" and both. *)
Definition format_date (t : civil) : gostring := pad 4 (c_year t) ++ [45] ++ pad 2 (c_month t) ++ [45] ++ pad 2 (c_day t).
Definition format_time (t : civil) : gostring := pad 2 (c_hour t) ++ [58] ++ pad 2 (c_min t) ++ [58] ++ pad 2 (c_sec t).
Definition format_datetime (t : civil) : gostring := format_date t ++ [32] ++ format_time t.

(** DateValue (value.go:198-224), TimeValue (226-258), DateTimeValue (260-292),
    TimestampValue (294-324). *)
Inductive timelit := LDate (t : civil) | LTime (t : civil) | LDateTime (t : civil) | LTimestamp (t : civil).

(** WriteTo: one call of Write (219-224, 253-258, 287-292, 319-324). *)
Definition wt_timelit (l : timelit) : wnode :=
  match l with
  | LDate t => WSingle (format_date t)
  | LTime t => WSingle (format_time t)
  | LDateTime t | LTimestamp t => WSingle (format_datetime t)
  end.

(** ToSQLString (215-217, 249-251, 283-285, 315-317). *)
Definition sql_timelit (l : timelit) : gostring :=
  match l with
  | LDateTime t => format_datetime t
  | _ => builder_string (wt_timelit l)
  end.

(** What Value() returns, as an interface{} (value.go:36, 68, 102, 142, 182,
    211, 245, 279, 311, 342): LongValue returns itself. *)
Inductive govalue := GFloat (f : f64) | GString (s : gostring) | GBool (b : bool) | GNil | GTime (t : civil) | GInt (z : Z) | GNode (v : node).
Definition value_of (e : node) : option govalue :=
  match e with
  | ELong _ => Some (GNode e)
  | EDouble _ _ f => Some (GFloat f)
  | EString _ _ s | ENString _ _ s => Some (GString s)
  | EBool _ _ b => Some (GBool b)
  | ENull _ _ => Some GNil
  | _ => None
  end.
Definition timelit_value (l : timelit) : govalue :=
  match l with LDate t | LTime t | LDateTime t | LTimestamp t => GTime t end.

(** CopyStmt (stmt.go:133-139), which the parser never builds. *)
Record copystmt := mkCopy { cp_copy : pos; cp_table : objname; cp_columns : list ident; cp_values : list (option gostring) }.

(** CopyStmt.WriteTo (stmt.go:154-180). *)
Definition wt_copy (c : copystmt) : wnode :=
  WSw ([wl "COPY "; WN (wt_objname (cp_table c))]
    ++ match cp_columns c with [] => [] | l => [wl " "; wl "("] ++ widents ", " l ++ [wl ")"] end
    ++ [wl " FROM stdin; "]
    ++ match cp_values c with
       | [] => []
       | l => WB [10] :: (fix go (first : bool) (l : list (option gostring)) : list wop :=
                match l with
                | [] => []
                | v :: l' => (if first then [] else [WB [9]]) ++
                             WB (match v with None => gs "\N" | Some x => x end) :: go false l'
                end) true l
       end
    ++ [WB (10 :: gs "\.")]).
(** CopyStmt.ToSQLString (stmt.go:150-152). *)
Definition sql_copy (c : copystmt) : gostring := builder_string (wt_copy c).
