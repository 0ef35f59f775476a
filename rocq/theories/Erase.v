(** Rewriting positions and identifier spellings in tokens and in the AST:
    [fp] is applied to every position, [g] to every character of an
    identifier.  Used to say "equal except for positions" (fp constant) and
    "equal except for the letter case of identifiers" (g a case folding). *)
From Coq Require Import ZArith List Bool.
From Verif Require Import Base Token AST.
Import ListNotations.

Section Erase.
  Variable fp : pos -> pos.
  Variable g : rune -> rune.

  Definition er_word (w : sqlword) : sqlword := mkWord (map g (wvalue w)) (wquote w) (wkeyword w).
  Definition er_val (v : tvalue) : tvalue :=
    match v with VWord w => VWord (er_word w) | VStr s => VStr s end.
  Definition er_tok (t : token) : token :=
    mkTok (tkind t) (er_val (tval t)) (fp (tfrom t)) (fp (tto t)).

  Definition er_ident (i : ident) : ident := mkIdent (map g (id_value i)) (fp (id_from i)) (fp (id_to i)).
  Definition er_on (o : objname) : objname := mkON (map er_ident (on_idents o)).
  Definition er_op (o : operator) : operator := mkOp (op_type o) (fp (op_from o)) (fp (op_to o)).
  Definition er_long (v : longval) : longval := mkLong (fp (lv_from v)) (fp (lv_to v)) (lv_long v).
  Definition er_jt (t : jointype) : jointype := mkJT (jt_cond t) (fp (jt_from t)) (fp (jt_to t)).
  Definition er_limit (l : limitexpr) : limitexpr :=
    mkLimit (fp (lim_allpos l)) (fp (lim_pos l)) (option_map er_long (lim_value l))
      (option_map er_long (lim_offset l)).
  Definition er_bound (b : wbound) : wbound :=
    match b with
    | BCurrentRow a b => BCurrentRow (fp a) (fp b)
    | BUnboundedPreceding a b => BUnboundedPreceding (fp a) (fp b)
    | BUnboundedFollowing a b => BUnboundedFollowing (fp a) (fp b)
    | BPreceding n a b => BPreceding n (fp a) (fp b)
    | BFollowing n a b => BFollowing n (fp a) (fp b)
    end.
  Definition er_wframe (w : wframe) : wframe :=
    mkWF (mkWFU (fp (wfu_from (wf_units w))) (fp (wfu_to (wf_units w))) (wfu_type (wf_units w)))
      (er_bound (wf_start w)) (option_map er_bound (wf_end w)).
  Definition er_setop (o : setop) : setop :=
    match o with
    | SUnion a b => SUnion (fp a) (fp b)
    | SExcept a b => SExcept (fp a) (fp b)
    | SIntersect a b => SIntersect (fp a) (fp b)
    end.
  Fixpoint er_dtype (t : dtype) : dtype :=
    match t with
    | TChar n a b c => TChar n (fp a) (fp b) (fp c)
    | TVarchar n a b c => TVarchar n (fp a) (fp b) (fp c)
    | TUUID a b => TUUID (fp a) (fp b)
    | TClob n a b => TClob n (fp a) (fp b)
    | TBinary n a b => TBinary n (fp a) (fp b)
    | TVarbinary n a b => TVarbinary n (fp a) (fp b)
    | TBlob n a b => TBlob n (fp a) (fp b)
    | TDecimal p s a b u c => TDecimal p s (fp a) (fp b) u (fp c)
    | TFloat n a b c u d => TFloat n (fp a) (fp b) (fp c) u (fp d)
    | TSmallInt a b u c => TSmallInt (fp a) (fp b) u (fp c)
    | TInt a b u c => TInt (fp a) (fp b) u (fp c)
    | TBigInt a b u c => TBigInt (fp a) (fp b) u (fp c)
    | TReal a b u c => TReal (fp a) (fp b) u (fp c)
    | TDouble a b => TDouble (fp a) (fp b)
    | TBoolean a b => TBoolean (fp a) (fp b)
    | TDate a b => TDate (fp a) (fp b)
    | TTime a b => TTime (fp a) (fp b)
    | TTimestamp w a b => TTimestamp w (fp a) (fp b)
    | TRegclass a b => TRegclass (fp a) (fp b)
    | TText a b => TText (fp a) (fp b)
    | TBytea a b => TBytea (fp a) (fp b)
    | TArray t a => TArray (er_dtype t) (fp a)
    | TCustom o => TCustom (er_on o)
    end.

  Fixpoint er_node (e : node) : node :=
    match e with
    | EIdent i => EIdent (er_ident i)
    | EWildcard p => EWildcard (fp p)
    | EQualWildcard l => EQualWildcard (map er_ident l)
    | ECompound l => ECompound (map er_ident l)
    | EIsNull x => EIsNull (er_node x)
    | EIsNotNull x => EIsNotNull (er_node x)
    | EInList e l n r => EInList (er_node e) (map er_node l) n (fp r)
    | EInSubQuery e q n r => EInSubQuery (er_node e) (er_query q) n (fp r)
    | EBetween e n lo hi => EBetween (er_node e) n (er_node lo) (er_node hi)
    | EBinary l op r => EBinary (er_node l) (er_op op) (er_node r)
    | ECast e ty c r => ECast (er_node e) (er_dtype ty) (fp c) (fp r)
    | ENested e l r => ENested (er_node e) (fp l) (fp r)
    | EUnary f op e => EUnary (fp f) (er_op op) (er_node e)
    | EFunction n args r ov orp =>
        EFunction (er_on n) (map er_node args) (fp r) (option_map er_winspec ov) (fp orp)
    | ECase c ce o bs el =>
        ECase (fp c) (fp ce) (option_map er_node o)
          (map (fun b => (er_node (fst b), er_node (snd b))) bs) (option_map er_node el)
    | EExists n q a b c => EExists n (er_query q) (fp a) (fp b) (fp c)
    | ESubQuery q l r => ESubQuery (er_query q) (fp l) (fp r)
    | ELong v => ELong (er_long v)
    | EDouble f t d => EDouble (fp f) (fp t) d
    | EString f t s => EString (fp f) (fp t) s
    | ENString f t s => ENString (fp f) (fp t) s
    | EBool f t b => EBool (fp f) (fp t) b
    | ENull f t => ENull (fp f) (fp t)
    end
  with er_winspec (w : winspec) : winspec :=
    match w with
    | WinSpec pb ob fr p o =>
        WinSpec (map er_node pb) (map er_orderby ob) (option_map er_wframe fr) (fp p) (fp o)
    end
  with er_orderby (o : orderby) : orderby :=
    match o with OrderBy e p a => OrderBy (er_node e) (fp p) a end
  with er_query (q : query) : query :=
    match q with
    | Query w cs b ob l =>
        Query (fp w) (map er_cte cs) (er_setexpr b) (map er_orderby ob) (option_map er_limit l)
    end
  with er_cte (c : cte) : cte :=
    match c with CTE a q r => CTE (er_ident a) (er_query q) (fp r) end
  with er_setexpr (b : setexpr) : setexpr :=
    match b with
    | SSelect s => SSelect (er_select s)
    | SQuery l r q => SQuery (fp l) (fp r) (er_query q)
    | SSetOp op a l r => SSetOp (er_setop op) a (er_setexpr l) (er_setexpr r)
    end
  with er_select (s : select) : select :=
    match s with
    | Select d pr fr w gb h p =>
        Select d (map er_selitem pr) (map er_tableref fr) (option_map er_node w)
          (map er_node gb) (option_map er_node h) (fp p)
    end
  with er_selitem (i : selitem) : selitem :=
    match i with
    | SIUnnamed e => SIUnnamed (er_node e)
    | SIAlias e a => SIAlias (er_node e) (er_ident a)
    | SIQualWildcard p => SIQualWildcard (er_on p)
    | SIWildcard f t => SIWildcard (fp f) (fp t)
    end
  with er_tableref (t : tableref) : tableref :=
    match t with
    | TRTable n a args r h hr =>
        TRTable (er_on n) (option_map er_ident a) (map er_node args) (fp r) (map er_node h) (fp hr)
    | TRDerived l lp a b q al =>
        TRDerived l (fp lp) (fp a) (fp b) (er_query q) (option_map er_ident al)
    | TRCross a b => TRCross (er_tableref a) (er_tableref b)
    | TRQualified a ty b s => TRQualified (er_tableref a) (er_jt ty) (er_tableref b) (er_joinspec s)
    | TRNatural a ty b => TRNatural (er_tableref a) (er_jt ty) (er_tableref b)
    end
  with er_joinspec (j : joinspec) : joinspec :=
    match j with
    | JUsing l u r => JUsing (map er_ident l) (fp u) (fp r)
    | JOn e p => JOn (er_node e) (fp p)
    end.

  Definition er_row (r : rowvalue) : rowvalue :=
    mkRow (map er_node (row_values r)) (fp (row_lparen r)) (fp (row_rparen r)).
  Definition er_src (s : insertsource) : insertsource :=
    match s with
    | ISSubQuery q => ISSubQuery (er_query q)
    | ISConstructor v rows => ISConstructor (fp v) (map er_row rows)
    end.
  Definition er_assign (a : assignment) : assignment :=
    mkAssign (er_ident (as_id a)) (er_node (as_value a)).
  Definition er_refkey (k : refkey) : refkey :=
    mkRefKey (er_ident (rk_table k)) (map er_ident (rk_columns k)) (fp (rk_rparen k)).
  Definition er_tcspec (s : tcspec) : tcspec :=
    match s with
    | TCUnique b p u r c => TCUnique b (fp p) (fp u) (fp r) (map er_ident c)
    | TCReferential f c k => TCReferential (fp f) (map er_ident c) (er_refkey k)
    | TCCheck c r e => TCCheck (fp c) (fp r) (er_node e)
    end.
  Definition er_tc (c : tableconstraint) : tableconstraint :=
    mkTC (fp (tc_constraint c)) (option_map er_ident (tc_name c)) (er_tcspec (tc_spec c)).
  Definition er_ccspec (s : ccspec) : ccspec :=
    match s with
    | CCNotNull a b => CCNotNull (fp a) (fp b)
    | CCUnique p a b c => CCUnique p (fp a) (fp b) (fp c)
    | CCReferences a b t c => CCReferences (fp a) (fp b) (er_on t) (map er_ident c)
    | CCCheck e a b => CCCheck (er_node e) (fp a) (fp b)
    end.
  Definition er_cc (c : colconstraint) : colconstraint :=
    mkCC (option_map er_ident (cc_name c)) (fp (cc_constraint c)) (er_ccspec (cc_spec c)).
  Definition er_deco (d : decoration) : decoration := mkAutoInc (fp (ai_auto d)) (fp (ai_increment d)).
  Definition er_coldef (c : columndef) : columndef :=
    mkColDef (er_ident (cd_name c)) (er_dtype (cd_type c)) (option_map er_node (cd_default c))
      (map er_deco (cd_decorations c)) (map er_cc (cd_constraints c)).
  Definition er_element (e : tableelement) : tableelement :=
    match e with
    | TEColumn c => TEColumn (er_coldef c)
    | TEConstraint c => TEConstraint (er_tc c)
    end.
  Definition er_option (o : tableoption) : tableoption :=
    match o with
    | TOEngine e q n => TOEngine (fp e) q (er_ident n)
    | TOCharset b d c q n => TOCharset b (fp d) (fp c) q (er_ident n)
    end.
  Definition er_acaction (a : altercolaction) : altercolaction :=
    match a with
    | ACSetDefault p e => ACSetDefault (fp p) (er_node e)
    | ACDropDefault a b => ACDropDefault (fp a) (fp b)
    | ACType p t => ACType (fp p) (er_dtype t)
    | ACSetNotNull a b => ACSetNotNull (fp a) (fp b)
    | ACDropNotNull a b => ACDropNotNull (fp a) (fp b)
    end.
  Definition er_ataction (a : altertableaction) : altertableaction :=
    match a with
    | ATAddColumn p c => ATAddColumn (fp p) (er_coldef c)
    | ATAlterColumn n p a => ATAlterColumn (er_ident n) (fp p) (er_acaction a)
    | ATRemoveColumn n c p q => ATRemoveColumn (er_ident n) c (fp p) (fp q)
    | ATAddConstraint p c => ATAddConstraint (fp p) (er_tc c)
    | ATDropConstraint n p c q => ATDropConstraint (er_ident n) (fp p) c (fp q)
    end.
  Fixpoint er_stmt (s : stmt) : stmt :=
    match s with
    | StQuery q => StQuery (er_query q)
    | StInsert p t c src u =>
        StInsert (fp p) (er_on t) (map er_ident c) (er_src src) (map er_assign u)
    | StUpdate p t a s => StUpdate (fp p) (er_on t) (map er_assign a) (option_map er_node s)
    | StDelete p t s => StDelete (fp p) (er_on t) (option_map er_node s)
    | StCreateView p n q m => StCreateView (fp p) (er_on n) (er_query q) m
    | StCreateTable p n e b o =>
        StCreateTable (fp p) (er_on n) (map er_element e) b (map er_option o)
    | StAlterTable p t a => StAlterTable (fp p) (er_on t) (er_ataction a)
    | StDropTable t c cp i d => StDropTable (map er_on t) c (fp cp) i (fp d)
    | StCreateIndex p t u i m c r s =>
        StCreateIndex (fp p) (er_on t) u (option_map er_ident i) (option_map er_ident m)
          (map er_ident c) (fp r) (option_map er_node s)
    | StDropIndex p n => StDropIndex (fp p) (map er_ident n)
    | StExplain s p => StExplain (er_stmt s) (fp p)
    end.
End Erase.

(** No positions, identifiers as written. *)
Definition no_pos : pos -> pos := fun _ => pos0.
Definition same_rune : rune -> rune := fun r => r.
