(** The parser commutes with renaming words it does not ask for. *)
From Coq Require Import ZArith List Bool String Lia.
From Verif Require Import Base Dialect Token Lexer AST Num Prog Parser RenameSpec.
Import ListNotations.
Open Scope Z_scope.

Definition voc (k : string) : bool := existsb (String.eqb k) vocabulary.

Section Nat.
  Variable sp : gostring -> gostring.
  Variable hw : sqlword -> sqlword.
  Hypothesis HwS : forall w, word_string (hw w) = sp (word_string w).
  Hypothesis HwK : forall w k, voc k = true -> gs_eqb (wkeyword (hw w)) (gs k) = gs_eqb (wkeyword w) (gs k).
  Hypothesis HwF : forall w k, voc k = true -> equal_fold (wvalue (hw w)) (gs k) = equal_fold (wvalue w) (gs k).

  Definition rn_val (v : tvalue) : tvalue := match v with VWord w => VWord (hw w) | VStr s => VStr s end.
  Definition rn_tok (t : token) : token := mkTok (tkind t) (rn_val (tval t)) (tfrom t) (tto t).

  Class Er (A : Type) := er : A -> A.

  Local Instance Er_unit : Er unit := fun x => x.
  Local Instance Er_bool : Er bool := fun x => x.
  Local Instance Er_Z : Er Z := fun x => x.
  Local Instance Er_gs : Er gostring := fun x => x.
  Local Instance Er_pos : Er pos := fun x => x.
  Local Instance Er_optype : Er optype := fun x => x.
  Local Instance Er_option {A} `{Er A} : Er (option A) := option_map er.
  Local Instance Er_list {A} `{Er A} : Er (list A) := map er.
  Local Instance Er_prod {A B} `{Er A} `{Er B} : Er (A * B) := fun x => (er (fst x), er (snd x)).
  Local Instance Er_sum {A B} `{Er A} `{Er B} : Er (A + B) :=
    fun x => match x with inl a => inl (er a) | inr b => inr (er b) end.
  Local Instance Er_word : Er sqlword := hw.
  Local Instance Er_tok : Er token := rn_tok.
  Local Instance Er_ident : Er ident := rn_ident sp.
  Local Instance Er_on : Er objname := rn_on sp.
  Local Instance Er_jt : Er jointype := fun x => x.
  Local Instance Er_limit : Er limitexpr := fun x => x.
  Local Instance Er_long : Er longval := fun x => x.
  Local Instance Er_bound : Er wbound := fun x => x.
  Local Instance Er_wframe : Er wframe := fun x => x.
  Local Instance Er_setop : Er setop := fun x => x.
  Local Instance Er_dtype : Er dtype := rn_dtype sp.
  Local Instance Er_node : Er node := rn_node sp.
  Local Instance Er_orderby : Er orderby := rn_orderby sp.
  Local Instance Er_winspec : Er winspec := rn_winspec sp.
  Local Instance Er_query : Er query := rn_query sp.
  Local Instance Er_cte : Er cte := rn_cte sp.
  Local Instance Er_setexpr : Er setexpr := rn_setexpr sp.
  Local Instance Er_select : Er select := rn_select sp.
  Local Instance Er_selitem : Er selitem := rn_selitem sp.
  Local Instance Er_tref : Er tableref := rn_tableref sp.
  Local Instance Er_js : Er joinspec := rn_joinspec sp.
  Local Instance Er_row : Er rowvalue := rn_row sp.
  Local Instance Er_src : Er insertsource := rn_src sp.
  Local Instance Er_assign : Er assignment := rn_assign sp.
  Local Instance Er_tcspec : Er tcspec := rn_tcspec sp.
  Local Instance Er_tc : Er tableconstraint := rn_tc sp.
  Local Instance Er_ccspec : Er ccspec := rn_ccspec sp.
  Local Instance Er_cc : Er colconstraint := rn_cc sp.
  Local Instance Er_deco : Er decoration := fun x => x.
  Local Instance Er_coldef : Er columndef := rn_coldef sp.
  Local Instance Er_element : Er tableelement := rn_element sp.
  Local Instance Er_toption : Er tableoption := rn_option sp.
  Local Instance Er_ata : Er altertableaction := rn_ataction sp.
  Local Instance Er_stmt : Er stmt := rn_stmt sp.
  Local Instance Er_kwres : Er kwres :=
    fun k => match k with KwYes t => KwYes (er t) | KwNo t => KwNo (er t) | KwEOF => KwEOF end.
  Local Instance Er_right : Er rightpart :=
    fun k => match k with
             | RNatural ty t => RNatural (er ty) (er t)
             | RCross t => RCross (er t)
             | RQualified ty t s => RQualified (er ty) (er t) (er s)
             end.

  Inductive prel {A} `{Er A} : prog A -> prog A -> Prop :=
  | PrFuel q : prel Fuel q
  | PrRet a a' : a' = er a -> prel (Ret a) (Ret a')
  | PrErr : prel Err Err
  | PrPanic w : prel (Panic w) (Panic w)
  | PrNext k k' : (forall o, prel (k o) (k' (er o))) -> prel (Next k) (Next k')
  | PrPeek k k' : (forall o, prel (k o) (k' (er o))) -> prel (Peek k) (Peek k')
  | PrPrev k k' : prel k k' -> prel (Prev k) (Prev k')
  | PrKws ks k k' : (forallb voc ks = true) -> (forall o, prel (k o) (k' (er o))) -> prel (Kws (map gs ks) k) (Kws (map gs ks) k').

  Lemma prel_bind {A B} `{Er A} `{Er B} (p p' : prog A) (f f' : A -> prog B) :
    prel p p' -> (forall a, prel (f a) (f' (er a))) -> prel (bind p f) (bind p' f').
  Proof.
    intros Hp Hf. induction Hp; cbn [bind]; try (constructor; auto; fail).
    subst; apply Hf.
  Qed.

  Lemma prel_loop {S A} `{Er S} `{Er A} (b b' : S -> prog (S + A)) :
    (forall s, prel (b s) (b' (er s))) ->
    forall n n' s s', (n <= n')%nat -> s' = er s -> prel (loop n b s) (loop n' b' s').
  Proof.
    intros Hb. induction n as [|n IH]; intros n' s s' Hn ->; [constructor|].
    destruct n' as [|n']; [lia|]. cbn [loop].
    apply prel_bind; [apply Hb|]. intros [s1|a]; cbn.
    - apply IH; [lia|reflexivity].
    - constructor; reflexivity.
  Qed.

  Record rrel (r r' : rec) : Prop := {
    rr_fuel : (r_fuel r <= r_fuel r')%nat;
    rr_stmt : prel (r_stmt r) (r_stmt r');
    rr_query : prel (r_query r) (r_query r');
    rr_body : forall n, prel (r_body r n) (r_body r' n);
    rr_subexpr : forall n, prel (r_subexpr r n) (r_subexpr r' n);
    rr_tref : prel (r_tref r) (r_tref r') }.

  (** The facts about tokens the walk uses. *)
  Lemma is_kw_er k t : voc k = true -> is_kw (gs k) (er t) = is_kw (gs k) t.
  Proof. intros V. unfold is_kw. destruct t as [kd [w|s] a b]; cbn; [apply HwF; exact V|reflexivity]. Qed.
  Lemma ws_er w : word_string (er w) = sp (word_string w).
  Proof. apply HwS. Qed.
  Lemma ident_of_er t w : ident_of (er t) (er w) = er (ident_of t w).
  Proof. unfold ident_of. rewrite ws_er. reflexivity. Qed.
  Lemma rev_er {A} `{Er A} (l : list A) : rev (er l) = er (rev l).
  Proof. symmetry. apply map_rev. Qed.

  Local Instance Er_tval : Er tvalue := rn_val.
  Lemma tkind_er t : tkind (er t) = tkind t. Proof. reflexivity. Qed.
  Lemma tval_er t : tval (er t) = er (tval t). Proof. reflexivity. Qed.
  Lemma tfrom_er t : tfrom (er t) = er (tfrom t). Proof. reflexivity. Qed.
  Lemma tto_er t : tto (er t) = er (tto t). Proof. reflexivity. Qed.
  Lemma kw_er w s : voc s = true -> kw (er w) s = kw w s. Proof. apply HwK. Qed.
  Lemma mem_er w l : forallb voc l = true -> mem_gs (wkeyword (er w)) (map gs l) = mem_gs (wkeyword w) (map gs l).
  Proof.
    induction l as [|k l IH]; intros V; [reflexivity|]. cbn [forallb] in V. apply andb_prop in V as [V1 V2].
    unfold mem_gs in *. cbn [map existsb]. rewrite IH by exact V2. f_equal. apply HwK. exact V1.
  Qed.
  Lemma is_kind_er k t : is_kind k (er t) = is_kind k t. Proof. reflexivity. Qed.
  Lemma unit_er w : unit_from_str (er w) = unit_from_str w. Proof. unfold unit_from_str. rewrite !kw_er by reflexivity. reflexivity. Qed.
  Lemma vword_er w : er (VWord w) = VWord (er w). Proof. reflexivity. Qed.
  Lemma vstr_er s : er (VStr s) = VStr s. Proof. reflexivity. Qed.
  Lemma some_er {A} `{Er A} (a : A) : er (Some a) = Some (er a). Proof. reflexivity. Qed.
  Lemma none_er {A} `{Er A} : er (@None A) = None. Proof. reflexivity. Qed.
  Lemma pair_er {A B} `{Er A} `{Er B} (a : A) (b : B) : er (a, b) = (er a, er b). Proof. reflexivity. Qed.
  Lemma inl_er {A B} `{Er A} `{Er B} (a : A) : er (inl a : A + B) = inl (er a). Proof. reflexivity. Qed.
  Lemma inr_er {A B} `{Er A} `{Er B} (b : B) : er (inr b : A + B) = inr (er b). Proof. reflexivity. Qed.
  Lemma nil_er {A} `{Er A} : er (@nil A) = []. Proof. reflexivity. Qed.
  Lemma cons_er {A} `{Er A} (a : A) l : er (a :: l) = er a :: er l. Proof. reflexivity. Qed.
  Lemma bool_er (b : bool) : er b = b. Proof. reflexivity. Qed.
  Lemma Z_er (b : Z) : er b = b. Proof. reflexivity. Qed.
  Lemma optype_er (b : optype) : er b = b. Proof. reflexivity. Qed.
  Lemma gs_er (b : gostring) : er b = b. Proof. reflexivity. Qed.
  Lemma rev_cons_er {A} `{Er A} (a : A) (l : list A) : rev (er a :: er l) = er (rev (a :: l)).
  Proof. apply (rev_er (a :: l)). Qed.
  Lemma app_er {A} `{Er A} (a b : list A) : er (a ++ b) = er a ++ er b.
  Proof. apply map_app. Qed.
  Lemma optZ_er (o : option Z) : er o = o. Proof. destruct o; reflexivity. Qed.
  Lemma optop_er (o : option optype) : er o = o. Proof. destruct o; reflexivity. Qed.
  Lemma optb_er (o : option bool) : er o = o. Proof. destruct o; reflexivity. Qed.
  Lemma unit_ty_er (b : unit) : er b = b. Proof. reflexivity. Qed.
  Lemma pos0_er : er pos0 = pos0. Proof. reflexivity. Qed.
  Lemma pos_er (p : pos) : er p = p. Proof. reflexivity. Qed.
  Lemma optwf_er (o : option wframe) : er o = o. Proof. destruct o; reflexivity. Qed.
  Lemma optlim_er (o : option limitexpr) : er o = o. Proof. destruct o; reflexivity. Qed.
  Lemma optlong_er (o : option longval) : er o = o. Proof. destruct o; reflexivity. Qed.
  Lemma optbound_er (o : option wbound) : er o = o. Proof. destruct o; reflexivity. Qed.
  Lemma optpos_er (o : option pos) : er o = o. Proof. destruct o; reflexivity. Qed.
  Lemma optjt_er (o : option jointype) : er o = o. Proof. destruct o; reflexivity. Qed.
  Lemma wframe_er (o : wframe) : er o = o. Proof. reflexivity. Qed.
  Lemma bound_er (o : wbound) : er o = o. Proof. reflexivity. Qed.
  Lemma jt_er (o : jointype) : er o = o. Proof. reflexivity. Qed.
  Lemma long_er (o : longval) : er o = o. Proof. reflexivity. Qed.
  Lemma limit_er (o : limitexpr) : er o = o. Proof. reflexivity. Qed.
  Lemma setop_er (o : setop) : er o = o. Proof. reflexivity. Qed.
  Lemma decos_er (o : list decoration) : er o = o. Proof. apply map_id. Qed.
  Hint Rewrite pos_er optwf_er optlim_er optlong_er optbound_er optpos_er optjt_er wframe_er bound_er jt_er
    long_er limit_er setop_er decos_er : ernorm.
  Lemma kwyes_er t : er (KwYes t) = KwYes (er t). Proof. reflexivity. Qed.
  Lemma kwno_er t : er (KwNo t) = KwNo (er t). Proof. reflexivity. Qed.
  Lemma kweof_er : er KwEOF = KwEOF. Proof. reflexivity. Qed.
  Lemma rnat_er a b : er (RNatural a b) = RNatural (er a) (er b). Proof. reflexivity. Qed.
  Lemma rcross_er a : er (RCross a) = RCross (er a). Proof. reflexivity. Qed.
  Lemma rqual_er a b c : er (RQualified a b c) = RQualified (er a) (er b) (er c). Proof. reflexivity. Qed.
  Lemma qualw_er l : er (EQualWildcard l) = EQualWildcard (er l). Proof. reflexivity. Qed.
  Lemma setop_prec_er o : setop_prec (er o) = setop_prec o. Proof. destruct o; reflexivity. Qed.

  Hint Rewrite is_kw_er kw_er mem_er using (first [assumption|reflexivity]) : ernorm.
  Hint Rewrite ident_of_er @rev_er @rev_cons_er tkind_er tval_er tfrom_er tto_er is_kind_er
    unit_er vword_er vstr_er @some_er @none_er @pair_er @inl_er @inr_er @nil_er @cons_er bool_er Z_er
    optype_er optZ_er optop_er optb_er gs_er unit_ty_er pos0_er kwyes_er kwno_er kweof_er rnat_er rcross_er rqual_er qualw_er
    setop_prec_er : ernorm.

  Lemma list_er_alt (l : list ident) : map (rn_ident sp) l = er l. Proof. reflexivity. Qed.

  Create HintDb walk.

  Ltac nrm := autorewrite with ernorm.
  Ltac ercbv := cbv [er Er_unit Er_bool Er_Z Er_gs Er_pos Er_optype Er_option Er_list Er_prod Er_sum Er_word Er_tok Er_ident Er_on Er_jt Er_limit Er_long Er_bound Er_wframe Er_setop Er_dtype Er_node Er_orderby Er_winspec Er_query Er_cte Er_setexpr Er_select Er_selitem Er_tref Er_js Er_row Er_src Er_assign Er_tcspec Er_tc Er_ccspec Er_cc Er_deco Er_coldef Er_element Er_toption Er_ata Er_stmt Er_kwres Er_right Er_tval rn_val rn_tok rn_ident rn_on rn_row rn_src rn_assign rn_refkey rn_tcspec rn_tc rn_ccspec rn_cc rn_coldef rn_element rn_option rn_acaction rn_ataction
                option_map map].
  Ltac leaf1 :=
    first [ reflexivity
          | nrm; reflexivity
          | cbn; reflexivity
          | cbn; rewrite <- ?map_rev; reflexivity
          | cbn [rev er Er_sum]; rewrite ?app_er, ?rev_er; cbn; reflexivity
          | ercbv; cbn; ercbv; cbn; reflexivity ].
  Ltac leaf :=
    first [ leaf1
          | match goal with
            | |- context[match ?x with _ => _ end] =>
                first [is_var x | match x with context[match _ with _ => _ end] => fail 1 | _ => idtac end];
                destruct x eqn:?; nrm; leaf
            end ].

  Lemma prel_if {A} `{Er A} (b b' : bool) (p p' q q' : prog A) :
    b' = b -> (b = true -> prel p p') -> (b = false -> prel q q') ->
    prel (if b then p else q) (if b' then p' else q').
  Proof. intros -> H1 H2; destruct b; auto. Qed.

  Ltac step :=
    lazymatch goal with
    | |- prel _ _ => idtac
    | _ => idtac
    end;
    match goal with
    | |- forall _, _ => intro
    | |- prel _ _ => solve [eauto with walk]
    | |- prel (bind _ _) (bind _ _) => apply prel_bind
    | |- prel (Next _) (Next _) => apply PrNext
    | |- prel (Peek _) (Peek _) => apply PrPeek
    | |- prel (Prev _) (Prev _) => apply PrPrev
    | |- prel (Kws _ _) (Kws _ _) => apply PrKws; [first [assumption|reflexivity]|]
    | |- prel Err Err => apply PrErr
    | |- prel (Panic _) (Panic _) => apply PrPanic
    | |- prel Fuel _ => apply PrFuel
    | |- prel (loop _ _ _) (loop _ _ _) => apply prel_loop; [|solve [auto using rr_fuel]|leaf]
    | |- prel (Ret _) (Ret _) => apply PrRet; leaf
    | |- prel (if _ then _ else _) (if _ then _ else _) => apply prel_if; [leaf| |]
    | |- prel (match ?x with _ => _ end) _ => first [is_var x | nrm]; destruct x eqn:?; nrm
    | |- prel _ _ => progress nrm
    | |- prel (let _ := _ in _) _ => cbv zeta
    end.
  Ltac walk := repeat step.

  Lemma must_next_rel : prel must_next must_next.
  Proof. unfold must_next. walk. Qed.
  Lemma next_nn_rel : prel next_nn next_nn.
  Proof. unfold next_nn. walk. Qed.
  Lemma next_err_rel : prel next_err next_err.
  Proof. unfold next_err. walk. Qed.
  Lemma peek_nn_rel : prel peek_nn peek_nn.
  Proof. unfold peek_nn. walk. Qed.
  Lemma peek_rel : prel peek peek.
  Proof. unfold peek. walk. Qed.
  Lemma prev_rel : prel prev prev.
  Proof. unfold prev. walk. Qed.
  Hint Resolve must_next_rel next_nn_rel next_err_rel peek_nn_rel peek_rel prev_rel : walk.
  Lemma word_of_rel t : prel (word_of t) (word_of (er t)).
  Proof. unfold word_of. nrm. walk. Qed.
  Lemma str_of_rel t : prel (str_of t) (str_of (er t)).
  Proof. unfold str_of. nrm. walk. Qed.
  Hint Resolve word_of_rel str_of_rel : walk.
  Hint Extern 1 (voc _ = true) => first [assumption|reflexivity] : walk.
  Hint Extern 1 (forallb voc _ = true) => first [assumption|reflexivity] : walk.
  Lemma parse_keyword_rel s : voc s = true -> prel (parse_keyword s) (parse_keyword s).
  Proof. intros V. unfold parse_keyword. walk. Qed.
  Hint Resolve parse_keyword_rel : walk.
  Hint Extern 1 (_ = er _) => leaf : walk.
  Hint Extern 1 (er _ = _) => leaf : walk.
  Hint Resolve rr_stmt rr_query rr_body rr_subexpr rr_tref : walk.
  Lemma kw_ok_rel s : voc s = true -> prel (kw_ok s) (kw_ok s).
  Proof. intros. unfold kw_ok. nrm. walk. Qed.
  Hint Resolve kw_ok_rel : walk.
  Lemma kw_tok_rel s : voc s = true -> prel (kw_tok s) (kw_tok s).
  Proof. intros. unfold kw_tok. nrm. walk. Qed.
  Hint Resolve kw_tok_rel : walk.
  Lemma kws_ok_rel l : forallb voc l = true -> prel (kws_ok l) (kws_ok l).
  Proof. intros. unfold kws_ok. nrm. walk. Qed.
  Hint Resolve kws_ok_rel : walk.
  Lemma kws_toks_rel l : forallb voc l = true -> prel (kws_toks l) (kws_toks l).
  Proof. intros. unfold kws_toks. nrm. walk. Qed.
  Hint Resolve kws_toks_rel : walk.
  Lemma expect_keyword_rel s : voc s = true -> prel (expect_keyword s) (expect_keyword s).
  Proof. intros. unfold expect_keyword. nrm. walk. Qed.
  Hint Resolve expect_keyword_rel : walk.
  Lemma consume_token_rel k : prel (consume_token k) (consume_token k).
  Proof. intros. unfold consume_token. nrm. walk. Qed.
  Hint Resolve consume_token_rel : walk.
  Lemma expect_token_rel k : prel (expect_token k) (expect_token k).
  Proof. intros. unfold expect_token. nrm. walk. Qed.
  Hint Resolve expect_token_rel : walk.
  Lemma next_kind_rel k : prel (next_kind k) (next_kind k).
  Proof. intros. unfold next_kind. nrm. walk. Qed.
  Hint Resolve next_kind_rel : walk.
  Lemma parse_identifier_rel : prel (parse_identifier) (parse_identifier).
  Proof. intros. unfold parse_identifier. nrm. walk. Qed.
  Hint Resolve parse_identifier_rel : walk.
  Lemma parse_list_of_ids_rel r r' k : rrel r r' -> prel (parse_list_of_ids r k) (parse_list_of_ids r' k).
  Proof. intros HR. unfold parse_list_of_ids. nrm. walk. Qed.
  Hint Resolve parse_list_of_ids_rel : walk.
  Lemma or_err_rel {A} `{Er A} (o : option A) o' : o' = er o -> prel (or_err o) (or_err o').
  Proof. intros ->. unfold or_err. nrm. walk. Qed.
  Hint Resolve or_err_rel : walk.
  Lemma parse_column_names_rel r r' : rrel r r' -> prel (parse_column_names r) (parse_column_names r').
  Proof. intros HR. unfold parse_column_names. nrm. walk. Qed.
  Hint Resolve parse_column_names_rel : walk.
  Lemma parse_object_name_rel r r' : rrel r r' -> prel (parse_object_name r) (parse_object_name r').
  Proof. intros HR. unfold parse_object_name. nrm. walk. Qed.
  Hint Resolve parse_object_name_rel : walk.
  Lemma parse_literal_int_rel : prel (parse_literal_int) (parse_literal_int).
  Proof. intros. unfold parse_literal_int. nrm. walk. Qed.
  Hint Resolve parse_literal_int_rel : walk.
  Lemma parse_optional_precision_rel : prel (parse_optional_precision) (parse_optional_precision).
  Proof. intros. unfold parse_optional_precision. nrm. walk. Qed.
  Hint Resolve parse_optional_precision_rel : walk.
  Lemma parse_optional_precision_scale_rel : prel (parse_optional_precision_scale) (parse_optional_precision_scale).
  Proof. intros. unfold parse_optional_precision_scale. nrm. walk. Qed.
  Hint Resolve parse_optional_precision_scale_rel : walk.
  Lemma parse_my_unsigned_rel : prel (parse_my_unsigned) (parse_my_unsigned).
  Proof. intros. unfold parse_my_unsigned. nrm. walk. Qed.
  Hint Resolve parse_my_unsigned_rel : walk.
  Lemma parse_time_zone_rel : prel (parse_time_zone) (parse_time_zone).
  Proof. intros. unfold parse_time_zone. nrm. walk. Qed.
  Hint Resolve parse_time_zone_rel : walk.
  Lemma parse_data_type_rel r r' : rrel r r' -> prel (parse_data_type r) (parse_data_type r').
  Proof. intros HR. unfold parse_data_type. nrm. walk. Qed.
  Hint Resolve parse_data_type_rel : walk.
  Lemma parse_expr_rel r r' : rrel r r' -> prel (parse_expr r) (parse_expr r').
  Proof. intros HR. unfold parse_expr. nrm. walk. Qed.
  Hint Resolve parse_expr_rel : walk.
  Lemma parse_optional_alias_rel l : forallb voc l = true -> prel (parse_optional_alias (map gs l)) (parse_optional_alias (map gs l)).
  Proof. intros V. unfold parse_optional_alias. nrm. walk. Qed.
  Hint Resolve parse_optional_alias_rel : walk.
  Lemma parse_expr_list_rel r r' : rrel r r' -> prel (parse_expr_list r) (parse_expr_list r').
  Proof. intros HR. unfold parse_expr_list. nrm. walk. Qed.
  Hint Resolve parse_expr_list_rel : walk.
  Lemma parse_optional_args_rel r r' : rrel r r' -> prel (parse_optional_args r) (parse_optional_args r').
  Proof. intros HR. unfold parse_optional_args. nrm. walk. Qed.
  Hint Resolve parse_optional_args_rel : walk.
  Lemma parse_order_by_list_rel r r' : rrel r r' -> prel (parse_order_by_list r) (parse_order_by_list r').
  Proof. intros HR. unfold parse_order_by_list. nrm. walk. Qed.
  Hint Resolve parse_order_by_list_rel : walk.
  Lemma parse_window_frame_bound_rel : prel (parse_window_frame_bound) (parse_window_frame_bound).
  Proof. intros. unfold parse_window_frame_bound. nrm. walk. Qed.
  Hint Resolve parse_window_frame_bound_rel : walk.
  Lemma parse_window_frame_rel : prel (parse_window_frame) (parse_window_frame).
  Proof. intros. unfold parse_window_frame. nrm. walk. Qed.
  Hint Resolve parse_window_frame_rel : walk.
  Lemma parse_function_rel r r' n n' : rrel r r' -> n' = er n -> prel (parse_function r n) (parse_function r' n').
  Proof. intros HR ->. unfold parse_function. nrm. walk. Qed.
  Hint Resolve parse_function_rel : walk.
  Lemma parse_value_rel : prel (parse_value) (parse_value).
  Proof. intros. unfold parse_value. nrm. walk. Qed.
  Hint Resolve parse_value_rel : walk.
  Lemma parse_case_rel r r' : rrel r r' -> prel (parse_case r) (parse_case r').
  Proof. intros HR. unfold parse_case. nrm. walk. Qed.
  Hint Resolve parse_case_rel : walk.
  Lemma parse_cast_rel r r' : rrel r r' -> prel (parse_cast r) (parse_cast r').
  Proof. intros HR. unfold parse_cast. nrm. walk. Qed.
  Hint Resolve parse_cast_rel : walk.
  Lemma parse_exists_rel r r' o o' : rrel r r' -> o' = er o -> prel (parse_exists r o) (parse_exists r' o').
  Proof. intros HR ->. unfold parse_exists. nrm. walk. Qed.
  Hint Resolve parse_exists_rel : walk.
  Lemma get_precedence_rel t t' : t' = er t -> prel (get_precedence t) (get_precedence t').
  Proof. intros ->. unfold get_precedence. nrm. walk. Qed.
  Hint Resolve get_precedence_rel : walk.
  Lemma get_next_precedence_rel : prel (get_next_precedence) (get_next_precedence).
  Proof. intros. unfold get_next_precedence. nrm. walk. Qed.
  Hint Resolve get_next_precedence_rel : walk.
  Lemma parse_in_rel r r' e b e' : rrel r r' -> e' = er e -> prel (parse_in r e b) (parse_in r' e' b).
  Proof. intros HR ->. unfold parse_in. nrm. walk. Qed.
  Hint Resolve parse_in_rel : walk.
  Lemma parse_dotted_rel r r' i i' : rrel r r' -> i' = er i -> prel (parse_dotted r i) (parse_dotted r' i').
  Proof. intros HR ->. unfold parse_dotted. nrm. walk. Qed.
  Hint Resolve parse_dotted_rel : walk.
  Lemma parse_prefix_rel r r' : rrel r r' -> prel (parse_prefix r) (parse_prefix r').
  Proof. intros HR. unfold parse_prefix. nrm. walk. Qed.
  Hint Resolve parse_prefix_rel : walk.
  Lemma parse_between_rel r r' e b e' : rrel r r' -> e' = er e -> prel (parse_between r e b) (parse_between r' e' b).
  Proof. intros HR ->. unfold parse_between. nrm. walk. Qed.
  Hint Resolve parse_between_rel : walk.
  Lemma infix_operator_rel t t' : t' = er t -> prel (infix_operator t) (infix_operator t').
  Proof. intros ->. unfold infix_operator. nrm. walk. Qed.
  Hint Resolve infix_operator_rel : walk.
  Lemma parse_infix_rel r r' e n e' : rrel r r' -> e' = er e -> prel (parse_infix r e n) (parse_infix r' e' n).
  Proof. intros HR ->. unfold parse_infix. nrm. walk. Qed.
  Hint Resolve parse_infix_rel : walk.
  Lemma infix_loop_rel r r' n e e' : rrel r r' -> e' = er e -> prel (infix_loop r n e) (infix_loop r' n e').
  Proof. intros HR ->. unfold infix_loop. nrm. walk. Qed.
  Hint Resolve infix_loop_rel : walk.
  Lemma parse_subexpr_rel r r' n : rrel r r' -> prel (parse_subexpr r n) (parse_subexpr r' n).
  Proof. intros HR. unfold parse_subexpr. nrm. walk. Qed.
  Hint Resolve parse_subexpr_rel : walk.
  Lemma parse_default_expr_rel r r' : rrel r r' -> prel (parse_default_expr r) (parse_default_expr r').
  Proof. intros HR. unfold parse_default_expr. nrm. walk. Qed.
  Hint Resolve parse_default_expr_rel : walk.
  Lemma parse_limit_rel : prel (parse_limit) (parse_limit).
  Proof. intros. unfold parse_limit. nrm. walk. Qed.
  Hint Resolve parse_limit_rel : walk.
  Lemma parse_table_factor_rel r r' : rrel r r' -> prel (parse_table_factor r) (parse_table_factor r').
  Proof. intros HR. unfold parse_table_factor. nrm. walk. Qed.
  Hint Resolve parse_table_factor_rel : walk.
  Lemma parse_join_type_rel : prel (parse_join_type) (parse_join_type).
  Proof. intros. unfold parse_join_type. nrm. walk. Qed.
  Hint Resolve parse_join_type_rel : walk.
  Lemma parse_join_spec_rel r r' : rrel r r' -> prel (parse_join_spec r) (parse_join_spec r').
  Proof. intros HR. unfold parse_join_spec. nrm. walk. Qed.
  Hint Resolve parse_join_spec_rel : walk.
  Lemma parse_table_reference_right_rel r r' : rrel r r' -> prel (parse_table_reference_right r) (parse_table_reference_right r').
  Proof. intros HR. unfold parse_table_reference_right. nrm. walk. Qed.
  Hint Resolve parse_table_reference_right_rel : walk.
  Lemma parse_table_reference_rel r r' : rrel r r' -> prel (parse_table_reference r) (parse_table_reference r').
  Proof. intros HR. unfold parse_table_reference. nrm. walk. Qed.
  Hint Resolve parse_table_reference_rel : walk.
  Lemma parse_from_clause_rel r r' : rrel r r' -> prel (parse_from_clause r) (parse_from_clause r').
  Proof. intros HR. unfold parse_from_clause. nrm. walk. Qed.
  Hint Resolve parse_from_clause_rel : walk.
  Lemma parse_select_list_rel r r' : rrel r r' -> prel (parse_select_list r) (parse_select_list r').
  Proof. intros HR. unfold parse_select_list. nrm. walk. all: try (change (er (EIdent i)) with (EIdent (er i))). all: cbn [er Er_node rn_node]. all: walk. Qed.
  Hint Resolve parse_select_list_rel : walk.
  Lemma parse_select_rel r r' p p' : rrel r r' -> p' = er p -> prel (parse_select r p) (parse_select r' p').
  Proof. intros HR ->. unfold parse_select. nrm. walk. Qed.
  Hint Resolve parse_select_rel : walk.
  Lemma parse_set_operator_rel o o' : o' = er o -> prel (parse_set_operator o) (parse_set_operator o').
  Proof. intros ->. unfold parse_set_operator. nrm. walk. Qed.
  Hint Resolve parse_set_operator_rel : walk.
  Lemma body_loop_rel r r' n e e' : rrel r r' -> e' = er e -> prel (body_loop r n e) (body_loop r' n e').
  Proof. intros HR ->. unfold body_loop. nrm. walk. Qed.
  Hint Resolve body_loop_rel : walk.
  Lemma parse_query_body_rel r r' n : rrel r r' -> prel (parse_query_body r n) (parse_query_body r' n).
  Proof. intros HR. unfold parse_query_body. nrm. walk. Qed.
  Hint Resolve parse_query_body_rel : walk.
  Lemma parse_cte_list_rel r r' : rrel r r' -> prel (parse_cte_list r) (parse_cte_list r').
  Proof. intros HR. unfold parse_cte_list. nrm. walk. Qed.
  Hint Resolve parse_cte_list_rel : walk.
  Lemma parse_query_rel r r' : rrel r r' -> prel (parse_query r) (parse_query r').
  Proof. intros HR. unfold parse_query. nrm. walk. Qed.
  Hint Resolve parse_query_rel : walk.
  Lemma parse_table_constraints_rel r r' : rrel r r' -> prel (parse_table_constraints r) (parse_table_constraints r').
  Proof. intros HR. unfold parse_table_constraints. nrm. walk. Qed.
  Hint Resolve parse_table_constraints_rel : walk.
  Lemma parse_column_spec_rel r r' t w t' w' : rrel r r' -> t' = er t -> w' = er w -> prel (parse_column_spec r t w) (parse_column_spec r' t' w').
  Proof. intros HR -> ->. unfold parse_column_spec. nrm. walk. Qed.
  Hint Resolve parse_column_spec_rel : walk.
  Lemma parse_column_constraints_rel r r' : rrel r r' -> prel (parse_column_constraints r) (parse_column_constraints r').
  Proof. intros HR. unfold parse_column_constraints. nrm. walk. Qed.
  Hint Resolve parse_column_constraints_rel : walk.
  Lemma parse_column_definition_rel r r' : rrel r r' -> prel (parse_column_definition r) (parse_column_definition r').
  Proof. intros HR. unfold parse_column_definition. nrm. walk. Qed.
  Hint Resolve parse_column_definition_rel : walk.
  Lemma parse_column_def_rel r r' : rrel r r' -> prel (parse_column_def r) (parse_column_def r').
  Proof. intros HR. unfold parse_column_def. nrm. walk. Qed.
  Hint Resolve parse_column_def_rel : walk.
  Lemma parse_elements_rel r r' : rrel r r' -> prel (parse_elements r) (parse_elements r').
  Proof. intros HR. unfold parse_elements. nrm. walk. Qed.
  Hint Resolve parse_elements_rel : walk.
  Lemma parse_option_value_rel : prel (parse_option_value) (parse_option_value).
  Proof. intros. unfold parse_option_value. nrm. walk. Qed.
  Hint Resolve parse_option_value_rel : walk.
  Lemma parse_table_option_rel : prel (parse_table_option) (parse_table_option).
  Proof. intros. unfold parse_table_option. nrm. walk. Qed.
  Hint Resolve parse_table_option_rel : walk.
  Lemma parse_table_options_rel r r' : rrel r r' -> prel (parse_table_options r) (parse_table_options r').
  Proof. intros HR. unfold parse_table_options. nrm. walk. Qed.
  Hint Resolve parse_table_options_rel : walk.
  Lemma parse_create_table_rel r r' t t' : rrel r r' -> t' = er t -> prel (parse_create_table r t) (parse_create_table r' t').
  Proof. intros HR ->. unfold parse_create_table. nrm. walk. Qed.
  Hint Resolve parse_create_table_rel : walk.
  Lemma parse_create_view_rel r r' t t' : rrel r r' -> t' = er t -> prel (parse_create_view r t) (parse_create_view r' t').
  Proof. intros HR ->. unfold parse_create_view. nrm. walk. Qed.
  Hint Resolve parse_create_view_rel : walk.
  Lemma parse_create_index_rel r r' b : rrel r r' -> prel (parse_create_index r b) (parse_create_index r' b).
  Proof. intros HR. unfold parse_create_index. nrm. walk. Qed.
  Hint Resolve parse_create_index_rel : walk.
  Lemma parse_create_rel r r' : rrel r r' -> prel (parse_create r) (parse_create r').
  Proof. intros HR. unfold parse_create. nrm. walk. Qed.
  Hint Resolve parse_create_rel : walk.
  Lemma parse_delete_rel r r' : rrel r r' -> prel (parse_delete r) (parse_delete r').
  Proof. intros HR. unfold parse_delete. nrm. walk. Qed.
  Hint Resolve parse_delete_rel : walk.
  Lemma parse_assignments_rel r r' : rrel r r' -> prel (parse_assignments r) (parse_assignments r').
  Proof. intros HR. unfold parse_assignments. nrm. walk. Qed.
  Hint Resolve parse_assignments_rel : walk.
  Lemma parse_update_rel r r' : rrel r r' -> prel (parse_update r) (parse_update r').
  Proof. intros HR. unfold parse_update. nrm. walk. Qed.
  Hint Resolve parse_update_rel : walk.
  Lemma parse_rows_rel r r' : rrel r r' -> prel (parse_rows r) (parse_rows r').
  Proof. intros HR. unfold parse_rows. nrm. walk. Qed.
  Hint Resolve parse_rows_rel : walk.
  Lemma parse_insert_rel r r' : rrel r r' -> prel (parse_insert r) (parse_insert r').
  Proof. intros HR. unfold parse_insert. nrm. walk. Qed.
  Hint Resolve parse_insert_rel : walk.
  Lemma parse_alter_column_rel r r' t t' : rrel r r' -> t' = er t -> prel (parse_alter_column r t) (parse_alter_column r' t').
  Proof. intros HR ->. unfold parse_alter_column. nrm. walk. Qed.
  Hint Resolve parse_alter_column_rel : walk.
  Lemma parse_cascade_rel : prel (parse_cascade) (parse_cascade).
  Proof. intros. unfold parse_cascade. nrm. walk. Qed.
  Hint Resolve parse_cascade_rel : walk.
  Lemma parse_alter_rel r r' : rrel r r' -> prel (parse_alter r) (parse_alter r').
  Proof. intros HR. unfold parse_alter. nrm. walk. Qed.
  Hint Resolve parse_alter_rel : walk.
  Lemma parse_drop_rel r r' : rrel r r' -> prel (parse_drop r) (parse_drop r').
  Proof. intros HR. unfold parse_drop. nrm. walk. Qed.
  Hint Resolve parse_drop_rel : walk.
  Lemma parse_statement_rel r r' : rrel r r' -> prel (parse_statement r) (parse_statement r').
  Proof. intros HR. unfold parse_statement. nrm. walk. Qed.
  Hint Resolve parse_statement_rel : walk.
  Lemma knot_rel n : forall n', (n <= n')%nat -> rrel (knot n) (knot n').
  Proof.
    induction n as [|n IH]; intros n' Hn.
    - constructor; cbn; intros; try (constructor; fail). lia.
    - destruct n' as [|n']; [lia|]. assert (HR : rrel (knot n) (knot n')) by (apply IH; lia).
      constructor; cbn [knot r_fuel r_stmt r_query r_body r_subexpr r_tref]; intros; eauto with walk. lia.
  Qed.
  Lemma parse_sql_rel pc r r' : rrel r r' -> prel (parse_sql pc r) (parse_sql pc r').
  Proof. intros HR. unfold parse_sql. nrm. walk. Qed.
  Hint Resolve parse_sql_rel : walk.

  (** Running. *)
  Definition er_st (s : rstate) : rstate := (map (rn_tok) (fst s), map (rn_tok) (snd s)).
  Definition er_out {A} `{Er A} (o : outcome rstate A) : outcome rstate A :=
    match o with
    | Ok a s => Ok (er a) (er_st s)
    | OErr => OErr
    | OPanic p => OPanic p
    | OFuel => OFuel
    end.

  Lemma run_kws_rel ks : forallb voc ks = true -> forall saved acc s,
    run_kws fm_machine (er_st saved) (map gs ks) (map rn_tok acc) (er_st s)
    = (er (fst (run_kws fm_machine saved (map gs ks) acc s)), er_st (snd (run_kws fm_machine saved (map gs ks) acc s))).
  Proof.
    induction ks as [|k ks IH]; intros V saved acc [d t]; cbn [run_kws map].
    - cbn [fst snd]. rewrite <- map_rev. reflexivity.
    - cbn [forallb] in V. apply andb_prop in V as [V1 V2].
      destruct t as [|t0 t]; [reflexivity|].
      cbn [m_peek m_next m_restore fm_machine er_st fst snd map].
      change (is_kw (gs k) (rn_tok t0)) with (is_kw (gs k) (er t0)). rewrite is_kw_er by exact V1.
      destruct (is_kw (gs k) t0); [|reflexivity].
      exact (IH V2 saved (t0 :: acc) (t0 :: d, t)).
  Qed.

  Lemma run_rel {A} `{Er A} (p p' : prog A) : prel p p' -> forall s,
    run fm_machine p s <> OFuel -> run fm_machine p' (er_st s) = er_out (run fm_machine p s).
  Proof.
    induction 1 as [q|a a' ->| |w|k k' Hk IH|k k' Hk IH|k k' Hk IH|ks k k' V Hk IH]; intros s Hs;
      cbn [run] in *; try reflexivity.
    - congruence.
    - destruct s as [d [|t0 t]]; cbn [m_next fm_machine fst snd er_st map] in *.
      + apply (IH None (d, [])); exact Hs.
      + apply (IH (Some t0) (t0 :: d, t)); exact Hs.
    - destruct s as [d [|t0 t]]; cbn [m_peek fm_machine fst snd er_st map] in *.
      + apply (IH None (d, [])); exact Hs.
      + apply (IH (Some t0) (d, t0 :: t)); exact Hs.
    - destruct s as [[|d0 d] t]; cbn [m_prev fm_machine fst snd er_st map] in *.
      + reflexivity.
      + apply (IH (d, d0 :: t)); exact Hs.
    - pose proof (run_kws_rel ks V s [] s) as E. cbn [map] in E. rewrite E. clear E.
      destruct (run_kws fm_machine s (map gs ks) [] s) as [o s']. cbn [fst snd] in *. apply IH. exact Hs.
  Qed.

  Lemma nat_sql pc n n' s : (n <= n')%nat ->
    run fm_machine (parse_sql pc (knot n)) s <> OFuel ->
    run fm_machine (parse_sql pc (knot n')) (er_st s)
    = match run fm_machine (parse_sql pc (knot n)) s with
      | Ok a s' => Ok (map (rn_stmt sp) a) (er_st s')
      | OErr => OErr
      | OPanic w => OPanic w
      | OFuel => OFuel
      end.
  Proof. intros Hn Hs. apply (run_rel _ _ (parse_sql_rel pc _ _ (knot_rel n n' Hn)) s Hs). Qed.

  Lemma nat_stmt n n' s : (n <= n')%nat ->
    run fm_machine (parse_statement (knot n)) s <> OFuel ->
    run fm_machine (parse_statement (knot n')) (er_st s)
    = match run fm_machine (parse_statement (knot n)) s with
      | Ok a s' => Ok (rn_stmt sp a) (er_st s')
      | OErr => OErr
      | OPanic w => OPanic w
      | OFuel => OFuel
      end.
  Proof. intros Hn Hs. apply (run_rel _ _ (parse_statement_rel _ _ (knot_rel n n' Hn)) s Hs). Qed.

  Lemma nat_expr n n' p s : (n <= n')%nat ->
    run fm_machine (parse_subexpr (knot n) p) s <> OFuel ->
    run fm_machine (parse_subexpr (knot n') p) (er_st s)
    = match run fm_machine (parse_subexpr (knot n) p) s with
      | Ok a s' => Ok (rn_node sp a) (er_st s')
      | OErr => OErr
      | OPanic w => OPanic w
      | OFuel => OFuel
      end.
  Proof. intros Hn Hs. apply (run_rel _ _ (parse_subexpr_rel _ _ _ (knot_rel n n' Hn)) s Hs). Qed.

  Lemma nat_query n n' s : (n <= n')%nat ->
    run fm_machine (parse_query (knot n)) s <> OFuel ->
    run fm_machine (parse_query (knot n')) (er_st s)
    = match run fm_machine (parse_query (knot n)) s with
      | Ok a s' => Ok (rn_query sp a) (er_st s')
      | OErr => OErr
      | OPanic w => OPanic w
      | OFuel => OFuel
      end.
  Proof. intros Hn Hs. apply (run_rel _ _ (parse_query_rel _ _ (knot_rel n n' Hn)) s Hs). Qed.

  Lemma nat_pexpr n n' s : (n <= n')%nat ->
    run fm_machine (parse_expr (knot n)) s <> OFuel ->
    run fm_machine (parse_expr (knot n')) (er_st s)
    = match run fm_machine (parse_expr (knot n)) s with
      | Ok a s' => Ok (rn_node sp a) (er_st s')
      | OErr => OErr
      | OPanic w => OPanic w
      | OFuel => OFuel
      end.
  Proof. intros Hn Hs. apply (run_rel _ _ (parse_expr_rel _ _ (knot_rel n n' Hn)) s Hs). Qed.

  Lemma nat_dtype n n' s : (n <= n')%nat ->
    run fm_machine (parse_data_type (knot n)) s <> OFuel ->
    run fm_machine (parse_data_type (knot n')) (er_st s)
    = match run fm_machine (parse_data_type (knot n)) s with
      | Ok a s' => Ok (rn_dtype sp a) (er_st s')
      | OErr => OErr
      | OPanic w => OPanic w
      | OFuel => OFuel
      end.
  Proof. intros Hn Hs. apply (run_rel _ _ (parse_data_type_rel _ _ (knot_rel n n' Hn)) s Hs). Qed.
End Nat.
