(** Mutual induction over the AST (lists and options inside the nodes). *)
From Coq Require Import ZArith List.
From Verif Require Import Base Token AST.
Import ListNotations.

Definition opt_all {A} (P : A -> Prop) (o : option A) : Prop :=
  match o with Some a => P a | None => True end.

Section Ind.
  Variables (Pn : node -> Prop) (Pw : winspec -> Prop) (Po : orderby -> Prop)
    (Pq : query -> Prop) (Pc : cte -> Prop) (Pb : setexpr -> Prop) (Ps : select -> Prop)
    (Pi : selitem -> Prop) (Pt : tableref -> Prop) (Pj : joinspec -> Prop).

  Hypothesis HIdent : forall i, Pn (EIdent i).
  Hypothesis HWildcard : forall p, Pn (EWildcard p).
  Hypothesis HQualWildcard : forall l, Pn (EQualWildcard l).
  Hypothesis HCompound : forall l, Pn (ECompound l).
  Hypothesis HIsNull : forall x, Pn x -> Pn (EIsNull x).
  Hypothesis HIsNotNull : forall x, Pn x -> Pn (EIsNotNull x).
  Hypothesis HInList : forall e l n r, Pn e -> Forall Pn l -> Pn (EInList e l n r).
  Hypothesis HInSub : forall e q n r, Pn e -> Pq q -> Pn (EInSubQuery e q n r).
  Hypothesis HBetween : forall e n lo hi, Pn e -> Pn lo -> Pn hi -> Pn (EBetween e n lo hi).
  Hypothesis HBinary : forall l op r, Pn l -> Pn r -> Pn (EBinary l op r).
  Hypothesis HCast : forall e ty c r, Pn e -> Pn (ECast e ty c r).
  Hypothesis HNested : forall e l r, Pn e -> Pn (ENested e l r).
  Hypothesis HUnary : forall f op e, Pn e -> Pn (EUnary f op e).
  Hypothesis HFunction : forall n args r ov orp, Forall Pn args -> opt_all Pw ov ->
    Pn (EFunction n args r ov orp).
  Hypothesis HCase : forall c ce o bs el, opt_all Pn o ->
    Forall (fun b => Pn (fst b) /\ Pn (snd b)) bs -> opt_all Pn el -> Pn (ECase c ce o bs el).
  Hypothesis HExists : forall n q a b c, Pq q -> Pn (EExists n q a b c).
  Hypothesis HSubQuery : forall q l r, Pq q -> Pn (ESubQuery q l r).
  Hypothesis HLong : forall v, Pn (ELong v).
  Hypothesis HDouble : forall f t d, Pn (EDouble f t d).
  Hypothesis HString : forall f t s, Pn (EString f t s).
  Hypothesis HNString : forall f t s, Pn (ENString f t s).
  Hypothesis HBool : forall f t b, Pn (EBool f t b).
  Hypothesis HNull : forall f t, Pn (ENull f t).
  Hypothesis HWinSpec : forall pb ob fr p o, Forall Pn pb -> Forall Po ob -> Pw (WinSpec pb ob fr p o).
  Hypothesis HOrderBy : forall e p a, Pn e -> Po (OrderBy e p a).
  Hypothesis HQuery : forall w cs b ob l, Forall Pc cs -> Pb b -> Forall Po ob -> Pq (Query w cs b ob l).
  Hypothesis HCTE : forall a q r, Pq q -> Pc (CTE a q r).
  Hypothesis HSSelect : forall s, Ps s -> Pb (SSelect s).
  Hypothesis HSQuery : forall l r q, Pq q -> Pb (SQuery l r q).
  Hypothesis HSSetOp : forall op a l r, Pb l -> Pb r -> Pb (SSetOp op a l r).
  Hypothesis HSelect : forall d pr fr w g h p, Forall Pi pr -> Forall Pt fr -> opt_all Pn w ->
    Forall Pn g -> opt_all Pn h -> Ps (Select d pr fr w g h p).
  Hypothesis HSIUnnamed : forall e, Pn e -> Pi (SIUnnamed e).
  Hypothesis HSIAlias : forall e a, Pn e -> Pi (SIAlias e a).
  Hypothesis HSIQual : forall p, Pi (SIQualWildcard p).
  Hypothesis HSIWild : forall f t, Pi (SIWildcard f t).
  Hypothesis HTable : forall n a args r h hr, Forall Pn args -> Forall Pn h -> Pt (TRTable n a args r h hr).
  Hypothesis HDerived : forall l lp a b q al, Pq q -> Pt (TRDerived l lp a b q al).
  Hypothesis HCross : forall a b, Pt a -> Pt b -> Pt (TRCross a b).
  Hypothesis HQualified : forall a ty b s, Pt a -> Pt b -> Pj s -> Pt (TRQualified a ty b s).
  Hypothesis HNatural : forall a ty b, Pt a -> Pt b -> Pt (TRNatural a ty b).
  Hypothesis HUsing : forall l u r, Pj (JUsing l u r).
  Hypothesis HOn : forall e p, Pn e -> Pj (JOn e p).

  Fixpoint ind_n (e : node) : Pn e :=
    let ln := fix go (l : list node) : Forall Pn l :=
      match l with [] => Forall_nil _ | x :: t => Forall_cons _ (ind_n x) (go t) end in
    let on := fun o : option node =>
      match o return opt_all Pn o with Some x => ind_n x | None => I end in
    match e with
    | EIdent i => HIdent i
    | EWildcard p => HWildcard p
    | EQualWildcard l => HQualWildcard l
    | ECompound l => HCompound l
    | EIsNull x => HIsNull x (ind_n x)
    | EIsNotNull x => HIsNotNull x (ind_n x)
    | EInList e l n r => HInList e l n r (ind_n e) (ln l)
    | EInSubQuery e q n r => HInSub e q n r (ind_n e) (ind_q q)
    | EBetween e n lo hi => HBetween e n lo hi (ind_n e) (ind_n lo) (ind_n hi)
    | EBinary l op r => HBinary l op r (ind_n l) (ind_n r)
    | ECast e ty c r => HCast e ty c r (ind_n e)
    | ENested e l r => HNested e l r (ind_n e)
    | EUnary f op e => HUnary f op e (ind_n e)
    | EFunction n args r ov orp =>
        HFunction n args r ov orp (ln args)
          (match ov return opt_all Pw ov with Some w => ind_w w | None => I end)
    | ECase c ce o bs el =>
        HCase c ce o bs el (on o)
          ((fix go (l : list (node * node)) : Forall (fun b => Pn (fst b) /\ Pn (snd b)) l :=
              match l with
              | [] => Forall_nil _
              | (x, y) :: t => Forall_cons (x, y) (conj (ind_n x) (ind_n y)) (go t)
              end) bs)
          (on el)
    | EExists n q a b c => HExists n q a b c (ind_q q)
    | ESubQuery q l r => HSubQuery q l r (ind_q q)
    | ELong v => HLong v
    | EDouble f t d => HDouble f t d
    | EString f t s => HString f t s
    | ENString f t s => HNString f t s
    | EBool f t b => HBool f t b
    | ENull f t => HNull f t
    end
  with ind_w (w : winspec) : Pw w :=
    match w with
    | WinSpec pb ob fr p o =>
        HWinSpec pb ob fr p o
          ((fix go (l : list node) : Forall Pn l :=
              match l with [] => Forall_nil _ | x :: t => Forall_cons _ (ind_n x) (go t) end) pb)
          ((fix go (l : list orderby) : Forall Po l :=
              match l with [] => Forall_nil _ | x :: t => Forall_cons _ (ind_o x) (go t) end) ob)
    end
  with ind_o (o : orderby) : Po o :=
    match o with OrderBy e p a => HOrderBy e p a (ind_n e) end
  with ind_q (q : query) : Pq q :=
    match q with
    | Query w cs b ob l =>
        HQuery w cs b ob l
          ((fix go (l : list cte) : Forall Pc l :=
              match l with [] => Forall_nil _ | x :: t => Forall_cons _ (ind_c x) (go t) end) cs)
          (ind_b b)
          ((fix go (l : list orderby) : Forall Po l :=
              match l with [] => Forall_nil _ | x :: t => Forall_cons _ (ind_o x) (go t) end) ob)
    end
  with ind_c (c : cte) : Pc c :=
    match c with CTE a q r => HCTE a q r (ind_q q) end
  with ind_b (b : setexpr) : Pb b :=
    match b with
    | SSelect s => HSSelect s (ind_s s)
    | SQuery l r q => HSQuery l r q (ind_q q)
    | SSetOp op a l r => HSSetOp op a l r (ind_b l) (ind_b r)
    end
  with ind_s (s : select) : Ps s :=
    match s with
    | Select d pr fr w g h p =>
        HSelect d pr fr w g h p
          ((fix go (l : list selitem) : Forall Pi l :=
              match l with [] => Forall_nil _ | x :: t => Forall_cons _ (ind_i x) (go t) end) pr)
          ((fix go (l : list tableref) : Forall Pt l :=
              match l with [] => Forall_nil _ | x :: t => Forall_cons _ (ind_t x) (go t) end) fr)
          (match w return opt_all Pn w with Some x => ind_n x | None => I end)
          ((fix go (l : list node) : Forall Pn l :=
              match l with [] => Forall_nil _ | x :: t => Forall_cons _ (ind_n x) (go t) end) g)
          (match h return opt_all Pn h with Some x => ind_n x | None => I end)
    end
  with ind_i (i : selitem) : Pi i :=
    match i with
    | SIUnnamed e => HSIUnnamed e (ind_n e)
    | SIAlias e a => HSIAlias e a (ind_n e)
    | SIQualWildcard p => HSIQual p
    | SIWildcard f t => HSIWild f t
    end
  with ind_t (t : tableref) : Pt t :=
    let ln := fix go (l : list node) : Forall Pn l :=
      match l with [] => Forall_nil _ | x :: t => Forall_cons _ (ind_n x) (go t) end in
    match t with
    | TRTable n a args r h hr => HTable n a args r h hr (ln args) (ln h)
    | TRDerived l lp a b q al => HDerived l lp a b q al (ind_q q)
    | TRCross a b => HCross a b (ind_t a) (ind_t b)
    | TRQualified a ty b s => HQualified a ty b s (ind_t a) (ind_t b) (ind_j s)
    | TRNatural a ty b => HNatural a ty b (ind_t a) (ind_t b)
    end
  with ind_j (j : joinspec) : Pj j :=
    match j with
    | JUsing l u r => HUsing l u r
    | JOn e p => HOn e p (ind_n e)
    end.

  Lemma ast_ind :
    (forall e, Pn e) /\ (forall w, Pw w) /\ (forall o, Po o) /\ (forall q, Pq q) /\
    (forall c, Pc c) /\ (forall b, Pb b) /\ (forall s, Ps s) /\ (forall i, Pi i) /\
    (forall t, Pt t) /\ (forall j, Pj j).
  Proof.
    repeat split;
      [exact ind_n|exact ind_w|exact ind_o|exact ind_q|exact ind_c|exact ind_b|exact ind_s
      |exact ind_i|exact ind_t|exact ind_j].
  Qed.
End Ind.
