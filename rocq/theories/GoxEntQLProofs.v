(** The methods of MiniQLToEntQLBuilder, entmq/entql.go:37-153, do what EntQL.v says. *)
From Verif Require Import Base Peg Node Tree Parse Build EntQL TreeFacts Gox GoxStep GoxMini GoxMiniLib GoxTreeProofs GoxNodeProofs GoxEntQL GoxEntQLLib.
Strategy expand [parse_machine]. Strategy 1000 [parse_fuel mrun].
Open Scope string_scope.

#[global] Arguments ent_call : simpl never.
#[global] Arguments xval_of : simpl never.
#[global] Arguments exprs_of : simpl never.
#[global] Arguments at_e : simpl never.
#[global] Arguments parse : simpl never.
#[global] Arguments evisit : simpl never.
#[global] Arguments is_p : simpl never.
#[global] Arguments Z.eqb : simpl never.

(** what Value returns *)
Fixpoint xv (v : gval) : xval :=
  match v with
  | GInt z => WInt z
  | GStr s => WStr s
  | GFloat z => WFloat z
  | GBool b => WBool b
  | GNil => WNil
  | GArr l => WList (map xv l)
  end.
Lemma xval_of_xv : forall v, xval_of (xv v) = Some v.
Proof.
  fix IH 1. intros [z|s|z|b| |l]; try reflexivity. cbn [xv].
  assert (L : forall l, (fix go (l : list xval) : option (list gval) :=
     match l with
     | [] => Some []
     | x :: l' => match xval_of x, go l' with Some y, Some r => Some (y :: r) | _, _ => None end
     end) (map xv l) = Some l).
  { fix IHl 1. intros [|x l']; [reflexivity|]. cbn [map]. rewrite IH, IHl. reflexivity. }
  unfold xval_of; fold xval_of. now rewrite L.
Qed.
#[global] Arguments xv : simpl never.

Lemma xindex_0 : forall x l, index ex (x :: l) 0 = Some x. Proof. reflexivity. Qed.
Lemma xindex_1 : forall x y l, index ex (x :: y :: l) 1 = Some y. Proof. reflexivity. Qed.
Lemma xindex_1n : forall x, index ex [x] 1 = None. Proof. reflexivity. Qed.
Lemma xindex_nil : forall i, index ex [] i = None.
Proof. intros i. unfold index. destruct (i <? 0)%Z; [reflexivity|]. now destruct (Z.to_nat i). Qed.
Lemma xexprs_of : forall l, exprs_of (map xe l) = Some l.
Proof.
  induction l as [|x l IH]; [reflexivity|].
  change (exprs_of (map xe (x :: l))) with (match exprs_of (map xe l) with Some r => Some (x :: r) | None => None end). now rewrite IH.
Qed.
Lemma xlast : forall l x, (zlen (map xe (l ++ [x])) - 1 = zlen l)%Z.
Proof. intros. unfold zlen. rewrite map_length, app_length. cbn [length]. lia. Qed.
Lemma xindex_last : forall l x, index ex (map xe (l ++ [x])%list) (zlen l) = Some (WX (VExpr x)).
Proof.
  intros. unfold index, zlen. destruct (Z.ltb_spec (Z.of_nat (length l)) 0); [lia|]. rewrite Nat2Z.id, map_app, nth_error_app2 by (rewrite map_length; lia).
  rewrite map_length, Nat.sub_diag. reflexivity.
Qed.
Lemma xslice_last : forall l x, slice ex (map xe (l ++ [x])%list) 0 (zlen l) = Some (map xe l).
Proof.
  intros. unfold slice, zlen. rewrite map_length, app_length. cbn [length].
  destruct (Z.leb_spec 0 (Z.of_nat (length l))); [|lia]. destruct (Z.leb_spec (Z.of_nat (length l)) (Z.of_nat (length l + 1))); [|lia].
  cbn [andb Z.leb Z.compare]. rewrite Nat2Z.id, map_app, firstn_app, map_length, Nat.sub_diag, firstn_O, app_nil_r.
  rewrite <- (map_length xe l) at 1. rewrite firstn_all. reflexivity.
Qed.

Section Ent.
  Variable lower_hi : N -> N.
  Notation ecall := (ent_call lower_hi).

  Definition ovis (p : option node) (s : list eexpr) : eres := match p with None => XPanic | Some m => evisit m s end.
  Lemma evisit_eq : forall n s, evisit n s =
    match nType n with
    | NOperation => XErr (XOpNode (nOperation n)) s
    | NValue => match value n with None => XPanic | Some v => XOk (XValue v :: s) end
    | NIdentifier => XOk (XField (nName n) :: s)
    | NParentheses => ovis (nExpression n) s
    | NNot =>
        match ovis (nExpression n) s with
        | XErr e (x :: s') => if is_p x then XErr e (XUnary ENotOp x :: s') else XPanic
        | XErr _ [] => XPanic
        | r => r
        end
    | NFunction => XOk s
    | NBetween =>
        xbind (ovis (nLeft n) s) (fun s =>
        match nParams n with
        | a :: ps =>
            xbind (ovis a s) (fun s =>
            match ps with
            | b :: _ =>
                xbind (ovis b s) (fun s =>
                match s with
                | hig :: low :: lft :: s' =>
                    match nOp n with
                    | None => XPanic
                    | Some o =>
                        if streq (nOperation o) #"not between"
                        then XOk (XBinary EAnd (XBinary ELT lft low) (XBinary EGT lft hig) :: s')
                        else XOk (XBinary EAnd (XBinary EGTE lft low) (XBinary ELTE lft hig) :: s')
                    end
                | _ => XPanic
                end)
            | [] => XPanic
            end)
        | [] => XPanic
        end)
    | NPredicates => XPanic
    | NLogic | NCompare =>
        xbind (ovis (nLeft n) s) (fun s =>
        xbind (ovis (nRight n) s) (fun s =>
        match s with
        | rgt :: lft :: s' =>
            match nOp n with
            | None => XPanic
            | Some o =>
                match assoc (nOperation o) entql_ops with
                | None => XErr (XOp (nOperation o)) s'
                | Some op => XOk (XBinary op lft rgt :: s')
                end
            end
        | _ => XPanic
        end))
    | NReference | NOther => XErr (XType (nType n)) s
    end.
  Proof. intros n s. now destruct n. Qed.
  Arguments ovis : simpl never.

  (** what a visit returns *)
  Definition xout (h : list (list N)) (q : list N) (r : eres) : res est xval :=
    match r with
    | XOk s => Ret WNil (at_e h q s)
    | XErr e s => Ret (WX (VErr e)) (at_e h q s)
    | XPanic => Panics
    end.
  Arguments xout : simpl never.

  Lemma ent_step : forall k f args s, ecall (S k) f args s =
    call_with ex eworld ent_functions mini_consts entql_maps ent_cst ent_field ent_setfield (ent_prim lower_hi) ent_lit ent_assert
      (ecall k) f args s.
  Proof. reflexivity. Qed.
  Ltac enter := intros; match goal with
    | |- ent_call _ ?F _ _ _ = _ => destruct F as [|F]; [lia|]; rewrite ent_step; cbn; repeat first [step | progress cbn]
    end.
  Ltac head_call := match goal with
    | |- ?l = _ => let h := headof l in lazymatch h with ent_call _ _ _ _ _ => known h end
    end.
  Lemma stack_at : forall h q s, eStack (world _ (at_e h q s)) = rev s. Proof. reflexivity. Qed.
  Lemma query_at : forall h q s, eQuery (world _ (at_e h q s)) = q. Proof. reflexivity. Qed.
  Ltac go := repeat first [step | progress cbn | rewrite stack_at | rewrite query_at | head_call].

  Lemma xlen_ok : forall F l s, 0 < F -> ecall F (WFun "len") [WList l] s = Ret (WInt (zlen l)) s.
  Proof. enter. reflexivity. Qed.
  Lemma xappend_ok : forall F l v s, 0 < F -> ecall F (WFun "append") [WList l; v] s = Ret (WList (l ++ [v])%list) s.
  Proof. enter. reflexivity. Qed.
  Lemma xf_ok : forall F t s, 0 < F -> ecall F (WFun "entql.F") [WStr t] s = Ret (WX (VExpr (XField t))) s.
  Proof. enter. reflexivity. Qed.
  Lemma xnot_ok : forall F x s, 0 < F -> ecall F (WFun "entql.Not") [WX (VExpr x)] s = Ret (WX (VExpr (XUnary ENotOp x))) s.
  Proof. enter. reflexivity. Qed.
  Lemma xand_ok : forall F x y s, 0 < F -> ecall F (WFun "entql.And") [WX (VExpr x); WX (VExpr y)] s = Ret (WX (VExpr (XBinary EAnd x y))) s.
  Proof. enter. reflexivity. Qed.
  Lemma xopnode_ok : forall F n s, 0 < F ->
    ecall F (WFun "errors.Errorf") [WStr #"unexpected op node: %q"; WNode (Some n)] s = Ret (WX (VErr (XOpNode (nOperation n)))) s.
  Proof. enter. reflexivity. Qed.
  Lemma xop_ok : forall F t s, 0 < F -> ecall F (WFun "errors.Errorf") [WStr #"unexpected op %q"; WStr t] s = Ret (WX (VErr (XOp t))) s.
  Proof. enter. reflexivity. Qed.
  Lemma xtype_ok : forall F t s, 0 < F -> ecall F (WFun "errors.Errorf") [WStr #"invalid type %q"; WStr t] s = Ret (WX (VErr (XType (ntype_of t)))) s.
  Proof. enter. reflexivity. Qed.
  Hint Resolve xlen_ok xappend_ok xf_ok xnot_ok xand_ok xopnode_ok xop_ok xtype_ok : gox.
  Hint Extern 0 (_ <= _) => lia : gox.

  (** pop, entmq/entql.go:37-41 *)
  Lemma pop_ok : forall F h q s, 1 < F -> ecall F (WMeth builder "pop") [] (at_e h q s) =
    match s with [] => Panics | x :: s' => Ret (WX (VExpr x)) (at_e h q s') end.
  Proof.
    enter. go. destruct s as [|x s]; [reflexivity|]. cbn [rev].
    rewrite xlast, xindex_last. go. rewrite xlast, xslice_last. go. rewrite xexprs_of. go. reflexivity.
  Qed.
  (** push, entmq/entql.go:43-45 *)
  Lemma push_ok : forall F h q s x, 1 < F -> ecall F (WMeth builder "push") [WX (VExpr x)] (at_e h q s) = Ret WNil (at_e h q (x :: s)).
  Proof.
    enter. go. change [WX (VExpr x)] with (map xe [x]). rewrite <- map_app, xexprs_of. go. reflexivity.
  Qed.
  Hint Resolve pop_ok push_ok : gox.

  Lemma xvalue_ok : forall n F s, ndepth n + 1 < F ->
    ecall F (WFun "Node.Value") [WNode (Some n)] s = match value n with Some v => Ret (xv v) s | None => Panics end.
  Proof.
    assert (A : forall k n F s, ndepth n <= k -> k + 1 < F ->
      ecall F (WFun "Node.Value") [WNode (Some n)] s = match value n with Some v => Ret (xv v) s | None => Panics end);
    [|intros n F s H; now apply (A (ndepth n))].
    induction k as [|k IH]; intros n F s Hn HF; [rewrite ndepth_eq in Hn; lia|].
    enter. rewrite value_eq. destruct (nVType n); go; try reflexivity.
    match goal with |- context [range _ _ ?a1 ?a2 ?a3 ?a4 ?a5 ?a6 ?a7 ?a8 ?rs ?i ?v ?b _ _ _ _] =>
      assert (L : forall l k' acc, ldepth l <= k -> range ex eworld a1 a2 a3 a4 a5 a6 a7 a8 rs i v b k' (map WNode l)
          (("s", WList (map xv acc)) :: [("n", WNode (Some n))]) s =
        match values l with
        | Some ns => Ret (CNext, ("s", WList (map xv (acc ++ ns)%list)) :: [("n", WNode (Some n))]) s
        | None => Panics
        end)
    end.
    { clear - IH HF. induction l as [|p l IHl]; intros k' acc Hl.
      - go. change (values []) with (Some (@nil gval)). cbv iota. now rewrite app_nil_r.
      - destruct p as [p|]; [|go; reflexivity]. cbn [ldepth odepth] in Hl. cbn [map]. go.
        change (values (Some p :: l)) with (match value p, values l with Some x, Some xs => Some (x :: xs) | _, _ => None end).
        destruct (value p) as [x|]; [|reflexivity]. go.
        change [xv x] with (map xv [x]). rewrite <- map_app, IHl by lia.
        destruct (values l) as [ns|]; [|reflexivity]. now rewrite <- app_assoc. }
    rewrite ndepth_eq in Hn. change (WList []) with (@WList ex (map xv [])). rewrite (L (nArray n) 0%Z []) by lia. cbn [app].
    destruct (values (nArray n)); go; reflexivity.
  Qed.

  Ltac out := match goal with |- context [xout ?h ?q (ovis ?p ?s)] =>
    let s' := fresh "s" in let e := fresh "e" in
    destruct (ovis p s) as [s'|e s'|]; unfold xout; cbn [xbind]; [|try (go; reflexivity)|reflexivity] end.

  Ltac compare := out; go; out; go;
    match goal with |- context [match ?t with [] => Panics | _ :: _ => _ end] => destruct t as [|rgt [|lft s']] end; go; try reflexivity;
    match goal with |- context [nOp ?n] => let Eo := fresh "Eo" in destruct (nOp n) as [o|] eqn:Eo; go; [|reflexivity];
      unfold assoc, entql_ops; cbn;
      repeat match goal with |- context [streq (nOperation o) ?x] => destruct (streq (nOperation o) x); [go; reflexivity|] end;
      go; rewrite ?Eo; go; reflexivity
    end.

  (** visit, entmq/entql.go:65-153 *)
  Lemma xvisit_ok : forall k p F h q s, odepth p <= k -> k + 3 < F ->
    ecall F (WMeth builder "visit") [WNode p] (at_e h q s) = xout h q (ovis p s).
  Proof.
    induction k as [|k IH]; intros p F h q s Hp HF.
    - destruct p as [p|]; [cbn [odepth] in Hp; rewrite ndepth_eq in Hp; lia|]. enter. go. reflexivity.
    - destruct p as [n|]; [|enter; go; reflexivity]. cbn [odepth] in Hp. pose proof Hp as Hd. rewrite ndepth_eq in Hd.
      enter. go. change (ovis (Some n) s) with (evisit n s). destruct (nType n) eqn:Et; go.
      all: rewrite evisit_eq, Et; cbn.
      + rewrite xvalue_ok by lia. destruct (value n); go; [rewrite xval_of_xv; go|]; reflexivity.
      + reflexivity.
      + reflexivity.
      + reflexivity.
      + reflexivity.
      + compare.
      + compare.
      + out. go. reflexivity.
      + unfold xout. destruct (ovis (nExpression n) s) as [s'|e s'|]; go; [reflexivity| |reflexivity].
        destruct s' as [|x s']; go; [reflexivity|]. destruct (is_p x); go; reflexivity.
      + out. go. destruct (nParams n) as [|x [|y ps]] eqn:Ep; cbn [map]; cbn [ldepth] in Hd; rewrite ?xindex_0, ?xindex_nil; [go; reflexivity| |].
        * go. out. go. rewrite Ep; cbn [map]; rewrite xindex_1n. go. reflexivity.
        * go. out. go. rewrite Ep; cbn [map]; rewrite xindex_1. go. out. go.
          match goal with |- context [match ?t with [] => Panics | _ :: _ => _ end] => destruct t as [|hig [|low [|lft s']]] end; go; try reflexivity.
          destruct (nOp n) as [o|]; go; [|reflexivity].
          match goal with |- context [streq (nOperation o) ?x] => destruct (streq (nOperation o) x) end; go; reflexivity.
      + reflexivity.
      + reflexivity.
  Qed.
End Ent.
