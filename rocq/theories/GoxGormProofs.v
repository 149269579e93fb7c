(** The methods of queryBuilder, gormq/miniquery.go:114-248, do what Gorm.v says. *)
From Verif Require Import Base Node Tree Build TreeFacts Gox GoxStep GoxMini GoxMiniLib GoxTreeProofs GoxNodeProofs GoxGorm GoxGormLib.
From Verif Require Gorm.
Open Scope string_scope.

#[global] Arguments gorm_call : simpl never.
#[global] Arguments gval_of : simpl never.
#[global] Arguments at_q : simpl never.
#[global] Arguments Gorm.map_name : simpl never.
#[global] Arguments Gorm.do_join : simpl never.
#[global] Arguments Gorm.visit : simpl never.
#[global] Arguments Gorm.normalize_sql : simpl never.
#[global] Arguments Gorm.write : simpl never.
#[global] Arguments Gorm.add_value : simpl never.

(** what Value returns *)
Fixpoint qv (v : gval) : qval :=
  match v with
  | GInt z => WInt z
  | GStr s => WStr s
  | GFloat z => WFloat z
  | GBool b => WBool b
  | GNil => WNil
  | GArr l => WList (map qv l)
  end.
Lemma gval_of_qv : forall v, gval_of (qv v) = Some v.
Proof.
  fix IH 1. intros [z|s|z|b| |l]; try reflexivity. cbn [qv gval_of].
  assert (L : forall l, (fix go (l : list qval) : option (list gval) :=
     match l with
     | [] => Some []
     | x :: l' => match gval_of x, go l' with Some y, Some r => Some (y :: r) | _, _ => None end
     end) (map qv l) = Some l).
  { fix IHl 1. intros [|x l']; [reflexivity|]. cbn [map]. rewrite IH, IHl. reflexivity. }
  unfold gval_of; fold gval_of. now rewrite L.
Qed.
#[global] Arguments qv : simpl never.

Lemma gindex_0 : forall x l, index Gorm.gerr (x :: l) 0 = Some x. Proof. reflexivity. Qed.
Lemma gindex_1 : forall x y l, index Gorm.gerr (x :: y :: l) 1 = Some y. Proof. reflexivity. Qed.
Lemma gindex_1n : forall x, index Gorm.gerr [x] 1 = None. Proof. reflexivity. Qed.
Lemma gindex_nil : forall i, index Gorm.gerr [] i = None.
Proof. intros i. unfold index. destruct (i <? 0)%Z; [reflexivity|]. now destruct (Z.to_nat i). Qed.

Section Gorm.
  Variable fold_eq : list N -> list N -> bool.
  Variable quote : list N -> list N.
  Variable sch : Gorm.schema.
  Notation gcall := (gorm_call fold_eq quote sch).
  Notation vis := (Gorm.visit fold_eq quote sch).

  Definition ovis (p : option node) (s : Gorm.qst) : Gorm.qres := match p with None => Gorm.QPanic | Some m => vis m s end.
  Fixpoint vall (l : list (option node)) (s : Gorm.qst) : Gorm.qres :=
    match l with [] => Gorm.QOk s | p :: l' => Gorm.qbind (ovis p s) (vall l') end.
  Lemma visit_eq : forall n s, vis n s =
      match nType n with
      | NOperation => Gorm.QOk (Gorm.write (Gorm.normalize_sql (nOperation n)) s)
      | NValue =>
          match value n with
          | None => Gorm.QPanic
          | Some v => Gorm.QOk (Gorm.add_value v (Gorm.write #"?" s))
          end
      | NIdentifier => Gorm.visit_identifier fold_eq quote sch n s
      | NReference => Gorm.visit_reference fold_eq quote sch n s
      | NParentheses => Gorm.always #")" (ovis (nExpression n) (Gorm.write #"(" s))
      | NNot => ovis (nExpression n) (Gorm.write #"not " s)
      | NFunction =>
          if streq (nName n) #"date" then
            Gorm.qbind (vall (nParams n) (Gorm.write #"(" (Gorm.write (nName n) s))) (fun s => Gorm.QOk (Gorm.write #")" s))
          else Gorm.QErr (Gorm.GFunc (nName n)) s
      | NBetween =>
          Gorm.qbind (ovis (nLeft n) s) (fun s =>
          Gorm.qbind (ovis (nOp n) (Gorm.write #" " s)) (fun s =>
          match nParams n with
          | a :: ps =>
              Gorm.qbind (ovis a (Gorm.write #" " s)) (fun s =>
              match ps with
              | b :: _ => ovis b (Gorm.write #" and " s)
              | [] => Gorm.QPanic
              end)
          | [] => Gorm.QPanic
          end))
      | NPredicates | NLogic | NCompare =>
          Gorm.qbind (ovis (nLeft n) s) (fun s =>
          Gorm.qbind (ovis (nOp n) (Gorm.write #" " s)) (fun s =>
          match nRight n with
          | None => Gorm.QOk s
          | Some r => ovis (Some r) (Gorm.write #" " s)
          end))
      | NOther => Gorm.QErr (Gorm.GType (nType n)) s
      end.
  Proof.
    intros n s. assert (L : forall l s, (fix all (l : list (option node)) (s : Gorm.qst) : Gorm.qres :=
                  match l with
                  | [] => Gorm.QOk s
                  | p :: l' => Gorm.qbind (ovis p s) (all l')
                  end) l s = vall l s) by (induction l as [|p l IH]; intros; [reflexivity|cbn [vall]; now destruct (ovis p s0); cbn [Gorm.qbind]]).
    rewrite <- L. now destruct n.
  Qed.
  Lemma vall_0 : forall s, vall [] s = Gorm.QOk s. Proof. reflexivity. Qed.
  Lemma vall_1 : forall p l s, vall (p :: l) s = Gorm.qbind (ovis p s) (vall l). Proof. reflexivity. Qed.
  Arguments ovis : simpl never.
  Arguments vall : simpl never.

  (** what a visit returns *)
  Definition qout (h g : list (list N)) (r : Gorm.qres) : res gst qval :=
    match r with
    | Gorm.QOk q => Ret WNil (at_q h g q)
    | Gorm.QErr e q => Ret (WX e) (at_q h g q)
    | Gorm.QPanic => Panics
    end.
  Arguments qout : simpl never.

  Lemma gorm_step : forall k f args s, gcall (S k) f args s =
    call_with Gorm.gerr gworld gorm_functions mini_consts gorm_maps (fun _ => None) gorm_field (fun _ _ _ _ => None)
      (gorm_prim fold_eq quote sch) (fun _ _ => None) (fun _ _ => None) (gcall k) f args s.
  Proof. reflexivity. Qed.
  Ltac enter := intros; match goal with
    | |- gorm_call _ _ _ ?F _ _ _ = _ => destruct F as [|F]; [lia|]; rewrite gorm_step; cbn; repeat first [step | progress cbn]
    end.
  Ltac head_call := match goal with
    | |- ?l = _ => let h := headof l in lazymatch h with gorm_call _ _ _ _ _ _ _ => known h end
    end.
  Lemma buf_at : forall h g q, wBuf (world _ (at_q h g q)) = length h. Proof. reflexivity. Qed.
  Ltac go := repeat first [step | progress cbn | rewrite buf_at | head_call].

  Lemma gwrite_ok : forall h g q t, write gworld (length h) t (at_q h g q) = Some (at_q h g (Gorm.write t q)).
  Proof.
    intros. unfold at_q, write. cbn [heap world]. rewrite nth_error_app2, Nat.sub_diag by lia. cbn [nth_error].
    rewrite firstn_app, Nat.sub_diag, firstn_all, app_nil_r. do 3 f_equal.
    change (Gorm.qBuf (Gorm.write t q)) with (Gorm.qBuf q ++ t)%list. f_equal.
    generalize (Gorm.qBuf q). clear. induction h as [|x h IH]; intros b; [reflexivity|apply (IH b)].
  Qed.
  Lemma glen_ok : forall F l s, 0 < F -> gcall F (WFun "len") [WList l] s = Ret (WInt (zlen l)) s.
  Proof. enter. reflexivity. Qed.
  Lemma gappend_ok : forall F l v s, 0 < F -> gcall F (WFun "append") [WList l; v] s = Ret (WList (l ++ [v])%list) s.
  Proof. enter. reflexivity. Qed.
  Lemma gwrite_string_ok : forall F h g q t, 0 < F ->
    gcall F (WFun "Builder.WriteString") [WPtr (length h); WStr t] (at_q h g q) = Ret (WList [WNil; WNil]) (at_q h g (Gorm.write t q)).
  Proof. enter. now rewrite gwrite_ok. Qed.
  Lemma gwrite_rune_ok : forall F h g q t, 0 < F ->
    gcall F (WFun "Builder.WriteRune") [WPtr (length h); WStr t] (at_q h g q) = Ret (WList [WNil; WNil]) (at_q h g (Gorm.write t q)).
  Proof. enter. now rewrite gwrite_ok. Qed.
  Lemma gquote_ok : forall F h g q t, 0 < F ->
    gcall F (WFun "qb.quote") [WPtr (length h); WStr t] (at_q h g q) = Ret WNil (at_q h g (Gorm.write (quote t) q)).
  Proof. enter. now rewrite gwrite_ok. Qed.
  Lemma gadd_ok : forall F h g q v, 0 < F ->
    gcall F (WFun "qb.addValue") [qv v] (at_q h g q) = Ret WNil (at_q h g (Gorm.add_value v q)).
  Proof. enter. now rewrite gval_of_qv. Qed.
  Lemma gmap_ok : forall F t s, 0 < F ->
    gcall F (WFun "qb.mapName") [WStr t] s =
      match Gorm.map_name fold_eq sch t with inl x => Ret (WList [WStr x; WNil]) s | inr e => Ret (WList [WStr t; WX e]) s end.
  Proof. enter. reflexivity. Qed.
  Definition joined (h g : list (list N)) (r : Gorm.jres) : res gst qval :=
    match r with
    | Gorm.JOk x q => Ret (WList [WStr x; WNil]) (at_q h g q)
    | Gorm.JErr e q => Ret (WList [WStr []; WX e]) (at_q h g q)
    | Gorm.JPanic => Panics
    end.
  Arguments joined : simpl never.
  Lemma gjoin_ok : forall F h g q r n, 0 < F ->
    gcall F (WFun "qb.join") [WStr r; WStr n] (at_q h g q) = joined h g (Gorm.do_join fold_eq sch r n q).
  Proof.
    enter. unfold joined, Gorm.do_join, at_q. cbn. destruct (assoc r (Gorm.sRelations sch)) as [[t|]|]; [|reflexivity..].
    now destruct (Gorm.get_db_name fold_eq t n).
  Qed.
  Lemma gnew_ok : forall F s, 0 < F -> gcall F (WFun "errors.New") [WStr #"only support join one level"] s = Ret (WX Gorm.GLevels) s.
  Proof. enter. reflexivity. Qed.
  Lemma gerrorf_ok : forall F t s, 0 < F -> gcall F (WFun "errors.Errorf") [WStr #"invalid type %q"; WStr t] s = Ret (WX (Gorm.GType (ntype_of t))) s.
  Proof. enter. reflexivity. Qed.
  Lemma gunsup_ok : forall F t s, 0 < F -> gcall F (WFun "fmt.Errorf") [WStr #"unsupported function: %q"; WStr t] s = Ret (WX (Gorm.GFunc t)) s.
  Proof. enter. reflexivity. Qed.
  Lemma gnorm_ok : forall F t s, 0 < F -> gcall F (WFun "normalizeSQL") [WStr t] s = Ret (WStr (Gorm.normalize_sql t)) s.
  Proof.
    enter. unfold Gorm.normalize_sql. cbn.
    repeat match goal with |- context [streq t ?x] => destruct (streq t x); [reflexivity|] end. reflexivity.
  Qed.
  Hint Resolve glen_ok gappend_ok gwrite_string_ok gwrite_rune_ok gquote_ok gadd_ok gmap_ok gjoin_ok gnew_ok gerrorf_ok gunsup_ok gnorm_ok : gox.
  Hint Extern 0 (_ <= _) => lia : gox.

  Lemma gvalue_ok : forall n F s, ndepth n + 1 < F ->
    gcall F (WFun "Node.Value") [WNode (Some n)] s = match value n with Some v => Ret (qv v) s | None => Panics end.
  Proof.
    assert (A : forall k n F s, ndepth n <= k -> k + 1 < F ->
      gcall F (WFun "Node.Value") [WNode (Some n)] s = match value n with Some v => Ret (qv v) s | None => Panics end);
    [|intros n F s H; now apply (A (ndepth n))].
    induction k as [|k IH]; intros n F s Hn HF; [rewrite ndepth_eq in Hn; lia|].
    enter. rewrite value_eq. destruct (nVType n); go; try reflexivity.
    match goal with |- context [range _ _ ?a1 ?a2 ?a3 ?a4 ?a5 ?a6 ?a7 ?a8 ?rs ?i ?v ?b _ _ _ _] =>
      assert (L : forall l k' acc, ldepth l <= k -> range Gorm.gerr gworld a1 a2 a3 a4 a5 a6 a7 a8 rs i v b k' (map WNode l)
          (("s", WList (map qv acc)) :: [("n", WNode (Some n))]) s =
        match values l with
        | Some ns => Ret (CNext, ("s", WList (map qv (acc ++ ns)%list)) :: [("n", WNode (Some n))]) s
        | None => Panics
        end)
    end.
    { clear - IH HF. induction l as [|p l IHl]; intros k' acc Hl.
      - go. change (values []) with (Some (@nil gval)). cbv iota. now rewrite app_nil_r.
      - destruct p as [p|]; [|go; reflexivity]. cbn [ldepth odepth] in Hl. cbn [map]. go.
        change (values (Some p :: l)) with (match value p, values l with Some x, Some xs => Some (x :: xs) | _, _ => None end).
        destruct (value p) as [x|]; [|reflexivity]. go.
        change [qv x] with (map qv [x]). rewrite <- map_app, IHl by lia.
        destruct (values l) as [ns|]; [|reflexivity]. now rewrite <- app_assoc. }
    rewrite ndepth_eq in Hn. change (WList []) with (@WList Gorm.gerr (map qv [])). rewrite (L (nArray n) 0%Z []) by lia. cbn [app].
    destruct (values (nArray n)); go; reflexivity.
  Qed.


  (** visitIdentifier, gormq/miniquery.go:128-148 *)
  Lemma identifier_ok : forall F n h g q, 1 < F ->
    gcall F (WMeth "queryBuilder" "visitIdentifier") [WNode (Some n)] (at_q h g q) = qout h g (Gorm.visit_identifier fold_eq quote sch n q).
  Proof.
    enter. go. unfold Gorm.visit_identifier. destruct (Gorm.map_name fold_eq sch (nName n)) as [x|e]; go; reflexivity.
  Qed.

  (** visitReference, gormq/miniquery.go:114-126 *)
  Arguments Z.eqb : simpl never.
  Lemma reference_ok : forall F n h g q, 1 < F ->
    gcall F (WMeth "queryBuilder" "visitReference") [WNode (Some n)] (at_q h g q) = qout h g (Gorm.visit_reference fold_eq quote sch n q).
  Proof.
    enter. go. unfold Gorm.visit_reference. destruct (nNames n) as [|x [|y [|z l]]] eqn:En; cbn [map].
    1-2: match goal with |- context [(zlen ?l =? 2)%Z] => change (zlen l =? 2)%Z with false end; go; reflexivity.
    - match goal with |- context [(zlen ?l =? 2)%Z] => change (zlen l =? 2)%Z with true end; go. rewrite En. go. rewrite gindex_0. go. rewrite En. go. rewrite gindex_1. go.
      unfold joined. destruct (Gorm.do_join fold_eq sch x y q) as [r q'|e q'|]; go; reflexivity.
    - match goal with |- context [(zlen ?l =? 2)%Z] => replace (zlen l =? 2)%Z with false by (symmetry; apply Z.eqb_neq; unfold zlen; cbn [length map]; lia) end; go; reflexivity.
  Qed.
  Hint Resolve identifier_ok reference_ok : gox.

  Ltac out := match goal with |- context [qout ?h ?g (ovis ?p ?q)] =>
    let q' := fresh "q" in let e := fresh "e" in
    destruct (ovis p q) as [q'|e q'|]; unfold qout; cbn [Gorm.qbind Gorm.always]; [|try (go; reflexivity)|reflexivity] end.
  (** visitFunction, gormq/miniquery.go:209-226 *)
  Lemma function_ok : forall k, (forall p F h g q, odepth p <= k -> 2 * k + 3 < F ->
      gcall F (WMeth "queryBuilder" "visit") [WNode p] (at_q h g q) = qout h g (ovis p q)) ->
    forall n F h g q, ndepth n <= S k -> nType n = NFunction -> 2 * k + 4 < F ->
      gcall F (WMeth "queryBuilder" "visitFunction") [WNode (Some n)] (at_q h g q) = qout h g (vis n q).
  Proof.
    intros k IH n F h g q Hn Ht HF. rewrite visit_eq, Ht. pose proof Hn as Hd. rewrite ndepth_eq in Hd.
    enter. go. match goal with |- context [streq (nName n) ?d] => destruct (streq (nName n) d) end; go; [|reflexivity].
    match goal with |- context [range _ _ ?a1 ?a2 ?a3 ?a4 ?a5 ?a6 ?a7 ?a8 ?rs ?i ?v ?bd _ _ ?e _] =>
      assert (L : forall l z q0, ldepth l <= k ->
        match vall l q0 with
        | Gorm.QOk q' => range Gorm.gerr gworld a1 a2 a3 a4 a5 a6 a7 a8 rs i v bd z (map WNode l) e (at_q h g q0) = Ret (CNext, e) (at_q h g q')
        | Gorm.QErr er q' => exists e', range Gorm.gerr gworld a1 a2 a3 a4 a5 a6 a7 a8 rs i v bd z (map WNode l) e (at_q h g q0) = Ret (CRet (WX er), e') (at_q h g q')
        | Gorm.QPanic => range Gorm.gerr gworld a1 a2 a3 a4 a5 a6 a7 a8 rs i v bd z (map WNode l) e (at_q h g q0) = Panics
        end)
    end.
    { clear - IH HF. intro l; induction l as [|p l IHl]; intros z q0 Hl; cbn [ldepth] in Hl; cbn [map].
      - rewrite vall_0. go. reflexivity.
      - rewrite vall_1. destruct (ovis p q0) as [q'|er q'|] eqn:Eo; cbn [Gorm.qbind].
        + specialize (IHl (z + 1)%Z q' ltac:(lia)).
          destruct (vall l q') as [q2|er q2|]; [|destruct IHl as [e' IHl]; exists e'|]; go; rewrite Eo; unfold qout; go; exact IHl.
        + eexists. go. rewrite Eo; unfold qout. go. reflexivity.
        + go. rewrite Eo; unfold qout. go. reflexivity. }
    specialize (L (nParams n) 0%Z (Gorm.write [40%N] (Gorm.write (nName n) q)) ltac:(lia)).
    destruct (vall (nParams n) (Gorm.write [40%N] (Gorm.write (nName n) q))) as [q'|er q'|]; cbn [Gorm.qbind].
    - rewrite L. go. reflexivity.
    - destruct L as [e' L]. rewrite L. go. reflexivity.
    - rewrite L. go. reflexivity.
  Qed.

  (** visit, gormq/miniquery.go:150-207 *)
  Lemma gvisit_ok : forall k p F h g q, odepth p <= k -> 2 * k + 3 < F ->
    gcall F (WMeth "queryBuilder" "visit") [WNode p] (at_q h g q) = qout h g (ovis p q).
  Proof.
    induction k as [|k IH]; intros p F h g q Hp HF.
    - destruct p as [p|]; [cbn [odepth] in Hp; rewrite ndepth_eq in Hp; lia|]. enter. go. reflexivity.
    - destruct p as [n|]; [|enter; go; reflexivity]. cbn [odepth] in Hp. pose proof Hp as Hd. rewrite ndepth_eq in Hd.
      enter. go. change (ovis (Some n) q) with (vis n q). destruct (nType n) eqn:Et; go.
      all: try (match goal with |- context [gorm_call _ _ _ _ (WMeth "queryBuilder" "visitFunction")] => idtac end;
        rewrite (function_ok k IH) by (assumption || lia); unfold qout; destruct (vis n q); go; reflexivity).
      all: rewrite visit_eq, Et; cbn.
      + rewrite gvalue_ok by lia. destruct (value n); go; reflexivity.
      + reflexivity.
      + unfold qout. destruct (Gorm.visit_identifier fold_eq quote sch n q); go; reflexivity.
      + unfold qout. destruct (Gorm.visit_reference fold_eq quote sch n q); go; reflexivity.
      + out. go. out. go. destruct (nRight n) as [r|] eqn:Er; go; [rewrite Er; go; out; go; reflexivity|reflexivity].
      + out. go. out. go. destruct (nRight n) as [r|] eqn:Er; go; [rewrite Er; go; out; go; reflexivity|reflexivity].
      + out. go. out. go. destruct (nRight n) as [r|] eqn:Er; go; [rewrite Er; go; out; go; reflexivity|reflexivity].
      + out. go. reflexivity.
      + out. go. reflexivity.
      + out. go. out. go. destruct (nParams n) as [|x [|y ps]] eqn:Ep; cbn [map]; cbn [ldepth] in Hd; rewrite ?gindex_0, ?gindex_nil; [go; reflexivity| |].
        * go. out. go. rewrite Ep; cbn [map]; rewrite gindex_1n. go. reflexivity.
        * go. out. go. rewrite Ep; cbn [map]; rewrite gindex_1. go. out. go. reflexivity.
      + reflexivity.
  Qed.
End Gorm.
