(** Proofs for C75: entql, and the three back ends together. *)
From Verif Require Import Base Peg Node Vocab Tree Parse Syntax Blank ParseProofs NormProofs Unique ParserFacts ParserFacts2 ParserMain Build BuildProofs NodeFacts SafeInd
  EntQL EntQLSpec EntQLProofs Gorm GormSpec GormProofs GormFacts GormFacts2 GormFacts3 GormFacts4 TreeFacts EntSQL EntSQLSpec EntSQLProofs EntSQLFacts EntSQLFacts2
  SqlSpec SqlSpecQL SqlProofs SqlProofs2 SqlGorm SqlEnt.
Require Import Lia.
Strategy expand [parse_machine rule_trace].
Strategy 1000 [parse_fuel mrun tok_trace].

Section QL.
  Variable lo : N -> N.
  Ltac noval := match goal with K : go_value _ _ |- _ => apply go_value_type in K; discriminate K end.
  Lemma ql_op : forall o op, In (op_name lo o, op) ql_operators -> forall w : world,
    match op with
    | EAnd => op_sql lo o = #"and" | EOr => op_sql lo o = #"or" | ENotOp => op_sql lo o = #"not"
    | _ => eop_world w op = Some (wCmp w (op_sql lo o))
    end.
  Proof.
    intros o op H w. unfold op_sql. generalize dependent (op_name lo o). intros n H. unfold ql_operators in H. cbn [In] in H.
    decompose [or] H; try contradiction; match goal with K : (_, _) = (_, _) |- _ => injection K as <- <- end; reflexivity.
  Qed.
  Definition fineQ (e : expr) : Prop := neat3 lo e = true -> forall n p, tree_of lo e = Some n -> copies true n p ->
    forall w row nm, lawful w -> (forall x, nm [x] = row x) -> ql_means w row p = Some (query_means w lo nm e).

  Lemma copies_val : forall v p, copies true (val_node v) p -> p = XValue (val_value v).
  Proof.
    intros v p H. assert (T : nType (val_node v) = NValue) by (destruct v as [[]|]; reflexivity). remember (val_node v) as n eqn:E.
    destruct H; try discriminate T. subst n. f_equal. now apply go_val.
  Qed.
  Lemma copies_cmp_inv : forall l k r p, copies true (mk_compare (Some l) (Some k) (Some r)) p -> exists op x y, In (nOperation k, op) ql_operators /\ copies true l x /\ copies true r y /\ p = XBinary op x y.
  Proof.
    intros l k r p H. remember (mk_compare (Some l) (Some k) (Some r)) as n eqn:E. destruct H; try discriminate E; [subst; noval|].
    injection E as <- <- <-. exists op, x, y. now repeat split.
  Qed.
  Lemma copies_logic_inv : forall l k r p, copies true (mk_logic (Some l) (Some k) (Some r)) p -> exists op x y, In (nOperation k, op) ql_operators /\ copies true l x /\ copies true r y /\ p = XBinary op x y.
  Proof.
    intros l k r p H. remember (mk_logic (Some l) (Some k) (Some r)) as n eqn:E. destruct H; try discriminate E; [subst; noval|].
    injection E as <- <- <-. exists op, x, y. now repeat split.
  Qed.
  Lemma cmp_world : forall o op l w, In (op_name lo o, op) ql_operators -> named lo l o = true -> ~ In #"and" l -> ~ In #"or" l -> ~ In #"not" l -> eop_world w op = Some (wCmp w (op_sql lo o)).
  Proof.
    intros o op l w H N A1 A2 A3. apply existsb_streq in N. pose proof (ql_op o op H w) as K.
    destruct op; try exact K; rewrite K in N; contradiction.
  Qed.

  Lemma q_cmp : forall o p al ar (ls : list (list N)),
    copies true (mk_compare (Some al) (Some (mk_op (op_name lo o))) (Some ar)) p -> named lo ls o = true -> ~ In #"and" ls -> ~ In #"or" ls -> ~ In #"not" ls ->
    exists op x y, copies true al x /\ copies true ar y /\ p = XBinary op x y /\ forall w, eop_world w op = Some (wCmp w (op_sql lo o)).
  Proof.
    intros o p al ar ls H N A1 A2 A3. apply copies_cmp_inv in H as (op & x & y & I & H1 & H2 & ->). exists op, x, y. repeat split; auto. intro w. now apply (cmp_world o op ls).
  Qed.

  Lemma all_fineQ : forall e t, lay e t -> fineQ e.
  Proof.
    assert (IN : forall x l, existsb (streq x) l = false -> ~ In x l).
    { intros x l H I. assert (E : existsb (streq x) l = true) by (apply existsb_exists; exists x; split; [exact I|apply streq_refl]). congruence. }
    assert (B : forall e o b x y, fineQ e -> fineQ (EBetween e o b x y)).
    { intros e o b x y IH Hn n p T H w row nm W A. cbn [neat3] in Hn. apply andb_prop in Hn as [Hn Ho]. cbn [tree_of] in T. injection T as <-. apply existsb_streq in Ho. destruct Ho as [Ho|[]].
      assert (NB : op_name lo o <> #"not between") by (intro X; unfold op_sql in Ho; rewrite X in Ho; discriminate Ho).
      remember (mk_between (tree_of lo e) (Some (mk_op (op_name lo o))) (Some (val_node x)) (Some (val_node y))) as n eqn:E. destruct H; try discriminate E; [subst; noval| |].
      - injection E as E1 E2 E3 E4. symmetry in E1. subst k a b0. pose proof (IH Hn l x0 E1 H0 w row nm W A) as K. apply copies_val in H1, H2. subst.
        destruct W as (W1 & W2 & W3). cbn [ql_means eop_world]. rewrite K. cbn [query_means]. rewrite <- Ho. change (streq #"between" #"not between") with false. now rewrite W1.
      - injection E as E1 E2 E3 E4. subst k. contradiction. }
    intros e t H. refine (lay_mind (fun e t _ => fineQ e) (fun es t _ => True) _ _ _ _ _ _ _ _ _ _ _ _ _ _ _ _ _ _ e t H); clear e t H; try (intros; exact I); try (intros; intro K; discriminate K).
    - intros l t _ _ n p T H w row nm W A. injection T as <-. apply (copies_val (VLit l)) in H. now subst.
    - intros p0 c ls t _ _ _ n p T H w row nm W A. injection T as <-. apply (copies_val (VArr p0 ls)) in H. now subst.
    - intros x _ _ _ n p T H w row nm W A. injection T as <-. inversion H; subst; try noval. cbn [ql_means query_means]. now rewrite A.
    - intros e t w1 w2 _ IH _ _ Hn n p T H w row nm W A. cbn [neat3] in Hn. cbn [tree_of] in T. injection T as <-. inversion H; subst; try noval. now apply (IH Hn e0 p).
    - intros. now apply B.
    - intros. now apply B.
    - intros e te w1 o w2 p0 c ls ta _ _ IH _ _ _ _ _ Hn n p T H w row nm W A. cbn [neat3] in Hn. apply andb_prop in Hn as [Hn Ho]. cbn [tree_of] in T. injection T as <-.
      destruct (tree_of lo e) as [m|] eqn:T; [|inversion H; noval].
      destruct (q_cmp o p m _ in_ops H Ho (IN #"and" in_ops eq_refl) (IN #"or" in_ops eq_refl) (IN #"not" in_ops eq_refl)) as (op & x & y & H1 & H2 & -> & K).
      apply (copies_val (VArr p0 ls)) in H2. subst y. cbn [ql_means query_means]. rewrite K, (IH Hn m x T H1 w row nm W A). reflexivity.
    - intros l tl w1 o w2 r tr _ _ _ IH1 _ _ _ _ IH2 _ Hn n p T H w row nm W A. cbn [neat3] in Hn. apply andb_prop in Hn as [Hn Ho]. apply andb_prop in Hn as [Hn1 Hn2]. cbn [tree_of] in T. injection T as <-.
      destruct (tree_of lo l) as [ml|] eqn:T1; [|inversion H; noval]. destruct (tree_of lo r) as [mr|] eqn:T2; [|inversion H; noval].
      destruct (q_cmp o p ml mr cmp_syms H Ho (IN #"and" cmp_syms eq_refl) (IN #"or" cmp_syms eq_refl) (IN #"not" cmp_syms eq_refl)) as (op & x & y & H1 & H2 & -> & K).
      cbn [ql_means query_means]. now rewrite K, (IH1 Hn1 ml x T1 H1 w row nm W A), (IH2 Hn2 mr y T2 H2 w row nm W A).
    - intros l tl w1 o w2 r tr _ _ IH1 _ OP _ _ IH2 _ _ Hn n p T H w row nm W A. cbn [neat3] in Hn. apply andb_prop in Hn as [Hn1 Hn2]. cbn [tree_of] in T. injection T as <-.
      destruct (tree_of lo l) as [ml|] eqn:T1; [|inversion H; noval]. destruct (tree_of lo r) as [mr|] eqn:T2; [|inversion H; noval].
      apply copies_logic_inv in H as (op & x & y & I & H1 & H2 & ->). cbn [nOperation mk_op] in I. pose proof (logic_op lo o OP) as E.
      assert (F : eop_world w op = Some (if is_or o then wOr w else wAnd w)).
      { clear - I E. unfold op_sql in E. revert I E. generalize (op_name lo o). intros n I E. unfold ql_operators in I. cbn [In] in I.
        decompose [or] I; try contradiction; match goal with K : (_, _) = (_, _) |- _ => injection K as <- <- end; destruct (is_or o); (reflexivity || (exfalso; vm_compute in E; discriminate E)). }
      cbn [ql_means query_means]. rewrite F, (IH1 Hn1 ml x T1 H1 w row nm W A), (IH2 Hn2 mr y T2 H2 w row nm W A). now destruct (is_or o).
  Qed.
  Lemma not_symbol : forall o s, In s cmp_syms -> op_name lo o <> s.
  Proof.
    intros o s Hs H. unfold op_name in H. generalize dependent (join_with #" " (Vocab.pieces [] (map (lower lo) o))). intros x H.
    destruct (find (fun k => streq (fst k) x) symbol_names) as [[k n]|] eqn:F.
    - apply find_some in F as [F _]. subst n. unfold symbol_names in F. unfold cmp_syms in Hs. cbn [In] in F, Hs.
      decompose [or] F; try contradiction; match goal with K : (_, _) = (_, _) |- _ => injection K as _ <- end; decompose [or] Hs; try contradiction; match goal with K : _ = _ |- _ => discriminate K end.
    - subst x. unfold cmp_syms in Hs. cbn [In] in Hs. decompose [or] Hs; try contradiction; subst s; discriminate F.
  Qed.
  Lemma named_op : forall o, named lo cmp_syms o = true \/ named lo in_ops o = true \/ op_logic o -> exists op, In (op_name lo o, op) ql_operators.
  Proof.
    intros o H. assert (K : In (op_sql lo o) (cmp_syms ++ in_ops ++ [#"and"; #"or"])).
    { destruct H as [H|[H|H]]; [apply existsb_streq in H; apply in_or_app; now left|apply existsb_streq in H; apply in_or_app; right; apply in_or_app; now left|].
      rewrite (logic_op lo o H). apply in_or_app; right; apply in_or_app; right. destruct (is_or o); [right; now left|now left]. }
    clear H. pose proof (not_symbol o) as S. unfold op_sql in K. generalize dependent (op_name lo o). clear o. intros n K S.
    destruct (find (fun k => streq (fst k) n) sql_word) as [[k x]|] eqn:F.
    - apply find_some in F as [F E]. cbn [fst] in E. apply streq_eq in E. subst k. clear - F. unfold sql_word in F. cbn [In] in F.
      decompose [or] F; try contradiction; match goal with K : (_, _) = (_, _) |- _ => injection K as <- <- end; eexists; unfold ql_operators; cbn [In]; repeat (first [left; reflexivity|right]).
    - apply in_app_or in K as [K|K]; [now destruct (S n K)|]. clear - K. unfold in_ops in K. cbn [In app] in K.
      decompose [or] K; try contradiction; subst n; eexists; unfold ql_operators; cbn [In]; repeat (first [left; reflexivity|right]).
  Qed.
  Lemma copies_of_val : forall v, copies true (val_node v) (XValue (val_value v)).
  Proof.
    intro v. apply cop_value. destruct v as [l|b ls]; cbn [val_node val_value]; [destruct l; constructor|]. constructor.
    induction ls as [|l ls IH]; cbn [map]; constructor; [destruct l; constructor|exact IH].
  Qed.
  Lemma neat3_copies : forall e t, lay e t -> neat3 lo e = true -> exists n p, tree_of lo e = Some n /\ copies true n p.
  Proof.
    assert (B : forall e o b x y, (neat3 lo e = true -> exists n p, tree_of lo e = Some n /\ copies true n p) ->
      neat3 lo (EBetween e o b x y) = true -> exists n p, tree_of lo (EBetween e o b x y) = Some n /\ copies true n p).
    { intros e o b x y IH Hn. cbn [neat3] in Hn. apply andb_prop in Hn as [Hn Ho]. destruct (IH Hn) as (n & p & T & C). apply existsb_streq in Ho. destruct Ho as [Ho|[]].
      assert (NB : op_name lo o <> #"not between") by (intro X; unfold op_sql in Ho; rewrite X in Ho; discriminate Ho).
      cbn [tree_of]. rewrite T. do 2 eexists. split; [reflexivity|]. apply cop_between; [exact NB|exact C|apply copies_of_val|apply copies_of_val]. }
    intros e t H. refine (lay_mind (fun e t _ => neat3 lo e = true -> exists n p, tree_of lo e = Some n /\ copies true n p) (fun es t _ => True) _ _ _ _ _ _ _ _ _ _ _ _ _ _ _ _ _ _ e t H); clear e t H; try (intros; exact I); try (intros; match goal with K : _ = true |- _ => discriminate K end).
    - intros l t _ _. do 2 eexists. split; [reflexivity|]. exact (copies_of_val (VLit l)).
    - intros p0 c ls t _ _ _. do 2 eexists. split; [reflexivity|]. exact (copies_of_val (VArr p0 ls)).
    - intros x _ _ _. do 2 eexists. split; [reflexivity|]. apply cop_name.
    - intros e t w1 w2 _ IH _ _ Hn. destruct (IH Hn) as (n & p & T & C). cbn [tree_of]. rewrite T. do 2 eexists. split; [reflexivity|]. exact (cop_paren true n p C).
    - intros. now apply B.
    - intros. now apply B.
    - intros e te w1 o w2 p0 c ls ta _ _ IH _ _ _ _ _ Hn. cbn [neat3] in Hn. apply andb_prop in Hn as [Hn Ho]. destruct (IH Hn) as (n & p & T & C). destruct (named_op o (or_intror (or_introl Ho))) as (op & I). cbn [tree_of]. rewrite T.
      do 2 eexists. split; [reflexivity|]. apply (cop_compare true n _ (mk_op (op_name lo o)) op p (XValue (val_value (VArr p0 ls)))); [exact I|exact C|exact (copies_of_val (VArr p0 ls))].
    - intros l tl w1 o w2 r tr _ _ _ IH1 _ _ _ _ IH2 _ Hn. cbn [neat3] in Hn. apply andb_prop in Hn as [Hn Ho]. apply andb_prop in Hn as [Hn1 Hn2]. destruct (IH1 Hn1) as (n1 & p1 & T1 & C1). destruct (IH2 Hn2) as (n2 & p2 & T2 & C2).
      destruct (named_op o (or_introl Ho)) as (op & I). cbn [tree_of]. rewrite T1, T2. do 2 eexists. split; [reflexivity|]. apply (cop_compare true n1 n2 (mk_op (op_name lo o)) op p1 p2); assumption.
    - intros l tl w1 o w2 r tr _ _ IH1 _ OP _ _ IH2 _ _ Hn. cbn [neat3] in Hn. apply andb_prop in Hn as [Hn1 Hn2]. destruct (IH1 Hn1) as (n1 & p1 & T1 & C1). destruct (IH2 Hn2) as (n2 & p2 & T2 & C2).
      destruct (named_op o (or_intror (or_intror OP))) as (op & I). cbn [tree_of]. rewrite T1, T2. do 2 eexists. split; [reflexivity|]. apply (cop_logic true n1 n2 (mk_op (op_name lo o)) op p1 p2); assumption.
  Qed.
  Lemma condition_tree : forall e n, neat3 lo e = true -> tree_of lo e = Some n -> is_condition n = condition e.
  Proof.
    fix IH 1. intros [[[]|]|x|xs|xs|f args|e|e o b x y|e o|e o p ls|l o r|e|l o r] n Hn T; cbn [tree_of val_node lit_node] in T; try discriminate Hn; try (injection T as <-; reflexivity).
    cbn [neat3] in Hn. injection T as <-. cbn [condition]. destruct (tree_of lo e) as [m|] eqn:E.
    - rewrite <- (IH e m Hn E). reflexivity.
    - destruct e; discriminate.
  Qed.
  Lemma neat3_json_free : forall e, neat3 lo e = true -> json_free e = true.
  Proof.
    fix IH 1. intros [v|x|xs|xs|f args|e|e o b x y|e o|e o p ls|l o r|e|l o r] H; cbn [neat3 json_free] in *; try reflexivity; try discriminate.
    - now apply IH.
    - apply andb_prop in H as [H _]. now apply IH.
    - apply andb_prop in H as [H _]. now apply IH.
    - apply andb_prop in H as [H _]. apply andb_prop in H as [H1 H2]. now rewrite (IH _ H1), (IH _ H2).
    - apply andb_prop in H as [H1 H2]. now rewrite (IH _ H1), (IH _ H2).
  Qed.
  Lemma build_world : forall q e p, valid_runes q -> reads q e -> neat3 lo e = true -> build_entql lo q = Ok (Some p) ->
    forall w row nm, lawful w -> (forall x, nm [x] = row x) -> ql_means w row p = Some (query_means w lo nm e).
  Proof.
    intros q e p Hq He Hn H. apply (build_predicate lo q p Hq) in H as (n & Hp & K & _). pose proof (neat3_json_free e Hn) as Hj.
    assert (Hf : fits e = true).
    { destruct (parse_ok_inv lo q _ Hq Hp) as (e2 & H2 & Hf & _). now rewrite (reads_unique _ _ _ He H2). }
    pose proof (parse_spec lo q e Hq He Hf Hj) as Hp'. rewrite Hp in Hp'. injection Hp' as Hp'. symmetry in Hp'. destruct He as (w1 & t & w2 & _ & _ & _ & Hl).
    exact (all_fineQ e t Hl Hn n p Hp' K).
  Qed.
  Lemma build_exists : forall q e, valid_runes q -> reads q e -> neat3 lo e = true -> fits e = true -> condition e = true -> exists p, build_entql lo q = Ok (Some p).
  Proof.
    intros q e Hq He Hn Hf Hc. pose proof (parse_spec lo q e Hq He Hf (neat3_json_free e Hn)) as Hp. destruct He as (w1 & t & w2 & _ & _ & _ & Hl).
    destruct (neat3_copies e t Hl Hn) as (n & p & T & C). exists p. apply (build_predicate lo q p Hq). exists n. rewrite T in Hp. split; [exact Hp|]. split; [exact C|]. now rewrite (condition_tree e n Hn T).
  Qed.
  (** both together *)
  Lemma build_sql : forall q e, valid_runes q -> reads q e -> neat3 lo e = true -> fits e = true -> condition e = true ->
    exists p, build_entql lo q = Ok (Some p) /\ forall w row nm, lawful w -> (forall x, nm [x] = row x) -> ql_means w row p = Some (query_means w lo nm e).
  Proof.
    intros q e Hq He Hn Hf Hc. destruct (build_exists q e Hq He Hn Hf Hc) as (p & H). exists p. split; [exact H|]. exact (build_world q e p Hq He Hn H).
  Qed.
End QL.

Lemma named_incl : forall lo l l' o, incl l l' -> named lo l o = true -> named lo l' o = true.
Proof.
  intros lo l l' o I H. unfold named in *. rewrite existsb_exists in *. destruct H as (x & H & K). exists x. split; [now apply I|exact K].
Qed.
Lemma neat2_neat : forall lo e, neat2 lo e = true -> neat lo e = true.
Proof.
  intros lo. fix IH 1. intros [v|x|xs|xs|f args|e|e o b x y|e o|e o p ls|l o r|e|l o r] H; cbn [neat2 neat] in *; try reflexivity; try discriminate.
  - apply andb_prop in H as [H1 H2]. rewrite H1. destruct args as [|a [|]]; try discriminate. now rewrite (IH a H2).
  - now apply IH.
  - repeat match goal with K : _ && _ = true |- _ => apply andb_prop in K as [? ?] end. rewrite (IH e) by assumption. rewrite H3. cbn [andb]. apply (named_incl lo [#"between"]); [|assumption]. intros ? [<-|[]]. now left.
  - repeat match goal with K : _ && _ = true |- _ => apply andb_prop in K as [? ?] end. rewrite (IH e) by assumption. rewrite H1. cbn [andb]. apply (named_incl lo [#"is null"; #"is not null"]); [|assumption]. intros ? [<-|[<-|[]]]; [now left|right; now left].
  - repeat match goal with K : _ && _ = true |- _ => apply andb_prop in K as [? ?] end. rewrite (IH e) by assumption. now rewrite H2.
  - repeat match goal with K : _ && _ = true |- _ => apply andb_prop in K as [? ?] end. rewrite (IH l), (IH r) by assumption. now rewrite H0, H1, H2.
  - repeat match goal with K : _ && _ = true |- _ => apply andb_prop in K as [? ?] end. now rewrite (IH e).
  - repeat match goal with K : _ && _ = true |- _ => apply andb_prop in K as [? ?] end. rewrite (IH l), (IH r) by assumption. assumption.
Qed.

(** A query for the examples. *)
Lemma reads_three :
  let cmp x k := ECmp (EName x) #"=" (EVal (VLit (LInt k))) in
  reads #"(a = 1 or b = 2) and a = 3" (ELogic (EParen (ELogic (cmp #"a" #"1") #"or" (cmp #"b" #"2"))) #"and" (cmp #"a" #"3")).
Proof.
  intro cmp.
  assert (B : blank #" ") by (apply blank_char; [reflexivity|constructor]).
  assert (L : forall x k, ident x -> ~ starts_word x -> lit_text (LInt k) k -> lay (cmp x k) (x ++ #" " ++ #"=" ++ #" " ++ k)).
  { intros x k H1 H2 H3. apply lay_cmp; auto; try (cbn; lia); [now apply lay_name|left; cbn; tauto|now apply lay_lit|intros _; reflexivity]. }
  assert (N : forall x, length x = 1 -> ~ starts_word x).
  { intros [|c [|? ?]] H; try discriminate. intros [K|[K|[K|[K|[K|K]]]]]; destruct K as [r K]; discriminate. }
  assert (LA : lay (cmp #"a" #"1") #"a = 1") by (apply (L #"a" #"1"); [one_char|now apply N|now apply lt_int]).
  assert (LB : lay (cmp #"b" #"2") #"b = 2") by (apply (L #"b" #"2"); [one_char|now apply N|now apply lt_int]).
  assert (LC : lay (cmp #"a" #"3") #"a = 3") by (apply (L #"a" #"3"); [one_char|now apply N|now apply lt_int]).
  assert (J : forall l tl o r tr, lay l tl -> lay r tr -> level r <= 5 -> op_logic o -> ends_ident l = false -> ends_bracket l = false ->
    lay (ELogic l o r) (tl ++ #" " ++ o ++ #" " ++ tr)).
  { intros l tl o r tr H1 H2 H3 H4 H5 H6. apply lay_logic; auto; [intro K; congruence|intros [K _]; congruence]. }
  exists [], #"(a = 1 or b = 2) and a = 3", []. refine (conj eq_refl (conj blank_nil (conj blank_nil _))).
  apply (lay_logic _ #"(a = 1 or b = 2)" #" " #"and" #" " _ #"a = 3"); auto; try (cbn; lia); [|left; reflexivity|intros _; reflexivity|intros [_ K]].
  - apply (lay_paren _ #"a = 1 or b = 2" [] []); [|constructor|constructor].
    apply (J _ #"a = 1" #"or" _ #"b = 2"); try reflexivity; try (cbn; lia); [exact LA|exact LB|right; left; reflexivity].
  - now decompose [and] K.
Qed.

Lemma back_ends_agree : forall fold_eq quote lo nl1 db db' sch ident_sql edge_sql heap nl2 col d dis nd m t2 s2 q e p,
  valid_runes q -> reads q e -> neat2 lo e = true -> neat3 lo e = true ->
  schema_of db = Some sch -> quotes nl1 quote (fun c => c) (is_column fold_eq sch) -> quotes nl2 (ident_sql d) col ident ->
  wire_mini_query fold_eq quote lo db q = Some db' -> succeeded db db' ->
  query lo ident_sql edge_sql heap (fresh d dis nd q) = Some (m, (t2, s2)) -> no_error m ->
  build_entql lo q = Ok (Some p) ->
  exists t1 s1 a1 a2, dWheres db' = dWheres db ++ [(t1, s1)] /\ reads_marks nl1 t1 s1 a1 /\ reads_sql nl2 d t2 (map arg_value s2) a2 /\
    forall w row1 row2 row3 nm, lawful w -> agrees (wV w) fold_eq sch row1 nm -> (forall x, nm [x] = row2 (col x)) -> (forall x, nm [x] = row3 x) ->
      sql_means w row1 a1 = sql_means w row2 a2 /\ ql_means w row3 p = Some (sql_means w row2 a2).
Proof.
  intros fold_eq quote lo nl1 db db' sch ident_sql edge_sql heap nl2 col d dis nd m t2 s2 q e p Hq He H2 H3 Hs Q1 Q2 W S QE NE B.
  destruct (wire_sql fold_eq quote lo nl1 db q e db' sch Hq He (neat2_neat lo e H2) Hs Q1 W S) as (t1 & s1 & a1 & E1 & R1 & M1).
  destruct (query_sql lo ident_sql edge_sql heap nl2 col d dis nd q e m t2 s2 Hq He H2 Q2 QE NE) as (a2 & R2 & M2).
  exists t1, s1, a1, a2. split; [exact E1|]. split; [exact R1|]. split; [exact R2|]. intros w row1 row2 row3 nm L A1 A2 A3.
  rewrite (M1 w row1 nm A1), (M2 w row2 nm L A2). split; [reflexivity|]. exact (build_world lo q e p Hq He H3 B w row3 nm L A3).
Qed.
