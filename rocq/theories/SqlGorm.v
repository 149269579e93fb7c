(** Proofs for C73: the conditions of gormq, read as SQL. *)
From Verif Require Import Base Peg Node Vocab Tree Parse Syntax Blank ParseProofs NormProofs Unique ParserFacts ParserFacts2 ParserMain Build BuildProofs NodeFacts SafeInd
  Gorm GormSpec GormProofs GormFacts GormFacts2 GormFacts3 GormFacts4 TreeFacts SqlSpec SqlProofs SqlProofs2.
Require Import Lia.
Strategy expand [parse_machine rule_trace].
Strategy 1000 [parse_fuel mrun tok_trace].

(** ** Tokens that are read as [a], for an expression of the form of [e] *)
Record good (e : expr) (bts : list tok) (a : sql) : Prop := {
  g_prim : prime e = true -> forall rest, R GPrim (bts ++ rest) (a, rest);
  g_start : level e <= 4 -> forall rest, no_word #"not" (bts ++ rest);
  g_not : level e <= 5 -> forall rest, stops rest -> R GNot (bts ++ rest) (a, rest);
  g_and : loose_or e = false -> forall rest r, stops rest -> R (GAndMore a) rest r -> R GAnd (bts ++ rest) r;
  g_or : forall rest r, stops rest -> no_word #"and" rest -> R (GOrMore a) rest r -> R GOr (bts ++ rest) r
}.
Lemma loose_level : forall e, level e <= 5 -> loose_or e = false.
Proof. intros e H. destruct e; try reflexivity. cbn in H. lia. Qed.
Lemma good_not : forall e bts a, level e <= 5 -> (prime e = true -> forall rest, R GPrim (bts ++ rest) (a, rest)) ->
  (level e <= 4 -> forall rest, no_word #"not" (bts ++ rest)) -> (forall rest, stops rest -> R GNot (bts ++ rest) (a, rest)) -> good e bts a.
Proof.
  intros e bts a L1 H1 H2 H3.
  assert (A : forall rest r, stops rest -> R (GAndMore a) rest r -> R GAnd (bts ++ rest) r).
  { intros rest r S K. apply (R_and _ a rest r); [now apply H3|exact K]. }
  constructor; auto. intros rest r S N K. apply (R_or _ a rest r); [|exact K]. apply A; [exact S|]. now apply R_and_end.
Qed.
Lemma good_cond : forall e bts a, level e <= 4 -> (prime e = true -> forall rest, R GPrim (bts ++ rest) (a, rest)) ->
  (forall rest, no_word #"not" (bts ++ rest)) -> (forall rest, stops rest -> R GCond (bts ++ rest) (a, rest)) -> good e bts a.
Proof. intros e bts a L1 H1 H2 H3. apply good_not; [lia|exact H1|auto|]. intros rest S. apply R_not_end; [apply H2|now apply H3]. Qed.
Lemma good_prim : forall e bts a, level e = 0 -> (forall rest, R GPrim (bts ++ rest) (a, rest)) -> (forall rest, no_word #"not" (bts ++ rest)) -> good e bts a.
Proof. intros e bts a L1 H1 H2. apply good_cond; [lia|auto|exact H2|]. intros rest S. apply (R_cond _ a rest); [apply H1|now apply R_cond_end]. Qed.

Lemma prime_level : forall e, prime e = true -> level e = 0.
Proof. intros e H. unfold prime in H. now apply Nat.eqb_eq in H. Qed.
Lemma prime_le : forall e, prime e = true -> level e <= 4.
Proof. intros e H. apply prime_level in H. lia. Qed.
(** a simple operand, then more of the comparison *)
Lemma good_more : forall e bl al more a, (forall rest, R GPrim (bl ++ rest) (al, rest)) -> (forall rest, no_word #"not" (bl ++ rest)) -> 1 <= level e <= 4 ->
  (forall rest, stops rest -> R (GCondMore al) (more ++ rest) (a, rest)) -> good e (bl ++ more) a.
Proof.
  intros e bl al mo a P1 G1 LV H. apply good_cond; [lia| | |].
  - intro K. apply prime_level in K. lia.
  - intro rest. rewrite <- app_assoc. apply G1.
  - intros rest S. rewrite <- app_assoc. apply (R_cond _ al (mo ++ rest)); [|now apply H]. apply P1.
Qed.

Lemma existsb_streq : forall o l, existsb (streq o) l = true -> In o l.
Proof. intros o l H. apply existsb_exists in H as (x & I & E). apply streq_eq in E. now subst. Qed.
Lemma go_lit : forall l v, go_value (lit_node l) v -> v = lit_value l.
Proof. intros [] v H; inversion H; reflexivity. Qed.
Lemma go_lits : forall ls vs, go_values (map (fun l => Some (lit_node l)) ls) vs -> vs = map lit_value ls.
Proof.
  induction ls as [|l ls IH]; intros vs H; cbn [map] in H; inversion H as [|n r v ws Hv Hr]; [reflexivity|]. subst. cbn [map]. f_equal; [now apply go_lit|now apply IH].
Qed.
Lemma go_val : forall v g, go_value (val_node v) g -> g = val_value v.
Proof. intros [l|p ls] g H; [now apply go_lit|]. cbn [val_node] in H. inversion H as [| | | |l vs Hl]; subst. cbn [val_value]. f_equal. now apply go_lits. Qed.

Section SG.
  Variable fold_eq : list N -> list N -> bool.
  Variable lo : N -> N.
  Variable nl : list N -> option (list N * list N).
  Variable quote : list N -> list N.
  Variable sch : schema.
  Hypothesis Q : quotes nl quote (fun c => c) (is_column fold_eq sch).
  Notation rend := (renders fold_eq sch).
  Notation LL := (L nl quote).

  Ltac noval := match goal with K : go_value _ _ |- _ => apply go_value_type in K; discriminate K end.
  Lemma spelled_op : forall o s, spelled (op_name lo o) s -> s = op_sql lo o.
  Proof.
    intros o s H. unfold op_sql. generalize dependent (op_name lo o). clear o. intros o [H|[H ->]].
    - unfold sql_word in H. cbn [In] in H. decompose [or] H; try contradiction; match goal with K : (_, _) = (_, _) |- _ => injection K as <- <-; reflexivity end.
    - assert (F : forall l, ~ In o (map fst l) -> find (fun k : list N * list N => streq (fst k) o) l = None).
      { induction l as [|k l IH]; intro K; [reflexivity|]. cbn [find]. destruct (streq_spec (fst k) o) as [E|E]; [destruct K; left; exact E|]. apply IH. intro I. apply K. now right. }
      now rewrite (F _ H).
  Qed.
  Lemma rend_op : forall o ps, rend (mk_op (op_name lo o)) ps -> ps = [PText (op_sql lo o)].
  Proof. intros o ps H. inversion H; subst; try noval. f_equal. f_equal. now apply spelled_op. Qed.
  Lemma rend_val : forall v ps, rend (val_node v) ps -> ps = [PValue (val_value v)].
  Proof.
    intros v ps H. assert (T : nType (val_node v) = NValue) by (destruct v as [[]|]; reflexivity).
    inversion H; subst; try (match goal with K : _ = val_node v |- _ => rewrite <- K in T; discriminate T end). f_equal. f_equal. now apply go_val.
  Qed.

  (** operators *)
  Lemma sym_or_word : forall s, In s cmp_ops -> In s cmp_syms \/ s = #"like" \/ s = #"not like".
  Proof. intros s H. unfold cmp_ops in H. apply in_app_or in H as [H|[<-|[<-|[]]]]; auto. Qed.
  Lemma read_cmp : forall s, In s cmp_ops -> exists bts, LL [PText s] bts /\
    forall al tr ar us, R GPrim tr (ar, us) -> R (GCondMore al) (bts ++ tr) (QCmp s al ar, us).
  Proof.
    intros s H. destruct (sym_or_word s H) as [I|[->| ->]].
    - exists [TSym s]. split; [now apply (L_sym nl quote _ Q)|]. intros al tr ar us K. now apply R_sym.
    - exists [TWord #"like"]. split; [apply (L_word nl quote _ Q #"like"); [discriminate|reflexivity]|]. intros al tr ar us K. now apply (R_like false).
    - exists [TWord #"not"; TWord #"like"]. split; [apply (L_two nl quote _ Q #"not" #"like"); (discriminate || reflexivity)|]. intros al tr ar us K. now apply (R_like true).
  Qed.
  Lemma read_in : forall s, In s in_ops -> exists bts, LL [PText s] bts /\
    forall al tr ar us, R GRange tr (ar, us) -> R (GCondMore al) (bts ++ tr) (QCmp s al ar, us).
  Proof.
    intros s [<-|[<-|[]]].
    - exists [TWord #"in"]. split; [apply (L_word nl quote _ Q #"in"); [discriminate|reflexivity]|]. intros al tr ar us K. now apply (R_in false).
    - exists [TWord #"not"; TWord #"in"]. split; [apply (L_two nl quote _ Q #"not" #"in"); (discriminate || reflexivity)|]. intros al tr ar us K. now apply (R_in true).
  Qed.
  Lemma read_between : forall s, In s between_ops -> exists bts, LL [PText s] bts /\
    forall al tr ar us br vs, R GPrim tr (ar, TWord #"and" :: us) -> R GPrim us (br, vs) -> R (GCondMore al) (bts ++ tr) (QBetween (streq s #"not between") al ar br, vs).
  Proof.
    intros s [<-|[<-|[]]].
    - exists [TWord #"between"]. split; [apply (L_word nl quote _ Q #"between"); [discriminate|reflexivity]|]. intros al tr ar us br vs K1 K2. now apply (R_between false al tr ar us).
    - exists [TWord #"not"; TWord #"between"]. split; [apply (L_two nl quote _ Q #"not" #"between"); (discriminate || reflexivity)|]. intros al tr ar us br vs K1 K2. now apply (R_between true al tr ar us).
  Qed.
  Lemma read_pred : forall s, In s pred_ops -> exists bts, LL [PText s] bts /\ forall al us, R (GCondMore al) (bts ++ us) (QPred s al, us).
  Proof.
    intros s H. unfold pred_ops in H. cbn [In] in H. decompose [or] H; subst; try contradiction.
    - exists [TWord #"is"; TWord #"null"]. split; [apply (L_two nl quote _ Q #"is" #"null"); (discriminate || reflexivity)|]. intros. apply (R_is false #"null"). cbn. auto.
    - exists [TWord #"is"; TWord #"not"; TWord #"null"]. split; [apply (L_three nl quote _ Q #"is" #"not" #"null"); (discriminate || reflexivity)|]. intros. apply (R_is true #"null"). cbn. auto.
    - exists [TWord #"is"; TWord #"true"]. split; [apply (L_two nl quote _ Q #"is" #"true"); (discriminate || reflexivity)|]. intros. apply (R_is false #"true"). cbn. auto.
    - exists [TWord #"is"; TWord #"not"; TWord #"true"]. split; [apply (L_three nl quote _ Q #"is" #"not" #"true"); (discriminate || reflexivity)|]. intros. apply (R_is true #"true"). cbn. auto.
    - exists [TWord #"is"; TWord #"false"]. split; [apply (L_two nl quote _ Q #"is" #"false"); (discriminate || reflexivity)|]. intros. apply (R_is false #"false"). cbn. auto.
    - exists [TWord #"is"; TWord #"not"; TWord #"false"]. split; [apply (L_three nl quote _ Q #"is" #"not" #"false"); (discriminate || reflexivity)|]. intros. apply (R_is true #"false"). cbn. auto.
  Qed.

  Definition same (e : expr) (a : sql) : Prop := forall w row nm, agrees (wV w) fold_eq sch row nm -> sql_means w row a = query_means w lo nm e.
  Definition fine_gorm (e : expr) : Prop := neat lo e = true -> forall n ps, tree_of lo e = Some n -> rend n ps -> exists bts a, LL ps bts /\ good e bts a /\ same e a.

  Lemma f_val : forall v, fine_gorm (EVal v).
  Proof.
    intros v _ n ps [= <-] H. apply rend_val in H. subst. exists [TVal (val_value v)], (QVal (val_value v)). split; [apply (L_value nl quote _ Q)|]. split.
    - apply good_prim; [reflexivity|intro; apply R_val|intro; exact I].
    - intros w row nm _. reflexivity.
  Qed.
  Lemma f_name : forall x, fine_gorm (EName x).
  Proof.
    intros x _ n ps [= <-] H. inversion H; subst; try noval. match goal with K : resolves _ _ _ _ |- _ => rename K into S end.
    exists [TName c], (QCol c). split; [apply (L_column nl quote _ Q); exists (mk_ident x); now constructor|]. split.
    - apply good_prim; [reflexivity|intro; apply R_name|intro; exact I].
    - intros w row nm [A _]. cbn [sql_means query_means]. symmetry. now apply A.
  Qed.
  Lemma f_ref : forall xs, fine_gorm (ERef xs).
  Proof.
    intros xs _ n ps [= <-] H. inversion H; subst; try noval. match goal with K : resolves _ _ _ _ |- _ => rename K into S end. match goal with K : assoc _ _ = _ |- _ => rename K into S2 end.
    exists [TName (rel ++ #"." ++ c)], (QCol (rel ++ #"." ++ c)). split; [apply (L_column nl quote _ Q); exists (mk_reference [rel; x]); now apply (col_ref fold_eq sch _ rel x t c)|]. split.
    - apply good_prim; [reflexivity|intro; apply R_name|intro; exact I].
    - intros w row nm [_ A]. cbn [sql_means query_means]. symmetry. now apply (A rel x t c).
  Qed.
  Lemma f_paren : forall e, fine_gorm e -> fine_gorm (EParen e).
  Proof.
    intros e IH Hn n ps T H. cbn [neat] in Hn. cbn [tree_of] in T. injection T as <-. inversion H; subst; try noval. 
    match goal with K : Some _ = tree_of lo e |- _ => symmetry in K; destruct (IH Hn _ _ K ltac:(eassumption)) as (bts & b & L1 & G1 & S1) end.
    exists (TOpen :: bts ++ [TClose]), b. split; [now apply (L_paren nl quote _ Q)|]. split; [|exact S1]. apply good_prim; [reflexivity| |intro; exact I].
    intro rest. cbn [app]. rewrite <- app_assoc. apply R_paren. apply (g_or _ _ _ G1); [exact I|exact I|]. now apply R_or_end.
  Qed.
  Lemma f_call : forall f args, Forall fine_gorm args -> fine_gorm (ECall f args).
  Proof.
    intros f args IH Hn n ps T H. cbn [neat] in Hn. apply andb_prop in Hn as [F Hn]. apply streq_eq in F. subst f. destruct args as [|e [|]]; try discriminate.
    inversion_clear IH as [|? ? IH1 _]. cbn [tree_of map] in T. injection T as <-. inversion H as [| | | | | | | | | |args qs K]; subst; try noval.
    destruct args as [|m [|]]; try discriminate. match goal with K : map Some [_] = _ |- _ => cbn [map] in K; injection K as K; rename K into T end. symmetry in T.
    inversion K as [|? ? qa qb K1 K2]; subst. inversion K2; subst. rewrite app_nil_r in *. destruct (IH1 Hn _ _ T K1) as (bts & b & L1 & G1 & S1).
    exists (TWord #"date" :: TOpen :: bts ++ [TClose]), (QDate b). split; [now apply (L_date nl quote _ Q)|]. split.
    - apply good_prim; [reflexivity| |intro; reflexivity]. intro rest. cbn [app]. rewrite <- app_assoc. apply R_date. apply (g_or _ _ _ G1); [exact I|exact I|]. now apply R_or_end.
    - intros w row nm A. cbn [sql_means query_means]. f_equal. now apply S1.
  Qed.
  Lemma f_not : forall e, level e <= 4 -> fine_gorm e -> fine_gorm (ENot e).
  Proof.
    intros e LV IH Hn n ps T H. cbn [neat] in Hn. cbn [tree_of] in T. injection T as <-. inversion H; subst; try noval.
    match goal with K : Some _ = tree_of lo e |- _ => symmetry in K; destruct (IH Hn _ _ K ltac:(eassumption)) as (bts & b & L1 & G1 & S1) end.
    exists (TWord #"not" :: bts), (QNot b). split; [now apply (L_not nl quote _ Q)|]. split.
    - apply good_not; [cbn; lia| | |].
      + discriminate.
      + cbn. lia.
      + intros rest S. cbn [app]. apply R_not. apply (g_not _ _ _ G1); [lia|exact S].
    - intros w row nm A. cbn [sql_means query_means]. f_equal. now apply S1.
  Qed.
  Lemma f_pred : forall e o, fine_gorm e -> fine_gorm (EPred e o).
  Proof.
    intros e o IH Hn n ps T H. cbn [neat] in Hn. apply andb_prop in Hn as [Hn Ho]. apply andb_prop in Hn as [Hn Hp]. cbn [tree_of] in T. injection T as <-. inversion H; subst; try noval.
    match goal with K : Some _ = tree_of lo e |- _ => symmetry in K; destruct (IH Hn _ _ K ltac:(eassumption)) as (bts & b & L1 & G1 & S1) end.
    match goal with K : rend (mk_op _) _ |- _ => apply rend_op in K; subst end. destruct (read_pred _ (existsb_streq _ _ Ho)) as (bo & L2 & R2).
    exists (bts ++ bo), (QPred (op_sql lo o) b). split; [now apply (L_blank nl quote _ Q)|]. split.
    - apply (good_more _ bts b); [exact (g_prim _ _ _ G1 Hp)|exact (g_start _ _ _ G1 (prime_le _ Hp))|cbn; lia|]. intros rest S. apply R2.
    - intros w row nm A. cbn [sql_means query_means]. f_equal. now apply S1.
  Qed.
  Lemma f_cmp : forall l o r, fine_gorm l -> fine_gorm r -> fine_gorm (ECmp l o r).
  Proof.
    intros l o r IH1 IH2 Hn n ps T H. cbn [neat] in Hn. apply andb_prop in Hn as [Hn Ho]. apply andb_prop in Hn as [Hn Hr]. apply andb_prop in Hn as [Hn Hl]. apply andb_prop in Hn as [Hn1 Hn2].
    cbn [tree_of] in T. injection T as <-. inversion H; subst; try noval.
    match goal with K : Some _ = tree_of lo l |- _ => symmetry in K; destruct (IH1 Hn1 _ _ K ltac:(eassumption)) as (b1 & a1 & L1 & G1 & S1) end.
    match goal with K : Some _ = tree_of lo r |- _ => symmetry in K; destruct (IH2 Hn2 _ _ K ltac:(eassumption)) as (b2 & a2 & L2 & G2 & S2) end.
    match goal with K : rend (mk_op _) _ |- _ => apply rend_op in K; subst end. destruct (read_cmp _ (existsb_streq _ _ Ho)) as (bo & L3 & R3).
    exists (b1 ++ bo ++ b2), (QCmp (op_sql lo o) a1 a2). split; [apply (L_blank nl quote _ Q); [exact L1|]; now apply (L_blank nl quote _ Q)|]. split.
    - apply (good_more _ b1 a1); [exact (g_prim _ _ _ G1 Hl)|exact (g_start _ _ _ G1 (prime_le _ Hl))|cbn; lia|]. intros rest S. rewrite <- app_assoc. apply R3. now apply (g_prim _ _ _ G2).
    - intros w row nm A. cbn [sql_means query_means]. f_equal; [now apply S1|now apply S2].
  Qed.
  Lemma f_in : forall e o p ls, fine_gorm e -> fine_gorm (EIn e o p ls).
  Proof.
    intros e o p ls IH Hn n ps T H. cbn [neat] in Hn. apply andb_prop in Hn as [Hn Ho]. apply andb_prop in Hn as [Hn Hp]. cbn [tree_of] in T. injection T as <-. inversion H; subst; try noval.
    match goal with K : Some _ = tree_of lo e |- _ => symmetry in K; destruct (IH Hn _ _ K ltac:(eassumption)) as (b1 & a1 & L1 & G1 & S1) end.
    match goal with K : rend (mk_op _) _ |- _ => apply rend_op in K; subst end. destruct (read_in _ (existsb_streq _ _ Ho)) as (bo & L3 & R3).
    match goal with K : rend (mk_array _) _ |- _ => apply (rend_val (VArr p ls)) in K; subst end. cbn [val_value].
    exists (b1 ++ bo ++ [TVal (GArr (map lit_value ls))]), (QCmp (op_sql lo o) a1 (QVal (GArr (map lit_value ls)))).
    split; [apply (L_blank nl quote _ Q); [exact L1|]; apply (L_blank nl quote _ Q); [exact L3|apply (L_value nl quote _ Q)]|]. split.
    - apply (good_more _ b1 a1); [exact (g_prim _ _ _ G1 Hp)|exact (g_start _ _ _ G1 (prime_le _ Hp))|cbn; lia|]. intros rest S. rewrite <- app_assoc. apply R3. apply R_range_val.
    - intros w row nm A. cbn [sql_means query_means]. f_equal. now apply S1.
  Qed.
  Lemma f_between : forall e o b x y, fine_gorm e -> fine_gorm (EBetween e o b x y).
  Proof.
    intros e o b x y IH Hn n ps T H. cbn [neat] in Hn. apply andb_prop in Hn as [Hn Ho]. apply andb_prop in Hn as [Hn Hp]. cbn [tree_of] in T. injection T as <-. inversion H; subst; try noval.
    match goal with K : Some _ = tree_of lo e |- _ => symmetry in K; destruct (IH Hn _ _ K ltac:(eassumption)) as (b1 & a1 & L1 & G1 & S1) end.
    match goal with K : rend (mk_op _) _ |- _ => apply rend_op in K; subst end. destruct (read_between _ (existsb_streq _ _ Ho)) as (bo & L3 & R3).
    match goal with K : rend (val_node x) _ |- _ => apply rend_val in K; subst end. match goal with K : rend (val_node y) _ |- _ => apply rend_val in K; subst end.
    exists (b1 ++ bo ++ [TVal (val_value x)] ++ TWord #"and" :: [TVal (val_value y)]), (QBetween (streq (op_sql lo o) #"not between") a1 (QVal (val_value x)) (QVal (val_value y))). split.
    - apply (L_blank nl quote _ Q); [exact L1|]. apply (L_blank nl quote _ Q); [exact L3|]. apply (L_and nl quote _ Q); apply (L_value nl quote _ Q).
    - split.
      + apply (good_more _ b1 a1); [exact (g_prim _ _ _ G1 Hp)|exact (g_start _ _ _ G1 (prime_le _ Hp))|cbn; lia|]. intros rest S. rewrite <- app_assoc. apply (R3 _ _ _ (TVal (val_value y) :: rest)); [apply R_val|apply R_val].
      + intros w row nm A. cbn [sql_means query_means]. f_equal. now apply S1.
  Qed.
  Lemma logic_op : forall o, op_logic o -> op_sql lo o = if is_or o then #"or" else #"and".
  Proof.
    intros o H. assert (E : op_name lo o = if is_or o then #"or" else #"and").
    { rewrite <- norm_name by now apply edged_logic. destruct H as [H|[H|[->| ->]]]; try reflexivity; rewrite (norm_ci lo _ _ H); unfold is_or; unfold ci in H; rewrite H; [|reflexivity].
      destruct (streq_spec o #"||") as [->|]; [discriminate|reflexivity]. }
    unfold op_sql. rewrite E. now destruct (is_or o).
  Qed.
  Lemma f_logic : forall l o r, op_logic o -> level r <= 5 -> fine_gorm l -> fine_gorm r -> fine_gorm (ELogic l o r).
  Proof.
    intros l o r OP LV IH1 IH2 Hn n ps T H. cbn [neat] in Hn. apply andb_prop in Hn as [Hn Ho]. apply andb_prop in Hn as [Hn1 Hn2].
    cbn [tree_of] in T. injection T as <-. inversion H; subst; try noval.
    match goal with K : Some _ = tree_of lo l |- _ => symmetry in K; destruct (IH1 Hn1 _ _ K ltac:(eassumption)) as (b1 & a1 & L1 & G1 & S1) end.
    match goal with K : Some _ = tree_of lo r |- _ => symmetry in K; destruct (IH2 Hn2 _ _ K ltac:(eassumption)) as (b2 & a2 & L2 & G2 & S2) end.
    match goal with K : rend (mk_op _) _ |- _ => apply rend_op in K; subst end. rewrite (logic_op o OP) in *.
    destruct (is_or o) eqn:E.
    - exists (b1 ++ [TWord #"or"] ++ b2), (QOr a1 a2). split.
      + apply (L_blank nl quote _ Q); [exact L1|]. apply (L_blank nl quote _ Q); [|exact L2]. apply (L_word nl quote _ Q #"or"); [discriminate|reflexivity].
      + split; [|intros w row nm A; cbn [sql_means query_means]; rewrite E; f_equal; [now apply S1|now apply S2]]. constructor.
        * discriminate.
        * cbn. lia.
        * cbn. lia.
        * cbn [loose_or]. rewrite E. discriminate.
        * intros rest x S N K. rewrite <- !app_assoc. apply (g_or _ _ _ G1); [reflexivity|reflexivity|]. cbn [app]. apply (R_or_more a1 _ a2 rest); [|exact K].
          apply (g_and _ _ _ G2); [now apply loose_level|exact S|now apply R_and_end].
    - exists (b1 ++ [TWord #"and"] ++ b2), (QAnd a1 a2). split.
      + apply (L_blank nl quote _ Q); [exact L1|]. apply (L_blank nl quote _ Q); [|exact L2]. apply (L_word nl quote _ Q #"and"); [discriminate|reflexivity].
      + cbn [orb] in Ho. apply Bool.negb_true_iff in Ho.
        split; [|intros w row nm A; cbn [sql_means query_means]; rewrite E; f_equal; [now apply S1|now apply S2]].
        assert (AND : forall rest x, stops rest -> R (GAndMore (QAnd a1 a2)) rest x -> R GAnd ((b1 ++ [TWord #"and"] ++ b2) ++ rest) x).
        { intros rest x S K. rewrite <- !app_assoc. apply (g_and _ _ _ G1); [exact Ho|reflexivity|]. cbn [app]. apply (R_and_more a1 _ a2 rest); [|exact K].
          now apply (g_not _ _ _ G2). }
        constructor.
        * discriminate.
        * cbn. lia.
        * cbn. lia.
        * intros _. exact AND.
        * intros rest x S N K. apply (R_or _ (QAnd a1 a2) rest x); [|exact K]. apply AND; [exact S|]. now apply R_and_end.
  Qed.

  Lemma all_fine : forall e t, lay e t -> fine_gorm e.
  Proof.
    intros e t H. refine (lay_mind (fun e t _ => fine_gorm e) (fun es t _ => Forall fine_gorm es) _ _ _ _ _ _ _ _ _ _ _ _ _ _ _ _ _ _ e t H); clear e t H; intros.
    - apply f_val.
    - apply f_val.
    - apply f_name.
    - apply f_ref.
    - intro K. discriminate K.
    - apply f_call. constructor.
    - now apply f_call.
    - now apply f_call.
    - now apply f_paren.
    - now apply f_between.
    - now apply f_between.
    - now apply f_pred.
    - now apply f_in.
    - now apply f_cmp.
    - now apply f_not.
    - now apply f_logic.
    - now constructor.
    - now constructor.
  Qed.

  Lemma reads_pieces : forall q e n ps, reads q e -> neat lo e = true -> tree_of lo e = Some n -> rend n ps ->
    exists a, reads_marks nl (sql_text quote ps) (values ps) a /\ same e a.
  Proof.
    intros q e n ps (w1 & t & w2 & _ & _ & _ & Hl) Hn T H. destruct (all_fine e t Hl Hn n ps T H) as (bts & a & L1 & G1 & S1). exists a. split; [|exact S1].
    specialize (L1 [] [] [] I (TK_nil nl bind_marks eq_refl)). rewrite !app_nil_r in L1. destruct L1 as (f & ts & K1 & K2).
    assert (K : R GOr (bts ++ []) (a, [])) by (apply (g_or _ _ _ G1); [exact I|exact I|now apply R_or_end]). rewrite app_nil_r in K. destruct K as (g & K).
    exists (max f g), ts, bts. split; [apply (lex_fuel nl f); [lia|exact K1]|]. split; [exact K2|]. apply (rd_fuel g); [lia|exact K].
  Qed.
End SG.

Lemma neat_json_free : forall lo e, neat lo e = true -> json_free e = true.
Proof.
  intros lo. fix IH 1. intros [v|x|xs|xs|f args|e|e o b x y|e o|e o p ls|l o r|e|l o r] H; cbn [neat json_free] in *; try reflexivity; try discriminate.
  - apply andb_prop in H as [_ H]. destruct args as [|a [|]]; try discriminate. cbn [forallb]. now rewrite (IH _ H).
  - now apply IH.
  - apply andb_prop in H as [H _]. apply andb_prop in H as [H _]. now apply IH.
  - apply andb_prop in H as [H _]. apply andb_prop in H as [H _]. now apply IH.
  - apply andb_prop in H as [H _]. apply andb_prop in H as [H _]. now apply IH.
  - apply andb_prop in H as [H _]. apply andb_prop in H as [H _]. apply andb_prop in H as [H _]. apply andb_prop in H as [H1 H2]. now rewrite (IH _ H1), (IH _ H2).
  - now apply IH.
  - apply andb_prop in H as [H _]. apply andb_prop in H as [H1 H2]. now rewrite (IH _ H1), (IH _ H2).
Qed.

Section Wire.
  Variable fold_eq : list N -> list N -> bool.
  Variable quote : list N -> list N.
  Variable lo : N -> N.
  Variable nl : list N -> option (list N * list N).
  Lemma wire_sql : forall d q e d' sch, valid_runes q -> reads q e -> neat lo e = true -> schema_of d = Some sch -> quotes nl quote (fun c => c) (is_column fold_eq sch) ->
    wire_mini_query fold_eq quote lo d q = Some d' -> succeeded d d' ->
    exists t vs a, dWheres d' = dWheres d ++ [(t, vs)] /\ reads_marks nl t vs a /\
      forall w row nm, agrees (wV w) fold_eq sch row nm -> sql_means w row a = query_means w lo nm e.
  Proof.
    intros d q e d' sch Hq He Hn Hs HQ H HS. pose proof (neat_json_free lo e Hn) as Hj.
    assert (HP : exists n, parse lo q = Ok n).
    { destruct (parse lo q) as [n|er|] eqn:E; [eauto| |]; exfalso; unfold wire_mini_query in H; destruct q as [|c q].
      - discriminate (reads_not_blank [] e He Hq).
      - rewrite E in H. injection H as <-. unfold succeeded in HS. cbn in HS. now apply app_neq in HS.
      - discriminate (reads_not_blank [] e He Hq).
      - rewrite E in H. discriminate. }
    destruct HP as (p & HP). assert (Hf : fits e = true).
    { destruct (parse_ok_inv lo q _ Hq HP) as (e2 & H2 & Hf & _). now rewrite (reads_unique _ _ _ He H2). }
    pose proof (parse_spec lo q e Hq He Hf Hj) as HP'. destruct (tree_of lo e) as [n|] eqn:T.
    2:{ exfalso. clear - T Hj. destruct e; discriminate. }
    destruct (renders_complete fold_eq quote lo d q n d' Hq HP' H HS) as (sch' & ps & Hs' & K). rewrite Hs in Hs'. injection Hs' as <-.
    destruct (reads_pieces fold_eq lo nl quote sch HQ q e n ps He Hn T K) as (a & R1 & S1).
    pose proof (renders_sound fold_eq quote lo d sch q n ps Hq HP' Hs K) as E. rewrite H in E. apply some_inj in E. subst d'.
    exists (sql_text quote ps), (values ps), a. split; [reflexivity|]. now split.
  Qed.
End Wire.
