(** Proofs for C79: the queries of gormq in the WHERE clause of gorm, after SqlLoose. *)
From Verif Require Import Base Peg Node Vocab Tree Parse Syntax Blank ParseProofs NormProofs Unique ParserFacts ParserFacts2 ParserMain Build BuildProofs NodeFacts SafeInd
  Gorm GormSpec GormProofs GormFacts GormFacts2 GormFacts3 GormFacts4 TreeFacts SqlSpec SqlSpecDb SqlProofs SqlProofs2 SqlProofs3 SqlGorm SqlLoose
  GormSQL SqlSpecWhere SqlWhere.
Require Import Lia.
Strategy expand [parse_machine rule_trace].
Strategy 1000 [parse_fuel mrun tok_trace].

(** ** The queries *)
Section SG.
  Variable fold_eq : list N -> list N -> bool.
  Variable lo : N -> N.
  Variable nl : list N -> option (list N * list N).
  Variable quote : list N -> list N.
  Variable sch : schema.
  Variable d0 : list N.
  Hypothesis Q : quotes nl quote (fun c => c) (is_column fold_eq sch).
  Hypothesis U : unmarked quote (is_column fold_eq sch).
  Notation rend := (renders fold_eq sch).
  Notation XX := (X nl d0 quote).
  Definition LL (ps : list piece) (bts : list tok) : Prop := XX ps bts /\ no_numeral (sql_text quote ps) = true.
  Lemma N_column : forall c, is_column fold_eq sch c -> LL [PColumn c] [TName c].
  Proof.
    intros c H. split; [now apply (X_column nl d0 quote _ Q U)|]. replace (sql_text quote [PColumn c]) with (quote c) by (unfold sql_text; cbn; now rewrite app_nil_r). exact (proj2 (U c H)).
  Qed.
  Lemma N_value : forall v, simple_value v -> LL [PValue v] [TVal v].
  Proof. intros v H. split; [now apply (X_value nl d0 quote _ Q)|reflexivity]. Qed.
  Lemma N_paren : forall a ta, LL a ta -> LL (PText #"(" :: a ++ [PText #")"]) (TOpen :: ta ++ [TClose]).
  Proof. intros a ta [A _]. split; [now apply (X_paren nl d0 quote _ Q)|reflexivity]. Qed.
  Lemma N_date : forall a ta, LL a ta -> LL (PText #"date" :: PText #"(" :: a ++ [PText #")"]) (TWord #"date" :: TOpen :: ta ++ [TClose]).
  Proof. intros a ta [A _]. split; [now apply (X_date nl d0 quote _ Q)|reflexivity]. Qed.
  Lemma N_not : forall a ta, LL a ta -> LL (PText #"not " :: a) (TWord #"not" :: ta).
  Proof. intros a ta [A _]. split; [now apply (X_not nl d0 quote _ Q)|reflexivity]. Qed.
  Lemma N_blank0 : forall a ta b tb, LL a ta -> XA nl d0 quote false b tb -> LL (a ++ PText #" " :: b) (ta ++ tb).
  Proof. intros a ta b tb [A N] B. split; [now apply (X_blank0 nl d0 quote _ Q)|]. now rewrite text_app, no_numeral_app, N. Qed.
  Lemma N_blank : forall a ta b tb, LL a ta -> XX b tb -> LL (a ++ PText #" " :: b) (ta ++ tb).
  Proof. intros a ta b tb A B. apply N_blank0; [exact A|apply B]. Qed.
  Lemma lit_simple : forall l, simple_value (lit_value l).
  Proof. intros []; exact I. Qed.
  Lemma lits_simple : forall ls, Forall simple_value (map lit_value ls).
  Proof. induction ls; constructor; [apply lit_simple|assumption]. Qed.
  Lemma val_simple : forall v, scalar v = true -> simple_value (val_value v).
  Proof. intros [l|p ls] H; [apply lit_simple|discriminate]. Qed.

  (** operators *)
  Lemma x_cmp : forall s, In s cmp_ops -> exists bts, XX [PText s] bts /\
    forall al tr ar us, R GPrim tr (ar, us) -> R (GCondMore al) (bts ++ tr) (QCmp s al ar, us).
  Proof.
    intros s H. destruct (sym_or_word s H) as [I|[->| ->]].
    - exists [TSym s]. split; [now apply (X_sym nl d0 quote _ Q)|]. intros al tr ar us K. now apply R_sym.
    - exists [TWord #"like"]. split; [apply (X_word nl d0 quote _ Q #"like"); (discriminate || reflexivity)|]. intros al tr ar us K. now apply (R_like false).
    - exists [TWord #"not"; TWord #"like"]. split; [apply (X_two nl d0 quote _ Q #"not" #"like"); (discriminate || reflexivity)|]. intros al tr ar us K. now apply (R_like true).
  Qed.
  Lemma x_in : forall s, In s in_ops -> exists bts, XX [PText s] bts /\
    forall al tr ar us, R GRange tr (ar, us) -> R (GCondMore al) (bts ++ tr) (QCmp s al ar, us).
  Proof.
    intros s [<-|[<-|[]]].
    - exists [TWord #"in"]. split; [apply (X_word nl d0 quote _ Q #"in"); (discriminate || reflexivity)|]. intros al tr ar us K. now apply (R_in false).
    - exists [TWord #"not"; TWord #"in"]. split; [apply (X_two nl d0 quote _ Q #"not" #"in"); (discriminate || reflexivity)|]. intros al tr ar us K. now apply (R_in true).
  Qed.
  Lemma x_between : forall s, In s between_ops -> exists bts, XX [PText s] bts /\
    forall al tr ar us br vs, R GPrim tr (ar, TWord #"and" :: us) -> R GPrim us (br, vs) -> R (GCondMore al) (bts ++ tr) (QBetween (streq s #"not between") al ar br, vs).
  Proof.
    intros s [<-|[<-|[]]].
    - exists [TWord #"between"]. split; [apply (X_word nl d0 quote _ Q #"between"); (discriminate || reflexivity)|]. intros al tr ar us br vs K1 K2. now apply (R_between false al tr ar us).
    - exists [TWord #"not"; TWord #"between"]. split; [apply (X_two nl d0 quote _ Q #"not" #"between"); (discriminate || reflexivity)|]. intros al tr ar us br vs K1 K2. now apply (R_between true al tr ar us).
  Qed.
  Lemma x_pred : forall s, In s pred_ops -> exists bts, XX [PText s] bts /\ forall al us, R (GCondMore al) (bts ++ us) (QPred s al, us).
  Proof.
    intros s H. unfold pred_ops in H. cbn [In] in H. decompose [or] H; subst; try contradiction.
    - exists [TWord #"is"; TWord #"null"]. split; [apply (X_two nl d0 quote _ Q #"is" #"null"); (discriminate || reflexivity)|]. intros. apply (R_is false #"null"). cbn. auto.
    - exists [TWord #"is"; TWord #"not"; TWord #"null"]. split; [apply (X_three nl d0 quote _ Q #"is" #"not" #"null"); (discriminate || reflexivity)|]. intros. apply (R_is true #"null"). cbn. auto.
    - exists [TWord #"is"; TWord #"true"]. split; [apply (X_two nl d0 quote _ Q #"is" #"true"); (discriminate || reflexivity)|]. intros. apply (R_is false #"true"). cbn. auto.
    - exists [TWord #"is"; TWord #"not"; TWord #"true"]. split; [apply (X_three nl d0 quote _ Q #"is" #"not" #"true"); (discriminate || reflexivity)|]. intros. apply (R_is true #"true"). cbn. auto.
    - exists [TWord #"is"; TWord #"false"]. split; [apply (X_two nl d0 quote _ Q #"is" #"false"); (discriminate || reflexivity)|]. intros. apply (R_is false #"false"). cbn. auto.
    - exists [TWord #"is"; TWord #"not"; TWord #"false"]. split; [apply (X_three nl d0 quote _ Q #"is" #"not" #"false"); (discriminate || reflexivity)|]. intros. apply (R_is true #"false"). cbn. auto.
  Qed.

  Ltac noval := match goal with K : go_value _ _ |- _ => apply go_value_type in K; discriminate K end.

  Definition same3 (e : expr) (d : option sql) (a : sql) : Prop := forall w row nm, lists w -> agrees (wV w) fold_eq sch row nm ->
    option_map (sql_means w row) d = fst (db_parts w lo nm e) /\ sql_means w row a = snd (db_parts w lo nm e).
  Definition sameW3 (e : expr) (a : sql) : Prop := forall w row nm, lists w -> agrees (wV w) fold_eq sch row nm -> sql_means w row a = db_means w lo nm e.
  Definition fine3 (e : expr) : Prop := simple lo e = true -> listed e = true -> forall n ps, tree_of lo e = Some n -> rend n ps -> exists bts d a, LL ps bts /\ good2 e bts d a /\ same3 e d a.
  Lemma same_whole : forall e d a, same3 e d a -> sameW3 e (sor d a).
  Proof.
    intros e d a H w row nm W A. destruct (H w row nm W A) as [H1 H2]. unfold db_means, whole. destruct (db_parts w lo nm e) as [d' a']. cbn [fst snd] in H1, H2. subst.
    destruct d as [d|]; reflexivity.
  Qed.
  Lemma fine_one : forall e ps, loose_or e = false -> (forall w nm, fst (db_parts w lo nm e) = None) ->
    (exists bts a, LL ps bts /\ good e bts a /\ sameW3 e a) -> exists bts d a, LL ps bts /\ good2 e bts d a /\ same3 e d a.
  Proof.
    intros e ps H1 H2 (bts & a & L1 & G1 & S1). exists bts, None, a. split; [exact L1|]. split; [now apply good2_one|]. intros w row nm W A. specialize (S1 w row nm W A). specialize (H2 w nm). unfold db_means, whole in S1.
    destruct (db_parts w lo nm e) as [d' a']. cbn [fst snd] in *. subst d'. now split.
  Qed.
  Lemma use_one : forall e, fine3 e -> loose_or e = false -> simple lo e = true -> listed e = true -> forall n ps, tree_of lo e = Some n -> rend n ps -> exists bts a, LL ps bts /\ good e bts a /\ sameW3 e a.
  Proof.
    intros e H H1 H2 H3 n ps T K. destruct (H H2 H3 n ps T K) as (bts & d & a & L1 & [G1 _] & S1). destruct (G1 H1) as [-> G]. exists bts, a. split; [exact L1|]. split; [exact G|]. exact (same_whole e None a S1).
  Qed.

  Lemma f_val : forall v, fine3 (EVal v).
  Proof.
    intros v _ Hd n ps [= <-] H. apply (rend_val fold_eq sch) in H. subst. apply fine_one; [reflexivity|reflexivity|]. exists [TVal (val_value v)], (QVal (val_value v)). split; [apply N_value; now apply val_simple|]. split.
    - apply good_prim; [reflexivity|intro; apply R_val|intro; exact I].
    - intros w row nm W _. reflexivity.
  Qed.
  Lemma f_name : forall x, fine3 (EName x).
  Proof.
    intros x _ _ n ps [= <-] H. inversion H; subst; try noval. match goal with K : resolves _ _ _ _ |- _ => rename K into S end.
    apply fine_one; [reflexivity|reflexivity|]. exists [TName c], (QCol c). split; [apply N_column; exists (mk_ident x); now constructor|]. split.
    - apply good_prim; [reflexivity|intro; apply R_name|intro; exact I].
    - intros w row nm W [A _]. cbn [sql_means db_means db_parts whole fst snd]. symmetry. now apply A.
  Qed.
  Lemma f_ref : forall xs, fine3 (ERef xs).
  Proof.
    intros xs _ _ n ps [= <-] H. inversion H; subst; try noval. match goal with K : resolves _ _ _ _ |- _ => rename K into S end. match goal with K : assoc _ _ = _ |- _ => rename K into S2 end.
    apply fine_one; [reflexivity|reflexivity|]. exists [TName (rel ++ #"." ++ c)], (QCol (rel ++ #"." ++ c)). split; [apply N_column; exists (mk_reference [rel; x]); now apply (col_ref fold_eq sch _ rel x t c)|]. split.
    - apply good_prim; [reflexivity|intro; apply R_name|intro; exact I].
    - intros w row nm W [_ A]. cbn [sql_means db_means db_parts whole fst snd]. symmetry. now apply (A rel x t c).
  Qed.
  Lemma f_paren : forall e, fine3 e -> fine3 (EParen e).
  Proof.
    intros e IH Hn Hd n ps T H. cbn [simple] in Hn. cbn [listed] in Hd. cbn [tree_of] in T. injection T as <-. inversion H; subst; try noval. 
    match goal with K : Some _ = tree_of lo e |- _ => symmetry in K; destruct (IH Hn Hd _ _ K ltac:(eassumption)) as (bts & d & b & L1 & G1 & S0); pose proof (same_whole _ _ _ S0) as S1 end.
    apply fine_one; [reflexivity|reflexivity|]. exists (TOpen :: bts ++ [TClose]), (sor d b). split; [now apply N_paren|]. split; [|exact S1]. apply good_prim; [reflexivity| |intro; exact I].
    intro rest. cbn [app]. rewrite <- app_assoc. apply R_paren. apply (good2_or _ _ _ _ G1); [exact I|exact I|]. destruct d; now apply R_or_end.
  Qed.
  Lemma f_call : forall f args, Forall fine3 args -> fine3 (ECall f args).
  Proof.
    intros f args IH Hn Hd n ps T H. cbn [simple] in Hn. cbn [listed] in Hd. apply andb_prop in Hn as [F Hn]. apply streq_eq in F. subst f. destruct args as [|e [|]]; try discriminate.
    inversion_clear IH as [|? ? IH1 _]. cbn [forallb] in Hd. apply andb_prop in Hd as [Hd _]. cbn [tree_of map] in T. injection T as <-. inversion H as [| | | | | | | | | |args qs K]; subst; try noval.
    destruct args as [|m [|]]; try discriminate. match goal with K : map Some [_] = _ |- _ => cbn [map] in K; injection K as K; rename K into T end. symmetry in T.
    inversion K as [|? ? qa qb K1 K2]; subst. inversion K2; subst. rewrite app_nil_r in *. destruct (IH1 Hn Hd _ _ T K1) as (bts & d & b & L1 & G1 & S0); pose proof (same_whole _ _ _ S0) as S1.
    apply fine_one; [reflexivity|reflexivity|]. exists (TWord #"date" :: TOpen :: bts ++ [TClose]), (QDate (sor d b)). split; [now apply N_date|]. split.
    - apply good_prim; [reflexivity| |intro; reflexivity]. intro rest. cbn [app]. rewrite <- app_assoc. apply R_date. apply (good2_or _ _ _ _ G1); [exact I|exact I|]. destruct d; now apply R_or_end.
    - intros w row nm W A. cbn [sql_means db_means db_parts whole fst snd]. f_equal. now apply S1.
  Qed.
  Lemma f_not : forall e, level e <= 4 -> fine3 e -> fine3 (ENot e).
  Proof.
    intros e LV IH Hn Hd n ps T H. cbn [simple] in Hn. cbn [listed] in Hd. cbn [tree_of] in T. injection T as <-. inversion H; subst; try noval.
    match goal with K : Some _ = tree_of lo e |- _ => symmetry in K; destruct (use_one e IH (loose_level e ltac:(lia)) Hn Hd _ _ K ltac:(eassumption)) as (bts & b & L1 & G1 & S1) end.
    apply fine_one; [reflexivity|reflexivity|]. exists (TWord #"not" :: bts), (QNot b). split; [now apply N_not|]. split.
    - apply good_not; [cbn; lia| | |].
      + discriminate.
      + cbn. lia.
      + intros rest S. cbn [app]. apply R_not. apply (g_not _ _ _ G1); [lia|exact S].
    - intros w row nm W A. cbn [sql_means db_means db_parts whole fst snd]. f_equal. now apply S1.
  Qed.
  Lemma f_pred : forall e o, fine3 e -> fine3 (EPred e o).
  Proof.
    intros e o IH Hn Hd n ps T H. cbn [simple] in Hn. cbn [listed] in Hd. apply andb_prop in Hn as [Hn Ho]. apply andb_prop in Hn as [Hn Hp]. cbn [tree_of] in T. injection T as <-. inversion H; subst; try noval.
    match goal with K : Some _ = tree_of lo e |- _ => symmetry in K; destruct (use_one e IH (prime_loose e Hp) Hn Hd _ _ K ltac:(eassumption)) as (bts & b & L1 & G1 & S1) end.
    match goal with K : rend (mk_op _) _ |- _ => apply (rend_op fold_eq lo sch) in K; subst end. destruct (x_pred _ (existsb_streq _ _ Ho)) as (bo & L2 & R2).
    apply fine_one; [reflexivity|reflexivity|]. exists (bts ++ bo), (QPred (op_sql lo o) b). split; [now apply N_blank|]. split.
    - apply (good_more _ bts b); [exact (g_prim _ _ _ G1 Hp)|exact (g_start _ _ _ G1 (prime_le _ Hp))|cbn; lia|]. intros rest S. apply R2.
    - intros w row nm W A. cbn [sql_means db_means db_parts whole fst snd]. f_equal. now apply S1.
  Qed.
  Lemma f_cmp : forall l o r, fine3 l -> fine3 r -> fine3 (ECmp l o r).
  Proof.
    intros l o r IH1 IH2 Hn Hd n ps T H. cbn [simple] in Hn. cbn [listed] in Hd. apply andb_prop in Hn as [Hn Ho]. apply andb_prop in Hn as [Hn Hr]. apply andb_prop in Hn as [Hn Hl]. apply andb_prop in Hn as [Hn1 Hn2]. apply andb_prop in Hd as [Hd1 Hd2].
    cbn [tree_of] in T. injection T as <-. inversion H; subst; try noval.
    match goal with K : Some _ = tree_of lo l |- _ => symmetry in K; destruct (use_one l IH1 (prime_loose l Hl) Hn1 Hd1 _ _ K ltac:(eassumption)) as (b1 & a1 & L1 & G1 & S1) end.
    match goal with K : Some _ = tree_of lo r |- _ => symmetry in K; destruct (use_one r IH2 (prime_loose r Hr) Hn2 Hd2 _ _ K ltac:(eassumption)) as (b2 & a2 & L2 & G2 & S2) end.
    match goal with K : rend (mk_op _) _ |- _ => apply (rend_op fold_eq lo sch) in K; subst end. destruct (x_cmp _ (existsb_streq _ _ Ho)) as (bo & L3 & R3).
    apply fine_one; [reflexivity|reflexivity|]. exists (b1 ++ bo ++ b2), (QCmp (op_sql lo o) a1 a2). split; [apply N_blank; [exact L1|]; apply (X_blank nl d0 quote _ Q); [exact L3|exact (proj1 L2)]|]. split.
    - apply (good_more _ b1 a1); [exact (g_prim _ _ _ G1 Hl)|exact (g_start _ _ _ G1 (prime_le _ Hl))|cbn; lia|]. intros rest S. rewrite <- app_assoc. apply R3. now apply (g_prim _ _ _ G2).
    - intros w row nm W A. cbn [sql_means db_means db_parts whole fst snd]. f_equal; [now apply S1|now apply S2].
  Qed.
  Lemma f_in : forall e o p ls, fine3 e -> fine3 (EIn e o p ls).
  Proof.
    intros e o p ls IH Hn Hd n ps T H. cbn [simple] in Hn. cbn [listed] in Hd. apply andb_prop in Hd as [Hd Hl]. assert (NE : map lit_value ls <> []) by (destruct ls; discriminate). apply andb_prop in Hn as [Hn Ho]. apply andb_prop in Hn as [Hn Hp]. cbn [tree_of] in T. injection T as <-. inversion H; subst; try noval.
    match goal with K : Some _ = tree_of lo e |- _ => symmetry in K; destruct (use_one e IH (prime_loose e Hp) Hn Hd _ _ K ltac:(eassumption)) as (b1 & a1 & L1 & G1 & S1) end.
    match goal with K : rend (mk_op _) _ |- _ => apply (rend_op fold_eq lo sch) in K; subst end. destruct (x_in _ (existsb_streq _ _ Ho)) as (bo & L3 & R3).
    match goal with K : rend (mk_array _) _ |- _ => apply (rend_val fold_eq sch (VArr p ls)) in K; subst end. cbn [val_value].
    apply fine_one; [reflexivity|reflexivity|]. exists (b1 ++ bo ++ ltoks (map lit_value ls)), (QCmp (op_sql lo o) a1 (QList (map QVal (map lit_value ls)))).
    split; [apply N_blank; [exact L1|]; apply (X_blank0 nl d0 quote _ Q); [exact L3|apply (X_array nl d0 quote _ Q); [exact NE|apply lits_simple]]|]. split.
    - apply (good_more _ b1 a1); [exact (g_prim _ _ _ G1 Hp)|exact (g_start _ _ _ G1 (prime_le _ Hp))|cbn; lia|]. intros rest S. rewrite <- app_assoc. apply R3. now apply R_ltoks.
    - intros w row nm W A. cbn [sql_means db_means db_parts whole fst snd]. f_equal; [now apply S1|]. rewrite W. cbn [sql_means]. f_equal. rewrite map_map. now apply map_ext.
  Qed.
  Lemma f_between : forall e o b x y, fine3 e -> fine3 (EBetween e o b x y).
  Proof.
    intros e o b x y IH Hn Hd n ps T H. cbn [simple] in Hn. cbn [listed] in Hd. apply andb_prop in Hd as [Hd Hy]. apply andb_prop in Hd as [Hd Hx]. apply andb_prop in Hn as [Hn Ho]. apply andb_prop in Hn as [Hn Hp]. cbn [tree_of] in T. injection T as <-. inversion H; subst; try noval.
    match goal with K : Some _ = tree_of lo e |- _ => symmetry in K; destruct (use_one e IH (prime_loose e Hp) Hn Hd _ _ K ltac:(eassumption)) as (b1 & a1 & L1 & G1 & S1) end.
    match goal with K : rend (mk_op _) _ |- _ => apply (rend_op fold_eq lo sch) in K; subst end. destruct (x_between _ (existsb_streq _ _ Ho)) as (bo & L3 & R3).
    match goal with K : rend (val_node x) _ |- _ => apply (rend_val fold_eq sch) in K; subst end. match goal with K : rend (val_node y) _ |- _ => apply (rend_val fold_eq sch) in K; subst end.
    apply fine_one; [reflexivity|reflexivity|]. exists (b1 ++ bo ++ [TVal (val_value x)] ++ TWord #"and" :: [TVal (val_value y)]), (QBetween (streq (op_sql lo o) #"not between") a1 (QVal (val_value x)) (QVal (val_value y))). split.
    - apply N_blank; [exact L1|]. apply (X_blank nl d0 quote _ Q); [exact L3|]. apply (X_and nl d0 quote _ Q); apply (X_value nl d0 quote _ Q); now apply val_simple.
    - split.
      + apply (good_more _ b1 a1); [exact (g_prim _ _ _ G1 Hp)|exact (g_start _ _ _ G1 (prime_le _ Hp))|cbn; lia|]. intros rest S. rewrite <- app_assoc. apply (R3 _ _ _ (TVal (val_value y) :: rest)); [apply R_val|apply R_val].
      + intros w row nm W A. cbn [sql_means db_means db_parts whole fst snd]. f_equal. now apply S1.
  Qed.
  Lemma f_logic : forall l o r, op_logic o -> level r <= 5 -> fine3 l -> fine3 r -> fine3 (ELogic l o r).
  Proof.
    intros l o r OP LV IH1 IH2 Hn Hd n ps T H. cbn [simple] in Hn. cbn [listed] in Hd. apply andb_prop in Hn as [Hn1 Hn2]. apply andb_prop in Hd as [Hd1 Hd2].
    cbn [tree_of] in T. injection T as <-. inversion H; subst; try noval.
    match goal with K : Some _ = tree_of lo l |- _ => symmetry in K; destruct (IH1 Hn1 Hd1 _ _ K ltac:(eassumption)) as (b1 & d1 & a1 & L1 & G1 & S1) end.
    match goal with K : Some _ = tree_of lo r |- _ => symmetry in K; destruct (use_one r IH2 (loose_level r LV) Hn2 Hd2 _ _ K ltac:(eassumption)) as (b2 & a2 & L2 & G2 & S2) end.
    match goal with K : rend (mk_op _) _ |- _ => apply (rend_op fold_eq lo sch) in K; subst end. rewrite (logic_op lo o OP) in *.
    destruct (is_or o) eqn:E.
    - exists (b1 ++ [TWord #"or"] ++ b2), (Some (sor d1 a1)), a2. split.
      + apply N_blank; [exact L1|]. apply (X_blank nl d0 quote _ Q); [|exact (proj1 L2)]. apply (X_word nl d0 quote _ Q #"or"); [discriminate|reflexivity|reflexivity].
      + split.
        * split; [cbn [loose_or]; rewrite E; discriminate|]. intros rest y us x S K1 K2. rewrite <- !app_assoc. destruct G1 as [_ G1].
          apply (G1 _ a1 (TWord #"or" :: b2 ++ rest)); [reflexivity|now apply R_and_end|]. apply (R_or_more _ _ y us); [|exact K2]. apply (g_and _ _ _ G2); [now apply loose_level|exact S|exact K1].
        * intros w row nm W A. cbn [db_parts]. rewrite E. cbn [fst snd option_map]. split; [f_equal; now apply (same_whole l)|now apply S2].
    - exists (b1 ++ [TWord #"and"] ++ b2), d1, (QAnd a1 a2). split.
      + apply N_blank; [exact L1|]. apply (X_blank nl d0 quote _ Q); [|exact (proj1 L2)]. apply (X_word nl d0 quote _ Q #"and"); [discriminate|reflexivity|reflexivity].
      + split.
        * split.
          -- cbn [loose_or]. rewrite E. cbn [orb]. intro LO. destruct G1 as [G1 _]. destruct (G1 LO) as [-> G]. split; [reflexivity|].
             assert (AND : forall rest x, stops rest -> R (GAndMore (QAnd a1 a2)) rest x -> R GAnd ((b1 ++ [TWord #"and"] ++ b2) ++ rest) x).
             { intros rest x S K. rewrite <- !app_assoc. apply (g_and _ _ _ G); [exact LO|reflexivity|]. cbn [app]. apply (R_and_more a1 _ a2 rest); [|exact K].
               now apply (g_not _ _ _ G2). }
             constructor.
             ++ discriminate.
             ++ cbn. lia.
             ++ cbn. lia.
             ++ intros _. exact AND.
             ++ intros rest x S N K. apply (R_or _ (QAnd a1 a2) rest x); [|exact K]. apply AND; [exact S|]. now apply R_and_end.
          -- intros rest y us x S K1 K2. rewrite <- !app_assoc. destruct G1 as [_ G1]. apply (G1 _ y us); [reflexivity| |exact K2]. cbn [app]. apply (R_and_more a1 _ a2 rest); [|exact K1]. now apply (g_not _ _ _ G2).
        * intros w row nm W A. cbn [db_parts]. rewrite E. cbn [fst snd option_map]. destruct (S1 w row nm W A) as [X1 X2]. split; [exact X1|]. cbn [sql_means]. f_equal; [exact X2|now apply S2].
  Qed.

  Lemma all_fine3 : forall e t, lay e t -> fine3 e.
  Proof.
    intros e t H. refine (lay_mind (fun e t _ => fine3 e) (fun es t _ => Forall fine3 es) _ _ _ _ _ _ _ _ _ _ _ _ _ _ _ _ _ _ e t H); clear e t H; intros.
    - apply f_val.
    - apply f_val.
    - apply f_name.
    - apply f_ref.
    - intro K. discriminate K.
    - apply f_call. constructor.
    - now apply f_call.
    - now apply f_call.
    - now apply f_paren.
    - now apply f_between.
    - now apply f_between.
    - now apply f_pred.
    - now apply f_in.
    - now apply f_cmp.
    - now apply f_not.
    - now apply f_logic.
    - now constructor.
    - now constructor.
  Qed.

End SG.
