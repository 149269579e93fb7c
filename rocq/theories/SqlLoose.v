(** Proofs for C76: the conditions of gormq as the database groups them. *)
From Verif Require Import Base Peg Node Vocab Tree Parse Syntax Blank ParseProofs NormProofs Unique ParserFacts ParserFacts2 ParserMain Build BuildProofs NodeFacts SafeInd
  Gorm GormSpec GormProofs GormFacts GormFacts2 GormFacts3 GormFacts4 TreeFacts SqlSpec SqlSpecDb SqlProofs SqlProofs2 SqlGorm.
Require Import Lia.
Strategy expand [parse_machine rule_trace].
Strategy 1000 [parse_fuel mrun tok_trace].

Definition sor (d : option sql) (a : sql) : sql := match d with None => a | Some d => QOr d a end.
(** Tokens read as the parts [d] and [a]; without "or" outside of parentheses
    there is one part. *)
Definition good2 (e : expr) (bts : list tok) (d : option sql) (a : sql) : Prop :=
  (loose_or e = false -> d = None /\ good e bts a) /\
  forall rest b us r, stops rest -> R (GAndMore a) rest (b, us) -> R (GOrMore (sor d b)) us r -> R GOr (bts ++ rest) r.
Lemma good2_one : forall e bts a, loose_or e = false -> good e bts a -> good2 e bts None a.
Proof.
  intros e bts a L1 G. split; [now split|]. intros rest b us r S K1 K2. apply (R_or _ b us r); [|exact K2]. now apply (g_and _ _ _ G).
Qed.
Lemma good2_or : forall e bts d a, good2 e bts d a -> forall rest r, stops rest -> no_word #"and" rest -> R (GOrMore (sor d a)) rest r -> R GOr (bts ++ rest) r.
Proof. intros e bts d a [_ G] rest r S N K. apply (G rest a rest r S); [now apply R_and_end|exact K]. Qed.
Lemma prime_loose : forall e, prime e = true -> loose_or e = false.
Proof. intros e H. apply loose_level. apply prime_level in H. lia. Qed.

Section SG.
  Variable fold_eq : list N -> list N -> bool.
  Variable lo : N -> N.
  Variable nl : list N -> option (list N * list N).
  Variable quote : list N -> list N.
  Variable sch : schema.
  Hypothesis Q : quotes nl quote (fun c => c) (is_column fold_eq sch).
  Notation rend := (renders fold_eq sch).
  Notation LL := (L nl quote).
  Ltac noval := match goal with K : go_value _ _ |- _ => apply go_value_type in K; discriminate K end.

  Definition same2 (e : expr) (d : option sql) (a : sql) : Prop := forall w row nm, agrees (wV w) fold_eq sch row nm ->
    option_map (sql_means w row) d = fst (db_parts w lo nm e) /\ sql_means w row a = snd (db_parts w lo nm e).
  Definition sameW (e : expr) (a : sql) : Prop := forall w row nm, agrees (wV w) fold_eq sch row nm -> sql_means w row a = db_means w lo nm e.
  Definition fine2 (e : expr) : Prop := simple lo e = true -> forall n ps, tree_of lo e = Some n -> rend n ps -> exists bts d a, LL ps bts /\ good2 e bts d a /\ same2 e d a.
  Lemma same_whole : forall e d a, same2 e d a -> sameW e (sor d a).
  Proof.
    intros e d a H w row nm A. destruct (H w row nm A) as [H1 H2]. unfold db_means, whole. destruct (db_parts w lo nm e) as [d' a']. cbn [fst snd] in H1, H2. subst.
    destruct d as [d|]; reflexivity.
  Qed.
  Lemma fine_one : forall e ps, loose_or e = false -> (forall w nm, fst (db_parts w lo nm e) = None) ->
    (exists bts a, LL ps bts /\ good e bts a /\ sameW e a) -> exists bts d a, LL ps bts /\ good2 e bts d a /\ same2 e d a.
  Proof.
    intros e ps H1 H2 (bts & a & L1 & G1 & S1). exists bts, None, a. split; [exact L1|]. split; [now apply good2_one|]. intros w row nm A. specialize (S1 w row nm A). specialize (H2 w nm). unfold db_means, whole in S1.
    destruct (db_parts w lo nm e) as [d' a']. cbn [fst snd] in *. subst d'. now split.
  Qed.
  Lemma use_one : forall e, fine2 e -> loose_or e = false -> simple lo e = true -> forall n ps, tree_of lo e = Some n -> rend n ps -> exists bts a, LL ps bts /\ good e bts a /\ sameW e a.
  Proof.
    intros e H H1 H2 n ps T K. destruct (H H2 n ps T K) as (bts & d & a & L1 & [G1 _] & S1). destruct (G1 H1) as [-> G]. exists bts, a. split; [exact L1|]. split; [exact G|]. exact (same_whole e None a S1).
  Qed.

  Lemma f_val : forall v, fine2 (EVal v).
  Proof.
    intros v _ n ps [= <-] H. apply (rend_val fold_eq sch) in H. subst. apply fine_one; [reflexivity|reflexivity|]. exists [TVal (val_value v)], (QVal (val_value v)). split; [apply (L_value nl quote _ Q)|]. split.
    - apply good_prim; [reflexivity|intro; apply R_val|intro; exact I].
    - intros w row nm _. reflexivity.
  Qed.
  Lemma f_name : forall x, fine2 (EName x).
  Proof.
    intros x _ n ps [= <-] H. inversion H; subst; try noval. match goal with K : resolves _ _ _ _ |- _ => rename K into S end.
    apply fine_one; [reflexivity|reflexivity|]. exists [TName c], (QCol c). split; [apply (L_column nl quote _ Q); exists (mk_ident x); now constructor|]. split.
    - apply good_prim; [reflexivity|intro; apply R_name|intro; exact I].
    - intros w row nm [A _]. cbn [sql_means db_means db_parts whole fst snd]. symmetry. now apply A.
  Qed.
  Lemma f_ref : forall xs, fine2 (ERef xs).
  Proof.
    intros xs _ n ps [= <-] H. inversion H; subst; try noval. match goal with K : resolves _ _ _ _ |- _ => rename K into S end. match goal with K : assoc _ _ = _ |- _ => rename K into S2 end.
    apply fine_one; [reflexivity|reflexivity|]. exists [TName (rel ++ #"." ++ c)], (QCol (rel ++ #"." ++ c)). split; [apply (L_column nl quote _ Q); exists (mk_reference [rel; x]); now apply (col_ref fold_eq sch _ rel x t c)|]. split.
    - apply good_prim; [reflexivity|intro; apply R_name|intro; exact I].
    - intros w row nm [_ A]. cbn [sql_means db_means db_parts whole fst snd]. symmetry. now apply (A rel x t c).
  Qed.
  Lemma f_paren : forall e, fine2 e -> fine2 (EParen e).
  Proof.
    intros e IH Hn n ps T H. cbn [simple] in Hn. cbn [tree_of] in T. injection T as <-. inversion H; subst; try noval. 
    match goal with K : Some _ = tree_of lo e |- _ => symmetry in K; destruct (IH Hn _ _ K ltac:(eassumption)) as (bts & d & b & L1 & G1 & S0); pose proof (same_whole _ _ _ S0) as S1 end.
    apply fine_one; [reflexivity|reflexivity|]. exists (TOpen :: bts ++ [TClose]), (sor d b). split; [now apply (L_paren nl quote _ Q)|]. split; [|exact S1]. apply good_prim; [reflexivity| |intro; exact I].
    intro rest. cbn [app]. rewrite <- app_assoc. apply R_paren. apply (good2_or _ _ _ _ G1); [exact I|exact I|]. destruct d; now apply R_or_end.
  Qed.
  Lemma f_call : forall f args, Forall fine2 args -> fine2 (ECall f args).
  Proof.
    intros f args IH Hn n ps T H. cbn [simple] in Hn. apply andb_prop in Hn as [F Hn]. apply streq_eq in F. subst f. destruct args as [|e [|]]; try discriminate.
    inversion_clear IH as [|? ? IH1 _]. cbn [tree_of map] in T. injection T as <-. inversion H as [| | | | | | | | | |args qs K]; subst; try noval.
    destruct args as [|m [|]]; try discriminate. match goal with K : map Some [_] = _ |- _ => cbn [map] in K; injection K as K; rename K into T end. symmetry in T.
    inversion K as [|? ? qa qb K1 K2]; subst. inversion K2; subst. rewrite app_nil_r in *. destruct (IH1 Hn _ _ T K1) as (bts & d & b & L1 & G1 & S0); pose proof (same_whole _ _ _ S0) as S1.
    apply fine_one; [reflexivity|reflexivity|]. exists (TWord #"date" :: TOpen :: bts ++ [TClose]), (QDate (sor d b)). split; [now apply (L_date nl quote _ Q)|]. split.
    - apply good_prim; [reflexivity| |intro; reflexivity]. intro rest. cbn [app]. rewrite <- app_assoc. apply R_date. apply (good2_or _ _ _ _ G1); [exact I|exact I|]. destruct d; now apply R_or_end.
    - intros w row nm A. cbn [sql_means db_means db_parts whole fst snd]. f_equal. now apply S1.
  Qed.
  Lemma f_not : forall e, level e <= 4 -> fine2 e -> fine2 (ENot e).
  Proof.
    intros e LV IH Hn n ps T H. cbn [simple] in Hn. cbn [tree_of] in T. injection T as <-. inversion H; subst; try noval.
    match goal with K : Some _ = tree_of lo e |- _ => symmetry in K; destruct (use_one e IH (loose_level e ltac:(lia)) Hn _ _ K ltac:(eassumption)) as (bts & b & L1 & G1 & S1) end.
    apply fine_one; [reflexivity|reflexivity|]. exists (TWord #"not" :: bts), (QNot b). split; [now apply (L_not nl quote _ Q)|]. split.
    - apply good_not; [cbn; lia| | |].
      + discriminate.
      + cbn. lia.
      + intros rest S. cbn [app]. apply R_not. apply (g_not _ _ _ G1); [lia|exact S].
    - intros w row nm A. cbn [sql_means db_means db_parts whole fst snd]. f_equal. now apply S1.
  Qed.
  Lemma f_pred : forall e o, fine2 e -> fine2 (EPred e o).
  Proof.
    intros e o IH Hn n ps T H. cbn [simple] in Hn. apply andb_prop in Hn as [Hn Ho]. apply andb_prop in Hn as [Hn Hp]. cbn [tree_of] in T. injection T as <-. inversion H; subst; try noval.
    match goal with K : Some _ = tree_of lo e |- _ => symmetry in K; destruct (use_one e IH (prime_loose e Hp) Hn _ _ K ltac:(eassumption)) as (bts & b & L1 & G1 & S1) end.
    match goal with K : rend (mk_op _) _ |- _ => apply (rend_op fold_eq lo sch) in K; subst end. destruct (read_pred fold_eq nl quote sch Q _ (existsb_streq _ _ Ho)) as (bo & L2 & R2).
    apply fine_one; [reflexivity|reflexivity|]. exists (bts ++ bo), (QPred (op_sql lo o) b). split; [now apply (L_blank nl quote _ Q)|]. split.
    - apply (good_more _ bts b); [exact (g_prim _ _ _ G1 Hp)|exact (g_start _ _ _ G1 (prime_le _ Hp))|cbn; lia|]. intros rest S. apply R2.
    - intros w row nm A. cbn [sql_means db_means db_parts whole fst snd]. f_equal. now apply S1.
  Qed.
  Lemma f_cmp : forall l o r, fine2 l -> fine2 r -> fine2 (ECmp l o r).
  Proof.
    intros l o r IH1 IH2 Hn n ps T H. cbn [simple] in Hn. apply andb_prop in Hn as [Hn Ho]. apply andb_prop in Hn as [Hn Hr]. apply andb_prop in Hn as [Hn Hl]. apply andb_prop in Hn as [Hn1 Hn2].
    cbn [tree_of] in T. injection T as <-. inversion H; subst; try noval.
    match goal with K : Some _ = tree_of lo l |- _ => symmetry in K; destruct (use_one l IH1 (prime_loose l Hl) Hn1 _ _ K ltac:(eassumption)) as (b1 & a1 & L1 & G1 & S1) end.
    match goal with K : Some _ = tree_of lo r |- _ => symmetry in K; destruct (use_one r IH2 (prime_loose r Hr) Hn2 _ _ K ltac:(eassumption)) as (b2 & a2 & L2 & G2 & S2) end.
    match goal with K : rend (mk_op _) _ |- _ => apply (rend_op fold_eq lo sch) in K; subst end. destruct (read_cmp fold_eq nl quote sch Q _ (existsb_streq _ _ Ho)) as (bo & L3 & R3).
    apply fine_one; [reflexivity|reflexivity|]. exists (b1 ++ bo ++ b2), (QCmp (op_sql lo o) a1 a2). split; [apply (L_blank nl quote _ Q); [exact L1|]; now apply (L_blank nl quote _ Q)|]. split.
    - apply (good_more _ b1 a1); [exact (g_prim _ _ _ G1 Hl)|exact (g_start _ _ _ G1 (prime_le _ Hl))|cbn; lia|]. intros rest S. rewrite <- app_assoc. apply R3. now apply (g_prim _ _ _ G2).
    - intros w row nm A. cbn [sql_means db_means db_parts whole fst snd]. f_equal; [now apply S1|now apply S2].
  Qed.
  Lemma f_in : forall e o p ls, fine2 e -> fine2 (EIn e o p ls).
  Proof.
    intros e o p ls IH Hn n ps T H. cbn [simple] in Hn. apply andb_prop in Hn as [Hn Ho]. apply andb_prop in Hn as [Hn Hp]. cbn [tree_of] in T. injection T as <-. inversion H; subst; try noval.
    match goal with K : Some _ = tree_of lo e |- _ => symmetry in K; destruct (use_one e IH (prime_loose e Hp) Hn _ _ K ltac:(eassumption)) as (b1 & a1 & L1 & G1 & S1) end.
    match goal with K : rend (mk_op _) _ |- _ => apply (rend_op fold_eq lo sch) in K; subst end. destruct (read_in fold_eq nl quote sch Q _ (existsb_streq _ _ Ho)) as (bo & L3 & R3).
    match goal with K : rend (mk_array _) _ |- _ => apply (rend_val fold_eq sch (VArr p ls)) in K; subst end. cbn [val_value].
    apply fine_one; [reflexivity|reflexivity|]. exists (b1 ++ bo ++ [TVal (GArr (map lit_value ls))]), (QCmp (op_sql lo o) a1 (QVal (GArr (map lit_value ls)))).
    split; [apply (L_blank nl quote _ Q); [exact L1|]; apply (L_blank nl quote _ Q); [exact L3|apply (L_value nl quote _ Q)]|]. split.
    - apply (good_more _ b1 a1); [exact (g_prim _ _ _ G1 Hp)|exact (g_start _ _ _ G1 (prime_le _ Hp))|cbn; lia|]. intros rest S. rewrite <- app_assoc. apply R3. apply R_range_val.
    - intros w row nm A. cbn [sql_means db_means db_parts whole fst snd]. f_equal. now apply S1.
  Qed.
  Lemma f_between : forall e o b x y, fine2 e -> fine2 (EBetween e o b x y).
  Proof.
    intros e o b x y IH Hn n ps T H. cbn [simple] in Hn. apply andb_prop in Hn as [Hn Ho]. apply andb_prop in Hn as [Hn Hp]. cbn [tree_of] in T. injection T as <-. inversion H; subst; try noval.
    match goal with K : Some _ = tree_of lo e |- _ => symmetry in K; destruct (use_one e IH (prime_loose e Hp) Hn _ _ K ltac:(eassumption)) as (b1 & a1 & L1 & G1 & S1) end.
    match goal with K : rend (mk_op _) _ |- _ => apply (rend_op fold_eq lo sch) in K; subst end. destruct (read_between fold_eq nl quote sch Q _ (existsb_streq _ _ Ho)) as (bo & L3 & R3).
    match goal with K : rend (val_node x) _ |- _ => apply (rend_val fold_eq sch) in K; subst end. match goal with K : rend (val_node y) _ |- _ => apply (rend_val fold_eq sch) in K; subst end.
    apply fine_one; [reflexivity|reflexivity|]. exists (b1 ++ bo ++ [TVal (val_value x)] ++ TWord #"and" :: [TVal (val_value y)]), (QBetween (streq (op_sql lo o) #"not between") a1 (QVal (val_value x)) (QVal (val_value y))). split.
    - apply (L_blank nl quote _ Q); [exact L1|]. apply (L_blank nl quote _ Q); [exact L3|]. apply (L_and nl quote _ Q); apply (L_value nl quote _ Q).
    - split.
      + apply (good_more _ b1 a1); [exact (g_prim _ _ _ G1 Hp)|exact (g_start _ _ _ G1 (prime_le _ Hp))|cbn; lia|]. intros rest S. rewrite <- app_assoc. apply (R3 _ _ _ (TVal (val_value y) :: rest)); [apply R_val|apply R_val].
      + intros w row nm A. cbn [sql_means db_means db_parts whole fst snd]. f_equal. now apply S1.
  Qed.
  Lemma f_logic : forall l o r, op_logic o -> level r <= 5 -> fine2 l -> fine2 r -> fine2 (ELogic l o r).
  Proof.
    intros l o r OP LV IH1 IH2 Hn n ps T H. cbn [simple] in Hn. apply andb_prop in Hn as [Hn1 Hn2].
    cbn [tree_of] in T. injection T as <-. inversion H; subst; try noval.
    match goal with K : Some _ = tree_of lo l |- _ => symmetry in K; destruct (IH1 Hn1 _ _ K ltac:(eassumption)) as (b1 & d1 & a1 & L1 & G1 & S1) end.
    match goal with K : Some _ = tree_of lo r |- _ => symmetry in K; destruct (use_one r IH2 (loose_level r LV) Hn2 _ _ K ltac:(eassumption)) as (b2 & a2 & L2 & G2 & S2) end.
    match goal with K : rend (mk_op _) _ |- _ => apply (rend_op fold_eq lo sch) in K; subst end. rewrite (logic_op lo o OP) in *.
    destruct (is_or o) eqn:E.
    - exists (b1 ++ [TWord #"or"] ++ b2), (Some (sor d1 a1)), a2. split.
      + apply (L_blank nl quote _ Q); [exact L1|]. apply (L_blank nl quote _ Q); [|exact L2]. apply (L_word nl quote _ Q #"or"); [discriminate|reflexivity].
      + split.
        * split; [cbn [loose_or]; rewrite E; discriminate|]. intros rest y us x S K1 K2. rewrite <- !app_assoc. destruct G1 as [_ G1].
          apply (G1 _ a1 (TWord #"or" :: b2 ++ rest)); [reflexivity|now apply R_and_end|]. apply (R_or_more _ _ y us); [|exact K2]. apply (g_and _ _ _ G2); [now apply loose_level|exact S|exact K1].
        * intros w row nm A. cbn [db_parts]. rewrite E. cbn [fst snd option_map]. split; [f_equal; now apply (same_whole l)|now apply S2].
    - exists (b1 ++ [TWord #"and"] ++ b2), d1, (QAnd a1 a2). split.
      + apply (L_blank nl quote _ Q); [exact L1|]. apply (L_blank nl quote _ Q); [|exact L2]. apply (L_word nl quote _ Q #"and"); [discriminate|reflexivity].
      + split.
        * split.
          -- cbn [loose_or]. rewrite E. cbn [orb]. intro LO. destruct G1 as [G1 _]. destruct (G1 LO) as [-> G]. split; [reflexivity|].
             assert (AND : forall rest x, stops rest -> R (GAndMore (QAnd a1 a2)) rest x -> R GAnd ((b1 ++ [TWord #"and"] ++ b2) ++ rest) x).
             { intros rest x S K. rewrite <- !app_assoc. apply (g_and _ _ _ G); [exact LO|reflexivity|]. cbn [app]. apply (R_and_more a1 _ a2 rest); [|exact K].
               now apply (g_not _ _ _ G2). }
             constructor.
             ++ discriminate.
             ++ cbn. lia.
             ++ cbn. lia.
             ++ intros _. exact AND.
             ++ intros rest x S N K. apply (R_or _ (QAnd a1 a2) rest x); [|exact K]. apply AND; [exact S|]. now apply R_and_end.
          -- intros rest y us x S K1 K2. rewrite <- !app_assoc. destruct G1 as [_ G1]. apply (G1 _ y us); [reflexivity| |exact K2]. cbn [app]. apply (R_and_more a1 _ a2 rest); [|exact K1]. now apply (g_not _ _ _ G2).
        * intros w row nm A. cbn [db_parts]. rewrite E. cbn [fst snd option_map]. destruct (S1 w row nm A) as [X1 X2]. split; [exact X1|]. cbn [sql_means]. f_equal; [exact X2|now apply S2].
  Qed.

  Lemma all_fine2 : forall e t, lay e t -> fine2 e.
  Proof.
    intros e t H. refine (lay_mind (fun e t _ => fine2 e) (fun es t _ => Forall fine2 es) _ _ _ _ _ _ _ _ _ _ _ _ _ _ _ _ _ _ e t H); clear e t H; intros.
    - apply f_val.
    - apply f_val.
    - apply f_name.
    - apply f_ref.
    - intro K. discriminate K.
    - apply f_call. constructor.
    - now apply f_call.
    - now apply f_call.
    - now apply f_paren.
    - now apply f_between.
    - now apply f_between.
    - now apply f_pred.
    - now apply f_in.
    - now apply f_cmp.
    - now apply f_not.
    - now apply f_logic.
    - now constructor.
    - now constructor.
  Qed.

  Lemma reads_pieces2 : forall q e n ps, reads q e -> simple lo e = true -> tree_of lo e = Some n -> rend n ps ->
    exists a, reads_marks nl (sql_text quote ps) (values ps) a /\ sameW e a.
  Proof.
    intros q e n ps (w1 & t & w2 & _ & _ & _ & Hl) Hn T H. destruct (all_fine2 e t Hl Hn n ps T H) as (bts & d & a & L1 & G1 & S1). exists (sor d a). split; [|now apply same_whole].
    specialize (L1 [] [] [] I (TK_nil nl bind_marks eq_refl)). rewrite !app_nil_r in L1. destruct L1 as (f & ts & K1 & K2).
    assert (K : R GOr (bts ++ []) (sor d a, [])) by (apply (good2_or _ _ _ _ G1); [exact I|exact I|destruct d; now apply R_or_end]). rewrite app_nil_r in K. destruct K as (g & K).
    exists (max f g), ts, bts. split; [apply (lex_fuel nl f); [lia|exact K1]|]. split; [exact K2|]. apply (rd_fuel g); [lia|exact K].
  Qed.
End SG.

Lemma simple_json_free : forall lo e, simple lo e = true -> json_free e = true.
Proof.
  intros lo. fix IH 1. intros [v|x|xs|xs|f args|e|e o b x y|e o|e o p ls|l o r|e|l o r] H; cbn [simple json_free] in *; try reflexivity; try discriminate.
  - apply andb_prop in H as [_ H]. destruct args as [|a [|]]; try discriminate. cbn [forallb]. now rewrite (IH _ H).
  - now apply IH.
  - apply andb_prop in H as [H _]. apply andb_prop in H as [H _]. now apply IH.
  - apply andb_prop in H as [H _]. apply andb_prop in H as [H _]. now apply IH.
  - apply andb_prop in H as [H _]. apply andb_prop in H as [H _]. now apply IH.
  - apply andb_prop in H as [H _]. apply andb_prop in H as [H _]. apply andb_prop in H as [H _]. apply andb_prop in H as [H1 H2]. now rewrite (IH _ H1), (IH _ H2).
  - now apply IH.
  - apply andb_prop in H as [H1 H2]. now rewrite (IH _ H1), (IH _ H2).
Qed.

Section Wire.
  Variable fold_eq : list N -> list N -> bool.
  Variable quote : list N -> list N.
  Variable lo : N -> N.
  Variable nl : list N -> option (list N * list N).
  Lemma wire_db : forall d q e d' sch, valid_runes q -> reads q e -> simple lo e = true -> schema_of d = Some sch -> quotes nl quote (fun c => c) (is_column fold_eq sch) ->
    wire_mini_query fold_eq quote lo d q = Some d' -> succeeded d d' ->
    exists t vs a, dWheres d' = dWheres d ++ [(t, vs)] /\ reads_marks nl t vs a /\
      forall w row nm, agrees (wV w) fold_eq sch row nm -> sql_means w row a = db_means w lo nm e.
  Proof.
    intros d q e d' sch Hq He Hn Hs HQ H HS. pose proof (simple_json_free lo e Hn) as Hj.
    assert (HP : exists n, parse lo q = Ok n).
    { destruct (parse lo q) as [n|er|] eqn:E; [eauto| |]; exfalso; unfold wire_mini_query in H; destruct q as [|c q].
      - discriminate (reads_not_blank [] e He Hq).
      - rewrite E in H. injection H as <-. unfold succeeded in HS. cbn in HS. now apply app_neq in HS.
      - discriminate (reads_not_blank [] e He Hq).
      - rewrite E in H. discriminate. }
    destruct HP as (p & HP). assert (Hf : fits e = true).
    { destruct (parse_ok_inv lo q _ Hq HP) as (e2 & H2 & Hf & _). now rewrite (reads_unique _ _ _ He H2). }
    pose proof (parse_spec lo q e Hq He Hf Hj) as HP'. destruct (tree_of lo e) as [n|] eqn:T.
    2:{ exfalso. clear - T Hj. destruct e; discriminate. }
    destruct (renders_complete fold_eq quote lo d q n d' Hq HP' H HS) as (sch' & ps & Hs' & K). rewrite Hs in Hs'. injection Hs' as <-.
    destruct (reads_pieces2 fold_eq lo nl quote sch HQ q e n ps He Hn T K) as (a & R1 & S1).
    pose proof (renders_sound fold_eq quote lo d sch q n ps Hq HP' Hs K) as E. rewrite H in E. apply some_inj in E. subst d'.
    exists (sql_text quote ps), (values ps), a. split; [reflexivity|]. now split.
  Qed.
End Wire.
