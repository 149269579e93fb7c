(** Proofs for C74: the conditions of entsql, read as SQL. *)
From Verif Require Import Base Peg Node Vocab Tree Parse Syntax Blank ParseProofs NormProofs Unique ParserFacts ParserFacts2 ParserMain Build BuildProofs NodeFacts SafeInd
  Gorm GormSpec GormProofs GormFacts GormFacts2 GormFacts3 GormFacts4 TreeFacts EntSQL EntSQLSpec EntSQLProofs EntSQLFacts EntSQLFacts2 SqlSpec SqlProofs SqlProofs2 SqlProofs3 SqlGorm SqlDialect.
Require Import Lia.
Strategy expand [parse_machine rule_trace].
Strategy 1000 [parse_fuel mrun tok_trace].

(** ** Tokens that are read as [a]; [app] is what they make of a condition with
    "and" before them *)
Record goodE (e : expr) (bts : list tok) (a : sql) (app : sql -> sql) : Prop := {
  h_prim : prime e = true -> forall rest, R GPrim (bts ++ rest) (a, rest);
  h_start : prime e = true -> forall rest, no_word #"not" (bts ++ rest);
  h_not : level e <= 5 -> free_between e = false -> forall rest, stops rest -> R GNot (bts ++ rest) (a, rest);
  h_app : level e <= 5 -> forall acc rest r, stops rest -> R (GAndMore (app acc)) rest r -> R (GAndMore acc) (TWord #"and" :: bts ++ rest) r;
  h_and : loose_or e = false -> forall rest r, stops rest -> R (GAndMore a) rest r -> R GAnd (bts ++ rest) r;
  h_or : forall rest r, stops rest -> no_word #"and" rest -> R (GOrMore a) rest r -> R GOr (bts ++ rest) r
}.
Lemma goodE_not : forall e bts a, level e <= 5 -> (prime e = true -> forall rest, R GPrim (bts ++ rest) (a, rest)) ->
  (prime e = true -> forall rest, no_word #"not" (bts ++ rest)) -> (forall rest, stops rest -> R GNot (bts ++ rest) (a, rest)) -> goodE e bts a (fun acc => QAnd acc a).
Proof.
  intros e bts a L1 H1 H2 H3.
  assert (A : forall rest r, stops rest -> R (GAndMore a) rest r -> R GAnd (bts ++ rest) r).
  { intros rest r S K. apply (R_and _ a rest r); [now apply H3|exact K]. }
  constructor; auto.
  - intros _ acc rest r S K. apply (R_and_more acc _ a rest r); [now apply H3|exact K].
  - intros rest r S N K. apply (R_or _ a rest r); [|exact K]. apply A; [exact S|]. now apply R_and_end.
Qed.
Lemma goodE_cond : forall e bts a, level e <= 5 -> prime e = false -> (forall rest, no_word #"not" (bts ++ rest)) ->
  (forall rest, stops rest -> R GCond (bts ++ rest) (a, rest)) -> goodE e bts a (fun acc => QAnd acc a).
Proof. intros e bts a L1 H1 H2 H3. apply goodE_not; [exact L1|congruence|auto|]. intros rest S. apply R_not_end; [apply H2|now apply H3]. Qed.
Lemma goodE_prim : forall e bts a, level e = 0 -> (forall rest, R GPrim (bts ++ rest) (a, rest)) -> (forall rest, no_word #"not" (bts ++ rest)) -> goodE e bts a (fun acc => QAnd acc a).
Proof.
  intros e bts a L1 H1 H2. apply goodE_not; [lia|auto|auto|]. intros rest S. apply R_not_end; [apply H2|]. apply (R_cond _ a rest); [apply H1|now apply R_cond_end].
Qed.
Lemma goodE_more : forall e bl al more a, (forall rest, R GPrim (bl ++ rest) (al, rest)) -> (forall rest, no_word #"not" (bl ++ rest)) -> level e <= 5 -> prime e = false ->
  (forall rest, stops rest -> R (GCondMore al) (more ++ rest) (a, rest)) -> goodE e (bl ++ more) a (fun acc => QAnd acc a).
Proof.
  intros e bl al mo a P1 G1 LV NP H. apply goodE_cond; [exact LV|exact NP| |].
  - intro rest. rewrite <- app_assoc. apply G1.
  - intros rest S. rewrite <- app_assoc. apply (R_cond _ al (mo ++ rest)); [|now apply H]. apply P1.
Qed.
(** two comparisons *)
Lemma goodE_pair : forall e b1 a1 b2 a2, free_between e = true -> (forall rest, stops rest -> R GNot (b1 ++ rest) (a1, rest)) -> (forall rest, stops rest -> R GNot (b2 ++ rest) (a2, rest)) ->
  goodE e (b1 ++ [TWord #"and"] ++ b2) (QAnd a1 a2) (fun acc => QAnd (QAnd acc a1) a2).
Proof.
  intros e b1 a1 b2 a2 F H1 H2. assert (NP : prime e = false) by (destruct e; discriminate || reflexivity).
  assert (A : forall rest r, stops rest -> R (GAndMore (QAnd a1 a2)) rest r -> R GAnd ((b1 ++ [TWord #"and"] ++ b2) ++ rest) r).
  { intros rest r S K. rewrite <- !app_assoc. apply (R_and _ a1 (TWord #"and" :: b2 ++ rest) r); [now apply H1|]. apply (R_and_more a1 _ a2 rest r); [now apply H2|exact K]. }
  constructor; try congruence; auto.
  - intros _ acc rest r S K. rewrite <- !app_assoc. apply (R_and_more acc _ a1 (TWord #"and" :: b2 ++ rest) r); [now apply H1|]. apply (R_and_more _ _ a2 rest r); [now apply H2|exact K].
  - intros rest r S N K. apply (R_or _ (QAnd a1 a2) rest r); [|exact K]. apply A; [exact S|]. now apply R_and_end.
Qed.

Lemma lit_no_float : forall l, no_float (lit_value l).
Proof. intros [] x; discriminate. Qed.
Lemma lits_no_float : forall ls, Forall no_float (map lit_value ls).
Proof. induction ls; constructor; [apply lit_no_float|assumption]. Qed.

Section SE.
  Variable lo : N -> N.
  Variable nl : list N -> option (list N * list N).
  Variable ident_sql : list N -> list N -> list N.
  Variable edge_sql : bool -> list N -> gnode -> gspec -> gnode -> option (list N * list N).
  Variable heap : nat -> gnode.
  Variable d : list N.
  Variable dis : bool.
  Variable c : option nat.
  Variable col : list N -> list N.
  Hypothesis Q : quotes nl (ident_sql d) col ident.
  Notation emit := (emits edge_sql heap d dis c).
  Notation LL := (LE nl ident_sql d).

  Ltac noval := match goal with K : go_value _ _ |- _ => apply go_value_type in K; discriminate K end.
  Lemma emit_lit : forall l ps, emit (val_node (VLit l)) ps -> ps = [scalar_piece dis (lit_value l)].
  Proof.
    intros l ps H. assert (T : nType (val_node (VLit l)) = NValue) by (destruct l; reflexivity). assert (A : forall x, val_node (VLit l) <> mk_array x) by (destruct l; discriminate).
    remember (val_node (VLit l)) as n eqn:E. destruct H; try discriminate T; [|now destruct (A l0)]. subst n. apply go_lit in H. now subst.
  Qed.
  Lemma emit_arr : forall (p : bool) ls ps, emit (mk_array (map (fun l => Some (lit_node l)) ls)) ps -> ps = SFix #"(" :: commas (map lit_value ls) ++ [SFix #")"].
  Proof.
    intros p ls ps H. remember (mk_array (map (fun l => Some (lit_node l)) ls)) as n eqn:E. destruct H; try discriminate E.
    - subst n. apply (go_val (VArr p ls)) in H. subst v. now destruct (H0 (map lit_value ls)).
    - injection E as ->. apply go_lits in H. now subst.
  Qed.

  (** operators *)
  Lemma word_sql : forall o w, In (op_name lo o, w) infix_words -> In (op_sql lo o, w) [(#"=", #" = "); (#"<>", #" <> "); (#">", #" > "); (#">=", #" >= "); (#"<", #" < "); (#"<=", #" <= ");
    (#"in", #" IN "); (#"not in", #" NOT IN "); (#"like", #" LIKE "); (#"is null", #" IS NULL"); (#"is not null", #" IS NOT NULL"); (#"not like", #" NOT LIKE "); (#"and", #" AND "); (#"or", #" OR ")].
  Proof.
    intros o w H. unfold op_sql. generalize dependent (op_name lo o). intros n H. unfold infix_words, pred_words in H. cbn [In app] in H.
    decompose [or] H; try contradiction; match goal with K : (_, _) = (_, _) |- _ => injection K as <- <- end; repeat (first [left; reflexivity|right]).
  Qed.
  Lemma fix_word : forall w v, w <> [] -> forallb letter w = true -> v = map ascii_lower w -> closes nl d w [TWord v].
  Proof. intros w v. apply (close_word nl ident_sql d col _ Q). Qed.
  Lemma read_cmpE : forall o w, In (op_name lo o, w) infix_words -> named lo cmp_ops o = true -> exists bts, fixes nl d w bts /\ (forall t, ends_name (w ++ t)) /\
    forall al tr ar us, R GPrim tr (ar, us) -> R (GCondMore al) (bts ++ tr) (QCmp (op_sql lo o) al ar, us).
  Proof.
    intros o w H N. apply existsb_streq in N. apply word_sql in H. generalize dependent (op_sql lo o). clear o. intros s H N.
    assert (S : forall x, In x cmp_syms -> fixes nl d (#" " ++ x ++ #" ") [TSym x]).
    { intros x I. apply (fix_padded nl ident_sql d col _ Q). now apply (close_sym nl ident_sql d col _ Q). }
    assert (A : forall x, In x cmp_syms -> exists bts, fixes nl d (#" " ++ x ++ #" ") bts /\ (forall t, ends_name ((#" " ++ x ++ #" ") ++ t)) /\
      forall al tr ar us, R GPrim tr (ar, us) -> R (GCondMore al) (bts ++ tr) (QCmp x al ar, us)).
    { intros x I. exists [TSym x]. split; [now apply S|]. split; [reflexivity|]. intros al tr ar us K. now apply R_sym. }
    cbn [In] in H. decompose [or] H; clear H; try contradiction; match goal with K : (_, _) = (_, _) |- _ => injection K as <- <- end;
      try (exfalso; unfold cmp_ops, cmp_syms in N; cbn [In app] in N; decompose [or] N; (discriminate || contradiction)).
    - apply (A #"="). cbn. tauto.
    - apply (A #"<>"). cbn. tauto.
    - apply (A #">"). cbn. tauto.
    - apply (A #">="). cbn. tauto.
    - apply (A #"<"). cbn. tauto.
    - apply (A #"<="). cbn. tauto.
    - exists [TWord #"like"]. split; [apply (fix_padded nl ident_sql d col _ Q #"LIKE"), fix_word; (discriminate || reflexivity)|]. split; [reflexivity|]. intros al tr ar us K. now apply (R_like false).
    - exists [TWord #"not"; TWord #"like"]. split; [apply (fix_padded nl ident_sql d col _ Q #"NOT LIKE"), (close_two nl ident_sql d col _ Q #"NOT" [_] #"LIKE" [_]); apply fix_word; (discriminate || reflexivity)|].
      split; [reflexivity|]. intros al tr ar us K. now apply (R_like true).
  Qed.
  Lemma read_inE : forall o w, In (op_name lo o, w) infix_words -> named lo in_ops o = true -> exists bts, fixes nl d w bts /\ (forall t, ends_name (w ++ t)) /\
    forall al tr ar us, R GRange tr (ar, us) -> R (GCondMore al) (bts ++ tr) (QCmp (op_sql lo o) al ar, us).
  Proof.
    intros o w H N. apply existsb_streq in N. apply word_sql in H. generalize dependent (op_sql lo o). clear o. intros s H N.
    cbn [In] in H. decompose [or] H; clear H; try contradiction; match goal with K : (_, _) = (_, _) |- _ => injection K as <- <- end;
      try (exfalso; unfold in_ops in N; cbn [In app] in N; decompose [or] N; (discriminate || contradiction)).
    - exists [TWord #"in"]. split; [apply (fix_padded nl ident_sql d col _ Q #"IN"), fix_word; (discriminate || reflexivity)|]. split; [reflexivity|]. intros al tr ar us K. now apply (R_in false).
    - exists [TWord #"not"; TWord #"in"]. split; [apply (fix_padded nl ident_sql d col _ Q #"NOT IN"), (close_two nl ident_sql d col _ Q #"NOT" [_] #"IN" [_]); apply fix_word; (discriminate || reflexivity)|].
      split; [reflexivity|]. intros al tr ar us K. now apply (R_in true).
  Qed.
  Lemma read_predE : forall o w, In (op_name lo o, w) pred_words -> named lo [#"is null"; #"is not null"] o = true -> exists bts, closes nl d w bts /\ (forall t, ends_name (w ++ t)) /\
    forall al us, R (GCondMore al) (bts ++ us) (QPred (op_sql lo o) al, us).
  Proof.
    intros o w H N. apply existsb_streq in N. assert (H' : In (op_name lo o, w) infix_words) by (apply in_or_app; now left). clear H. apply word_sql in H'. rename H' into H.
    generalize dependent (op_sql lo o). clear o. intros s N H.
    cbn [In] in H. decompose [or] H; clear H; try contradiction; match goal with K : (_, _) = (_, _) |- _ => injection K as <- <- end;
      try (exfalso; cbn [In app] in N; decompose [or] N; (discriminate || contradiction)).
    - exists ([TWord #"is"; TWord #"null"]). split; [|split; [reflexivity|intros; apply (R_is false #"null"); cbn; auto]].
      apply (fix_close nl d #" " [] #"IS NULL" [_; _]); [apply (fix_blank nl ident_sql d col _ Q)|]. apply (close_two nl ident_sql d col _ Q #"IS" [_] #"NULL" [_]); apply fix_word; (discriminate || reflexivity).
    - exists ([TWord #"is"; TWord #"not"; TWord #"null"]). split; [|split; [reflexivity|intros; apply (R_is true #"null"); cbn; auto]].
      apply (fix_close nl d #" " [] #"IS NOT NULL" [_; _; _]); [apply (fix_blank nl ident_sql d col _ Q)|].
      apply (close_two nl ident_sql d col _ Q #"IS" [_] #"NOT NULL" [_; _]); [|apply (close_two nl ident_sql d col _ Q #"NOT" [_] #"NULL" [_])]; apply fix_word; (discriminate || reflexivity).
  Qed.
  Lemma fix_pad_word : forall w v, w <> [] -> forallb letter w = true -> v = map ascii_lower w -> fixes nl d (#" " ++ w ++ #" ") [TWord v].
  Proof. intros w v H1 H2 H3. apply (fix_padded nl ident_sql d col _ Q). now apply fix_word. Qed.

  Definition sameE (e : expr) (a : sql) : Prop :=
    forall w row nm, lawful w -> (forall x, nm [x] = row (col x)) -> sql_means w row a = query_means w lo nm e.
  Definition joinsE (a : sql) (app : sql -> sql) : Prop :=
    forall w row acc, lawful w -> sql_means w row (app acc) = wAnd w (sql_means w row acc) (sql_means w row a).
  Definition fineE (e : expr) : Prop := neat2 lo e = true -> forall n ps, tree_of lo e = Some n -> emit n ps ->
    exists bts a app, LL ps bts /\ goodE e bts a app /\ sameE e a /\ joinsE a app.
  Lemma joins_and : forall a, joinsE a (fun acc => QAnd acc a).
  Proof. intros a w row acc _. reflexivity. Qed.

  Lemma e_lit : forall l, fineE (EVal (VLit l)).
  Proof.
    intros l _ n ps T H. injection T as <-. apply emit_lit in H. subst. exists [vtok dis (lit_value l)], (QVal (lit_value l)), (fun acc => QAnd acc (QVal (lit_value l))).
    split; [apply (LE_scalar nl ident_sql d col _ Q), lit_no_float|]. split; [|split; [intros w row nm _ _; reflexivity|apply joins_and]].
    apply goodE_prim; [reflexivity|intro; apply R_vtok|]. intro rest. unfold vtok. destruct (dis && is_nil (lit_value l)); reflexivity || exact I.
  Qed.
  Lemma e_arr : forall p ls, fineE (EVal (VArr p ls)).
  Proof. intros p ls H. discriminate H. Qed.
  Lemma e_name : forall x, ident x -> fineE (EName x).
  Proof.
    intros x I0 _ n ps [= <-] H. inversion H; subst; try noval. exists [TName (col x)], (QCol (col x)), (fun acc => QAnd acc (QCol (col x))).
    split; [now apply (LE_name nl ident_sql d col _ Q)|]. split; [apply goodE_prim; [reflexivity|intro; apply R_name|intro; exact I]|]. split; [|apply joins_and].
    intros w row nm _ A. cbn [sql_means query_means]. symmetry. apply A.
  Qed.
  Lemma e_paren : forall e, fineE e -> fineE (EParen e).
  Proof.
    intros e IH Hn n ps T H. cbn [neat2] in Hn. cbn [tree_of] in T. injection T as <-. destruct (tree_of lo e) as [m|] eqn:T; [|inversion H; noval].
    apply emits_paren_inv in H as (b & H & ->). destruct (IH Hn _ _ T H) as (bts & a & app & L1 & G1 & S1 & J1).
    exists ([TOpen] ++ bts ++ [TClose]), a, (fun acc => QAnd acc a). split; [apply (LE_paren nl ident_sql d col _ Q); [intros t args us; now apply (TK_open nl _ (other d) (proj1 Q))|exact L1]|].
    split; [|split; [exact S1|apply joins_and]]. apply goodE_prim; [reflexivity| |intro; exact I].
    intro rest. cbn [List.app]. rewrite <- app_assoc. apply R_paren. apply (h_or _ _ _ _ G1); [exact I|exact I|]. now apply R_or_end.
  Qed.
  Lemma emit_date : forall m ps, emit (mk_function #"date" [Some m]) ps -> exists a, emit m a /\ ps = SFix #"DATE(" :: a ++ [SFix #")"].
  Proof.
    intros m ps H. remember (mk_function #"date" [Some m]) as n eqn:E. destruct H; try discriminate E; [subst; noval|]. injection E as <- _. eauto.
  Qed.
  Lemma e_call : forall f args, Forall fineE args -> fineE (ECall f args).
  Proof.
    intros f args IH Hn n ps T H. cbn [neat2] in Hn. apply andb_prop in Hn as [F Hn]. apply streq_eq in F. subst f. destruct args as [|e [|]]; try discriminate.
    inversion_clear IH as [|? ? IH1 _]. cbn [tree_of map] in T. injection T as <-. destruct (tree_of lo e) as [m|] eqn:T; [|inversion H; noval].
    apply emit_date in H as (b & H & ->). destruct (IH1 Hn _ _ T H) as (bts & a & app & L1 & G1 & S1 & J1).
    exists ([TWord #"date"; TOpen] ++ bts ++ [TClose]), (QDate a), (fun acc => QAnd acc (QDate a)). split; [apply (LE_paren nl ident_sql d col _ Q); [|exact L1]|].
    - intros t args us K. change (#"DATE(" ++ t) with (#"DATE" ++ #"(" ++ t). apply (TK_word nl _ (other d) (proj1 Q) #"DATE"); [discriminate|reflexivity|reflexivity|].
      now apply (TK_open nl _ (other d) (proj1 Q)).
    - split; [|split; [|apply joins_and]].
      + apply goodE_prim; [reflexivity| |intro; reflexivity]. intro rest. cbn [List.app]. rewrite <- app_assoc. apply R_date. apply (h_or _ _ _ _ G1); [exact I|exact I|]. now apply R_or_end.
      + intros w row nm W A. cbn [sql_means query_means]. f_equal. now apply S1.
  Qed.
  Lemma e_not : forall e, level e <= 4 -> fineE e -> fineE (ENot e).
  Proof.
    intros e LV IH Hn n ps T H. cbn [neat2] in Hn. apply andb_prop in Hn as [Hn HB]. apply Bool.negb_true_iff in HB. cbn [tree_of] in T. injection T as <-. destruct (tree_of lo e) as [m|] eqn:T; [|inversion H; noval].
    apply emits_not_inv in H as (b & H & ->). destruct (IH Hn _ _ T H) as (bts & a & app & L1 & G1 & S1 & J1).
    exists ([TWord #"not"] ++ bts), (QNot a), (fun acc => QAnd acc (QNot a)). split; [apply (LE_prefix nl ident_sql d); [|exact L1]|].
    - intros t args us K. change (#"NOT " ++ t) with (#"NOT" ++ #" " ++ t). apply (TK_word nl _ (other d) (proj1 Q) #"NOT"); [discriminate|reflexivity|reflexivity|].
      now apply (TK_blank nl _ (proj1 Q)).
    - split; [|split; [|apply joins_and]].
      + apply goodE_not; [cbn; lia|discriminate|discriminate|]. intros rest S. cbn [List.app]. apply R_not. apply (h_not _ _ _ _ G1); [lia|exact HB|exact S].
      + intros w row nm W A. cbn [sql_means query_means]. f_equal. now apply S1.
  Qed.
  Lemma emit_pred : forall m k ps, emit (mk_predicate (Some m) (Some k)) ps -> exists w a, In (nOperation k, w) pred_words /\ emit m a /\ ps = a ++ [SFix w].
  Proof.
    intros m k ps H. remember (mk_predicate (Some m) (Some k)) as n eqn:E. destruct H; try discriminate E; [subst; noval|]. injection E as <- <-. exists w, ps. now repeat split.
  Qed.
  Lemma emit_cmp : forall l k r ps, emit (mk_compare (Some l) (Some k) (Some r)) ps -> exists w a b, In (nOperation k, w) infix_words /\ emit l a /\ emit r b /\ ps = a ++ SFix w :: b.
  Proof.
    intros l k r ps H. remember (mk_compare (Some l) (Some k) (Some r)) as n eqn:E. destruct H; try discriminate E; [subst; noval|]. injection E as <- <- <-. exists w, a, b. now repeat split.
  Qed.
  Lemma e_pred : forall e o, fineE e -> fineE (EPred e o).
  Proof.
    intros e o IH Hn n ps T H. cbn [neat2] in Hn. apply andb_prop in Hn as [Hn Ho]. apply andb_prop in Hn as [Hn Hp]. cbn [tree_of] in T. injection T as <-. destruct (tree_of lo e) as [m|] eqn:T; [|inversion H; noval].
    apply emit_pred in H as (w & b & I1 & H & ->). cbn [nOperation mk_op] in I1. destruct (read_predE o w I1 Ho) as (bo & F & B & R2). destruct (IH Hn _ _ T H) as (bts & a & app & L1 & G1 & S1 & J1).
    exists (bts ++ bo), (QPred (op_sql lo o) a), (fun acc => QAnd acc (QPred (op_sql lo o) a)). split; [now apply (LE_suffix nl ident_sql d)|]. split; [|split; [|apply joins_and]].
    - apply (goodE_more _ bts a); [exact (h_prim _ _ _ _ G1 Hp)|exact (h_start _ _ _ _ G1 Hp)|cbn; lia|reflexivity|]. intros rest S. apply R2.
    - intros w0 row nm W A. cbn [sql_means query_means]. f_equal. now apply S1.
  Qed.
  Lemma e_cmp : forall l o r, fineE l -> fineE r -> fineE (ECmp l o r).
  Proof.
    intros l o r IH1 IH2 Hn n ps T H. cbn [neat2] in Hn. apply andb_prop in Hn as [Hn Ho]. apply andb_prop in Hn as [Hn Hr]. apply andb_prop in Hn as [Hn Hl]. apply andb_prop in Hn as [Hn1 Hn2].
    cbn [tree_of] in T. injection T as <-. destruct (tree_of lo l) as [ml|] eqn:T1; [|inversion H; noval]. destruct (tree_of lo r) as [mr|] eqn:T2; [|inversion H; noval].
    apply emit_cmp in H as (w & pa & pb & I1 & H1 & H2 & ->). cbn [nOperation mk_op] in I1. destruct (read_cmpE o w I1 Ho) as (bo & F & B & R3).
    destruct (IH1 Hn1 _ _ T1 H1) as (b1 & a1 & app1 & L1 & G1 & S1 & J1). destruct (IH2 Hn2 _ _ T2 H2) as (b2 & a2 & app2 & L2 & G2 & S2 & J2).
    exists (b1 ++ bo ++ b2), (QCmp (op_sql lo o) a1 a2), (fun acc => QAnd acc (QCmp (op_sql lo o) a1 a2)). split; [now apply (LE_infix nl ident_sql d)|]. split; [|split; [|apply joins_and]].
    - apply (goodE_more _ b1 a1); [exact (h_prim _ _ _ _ G1 Hl)|exact (h_start _ _ _ _ G1 Hl)|cbn; lia|reflexivity|]. intros rest S. rewrite <- app_assoc. apply R3. now apply (h_prim _ _ _ _ G2).
    - intros w0 row nm W A. cbn [sql_means query_means]. f_equal; [now apply S1|now apply S2].
  Qed.
  Lemma e_in : forall e o p ls, fineE e -> fineE (EIn e o p ls).
  Proof.
    intros e o p ls IH Hn n ps T H. cbn [neat2] in Hn. apply andb_prop in Hn as [Hn Hz]. apply andb_prop in Hn as [Hn Ho]. apply andb_prop in Hn as [Hn Hp].
    assert (NE : map lit_value ls <> []) by (destruct ls; [discriminate Hz|discriminate]).
    cbn [tree_of] in T. injection T as <-. destruct (tree_of lo e) as [m|] eqn:T; [|inversion H; noval].
    apply emit_cmp in H as (w & pa & pb & I1 & H1 & H2 & ->). cbn [nOperation mk_op] in I1. destruct (read_inE o w I1 Ho) as (bo & F & B & R3). apply (emit_arr p) in H2. subst pb.
    destruct (IH Hn _ _ T H1) as (b1 & a1 & app1 & L1 & G1 & S1 & J1).
    exists (b1 ++ bo ++ [TOpen] ++ ctoks (map lit_value ls) ++ [TClose]), (QCmp (op_sql lo o) a1 (QList (map QVal (map lit_value ls)))), (fun acc => QAnd acc (QCmp (op_sql lo o) a1 (QList (map QVal (map lit_value ls))))).
    split; [|split; [|split; [|apply joins_and]]].
    - apply (LE_infix nl ident_sql d); [exact F|exact B|exact L1|]. apply (LE_paren nl ident_sql d col _ Q); [intros t args us; now apply (TK_open nl _ (other d) (proj1 Q))|].
      apply (LE_commas nl ident_sql d col _ Q); [exact NE|apply lits_no_float].
    - apply (goodE_more _ b1 a1); [exact (h_prim _ _ _ _ G1 Hp)|exact (h_start _ _ _ _ G1 Hp)|cbn; lia|reflexivity|]. intros rest S. rewrite <- app_assoc. apply R3.
      cbn [List.app]. rewrite <- app_assoc. now apply R_values.
    - intros w0 row nm W A. cbn [sql_means query_means]. destruct W as (W1 & W2 & W3). rewrite W3. f_equal; [apply S1; [now split|exact A]|]. f_equal. rewrite map_map. now apply map_ext.
  Qed.
  Lemma e_between : forall e o b x y, fineE e -> fineE (EBetween e o b x y).
  Proof.
    intros e o b x y IH Hn n ps T H. cbn [neat2] in Hn. apply andb_prop in Hn as [Hn Hy]. apply andb_prop in Hn as [Hn Hx]. apply andb_prop in Hn as [Hn Ho]. apply andb_prop in Hn as [Hn Hp].
    destruct x as [x|]; [|discriminate]. destruct y as [y|]; [|discriminate]. cbn [tree_of] in T. injection T as <-. destruct (tree_of lo e) as [m|] eqn:T; [|inversion H; noval].
    apply emits_between_inv in H as (pa & px & py & H & Kx & Ky & K). apply (emit_lit x) in Kx. apply (emit_lit y) in Ky. subst px py. cbn [nOperation mk_op] in K.
    apply existsb_streq in Ho. destruct Ho as [Ho|[]]. assert (NB : op_name lo o <> #"not between") by (intro X; unfold op_sql in Ho; rewrite X in Ho; discriminate Ho).
    destruct K as [[_ ->]|[K _]]; [|congruence]. destruct (IH Hn _ _ T H) as (b1 & a1 & app1 & L1 & G1 & S1 & J1).
    assert (S : forall z, In z cmp_syms -> fixes nl d (#" " ++ z ++ #" ") [TSym z]).
    { intros z I0. apply (fix_padded nl ident_sql d col _ Q). now apply (close_sym nl ident_sql d col _ Q). }
    exists ((b1 ++ [TSym #">="] ++ [vtok dis (lit_value x)]) ++ [TWord #"and"] ++ (b1 ++ [TSym #"<="] ++ [vtok dis (lit_value y)])),
      (QAnd (QCmp #">=" a1 (QVal (lit_value x))) (QCmp #"<=" a1 (QVal (lit_value y)))),
      (fun acc => QAnd (QAnd acc (QCmp #">=" a1 (QVal (lit_value x)))) (QCmp #"<=" a1 (QVal (lit_value y)))).
    split; [|split; [|split]].
    - replace (pa ++ SFix #" >= " :: [scalar_piece dis (lit_value x)] ++ SFix #" AND " :: pa ++ SFix #" <= " :: [scalar_piece dis (lit_value y)])
        with ((pa ++ SFix #" >= " :: [scalar_piece dis (lit_value x)]) ++ SFix #" AND " :: pa ++ SFix #" <= " :: [scalar_piece dis (lit_value y)]) by now rewrite <- app_assoc.
      apply (LE_infix nl ident_sql d); [apply (fix_pad_word #"AND"); (discriminate || reflexivity)|reflexivity| |].
      + apply (LE_infix nl ident_sql d); [apply (S #">="); cbn; tauto|reflexivity|exact L1|]. apply (LE_scalar nl ident_sql d col _ Q), lit_no_float.
      + apply (LE_infix nl ident_sql d); [apply (S #"<="); cbn; tauto|reflexivity|exact L1|]. apply (LE_scalar nl ident_sql d col _ Q), lit_no_float.
    - assert (C : forall z v rest, In z cmp_syms -> stops rest -> R GNot ((b1 ++ [TSym z] ++ [vtok dis v]) ++ rest) (QCmp z a1 (QVal v), rest)).
      { intros z v rest I0 _. rewrite <- app_assoc. apply R_not_end; [apply (h_start _ _ _ _ G1 Hp)|]. apply (R_cond _ a1 (([TSym z] ++ [vtok dis v]) ++ rest)); [apply (h_prim _ _ _ _ G1 Hp)|].
        cbn [List.app]. apply R_sym; [exact I0|apply R_vtok]. }
      apply goodE_pair; [reflexivity| |]; intros rest ST; apply C; try exact ST; cbn; tauto.
    - intros w row nm (W1 & W2 & W3) A. cbn [sql_means query_means val_value]. rewrite <- Ho. change (streq #"between" #"not between") with false. rewrite W1, (S1 w row nm); [reflexivity|now split|exact A].
    - intros w row acc (W1 & W2 & W3). cbn [sql_means]. now rewrite W2.
  Qed.
  Lemma e_logic : forall l o r, op_logic o -> level r <= 5 -> fineE l -> fineE r -> fineE (ELogic l o r).
  Proof.
    intros l o r OP LV IH1 IH2 Hn n ps T H. cbn [neat2] in Hn. apply andb_prop in Hn as [Hn Ho]. apply andb_prop in Hn as [Hn1 Hn2].
    cbn [tree_of] in T. injection T as <-. destruct (tree_of lo l) as [ml|] eqn:T1; [|inversion H; noval]. destruct (tree_of lo r) as [mr|] eqn:T2; [|inversion H; noval].
    apply emits_logic_inv in H as (w & pa & pb & I1 & H1 & H2 & ->). cbn [nOperation mk_op] in I1. apply (logic_word lo o w OP) in I1. subst w.
    destruct (IH1 Hn1 _ _ T1 H1) as (b1 & a1 & app1 & L1 & G1 & S1 & J1). destruct (IH2 Hn2 _ _ T2 H2) as (b2 & a2 & app2 & L2 & G2 & S2 & J2).
    destruct (is_or o) eqn:E.
    - exists (b1 ++ [TWord #"or"] ++ b2), (QOr a1 a2), (fun acc => QAnd acc (QOr a1 a2)).
      split; [apply (LE_infix nl ident_sql d); [apply (fix_pad_word #"OR"); (discriminate || reflexivity)|reflexivity|exact L1|exact L2]|].
      split; [|split; [intros w row nm W A; cbn [sql_means query_means]; rewrite E; f_equal; [now apply S1|now apply S2]|apply joins_and]]. constructor.
      + discriminate.
      + discriminate.
      + cbn. lia.
      + cbn. lia.
      + cbn [loose_or]. rewrite E. discriminate.
      + intros rest x S N K. rewrite <- !app_assoc. apply (h_or _ _ _ _ G1); [reflexivity|reflexivity|]. cbn [List.app]. apply (R_or_more a1 _ a2 rest); [|exact K].
        apply (h_and _ _ _ _ G2); [now apply loose_level|exact S|now apply R_and_end].
    - cbn [orb] in Ho. apply Bool.negb_true_iff in Ho. exists (b1 ++ [TWord #"and"] ++ b2), (app2 a1), (fun acc => QAnd acc (app2 a1)).
      split; [apply (LE_infix nl ident_sql d); [apply (fix_pad_word #"AND"); (discriminate || reflexivity)|reflexivity|exact L1|exact L2]|].
      split; [|split; [|apply joins_and]].
      + assert (AND : forall rest x, stops rest -> R (GAndMore (app2 a1)) rest x -> R GAnd ((b1 ++ [TWord #"and"] ++ b2) ++ rest) x).
        { intros rest x S K. rewrite <- !app_assoc. apply (h_and _ _ _ _ G1); [exact Ho|reflexivity|]. cbn [List.app]. now apply (h_app _ _ _ _ G2). }
        constructor.
        * discriminate.
        * discriminate.
        * cbn. lia.
        * cbn. lia.
        * intros _. exact AND.
        * intros rest x S N K. apply (R_or _ (app2 a1) rest x); [|exact K]. apply AND; [exact S|]. now apply R_and_end.
      + intros w row nm W A. cbn [query_means]. rewrite E, (J2 w row a1 W). f_equal; [now apply S1|now apply S2].
  Qed.

  Lemma all_fineE : forall e t, lay e t -> fineE e.
  Proof.
    intros e t H. refine (lay_mind (fun e t _ => fineE e) (fun es t _ => Forall fineE es) _ _ _ _ _ _ _ _ _ _ _ _ _ _ _ _ _ _ e t H); clear e t H; intros.
    - apply e_lit.
    - apply e_arr.
    - now apply e_name.
    - intro K. discriminate K.
    - intro K. discriminate K.
    - apply e_call. constructor.
    - now apply e_call.
    - now apply e_call.
    - now apply e_paren.
    - now apply e_between.
    - now apply e_between.
    - now apply e_pred.
    - now apply e_in.
    - now apply e_cmp.
    - now apply e_not.
    - now apply e_logic.
    - now constructor.
    - now constructor.
  Qed.
  Lemma readsE : forall q e n ps, reads q e -> neat2 lo e = true -> tree_of lo e = Some n -> emit n ps ->
    exists a, reads_sql nl d (sql_of ident_sql d 0 ps) (vals ps) a /\ sameE e a.
  Proof.
    intros q e n ps (w1 & t & w2 & _ & _ & _ & Hl) Hn T H. destruct (all_fineE e t Hl Hn n ps T H) as (bts & a & app & L1 & G1 & S1 & _). exists a. split; [|exact S1].
    assert (K : R GOr (bts ++ []) (a, [])) by (apply (h_or _ _ _ _ G1); [exact I|exact I|now apply R_or_end]). rewrite app_nil_r in K. destruct K as (g & K).
    specialize (L1 [] [] [] [] I). assert (Z : TK nl (bindd d) [] (argsd d ([] ++ vals ps) []) []).
    { exists 1, []. split; [reflexivity|]. unfold bindd, argsd. destruct (pg d); reflexivity. }
    specialize (L1 Z). cbn [length N.of_nat] in L1. rewrite !app_nil_r in L1. destruct L1 as (f & ts & K1 & K2).
    unfold reads_sql. fold (pg d). unfold bindd, argsd in K2. destruct (pg d); exists (max f g), ts, bts; (split; [apply (lex_fuel nl f); [lia|exact K1]|]; split; [exact K2|]; apply (rd_fuel g); [lia|exact K]).
  Qed.
End SE.

Lemma neat2_json_free : forall lo e, neat2 lo e = true -> json_free e = true.
Proof.
  intros lo. fix IH 1. intros [v|x|xs|xs|f args|e|e o b x y|e o|e o p ls|l o r|e|l o r] H; cbn [neat2 json_free] in *; try reflexivity; try discriminate.
  - apply andb_prop in H as [_ H]. destruct args as [|a [|]]; try discriminate. cbn [forallb]. now rewrite (IH _ H).
  - now apply IH.
  - apply andb_prop in H as [H _]. apply andb_prop in H as [H _]. apply andb_prop in H as [H _]. apply andb_prop in H as [H _]. now apply IH.
  - apply andb_prop in H as [H _]. apply andb_prop in H as [H _]. now apply IH.
  - apply andb_prop in H as [H _]. apply andb_prop in H as [H _]. apply andb_prop in H as [H _]. now apply IH.
  - apply andb_prop in H as [H _]. apply andb_prop in H as [H _]. apply andb_prop in H as [H _]. apply andb_prop in H as [H1 H2]. now rewrite (IH _ H1), (IH _ H2).
  - apply andb_prop in H as [H _]. now apply IH.
  - apply andb_prop in H as [H _]. apply andb_prop in H as [H1 H2]. now rewrite (IH _ H1), (IH _ H2).
Qed.

Lemma query_sql : forall lo ident_sql edge_sql heap nl col d dis nd q e m t a, valid_runes q -> reads q e -> neat2 lo e = true -> quotes nl (ident_sql d) col ident ->
  query lo ident_sql edge_sql heap (fresh d dis nd q) = Some (m, (t, a)) -> no_error m ->
  exists b, reads_sql nl d t (map arg_value a) b /\
    forall w row nm, lawful w -> (forall x, nm [x] = row (col x)) -> sql_means w row b = query_means w lo nm e.
Proof.
  intros lo ident_sql edge_sql heap nl col d dis nd q e m t a Hq He Hn HQ H HE. pose proof (neat2_json_free lo e Hn) as Hj.
  destruct (query_complete lo ident_sql edge_sql heap d dis nd q m t a Hq H HE) as (n & ps & Hp & K & -> & ->).
  assert (Hf : fits e = true).
  { destruct (parse_ok_inv lo q _ Hq Hp) as (e2 & H2 & Hf & _). now rewrite (reads_unique _ _ _ He H2). }
  pose proof (parse_spec lo q e Hq He Hf Hj) as Hp'. rewrite Hp in Hp'. injection Hp' as Hp'. symmetry in Hp'.
  exact (readsE lo nl ident_sql edge_sql heap d dis nd col HQ q e n ps He Hn Hp' K).
Qed.

Lemma sql_unique : forall nl d t args a b, reads_sql nl d t args a -> reads_sql nl d t args b -> a = b.
Proof. intros nl d t args a b. unfold reads_sql. destruct (streq d #"postgres"); [apply numbers_unique|apply marks_unique]. Qed.
Lemma converted_quotes : forall qc, unquoted qc = false ->
  forall (f : list N -> list N) (P : list N -> Prop), (forall x, P x -> ~ In qc (f x)) -> quotes (lex_name qc) (fun x => quote_name qc (f x)) f P.
Proof.
  intros qc H1 f P H. destruct (dialect_quotes qc H1 (fun y => exists x, P x /\ y = f x)) as (K1 & K2 & K3).
  { intros y (x & Hx & ->). now apply H. }
  split; [exact K1|]. split; [intros x Hx; apply K2; now exists x|]. intros x t Hx E. apply K3; [now exists x|exact E].
Qed.
