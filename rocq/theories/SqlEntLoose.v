(** Proofs for C77: the conditions of entsql with any mix of "and", "or", "not" and
    "between", read as SQL. *)
From Verif Require Import Base Peg Node Vocab Tree Parse Syntax Blank ParseProofs NormProofs Unique ParserFacts ParserFacts2 ParserMain Build BuildProofs NodeFacts SafeInd
  Gorm GormSpec GormProofs GormFacts GormFacts2 GormFacts3 GormFacts4 TreeFacts EntSQL EntSQLSpec EntSQLProofs EntSQLFacts EntSQLFacts2 SqlSpec SqlProofs SqlProofs2 SqlProofs3 SqlGorm SqlDialect SqlSpecDb SqlSpecEntDb SqlLoose SqlEnt EntSQLFacts3.
Require Import Lia.
Strategy expand [parse_machine rule_trace].
Strategy 1000 [parse_fuel mrun tok_trace].

(** ** Conditions with "and" between them *)
Definition jn (xs : list sql) : sql := joined QAnd (QVal GNil) xs.
Inductive chainN : list tok -> list sql -> Prop :=
| ch_one : forall t x, (forall rest, stops rest -> R GNot (t ++ rest) (x, rest)) -> chainN t [x]
| ch_cons : forall t x ts xs, (forall rest, stops rest -> R GNot (t ++ rest) (x, rest)) -> chainN ts xs -> chainN (t ++ [TWord #"and"] ++ ts) (x :: xs).
Lemma chain_more : forall ts xs, chainN ts xs -> forall acc rest r, stops rest -> R (GAndMore (fold_left QAnd xs acc)) rest r -> R (GAndMore acc) (TWord #"and" :: ts ++ rest) r.
Proof.
  induction 1 as [t x H|t x ts xs H K IH]; intros acc rest r S G.
  - apply (R_and_more acc _ x rest r); [now apply H|exact G].
  - rewrite <- !app_assoc. apply (R_and_more acc _ x (TWord #"and" :: ts ++ rest) r); [now apply H|]. now apply IH.
Qed.
Lemma chain_and : forall ts xs, chainN ts xs -> forall rest r, stops rest -> R (GAndMore (jn xs)) rest r -> R GAnd (ts ++ rest) r.
Proof.
  intros ts xs [t x H|t x ts' xs' H K] rest r S G.
  - apply (R_and _ x rest r); [now apply H|exact G].
  - rewrite <- !app_assoc. apply (R_and _ x (TWord #"and" :: ts' ++ rest) r); [now apply H|]. now apply (chain_more ts' xs').
Qed.
Lemma chain_not : forall ts x xs, chainN ts (x :: xs) -> chainN ([TWord #"not"] ++ ts) (QNot x :: xs).
Proof.
  intros ts x xs H. inversion H as [t y H1|t y ts' ys H1 H2]; subst.
  - apply ch_one. intros rest S. apply R_not. now apply H1.
  - apply (ch_cons ([TWord #"not"] ++ t)); [|exact H2]. intros rest S. apply R_not. now apply H1.
Qed.
Lemma chain_nonempty : forall ts xs, chainN ts xs -> xs <> [].
Proof. now intros ts xs [t x H|t x ts' xs' H K]. Qed.

(** Tokens that are read as [xs] with "and" between them, and [d] "or" before *)
Record good4 (e : expr) (bts : list tok) (d : option sql) (xs : list sql) : Prop := {
  k_prim : prime e = true -> d = None /\ exists a, xs = [a] /\ (forall rest, R GPrim (bts ++ rest) (a, rest)) /\ forall rest, no_word #"not" (bts ++ rest);
  k_some : xs <> [];
  k_chain : level e <= 5 -> d = None /\ chainN bts xs;
  k_or : forall rest b us r, stops rest -> R (GAndMore (jn xs)) rest (b, us) -> R (GOrMore (sor d b)) us r -> R GOr (bts ++ rest) r
}.
Lemma good4_chain : forall e bts xs, level e <= 5 -> prime e = false -> chainN bts xs -> good4 e bts None xs.
Proof.
  intros e bts xs L1 H1 H. constructor; [congruence|now apply (chain_nonempty bts)|auto|]. intros rest b us r S K1 K2. apply (R_or _ b us r); [|exact K2]. now apply (chain_and bts xs).
Qed.
Lemma good4_prim : forall e bts a, level e = 0 -> (forall rest, R GPrim (bts ++ rest) (a, rest)) -> (forall rest, no_word #"not" (bts ++ rest)) -> good4 e bts None [a].
Proof.
  intros e bts a L1 H1 H2. assert (C : chainN bts [a]).
  { apply ch_one. intros rest S. apply R_not_end; [apply H2|]. apply (R_cond _ a rest); [apply H1|now apply R_cond_end]. }
  constructor; [eauto 6|discriminate|auto|]. intros rest b us r S K1 K2. apply (R_or _ b us r); [|exact K2]. now apply (chain_and bts [a]).
Qed.
Lemma good4_more : forall e bl al more a, (forall rest, R GPrim (bl ++ rest) (al, rest)) -> (forall rest, no_word #"not" (bl ++ rest)) -> level e <= 5 -> prime e = false ->
  (forall rest, stops rest -> R (GCondMore al) (more ++ rest) (a, rest)) -> good4 e (bl ++ more) None [a].
Proof.
  intros e bl al mo a P1 G1 LV NP H. apply good4_chain; [exact LV|exact NP|]. apply ch_one. intros rest S. rewrite <- app_assoc. apply R_not_end; [apply G1|].
  apply (R_cond _ al (mo ++ rest)); [apply P1|now apply H].
Qed.
Lemma good4_whole : forall e bts d xs, good4 e bts d xs -> forall rest r, stops rest -> no_word #"and" rest -> R (GOrMore (sor d (jn xs))) rest r -> R GOr (bts ++ rest) r.
Proof. intros e bts d xs G rest r S N K. apply (k_or _ _ _ _ G rest (jn xs) rest r S); [now apply R_and_end|exact K]. Qed.

Lemma sm_jn : forall w row xs, sql_means w row (jn xs) = joined (wAnd w) (wVal w GNil) (map (sql_means w row) xs).
Proof.
  intros w row [|x xs]; [reflexivity|]. unfold jn. cbn [joined map]. revert x. induction xs as [|y xs IH]; intro x; [reflexivity|]. cbn [fold_left map]. apply IH.
Qed.

Section SE.
  Variable lo : N -> N.
  Variable nl : list N -> option (list N * list N).
  Variable ident_sql : list N -> list N -> list N.
  Variable edge_sql : bool -> list N -> gnode -> gspec -> gnode -> option (list N * list N).
  Variable heap : nat -> gnode.
  Variable d : list N.
  Variable dis : bool.
  Variable c : option nat.
  Variable col : list N -> list N.
  Hypothesis Q : quotes nl (ident_sql d) col ident.
  Notation emit := (emits edge_sql heap d dis c).
  Notation LL := (LE nl ident_sql d).

  Ltac noval := match goal with K : go_value _ _ |- _ => apply go_value_type in K; discriminate K end.
  Lemma pred_named : forall o w, In (op_name lo o, w) pred_words -> named lo pred_ops o = true -> named lo [#"is null"; #"is not null"] o = true.
  Proof.
    intros o w H N. apply existsb_streq in N. assert (H' : In (op_name lo o, w) infix_words) by (apply in_or_app; now left). clear H. apply word_sql in H'. unfold named.
    generalize dependent (op_sql lo o). intros s N H. cbn [In] in H. decompose [or] H; clear H; try contradiction; match goal with K : (_, _) = (_, _) |- _ => injection K as <- <- end;
      try reflexivity; exfalso; unfold pred_ops in N; cbn [In] in N; decompose [or] N; (discriminate || contradiction).
  Qed.

  Definition same4 (e : expr) (dd : option sql) (xs : list sql) : Prop := forall w row nm, (forall x, nm [x] = row (col x)) ->
    option_map (sql_means w row) dd = fst (ent_parts w lo nm e) /\ map (sql_means w row) xs = snd (ent_parts w lo nm e).
  Definition sameW4 (e : expr) (a : sql) : Prop := forall w row nm, (forall x, nm [x] = row (col x)) -> sql_means w row a = ent_means w lo nm e.
  Definition fine4 (e : expr) : Prop := simple2 lo e = true -> forall n ps, tree_of lo e = Some n -> emit n ps ->
    exists bts dd xs, LL ps bts /\ good4 e bts dd xs /\ same4 e dd xs.
  Lemma same4_whole : forall e dd xs, same4 e dd xs -> sameW4 e (sor dd (jn xs)).
  Proof.
    intros e dd xs H w row nm A. destruct (H w row nm A) as [H1 H2]. unfold ent_means, whole2. destruct (ent_parts w lo nm e) as [d' a']. cbn [fst snd] in H1, H2. subst.
    destruct dd as [dd|]; cbn [sor option_map sql_means]; now rewrite sm_jn.
  Qed.
  Lemma use_prime : forall e, fine4 e -> prime e = true -> simple2 lo e = true -> forall n ps, tree_of lo e = Some n -> emit n ps ->
    exists bts a, LL ps bts /\ (forall rest, R GPrim (bts ++ rest) (a, rest)) /\ (forall rest, no_word #"not" (bts ++ rest)) /\ sameW4 e a.
  Proof.
    intros e H Hp Hn n ps T K. destruct (H Hn n ps T K) as (bts & dd & xs & L1 & G1 & S1). destruct (k_prim _ _ _ _ G1 Hp) as (-> & a & -> & P1 & P2). exists bts, a. split; [exact L1|]. split; [exact P1|]. split; [exact P2|].
    exact (same4_whole e None [a] S1).
  Qed.
  Lemma use_whole : forall e, fine4 e -> simple2 lo e = true -> forall n ps, tree_of lo e = Some n -> emit n ps ->
    exists bts a, LL ps bts /\ (forall rest, stops rest -> no_word #"and" rest -> (forall w us, rest = TWord w :: us -> streq w #"or" = false) -> R GOr (bts ++ rest) (a, rest)) /\ sameW4 e a.
  Proof.
    intros e H Hn n ps T K. destruct (H Hn n ps T K) as (bts & dd & xs & L1 & G1 & S1). exists bts, (sor dd (jn xs)). split; [exact L1|]. split; [|now apply same4_whole].
    intros rest S N O. apply (good4_whole _ _ _ _ G1); [exact S|exact N|]. apply R_or_end. destruct rest as [|[] ?]; try exact I. cbn. now apply (O w rest).
  Qed.

  Lemma m_lit : forall l, fine4 (EVal (VLit l)).
  Proof.
    intros l _ n ps T H. injection T as <-. apply emit_lit in H. subst. exists [vtok dis (lit_value l)], None, [QVal (lit_value l)].
    split; [apply (LE_scalar nl ident_sql d col _ Q), lit_no_float|]. split; [|intros w row nm _; now split].
    apply good4_prim; [reflexivity|intro; apply R_vtok|]. intro rest. unfold vtok. destruct (dis && is_nil (lit_value l)); reflexivity || exact I.
  Qed.
  Lemma m_arr : forall p ls, fine4 (EVal (VArr p ls)).
  Proof. intros p ls H. discriminate H. Qed.
  Lemma m_name : forall x, ident x -> fine4 (EName x).
  Proof.
    intros x I0 _ n ps [= <-] H. inversion H; subst; try noval. exists [TName (col x)], None, [QCol (col x)].
    split; [now apply (LE_name nl ident_sql d col _ Q)|]. split; [apply good4_prim; [reflexivity|intro; apply R_name|intro; exact I]|].
    intros w row nm A. cbn [sql_means ent_parts map option_map fst snd]. split; [reflexivity|]. now rewrite A.
  Qed.
  Lemma m_ref : forall xs, fine4 (ERef xs).
  Proof. intros xs _ n ps T H. cbn [tree_of] in T. injection T as <-. inversion H; subst; noval. Qed.
  Lemma m_paren : forall e, fine4 e -> fine4 (EParen e).
  Proof.
    intros e IH Hn n ps T H. cbn [simple2] in Hn. cbn [tree_of] in T. injection T as <-. destruct (tree_of lo e) as [m|] eqn:T; [|inversion H; noval].
    apply emits_paren_inv in H as (b & H & ->). destruct (use_whole e IH Hn _ _ T H) as (bts & a & L1 & G1 & S1).
    exists ([TOpen] ++ bts ++ [TClose]), None, [a]. split; [apply (LE_paren nl ident_sql d col _ Q); [intros t args us; now apply (TK_open nl _ (other d) (proj1 Q))|exact L1]|].
    split.
    - apply good4_prim; [reflexivity| |intro; exact I]. intro rest. cbn [List.app]. rewrite <- app_assoc. apply R_paren. apply G1; [exact I|exact I|discriminate].
    - intros w row nm A. cbn [ent_parts map option_map fst snd]. split; [reflexivity|]. f_equal. now apply S1.
  Qed.
  Lemma emit_call : forall f l ps, f <> #"has_edge" -> emit (mk_function f l) ps -> f = #"date" /\ exists m r a, l = Some m :: r /\ emit m a /\ ps = SFix #"DATE(" :: a ++ [SFix #")"].
  Proof.
    intros f l ps NE H. remember (mk_function f l) as n eqn:E. destruct H; try discriminate E; [subst; noval|..]; injection E as <- <-; [|now destruct NE..]. split; [reflexivity|]. eauto 6.
  Qed.
  Lemma m_call : forall f args, Forall fine4 args -> fine4 (ECall f args).
  Proof.
    intros f args IH Hn n ps T H. cbn [simple2] in Hn. apply andb_prop in Hn as [F Hn]. apply Bool.negb_true_iff in F.
    cbn [tree_of] in T. injection T as <-. apply emit_call in H as (-> & m & l & b & E & H & ->); [|intros ->; discriminate F].
    destruct args as [|e args]; [discriminate E|]. cbn [map] in E. injection E as T _. cbn [forallb] in Hn. apply andb_prop in Hn as [Hn _].
    inversion_clear IH as [|? ? IH1 _]. destruct (use_whole e IH1 Hn _ _ T H) as (bts & a & L1 & G1 & S1).
    exists ([TWord #"date"; TOpen] ++ bts ++ [TClose]), None, [QDate a]. split; [apply (LE_paren nl ident_sql d col _ Q); [|exact L1]|].
    - intros t args0 us K. change (#"DATE(" ++ t) with (#"DATE" ++ #"(" ++ t). apply (TK_word nl _ (other d) (proj1 Q) #"DATE"); [discriminate|reflexivity|reflexivity|].
      now apply (TK_open nl _ (other d) (proj1 Q)).
    - split.
      + apply good4_prim; [reflexivity| |intro; reflexivity]. intro rest. cbn [List.app]. rewrite <- app_assoc. apply R_date. apply G1; [exact I|exact I|discriminate].
      + intros w row nm A. cbn [ent_parts map option_map fst snd sql_means]. split; [reflexivity|]. f_equal. f_equal. now apply S1.
  Qed.
  Lemma m_not : forall e, level e <= 4 -> fine4 e -> fine4 (ENot e).
  Proof.
    intros e LV IH Hn n ps T H. cbn [simple2] in Hn. cbn [tree_of] in T. injection T as <-. destruct (tree_of lo e) as [m|] eqn:T; [|inversion H; noval].
    apply emits_not_inv in H as (b & H & ->). destruct (IH Hn _ _ T H) as (bts & dd & xs & L1 & G1 & S1). destruct (k_chain _ _ _ _ G1 ltac:(lia)) as [-> C].
    destruct xs as [|x xs]; [now destruct (chain_nonempty _ _ C)|]. exists ([TWord #"not"] ++ bts), None, (QNot x :: xs). split; [apply (LE_prefix nl ident_sql d); [|exact L1]|].
    - intros t args us K. change (#"NOT " ++ t) with (#"NOT" ++ #" " ++ t). apply (TK_word nl _ (other d) (proj1 Q) #"NOT"); [discriminate|reflexivity|reflexivity|].
      now apply (TK_blank nl _ (proj1 Q)).
    - split.
      + apply good4_chain; [cbn; lia|reflexivity|]. now apply chain_not.
      + intros w row nm A. destruct (S1 w row nm A) as [X1 X2]. cbn [ent_parts fst snd]. split; [reflexivity|]. unfold ands. destruct (ent_parts w lo nm e) as [d' a']. cbn [fst snd option_map] in X1, X2. subst d' a'. reflexivity.
  Qed.
  Lemma m_pred : forall e o, fine4 e -> fine4 (EPred e o).
  Proof.
    intros e o IH Hn n ps T H. cbn [simple2] in Hn. apply andb_prop in Hn as [Hn Ho]. apply andb_prop in Hn as [Hn Hp]. cbn [tree_of] in T. injection T as <-. destruct (tree_of lo e) as [m|] eqn:T; [|inversion H; noval].
    apply emit_pred in H as (w & b & I1 & H & ->). cbn [nOperation mk_op] in I1. destruct (read_predE lo nl ident_sql d col Q o w I1 (pred_named o w I1 Ho)) as (bo & F & B & R2). destruct (use_prime e IH Hp Hn _ _ T H) as (bts & a & L1 & G1 & G2 & S1).
    exists (bts ++ bo), None, [QPred (op_sql lo o) a]. split; [now apply (LE_suffix nl ident_sql d)|]. split.
    - apply (good4_more _ bts a); [exact G1|exact G2|cbn; lia|reflexivity|]. intros rest S. apply R2.
    - intros w0 row nm A. cbn [ent_parts map option_map fst snd sql_means]. split; [reflexivity|]. f_equal. f_equal. now apply S1.
  Qed.
  Lemma m_cmp : forall l o r, fine4 l -> fine4 r -> fine4 (ECmp l o r).
  Proof.
    intros l o r IH1 IH2 Hn n ps T H. cbn [simple2] in Hn. apply andb_prop in Hn as [Hn Ho]. apply andb_prop in Hn as [Hn Hr]. apply andb_prop in Hn as [Hn Hl]. apply andb_prop in Hn as [Hn1 Hn2].
    cbn [tree_of] in T. injection T as <-. destruct (tree_of lo l) as [ml|] eqn:T1; [|inversion H; noval]. destruct (tree_of lo r) as [mr|] eqn:T2; [|inversion H; noval].
    apply emit_cmp in H as (w & pa & pb & I1 & H1 & H2 & ->). cbn [nOperation mk_op] in I1. destruct (read_cmpE lo nl ident_sql edge_sql d dis col Q o w I1 Ho) as (bo & F & B & R3).
    destruct (use_prime l IH1 Hl Hn1 _ _ T1 H1) as (b1 & a1 & L1 & G1 & G1' & S1). destruct (use_prime r IH2 Hr Hn2 _ _ T2 H2) as (b2 & a2 & L2 & G2 & G2' & S2).
    exists (b1 ++ bo ++ b2), None, [QCmp (op_sql lo o) a1 a2]. split; [now apply (LE_infix nl ident_sql d)|]. split.
    - apply (good4_more _ b1 a1); [exact G1|exact G1'|cbn; lia|reflexivity|]. intros rest S. rewrite <- app_assoc. apply R3. apply G2.
    - intros w0 row nm A. cbn [ent_parts map option_map fst snd sql_means]. split; [reflexivity|]. f_equal. f_equal; [now apply S1|now apply S2].
  Qed.
  Lemma m_in : forall e o p ls, fine4 e -> fine4 (EIn e o p ls).
  Proof.
    intros e o p ls IH Hn n ps T H. cbn [simple2] in Hn. apply andb_prop in Hn as [Hn Hz]. apply andb_prop in Hn as [Hn Ho]. apply andb_prop in Hn as [Hn Hp].
    assert (NE : map lit_value ls <> []) by (destruct ls; [discriminate Hz|discriminate]).
    cbn [tree_of] in T. injection T as <-. destruct (tree_of lo e) as [m|] eqn:T; [|inversion H; noval].
    apply emit_cmp in H as (w & pa & pb & I1 & H1 & H2 & ->). cbn [nOperation mk_op] in I1. destruct (read_inE lo nl ident_sql d col Q o w I1 Ho) as (bo & F & B & R3). apply (emit_arr edge_sql heap d dis c p) in H2. subst pb.
    destruct (use_prime e IH Hp Hn _ _ T H1) as (b1 & a1 & L1 & G1 & G1' & S1).
    exists (b1 ++ bo ++ [TOpen] ++ ctoks (map lit_value ls) ++ [TClose]), None, [QCmp (op_sql lo o) a1 (QList (map QVal (map lit_value ls)))].
    split; [|split].
    - apply (LE_infix nl ident_sql d); [exact F|exact B|exact L1|]. apply (LE_paren nl ident_sql d col _ Q); [intros t args us; now apply (TK_open nl _ (other d) (proj1 Q))|].
      apply (LE_commas nl ident_sql d col _ Q); [exact NE|apply lits_no_float].
    - apply (good4_more _ b1 a1); [exact G1|exact G1'|cbn; lia|reflexivity|]. intros rest S. rewrite <- app_assoc. apply R3.
      cbn [List.app]. rewrite <- app_assoc. now apply R_values.
    - intros w0 row nm A. cbn [ent_parts map option_map fst snd sql_means]. split; [reflexivity|]. f_equal. f_equal; [now apply S1|]. f_equal. now rewrite map_map.
  Qed.
  Lemma m_between : forall e o b x y, fine4 e -> fine4 (EBetween e o b x y).
  Proof.
    intros e o b x y IH Hn n ps T H. cbn [simple2] in Hn. apply andb_prop in Hn as [Hn Hy]. apply andb_prop in Hn as [Hn Hx]. apply andb_prop in Hn as [Hn Ho]. apply andb_prop in Hn as [Hn Hp].
    destruct x as [x|]; [|discriminate]. destruct y as [y|]; [|discriminate]. cbn [tree_of] in T. injection T as <-. destruct (tree_of lo e) as [m|] eqn:T; [|inversion H; noval].
    apply emits_between_inv in H as (pa & px & py & H & Kx & Ky & K). apply (emit_lit edge_sql heap d dis c x) in Kx. apply (emit_lit edge_sql heap d dis c y) in Ky. subst px py. cbn [nOperation mk_op] in K.
    destruct (use_prime e IH Hp Hn _ _ T H) as (b1 & a1 & L1 & G1 & G1' & S1).
    assert (S : forall z, In z cmp_syms -> fixes nl d (#" " ++ z ++ #" ") [TSym z]).
    { intros z I0. apply (fix_padded nl ident_sql d col _ Q). now apply (close_sym nl ident_sql d col _ Q). }
    assert (C : forall z v rest, In z cmp_syms -> stops rest -> R GNot ((b1 ++ [TSym z] ++ [vtok dis v]) ++ rest) (QCmp z a1 (QVal v), rest)).
    { intros z v rest I0 _. rewrite <- app_assoc. apply R_not_end; [apply G1'|]. apply (R_cond _ a1 (([TSym z] ++ [vtok dis v]) ++ rest)); [apply G1|].
      cbn [List.app]. apply R_sym; [exact I0|apply R_vtok]. }
    assert (D : forall u v, In u cmp_syms -> In v cmp_syms ->
      LL (pa ++ SFix (#" " ++ u ++ #" ") :: [scalar_piece dis (lit_value x)] ++ SFix #" AND " :: pa ++ SFix (#" " ++ v ++ #" ") :: [scalar_piece dis (lit_value y)])
        ((b1 ++ [TSym u] ++ [vtok dis (lit_value x)]) ++ [TWord #"and"] ++ (b1 ++ [TSym v] ++ [vtok dis (lit_value y)])) /\
      good4 (EBetween e o b (VLit x) (VLit y)) ((b1 ++ [TSym u] ++ [vtok dis (lit_value x)]) ++ [TWord #"and"] ++ (b1 ++ [TSym v] ++ [vtok dis (lit_value y)])) None
        [QCmp u a1 (QVal (lit_value x)); QCmp v a1 (QVal (lit_value y))]).
    { intros u v U V. split.
      - replace (pa ++ SFix (#" " ++ u ++ #" ") :: [scalar_piece dis (lit_value x)] ++ SFix #" AND " :: pa ++ SFix (#" " ++ v ++ #" ") :: [scalar_piece dis (lit_value y)])
          with ((pa ++ SFix (#" " ++ u ++ #" ") :: [scalar_piece dis (lit_value x)]) ++ SFix #" AND " :: pa ++ SFix (#" " ++ v ++ #" ") :: [scalar_piece dis (lit_value y)]) by now rewrite <- app_assoc.
        apply (LE_infix nl ident_sql d); [apply (fix_pad_word nl ident_sql d col Q #"AND"); (discriminate || reflexivity)|reflexivity| |].
        + apply (LE_infix nl ident_sql d); [now apply S|reflexivity|exact L1|]. apply (LE_scalar nl ident_sql d col _ Q), lit_no_float.
        + apply (LE_infix nl ident_sql d); [now apply S|reflexivity|exact L1|]. apply (LE_scalar nl ident_sql d col _ Q), lit_no_float.
      - apply good4_chain; [cbn; lia|reflexivity|]. apply ch_cons; [intros rest ST; now apply C|]. apply ch_one. intros rest ST. now apply C. }
    destruct K as [[K ->]|[K ->]].
    - destruct (D #">=" #"<=" ltac:(cbn; tauto) ltac:(cbn; tauto)) as [D1 D2]. do 3 eexists. split; [exact D1|]. split; [exact D2|].
      intros w row nm A. cbn [ent_parts map option_map fst snd sql_means val_value]. split; [reflexivity|]. rewrite (S1 w row nm A). unfold ent_means.
      assert (E : streq (op_sql lo o) #"not between" = false).
      { apply existsb_streq in Ho. destruct Ho as [Ho|[Ho|[]]]; [now rewrite <- Ho|]. exfalso. unfold op_sql in Ho. destruct (find _ sql_word) as [[k s]|] eqn:F; [|now apply K].
        apply find_some in F as [F _]. subst s. clear - F. unfold sql_word in F. cbn [In] in F. decompose [or] F; (contradiction || (match goal with X : (_, _) = (_, _) |- _ => injection X as _ X; discriminate X end)). }
      now rewrite E.
    - destruct (D #"<" #">" ltac:(cbn; tauto) ltac:(cbn; tauto)) as [D1 D2]. do 3 eexists. split; [exact D1|]. split; [exact D2|].
      intros w row nm A. cbn [ent_parts map option_map fst snd sql_means val_value]. split; [reflexivity|]. rewrite (S1 w row nm A). unfold ent_means.
      assert (E : streq (op_sql lo o) #"not between" = true) by (unfold op_sql; now rewrite K). now rewrite E.
  Qed.
  Lemma m_logic : forall l o r, op_logic o -> level r <= 5 -> fine4 l -> fine4 r -> fine4 (ELogic l o r).
  Proof.
    intros l o r OP LV IH1 IH2 Hn n ps T H. cbn [simple2] in Hn. apply andb_prop in Hn as [Hn1 Hn2].
    cbn [tree_of] in T. injection T as <-. destruct (tree_of lo l) as [ml|] eqn:T1; [|inversion H; noval]. destruct (tree_of lo r) as [mr|] eqn:T2; [|inversion H; noval].
    apply emits_logic_inv in H as (w & pa & pb & I1 & H1 & H2 & ->). cbn [nOperation mk_op] in I1. apply (logic_word lo o w OP) in I1. subst w.
    destruct (IH1 Hn1 _ _ T1 H1) as (b1 & d1 & xs1 & L1 & G1 & S1). destruct (IH2 Hn2 _ _ T2 H2) as (b2 & d2 & xs2 & L2 & G2 & S2). destruct (k_chain _ _ _ _ G2 LV) as [-> C2].
    assert (A2 : forall w row nm, (forall x, nm [x] = row (col x)) -> map (sql_means w row) xs2 = ands w (ent_parts w lo nm r)).
    { intros w row nm A. destruct (S2 w row nm A) as [X1 X2]. unfold ands. destruct (ent_parts w lo nm r) as [d' a']. cbn [fst snd option_map] in X1, X2. now subst. }
    destruct (is_or o) eqn:E.
    - exists (b1 ++ [TWord #"or"] ++ b2), (Some (sor d1 (jn xs1))), xs2.
      split; [apply (LE_infix nl ident_sql d); [apply (fix_pad_word nl ident_sql d col Q #"OR"); (discriminate || reflexivity)|reflexivity|exact L1|exact L2]|].
      split; [constructor; [discriminate|exact (k_some _ _ _ _ G2)|cbn; lia|]|].
      + intros rest b us x S K1 K2. rewrite <- !app_assoc. apply (good4_whole _ _ _ _ G1); [reflexivity|reflexivity|]. cbn [List.app]. apply (R_or_more _ _ b us); [|exact K2].
        now apply (chain_and b2 xs2).
      + intros w row nm A. cbn [ent_parts]. rewrite E. cbn [fst snd option_map]. split; [f_equal; now apply same4_whole|now apply A2].
    - exists (b1 ++ [TWord #"and"] ++ b2), d1, (xs1 ++ xs2).
      split; [apply (LE_infix nl ident_sql d); [apply (fix_pad_word nl ident_sql d col Q #"AND"); (discriminate || reflexivity)|reflexivity|exact L1|exact L2]|].
      split; [constructor; [discriminate|pose proof (k_some _ _ _ _ G1); now destruct xs1|cbn; lia|]|].
      + intros rest b us x S K1 K2. rewrite <- !app_assoc. apply (k_or _ _ _ _ G1 _ b us); [reflexivity| |exact K2]. cbn [List.app]. apply (chain_more b2 xs2 C2); [exact S|].
        assert (J : jn (xs1 ++ xs2) = fold_left QAnd xs2 (jn xs1)).
        { destruct xs1 as [|z xs1]; [|unfold jn; cbn [joined List.app]; now rewrite fold_left_app]. now destruct (k_some _ _ _ _ G1). }
        now rewrite <- J.
      + intros w row nm A. cbn [ent_parts]. rewrite E. cbn [fst snd option_map]. destruct (S1 w row nm A) as [X1 X2]. split; [exact X1|]. rewrite map_app. f_equal; [exact X2|now apply A2].
  Qed.

  Lemma all_fine4 : forall e t, lay e t -> fine4 e.
  Proof.
    intros e t H. refine (lay_mind (fun e t _ => fine4 e) (fun es t _ => Forall fine4 es) _ _ _ _ _ _ _ _ _ _ _ _ _ _ _ _ _ _ e t H); clear e t H; intros.
    - apply m_lit.
    - apply m_arr.
    - now apply m_name.
    - apply m_ref.
    - intro K. discriminate K.
    - apply m_call. constructor.
    - now apply m_call.
    - now apply m_call.
    - now apply m_paren.
    - now apply m_between.
    - now apply m_between.
    - now apply m_pred.
    - now apply m_in.
    - now apply m_cmp.
    - now apply m_not.
    - now apply m_logic.
    - now constructor.
    - now constructor.
  Qed.
  Lemma reads4 : forall q e n ps, reads q e -> simple2 lo e = true -> tree_of lo e = Some n -> emit n ps ->
    exists a, reads_sql nl d (sql_of ident_sql d 0 ps) (vals ps) a /\ sameW4 e a.
  Proof.
    intros q e n ps (w1 & t & w2 & _ & _ & _ & Hl) Hn T H. destruct (all_fine4 e t Hl Hn n ps T H) as (bts & dd & xs & L1 & G1 & S1). exists (sor dd (jn xs)). split; [|now apply same4_whole].
    assert (K : R GOr (bts ++ []) (sor dd (jn xs), [])) by (apply (good4_whole _ _ _ _ G1); [exact I|exact I|destruct dd; now apply R_or_end]). rewrite app_nil_r in K. destruct K as (g & K).
    specialize (L1 [] [] [] [] I). assert (Z : TK nl (bindd d) [] (argsd d ([] ++ vals ps) []) []).
    { exists 1, []. split; [reflexivity|]. unfold bindd, argsd. destruct (pg d); reflexivity. }
    specialize (L1 Z). cbn [length N.of_nat] in L1. rewrite !app_nil_r in L1. destruct L1 as (f & ts & K1 & K2).
    unfold reads_sql. fold (pg d). unfold bindd, argsd in K2. destruct (pg d); exists (max f g), ts, bts; (split; [apply (lex_fuel nl f); [lia|exact K1]|]; split; [exact K2|]; apply (rd_fuel g); [lia|exact K]).
  Qed.
End SE.

Lemma simple2_json_free : forall lo e, simple2 lo e = true -> json_free e = true.
Proof.
  intros lo. fix IH 1. intros [v|x|xs|xs|f args|e|e o b x y|e o|e o p ls|l o r|e|l o r] H; cbn [simple2 json_free] in *; try reflexivity; try discriminate.
  - apply andb_prop in H as [_ H]. revert args H. fix IHL 1. intros [|a args] H; [reflexivity|]. cbn [forallb] in *. apply andb_prop in H as [H1 H2]. now rewrite (IH _ H1), (IHL _ H2).
  - now apply IH.
  - apply andb_prop in H as [H _]. apply andb_prop in H as [H _]. apply andb_prop in H as [H _]. apply andb_prop in H as [H _]. now apply IH.
  - apply andb_prop in H as [H _]. apply andb_prop in H as [H _]. now apply IH.
  - apply andb_prop in H as [H _]. apply andb_prop in H as [H _]. apply andb_prop in H as [H _]. now apply IH.
  - apply andb_prop in H as [H _]. apply andb_prop in H as [H _]. apply andb_prop in H as [H _]. apply andb_prop in H as [H1 H2]. now rewrite (IH _ H1), (IH _ H2).
  - now apply IH.
  - apply andb_prop in H as [H1 H2]. now rewrite (IH _ H1), (IH _ H2).
Qed.

Lemma query_db : forall lo ident_sql edge_sql heap nl col d dis nd q e m t a, valid_runes q -> reads q e -> simple2 lo e = true -> quotes nl (ident_sql d) col ident ->
  query lo ident_sql edge_sql heap (fresh d dis nd q) = Some (m, (t, a)) -> no_error m ->
  exists b, reads_sql nl d t (map arg_value a) b /\
    forall w row nm, (forall x, nm [x] = row (col x)) -> sql_means w row b = ent_means w lo nm e.
Proof.
  intros lo ident_sql edge_sql heap nl col d dis nd q e m t a Hq He Hn HQ H HE. pose proof (simple2_json_free lo e Hn) as Hj.
  destruct (query_complete lo ident_sql edge_sql heap d dis nd q m t a Hq H HE) as (n & ps & Hp & K & -> & ->).
  assert (Hf : fits e = true).
  { destruct (parse_ok_inv lo q _ Hq Hp) as (e2 & H2 & Hf & _). now rewrite (reads_unique _ _ _ He H2). }
  pose proof (parse_spec lo q e Hq He Hf Hj) as Hp'. rewrite Hp in Hp'. injection Hp' as Hp'. symmetry in Hp'.
  exact (reads4 lo nl ident_sql edge_sql heap d dis nd col HQ q e n ps He Hn Hp' K).
Qed.


Lemma reads_not_between : reads #"a not between 1 and 2" (EBetween (EName #"a") #"not between" false (VLit (LInt #"1")) (VLit (LInt #"2"))).
Proof.
  assert (B : blank #" ") by (apply blank_char; [reflexivity|constructor]).
  exists [], #"a not between 1 and 2", []. rewrite app_nil_r. refine (conj eq_refl (conj blank_nil (conj blank_nil _))).
  apply (lay_between (EName #"a") #"a" #" " #"not between" #" " (VLit (LInt #"1")) #"1" #" " #"and" #" " (VLit (LInt #"2")) #"2"); auto; try (cbn; lia); try reflexivity.
  - apply lay_name; [one_char|]. intros [K|[K|[K|[K|[K|K]]]]]; destruct K as [r K]; discriminate.
  - right. exists #"not", #" ". repeat split; [exact B|discriminate].
  - constructor. now apply lt_int.
  - constructor. now apply lt_int.
  - intros _. reflexivity.
Qed.
