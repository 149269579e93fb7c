(** C80: the condition of a query beside other conditions in ent. *)
From Verif Require Import Base Peg Grammar Node Vocab Tree Parse Syntax Blank ParseProofs ParserFacts ParserFacts2 ParserMain Build NodeFacts
  Gorm GormSpec GormSample GormFacts GormFacts4 EntSQL EntSQLSpec EntSQLSample EntSQLFacts3 SqlSpec SqlSpecDb SqlSpecEntDb SqlProofs SqlDialect SqlEnt SqlAll SqlEntLoose PropsSql PropsSqlEnt
  SqlSpecWhere SqlWhere3 PropsSqlWhere EntWhere SqlSpecEntWhere SqlEntWhere.
Require Import Lia.
Strategy expand [parse_machine rule_trace].
Strategy 1000 [parse_fuel mrun tok_trace].

(** A query without a top-level "or" is conditions that keep their meaning
    wherever they stand. *)
Theorem C80_query : forall lo nl ident_sql edge_sql heap d dis nd col q e m t a, quotes nl (ident_sql d) col ident ->
  valid_runes q -> reads q e -> simple2 lo e = true -> loose_or e = false ->
  query lo ident_sql edge_sql heap (fresh d dis nd q) = Some (m, (t, a)) -> no_error m ->
  exists xs, conjuncts nl d (mini_fn lo ident_sql edge_sql heap dis nd q) xs /\
    forall w row nm, (forall x, nm [x] = row (col x)) -> joined (wAnd w) (wVal w GNil) (map (sql_means w row) xs) = ent_means w lo nm e.
Proof. intros lo nl ident_sql edge_sql heap d dis nd col q e m t a Q. now apply mini_conjuncts. Qed.
(** A clause of such conditions is their "and". *)
Theorem C80_where : forall nl d, (forall c t, unquoted c = true -> nl (c :: t) = None) ->
  forall fs xss, fs <> [] -> Forall2 (conjuncts nl d) fs xss ->
  exists t x a, where_text d fs = Some (t, x, []) /\ reads_sql nl d t (map arg_value x) a /\
    forall w row, sql_means w row a = joined (wAnd w) (wVal w GNil) (map (sql_means w row) (concat xss)).
Proof. exact where_reads. Qed.
(** So a row meets the clause if and only if it meets each of them and the query. *)
Theorem C80_guard : forall lo nl ident_sql edge_sql heap d dis nd col q e m t a fs xss, quotes nl (ident_sql d) col ident -> Forall2 (conjuncts nl d) fs xss ->
  valid_runes q -> reads q e -> simple2 lo e = true -> loose_or e = false ->
  query lo ident_sql edge_sql heap (fresh d dis nd q) = Some (m, (t, a)) -> no_error m ->
  exists t x b, where_text d (fs ++ [mini_fn lo ident_sql edge_sql heap dis nd q]) = Some (t, x, []) /\ reads_sql nl d t (map arg_value x) b /\
    forall w row nm, (forall x, nm [x] = row (col x)) -> forall T : wV w -> Prop, (forall x y, T (wAnd w x y) <-> T x /\ T y) ->
      (T (sql_means w row b) <-> Forall (fun g => T (sql_means w row g)) (concat xss) /\ T (ent_means w lo nm e)).
Proof.
  intros lo nl ident_sql edge_sql heap d dis nd col q e m t a fs xss Q F Hq He Hn HL H HE.
  destruct (C80_query lo nl ident_sql edge_sql heap d dis nd col q e m t a Q Hq He Hn HL H HE) as (xs & C & S).
  destruct (C80_where nl d (proj1 Q) (fs ++ [mini_fn lo ident_sql edge_sql heap dis nd q]) (xss ++ [xs])) as (t' & x & b & E & RD & M).
  - intro K. now apply app_eq_nil in K as [_ K].
  - apply Forall2_app; [exact F|]. constructor; [exact C|constructor].
  - exists t', x, b. split; [exact E|]. split; [exact RD|]. intros w row nm A T HT. rewrite M, concat_app, map_app. cbn [concat]. rewrite app_nil_r.
    assert (J : forall l, l <> [] -> (T (joined (wAnd w) (wVal w GNil) l) <-> Forall T l)).
    { intros [|z l] N; [congruence|]. cbn [joined]. clear N. revert z. induction l as [|y l IH]; intro z; [split; [now constructor|intro K; now inversion K]|].
      cbn [fold_left]. rewrite IH. split; intro K; inversion_clear K as [|? ? K1 K2].
      - apply HT in K1 as [K0 K1]. now repeat constructor.
      - inversion_clear K2. constructor; [now apply HT|assumption]. }
    assert (N : map (sql_means w row) xs <> []). { destruct C as (bts & _ & C). apply run_some in C. now destruct xs. }
    rewrite J by (intro K; now apply app_eq_nil in K as [_ K]). rewrite Forall_app. rewrite <- (S w row nm A), (J _ N). rewrite Forall_map. reflexivity.
Qed.
(** Any query, after other conditions and before them: nothing is put in
    parentheses, so a condition counts for the nearest operand of a top-level "or". *)
Theorem C80_after : forall lo nl ident_sql edge_sql heap d dis nd col fs xss q e m t a, quotes nl (ident_sql d) col ident -> fs <> [] -> Forall2 (conjuncts nl d) fs xss ->
  valid_runes q -> reads q e -> simple2 lo e = true -> query lo ident_sql edge_sql heap (fresh d dis nd q) = Some (m, (t, a)) -> no_error m ->
  exists t x b, where_text d (fs ++ [mini_fn lo ident_sql edge_sql heap dis nd q]) = Some (t, x, []) /\ reads_sql nl d t (map arg_value x) b /\
    forall w row nm, (forall x, nm [x] = row (col x)) ->
      sql_means w row b = led w lo nm (joined (wAnd w) (wVal w GNil) (map (sql_means w row) (concat xss))) e.
Proof. intros lo nl ident_sql edge_sql heap d dis nd col fs xss q e m t a Q. now apply led_reads. Qed.
Theorem C80_before : forall lo nl ident_sql edge_sql heap d dis nd col g ys fs yss q e m t a, quotes nl (ident_sql d) col ident -> conjuncts nl d g ys -> Forall2 (conjuncts nl d) fs yss ->
  valid_runes q -> reads q e -> simple2 lo e = true -> query lo ident_sql edge_sql heap (fresh d dis nd q) = Some (m, (t, a)) -> no_error m ->
  exists t x b, where_text d (mini_fn lo ident_sql edge_sql heap dis nd q :: g :: fs) = Some (t, x, []) /\ reads_sql nl d t (map arg_value x) b /\
    forall w row nm, (forall x, nm [x] = row (col x)) ->
      sql_means w row b = fold_left (wAnd w) (map (sql_means w row) (concat yss)) (trailed w lo nm e (map (sql_means w row) ys)).
Proof. intros lo nl ident_sql edge_sql heap d dis nd col g ys fs yss q e m t a Q. now apply trailed_reads. Qed.
(** That is the "and" of the conditions and the query in every lawful world exactly
    for queries without a top-level "or". *)
Theorem C80_exact : forall lo e,
  ((forall w nm g, lawful w -> led w lo nm g e = wAnd w g (ent_means w lo nm e)) <-> loose_or e = false) /\
  ((forall w nm gs, lawful w -> gs <> [] -> trailed w lo nm e gs = wAnd w (ent_means w lo nm e) (joined (wAnd w) (wVal w GNil) gs)) <-> loose_or e = false).
Proof. intros lo e. split; [apply led_exact|apply trailed_exact]. Qed.
(** In parentheses every query is one of those of C80_query. *)
Theorem C80_parens : forall lo q e, reads q e -> simple2 lo e = true ->
  reads (#"(" ++ q ++ #")") (EParen e) /\ simple2 lo (EParen e) = true /\ loose_or (EParen e) = false /\ forall w nm, ent_means w lo nm (EParen e) = ent_means w lo nm e.
Proof.
  intros lo q e (w1 & t & w2 & -> & B1 & B2 & Hl) Hn. split; [|auto]. exists [], (#"(" ++ w1 ++ t ++ w2 ++ #")"), []. rewrite app_nil_r.
  split; [now rewrite <- !app_assoc|]. split; [apply blank_nil|]. split; [apply blank_nil|]. now apply lay_paren.
Qed.

(** ** Two queries *)
Definition mini4 (q : list N) : pfn := mini_fn lo2 ident4 edge3 heap3 false None q.
Definition texts (d : list N) (fs : list pfn) : option (list N * list gval) :=
  match where_text d fs with Some (t, a, []) => Some (t, map arg_value a) | _ => None end.
(** Three conditions in two dialects. *)
Example C80_ex : forall fs, fs = [mini4 #"a = 1 and not (b = 2 or c = 3)"; mini4 #"not a between 1 and 2"; mini4 #"a = 1 or b = 2 and c = 3"] ->
  texts #"mysql" fs = Some (#"(`a` = ? AND NOT (`b` = ? OR `c` = ?) AND NOT `a` >= ? AND `a` <= ?) AND `a` = ? OR `b` = ? AND `c` = ?", map GInt [1; 2; 3; 1; 2; 1; 2; 3]%Z) /\
  texts #"postgres" fs = Some (#"(" ++ quote_name 34 #"a" ++ #" = $1::int AND NOT (" ++ quote_name 34 #"b" ++ #" = $2::int OR " ++ quote_name 34 #"c" ++ #" = $3::int) AND NOT " ++ quote_name 34 #"a" ++ #" >= $4::int AND " ++ quote_name 34 #"a" ++ #" <= $5::int) AND " ++ quote_name 34 #"a" ++ #" = $6::int OR " ++ quote_name 34 #"b" ++ #" = $7::int AND " ++ quote_name 34 #"c" ++ #" = $8::int",
    map GInt [1; 2; 3; 1; 2; 1; 2; 3]%Z).
Proof. intros fs ->. split; vm_compute; reflexivity. Qed.
(** What C80_guard asks for: one query after another. *)
Definition e_guard : expr := ELogic (ECmp (EName #"a") #"=" (EVal (VLit (LInt #"1")))) #"and"
  (ENot (EParen (ELogic (ECmp (EName #"b") #"=" (EVal (VLit (LInt #"2")))) #"or" (ECmp (EName #"c") #"=" (EVal (VLit (LInt #"3"))))))).
Example C80_ex_guard : exists m t a xs, quotes (lex4 #"mysql") (ident4 #"mysql") (fun x => x) ident /\
  Forall2 (conjuncts (lex4 #"mysql") #"mysql") [mini4 #"a = 1 and not (b = 2 or c = 3)"] [xs] /\
  valid_runes #"a = 1 and not (b = 2 or c = 3)" /\ reads #"a = 1 and not (b = 2 or c = 3)" e_guard /\ simple2 lo2 e_guard = true /\ loose_or e_guard = false /\
  query lo2 ident4 edge3 heap3 (fresh #"mysql" false None #"a = 1 and not (b = 2 or c = 3)") = Some (m, (t, a)) /\ no_error m.
Proof.
  assert (K : exists m t a, query lo2 ident4 edge3 heap3 (fresh #"mysql" false None #"a = 1 and not (b = 2 or c = 3)") = Some (m, (t, a)) /\ no_error m)
    by (do 3 eexists; split; [vm_compute; reflexivity|reflexivity]).
  destruct K as (m & t & a & K1 & K2). assert (V : valid_runes #"a = 1 and not (b = 2 or c = 3)") by now apply valid_runesb_spec.
  destruct (C80_query lo2 (lex4 #"mysql") ident4 edge3 heap3 #"mysql" false None (fun x => x) _ e_guard m t a (quotes4 #"mysql") V (proj2 reads_abc) eq_refl eq_refl K1 K2) as (xs & C & _).
  exists m, t, a, xs. split; [exact (quotes4 #"mysql")|]. split; [constructor; [exact C|constructor]|]. split; [exact V|]. split; [exact (proj2 reads_abc)|]. now repeat split.
Qed.

(** With a top-level "or" a query widens what the conditions before it let
    through: here a row with b = 2 and c = 3, which the first condition keeps out. *)
Theorem C80_guard_refuted : ~ (forall lo nl ident_sql edge_sql heap d dis nd col q e m t a g qg eg mg tg ag, quotes nl (ident_sql d) col ident ->
  g = mini_fn lo ident_sql edge_sql heap dis nd qg ->
  valid_runes qg -> reads qg eg -> simple2 lo eg = true -> loose_or eg = false -> query lo ident_sql edge_sql heap (fresh d dis nd qg) = Some (mg, (tg, ag)) -> no_error mg ->
  valid_runes q -> reads q e -> simple2 lo e = true -> query lo ident_sql edge_sql heap (fresh d dis nd q) = Some (m, (t, a)) -> no_error m ->
  forall t x b w row nm (T : wV w -> Prop), where_text d [g; mini_fn lo ident_sql edge_sql heap dis nd q] = Some (t, x, []) -> reads_sql nl d t (map arg_value x) b ->
    (forall x, nm [x] = row (col x)) -> lawful w -> (forall x y, T (wAnd w x y) <-> T x /\ T y) ->
    T (sql_means w row b) -> T (ent_means w lo nm eg)).
Proof.
  intro H. set (row := fun x : list N => if streq x #"a" then VInt 0 else if streq x #"b" then VInt 2 else VInt 3).
  assert (K : forall q, In q [#"a = 1 and not (b = 2 or c = 3)"; #"a = 1 or b = 2 and c = 3"] -> exists m t a, query lo2 ident4 edge3 heap3 (fresh #"mysql" false None q) = Some (m, (t, a)) /\ no_error m)
    by (intros q [<-|[<-|[]]]; do 3 eexists; (split; [vm_compute; reflexivity|reflexivity])).
  destruct (K _ (or_introl eq_refl)) as (mg & tg & ag & G1 & G2). destruct (K _ (or_intror (or_introl eq_refl))) as (m & t & a & Q1 & Q2). clear K.
  specialize (H lo2 (lex4 #"mysql") ident4 edge3 heap3 #"mysql" false None (fun x => x) #"a = 1 or b = 2 and c = 3" _ m t a _ #"a = 1 and not (b = 2 or c = 3)" e_guard mg tg ag (quotes4 #"mysql") eq_refl
    ltac:(now apply valid_runesb_spec) (proj2 reads_abc) eq_refl eq_refl G1 G2 ltac:(now apply valid_runesb_spec) (proj1 reads_abc) eq_refl Q1 Q2
    #"`a` = ? AND NOT (`b` = ? OR `c` = ?) AND `a` = ? OR `b` = ? AND `c` = ?" (map ACast (map GInt [1; 2; 3; 1; 2; 3]%Z))
    (QOr (QAnd (QAnd (QCmp #"=" (QCol #"a") (QVal (GInt 1))) (QNot (QOr (QCmp #"=" (QCol #"b") (QVal (GInt 2))) (QCmp #"=" (QCol #"c") (QVal (GInt 3)))))) (QCmp #"=" (QCol #"a") (QVal (GInt 1))))
      (QAnd (QCmp #"=" (QCol #"b") (QVal (GInt 2))) (QCmp #"=" (QCol #"c") (QVal (GInt 3)))))
    world3 row (fun l => match l with x :: _ => row x | [] => VNull end) (fun v => v = VB true)).
  assert (E : where_text #"mysql" [mini_fn lo2 ident4 edge3 heap3 false None #"a = 1 and not (b = 2 or c = 3)"; mini_fn lo2 ident4 edge3 heap3 false None #"a = 1 or b = 2 and c = 3"] =
    Some (#"`a` = ? AND NOT (`b` = ? OR `c` = ?) AND `a` = ? OR `b` = ? AND `c` = ?", map ACast (map GInt [1; 2; 3; 1; 2; 3]%Z), [])) by (vm_compute; reflexivity).
  specialize (H E). clear E G1 G2 Q1 Q2.
  match type of H with ?A -> _ => assert (K : A) by (exists 80; do 2 eexists; split; [vm_compute; reflexivity|split; [vm_compute; reflexivity|vm_compute; reflexivity]]); specialize (H K); clear K end.
  specialize (H (fun x => eq_refl) (proj1 (proj2 C79_ex_world))).
  assert (A : forall x y, wAnd world3 x y = VB true <-> x = VB true /\ y = VB true) by (intros x y; split; [apply (proj2 (proj2 C79_ex_world))|now intros [-> ->]]).
  specialize (H A eq_refl). vm_compute in H. discriminate H.
Qed.

Print Assumptions C80_query.
Print Assumptions C80_where.
Print Assumptions C80_guard.
Print Assumptions C80_after.
Print Assumptions C80_before.
Print Assumptions C80_exact.
Print Assumptions C80_parens.
Print Assumptions C80_guard_refuted.
