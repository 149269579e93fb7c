(** C87: what the condition of entsql means for a list of queries put together by
    Join, alone and beside other conditions. *)
From Verif Require Import Base Peg Grammar Node Vocab Tree Parse Syntax Blank ParseProofs ParserFacts ParserFacts2 ParserMain Build NodeFacts Reader
  Gorm GormSpec GormSample GormFacts GormFacts4 EntSQL EntSQLSpec EntSQLSample EntSQLFacts3 SqlSpec SqlSpecDb SqlSpecEntDb SqlProofs SqlDialect SqlEnt SqlAll SqlEntLoose PropsSql PropsSqlEnt
  SqlSpecWhere SqlWhere3 PropsSqlWhere EntWhere SqlSpecEntWhere SqlEntWhere SqlScope SqlEntScope PropsSqlEntWhere.
Strategy expand [parse_machine rule_trace].
Strategy 1000 [parse_fuel mrun tok_trace].

(** Blank entries aside, the condition is the "and" of those of the entries,
    however these mix "and", "or", "not" and "between". *)
Theorem C87_join : forall lo ident_sql edge_sql heap nl col d dis nd x y l e es m t a,
  Forall valid_runes (x :: y :: l) -> Forall2 reads (filter (fun v => negb (blank_entry v)) (x :: y :: l)) (e :: es) -> forallb (simple2 lo) (e :: es) = true -> quotes nl (ident_sql d) col ident ->
  query lo ident_sql edge_sql heap (fresh d dis nd (Build.join (x :: y :: l))) = Some (m, (t, a)) -> no_error m ->
  exists b, reads_sql nl d t (map arg_value a) b /\
    forall w row nm, (forall x, nm [x] = row (col x)) -> sql_means w row b = fold_left (wAnd w) (map (ent_means w lo nm) es) (ent_means w lo nm e).
Proof. exact ent_join. Qed.
(** After other conditions in a selector: a row meets the clause if and only if it
    meets each of them and each entry. *)
Theorem C87_guard : forall lo nl ident_sql edge_sql heap d dis nd col x y l e es m t a fs xss, quotes nl (ident_sql d) col ident -> Forall2 (conjuncts nl d) fs xss ->
  Forall valid_runes (x :: y :: l) -> Forall2 reads (filter (fun v => negb (blank_entry v)) (x :: y :: l)) (e :: es) -> forallb (simple2 lo) (e :: es) = true ->
  query lo ident_sql edge_sql heap (fresh d dis nd (Build.join (x :: y :: l))) = Some (m, (t, a)) -> no_error m ->
  exists t x' b, where_text d (fs ++ [mini_fn lo ident_sql edge_sql heap dis nd (Build.join (x :: y :: l))]) = Some (t, x', []) /\ reads_sql nl d t (map arg_value x') b /\
    forall w row nm, (forall x, nm [x] = row (col x)) -> forall T : wV w -> Prop, (forall x y, T (wAnd w x y) <-> T x /\ T y) ->
      (T (sql_means w row b) <-> Forall (fun g => T (sql_means w row g)) (concat xss) /\ Forall (fun e => T (ent_means w lo nm e)) (e :: es)).
Proof.
  intros lo nl ident_sql edge_sql heap d dis nd col x y l e es m t a fs xss Q F V R S H HE. cbn [forallb] in S. apply andb_prop in S as [S1 S2].
  destruct (C80_guard lo nl ident_sql edge_sql heap d dis nd col (Build.join (x :: y :: l)) (fold_left both es (EParen e)) m t a fs xss Q F (valid_join x y l V) (join_reads x y l e es R)
    (simple2_both lo es (EParen e) S1 S2) (loose_both es (EParen e) eq_refl) H HE) as (t' & x' & b & H1 & H2 & H3).
  exists t', x', b. split; [exact H1|]. split; [exact H2|]. intros w row nm A T HT. rewrite (H3 w row nm A T HT), ent_both by (reflexivity || discriminate).
  assert (X : forall es v, T (fold_left (wAnd w) (map (ent_means w lo nm) es) v) <-> T v /\ Forall (fun e => T (ent_means w lo nm e)) es).
  { clear -HT. induction es as [|u vs IH]; intro v; cbn [map fold_left]; [split; [intro Y; now split|now intros [Y _]]|]. rewrite IH, HT. split; [intros [[Y1 Y2] Y3]; repeat constructor; auto|]. intros [Y1 Y2]. inversion_clear Y2. tauto. }
  rewrite X. change (ent_means w lo nm (EParen e)) with (ent_means w lo nm e). split; intros [Y1 Y2]; (split; [exact Y1|]); [destruct Y2; now constructor|inversion_clear Y2; now split].
Qed.
(** An entry that is no query but two around [) or (] gets out. *)
Theorem C87_escape : forall lo ident_sql edge_sql heap nl col d dis nd p x y ep ex ey m t a,
  Forall valid_runes [p; x; y] -> reads p ep -> reads x ex -> reads y ey -> forallb (simple2 lo) [ep; ex; ey] = true -> quotes nl (ident_sql d) col ident ->
  query lo ident_sql edge_sql heap (fresh d dis nd (Build.join [p; x ++ #") or (" ++ y])) = Some (m, (t, a)) -> no_error m ->
  exists b, reads_sql nl d t (map arg_value a) b /\
    forall w row nm, (forall x, nm [x] = row (col x)) -> sql_means w row b = wOr w (wAnd w (ent_means w lo nm ep) (ent_means w lo nm ex)) (ent_means w lo nm ey).
Proof. exact ent_escape. Qed.
(** A list of one entry is not protected: beside another condition its "or" is
    outermost and lets a row through that the condition keeps out; with a blank
    entry in the list it does not. *)
Theorem C87_single_refuted :
  let row x := VInt (if streq x #"b" then 2 else 0) in
  let guard := mini4 #"c = 3" in
  exists t1 t2 vs a b, texts #"mysql" [guard; mini4 (Build.join [#"a = 1 or b = 2"])] = Some (t1, vs) /\ reads_sql (lex4 #"mysql") #"mysql" t1 vs a /\
  texts #"mysql" [guard; mini4 (Build.join [#"a = 1 or b = 2"; []])] = Some (t2, vs) /\ reads_sql (lex4 #"mysql") #"mysql" t2 vs b /\
  row #"c" <> VInt 3 /\ sql_means world3 row a = VB true /\ sql_means world3 row b = VB false.
Proof.
  intros row guard. exists #"`c` = ? AND `a` = ? OR `b` = ?", #"`c` = ? AND (`a` = ? OR `b` = ?)", (map GInt [3; 1; 2]%Z). do 2 eexists.
  split; [vm_compute; reflexivity|]. split; [exists 60; do 2 eexists; split; [vm_compute; reflexivity|split; [vm_compute; reflexivity|vm_compute; reflexivity]]|].
  split; [vm_compute; reflexivity|]. split; [exists 60; do 2 eexists; split; [vm_compute; reflexivity|split; [vm_compute; reflexivity|vm_compute; reflexivity]]|].
  split; [discriminate|]. split; reflexivity.
Qed.

Definition l87 : list (list N) := [#"a = 1 or b = 2"; #"  "; #"not a between 1 and 2"].
Example C87_ex : exists e es m t a, Forall valid_runes l87 /\ Forall2 reads (filter (fun v => negb (blank_entry v)) l87) (e :: es) /\ forallb (simple2 lo2) (e :: es) = true /\
  quotes (lex4 #"mysql") (ident4 #"mysql") (fun x => x) ident /\
  query lo2 ident4 edge3 heap3 (fresh #"mysql" false None (Build.join l87)) = Some (m, (t, a)) /\ no_error m /\
  t = #"(`a` = ? OR `b` = ?) AND (NOT `a` >= ? AND `a` <= ?)" /\ map arg_value a = map GInt [1; 2; 1; 2]%Z.
Proof.
  do 5 eexists. split; [repeat constructor|]. split.
  - change (filter _ l87) with [#"a = 1 or b = 2"; #"not a between 1 and 2"]. repeat (apply Forall2_cons; [apply read_of_reads; vm_compute; reflexivity|]). apply Forall2_nil.
  - split; [reflexivity|]. split; [exact (quotes4 #"mysql")|]. split; [vm_compute; reflexivity|]. repeat split.
Qed.

Print Assumptions C87_join.
Print Assumptions C87_guard.
Print Assumptions C87_escape.
Print Assumptions C87_single_refuted.
