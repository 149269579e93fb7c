(** Proofs for C87. *)
From Coq Require Import Lia.
From Verif Require Import Base Peg Grammar Node Vocab Tree Parse Syntax ParseProofs ParserFacts ParserFacts2 ParserMain Build NodeFacts
  Gorm GormSpec GormSample GormFacts GormFacts4 EntSQL EntSQLSpec EntSQLSample EntSQLFacts3 SqlSpec SqlSpecDb SqlSpecEntDb SqlProofs SqlDialect SqlEnt SqlAll SqlEntLoose SqlScope.
Strategy expand [parse_machine rule_trace].
Strategy 1000 [parse_fuel mrun tok_trace].

Lemma simple2_both : forall lo es l, simple2 lo l = true -> forallb (simple2 lo) es = true -> simple2 lo (fold_left both es l) = true.
Proof.
  induction es as [|e es IH]; intros l L H; [exact L|]. cbn [fold_left forallb] in *. apply andb_prop in H as [H1 H2]. apply IH; [|exact H2]. cbn [both simple2]. now rewrite L, H1.
Qed.
Lemma loose_both : forall es l, loose_or l = false -> loose_or (fold_left both es l) = false.
Proof. induction es as [|e es IH]; intros l L; [exact L|]. cbn [fold_left]. apply IH. cbn [both loose_or]. now rewrite L. Qed.
Lemma ent_both : forall w lo nm es l, fst (ent_parts w lo nm l) = None -> snd (ent_parts w lo nm l) <> [] ->
  ent_means w lo nm (fold_left both es l) = fold_left (wAnd w) (map (ent_means w lo nm) es) (ent_means w lo nm l).
Proof.
  induction es as [|e es IH]; intros l H N; [reflexivity|]. cbn [fold_left map]. rewrite IH.
  - f_equal. unfold ent_means. cbn [both ent_parts]. change (is_or #"and") with false. cbn iota. destruct (ent_parts w lo nm l) as [d xs]. cbn [fst snd] in *. subst d.
    destruct xs as [|x xs]; [congruence|]. cbn [ands whole2 app joined]. rewrite fold_left_app. reflexivity.
  - cbn [both ent_parts]. change (is_or #"and") with false. exact H.
  - cbn [both ent_parts]. change (is_or #"and") with false. cbn iota. intro K. now apply app_eq_nil in K.
Qed.
Lemma ent_join : forall lo ident_sql edge_sql heap nl col d dis nd x y l e es m t a,
  Forall valid_runes (x :: y :: l) -> Forall2 reads (filter (fun v => negb (blank_entry v)) (x :: y :: l)) (e :: es) -> forallb (simple2 lo) (e :: es) = true -> quotes nl (ident_sql d) col ident ->
  query lo ident_sql edge_sql heap (fresh d dis nd (Build.join (x :: y :: l))) = Some (m, (t, a)) -> no_error m ->
  exists b, reads_sql nl d t (map arg_value a) b /\
    forall w row nm, (forall x, nm [x] = row (col x)) -> sql_means w row b = fold_left (wAnd w) (map (ent_means w lo nm) es) (ent_means w lo nm e).
Proof.
  intros lo ident_sql edge_sql heap nl col d dis nd x y l e es m t a V R S Q H HE. cbn [forallb] in S. apply andb_prop in S as [S1 S2].
  destruct (query_db lo ident_sql edge_sql heap nl col d dis nd (Build.join (x :: y :: l)) (fold_left both es (EParen e)) m t a (valid_join x y l V) (join_reads x y l e es R) (simple2_both lo es (EParen e) S1 S2) Q H HE) as (b & H1 & H2).
  exists b. split; [exact H1|]. intros w row nm A. rewrite (H2 w row nm A), ent_both; [reflexivity|reflexivity|discriminate].
Qed.
Lemma ent_escape : forall lo ident_sql edge_sql heap nl col d dis nd p x y ep ex ey m t a,
  Forall valid_runes [p; x; y] -> reads p ep -> reads x ex -> reads y ey -> forallb (simple2 lo) [ep; ex; ey] = true -> quotes nl (ident_sql d) col ident ->
  query lo ident_sql edge_sql heap (fresh d dis nd (Build.join [p; x ++ #") or (" ++ y])) = Some (m, (t, a)) -> no_error m ->
  exists b, reads_sql nl d t (map arg_value a) b /\
    forall w row nm, (forall x, nm [x] = row (col x)) -> sql_means w row b = wOr w (wAnd w (ent_means w lo nm ep) (ent_means w lo nm ex)) (ent_means w lo nm ey).
Proof.
  intros lo ident_sql edge_sql heap nl col d dis nd p x y ep ex ey m t a V Rp Rx Ry S Q H HE. cbn [forallb] in S. apply andb_prop in S as [S1 S]. apply andb_prop in S as [S2 S]. apply andb_prop in S as [S3 _].
  inversion_clear V as [|? ? V1 V']. inversion_clear V' as [|? ? V2 V'']. inversion_clear V'' as [|? ? V3 _].
  refine (query_db lo ident_sql edge_sql heap nl col d dis nd _ (ELogic (both (EParen ep) ex) #"or" (EParen ey)) m t a _ _ _ Q H HE).
  - apply valid_join. constructor; [exact V1|]. constructor; [|constructor]. repeat (apply valid_app; split); auto using valid_ascii.
  - now apply escape_reads.
  - cbn [both simple2]. now rewrite S1, S2, S3.
Qed.
