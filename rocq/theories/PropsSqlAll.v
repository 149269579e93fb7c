(** C75: what the predicates built by entql mean, and that the three back ends
    agree. *)
From Verif Require Import Base Peg Grammar Node Vocab Tree Parse Syntax ParseProofs ParserFacts ParserFacts2 ParserMain Build NodeFacts
  EntQL Gorm GormSpec GormSample GormFacts GormFacts4 EntSQL EntSQLSpec EntSQLSample EntSQLFacts3 SqlSpec SqlSpecQL SqlProofs SqlGorm SqlDialect SqlEnt SqlAll PropsSql PropsSqlEnt.
Strategy expand [parse_machine rule_trace].
Strategy 1000 [parse_fuel mrun tok_trace].

(** From a condition of the fragment [neat3] entql builds a predicate, and it
    means what the query means; the grouping is that of the query. *)
Theorem C75_means : forall lo q e, valid_runes q -> reads q e -> neat3 lo e = true -> fits e = true -> condition e = true ->
  exists p, build_entql lo q = Ok (Some p) /\
    forall w row nm, lawful w -> (forall x, nm [x] = row x) -> ql_means w row p = Some (query_means w lo nm e).
Proof. exact build_sql. Qed.
(** On the queries of both fragments the conditions of gormq and entsql, as the
    database reads them, and the predicate of entql have the same meaning, if
    the columns have the values of the names. *)
Theorem C75_agree : forall fold_eq quote lo nl1 db db' sch ident_sql edge_sql heap nl2 col d dis nd m t2 s2 q e p,
  valid_runes q -> reads q e -> neat2 lo e = true -> neat3 lo e = true ->
  schema_of db = Some sch -> quotes nl1 quote (fun c => c) (is_column fold_eq sch) -> quotes nl2 (ident_sql d) col ident ->
  wire_mini_query fold_eq quote lo db q = Some db' -> succeeded db db' ->
  query lo ident_sql edge_sql heap (fresh d dis nd q) = Some (m, (t2, s2)) -> no_error m ->
  build_entql lo q = Ok (Some p) ->
  exists t1 s1 a1 a2, dWheres db' = dWheres db ++ [(t1, s1)] /\ reads_marks nl1 t1 s1 a1 /\ reads_sql nl2 d t2 (map arg_value s2) a2 /\
    forall w row1 row2 row3 nm, lawful w -> agrees (wV w) fold_eq sch row1 nm -> (forall x, nm [x] = row2 (col x)) -> (forall x, nm [x] = row3 x) ->
      sql_means w row1 a1 = sql_means w row2 a2 /\ ql_means w row3 p = Some (sql_means w row2 a2).
Proof. exact back_ends_agree. Qed.

(** Negation cannot be allowed: entql drops it. *)
Theorem C75_not_refuted : ~ (forall lo q e p w row nm,
  valid_runes q -> reads q e -> build_entql lo q = Ok (Some p) -> lawful w -> (forall x, nm [x] = row x) -> ql_means w row p = Some (query_means w lo nm e)).
Proof.
  intro H.
  assert (B : build_entql lo2 #"a = 1 and not (b = 2 or c = 3)" = Ok (Some (XBinary EAnd (XBinary EEQ (XField #"a") (XValue (GInt 1)))
    (XBinary EOr (XBinary EEQ (XField #"b") (XValue (GInt 2))) (XBinary EEQ (XField #"c") (XValue (GInt 3))))))) by (clear H; vm_compute; reflexivity).
  specialize (H lo2 #"a = 1 and not (b = 2 or c = 3)" _ _ world3 row2 (fun xs => match xs with [x] => row2 x | _ => 0%Z end) ltac:(now apply valid_runesb_spec) (proj2 reads_abc) B lawful3 (fun x => eq_refl)).
  clear B. vm_compute in H. discriminate H.
Qed.

(** The grouping of the query, unlike in the conditions of the other back ends
    (C73_loose_refuted): false where a = 1. *)
Example C75_ex : exists e p, reads #"a = 1 or b = 2 and c = 3" e /\ neat3 lo2 e = true /\ neat lo2 e = false /\ fits e = true /\ condition e = true /\
  build_entql lo2 #"a = 1 or b = 2 and c = 3" = Ok (Some p) /\
  p = XBinary EAnd (XBinary EOr (XBinary EEQ (XField #"a") (XValue (GInt 1))) (XBinary EEQ (XField #"b") (XValue (GInt 2)))) (XBinary EEQ (XField #"c") (XValue (GInt 3))) /\
  ql_means world3 row2 p = Some 0%Z.
Proof.
  do 2 eexists. split; [exact (proj1 reads_abc)|]. split; [reflexivity|]. split; [reflexivity|]. split; [reflexivity|]. split; [reflexivity|].
  split; [vm_compute; reflexivity|]. split; reflexivity.
Qed.
(** A query of both fragments with the three results. *)
Example C75_ex_agree : exists e d' m,
  reads #"(a = 1 or b = 2) and a = 3" e /\ neat2 lo2 e = true /\ neat3 lo2 e = true /\
  wire_mini_query fold2 (quote_name 96) lo2 db2 #"(a = 1 or b = 2) and a = 3" = Some d' /\ succeeded db2 d' /\
  dWheres d' = [(#"(`a` = ? or `b` = ?) and `a` = ?", [GInt 1; GInt 2; GInt 3])] /\
  query lo2 ident4 edge3 heap3 (fresh #"mysql" false None #"(a = 1 or b = 2) and a = 3") =
    Some (m, (#"(`a` = ? OR `b` = ?) AND `a` = ?", [ACast (GInt 1); ACast (GInt 2); ACast (GInt 3)])) /\ no_error m /\
  build_entql lo2 #"(a = 1 or b = 2) and a = 3" = Ok (Some
    (XBinary EAnd (XBinary EOr (XBinary EEQ (XField #"a") (XValue (GInt 1))) (XBinary EEQ (XField #"b") (XValue (GInt 2)))) (XBinary EEQ (XField #"a") (XValue (GInt 3))))).
Proof.
  do 3 eexists. split; [exact reads_three|]. split; [reflexivity|]. split; [reflexivity|]. split; [vm_compute; reflexivity|]. split; [reflexivity|]. split; [reflexivity|].
  split; [vm_compute; reflexivity|]. split; [reflexivity|]. vm_compute; reflexivity.
Qed.

Print Assumptions C75_means.
Print Assumptions C75_agree.
Print Assumptions C75_not_refuted.
