(** C76: what the condition of WireMiniQuery means where "and" and "or" are mixed:
    not always what the query means, but always this. *)
From Verif Require Import Base Peg Grammar Node Vocab Tree Parse Syntax ParseProofs ParserFacts ParserFacts2 ParserMain Build NodeFacts
  Gorm GormSpec GormSample GormFacts GormFacts4 SqlSpec SqlSpecDb SqlProofs SqlGorm SqlDialect SqlLoose SqlDbFacts PropsSql.
Strategy expand [parse_machine rule_trace].
Strategy 1000 [parse_fuel mrun tok_trace].

(** Whatever the mix of "and" and "or", a query that is accepted adds one
    condition that the database can read, and [db_means] says what it means. *)
Theorem C76_means : forall fold_eq quote lo nl d q e d' sch,
  valid_runes q -> reads q e -> simple lo e = true -> schema_of d = Some sch -> quotes nl quote (fun c => c) (is_column fold_eq sch) ->
  wire_mini_query fold_eq quote lo d q = Some d' -> succeeded d d' ->
  exists t vs a, dWheres d' = dWheres d ++ [(t, vs)] /\ reads_marks nl t vs a /\
    forall w row nm, agrees (wV w) fold_eq sch row nm -> sql_means w row a = db_means w lo nm e.
Proof. exact wire_db. Qed.
(** [db_means] is the "or", from left to right, of the "and"s, from left to right. *)
Theorem C76_clauses : forall w lo nm e,
  db_means w lo nm e = joined (wOr w) (wVal w GNil) (map (fun c => joined (wAnd w) (wVal w GNil) (map (db_means w lo nm) c)) (clauses e)).
Proof. exact db_clauses. Qed.
(** It is the meaning of the query, in every world, exactly for the queries of C73. *)
Theorem C76_exact : forall lo e, simple lo e = true ->
  (neat lo e = true <-> forall w nm, db_means w lo nm e = query_means w lo nm e).
Proof. exact db_exact. Qed.

(** Where a and b are 1 and c is 0, the query is false and its condition is true. *)
Example C76_ex : exists e d' a,
  reads #"a = 1 or b = 2 and c = 3" e /\ simple lo2 e = true /\ neat lo2 e = false /\
  wire_mini_query fold2 (quote_name 96) lo2 db2 #"a = 1 or b = 2 and c = 3" = Some d' /\ succeeded db2 d' /\
  dWheres d' = [(#"`a` = ? or `b` = ? and `c` = ?", [GInt 1; GInt 2; GInt 3])] /\
  reads_marks (lex_name 96) #"`a` = ? or `b` = ? and `c` = ?" [GInt 1; GInt 2; GInt 3] a /\
  sql_means world2 row2 a = 1%Z /\ db_means world2 lo2 nm2 e = 1%Z /\ query_means world2 lo2 nm2 e = 0%Z.
Proof.
  do 3 eexists. split; [exact (proj1 reads_abc)|]. split; [reflexivity|]. split; [reflexivity|]. split; [vm_compute; reflexivity|]. split; [reflexivity|]. split; [reflexivity|].
  split; [exists 40; do 2 eexists; split; [vm_compute; reflexivity|split; [vm_compute; reflexivity|vm_compute; reflexivity]]|]. split; [reflexivity|]. split; reflexivity.
Qed.
(** [and] before [or], [or] before [and], and what parentheses do. *)
Example C76_ex_clauses : forall x y z,
  clauses (ELogic (ELogic (EName x) #"or" (EName y)) #"and" (EName z)) = [[EName x]; [EName y; EName z]] /\
  clauses (ELogic (ELogic (EName x) #"and" (EName y)) #"or" (EName z)) = [[EName x; EName y]; [EName z]] /\
  clauses (ELogic (EParen (ELogic (EName x) #"or" (EName y))) #"and" (EName z)) = [[EParen (ELogic (EName x) #"or" (EName y)); EName z]].
Proof. repeat split. Qed.

Print Assumptions C76_means.
Print Assumptions C76_clauses.
Print Assumptions C76_exact.
