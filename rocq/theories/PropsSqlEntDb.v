(** C77: what the condition written by entsql means, for any mix of "and", "or",
    "not" and "between", in any world. *)
From Verif Require Import Base Peg Grammar Node Vocab Tree Parse Syntax ParseProofs ParserFacts ParserFacts2 ParserMain Build NodeFacts
  Gorm GormSpec GormSample GormFacts GormFacts4 EntSQL EntSQLSpec EntSQLSample EntSQLFacts3 SqlSpec SqlSpecDb SqlSpecEntDb SqlProofs SqlDialect SqlEnt SqlAll SqlEntLoose SqlEntDbFacts PropsSql PropsSqlEnt.
Strategy expand [parse_machine rule_trace].
Strategy 1000 [parse_fuel mrun tok_trace].

(** If no error is recorded, the database can read the text, and [ent_means] says
    what it means. *)
Theorem C77_means : forall lo ident_sql edge_sql heap nl col d dis nd q e m t a,
  valid_runes q -> reads q e -> simple2 lo e = true -> quotes nl (ident_sql d) col ident ->
  query lo ident_sql edge_sql heap (fresh d dis nd q) = Some (m, (t, a)) -> no_error m ->
  exists b, reads_sql nl d t (map arg_value a) b /\
    forall w row nm, (forall x, nm [x] = row (col x)) -> sql_means w row b = ent_means w lo nm e.
Proof. exact query_db. Qed.
(** That is the meaning of the query in every lawful world exactly for the queries
    without the three constructs named in [straight]. *)
Theorem C77_exact : forall lo q e, reads q e ->
  (straight lo e = true <-> forall w nm, lawful w -> ent_means w lo nm e = query_means w lo nm e).
Proof. exact ent_db_exact. Qed.
(** The queries of C74 are among those of both theorems. *)
Theorem C77_covers : forall lo e, neat2 lo e = true -> simple2 lo e = true /\ straight lo e = true.
Proof. exact neat2_covered. Qed.

(** Three queries that are not [straight], what the database makes of them, and
    what they mean, where a is 3, b is 1 and c is 0. *)
Example C77_ex :
  (exists e m b, reads #"not a between 1 and 2" e /\ simple2 lo2 e = true /\ straight lo2 e = false /\
    query lo2 ident4 edge3 heap3 (fresh #"mysql" false None #"not a between 1 and 2") = Some (m, (#"NOT `a` >= ? AND `a` <= ?", [ACast (GInt 1); ACast (GInt 2)])) /\ no_error m /\
    reads_sql (lex4 #"mysql") #"mysql" #"NOT `a` >= ? AND `a` <= ?" [GInt 1; GInt 2] b /\
    sql_means world3 row3 b = 0%Z /\ ent_means world3 lo2 nm3 e = 0%Z /\ query_means world3 lo2 nm3 e = 1%Z) /\
  (exists e m b, reads #"a not between 1 and 2" e /\ simple2 lo2 e = true /\ straight lo2 e = false /\
    query lo2 ident4 edge3 heap3 (fresh #"mysql" false None #"a not between 1 and 2") = Some (m, (#"`a` < ? AND `a` > ?", [ACast (GInt 1); ACast (GInt 2)])) /\ no_error m /\
    reads_sql (lex4 #"mysql") #"mysql" #"`a` < ? AND `a` > ?" [GInt 1; GInt 2] b /\
    sql_means world3 row3 b = 0%Z /\ ent_means world3 lo2 nm3 e = 0%Z /\ query_means world3 lo2 nm3 e = 1%Z) /\
  (exists e m b, reads #"a = 1 or b = 2 and c = 3" e /\ simple2 lo2 e = true /\ straight lo2 e = false /\
    query lo2 ident4 edge3 heap3 (fresh #"mysql" false None #"a = 1 or b = 2 and c = 3") = Some (m, (#"`a` = ? OR `b` = ? AND `c` = ?", [ACast (GInt 1); ACast (GInt 2); ACast (GInt 3)])) /\ no_error m /\
    reads_sql (lex4 #"mysql") #"mysql" #"`a` = ? OR `b` = ? AND `c` = ?" [GInt 1; GInt 2; GInt 3] b /\
    sql_means world3 row2 b = 1%Z /\ ent_means world3 lo2 nm2 e = 1%Z /\ query_means world3 lo2 nm2 e = 0%Z).
Proof.
  split; [|split]; do 3 eexists; (split; [first [exact (proj1 reads_between)|exact reads_not_between|exact (proj1 reads_abc)]|]); (split; [reflexivity|]); (split; [reflexivity|]);
    (split; [vm_compute; reflexivity|]); (split; [reflexivity|]);
    (split; [exists 40; do 2 eexists; split; [vm_compute; reflexivity|split; [vm_compute; reflexivity|vm_compute; reflexivity]]|]); (split; [reflexivity|]); split; reflexivity.
Qed.

Print Assumptions C77_means.
Print Assumptions C77_exact.
Print Assumptions C77_covers.
