(** C74: what the condition written by entsql means.  Text and arguments are read
    by the reader of SQL conditions of [SqlSpec], with numbered placeholders and
    casts for PostgreSQL and question marks otherwise. *)
From Verif Require Import Base Peg Grammar Node Vocab Tree Parse Syntax ParseProofs ParserFacts ParserFacts2 ParserMain Build NodeFacts
  Gorm GormSpec GormSample GormFacts GormFacts4 EntSQL EntSQLSpec EntSQLSample EntSQLFacts3 SqlSpec SqlProofs SqlDialect SqlEnt SqlAll PropsSql.
Strategy expand [parse_machine rule_trace].
Strategy 1000 [parse_fuel mrun tok_trace].

(** A query of the fragment [neat2] for which no error is recorded gives a text
    that the database can read, and it means what the query means, in every
    world in which between is two comparisons. *)
Theorem C74_means : forall lo ident_sql edge_sql heap nl col d dis nd q e m t a,
  valid_runes q -> reads q e -> neat2 lo e = true -> quotes nl (ident_sql d) col ident ->
  query lo ident_sql edge_sql heap (fresh d dis nd q) = Some (m, (t, a)) -> no_error m ->
  exists b, reads_sql nl d t (map arg_value a) b /\
    forall w row nm, lawful w -> (forall x, nm [x] = row (col x)) -> sql_means w row b = query_means w lo nm e.
Proof. exact query_sql. Qed.
(** There is no second way to read it. *)
Theorem C74_unique : forall nl d t args a b, reads_sql nl d t args a -> reads_sql nl d t args b -> a = b.
Proof. exact sql_unique. Qed.
(** Quoting a converted name, as entsql does, is as required, as long as no
    converted name contains the quote character. *)
Theorem C74_quotes : forall qc, unquoted qc = false ->
  forall (f : list N -> list N) (P : list N -> Prop), (forall x, P x -> ~ In qc (f x)) -> quotes (lex_name qc) (fun x => quote_name qc (f x)) f P.
Proof. exact converted_quotes. Qed.

(** Sample quoting and a lawful world of numbers. *)
Definition ident4 (d x : list N) : list N := if streq d #"postgres" then quote_name 34 x else quote_name 96 x.
Definition lex4 (d : list N) : list N -> option (list N * list N) := if streq d #"postgres" then lex_name 34 else lex_name 96.
Lemma quotes4 : forall d, quotes (lex4 d) (ident4 d) (fun x => x) ident.
Proof.
  assert (I : forall x c, ident x -> In c x -> idchar c = true).
  { intros x c [(c0 & r & -> & H1 & H2) _] [K|K]; [subst; unfold idchar; now rewrite H1|]. rewrite forallb_forall in H2. now apply H2. }
  intro d. unfold lex4, ident4. destruct (streq d #"postgres").
  - apply (dialect_quotes 34 eq_refl). intros x H K. discriminate (I x 34%N H K).
  - apply (dialect_quotes 96 eq_refl). intros x H K. discriminate (I x 96%N H K).
Qed.
Definition world3 : world := World Z
  (fun v => match v with GInt z => z | GBool b => truth b | _ => 0%Z end)
  (fun o a b => if streq o #"=" then truth (Z.eqb a b) else if streq o #">=" then truth (Z.leb b a) else if streq o #"<=" then truth (Z.leb a b) else 0%Z)
  (fun o a => truth (Z.eqb a 1)) (fun neg a b c => truth (xorb neg (Z.leb b a && Z.leb a c))) (fun a => a) (fun _ => 0%Z)
  (fun a => truth (Z.eqb a 0)) (fun a b => truth (negb (Z.eqb a 0) && negb (Z.eqb b 0))) (fun a b => truth (negb (Z.eqb a 0) || negb (Z.eqb b 0))).
Lemma lawful3 : lawful world3.
Proof.
  split; [|split].
  - intros a b c. cbn. destruct (Z.leb b a), (Z.leb a c); reflexivity.
  - intros a b c. cbn. destruct (Z.eqb a 0), (Z.eqb b 0), (Z.eqb c 0); reflexivity.
  - reflexivity.
Qed.
Definition row3 (c : list N) : Z := if streq c #"a" then 3%Z else if streq c #"b" then 1%Z else 0%Z.
Definition nm3 (xs : list (list N)) : Z := match xs with [x] => row3 x | _ => 0%Z end.

(** "between" directly under "not" cannot be allowed: the text negates only the
    first of the two comparisons. *)
Theorem C74_not_between_refuted : ~ (forall lo ident_sql edge_sql heap nl col d dis nd q e m t a b w row nm,
  valid_runes q -> reads q e -> quotes nl (ident_sql d) col ident ->
  query lo ident_sql edge_sql heap (fresh d dis nd q) = Some (m, (t, a)) -> no_error m -> reads_sql nl d t (map arg_value a) b ->
  lawful w -> (forall x, nm [x] = row (col x)) -> sql_means w row b = query_means w lo nm e).
Proof.
  intro H.
  assert (Q : exists m, query lo2 ident4 edge3 heap3 (fresh #"mysql" false None #"not a between 1 and 2") = Some (m, (#"NOT `a` >= ? AND `a` <= ?", [ACast (GInt 1); ACast (GInt 2)])) /\ no_error m).
  { clear H. eexists. split; [vm_compute; reflexivity|reflexivity]. }
  destruct Q as (m & Q1 & Q2).
  specialize (H lo2 ident4 edge3 heap3 (lex4 #"mysql") (fun x => x) #"mysql" false None #"not a between 1 and 2" _ m _ _
    (QAnd (QNot (QCmp #">=" (QCol #"a") (QVal (GInt 1)))) (QCmp #"<=" (QCol #"a") (QVal (GInt 2))))
    world3 row3 nm3 ltac:(now apply valid_runesb_spec) (proj1 reads_between) (quotes4 #"mysql") Q1 Q2).
  assert (K : reads_sql (lex4 #"mysql") #"mysql" #"NOT `a` >= ? AND `a` <= ?" (map arg_value [ACast (GInt 1); ACast (GInt 2)])
    (QAnd (QNot (QCmp #">=" (QCol #"a") (QVal (GInt 1)))) (QCmp #"<=" (QCol #"a") (QVal (GInt 2))))).
  { clear. exists 30. eexists. eexists. split; [vm_compute; reflexivity|]. split; [vm_compute; reflexivity|]. vm_compute. reflexivity. }
  specialize (H K lawful3 (fun x => eq_refl)). clear K Q1 Q2. cbn in H. discriminate H.
Qed.
(** Nor can the empty list: its condition is not one of SQL. *)
Theorem C74_empty_refuted : ~ (forall lo ident_sql edge_sql heap nl col d dis nd q m t a,
  valid_runes q -> quotes nl (ident_sql d) col ident ->
  query lo ident_sql edge_sql heap (fresh d dis nd q) = Some (m, (t, a)) -> no_error m -> exists b, reads_sql nl d t (map arg_value a) b).
Proof.
  intro H.
  assert (Q : exists m, query lo2 ident4 edge3 heap3 (fresh #"mysql" false None #"a in []") = Some (m, (#"`a` IN ()", [])) /\ no_error m).
  { clear H. eexists. split; [vm_compute; reflexivity|reflexivity]. }
  destruct Q as (m & Q1 & Q2).
  destruct (H lo2 ident4 edge3 heap3 (lex4 #"mysql") (fun x => x) #"mysql" false None #"a in []" m _ _ ltac:(now apply valid_runesb_spec) (quotes4 #"mysql") Q1 Q2) as (b & f & ts & ts' & H1 & H2 & H3).
  clear H Q1 Q2. assert (E : ts = [TName #"a"; TWord #"in"; TOpen; TClose]).
  { do 7 (destruct f as [|f]; [discriminate H1|]). vm_compute in H1. now injection H1 as <-. }
  subst ts. cbn in H2. injection H2 as <-. clear H1. do 12 (destruct f as [|f]; [vm_compute in H3; discriminate H3|]). vm_compute in H3. discriminate H3.
Qed.

(** A query of the fragment with its condition for MySQL and for PostgreSQL; both
    are read as the same condition, which has the meaning of the query. *)
Example C74_ex : exists e b,
  reads #"a = 1 and not (b = 2 or c = 3)" e /\ neat2 lo2 e = true /\
  (exists m, query lo2 ident4 edge3 heap3 (fresh #"mysql" false None #"a = 1 and not (b = 2 or c = 3)") =
    Some (m, (#"`a` = ? AND NOT (`b` = ? OR `c` = ?)", [ACast (GInt 1); ACast (GInt 2); ACast (GInt 3)])) /\ no_error m) /\
  (exists m, query lo2 ident4 edge3 heap3 (fresh #"postgres" false None #"a = 1 and not (b = 2 or c = 3)") =
    Some (m, (quote_name 34 #"a" ++ #" = $1::int AND NOT (" ++ quote_name 34 #"b" ++ #" = $2::int OR " ++ quote_name 34 #"c" ++ #" = $3::int)", [ACast (GInt 1); ACast (GInt 2); ACast (GInt 3)])) /\ no_error m) /\
  reads_sql (lex4 #"mysql") #"mysql" #"`a` = ? AND NOT (`b` = ? OR `c` = ?)" [GInt 1; GInt 2; GInt 3] b /\
  reads_sql (lex4 #"postgres") #"postgres" (quote_name 34 #"a" ++ #" = $1::int AND NOT (" ++ quote_name 34 #"b" ++ #" = $2::int OR " ++ quote_name 34 #"c" ++ #" = $3::int)") [GInt 1; GInt 2; GInt 3] b /\
  b = QAnd (QCmp #"=" (QCol #"a") (QVal (GInt 1)))
       (QNot (QOr (QCmp #"=" (QCol #"b") (QVal (GInt 2))) (QCmp #"=" (QCol #"c") (QVal (GInt 3))))) /\
  sql_means world3 row2 b = 1%Z /\ query_means world3 lo2 nm2 e = 1%Z.
Proof.
  do 2 eexists. split; [exact (proj2 reads_abc)|]. split; [reflexivity|].
  split; [eexists; split; [vm_compute; reflexivity|reflexivity]|]. split; [eexists; split; [vm_compute; reflexivity|reflexivity]|].
  split; [exists 40; do 2 eexists; split; [vm_compute; reflexivity|split; [vm_compute; reflexivity|vm_compute; reflexivity]]|].
  split; [exists 60; do 2 eexists; split; [vm_compute; reflexivity|split; [vm_compute; reflexivity|vm_compute; reflexivity]]|].
  split; [reflexivity|]. split; reflexivity.
Qed.

Print Assumptions C74_means.
Print Assumptions C74_unique.
Print Assumptions C74_quotes.
Print Assumptions C74_not_between_refuted.
Print Assumptions C74_empty_refuted.
