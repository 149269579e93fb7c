(** Property C98: what a database does with the condition gormq builds for a query with
    a -> path.  Statements only; proofs are in PathSql.v. *)
From Verif Require Import Base Peg Node Vocab Tree Parse Syntax Reader ParserFacts2 ParserMain Build Gorm GormSpec GormSample GormFacts GormFacts4 SqlSpec SqlDialect GormSQL SqlSpecWhere
  SqlSpecDb PathSpec PathSqlSpec PathSql PropsSql PropsSqlWhere.
Strategy expand [parse_machine].
Strategy 1000 [parse_fuel mrun].

(** ** C98 *)
(** If a right operand begins with a path, gormq reports no error, but SQL does not
    read the condition: what was lost of the query never goes unnoticed. *)
Theorem C98_unread : forall fold_eq quote lo nl d q e d' sch,
  valid_runes q -> reads q e -> tame lo e = true -> lean true e = false -> schema_of d = Some sch -> quotes nl quote (fun c => c) (is_column fold_eq sch) ->
  wire_mini_query fold_eq quote lo d q = Some d' -> succeeded d d' ->
  exists t vs, dWheres d' = dWheres d ++ [(t, vs)] /\ forall a, ~ reads_marks nl t vs a.
Proof. exact wire_unread. Qed.
(** Nor does it read the WHERE clause that gorm builds from it and any conditions before
    it that can stand in a clause (C79), with ? or with $n. *)
Theorem C98_where : forall fold_eq quote lo nl dialect up d q e d' sch guards,
  valid_runes q -> reads q e -> tame lo e = true -> listed e = true -> lean true e = false -> schema_of d = Some sch ->
  quotes nl quote (fun c => c) (is_column fold_eq sch) -> unmarked quote (is_column fold_eq sch) -> Forall2 (conjunct nl dialect up) (dWheres d) guards ->
  wire_mini_query fold_eq quote lo d q = Some d' -> succeeded d d' ->
  exists t vs, where_clause dialect up d' = Some (t, vs) /\ forall a, ~ reads_sql nl dialect t vs a.
Proof. exact where_unread. Qed.
(** Otherwise it reads it as the query without the names before the last. *)
Theorem C98_last : forall fold_eq quote lo nl d q q' e d' sch,
  valid_runes q -> valid_runes q' -> reads q e -> reads q' (shown e) -> lean true e = true -> neat lo (shown e) = true ->
  schema_of d = Some sch -> quotes nl quote (fun c => c) (is_column fold_eq sch) -> wire_mini_query fold_eq quote lo d q = Some d' -> succeeded d d' ->
  exists t vs a, dWheres d' = dWheres d ++ [(t, vs)] /\ reads_marks nl t vs a /\
    forall w row nm, agrees (wV w) fold_eq sch row nm -> sql_means w row a = query_means w lo nm (shown e).
Proof. exact wire_last. Qed.

(** Queries of both kinds, and their conditions. *)
Example C98_ex : exists e1 e2 e3 d1 d2 d3,
  reads #"a = 1 and not (b->c = 2 or a is null)" e1 /\ tame lo2 e1 = true /\ lean true e1 = false /\
  wire_mini_query fold2 (quote_name 96) lo2 db2 #"a = 1 and not (b->c = 2 or a is null)" = Some d1 /\ succeeded db2 d1 /\
  dWheres d1 = [(#"and `b` not (`c` = ? or `a` is null)", [GInt 2])] /\
  reads #"date(a) > a->b->c and a in [1]" e2 /\ tame lo2 e2 = true /\ lean true e2 = false /\
  wire_mini_query fold2 (quote_name 96) lo2 db2 #"date(a) > a->b->c and a in [1]" = Some d2 /\ succeeded db2 d2 /\
  dWheres d2 = [(#"`a` `b` `c` and `a` in ?", [GArr [GInt 1]])] /\
  reads #"b->c = 2 and a = 1" e3 /\ reads #"c = 2 and a = 1" (shown e3) /\ lean true e3 = true /\ neat lo2 (shown e3) = true /\
  wire_mini_query fold2 (quote_name 96) lo2 db2 #"b->c = 2 and a = 1" = Some d3 /\ succeeded db2 d3 /\
  dWheres d3 = [(#"`c` = ? and `a` = ?", [GInt 2; GInt 1])] /\ quotes (lex_name 96) (quote_name 96) (fun c => c) (is_column fold2 sch2).
Proof.
  do 6 eexists.
  split; [apply read_of_reads; vm_compute; reflexivity|]. do 2 (split; [reflexivity|]). split; [vm_compute; reflexivity|]. do 2 (split; [reflexivity|]).
  split; [apply read_of_reads; vm_compute; reflexivity|]. do 2 (split; [reflexivity|]). split; [vm_compute; reflexivity|]. do 2 (split; [reflexivity|]).
  split; [apply read_of_reads; vm_compute; reflexivity|]. split; [apply read_of_reads; vm_compute; reflexivity|]. do 2 (split; [reflexivity|]).
  split; [vm_compute; reflexivity|]. do 2 (split; [reflexivity|]). exact (C73_quotes 96 eq_refl eq_refl fold2 sch2 eq_refl).
Qed.

Definition lo3 (c : N) : N := c.
Example C98_ex_where : exists d1 d2 e g,
  wire_mini_query fold2 (quote_name 96) lo2 db2 #"a = 1 or b = 2" = Some d1 /\ Forall2 (conjunct (lex_name 96) #"postgres" lo3) (dWheres d1) [g] /\
  reads #"a in [1, 2] and b->c = 3" e /\ tame lo2 e = true /\ listed e = true /\ lean true e = false /\
  wire_mini_query fold2 (quote_name 96) lo2 d1 #"a in [1, 2] and b->c = 3" = Some d2 /\ succeeded d1 d2 /\ schema_of d1 = Some sch2 /\
  where_clause #"postgres" lo3 d2 = Some (#"(`a` = $1 or `b` = $2) AND and `b` `c` = $3", [GInt 1; GInt 2; GInt 3]) /\
  unmarked (quote_name 96) (is_column fold2 sch2).
Proof.
  assert (U : unmarked (quote_name 96) (is_column fold2 sch2)) by exact (C79_unmarked 96 eq_refl eq_refl fold2 sch2 eq_refl).
  destruct (wire_mini_query fold2 (quote_name 96) lo2 db2 #"a = 1 or b = 2") as [d1|] eqn:E; [|vm_compute in E; discriminate].
  assert (H : exists e, reads #"a = 1 or b = 2" e /\ simple lo2 e = true /\ listed e = true) by (eexists; split; [apply read_of_reads; vm_compute; reflexivity|split; reflexivity]).
  destruct H as (e & He & Hs & Hl). pose proof E as E'. vm_compute in E'. injection E' as <-.
  destruct (C79_query fold2 (quote_name 96) lo2 (lex_name 96) #"postgres" lo3 db2 #"a = 1 or b = 2" e _ sch2 ltac:(now apply valid_runesb_spec) He Hs Hl eq_refl
    (C73_quotes 96 eq_refl eq_refl fold2 sch2 eq_refl) U E eq_refl) as (c & g & D & C & _).
  eexists _, _, _, g. split; [reflexivity|]. split; [|split; [apply read_of_reads; vm_compute; reflexivity|]].
  - rewrite D. constructor; [exact C|constructor].
  - do 3 (split; [reflexivity|]). split; [vm_compute; reflexivity|]. do 2 (split; [reflexivity|]). split; [vm_compute; reflexivity|exact U].
Qed.

Print Assumptions C98_where. Print Assumptions C98_unread. Print Assumptions C98_last.
