(** C78: what the condition of MiniQuery.Scope means for a list of queries. *)
From Verif Require Import Base Peg Grammar Node Vocab Tree Parse Syntax ParseProofs ParserFacts ParserFacts2 ParserMain Build NodeFacts
  Gorm GormSpec GormSample GormFacts GormFacts4 SqlSpec SqlSpecDb SqlProofs SqlGorm SqlDialect SqlLoose SqlDbFacts PropsSql SqlScope.
Strategy expand [parse_machine rule_trace].
Strategy 1000 [parse_fuel mrun tok_trace].

(** Blank entries aside, the condition is the "and" of the conditions of the
    entries, however these mix "and" and "or". *)
Theorem C78_scope : forall fold_eq quote lo nl d x y l e es d' sch,
  Forall valid_runes (x :: y :: l) -> Forall2 reads (filter (fun v => negb (blank_entry v)) (x :: y :: l)) (e :: es) ->
  forallb (simple lo) (e :: es) = true -> schema_of d = Some sch -> quotes nl quote (fun c => c) (is_column fold_eq sch) ->
  scope fold_eq quote lo (x :: y :: l) d = Some d' -> succeeded d d' ->
  exists t vs a, dWheres d' = dWheres d ++ [(t, vs)] /\ reads_marks nl t vs a /\
    forall w row nm, agrees (wV w) fold_eq sch row nm ->
      sql_means w row a = fold_left (wAnd w) (map (db_means w lo nm) es) (db_means w lo nm e).
Proof. exact scope_db. Qed.
(** So a row that meets the condition meets every entry. *)
Theorem C78_narrow : forall (w : world) (T : wV w -> Prop), (forall a b, T (wAnd w a b) -> T a /\ T b) ->
  forall fold_eq quote lo nl d x y l e es d' sch,
  Forall valid_runes (x :: y :: l) -> Forall2 reads (filter (fun v => negb (blank_entry v)) (x :: y :: l)) (e :: es) ->
  forallb (simple lo) (e :: es) = true -> schema_of d = Some sch -> quotes nl quote (fun c => c) (is_column fold_eq sch) ->
  scope fold_eq quote lo (x :: y :: l) d = Some d' -> succeeded d d' ->
  exists t vs a, dWheres d' = dWheres d ++ [(t, vs)] /\ reads_marks nl t vs a /\
    forall row nm, agrees (wV w) fold_eq sch row nm -> T (sql_means w row a) -> forall f, In f (e :: es) -> T (db_means w lo nm f).
Proof.
  intros w T H fold_eq quote lo nl d x y l e es d' sch V R S Hs Q W G.
  destruct (C78_scope fold_eq quote lo nl d x y l e es d' sch V R S Hs Q W G) as (t & vs & a & H1 & H2 & H3).
  exists t, vs, a. split; [exact H1|]. split; [exact H2|]. intros row nm A K f I. rewrite (H3 w row nm A) in K.
  apply (scope_narrow w T H) in K. apply (proj1 (Forall_forall _ _) K). destruct I as [<-|I]; [now left|right; now apply in_map].
Qed.
(** An entry that is no query of its own, but two of them around [) or (], gets
    out: whatever stands before it, its second part is enough. *)
Theorem C78_escape : forall fold_eq quote lo nl d p x y ep ex ey d' sch,
  Forall valid_runes [p; x; y] -> reads p ep -> reads x ex -> reads y ey -> forallb (simple lo) [ep; ex; ey] = true ->
  schema_of d = Some sch -> quotes nl quote (fun c => c) (is_column fold_eq sch) ->
  scope fold_eq quote lo [p; x ++ #") or (" ++ y] d = Some d' -> succeeded d d' ->
  exists t vs a, dWheres d' = dWheres d ++ [(t, vs)] /\ reads_marks nl t vs a /\
    forall w row nm, agrees (wV w) fold_eq sch row nm ->
      sql_means w row a = wOr w (wAnd w (db_means w lo nm ep) (db_means w lo nm ex)) (db_means w lo nm ey).
Proof. exact scope_escape. Qed.

(** Where a and b are 1 and c is 0. *)
Example C78_ex : exists e es d' a,
  Forall2 reads (filter (fun v => negb (blank_entry v)) [#"a = 1 or b = 2 and c = 3"; #"  "; #"a = 1 and not (b = 2 or c = 3)"]) (e :: es) /\
  forallb (simple lo2) (e :: es) = true /\
  scope fold2 (quote_name 96) lo2 [#"a = 1 or b = 2 and c = 3"; #"  "; #"a = 1 and not (b = 2 or c = 3)"] db2 = Some d' /\ succeeded db2 d' /\
  dWheres d' = [(#"(`a` = ? or `b` = ? and `c` = ?) and (`a` = ? and not (`b` = ? or `c` = ?))", map GInt [1; 2; 3; 1; 2; 3])]%Z /\
  reads_marks (lex_name 96) #"(`a` = ? or `b` = ? and `c` = ?) and (`a` = ? and not (`b` = ? or `c` = ?))" (map GInt [1; 2; 3; 1; 2; 3])%Z a /\
  sql_means world2 row2 a = 1%Z.
Proof.
  do 4 eexists. split; [change (filter _ _) with [#"a = 1 or b = 2 and c = 3"; #"a = 1 and not (b = 2 or c = 3)"]; constructor; [exact (proj1 reads_abc)|constructor; [exact (proj2 reads_abc)|constructor]]|].
  split; [reflexivity|]. split; [vm_compute; reflexivity|]. split; [reflexivity|]. split; [reflexivity|].
  split; [exists 60; do 2 eexists; split; [vm_compute; reflexivity|split; [vm_compute; reflexivity|vm_compute; reflexivity]]|]. reflexivity.
Qed.
Example C78_ex_truth : forall a b, (wAnd world2 a b <> 0 -> a <> 0 /\ b <> 0)%Z.
Proof. intros a b. cbn. destruct (Z.eqb_spec a 0), (Z.eqb_spec b 0); cbn; intro H; try (now elim H); now split. Qed.
(** The first entry is false and the condition is true. *)
Example C78_ex_escape : exists d' a,
  scope fold2 (quote_name 96) lo2 [#"c = 3"; #"c = 4) or (b = 1"] db2 = Some d' /\ succeeded db2 d' /\
  dWheres d' = [(#"(`c` = ?) and (`c` = ?) or (`b` = ?)", map GInt [3; 4; 1])]%Z /\
  reads_marks (lex_name 96) #"(`c` = ?) and (`c` = ?) or (`b` = ?)" (map GInt [3; 4; 1])%Z a /\
  sql_means world2 row2 a = 1%Z /\ row2 #"c" = 0%Z.
Proof.
  do 2 eexists. split; [vm_compute; reflexivity|]. split; [reflexivity|]. split; [reflexivity|].
  split; [exists 60; do 2 eexists; split; [vm_compute; reflexivity|split; [vm_compute; reflexivity|vm_compute; reflexivity]]|]. split; reflexivity.
Qed.

Print Assumptions C78_scope.
Print Assumptions C78_narrow.
Print Assumptions C78_escape.
