(** C85: queries put into query templates.  The definitions are in InsertSpec.v,
    proofs in Insert.v and InsertFacts.v. *)
From Verif Require Import Base Peg Grammar Node Vocab Tree Parse Syntax ParseProofs ParserFacts ParserFacts2 ParserMain Gorm GormSpec
  GormSample GormFacts EntSQL EntSQLSpec EntSQLSample SqlSpec SqlSpecDb SqlSpecEntDb SqlDialect PropsSql PropsSqlEnt InsertSpec Insert InsertFacts InsertSample.
Strategy expand [parse_machine rule_trace].
Strategy 1000 [parse_fuel mrun tok_trace].

(** Queries put in the place of names are read as what they are, where they are. *)
Theorem C85_reads : forall h b xs e ds qs, accepts h b xs e ds -> Forall2 reads qs ds -> reads (insert h b qs) (swap (combine xs ds) e).
Proof. exact insert_reads. Qed.
(** On trees: Parse of the whole is the tree of the template with the trees of the
    queries in the place of the names. *)
Theorem C85_parse : forall lo h b xs e ds qs n ns, accepts h b xs e ds -> Forall2 reads qs ds -> Forall valid_runes qs -> valid_runes (insert h b xs) ->
  json_free e = true -> Forall (fun d => json_free d = true) ds ->
  parse lo (insert h b xs) = Ok (Some n) -> Forall2 (fun q k => parse lo q = Ok (Some k)) qs ns ->
  parse lo (insert h b qs) = Ok (Some (graft (combine xs ns) n)).
Proof. exact insert_parse. Qed.
(** The meaning: that of the template, where the names have the values of the queries. *)
Theorem C85_means : forall w lo nm h b xs e ds qs, accepts h b xs e ds -> Forall2 reads qs ds -> exists e',
  reads (insert h b qs) e' /\ query_means w lo nm e' = query_means w lo (valued nm (combine xs (map (query_means w lo nm) ds))) e.
Proof. exact insert_means. Qed.
(** The same for the condition of gormq, as the database reads it ... *)
Theorem C85_gorm : forall fold_eq quote lo nl d h b xs e ds qs d' sch, accepts h b xs e ds -> Forall2 reads qs ds -> valid_runes (insert h b qs) ->
  simple lo e = true -> Forall (fun d => simple lo d = true) ds -> schema_of d = Some sch -> quotes nl quote (fun c => c) (is_column fold_eq sch) ->
  wire_mini_query fold_eq quote lo d (insert h b qs) = Some d' -> succeeded d d' ->
  exists t vs a, dWheres d' = dWheres d ++ [(t, vs)] /\ reads_marks nl t vs a /\
    forall w row nm, agrees (wV w) fold_eq sch row nm -> sql_means w row a = db_means w lo (valued nm (combine xs (map (db_means w lo nm) ds))) e.
Proof. exact insert_gorm. Qed.
(** ... and for that of entsql. *)
Theorem C85_entsql : forall lo ident_sql edge_sql heap nl col dl dis nd h b xs e ds qs m t a, accepts h b xs e ds -> Forall2 reads qs ds -> valid_runes (insert h b qs) ->
  simple2 lo e = true -> Forall (fun d => simple2 lo d = true) ds -> quotes nl (ident_sql dl) col ident ->
  query lo ident_sql edge_sql heap (fresh dl dis nd (insert h b qs)) = Some (m, (t, a)) -> no_error m ->
  exists c, reads_sql nl dl t (map arg_value a) c /\
    forall w row nm, (forall x, nm [x] = row (col x)) -> sql_means w row c = ent_means w lo (valued nm (combine xs (map (ent_means w lo nm) ds))) e.
Proof. exact insert_entsql. Qed.

(** The template "a = 1 and (u) and not v > 2" with "b = 2 or c = 3 -- both" for u
    and " date(c)" for v. *)
Example C85_ex :
  accepts h8 b8 xs8 e8 ds8 /\ Forall2 reads qs8 ds8 /\
  insert h8 b8 xs8 = #"a = 1 and (u) and not v > 2" /\
  insert h8 b8 qs8 = #"a = 1 and (b = 2 or c = 3 -- both" ++ [10%N] ++ #") and not  date(c) > 2" /\
  swap (combine xs8 ds8) e8 = ELogic (ELogic a1 #"and" (EParen d8)) #"and" (ENot (ECmp (ECall #"date" [EName #"c"]) #">" (EVal (VLit (LInt #"2"))))) /\
  (exists n ns, parse lo2 (insert h8 b8 xs8) = Ok (Some n) /\ map (fun q => parse lo2 q) qs8 = map (fun k => Ok (Some k)) ns /\
    parse lo2 (insert h8 b8 qs8) = Ok (Some (graft (combine xs8 ns) n))) /\
  simple lo2 e8 = true /\ forallb (simple lo2) ds8 = true /\ simple2 lo2 e8 = true /\ forallb (simple2 lo2) ds8 = true /\
  wire_mini_query fold2 quote2 lo2 db2 (insert h8 b8 qs8) =
    Some (add_where (#"`a` = ? and (`b` = ? or `c` = ?) and not date(`c`) > ?", [GInt 1; GInt 2; GInt 3; GInt 2]) db2) /\
  db_means world2 lo2 (valued nm2 (combine xs8 (map (db_means world2 lo2 nm2) ds8))) e8 = 0%Z.
Proof.
  split; [exact accepts8|]. split; [exact reads8|]. split; [reflexivity|]. split; [reflexivity|]. split; [reflexivity|].
  split; [do 2 eexists; split; [vm_compute; reflexivity|split; [|]]|].
  - instantiate (1 := [_; _]). cbn [map qs8]. f_equal; [vm_compute; reflexivity|]. f_equal. vm_compute. reflexivity.
  - vm_compute. reflexivity.
  - repeat split; vm_compute; reflexivity.
Qed.

(** An operand that is not of level 0 falls apart: "a = x" with "b or c" for x. *)
Theorem C85_operand_refuted : exists h b xs e ds qs, length h = length xs /\ length ds = length xs /\ reads (insert h b xs) e /\
  Forall (fun x => once x (insert h b xs) /\ In x (mentions e)) xs /\ bracketless e = true /\ Forall2 reads qs ds /\
  ~ reads (insert h b qs) (swap (combine xs ds) e).
Proof. exact operand_refuted. Qed.
(** A number after [x between [1,2] and]: "a between [1, 2] and (x)" with "5" for x. *)
Theorem C85_clash_refuted : exists h b xs e ds qs, length h = length xs /\ length ds = length xs /\ reads (insert h b xs) e /\
  Forall (fun x => once x (insert h b xs) /\ In x (mentions e)) xs /\ Forall (fun p => In (fst p) (operands_of e) -> level (snd p) = 0) (combine xs ds) /\
  Forall2 reads qs ds /\ ~ reads (insert h b qs) (swap (combine xs ds) e).
Proof. exact clash_refuted. Qed.
(** A text that is no query may be accepted too, and then it is not where it was put. *)
Theorem C85_foreign_refuted : exists h b x e q e', accepts h b [x] e [EName x] /\ (forall d, ~ reads q d) /\ reads (insert h b [q]) e' /\
  forall d, e' <> swap [(x, d)] e.
Proof. exact foreign_refuted. Qed.

Print Assumptions C85_reads.
Print Assumptions C85_parse.
Print Assumptions C85_means.
Print Assumptions C85_gorm.
Print Assumptions C85_entsql.
Print Assumptions C85_operand_refuted.
Print Assumptions C85_clash_refuted.
Print Assumptions C85_foreign_refuted.
