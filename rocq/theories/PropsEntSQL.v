(** The entsql backend: C40 (second half), C42-C48, C52-C55. *)
From Verif Require Import Base Peg Node Vocab Tree Parse Syntax ParseProofs NormProofs ParserFacts ParserFacts2 ParserMain NameFacts NodeFacts Gorm GormSpec GormSample EntSQL EntSQLSpec EntSQLProofs
  EntSQLFacts EntSQLFacts2 EntSQLSample EntSQLFacts3.
Strategy expand [parse_machine rule_trace].
Strategy 1000 [parse_fuel mrun tok_trace].

(** ** C40, entsql *)
(** The text is read as the two comparisons.  [x], [y], [z]: the operand and
    the bounds. *)
Theorem C40_entsql_between : forall lo ident_sql edge_sql heap d dis nd q e o br lw up m t a, valid_runes q -> reads q (EBetween e o br lw up) -> json_free e = true ->
  negated_between lo o = false -> query lo ident_sql edge_sql heap (fresh d dis nd q) = Some (m, (t, a)) -> no_error m ->
  exists c ps, t = sql_of ident_sql d 0 ps /\ a = sargs ps /\ spells lo (emits edge_sql heap d dis nd) c ps /\
    forall v (x y z : Z), v (ECmp e #">=" (EVal lw)) = (y <=? x)%Z -> v (ECmp e #"<=" (EVal up)) = (x <=? z)%Z ->
      (holds v (sql_reading c) = true <-> (y <= x <= z)%Z).
Proof. exact query_between. Qed.
Theorem C40_entsql_not_between_refuted : forall lo ident_sql edge_sql heap d dis nd q e o br lw up m t a, valid_runes q -> reads q (EBetween e o br lw up) -> json_free e = true ->
  negated_between lo o = true -> query lo ident_sql edge_sql heap (fresh d dis nd q) = Some (m, (t, a)) -> no_error m ->
  exists c ps, t = sql_of ident_sql d 0 ps /\ a = sargs ps /\ spells lo (emits edge_sql heap d dis nd) c ps /\
    forall v (x y z : Z), v (ECmp e #"<" (EVal lw)) = (x <? y)%Z -> v (ECmp e #">" (EVal up)) = (z <? x)%Z -> (y <= z)%Z -> holds v (sql_reading c) = false.
Proof. exact query_outside. Qed.
Example C40_entsql_ex :
  query3 #"mysql" true (Some 0) #"a between 1 and 2" = Some (#"`a` >= ? AND `a` <= ?", [APlain (GInt 1); APlain (GInt 2)]) /\
  query3 #"mysql" true (Some 0) #"a not between 1 and 2" = Some (#"`a` < ? AND `a` > ?", [APlain (GInt 1); APlain (GInt 2)]) /\
  negated_between lo2 #"not  between" = true.
Proof. repeat split; vm_compute; reflexivity. Qed.

(** ** C42 *)
(** The text and the arguments are those of one list of pieces, which the
    query prescribes. *)
Theorem C42_pieces : forall lo ident_sql edge_sql heap d dis nd q m t a, valid_runes q ->
  query lo ident_sql edge_sql heap (fresh d dis nd q) = Some (m, (t, a)) -> no_error m ->
  exists n ps, parse lo q = Ok (Some n) /\ emits edge_sql heap d dis nd n ps /\ t = sql_of ident_sql d 0 ps /\ a = sargs ps.
Proof. exact query_complete. Qed.
Theorem C42_success : forall lo ident_sql edge_sql heap d dis nd q n ps, parse lo q = Ok (Some n) -> emits edge_sql heap d dis nd n ps ->
  exists m, query lo ident_sql edge_sql heap (fresh d dis nd q) = Some (m, (sql_of ident_sql d 0 ps, sargs ps)) /\ no_error m.
Proof. exact query_success. Qed.
Theorem C42_arguments : forall lo ident_sql edge_sql heap d dis nd q m t a, valid_runes q ->
  query lo ident_sql edge_sql heap (fresh d dis nd q) = Some (m, (t, a)) -> no_error m ->
  exists n vs, parse lo q = Ok (Some n) /\ Forall2 go_value (operands n) vs /\ map arg_value a = concat (map (passed dis) vs).
Proof. exact query_args. Qed.
Theorem C42_marks : forall lo ident_sql edge_sql heap d dis nd q m t a, valid_runes q -> clean ident_sql edge_sql (mark d) d ->
  query lo ident_sql edge_sql heap (fresh d dis nd q) = Some (m, (t, a)) -> no_error m -> occurrences (mark d) t = length a.
Proof. exact query_marks. Qed.
(** The number in a placeholder of postgres is decimal. *)
Theorem C42_number : forall k v, exists ds, holder #"postgres" k (APlain v) = #"$" ++ ds /\ holder #"postgres" k (ACast v) = #"$" ++ ds ++ cast_suffix v /\
  forallb is_digit ds = true /\ dec_value ds = Z.of_N k /\ (hd 0%N ds = 48%N -> ds = [48%N]).
Proof. exact number_text. Qed.
Example C42_ex :
  query3 #"postgres" false (Some 0) #"a = 1 and b in [1,null,'x'] and has_edge(pets, c between 1 and 3) and d = true" =
    Some (#"|a| = $1::int AND |b| IN ($2, NULL, $3) AND EXISTS (SELECT * FROM pets WHERE |c| >= $4::int AND |c| <= $5::int) AND |d| = $6::bool",
          [ACast (GInt 1); APlain (GInt 1); APlain (GStr #"x"); ACast (GInt 1); ACast (GInt 3); ACast (GBool true)]) /\
  query3 #"mysql" true (Some 0) #"a = null and b = 'y'" = Some (#"`a` = NULL AND `b` = ?", [APlain (GStr #"y")]).
Proof. split; vm_compute; reflexivity. Qed.

(** ** C43 *)
Theorem C43_vocabulary : forall lo ident_sql edge_sql heap d dis nd q m t a, valid_runes q ->
  query lo ident_sql edge_sql heap (fresh d dis nd q) = Some (m, (t, a)) -> no_error m ->
  exists ps, t = sql_of ident_sql d 0 ps /\ Forall (origin edge_sql d (fun x => ident x /\ part x q)) ps.
Proof. exact query_origin. Qed.
Example C43_ex : query3 #"mysql" true None #"a -- ; drop
  is not null or b = '; drop'" = Some (#"`a` IS NOT NULL OR `b` = ?", [APlain (GStr #"; drop")]).
Proof. vm_compute. reflexivity. Qed.

(** ** C44 *)
(** An unsupported construct outside the conditions of edges: no text. *)
Theorem C44_no_text : forall lo ident_sql edge_sql heap d dis nd q n m, valid_runes q -> parse lo q = Ok (Some n) -> visits n m -> unsupported heap nd m ->
  query lo ident_sql edge_sql heap (fresh d dis nd q) = None \/
  exists b, query lo ident_sql edge_sql heap (fresh d dis nd q) = Some (b, ([], [])) /\ ~ no_error b.
Proof. exact query_unsupported. Qed.
(** Anywhere: an error is recorded. *)
Theorem C44_recorded : forall lo ident_sql edge_sql heap d dis nd q n c m b r, valid_runes q -> parse lo q = Ok (Some n) -> deep edge_sql heap d nd n c m ->
  unsupported heap c m -> query lo ident_sql edge_sql heap (fresh d dis nd q) = Some (b, r) -> ~ no_error b.
Proof. exact query_recorded. Qed.
(** These are all the errors. *)
Theorem C44_reason : forall lo ident_sql edge_sql heap d dis nd q n b r, valid_runes q -> parse lo q = Ok (Some n) ->
  query lo ident_sql edge_sql heap (fresh d dis nd q) = Some (b, r) -> ~ no_error b -> exists c m, deep edge_sql heap d nd n c m /\ unsupported heap c m.
Proof. exact query_error. Qed.
Theorem C44_syntax : forall lo ident_sql edge_sql heap d dis nd q e, parse lo q = Err e ->
  exists m, query lo ident_sql edge_sql heap (fresh d dis nd q) = Some (m, ([], [])) /\ bErrs (sOwn (mSt m)) = [SParse e].
Proof. exact query_syntax. Qed.
(** Inside the condition of an edge the text is not empty although an error is
    recorded. *)
Theorem C44_nested_refuted : forall lo, exists q m t a, valid_runes q /\
  query lo ident3 edge3 heap3 (fresh #"mysql" true (Some 0) q) = Some (m, (t, a)) /\ ~ no_error m /\ t <> [].
Proof. exact nested_error. Qed.
Example C44_ex : query3 #"mysql" true (Some 0) #"a = 1 and b is true" = Some ([], []) /\ query3 #"mysql" true (Some 0) #"a = 1 and not (f(b) = 1)" = Some ([], []) /\
  query3 #"mysql" true (Some 0) #"has_edge(cats)" = Some ([], []) /\ query3 #"mysql" true (Some 0) #"has_edge(pets, a.b = 1)" = Some (#"EXISTS (SELECT * FROM pets WHERE )", []).
Proof. repeat split; vm_compute; reflexivity. Qed.

(** ** C45 *)
Theorem C45_no_panic : forall lo ident_sql edge_sql heap d dis nd q, valid_runes q ->
  (forall n c m, parse lo q = Ok (Some n) -> deep edge_sql heap d nd n c m -> ~ hazard edge_sql heap d c m) ->
  query lo ident_sql edge_sql heap (fresh d dis nd q) <> None.
Proof. exact query_no_panic. Qed.
Theorem C45_refuted : forall lo, (exists q, valid_runes q /\ query lo ident3 edge3 heap3 (fresh #"mysql" true (Some 0) q) = None) /\
  (exists q, valid_runes q /\ query lo ident3 edge3 heap3 (fresh #"mysql" true (Some 0) q) <> None /\ query lo ident3 edge3 heap3 (fresh #"mysql" true None q) = None).
Proof. exact sql_panics. Qed.
Example C45_ex : query3 #"mysql" true (Some 0) #"date() = 1" = None /\ query3 #"mysql" true None #"has_edge(pets)" = None /\
  query3 #"mysql" true (Some 0) #"date(a) = 1 or has_edge(pets)" = Some (#"DATE(`a`) = ? OR EXISTS (SELECT * FROM pets)", [APlain (GInt 1)]).
Proof. repeat split; vm_compute; reflexivity. Qed.

(** ** C46 *)
(** The second text starts with the first and is longer. *)
Theorem C46_repeat_refuted : forall lo ident_sql edge_sql heap d dis nd q m t a m' t' a', valid_runes q ->
  query lo ident_sql edge_sql heap (fresh d dis nd q) = Some (m, (t, a)) -> no_error m -> t <> [] ->
  query lo ident_sql edge_sql heap m = Some (m', (t', a')) -> t' <> t /\ exists u, t' = t ++ u.
Proof. exact query_grows. Qed.
Theorem C46_twice : forall lo ident_sql edge_sql heap d dis nd q n ps m, parse lo q = Ok (Some n) -> emits edge_sql heap d dis nd n ps ->
  query lo ident_sql edge_sql heap (fresh d dis nd q) = Some (m, (sql_of ident_sql d 0 ps, sargs ps)) ->
  exists m', query lo ident_sql edge_sql heap m =
    Some (m', (sql_of ident_sql d 0 ps ++ sql_of ident_sql d (N.of_nat (length (sargs ps))) ps, sargs ps ++ sargs ps)) /\ no_error m'.
Proof. exact query_twice. Qed.
Example C46_ex : match query lo2 ident3 edge3 heap3 (fresh #"postgres" true None #"a = 1") with
  | Some (m, r) => r = (#"|a| = $1", [APlain (GInt 1)]) /\ option_map snd (query lo2 ident3 edge3 heap3 m) = Some (#"|a| = $1|a| = $2", [APlain (GInt 1); APlain (GInt 1)])
  | None => False
  end.
Proof. vm_compute. split; reflexivity. Qed.

(** ** C47 *)
Theorem C47_format : forall v p d, arg_value (ACast v) = v /\ (d <> #"postgres" -> format_param v p d = p) /\ (d = #"postgres" -> format_param v p d = p ++ cast_suffix v).
Proof. exact cast_cases. Qed.
(** DisableTypeCasting changes nothing but the casts ... *)
Theorem C47_disable : forall lo ident_sql edge_sql heap d nd q m t a, valid_runes q ->
  (forall n m, parse lo q = Ok (Some n) -> In m (operands n) -> ~ go_value m GNil) ->
  query lo ident_sql edge_sql heap (fresh d false nd q) = Some (m, (t, a)) -> no_error m ->
  exists ps m', t = sql_of ident_sql d 0 ps /\ a = sargs ps /\
    query lo ident_sql edge_sql heap (fresh d true nd q) = Some (m', (sql_of ident_sql d 0 (map plain ps), sargs (map plain ps))) /\ no_error m'.
Proof. exact query_plain. Qed.
(** ... and outside postgres nothing of the text. *)
Theorem C47_dialect : forall lo ident_sql edge_sql heap d nd q m t a, valid_runes q -> d <> #"postgres" ->
  (forall n m, parse lo q = Ok (Some n) -> In m (operands n) -> ~ go_value m GNil) ->
  query lo ident_sql edge_sql heap (fresh d false nd q) = Some (m, (t, a)) -> no_error m ->
  exists m' a', query lo ident_sql edge_sql heap (fresh d true nd q) = Some (m', (t, a')) /\ no_error m' /\ map arg_value a' = map arg_value a.
Proof. exact query_plain_text. Qed.
Example C47_ex : query3 #"postgres" false None #"a = 1 or b = 'x'" = Some (#"|a| = $1::int OR |b| = $2", [ACast (GInt 1); ACast (GStr #"x")]) /\
  query3 #"postgres" true None #"a = 1 or b = 'x'" = Some (#"|a| = $1 OR |b| = $2", [APlain (GInt 1); APlain (GStr #"x")]) /\
  query3 #"mysql" false None #"a = 1" = Some (#"`a` = ?", [ACast (GInt 1)]).
Proof. repeat split; vm_compute; reflexivity. Qed.

(** ** C48 *)
(** Only the lower bound is negated, for all operands and bounds. *)
Theorem C48_lower_refuted : forall lo ident_sql edge_sql heap d dis nd q e o br lw up m t a, valid_runes q -> reads q (ENot (EBetween e o br lw up)) -> json_free e = true ->
  negated_between lo o = false -> query lo ident_sql edge_sql heap (fresh d dis nd q) = Some (m, (t, a)) -> no_error m ->
  exists c ps, t = sql_of ident_sql d 0 ps /\ a = sargs ps /\ spells lo (emits edge_sql heap d dis nd) c ps /\
    forall v, holds v (sql_reading c) = negb (v (ECmp e #">=" (EVal lw))) && v (ECmp e #"<=" (EVal up)).
Proof. exact query_not_between. Qed.
(** A row selected neither by the between nor by its negation. *)
Theorem C48_row_refuted : forall lo, exists q e m, valid_runes q /\ reads q (ENot e) /\
  query lo ident3 edge3 heap3 (fresh #"mysql" true (Some 0) q) = Some (m, (#"NOT `a` >= ? AND `a` <= ?", [APlain (GInt 1); APlain (GInt 2)])) /\ no_error m /\
  exists v, holds v (sql_reading (flat2 lo (ENot e))) = false /\ holds v (sql_reading (flat2 lo e)) = false.
Proof. exact not_between_witness. Qed.
Example C48_ex : query3 #"mysql" true None #"not (a between 1 and 2)" = Some (#"NOT (`a` >= ? AND `a` <= ?)", [APlain (GInt 1); APlain (GInt 2)]).
Proof. vm_compute. reflexivity. Qed.

(** ** C52 *)
(** With SQLBuilder set the text goes there; Query returns what the builder's
    own sql.Builder held before. *)
Theorem C52_external_refuted : forall lo ident_sql edge_sql heap d dis nd q n b x ps, valid_runes q -> parse lo q = Ok (Some n) -> edgeless n -> bDialect x = d ->
  emits edge_sql heap d dis nd n ps ->
  exists x', query lo ident_sql edge_sql heap (MB nd q None dis (ST b (Some x))) = Some (MB nd q (Some n) dis (ST b (Some x')), (bText b, bArgs b)) /\
    bText x' = bText x ++ sql_of ident_sql d (bTotal x) ps /\ bArgs x' = bArgs x ++ sargs ps.
Proof. exact query_ext. Qed.
(** An edge nevertheless goes to the own sql.Builder. *)
Theorem C52_edge_refuted : forall lo, exists q m x t, valid_runes q /\
  query lo ident3 edge3 heap3 (MB (Some 0) q None true (ST (SB [] [] 0 #"mysql" []) (Some (SB [] [] 0 #"mysql" [])))) = Some (m, (t, [])) /\
  no_error m /\ sExt (mSt m) = Some x /\ bText x = #"`a` = ? AND " /\ t = #"EXISTS (SELECT * FROM pets)".
Proof. exact split_text. Qed.
Example C52_ex : let own := SB [] [] 0 #"mysql" [] in let ext := SB #"SELECT * FROM t WHERE " [] 0 #"mysql" [] in
  match query lo2 ident3 edge3 heap3 (MB None #"a = 1" None true (ST own (Some ext))) with
  | Some (m, r) => r = ([], []) /\ sExt (mSt m) = Some (SB #"SELECT * FROM t WHERE `a` = ?" [APlain (GInt 1)] 1 #"mysql" [])
  | None => False
  end.
Proof. vm_compute. split; reflexivity. Qed.

(** ** C53 *)
(** The text is the expression written down flat, a between as two
    comparisons. *)
Theorem C53_text : forall lo ident_sql edge_sql heap d dis nd q e m t a, valid_runes q -> reads q e -> json_free e = true ->
  query lo ident_sql edge_sql heap (fresh d dis nd q) = Some (m, (t, a)) -> no_error m ->
  exists ps, t = sql_of ident_sql d 0 ps /\ a = sargs ps /\ spells lo (emits edge_sql heap d dis nd) (flat2 lo e) ps.
Proof. exact query_spells. Qed.
(** SQL reads it with the meaning of the expression, provided no "and" has an
    unparenthesised "or" to its left, no unparenthesised between stands
    under a "not" or in a comparison, and there is no "not between". *)
Theorem C53_regular : forall lo q e v, reads q e -> regular2 lo e = true -> holds v (sql_reading (flat2 lo e)) = holds v (grouping2 lo e).
Proof. exact reads_holds. Qed.
Theorem C53_or_and_refuted : forall lo, exists q e m, valid_runes q /\ reads q e /\
  query lo ident3 edge3 heap3 (fresh #"mysql" true (Some 0) q) = Some (m, (#"`a` = ? OR `b` = ? AND `c` = ?", [APlain (GInt 1); APlain (GInt 2); APlain (GInt 3)])) /\ no_error m /\
  exists v, holds v (sql_reading (flat2 lo e)) <> holds v (grouping2 lo e).
Proof. exact or_and_witness. Qed.
(** [(a between 1 and 2) = b] is written as [a >= 1 and (a <= 2) = b]. *)
Theorem C53_operand_refuted : forall lo, exists q e o f m, valid_runes q /\ reads q (ECmp e o f) /\ bare_between e = true /\
  query lo ident3 edge3 heap3 (fresh #"mysql" true (Some 0) q) = Some (m, (#"`a` >= ? AND `a` <= ? = `b`", [APlain (GInt 1); APlain (GInt 2)])) /\ no_error m.
Proof. exact operand_witness. Qed.
Example C53_ex : exists e, reads #"a = 1 and not (b = 2 or c = 3)" e /\ regular2 lo2 e = true /\ json_free e = true /\
  query3 #"mysql" true None #"a = 1 and not (b = 2 or c = 3)" = Some (#"`a` = ? AND NOT (`b` = ? OR `c` = ?)", [APlain (GInt 1); APlain (GInt 2); APlain (GInt 3)]).
Proof. exact group_example. Qed.

(** ** C54 *)
Theorem C54_date_refuted : forall lo ident_sql edge_sql heap d dis nd q q' a r r',
  parse lo q = Ok (Some (mk_function #"date" (Some a :: r))) -> parse lo q' = Ok (Some (mk_function #"date" (Some a :: r'))) ->
  option_map snd (query lo ident_sql edge_sql heap (fresh d dis nd q)) = option_map snd (query lo ident_sql edge_sql heap (fresh d dis nd q')).
Proof. exact date_rest. Qed.
Example C54_ex : query3 #"mysql" true None #"date(a, b.c, 1) = 1" = Some (#"DATE(`a`) = ?", [APlain (GInt 1)]).
Proof. vm_compute. reflexivity. Qed.

(** ** C55 *)
Theorem C55_names : forall lo q n m, valid_runes q -> parse lo q = Ok (Some n) -> reach n m -> named q m.
Proof. exact parse_names. Qed.
Example C55_ex : exists n, parse lo2 #"f(user_name) = a.b" = Ok (Some n) /\ reach n (mk_ident #"user_name") /\ reach n (mk_reference [#"a"; #"b"]).
Proof. exact names_example. Qed.

Print Assumptions C40_entsql_between.
Print Assumptions C40_entsql_not_between_refuted.
Print Assumptions C42_pieces.
Print Assumptions C42_success.
Print Assumptions C42_arguments.
Print Assumptions C42_marks.
Print Assumptions C42_number.
Print Assumptions C43_vocabulary.
Print Assumptions C44_no_text.
Print Assumptions C44_recorded.
Print Assumptions C44_reason.
Print Assumptions C44_syntax.
Print Assumptions C44_nested_refuted.
Print Assumptions C45_no_panic.
Print Assumptions C45_refuted.
Print Assumptions C46_repeat_refuted.
Print Assumptions C46_twice.
Print Assumptions C47_format.
Print Assumptions C47_disable.
Print Assumptions C47_dialect.
Print Assumptions C48_lower_refuted.
Print Assumptions C48_row_refuted.
Print Assumptions C52_external_refuted.
Print Assumptions C52_edge_refuted.
Print Assumptions C53_text.
Print Assumptions C53_regular.
Print Assumptions C53_or_and_refuted.
Print Assumptions C53_operand_refuted.
Print Assumptions C54_date_refuted.
Print Assumptions C55_names.
