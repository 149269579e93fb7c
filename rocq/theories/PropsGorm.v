(** Statements about gormq (C26-C36).  [fold_eq] (strings.EqualFold), [quote]
    (db.QuoteTo) and [lo] (unicode.ToLower above 127) are arbitrary functions.
    [succeeded d d']: no error was added. *)
From Verif Require Import Base Peg Node Vocab Tree Parse Syntax Blank NormProofs ParserFacts ParserFacts2 ParserMain Build NodeFacts
  Gorm GormSpec GormProofs GormFacts GormFacts2 GormFacts3 GormSample GormFacts4.
Strategy expand [parse_machine rule_trace].
Strategy 1000 [parse_fuel mrun tok_trace].

(** The sample schema of the examples and refutations is in GormSample.v. *)

(** ** C26 *)
(** The text is a sequence of pieces: fixed text, quoted columns, and one [?]
    per value; the values are those of the literals of the query, in order. *)
Theorem C26_pieces : forall fold_eq quote lo d q n d', valid_runes q -> parse lo q = Ok (Some n) ->
  wire_mini_query fold_eq quote lo d q = Some d' -> succeeded d d' ->
  exists sch ps, schema_of d = Some sch /\ dWheres d' = dWheres d ++ [(sql_text quote ps, values ps)] /\
    Forall2 go_value (literals n) (values ps) /\ Forall2 (column fold_eq sch) (names n) (columns ps) /\
    Forall (fun t => In t sql_fixed \/ exists o, In o (operations n) /\ spelled o t) (fixed ps).
Proof. exact wire_spelled. Qed.
(** Cut at its question marks the text has one more part than there are
    values, when the query has no comment and quoted columns have no [?]. *)
Theorem C26_marks : forall fold_eq quote lo d q n d', valid_runes q -> marker_free q -> parse lo q = Ok (Some n) ->
  wire_mini_query fold_eq quote lo d q = Some d' -> succeeded d d' -> (forall c, unmarked (quote c)) ->
  exists ts vs, dWheres d' = dWheres d ++ [(join_with #"?" ts, vs)] /\ length ts = S (length vs) /\
    Forall unmarked ts /\ Forall2 go_value (literals n) vs.
Proof. exact wire_marks. Qed.
(** With a comment inside an operator there can be more marks than values. *)
Theorem C26_comment_refuted : forall lo, exists q n d' t v, valid_runes q /\ parse lo q = Ok (Some n) /\
  wire_mini_query fold2 quote2 lo db2 q = Some d' /\ succeeded db2 d' /\ dWheres d' = [(t, [v])] /\ count_marks t = 2.
Proof. exact comment_marks. Qed.
Example C26_ex : wire_mini_query fold2 quote2 lo2 db2 #"ID in [1,2] and not (username = '?' or profile.age > 3)" =
  Some (add_err (GRelation #"profile") db2) /\
  wire_mini_query fold2 quote2 lo2 db2 #"ID in [1,2] and not (username = '?' or Profile.age > 3)" =
  Some (DB (Some sch2) None [#"Profile"]
    [(#"`id` in ? and not (`user_name` = ? or `Profile.age` > ?)", [GArr [GInt 1; GInt 2]; GStr #"?"; GInt 3])] []).
Proof. split; vm_compute; reflexivity. Qed.

(** ** C27 *)
Theorem C27_vocabulary : forall fold_eq quote lo d q n d', valid_runes q -> marker_free q -> parse lo q = Ok (Some n) ->
  wire_mini_query fold_eq quote lo d q = Some d' -> succeeded d d' ->
  exists sch ps, schema_of d = Some sch /\ dWheres d' = dWheres d ++ [(sql_text quote ps, values ps)] /\
    Forall (fun c => exists m, In m (names n) /\ column fold_eq sch m c) (columns ps) /\
    Forall (fun t => In t (sql_fixed ++ sql_operators)) (fixed ps).
Proof. exact wire_vocabulary. Qed.
(** The text of a comment inside an operator is copied to the SQL: any words
    of visible characters other than capitals. *)
Theorem C27_injection_refuted : forall fold_eq quote lo d sch x c m ws, schema_of d = Some sch -> ident x -> ~ starts_word x ->
  resolves fold_eq (sTable sch) x c -> m = #"--" \/ m = #"//" -> Forall word_ok ws ->
  wire_mini_query fold_eq quote lo d (x ++ #" " ++ #"is " ++ m ++ join_with #" " ws ++ [10%N] ++ #"null") =
    Some (add_where (quote c ++ #" is " ++ m ++ join_with #" " ws ++ #" null", []) (with_schema sch d)).
Proof. exact comment_injection. Qed.
Example C27_ex : wire_mini_query fold2 quote2 lo2 db2 (#"a is --" ++ [10%N] ++ #"null") =
    Some (add_where (#"`a` is -- null", []) db2) /\
  wire_mini_query fold2 quote2 lo2 db2 (#"a not//1 = 1; drop table t" ++ [10%N] ++ #"like 'x'") =
    Some (add_where (#"`a` not//1 = 1; drop table t like ?", [GStr #"x"]) db2).
Proof. split; vm_compute; reflexivity. Qed.

(** ** C28 *)
Theorem C28_literal_free : forall fold_eq quote lo d q1 q2 n1 n2, valid_runes q1 -> valid_runes q2 ->
  parse lo q1 = Ok (Some n1) -> parse lo q2 = Ok (Some n2) -> alike (Some n1) (Some n2) ->
  match wire_mini_query fold_eq quote lo d q1, wire_mini_query fold_eq quote lo d q2 with
  | Some d1, Some d2 => same_up_to_values d d1 d2
  | None, None => True
  | _, _ => False
  end.
Proof. exact wire_alike. Qed.
Example C28_ex : exists n1 n2, parse lo2 #"a between 1 and 2 or date(b) = 'x'" = Ok (Some n1) /\
  parse lo2 #"a between ['y'] and null or date(b) = 7" = Ok (Some n2) /\ alike (Some n1) (Some n2) /\
  wire_mini_query fold2 quote2 lo2 db2 #"a between 1 and 2 or date(b) = 'x'" =
    Some (add_where (#"`a` between ? and ? or date(`b`) = ?", [GInt 1; GInt 2; GStr #"x"]) db2) /\
  wire_mini_query fold2 quote2 lo2 db2 #"a between ['y'] and null or date(b) = 7" =
    Some (add_where (#"`a` between ? and ? or date(`b`) = ?", [GArr [GStr #"y"]; GNil; GInt 7]) db2).
Proof.
  eexists _, _. refine (conj _ (conj _ (conj _ (conj _ _)))); [vm_compute; reflexivity|vm_compute; reflexivity| |vm_compute; reflexivity|vm_compute; reflexivity].
  repeat (apply alike_nil || (apply alike_value; [reflexivity|reflexivity]) || (apply alike_node; [discriminate|..]) || apply Forall2_cons || apply Forall2_nil || reflexivity).
Qed.

(** ** C29 *)
Theorem C29_all_or_nothing : forall fold_eq quote lo d q d', valid_runes q -> wire_mini_query fold_eq quote lo d q = Some d' ->
  (q = [] /\ d' = d) \/
  (q <> [] /\ (exists js, dJoins d' = dJoins d ++ js) /\
    ((exists w, dWheres d' = dWheres d ++ [w] /\ dErrors d' = dErrors d) \/
     (exists e, dWheres d' = dWheres d /\ dErrors d' = dErrors d ++ [e]))).
Proof. exact wire_all_or_nothing. Qed.
(** A failing query can leave a join behind. *)
Theorem C29_joins_refuted : forall lo, exists q d', valid_runes q /\ wire_mini_query fold2 quote2 lo db2 q = Some d' /\
  dErrors d' <> dErrors db2 /\ dJoins d' <> dJoins db2.
Proof. exact joins_left. Qed.
Example C29_ex : wire_mini_query fold2 quote2 lo2 db2 #"a = 1 and Profile.age = 2 and nope = 3" =
    Some (DB (Some sch2) None [#"Profile"] [] [GField #"nope"]) /\
  wire_mini_query fold2 quote2 lo2 db2 #"a = " = Some (DB (Some sch2) None [] [] [GSyntax (PESyntax 3 4)]).
Proof. split; vm_compute; reflexivity. Qed.

(** ** C30 *)
Theorem C30_columns : forall fold_eq quote lo d q n d', valid_runes q -> parse lo q = Ok (Some n) ->
  wire_mini_query fold_eq quote lo d q = Some d' -> succeeded d d' ->
  exists sch ps, schema_of d = Some sch /\ dWheres d' = dWheres d ++ [(sql_text quote ps, values ps)] /\
    Forall2 (column fold_eq sch) (names n) (columns ps).
Proof. exact wire_columns. Qed.
(** A query is wired exactly when every name in it has a column and every
    function called is date. *)
Theorem C30_exact : forall fold_eq quote lo d sch q n, valid_runes q -> parse lo q = Ok (Some n) -> schema_of d = Some sch -> schema_ok sch ->
  ((exists d', wire_mini_query fold_eq quote lo d q = Some d' /\ succeeded d d') <->
   (Forall (fun m => exists c, column fold_eq sch m c) (names n) /\ Forall (eq #"date") (functions n))).
Proof. exact wire_exact. Qed.
(** A relation field has the empty column name and is found by its name. *)
Theorem C30_empty_column_refuted : forall lo, exists q d', valid_runes q /\ wire_mini_query fold2 quote2 lo db2 q = Some d' /\
  succeeded db2 d' /\ dWheres d' = [(quote2 [] ++ #" = ?", [GInt 1])].
Proof. exact empty_column. Qed.
Example C30_ex : column fold2 sch2 (mk_reference [#"Profile"; #"AGE"]) #"Profile.age" /\
  wire_mini_query fold2 quote2 lo2 db2 #"Profile.AGE = USERNAME" = Some (DB (Some sch2) None [#"Profile"] [(#"`Profile.age` = `user_name`", [])] []) /\
  wire_mini_query fold2 quote2 lo2 db2 #"Profile.b = 1" = Some (DB (Some sch2) None [] [] [GRelField #"Profile" #"b"]) /\
  wire_mini_query fold2 quote2 lo2 db2 #"x.y.z = 1" = Some (DB (Some sch2) None [] [] [GLevels]).
Proof.
  split; [|repeat split; vm_compute; reflexivity].
  apply (col_ref fold2 sch2 (mk_reference [#"Profile"; #"AGE"]) #"Profile" #"AGE" prof2 #"age"); try reflexivity.
  apply (res_fold fold2 prof2 #"AGE" [] #"Age" #"age" []); try reflexivity; [|constructor]. intros [H|[]]. discriminate.
Qed.

(** ** C31 *)
Theorem C31_joins : forall fold_eq quote lo d q n d', valid_runes q -> parse lo q = Ok (Some n) ->
  wire_mini_query fold_eq quote lo d q = Some d' -> succeeded d d' ->
  dJoins d' = dJoins d ++ firsts [] (relations n).
Proof. exact wire_joins. Qed.
Theorem C31_once : forall l, NoDup (firsts [] l) /\ forall x, In x (firsts [] l) <-> In x l.
Proof. exact firsts_spec. Qed.
Theorem C31_order : forall a b, firsts [] (a ++ b) = firsts [] a ++ filter (fun x => negb (existsb (streq x) a)) (firsts [] b).
Proof. exact firsts_order. Qed.
(** The bookkeeping is per call: a second query on the same db joins again. *)
Theorem C31_two_queries_refuted : forall lo, exists q d1 d2, valid_runes q /\ wire_mini_query fold2 quote2 lo db2 q = Some d1 /\ succeeded db2 d1 /\
  wire_mini_query fold2 quote2 lo d1 q = Some d2 /\ succeeded d1 d2 /\ ~ NoDup (dJoins d2).
Proof. exact joins_twice. Qed.
Example C31_ex : exists n, parse lo2 #"Profile.age > 1 and (a = Profile.age or date(Profile.Age) = 2)" = Ok (Some n) /\
  relations n = [#"Profile"; #"Profile"; #"Profile"] /\ firsts [] (relations n) = [#"Profile"] /\
  wire_mini_query fold2 quote2 lo2 db2 #"Profile.age > 1 and (a = Profile.age or date(Profile.Age) = 2)" =
    Some (DB (Some sch2) None [#"Profile"] [(#"`Profile.age` > ? and (`a` = `Profile.age` or date(`Profile.age`) = ?)", [GInt 1; GInt 2])] []).
Proof. eexists. refine (conj _ (conj _ (conj _ _))); [vm_compute; reflexivity|reflexivity|reflexivity|vm_compute; reflexivity]. Qed.

(** ** C32 *)
Theorem C32_lookup : forall fold_eq t x c, get_db_name fold_eq t x = Some c <-> resolves fold_eq t x c.
Proof. exact lookup_spec. Qed.
Theorem C32_unique : forall fold_eq t x c c', resolves fold_eq t x c -> resolves fold_eq t x c' -> c = c'.
Proof. exact (fun f => lookup_unique f (fun c => c)). Qed.
Theorem C32_unresolved : forall fold_eq t x, (forall c, ~ resolves fold_eq t x c) <->
  ~ In x (tByDB t) /\ assoc x (tByName t) = None /\ Forall (fun f => fold_eq (fst f) x = false) (tFields t).
Proof. exact lookup_none. Qed.
Example C32_ex :
  let t := Table [#"B"] [(#"A", #"a1"); (#"B", #"b1")] [(#"a", #"a2"); (#"A", #"a1"); (#"c", #"c1"); (#"C", #"c2")] in
  get_db_name fold2 t #"B" = Some #"B" /\ get_db_name fold2 t #"A" = Some #"a1" /\ get_db_name fold2 t #"C" = Some #"c1" /\
  get_db_name fold2 t #"d" = None.
Proof. repeat split. Qed.

(** ** C33 *)
(** The condition is the expression written down flat, with its own
    parentheses; [atom] gives the text of its atomic conditions. *)
Theorem C33_text : forall fold_eq quote lo d q e d', valid_runes q -> reads q e -> json_free e = true ->
  wire_mini_query fold_eq quote lo d q = Some d' -> succeeded d d' ->
  exists sch atom vs, schema_of d = Some sch /\ dWheres d' = dWheres d ++ [(spell_chain atom (flat e), vs)] /\
    Forall (fun a => exists n ps, tree_of lo a = Some n /\ renders fold_eq sch n ps /\ atom a = sql_text quote ps) (atoms (flat e)).
Proof. exact wire_spells. Qed.
(** SQL reads it with the grouping of the expression exactly when no "and" has
    an unparenthesised "or" on its left. *)
Theorem C33_regular : forall q e, reads q e -> (sql_reading (flat e) = grouping e <-> regular e = true).
Proof. exact reads_regular. Qed.
Theorem C33_or_and_refuted : forall lo, exists q e d', valid_runes q /\ reads q e /\ wire_mini_query fold2 quote2 lo db2 q = Some d' /\ succeeded db2 d' /\
  dWheres d' = [(#"`a` = ? or `b` = ? and `c` = ?", [GInt 1; GInt 2; GInt 3])] /\
  exists v, holds v (sql_reading (flat e)) <> holds v (grouping e).
Proof. exact regrouped. Qed.
Example C33_ex : exists e, reads #"a = 1 and not (b = 2 or c = 3)" e /\ regular e = true /\
  wire_mini_query fold2 quote2 lo2 db2 #"a = 1 and not (b = 2 or c = 3)" =
    Some (add_where (#"`a` = ? and not (`b` = ? or `c` = ?)", [GInt 1; GInt 2; GInt 3]) db2) /\
  spell_chain (fun a => match a with ECmp (EName x) o _ => #"`" ++ x ++ #"` " ++ o ++ #" ?" | _ => [] end) (flat e) = #"`a` = ? and not (`b` = ? or `c` = ?)".
Proof. exact regular_example. Qed.

(** ** C34 *)
Theorem C34_no_panic : forall fold_eq quote lo d q, valid_runes q -> db_ok d -> exists d', wire_mini_query fold_eq quote lo d q = Some d'.
Proof. exact wire_total. Qed.
Theorem C34_functions : forall fold_eq quote lo d q n f d', valid_runes q -> parse lo q = Ok (Some n) -> In f (functions n) -> f <> #"date" ->
  wire_mini_query fold_eq quote lo d q = Some d' -> exists e, dErrors d' = dErrors d ++ [e] /\ dWheres d' = dWheres d.
Proof. exact function_fails. Qed.
(** A relation whose schema is nil does panic. *)
Theorem C34_nil_schema_refuted : forall lo, exists q d, valid_runes q /\ ~ db_ok d /\ wire_mini_query fold2 quote2 lo d q = None.
Proof. exact nil_schema. Qed.
Example C34_ex : wire_mini_query fold2 quote2 lo2 db2 #"a = 1 or upper(b) = 'X'" = Some (add_err (GFunc #"upper") db2) /\
  wire_mini_query fold2 quote2 lo2 (DB None None [] [] []) #"a = 1" = Some (DB None None [] [] [GMissingModel]).
Proof. split; vm_compute; reflexivity. Qed.

(** ** C35 *)
(** The arguments of date are written one after the other with nothing between. *)
Theorem C35_separated_refuted : forall fold_eq quote lo d sch q ms pss, valid_runes q -> schema_of d = Some sch ->
  parse lo q = Ok (Some (mk_function #"date" (map Some ms))) -> Forall2 (renders fold_eq sch) ms pss ->
  exists d', wire_mini_query fold_eq quote lo d q = Some d' /\ succeeded d d' /\
    dWheres d' = dWheres d ++ [(#"date(" ++ concat (map (sql_text quote) pss) ++ #")", concat (map values pss))].
Proof. exact wire_date. Qed.
Example C35_ex : wire_mini_query fold2 quote2 lo2 db2 #"date(a, 1, b) = 2" = Some (add_where (#"date(`a`?`b`) = ?", [GInt 1; GInt 2]) db2).
Proof. vm_compute. reflexivity. Qed.

(** ** C36 *)
(** Several queries, at least one of them not blank, each wired on its own
    with outcome [o]: the scope adds one condition, their bracketed texts joined by " and ",
    with all values in order, and joins each relation once. *)
Theorem C36_conjunction : forall fold_eq quote lo d sch x y l vs os, Forall valid_runes vs -> vs <> [] -> schema_of d = Some sch ->
  filter (fun v => negb (blank_entry v)) (x :: y :: l) = vs ->
  Forall2 (fun q o => (exists e, reads q e /\ json_free e = true) /\ wire_mini_query fold_eq quote lo d q = Some (lands sch d o)) vs os ->
  scope fold_eq quote lo (x :: y :: l) d =
    Some (lands sch d (Out3 (join_with #" and " (map (fun o => group (oText o)) os)) (concat (map oVals os)) (firsts [] (concat (map oJoins os))))).
Proof. exact scope_conjunction. Qed.
(** The first query that is not wired decides: its error, no condition. *)
Theorem C36_failure : forall fold_eq quote lo d sch x y l good bad rest os e, Forall valid_runes (good ++ bad :: rest) -> schema_of d = Some sch ->
  filter (fun v => negb (blank_entry v)) (x :: y :: l) = good ++ bad :: rest ->
  Forall (fun q => exists e n, reads q e /\ json_free e = true /\ parse lo q = Ok n) (good ++ bad :: rest) ->
  Forall2 (fun q o => wire_mini_query fold_eq quote lo d q = Some (lands sch d o)) good os ->
  (exists js, wire_mini_query fold_eq quote lo d bad = Some (add_err e (add_joins js (with_schema sch d)))) ->
  exists js, scope fold_eq quote lo (x :: y :: l) d = Some (add_err e (add_joins js (with_schema sch d))).
Proof. exact scope_failure. Qed.
Theorem C36_blank : forall fold_eq quote lo x y l d, forallb blank_entry (x :: y :: l) = true -> scope fold_eq quote lo (x :: y :: l) d = Some d.
Proof. exact scope_blank. Qed.
Theorem C36_none : forall fold_eq quote lo d, scope fold_eq quote lo [] d = Some d.
Proof. exact scope_none. Qed.
Theorem C36_single : forall fold_eq quote lo q d, scope fold_eq quote lo [q] d = wire_mini_query fold_eq quote lo d q.
Proof. exact scope_single. Qed.
Example C36_ex : scope fold2 quote2 lo2 [#"a = 1 or b = 2"; #" "; #"Profile.age > 3"; #"c = Profile.age"] db2 =
    Some (DB (Some sch2) None [#"Profile"] [(#"(`a` = ? or `b` = ?) and (`Profile.age` > ?) and (`c` = `Profile.age`)", [GInt 1; GInt 2; GInt 3])] []) /\
  scope fold2 quote2 lo2 [#"a = 1"; #"Profile.age > 3 and x = 1"; #"y = 2"] db2 = Some (DB (Some sch2) None [#"Profile"] [] [GField #"x"]).
Proof. split; vm_compute; reflexivity. Qed.

(** ** C50 *)
(** The complete rendering, construct by construct ([renders], GormSpec.v): a
    query whose tree renders as [ps] is wired with that text and those values,
    and a query that is wired has a rendering. *)
Theorem C50_sound : forall fold_eq quote lo d sch q n ps, valid_runes q -> parse lo q = Ok (Some n) -> schema_of d = Some sch ->
  renders fold_eq sch n ps ->
  wire_mini_query fold_eq quote lo d q =
    Some (add_where (sql_text quote ps, values ps) (add_joins (firsts [] (relations n)) (with_schema sch d))).
Proof. exact renders_sound. Qed.
(** ApplyMiniQuery does the same. *)
Theorem C50_apply : forall fold_eq quote lo d sch q n ps, valid_runes q -> parse lo q = Ok (Some n) -> schema_of d = Some sch ->
  renders fold_eq sch n ps ->
  apply_mini_query fold_eq quote lo q d =
    Some (add_where (sql_text quote ps, values ps) (add_joins (firsts [] (relations n)) (with_schema sch d))).
Proof. exact renders_sound. Qed.
Theorem C50_complete : forall fold_eq quote lo d q n d', valid_runes q -> parse lo q = Ok (Some n) ->
  wire_mini_query fold_eq quote lo d q = Some d' -> succeeded d d' ->
  exists sch ps, schema_of d = Some sch /\ renders fold_eq sch n ps.
Proof. exact renders_complete. Qed.
Theorem C50_unique : forall fold_eq sch n ps ps', safe n -> renders fold_eq sch n ps -> renders fold_eq sch n ps' -> ps = ps'.
Proof. exact (fun f => renders_unique f (fun c => c)). Qed.
Example C50_ex : exists n, parse lo2 #"not date(ID) between 1 and 2" = Ok (Some n) /\
  renders fold2 sch2 n [PText #"not "; PText #"date"; PText #"("; PColumn #"id"; PText #")"; PText #" "; PText #"between"; PText #" ";
    PValue (GInt 1); PText #" and "; PValue (GInt 2)].
Proof. exact renders_example. Qed.

Print Assumptions C26_pieces.
Print Assumptions C26_marks.
Print Assumptions C26_comment_refuted.
Print Assumptions C27_vocabulary.
Print Assumptions C27_injection_refuted.
Print Assumptions C28_literal_free.
Print Assumptions C29_all_or_nothing.
Print Assumptions C29_joins_refuted.
Print Assumptions C30_columns.
Print Assumptions C30_exact.
Print Assumptions C30_empty_column_refuted.
Print Assumptions C31_joins.
Print Assumptions C31_once.
Print Assumptions C31_order.
Print Assumptions C31_two_queries_refuted.
Print Assumptions C32_lookup.
Print Assumptions C32_unique.
Print Assumptions C32_unresolved.
Print Assumptions C33_text.
Print Assumptions C33_regular.
Print Assumptions C33_or_and_refuted.
Print Assumptions C34_no_panic.
Print Assumptions C34_functions.
Print Assumptions C34_nil_schema_refuted.
Print Assumptions C35_separated_refuted.
Print Assumptions C36_conjunction.
Print Assumptions C36_failure.
Print Assumptions C36_blank.
Print Assumptions C36_none.
Print Assumptions C36_single.
Print Assumptions C50_sound.
Print Assumptions C50_apply.
Print Assumptions C50_complete.
Print Assumptions C50_unique.
