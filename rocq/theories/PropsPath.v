(** Property C97: what becomes of a path a->b.  Statements only; proofs are in
    PathFacts.v and PathUse.v. *)
From Verif Require Import Base Peg Node Vocab Tree Parse Syntax Reader ParserFacts2 ParserMain Build Gorm GormSpec GormSample EntQL EntSQL EntSQLSample PathSpec PathFacts PathUse.
Strategy expand [parse_machine].
Strategy 1000 [parse_fuel mrun].

(** ** C97 *)
(** If no right operand begins with a path, the tree is that of the expression in
    which each path is its last name alone. *)
Theorem C97_last : forall lo q e, valid_runes q -> reads q e -> fits e = true -> lean true e = true -> parse lo q = Ok (tree_of lo (shown e)).
Proof. exact lean_tree. Qed.
(** All backends treat it as that query. *)
Theorem C97_column : forall lo q q' e, valid_runes q -> valid_runes q' -> reads q e -> reads q' (shown e) -> lean true e = true -> fits e = true ->
  (forall f_lower quote d, wire_mini_query f_lower quote lo d q = wire_mini_query f_lower quote lo d q') /\
  build_entql lo q = build_entql lo q' /\
  (forall ident_sql edge_sql heap d dis nd, option_map snd (query lo ident_sql edge_sql heap (fresh d dis nd q)) = option_map snd (query lo ident_sql edge_sql heap (fresh d dis nd q'))).
Proof. exact as_last. Qed.
(** If some right operand does, and only then, a node of the tree has for its operator
    something that is none. *)
Theorem C97_misbuilt : forall lo deep q e n, valid_runes q -> reads q e -> parse lo q = Ok (Some n) -> misbuilt deep n <-> lean deep e = false.
Proof. exact misbuilt_iff. Qed.
(** Everything to the left of a right operand with a path in it is lost; with two
    names left over also the operator. *)
Theorem C97_lost : forall lo q q' l l' o o' r e e', valid_runes q -> valid_runes q' -> reads q e -> reads q' e' ->
  (e = ELogic l o r /\ e' = ELogic l' o' r \/ e = ECmp l o r /\ e' = ECmp l' o' r) -> fits e = true -> fits e' = true ->
  (o = o' /\ 1 <= left_over r \/ 2 <= left_over r) -> parse lo q = parse lo q'.
Proof. exact lost_left. Qed.
(** The backends of ent refuse such a query. *)
Theorem C97_entql : forall lo q e, valid_runes q -> reads q e -> lean false e = false -> forall p, build_entql lo q <> Ok p.
Proof. exact entql_paths. Qed.
Theorem C97_entsql : forall lo ident_sql edge_sql heap d dis nd q e m r, valid_runes q -> reads q e -> lean false e = false ->
  query lo ident_sql edge_sql heap (fresh d dis nd q) = Some (m, r) -> r = ([], []) /\ ~ no_error m.
Proof. exact entsql_paths. Qed.
(** gormq does not: that it is refused, or the condition before it is kept, is false. *)
Theorem C97_gorm_refuted : exists q e, valid_runes q /\ reads q e /\ lean false e = false /\ q = #"a = 1 and b->c = 2" /\
  exists d', wire_mini_query fold2 quote2 lo2 db2 q = Some d' /\ dErrors d' = [] /\ dWheres d' = [(#"and `b` `c` = ?", [GInt 2])].
Proof.
  exists #"a = 1 and b->c = 2". eexists. split; [now apply valid_runesb_spec|]. split; [apply read_of_reads; vm_compute; reflexivity|].
  split; [reflexivity|]. split; [reflexivity|]. eexists. split; [vm_compute; reflexivity|]. split; vm_compute; reflexivity.
Qed.

Example C97_ex : exists e e2 e3, reads #"b->c = 2 and f(a->b, 1) > 0" e /\ lean true e = true /\ fits e = true /\ heads e = [#"b"] /\
  reads #"c = 2 and f(a, b, 1) > 0" (shown e) /\ parse lo2 #"b->c = 2 and f(a->b, 1) > 0" = parse lo2 #"c = 2 and f(a, b, 1) > 0" /\
  (* the guard is lost, and it does not matter what it is *)
  reads #"a = 1 and (b->c = 2)" e2 /\ reads #"c in [3] or a is null and (b->c = 2)" e3 /\
  lean false e2 = false /\ parse lo2 #"a = 1 and (b->c = 2)" = parse lo2 #"c in [3] or a is null and (b->c = 2)" /\
  build_entql lo2 #"a = 1 and (b->c = 2)" = Err (XOpNode #"and") /\ query3 #"mysql" true (Some 0) #"a = 1 and (b->c = 2)" = Some ([], []).
Proof.
  eexists _, _, _. split; [apply read_of_reads; vm_compute; reflexivity|]. split; [reflexivity|]. split; [reflexivity|]. split; [reflexivity|].
  split; [apply read_of_reads; vm_compute; reflexivity|]. split; [vm_compute; reflexivity|]. split; [apply read_of_reads; vm_compute; reflexivity|].
  split; [apply read_of_reads; vm_compute; reflexivity|]. split; [reflexivity|]. split; [vm_compute; reflexivity|]. split; vm_compute; reflexivity.
Qed.

Print Assumptions C97_last. Print Assumptions C97_column. Print Assumptions C97_misbuilt. Print Assumptions C97_lost. Print Assumptions C97_entql.
Print Assumptions C97_entsql. Print Assumptions C97_gorm_refuted.
