(** C82: what is written inside literals does not influence the SQL of entsql. *)
From Verif Require Import Base Peg Node Vocab Tree Parse Syntax ParseProofs NormProofs ParserFacts ParserFacts2 ParserMain Gorm GormSpec GormSample EntSQL EntSQLSpec EntSQLProofs
  EntSQLFacts EntSQLSample LitSpec LitProofs LitFacts.
Strategy expand [parse_machine rule_trace].
Strategy 1000 [parse_fuel mrun tok_trace].

(** Two queries whose trees are the same once the literals are emptied.  The
    builder may have written anything before. *)
Theorem C82_same : forall casts ident_sql edge_sql heap lo dis nd st q1 q2 n1 n2,
  parse lo q1 = Ok (Some n1) -> parse lo q2 = Ok (Some n2) -> blank casts n1 = blank casts n2 -> suits casts st ->
  match query lo ident_sql edge_sql heap (MB nd q1 None dis st), query lo ident_sql edge_sql heap (MB nd q2 None dis st) with
  | Some (m1, (t1, a1)), Some (m2, (t2, a2)) =>
      t1 = t2 /\ map (blank_arg casts) a1 = map (blank_arg casts) a2 /\ same_state casts (mSt m1) (mSt m2)
  | None, None => True
  | _, _ => False
  end.
Proof. exact query_same. Qed.
Theorem C82_errors : forall casts b1 b2, same_builder casts b1 b2 -> (bErrs b1 = [] <-> bErrs b2 = []).
Proof. exact same_errors. Qed.

(** Types are told apart by casts on Postgres only. *)
Example C82_ex : exists n1 n2 n3,
  parse lo2 #"a = 1 and b in ('x', null) or has_edge(pets, c between 2 and 3)" = Ok (Some n1) /\
  parse lo2 #"a = 77 and b in ('yy', null) or has_edge(pets, c between 40 and 0)" = Ok (Some n2) /\
  parse lo2 #"a = 'z' and b in (true, null) or has_edge(pets, c between '' and 0)" = Ok (Some n3) /\
  blank true n1 = blank true n2 /\ blank false n1 = blank false n3 /\ blank true n1 <> blank true n3 /\
  query3 #"postgres" false (Some 0) #"a = 1 and b in ('x', null) or has_edge(pets, c between 2 and 3)" =
    Some (#"|a| = $1::int AND |b| IN ($2, NULL) OR EXISTS (SELECT * FROM pets WHERE |c| >= $3::int AND |c| <= $4::int)",
          [ACast (GInt 1); APlain (GStr #"x"); ACast (GInt 2); ACast (GInt 3)]) /\
  query3 #"postgres" false (Some 0) #"a = 77 and b in ('yy', null) or has_edge(pets, c between 40 and 0)" =
    Some (#"|a| = $1::int AND |b| IN ($2, NULL) OR EXISTS (SELECT * FROM pets WHERE |c| >= $3::int AND |c| <= $4::int)",
          [ACast (GInt 77); APlain (GStr #"yy"); ACast (GInt 40); ACast (GInt 0)]) /\
  option_map fst (query3 #"mysql" false (Some 0) #"a = 1 and b in ('x', null) or has_edge(pets, c between 2 and 3)") =
    Some #"`a` = ? AND `b` IN (?, NULL) OR EXISTS (SELECT * FROM pets WHERE `c` >= ? AND `c` <= ?)" /\
  option_map fst (query3 #"mysql" false (Some 0) #"a = 'z' and b in (true, null) or has_edge(pets, c between '' and 0)") =
    Some #"`a` = ? AND `b` IN (?, NULL) OR EXISTS (SELECT * FROM pets WHERE `c` >= ? AND `c` <= ?)".
Proof.
  eexists _, _, _. refine (conj _ (conj _ (conj _ (conj _ (conj _ (conj _ (conj _ (conj _ (conj _ _))))))))); [vm_compute; reflexivity|vm_compute; reflexivity|vm_compute; reflexivity| | | | | | |].
  - vm_compute; reflexivity.
  - vm_compute; reflexivity.
  - vm_compute; discriminate.
  - vm_compute; reflexivity.
  - vm_compute; reflexivity.
  - vm_compute; reflexivity.
  - vm_compute; reflexivity.
Qed.

(** The type of a literal does show on Postgres, and null elsewhere. *)
Theorem C82_types_refuted : ~ (forall d dis nd q1 q2 n1 n2 x1 x2, parse lo2 q1 = Ok (Some n1) -> parse lo2 q2 = Ok (Some n2) -> alike (Some n1) (Some n2) ->
  query3 d dis nd q1 = Some x1 -> query3 d dis nd q2 = Some x2 -> fst x1 = fst x2).
Proof. exact types_show. Qed.
Theorem C82_null_refuted : ~ (forall d dis nd q1 q2 n1 n2 x1 x2, d <> #"postgres" -> parse lo2 q1 = Ok (Some n1) -> parse lo2 q2 = Ok (Some n2) -> alike (Some n1) (Some n2) ->
  query3 d dis nd q1 = Some x1 -> query3 d dis nd q2 = Some x2 -> fst x1 = fst x2).
Proof. exact null_shows. Qed.

Print Assumptions C82_same.
Print Assumptions C82_errors.
Print Assumptions C82_types_refuted.
Print Assumptions C82_null_refuted.
