(** The type of a literal, and whether it is null, shows in the SQL (C82). *)
From Verif Require Import Base Peg Node Vocab Tree Parse Syntax ParseProofs NormProofs ParserFacts ParserFacts2 ParserMain Gorm GormSpec GormSample EntSQL EntSQLSpec EntSQLProofs
  EntSQLFacts EntSQLSample LitSpec.
Strategy expand [parse_machine rule_trace].
Strategy 1000 [parse_fuel mrun tok_trace].

Ltac alikes := repeat (apply alike_nil || (apply alike_value; [reflexivity|reflexivity]) || (apply alike_node; [discriminate|..]) || apply Forall2_cons || apply Forall2_nil || reflexivity).
Lemma types_show : ~ (forall d dis nd q1 q2 n1 n2 x1 x2, parse lo2 q1 = Ok (Some n1) -> parse lo2 q2 = Ok (Some n2) -> alike (Some n1) (Some n2) ->
  query3 d dis nd q1 = Some x1 -> query3 d dis nd q2 = Some x2 -> fst x1 = fst x2).
Proof.
  intros H. assert (A : exists n1 n2, parse lo2 #"a = 1" = Ok (Some n1) /\ parse lo2 #"a = 'x'" = Ok (Some n2) /\ alike (Some n1) (Some n2)).
  { eexists _, _. refine (conj _ (conj _ _)); [vm_compute; reflexivity|vm_compute; reflexivity|alikes]. }
  destruct A as (n1 & n2 & A & B & C).
  specialize (H #"postgres" false None _ _ n1 n2 (#"|a| = $1::int", [ACast (GInt 1)]) (#"|a| = $1", [ACast (GStr #"x")]) A B C).
  assert (X : #"|a| = $1::int" = #"|a| = $1") by (apply H; vm_compute; reflexivity). discriminate X.
Qed.
Lemma null_shows : ~ (forall d dis nd q1 q2 n1 n2 x1 x2, d <> #"postgres" -> parse lo2 q1 = Ok (Some n1) -> parse lo2 q2 = Ok (Some n2) -> alike (Some n1) (Some n2) ->
  query3 d dis nd q1 = Some x1 -> query3 d dis nd q2 = Some x2 -> fst x1 = fst x2).
Proof.
  intros H. assert (A : exists n1 n2, parse lo2 #"a in (1,2)" = Ok (Some n1) /\ parse lo2 #"a in (1,null)" = Ok (Some n2) /\ alike (Some n1) (Some n2)).
  { eexists _, _. refine (conj _ (conj _ _)); [vm_compute; reflexivity|vm_compute; reflexivity|alikes]. }
  destruct A as (n1 & n2 & A & B & C).
  specialize (H #"mysql" false None _ _ n1 n2 (#"`a` IN (?, ?)", [APlain (GInt 1); APlain (GInt 2)]) (#"`a` IN (?, NULL)", [APlain (GInt 1)]) ltac:(discriminate) A B C).
  assert (X : #"`a` IN (?, ?)" = #"`a` IN (?, NULL)") by (apply H; vm_compute; reflexivity). discriminate X.
Qed.
