(** A sample schema graph for examples and refutations: users (node 0) with an
    edge "pets" to pets (node 1), and an edge "owner" back. *)
From Verif Require Import Base Peg Node Vocab Tree Parse Syntax ParseProofs NormProofs ParserFacts ParserFacts2 ParserMain Build NodeFacts
  Gorm GormSpec GormSample EntSQL EntSQLSpec EntSQLProofs EntSQLFacts.
Strategy expand [parse_machine rule_trace].
Strategy 1000 [parse_fuel mrun tok_trace].

Definition ident3 (d x : list N) : list N := if streq d #"postgres" then #"|" ++ x ++ #"|" else #"`" ++ x ++ #"`".
Definition edge3 (w : bool) (d : list N) (from : gnode) (spec : gspec) (to : gnode) : option (list N * list N) :=
  if w then Some (#"EXISTS (SELECT * FROM " ++ gnTable to ++ #" WHERE ", #")") else Some (#"EXISTS (SELECT * FROM " ++ gnTable to ++ #")", []).
Definition spec3 : gspec := GS 1 false #"pets" [#"owner_id"].
Definition heap3 (k : nat) : gnode :=
  match k with
  | 0 => GN #"users" [] (Some #"id") [(#"pets", (Some 1, Some spec3))]
  | _ => GN #"pets" [] (Some #"id") [(#"owner", (Some 0, Some spec3))]
  end.
Definition query3 (d : list N) (dis : bool) (nd : option nat) (q : list N) : option (list N * list sarg) :=
  option_map snd (query lo2 ident3 edge3 heap3 (fresh d dis nd q)).
