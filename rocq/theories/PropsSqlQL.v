(** C86: what the predicates of entql mean, for every query it takes and for
    lists of queries. *)
From Verif Require Import Base Peg Grammar Node Vocab Tree Parse Syntax ParseProofs ParserFacts ParserFacts2 ParserMain Build NodeFacts Reader
  EntQL Gorm GormSpec GormSample SqlSpec SqlSpecDb SqlSpecQL SqlSpecQL2 SqlAll SqlScope SqlQL PropsSql PropsSqlEnt.
Strategy expand [parse_machine rule_trace].
Strategy 1000 [parse_fuel mrun tok_trace].

(** The queries that give a predicate. *)
Theorem C86_accepts : forall lo q e, valid_runes q -> reads q e -> json_free e = true ->
  ((exists p, build_entql lo q = Ok (Some p)) <-> fits e = true /\ takes lo e = true /\ conditional e = true).
Proof. exact ql_accepts. Qed.
(** Its value in every row of every world. *)
Theorem C86_means : forall lo q e p, valid_runes q -> reads q e -> json_free e = true -> build_entql lo q = Ok (Some p) ->
  forall w row nm, (forall x, nm [x] = row x) -> ql_means w row p = Some (ql_value w lo nm e).
Proof. exact ql_exact_value. Qed.
(** That is the value of the query in every lawful world exactly for queries
    without "not" and "not between". *)
Theorem C86_exact : forall lo e, takes lo e = true -> clean lo e = true ->
  (affirmed lo e = true <-> forall w nm, lawful w -> ql_value w lo nm e = query_means w lo nm e).
Proof. intros lo e H _. now apply ql_exact. Qed.
(** With a comment in it a "not between" is taken for "between". *)
Theorem C86_comment_refuted : forall lo,
  let q k := #"a" ++ k ++ #" between 1 and 2" in
  let p := XBinary EAnd (XBinary EGTE (XField #"a") (XValue (GInt 1))) (XBinary ELTE (XField #"a") (XValue (GInt 2))) in
  build_entql lo (q (#" not--" ++ [10%N])) = Ok (Some p) /\ build_entql lo (q []) = Ok (Some p) /\ build_entql lo (q #" not") <> Ok (Some p).
Proof. intros lo q p. split; [vm_compute; reflexivity|]. split; [vm_compute; reflexivity|]. vm_compute. discriminate. Qed.

(** ** Lists of queries *)
(** ApplyEntQL: one predicate for each query, with the value of the query. *)
Theorem C86_apply : forall lo qs es ps, Forall valid_runes qs -> Forall2 reads qs es -> forallb json_free es = true -> apply_entql lo qs = (map Some ps, Ok tt) ->
  forall w row nm, (forall c, nm [c] = row c) -> map (ql_means w row) ps = map Some (map (ql_value w lo nm) es).
Proof. exact apply_means. Qed.
(** Join: one predicate, the "and" of all. *)
Theorem C86_join : forall lo x y l e es p, Forall valid_runes (x :: y :: l) -> Forall2 reads (filter (fun v => negb (blank_entry v)) (x :: y :: l)) (e :: es) ->
  forallb json_free (e :: es) = true -> build_entql lo (join (x :: y :: l)) = Ok (Some p) ->
  forall w row nm, (forall c, nm [c] = row c) -> ql_means w row p = Some (fold_left (wAnd w) (map (ql_value w lo nm) es) (ql_value w lo nm e)).
Proof. exact ql_join. Qed.
(** If the queries can be applied one by one they can be joined, and the same rows
    meet all of the predicates and the one. *)
Theorem C86_same : forall lo x y l e es ps, Forall valid_runes (x :: y :: l) -> Forall2 reads (filter (fun v => negb (blank_entry v)) (x :: y :: l)) (e :: es) ->
  forallb json_free (e :: es) = true -> apply_entql lo (filter (fun v => negb (blank_entry v)) (x :: y :: l)) = (map Some ps, Ok tt) ->
  exists p, build_entql lo (join (x :: y :: l)) = Ok (Some p) /\
    forall (w : world) (T : wV w -> Prop), (forall a b, T (wAnd w a b) <-> T a /\ T b) ->
    forall row, (exists v, ql_means w row p = Some v /\ T v) <-> Forall (fun p => exists v, ql_means w row p = Some v /\ T v) ps.
Proof. exact ql_same. Qed.
(** An entry that is no query but two around [) or (] gets out of a joined list. *)
Theorem C86_escape : forall lo p x y ep ex ey k, Forall valid_runes [p; x; y] -> reads p ep -> reads x ex -> reads y ey -> forallb json_free [ep; ex; ey] = true ->
  build_entql lo (join [p; x ++ #") or (" ++ y]) = Ok (Some k) ->
  forall w row nm, (forall c, nm [c] = row c) -> ql_means w row k = Some (wOr w (wAnd w (ql_value w lo nm ep) (ql_value w lo nm ex)) (ql_value w lo nm ey)).
Proof. exact ql_escape. Qed.

(** ** Examples *)
(** Where a is 3, b is 1 and c is 0: the query is true, its predicate is not. *)
Definition q86 : list N := #"not (a = 3 and b not between 1 and 5) and c in [0, 2]".
Example C86_ex : exists e p, reads q86 e /\ valid_runes q86 /\ json_free e = true /\ fits e = true /\ takes lo2 e = true /\ conditional e = true /\ clean lo2 e = true /\ affirmed lo2 e = false /\
  build_entql lo2 q86 = Ok (Some p) /\
  p = XBinary EAnd (XBinary EAnd (XBinary EEQ (XField #"a") (XValue (GInt 3))) (XBinary EAnd (XBinary ELT (XField #"b") (XValue (GInt 1))) (XBinary EGT (XField #"b") (XValue (GInt 5)))))
    (XBinary EInOp (XField #"c") (XValue (GArr [GInt 0; GInt 2]))) /\
  ql_means free_world QCol p = Some (ql_value free_world lo2 (fun xs => QCol (concat xs)) e).
Proof.
  do 2 eexists. split; [apply read_of_reads; vm_compute; reflexivity|]. split; [apply valid_runesb_spec; vm_compute; reflexivity|].
  split; [reflexivity|]. split; [reflexivity|]. split; [reflexivity|]. split; [reflexivity|]. split; [reflexivity|]. split; [reflexivity|]. split; [vm_compute; reflexivity|]. split; reflexivity.
Qed.
Definition l86 : list (list N) := [#"a = 3"; #"  "; #"b = 1 or c = 1"].
Example C86_ex_lists : exists e es p ps, Forall valid_runes l86 /\ Forall2 reads (filter (fun v => negb (blank_entry v)) l86) (e :: es) /\ forallb json_free (e :: es) = true /\
  apply_entql lo2 (filter (fun v => negb (blank_entry v)) l86) = (map Some ps, Ok tt) /\ build_entql lo2 (join l86) = Ok (Some p) /\
  p = XBinary EAnd (XBinary EEQ (XField #"a") (XValue (GInt 3))) (XBinary EOr (XBinary EEQ (XField #"b") (XValue (GInt 1))) (XBinary EEQ (XField #"c") (XValue (GInt 1)))) /\
  ps = [XBinary EEQ (XField #"a") (XValue (GInt 3)); XBinary EOr (XBinary EEQ (XField #"b") (XValue (GInt 1))) (XBinary EEQ (XField #"c") (XValue (GInt 1)))].
Proof.
  do 4 eexists. split; [repeat constructor|]. split.
  - change (filter _ l86) with [#"a = 3"; #"b = 1 or c = 1"]. repeat (apply Forall2_cons; [apply read_of_reads; vm_compute; reflexivity|]). apply Forall2_nil.
  - split; [reflexivity|]. split; [|split; [vm_compute; reflexivity|split; reflexivity]]. vm_compute. reflexivity.
Qed.
(** Joined, the second entry lets rows through that the first keeps out; applied
    one by one it is a syntax error. *)
Example C86_ex_escape : build_entql lo2 (join [#"c = 3"; #"c = 4) or (b = 1"]) =
    Ok (Some (XBinary EOr (XBinary EAnd (XBinary EEQ (XField #"c") (XValue (GInt 3))) (XBinary EEQ (XField #"c") (XValue (GInt 4)))) (XBinary EEQ (XField #"b") (XValue (GInt 1))))) /\
  exists e, apply_entql lo2 [#"c = 3"; #"c = 4) or (b = 1"] = ([Some (XBinary EEQ (XField #"c") (XValue (GInt 3)))], Err (XParse e)).
Proof. split; [vm_compute; reflexivity|]. eexists. vm_compute. reflexivity. Qed.

Print Assumptions C86_accepts.
Print Assumptions C86_means.
Print Assumptions C86_exact.
Print Assumptions C86_comment_refuted.
Print Assumptions C86_apply.
Print Assumptions C86_join.
Print Assumptions C86_same.
Print Assumptions C86_escape.
