(** Statements about entql (C37-C41, C51). *)
From Verif Require Import Base Peg Node Vocab Tree Parse ParserFacts2 ParserMain Build NodeFacts GormSample EntQL EntQLSpec EntQLProofs.
Strategy expand [parse_machine rule_trace].
Strategy 1000 [parse_fuel mrun tok_trace].

(** ** C37 *)
(** A predicate is returned exactly when the tree is a condition that [copies]
    (EntQLSpec.v) relates to it. *)
Theorem C37_predicate : forall lo q p, valid_runes q ->
  (build_entql lo q = Ok (Some p) <-> exists n, parse lo q = Ok (Some n) /\ copies true n p /\ is_condition n = true).
Proof. exact build_predicate. Qed.
(** nil and no error: the empty query, and a query that is just a call. *)
Theorem C37_nil : forall lo q, valid_runes q ->
  (build_entql lo q = Ok None <-> q = [] \/ exists n, parse lo q = Ok (Some n) /\ is_call n = true).
Proof. exact build_nil. Qed.
Theorem C37_syntax : forall lo q e, q <> [] -> parse lo q = Err e -> build_entql lo q = Err (XParse e).
Proof. exact build_syntax. Qed.
(** Without calls, the outcome is the one the tree's [fate_of] says. *)
Theorem C37_verdict : forall lo q n, valid_runes q -> parse lo q = Ok (Some n) -> calls n = 0 -> verdict n (build_entql lo q).
Proof. exact build_verdict. Qed.
(** A call below the top is never accepted, and panics when nothing else is wrong. *)
Theorem C37_calls : forall lo q n, valid_runes q -> parse lo q = Ok (Some n) -> calls n <> 0 -> is_call n = false ->
  (sound n -> build_entql lo q = Panic) /\ (forall p, build_entql lo q <> Ok p).
Proof. exact build_calls. Qed.
(** It is not true that BuildEntQL never panics. *)
Theorem C37_no_panic_refuted : forall lo,
  build_entql lo #"a is null" = Panic /\ build_entql lo #"a" = Panic /\ build_entql lo #"date(a) = 1" = Panic /\
  build_entql lo #"not a.b = 1" = Panic /\ build_entql lo #"a = 1 and not (c > d.e)" = Panic.
Proof. intro lo. repeat split; vm_compute; reflexivity. Qed.
Example C37_ex :
  build_entql lo2 #"not (a = 1 or b in [2,3])" =
    Ok (Some (XBinary EOr (XBinary EEQ (XField #"a") (XValue (GInt 1))) (XBinary EInOp (XField #"b") (XValue (GArr [GInt 2; GInt 3]))))) /\
  build_entql lo2 #"f(a)" = Ok None /\ build_entql lo2 #"a = 1 and b like ""x""" = Err (XOp #"like") /\
  build_entql lo2 #"a = 1 and not (b.c = 2)" = Err (XType NReference).
Proof. repeat split; vm_compute; reflexivity. Qed.

(** ** C38 *)
(** In the fragment the predicate exists and is the tree without its brackets. *)
Theorem C38_mirror : forall lo q n, valid_runes q -> parse lo q = Ok (Some n) -> mirrorable n = true -> is_condition n = true ->
  exists p, build_entql lo q = Ok (Some p) /\ copies false n p.
Proof. exact build_mirror. Qed.
Theorem C38_unique : forall d n x, copies d n x -> forall y, copies d n y -> x = y.
Proof. exact copies_unique. Qed.
(** Without negation and "not between" the predicate means what the query means. *)
Theorem C38_meaning : forall lo row q n v, valid_runes q -> parse lo q = Ok (Some n) -> positive n = true -> is_condition n = true -> nmeans row n v ->
  exists p, build_entql lo q = Ok (Some p) /\ xmeans row p = Some v.
Proof. exact build_meaning. Qed.
Example C38_ex : exists n, parse lo2 #"(a = 1 or b between 2 and 5) and c not in [1,2]" = Ok (Some n) /\ mirrorable n = true /\ is_condition n = true /\ positive n = true /\
  nmeans (fun c => if streq c #"b" then GInt 3 else GInt 7) n (GBool true) /\
  build_entql lo2 #"(a = 1 or b between 2 and 5) and c not in [1,2]" =
    Ok (Some (XBinary EAnd (XBinary EOr (XBinary EEQ (XField #"a") (XValue (GInt 1)))
                                        (XBinary EAnd (XBinary EGTE (XField #"b") (XValue (GInt 2))) (XBinary ELTE (XField #"b") (XValue (GInt 5)))))
                           (XBinary ENotIn (XField #"c") (XValue (GArr [GInt 1; GInt 2]))))).
Proof. exact mirror_example. Qed.

(** ** C39 *)
(** [not (q)] gives the predicate of [q]: the negation is lost for every query. *)
Theorem C39_negation_refuted : forall lo q p, valid_runes q -> build_entql lo q = Ok (Some p) -> build_entql lo (#"not (" ++ q ++ #")") = Ok (Some p).
Proof. exact not_dropped. Qed.
(** So the two mean the same, where the meaning should be the opposite. *)
Theorem C39_meaning_refuted : forall lo row q n b, valid_runes q -> parse lo q = Ok (Some n) -> positive n = true -> is_condition n = true ->
  nmeans row n (GBool b) -> exists m p, parse lo (#"not (" ++ q ++ #")") = Ok (Some m) /\ nmeans row m (GBool (negb b)) /\
    build_entql lo (#"not (" ++ q ++ #")") = Ok (Some p) /\ xmeans row p = Some (GBool b).
Proof. exact not_meaning. Qed.
Example C39_ex : build_entql lo2 #"a = 1" = Ok (Some (XBinary EEQ (XField #"a") (XValue (GInt 1)))) /\
  build_entql lo2 #"not (a = 1)" = Ok (Some (XBinary EEQ (XField #"a") (XValue (GInt 1)))).
Proof. split; vm_compute; reflexivity. Qed.

(** ** C40, entql *)
Theorem C40_entql_between : forall lo row q l k a b x y z, valid_runes q ->
  parse lo q = Ok (Some (mk_between (Some l) (Some k) (Some a) (Some b))) -> nOperation k <> #"not between" ->
  nmeans row l (GInt x) -> positive l = true -> go_value a (GInt y) -> go_value b (GInt z) ->
  exists p h, build_entql lo q = Ok (Some p) /\ xmeans row p = Some (GBool h) /\ (h = true <-> (y <= x <= z)%Z).
Proof. exact ql_between. Qed.
(** With "not between" the condition never holds when the lower bound is not
    above the upper one, although it should for every other [x]. *)
Theorem C40_entql_not_between_refuted : forall lo row q l k a b x y z, valid_runes q ->
  parse lo q = Ok (Some (mk_between (Some l) (Some k) (Some a) (Some b))) -> nOperation k = #"not between" ->
  nmeans row l (GInt x) -> positive l = true -> go_value a (GInt y) -> go_value b (GInt z) -> (y <= z)%Z ->
  exists p, build_entql lo q = Ok (Some p) /\ xmeans row p = Some (GBool false).
Proof. exact ql_not_between. Qed.
Example C40_entql_ex : 
  build_entql lo2 #"age between 18 and 30" = Ok (Some (XBinary EAnd (XBinary EGTE (XField #"age") (XValue (GInt 18))) (XBinary ELTE (XField #"age") (XValue (GInt 30))))) /\
  build_entql lo2 #"age not between 18 and 30" = Ok (Some (XBinary EAnd (XBinary ELT (XField #"age") (XValue (GInt 18))) (XBinary EGT (XField #"age") (XValue (GInt 30))))) /\
  xmeans (fun _ => GInt 40) (XBinary EAnd (XBinary ELT (XField #"age") (XValue (GInt 18))) (XBinary EGT (XField #"age") (XValue (GInt 30)))) = Some (GBool false).
Proof. repeat split; vm_compute; reflexivity. Qed.

(** ** C41 *)
Theorem C41_prefix : forall lo qs ps r, apply_entql lo qs = (ps, r) ->
  exists done rest, qs = done ++ rest /\ Forall2 (fun q p => build_entql lo q = Ok p) done ps /\
    match rest with
    | [] => r = Ok tt
    | q :: _ => (exists e, build_entql lo q = Err e /\ r = Err e) \/ (build_entql lo q = Panic /\ r = Panic)
    end.
Proof. exact apply_prefix. Qed.
Theorem C41_success : forall lo qs ps, Forall2 (fun q p => build_entql lo q = Ok p) qs ps <-> apply_entql lo qs = (ps, Ok tt).
Proof. exact apply_success. Qed.
Example C41_ex :
  apply_entql lo2 [#"a = 1"; #""; #"b > 2"] = ([Some (XBinary EEQ (XField #"a") (XValue (GInt 1))); None; Some (XBinary EGT (XField #"b") (XValue (GInt 2)))], Ok tt) /\
  apply_entql lo2 [#"a = 1"; #"a.b = 1"; #"b > 2"] = ([Some (XBinary EEQ (XField #"a") (XValue (GInt 1)))], Err (XType NReference)).
Proof. split; vm_compute; reflexivity. Qed.

(** ** C51 *)
(** Build on a used builder ([s]: what earlier builds left on its stack). *)
Theorem C51_reuse : forall lo q p s, valid_runes q -> build_entql lo q = Ok (Some p) -> ebuild lo q s = Ok (Some p, s).
Proof. exact reuse. Qed.
(** For a call this fails: where a fresh builder gives nil, a used one returns
    a predicate left over from an earlier, failed query. *)
Theorem C51_stale_refuted : forall lo q n x s, valid_runes q -> parse lo q = Ok (Some n) -> is_call n = true -> is_predicate x ->
  build_entql lo q = Ok None /\ ebuild lo q (x :: s) = Ok (Some x, s).
Proof. exact reuse_stale. Qed.
Example C51_ex : let c3 := XBinary EEQ (XField #"c") (XValue (GInt 3)) in
  ebuild lo2 #"c = 3 and a.b = 1" [] = Err (XType NReference, [c3]) /\ ebuild lo2 #"f(a)" [c3] = Ok (Some c3, []) /\
  ebuild lo2 #"f(a) and b = 1" [c3] = Ok (Some (XBinary EAnd c3 (XBinary EEQ (XField #"b") (XValue (GInt 1)))), []).
Proof. repeat split; vm_compute; reflexivity. Qed.

Print Assumptions C37_predicate.
Print Assumptions C37_nil.
Print Assumptions C37_syntax.
Print Assumptions C37_verdict.
Print Assumptions C37_calls.
Print Assumptions C37_no_panic_refuted.
Print Assumptions C38_mirror.
Print Assumptions C38_unique.
Print Assumptions C38_meaning.
Print Assumptions C39_negation_refuted.
Print Assumptions C39_meaning_refuted.
Print Assumptions C40_entql_between.
Print Assumptions C40_entql_not_between_refuted.
Print Assumptions C41_prefix.
Print Assumptions C41_success.
Print Assumptions C51_reuse.
Print Assumptions C51_stale_refuted.
