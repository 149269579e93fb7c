(** C83: which trees Parse returns.  [query_tree] (ImageSpec.v) is a grammar of
    trees; proofs are in ImageProofs.v. *)
From Verif Require Import Base Peg Node Vocab Tree Parse Syntax ParseProofs NormProofs ParserFacts ParserFacts2 ParserMain GormSample ImageSpec ImageProofs ImageFacts GormFacts4.
Strategy expand [parse_machine rule_trace].
Strategy 1000 [parse_fuel mrun tok_trace].

(** ** C83 *)
(** The trees of the queries without a JSON path are exactly these. *)
Theorem C83_image : forall lo n, (exists q e, valid_runes q /\ reads q e /\ json_free e = true /\ parse lo q = Ok (Some n)) <-> query_tree lo n.
Proof. exact image. Qed.
(** Every operand in a parsed tree is itself the tree of a query. *)
Theorem C83_parts : forall lo q e n m, valid_runes q -> reads q e -> json_free e = true -> parse lo q = Ok (Some n) -> part m n ->
  exists q' e', valid_runes q' /\ reads q' e' /\ json_free e' = true /\ parse lo q' = Ok (Some m).
Proof. exact query_parts. Qed.
Example C83_ex : query_tree lo2 (mk_logic (Some (mk_not (Some (mk_compare (Some (mk_ident #"a")) (Some (mk_op #"eq")) (Some (mk_string #"it's"))))))
    (Some (mk_op #"and")) (Some (mk_between (Some (mk_function #"f" [Some (mk_int 7); Some (mk_ident #"b")])) (Some (mk_op #"between")) (Some (mk_array [])) (Some mk_null)))) /\
  ~ query_tree lo2 (mk_string #"both ' and """) /\ ~ query_tree lo2 (mk_not (Some (mk_not (Some (mk_ident #"a"))))) /\
  ~ query_tree lo2 (mk_int (-1)).
Proof. exact image_samples. Qed.
(** With a JSON path Parse returns other trees too. *)
Theorem C83_json_refuted : forall lo, exists q n, valid_runes q /\ parse lo q = Ok (Some n) /\ ~ query_tree lo n.
Proof. exact json_outside. Qed.

Print Assumptions C83_image.
Print Assumptions C83_parts.
Print Assumptions C83_json_refuted.
