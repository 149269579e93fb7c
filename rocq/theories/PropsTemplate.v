(** C84: query templates.  The definitions are in TemplateSpec.v, proofs in
    Template.v and TemplateFacts.v. *)
From Verif Require Import Base Peg Node Vocab Tree Parse Syntax ParseProofs NormProofs ParserFacts ParserFacts2 ParserMain Gorm GormSpec GormFacts2 GormSample EntSQL EntSQLSpec
  EntSQLProofs EntSQLFacts EntSQLSample LitSpec EntQL TemplateSpec Template TemplateFacts.
Strategy expand [parse_machine rule_trace].
Strategy 1000 [parse_fuel mrun tok_trace].

(** ** C84 *)
(** All the fillings of a template parse to one tree with the contents put into
    its holes, or all fail with the same error. *)
Theorem C84_template : forall lo h b, (exists vs, suitable h vs /\ valid_runes (fill h b vs)) ->
  (exists T, forall vs, suitable h vs /\ valid_runes (fill h b vs) -> parse lo (fill h b vs) = Ok (option_map (plug vs) T)) \/
  (exists e, forall vs, suitable h vs /\ valid_runes (fill h b vs) -> parse lo (fill h b vs) = Err e) \/
  (forall vs, suitable h vs /\ valid_runes (fill h b vs) -> exists b' e', parse lo (fill h b vs) = Err (PESyntax b' e')).
Proof. exact template_parse. Qed.
(** Without a JSON path every content arrives, unchanged and in its place. *)
Theorem C84_delivered : forall h b, (exists vs, suitable h vs /\ valid_runes (fill h b vs)) -> exists S, with_holes S (length h) /\
  forall lo vs e, suitable h vs /\ valid_runes (fill h b vs) -> reads (fill h b vs) e -> json_free e = true -> fits e = true ->
    exists n, parse lo (fill h b vs) = Ok (Some n) /\ strings n = map (instance vs) S.
Proof. exact template_strings. Qed.
(** The SQL of gormq is the same for every filling. *)
Theorem C84_gorm : forall fold_eq quote lo d h b vs ws n,
  suitable h vs /\ valid_runes (fill h b vs) -> suitable h ws /\ valid_runes (fill h b ws) -> parse lo (fill h b vs) = Ok (Some n) ->
  match wire_mini_query fold_eq quote lo d (fill h b vs), wire_mini_query fold_eq quote lo d (fill h b ws) with
  | Some d1, Some d2 => same_up_to_values d d1 d2
  | None, None => True
  | _, _ => False
  end.
Proof. exact template_gorm. Qed.
(** The SQL of entsql is the same for every filling, in every dialect. *)
Theorem C84_entsql : forall ident_sql edge_sql heap lo dis nd st h b vs ws n,
  suitable h vs /\ valid_runes (fill h b vs) -> suitable h ws /\ valid_runes (fill h b ws) -> parse lo (fill h b vs) = Ok (Some n) ->
  match query lo ident_sql edge_sql heap (MB nd (fill h b vs) None dis st), query lo ident_sql edge_sql heap (MB nd (fill h b ws) None dis st) with
  | Some (m1, (t1, a1)), Some (m2, (t2, a2)) => t1 = t2 /\ map (blank_arg true) a1 = map (blank_arg true) a2 /\ same_state true (mSt m1) (mSt m2)
  | None, None => True
  | _, _ => False
  end.
Proof. exact template_entsql. Qed.
(** The predicate of entql is the same up to the strings in it. *)
Theorem C84_entql : forall lo h b vs ws n,
  suitable h vs /\ valid_runes (fill h b vs) -> suitable h ws /\ valid_runes (fill h b ws) -> parse lo (fill h b vs) = Ok (Some n) ->
  match build_entql lo (fill h b vs), build_entql lo (fill h b ws) with
  | Ok p, Ok p' => option_map hide p = option_map hide p'
  | Err e, Err e' => e = e'
  | Panic, Panic => True
  | _, _ => False
  end.
Proof. exact template_entql. Qed.
Example C84_ex :
  (suitable h9 vs9 /\ valid_runes (fill h9 b9 vs9)) /\ (suitable h9 ws9 /\ valid_runes (fill h9 b9 ws9)) /\
  fill h9 b9 vs9 = #"a = 'x' or date(b) in (1, 'n', ""y"") and c = 3 -- it's the end" ++ [10%N] /\
  fill h9 b9 ws9 = #"a = ') or 1=1 -- "" ' or date(b) in (1, 'n', ""it's; drop table t // "") and c = 3 -- it's the end" ++ [10%N] /\
  (exists n, parse lo2 (fill h9 b9 ws9) = Ok (Some n) /\ strings n = [#") or 1=1 -- "" "; #"n"; #"it's; drop table t // "]) /\
  wire_mini_query fold2 quote2 lo2 db2 (fill h9 b9 vs9) =
    Some (add_where (#"`a` = ? or date(`b`) in ? and `c` = ?", [GStr #"x"; GArr [GInt 1; GStr #"n"; GStr #"y"]; GInt 3]) db2) /\
  wire_mini_query fold2 quote2 lo2 db2 (fill h9 b9 ws9) =
    Some (add_where (#"`a` = ? or date(`b`) in ? and `c` = ?", [GStr #") or 1=1 -- "" "; GArr [GInt 1; GStr #"n"; GStr #"it's; drop table t // "]; GInt 3]) db2).
Proof.
  split; [apply fits9; now left|]. split; [apply fits9; now right|]. split; [reflexivity|]. split; [reflexivity|].
  split; [eexists; split; vm_compute; reflexivity|]. split; vm_compute; reflexivity.
Qed.
(** A content that contains the quote, or a hole in a comment, can change the
    rest of the query. *)
Theorem C84_quote_refuted : ~ (forall lo a c b v w n m, place_after Code a = Code -> is_quote c = true ->
  valid_runes (fill [(a, c)] b [v]) -> valid_runes (fill [(a, c)] b [w]) ->
  parse lo (fill [(a, c)] b [v]) = Ok (Some n) -> parse lo (fill [(a, c)] b [w]) = Ok (Some m) -> alike (Some n) (Some m)).
Proof. exact hole_quote. Qed.
Theorem C84_comment_refuted : ~ (forall lo a c b v w n m, is_quote c = true -> mem c v = false -> mem c w = false ->
  valid_runes (fill [(a, c)] b [v]) -> valid_runes (fill [(a, c)] b [w]) ->
  parse lo (fill [(a, c)] b [v]) = Ok (Some n) -> parse lo (fill [(a, c)] b [w]) = Ok (Some m) -> alike (Some n) (Some m)).
Proof. exact hole_comment. Qed.

Print Assumptions C84_template.
Print Assumptions C84_delivered.
Print Assumptions C84_gorm.
Print Assumptions C84_entsql.
Print Assumptions C84_entql.
Print Assumptions C84_quote_refuted.
Print Assumptions C84_comment_refuted.
