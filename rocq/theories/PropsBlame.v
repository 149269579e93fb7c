(** Properties C67 (the text of Node.String), C49 (trees with one text), C68-C70
    (which error the back ends report) and C71 (the texts of the errors).
    Statements only; proofs are in ShowProofs.v, BlameProofs.v, MessageProofs.v.
    [shows], [twin], [plain] are in ShowSpec.v, [first_of], [none_of] and the
    faults in BlameSpec.v, the texts in MessageSpec.v. *)
From Verif Require Import Base Peg Grammar Node Vocab Tree Parse Syntax NormProofs ParserFacts2 ParserMain Build QuoteSpec ShowSpec ShowProofs
  Gorm GormSpec GormSample EntQL EntSQL EntSQLSpec EntSQLProofs EntSQLSample BlameSpec BlameProofs Message MessageSpec MessageProofs.
Strategy expand [parse_machine rule_trace].
Strategy 1000 [parse_fuel mrun tok_trace].

(** ** C67 *)
Theorem C67_text : forall lo ff q n t, valid_runes q -> parse lo q = Ok (Some n) -> (node_string ff n = Some t <-> shows n t).
Proof. exact parsed_string. Qed.
Theorem C67_total : forall lo ff q n, valid_runes q -> parse lo q = Ok (Some n) -> exists t, node_string ff n = Some t /\ shows n t.
Proof. intros lo ff q n Hq Hp. exact (string_shows ff n (parse_safe lo q n Hq Hp)). Qed.
(** also of every node below the root *)
Theorem C67_nodes : forall lo ff q n m, valid_runes q -> parse lo q = Ok (Some n) -> reach n m -> exists t, node_string ff m = Some t /\ shows m t.
Proof. intros lo ff q n m Hq Hp R. exact (string_shows ff m (safe_reach n m (parse_safe lo q n Hq Hp) R)). Qed.
Theorem C67_unique : forall n t t', shows n t -> shows n t' -> t = t'.
Proof. intros n t t' H H'. exact (proj1 show_det n t H t' H'). Qed.
Example C67_ex : exists n, parse lo2 #"not (a.b in [1,'x',null] or f(c, true) is null)" = Ok (Some n) /\
  node_string (fun _ => []) n = Some #"not(parentheses(logic(operation(or),compare(reference(a.b),operation(in),value([1 x <nil>])),predicates())))" /\
  shows n #"not(parentheses(logic(operation(or),compare(reference(a.b),operation(in),value([1 x <nil>])),predicates())))".
Proof.
  eexists. split; [vm_compute; reflexivity|]. split; [vm_compute; reflexivity|].
  apply (sh_not _ #"parentheses(logic(operation(or),compare(reference(a.b),operation(in),value([1 x <nil>])),predicates()))").
  apply (sh_paren _ #"logic(operation(or),compare(reference(a.b),operation(in),value([1 x <nil>])),predicates())").
  apply (sh_logic _ _ _ #"compare(reference(a.b),operation(in),value([1 x <nil>]))" #"operation(or)" #"predicates()"); [|constructor|constructor].
  apply (sh_compare _ _ _ #"reference(a.b)" #"operation(in)" #"value([1 x <nil>])"); [exact (sh_reference [#"a"; #"b"])|constructor|].
  apply (sh_value _ #"[1 x <nil>]"). apply (vx_array _ [#"1"; #"x"; #"<nil>"]). constructor; [|constructor; [constructor|constructor; constructor]].
  constructor. apply (it_nat 1). split; [constructor; [split; discriminate|constructor]|]. split; [discriminate|]. split; [reflexivity|]. split; [intros _; exists 49%N, []; split; [reflexivity|discriminate]|discriminate].
Qed.

(** ** C49 *)
(** Without parentheses and commas in literals, the trees with one text are those
    that agree except for what is not shown. *)
Theorem C49_twins : forall lo lo' ff ff' q q' n n', valid_runes q -> valid_runes q' -> parse lo q = Ok (Some n) -> parse lo' q' = Ok (Some n') ->
  ShowSpec.plain n -> ShowSpec.plain n' -> (node_string ff n = node_string ff' n' <-> twin n n').
Proof. exact string_twins. Qed.
Example C49_twins_ex : exists n n', parse lo2 #"a = 1 and b is null" = Ok (Some n) /\ parse lo2 #"a = '1' and f(c) is not true" = Ok (Some n') /\
  ShowSpec.plain n /\ ShowSpec.plain n' /\ twin n n' /\ n <> n'.
Proof.
  assert (V : value_text (mk_int 1) #"1").
  { constructor. apply (it_nat 1). split; [constructor; [split; discriminate|constructor]|]. split; [discriminate|]. split; [reflexivity|]. split; [intros _; exists 49%N, []; split; [reflexivity|discriminate]|discriminate]. }
  eexists _, _. split; [vm_compute; reflexivity|]. split; [vm_compute; reflexivity|].
  split; [|split; [|split; [|discriminate]]].
  - apply pl_logic; [apply pl_compare; [constructor; reflexivity|constructor; reflexivity|apply (pl_value _ #"1"); [exact V|reflexivity]]|constructor; reflexivity|constructor].
  - apply pl_logic; [apply pl_compare; [constructor; reflexivity|constructor; reflexivity|apply (pl_value _ #"1"); [constructor|reflexivity]]|constructor; reflexivity|constructor].
  - apply tw_logic; [apply tw_compare; [constructor|constructor|apply (tw_value _ _ #"1"); [exact V|constructor]]|constructor|constructor].
Qed.
(** With them, even calls with different numbers of arguments have one text. *)
Theorem C49_strings_refuted : forall lo ff, exists q1 q2 f ps1 ps2 t, parse lo q1 = Ok (Some (mk_function f ps1)) /\ parse lo q2 = Ok (Some (mk_function f ps2)) /\
  length ps1 <> length ps2 /\ node_string ff (mk_function f ps1) = Some t /\ node_string ff (mk_function f ps2) = Some t.
Proof.
  intros lo ff. exists #"f('a),value(b')", #"f('a','b')", #"f", [Some (mk_string #"a),value(b")], [Some (mk_string #"a"); Some (mk_string #"b")]. eexists.
  split; [vm_compute; reflexivity|]. split; [vm_compute; reflexivity|]. split; [discriminate|]. split; vm_compute; reflexivity.
Qed.

(** ** C68 *)
(** The error is that of the first construct with a fault, in the order in which
    the query is written. *)
Theorem C68_first : forall fold_eq quote lo d q n sch e, valid_runes q -> parse lo q = Ok (Some n) -> schema_of d = Some sch -> schema_ok sch ->
  ((exists d', wire_mini_query fold_eq quote lo d q = Some d' /\ dErrors d' = dErrors d ++ [e]) <->
   exists before, first_of (gorm_fault fold_eq sch) (constructs n) before e).
Proof. exact wire_error. Qed.
(** Without faults there is no error; with one, what happened to the database is
    the joins of the relations referred to before it, and the error. *)
Theorem C68_effect : forall fold_eq quote lo d q n sch, valid_runes q -> parse lo q = Ok (Some n) -> schema_of d = Some sch -> schema_ok sch ->
  (none_of (gorm_fault fold_eq sch) (constructs n) /\ exists d', wire_mini_query fold_eq quote lo d q = Some d' /\ dErrors d' = dErrors d) \/
  (exists before e d', first_of (gorm_fault fold_eq sch) (constructs n) before e /\ wire_mini_query fold_eq quote lo d q = Some d' /\
     dErrors d' = dErrors d ++ [e] /\ dWheres d' = dWheres d /\ dJoins d' = dJoins d ++ firsts [] (referred before)).
Proof.
  intros f qt lo d q n sch Hq Hp Hs OK. destruct (wire_blame f qt lo d q n sch Hq Hp Hs OK) as [H|(bf & e & F & H)]; [left; exact H|].
  right. eexists bf, e, _. split; [exact F|]. split; [exact H|]. repeat split.
Qed.
(** There is one first fault. *)
Theorem C68_unique : forall fold_eq sch n b b' e e', first_of (gorm_fault fold_eq sch) (constructs n) b e ->
  first_of (gorm_fault fold_eq sch) (constructs n) b' e' -> b = b' /\ e = e'.
Proof. intros f sch n b b' e e'. apply first_unique. apply gorm_fault_fun. Qed.
Example C68_ex : (exists n, parse lo2 #"a = 1 and Profile.age = 2 and f(Profile.x, z) = y" = Ok (Some n) /\
    constructs n = [mk_ident #"a"; mk_op #"eq"; mk_int 1; mk_op #"and"; mk_reference [#"Profile"; #"age"]; mk_op #"eq"; mk_int 2; mk_op #"and";
      mk_function #"f" [Some (mk_reference [#"Profile"; #"x"]); Some (mk_ident #"z")]; mk_reference [#"Profile"; #"x"]; mk_ident #"z"; mk_op #"eq"; mk_ident #"y"]) /\
  wire_mini_query fold2 quote2 lo2 db2 #"a = 1 and Profile.age = 2 and f(Profile.x, z) = y" = Some (DB (Some sch2) None [#"Profile"] [] [GFunc #"f"]) /\
  gorm_fault fold2 sch2 (mk_function #"f" [Some (mk_reference [#"Profile"; #"x"]); Some (mk_ident #"z")]) (GFunc #"f").
Proof. split; [eexists; split; vm_compute; reflexivity|]. split; [vm_compute; reflexivity|]. constructor. discriminate. Qed.

(** ** C69 *)
(** Query returns the text unless something examined has a fault; then the last
    error is that of the first in the order of [examined]. *)
Theorem C69_last : forall lo ident_sql edge_sql heap d dis nd q n b r, valid_runes q -> parse lo q = Ok (Some n) ->
  query lo ident_sql edge_sql heap (fresh d dis nd q) = Some (b, r) ->
  (none_of (sql_fault heap nd) (examined n) /\ r = (bText (sOwn (mSt b)), bArgs (sOwn (mSt b)))) \/
  (exists before e es, first_of (sql_fault heap nd) (examined n) before e /\ r = ([], []) /\ bErrs (sOwn (mSt b)) = es ++ [e] /\ (edgeless n -> es = [])).
Proof. exact query_blame. Qed.
(** Without has_edge it is the only one. *)
Theorem C69_only : forall lo ident_sql edge_sql heap d dis nd q n b r e, valid_runes q -> parse lo q = Ok (Some n) -> edgeless n ->
  query lo ident_sql edge_sql heap (fresh d dis nd q) = Some (b, r) ->
  (bErrs (sOwn (mSt b)) = [e] <-> exists before, first_of (sql_fault heap nd) (examined n) before e).
Proof. exact query_named. Qed.
(** Earlier errors of the builder are kept, and what is added is the error of
    Parse or faults of nodes of the query. *)
Theorem C69_kept : forall lo ident_sql edge_sql heap dis nd q s b r, valid_runes q ->
  query lo ident_sql edge_sql heap (MB nd q None dis s) = Some (b, r) ->
  exists es, bErrs (sOwn (mSt b)) = bErrs (sOwn s) ++ es /\
    ((exists e, parse lo q = Err e /\ es = [SParse e]) \/
     exists n, parse lo q = Ok (Some n) /\ Forall (fun x => exists c m, reach n m /\ sql_fault heap c m x) es).
Proof. exact query_keeps. Qed.
Theorem C69_unique : forall heap nd n b b' e e', first_of (sql_fault heap nd) (examined n) b e -> first_of (sql_fault heap nd) (examined n) b' e' -> b = b' /\ e = e'.
Proof. intros heap nd n b b' e e'. apply first_unique. apply sql_fault_fun. Qed.
Definition errors3 (q : list N) : option (list serr) := option_map (fun r => bErrs (sOwn (mSt (fst r)))) (query lo2 ident3 edge3 heap3 (fresh #"mysql" true (Some 0) q)).
Example C69_ex : errors3 #"a.b is like 1 and f(c) = 1" = Some [SParse (PESyntax 6 7)] /\
  errors3 #"a.b = 1 and f(c) = 1" = Some [SType NReference] /\ errors3 #"f(a.b) = c.d and x is true" = Some [SFunc #"f"] /\
  errors3 #"a.b is true" = Some [SPredOp #"is true"] /\
  errors3 #"a = 1 and has_edge(pets, f(b) = 1) and c.d = 1" = Some [SFunc #"f"; SType NReference] /\
  examined (mk_predicate (Some (mk_reference [#"a"; #"b"])) (Some (mk_op #"is true"))) =
    [mk_predicate (Some (mk_reference [#"a"; #"b"])) (Some (mk_op #"is true")); mk_reference [#"a"; #"b"]].
Proof. repeat split; vm_compute; reflexivity. Qed.

(** ** C70 *)
Theorem C70_first : forall lo q n, valid_runes q -> parse lo q = Ok (Some n) ->
  match build_entql lo q with
  | Ok _ => none_of ql_fault (evaluated n)
  | Err e => exists before, first_of ql_fault (evaluated n) before e
  | Panic => True
  end.
Proof. exact build_blame. Qed.
Theorem C70_unique : forall n b b' e e', first_of ql_fault (evaluated n) b e -> first_of ql_fault (evaluated n) b' e' -> b = b' /\ e = e'.
Proof. intros n b b' e e'. apply first_unique. exact ql_fault_fun. Qed.
Example C70_ex : build_entql lo2 #"a like 'x' and b.c = 1" = Err (XOp #"like") /\ build_entql lo2 #"a.b like 'x'" = Err (XType NReference) /\
  (exists n, parse lo2 #"a like 'x' and b.c = 1" = Ok (Some n) /\ exists before, first_of ql_fault (evaluated n) before (XOp #"like")).
Proof.
  split; [vm_compute; reflexivity|]. split; [vm_compute; reflexivity|]. eexists. split; [vm_compute; reflexivity|]. eexists. eexists _, _.
  split; [|split].
  - cbn. apply (app_assoc [_] [_] _).
  - constructor. cbn. intuition discriminate.
  - repeat constructor; intros x H; inversion H.
Qed.

(** ** C71 *)
(** Every error has the text the specification gives it, and no other. *)
Theorem C71_parse : forall is_print lo q e, valid_runes q -> parse lo q = Err e -> exists t, perr_text is_print q e = Some t /\ parse_says is_print q e t.
Proof. exact parse_text. Qed.
Theorem C71_gorm : forall is_print model_error lo fold_eq quote d q d' e, valid_runes q -> db_ok d ->
  wire_mini_query fold_eq quote lo d q = Some d' -> dErrors d' = dErrors d ++ [e] ->
  (dSchema d = None /\ dModel d = Some None /\ e = GParseModel) \/ exists t, gerr_text is_print model_error q e = Some t /\ gorm_says is_print q e t.
Proof. exact wire_text. Qed.
Theorem C71_entql : forall is_print lo q e, (forall c, (c < 4294967296)%N -> (lo c < 4294967296)%N) -> valid_runes q -> build_entql lo q = Err e ->
  exists u t, build_entql_text is_print lo q = Some t /\ ql_says is_print q e u /\ about is_print #"failed to build" q u t.
Proof. exact build_text. Qed.
(** ApplyEntQL names the first query that fails. *)
Theorem C71_apply : forall is_print lo good q rest e, (forall c, (c < 4294967296)%N -> (lo c < 4294967296)%N) -> valid_runes q ->
  (forall g, In g good -> exists p, build_entql lo g = Ok p) -> build_entql lo q = Err e ->
  exists u t, apply_entql_text is_print lo (good ++ q :: rest) = Some t /\ ql_says is_print q e u /\ about is_print #"failed to apply" q u t.
Proof. exact apply_text. Qed.
Theorem C71_entsql : forall is_print fmt_float lo ident_sql edge_sql heap dis nd q s b r, (forall c, (c < 4294967296)%N -> (lo c < 4294967296)%N) -> valid_runes q ->
  query lo ident_sql edge_sql heap (MB nd q None dis s) = Some (b, r) ->
  exists es, bErrs (sOwn (mSt b)) = bErrs (sOwn s) ++ es /\ Forall (fun e => exists t, serr_text is_print fmt_float q e = Some t /\ sql_says is_print q e t) es.
Proof. exact query_text. Qed.
Theorem C71_unique : forall is_print q,
  (forall e t t', parse_says is_print q e t -> parse_says is_print q e t' -> t = t') /\
  (forall e t t', gorm_says is_print q e t -> gorm_says is_print q e t' -> t = t') /\
  (forall e t t', ql_says is_print q e t -> ql_says is_print q e t' -> t = t') /\
  (forall e t t', sql_says is_print q e t -> sql_says is_print q e t' -> t = t').
Proof. intros ip q. split; [exact (parse_one ip q)|]. split; [exact (gorm_one ip q)|]. split; [exact (ql_one ip q)|exact (sql_one ip q)]. Qed.
(** The text determines the error, unless it is an error of Parse. *)
Theorem C71_told_apart : forall is_print q,
  (forall e e' t, gorm_says is_print q e t -> gorm_says is_print q e' t -> (exists p p', e = GSyntax p /\ e' = GSyntax p') \/ e = e') /\
  (forall e e' t, ql_says is_print q e t -> ql_says is_print q e' t -> (exists p p', e = XParse p /\ e' = XParse p') \/ e = e').
Proof. intros ip q. split; [exact (gorm_who ip q)|exact (ql_who ip q)]. Qed.
(** The names in the texts are in plain quotes ... *)
Theorem C71_names : forall is_print x l, (forall c, idchar c = true -> is_print c = true) -> ident x -> literal is_print x l -> l = #"""" ++ x ++ #"""".
Proof. exact name_literal. Qed.
(** ... and no control character gets from the query into them. *)
Theorem C71_controls : forall is_print, (forall c, is_print c = true -> control c = false) -> forall q,
  (forall e t, gorm_says is_print q e t -> (forall p, e <> GSyntax p) -> Forall (fun c => control c = false) t) /\
  (forall e t out, ql_says is_print q e t -> (forall p, e <> XParse p) -> about is_print #"failed to build" q t out -> Forall (fun c => control c = false) out) /\
  (forall e t, sql_says is_print q e t -> (forall p, e <> SParse p) -> Forall (fun c => control c = false) t).
Proof.
  intros ip H q. split; [exact (gorm_tame ip H q)|]. split; [|exact (sql_tame ip H q)].
  intros e t out A B. apply (about_tame ip H #"failed to build" q t out); [now apply tame_ascii|now apply (ql_tame ip H q e)].
Qed.
Definition print2 (c : N) : bool := negb (control c) && (c <? 127)%N.
Example C71_ex : gerr_text print2 [] #"nope = 1" (GField #"nope") = Some #"field not found: ""nope""" /\
  build_entql_text print2 lo2 #"a like 'x'" = Some #"failed to build query: ""a like 'x'"": unexpected op ""like""" /\
  apply_entql_text print2 lo2 [#"a = 1"; #"a.b = 2"] = Some #"failed to apply query: ""a.b = 2"": invalid type ""reference""" /\
  perr_text print2 #"a = 99999999999999999999" (PERange #"99999999999999999999") = Some #"strconv.Atoi: parsing ""99999999999999999999"": value out of range" /\
  errors3 #"has_edge(pets, 'x')" = Some [SEdgeCond (mk_string #"x")] /\
  serr_text print2 (fun _ => []) #"has_edge(pets, 'x')" (SEdgeCond (mk_string #"x")) = Some ([20851; 32852; 26465; 20214; 38169; 35823; 58; 32]%N ++ #"""value(x)""").
Proof. repeat split; vm_compute; reflexivity. Qed.

Print Assumptions C67_text. Print Assumptions C67_total. Print Assumptions C67_nodes. Print Assumptions C67_unique.
Print Assumptions C49_twins. Print Assumptions C49_strings_refuted.
Print Assumptions C68_first. Print Assumptions C68_effect. Print Assumptions C68_unique.
Print Assumptions C69_last. Print Assumptions C69_only. Print Assumptions C69_kept. Print Assumptions C69_unique.
Print Assumptions C70_first. Print Assumptions C70_unique.
Print Assumptions C71_parse. Print Assumptions C71_gorm. Print Assumptions C71_entql. Print Assumptions C71_apply. Print Assumptions C71_entsql.
Print Assumptions C71_unique. Print Assumptions C71_told_apart. Print Assumptions C71_names. Print Assumptions C71_controls.
