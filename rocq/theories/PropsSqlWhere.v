(** C79: the WHERE clause that gorm builds, with the conditions added before. *)
From Verif Require Import Base Peg Grammar Node Vocab Tree Parse Syntax Blank ParseProofs ParserFacts ParserFacts2 ParserMain Build NodeFacts
  Gorm GormSpec GormSample GormFacts GormFacts4 SqlSpec SqlSpecDb SqlProofs SqlGorm SqlDialect SqlLoose PropsSql GormSQL SqlSpecWhere SqlWhere SqlWhere2 SqlWhere3.
Require Import Lia.
Strategy expand [parse_machine rule_trace].
Strategy 1000 [parse_fuel mrun tok_trace].

(** What an accepted query adds is one condition that keeps its meaning wherever
    it stands in the clause, in dialects with ? and with numbered placeholders. *)
Theorem C79_query : forall fold_eq quote lo nl dialect up d q e d' sch, valid_runes q -> reads q e -> simple lo e = true -> listed e = true -> schema_of d = Some sch ->
  quotes nl quote (fun c => c) (is_column fold_eq sch) -> unmarked quote (is_column fold_eq sch) ->
  wire_mini_query fold_eq quote lo d q = Some d' -> succeeded d d' ->
  exists c a, dWheres d' = dWheres d ++ [c] /\ conjunct nl dialect up c a /\
    forall w row nm, lists w -> agrees (wV w) fold_eq sch row nm -> sql_means w row a = db_means w lo nm e.
Proof. exact wire_condition. Qed.
(** A clause of such conditions is their "and". *)
Theorem C79_where : forall nl dialect up, (forall c t, unquoted c = true -> nl (c :: t) = None) ->
  forall d qs, dWheres d <> [] -> Forall2 (conjunct nl dialect up) (dWheres d) qs ->
  exists t vs a, where_clause dialect up d = Some (t, vs) /\ reads_sql nl dialect t vs a /\
    forall w row, sql_means w row a = joined (wAnd w) (wVal w GNil) (map (sql_means w row) qs).
Proof. exact clause_reads. Qed.
(** So a query never widens what the conditions before it let through: a row that
    meets the clause meets every one of them, and the query. *)
Theorem C79_guard : forall fold_eq quote lo nl dialect up d q e d' sch guards, valid_runes q -> reads q e -> simple lo e = true -> listed e = true -> schema_of d = Some sch ->
  quotes nl quote (fun c => c) (is_column fold_eq sch) -> unmarked quote (is_column fold_eq sch) ->
  Forall2 (conjunct nl dialect up) (dWheres d) guards ->
  wire_mini_query fold_eq quote lo d q = Some d' -> succeeded d d' ->
  exists t vs a, where_clause dialect up d' = Some (t, vs) /\ reads_sql nl dialect t vs a /\
    forall w row nm, lists w -> agrees (wV w) fold_eq sch row nm ->
      sql_means w row a = joined (wAnd w) (wVal w GNil) (map (sql_means w row) guards ++ [db_means w lo nm e]) /\
      forall T : wV w -> Prop, (forall x y, T (wAnd w x y) -> T x /\ T y) -> T (sql_means w row a) ->
        Forall (fun g => T (sql_means w row g)) guards /\ T (db_means w lo nm e).
Proof.
  intros fold_eq quote lo nl dialect up d q e d' sch guards Hq He Hn Hl Hs Q U G H HS.
  destruct (C79_query fold_eq quote lo nl dialect up d q e d' sch Hq He Hn Hl Hs Q U H HS) as (c & b & E & C & M).
  destruct (C79_where nl dialect up (proj1 Q) d' (guards ++ [b])) as (t & vs & a & W1 & W2 & W3).
  - rewrite E. intro K. now apply app_eq_nil in K as [_ K].
  - rewrite E. apply Forall2_app; [exact G|]. constructor; [exact C|constructor].
  - exists t, vs, a. split; [exact W1|]. split; [exact W2|]. intros w row nm L A.
    assert (S : sql_means w row a = joined (wAnd w) (wVal w GNil) (map (sql_means w row) guards ++ [db_means w lo nm e])).
    { rewrite W3, map_app. cbn [map]. now rewrite (M w row nm L A). }
    split; [exact S|]. intros T HT K. rewrite S in K.
    assert (N : map (sql_means w row) guards ++ [db_means w lo nm e] <> []) by (intro X; now apply app_eq_nil in X as [_ X]).
    pose proof (joined_all _ (wAnd w) (wVal w GNil) T HT _ N K) as F. apply Forall_app in F as [F1 F2]. split.
    + apply Forall_forall. intros g I. exact (proj1 (Forall_forall _ _) F1 _ (in_map _ _ _ I)).
    + now inversion F2.
Qed.
(** The quoting of gorm's dialects is as required, as long as no column or
    relation contains the quote character or a question mark. *)
Theorem C79_unmarked : forall qc, unquoted qc = false -> no_numeral [qc] = true ->
  forall fold_eq sch, clean_schema 63 sch = true -> unmarked (quote_name qc) (is_column fold_eq sch).
Proof. exact quote_unmarked. Qed.

(** ** A world with three truth values *)
Inductive v3 : Set := VInt (z : Z) | VStr (s : list N) | VList (l : list v3) | VB (b : bool) | VNull.
Fixpoint val3 (v : gval) : v3 :=
  match v with GInt z => VInt z | GFloat _ => VNull | GStr s => VStr s | GBool b => VB b | GNil => VNull | GArr l => VList (map val3 l) end.
Definition not3 (a : v3) : v3 := match a with VB b => VB (negb b) | _ => VNull end.
Definition and3 (a b : v3) : v3 :=
  match a, b with VB false, _ | _, VB false => VB false | VB true, VB true => VB true | _, _ => VNull end.
Definition or3 (a b : v3) : v3 := not3 (and3 (not3 a) (not3 b)).
Definition eq3 (a b : v3) : v3 :=
  match a, b with VNull, _ | _, VNull => VNull | VInt x, VInt y => VB (Z.eqb x y) | VStr x, VStr y => VB (streq x y) | VB x, VB y => VB (Bool.eqb x y) | _, _ => VB false end.
Definition lt3 (a b : v3) : v3 := match a, b with VInt x, VInt y => VB (Z.ltb x y) | VNull, _ | _, VNull => VNull | _, _ => VB false end.
Definition in3 (a b : v3) : v3 := match b with VList l => fold_right (fun x r => or3 (eq3 a x) r) (VB false) l | _ => VNull end.
Definition cmp3 (o : list N) (a b : v3) : v3 :=
  if streq o #"=" then eq3 a b else if streq o #"<>" then not3 (eq3 a b) else if streq o #"<" then lt3 a b else if streq o #">" then lt3 b a
  else if streq o #">=" then not3 (lt3 a b) else if streq o #"<=" then not3 (lt3 b a) else if streq o #"in" then in3 a b else if streq o #"not in" then not3 (in3 a b) else VNull.
Definition pred3 (o : list N) (a : v3) : v3 :=
  if streq o #"is null" then VB match a with VNull => true | _ => false end else if streq o #"is not null" then VB match a with VNull => false | _ => true end else VNull.
Definition world3 : world :=
  World v3 val3 cmp3 pred3 (fun neg a b c => let r := and3 (cmp3 #">=" a b) (cmp3 #"<=" a c) in if neg then not3 r else r) (fun a => a) VList not3 and3 or3.
Example C79_ex_world : lists world3 /\ lawful world3 /\ forall x y, wAnd world3 x y = VB true -> x = VB true /\ y = VB true.
Proof.
  split; [intro l; reflexivity|]. split.
  - split; [intros; reflexivity|]. split; [|intro l; reflexivity]. intros a b c. cbn. destruct a as [| | |[]|], b as [| | |[]|], c as [| | |[]|]; reflexivity.
  - intros x y H. cbn in H. destruct x as [| | |[]|], y as [| | |[]|]; try discriminate H. now split.
Qed.

(** Two queries, in two dialects: what the second one adds is put in parentheses. *)
Example C79_ex : exists d1 d2,
  wire_mini_query fold2 (quote_name 96) lo2 db2 #"a in [1, 2]" = Some d1 /\ wire_mini_query fold2 (quote_name 96) lo2 d1 #"a = 1 or b = 2 and c = 3" = Some d2 /\
  succeeded db2 d1 /\ succeeded d1 d2 /\
  where_clause #"mysql" (fun c => c) d2 = Some (#"`a` in (?,?) AND (`a` = ? or `b` = ? and `c` = ?)", map GInt [1; 2; 1; 2; 3]%Z) /\
  where_clause #"postgres" (fun c => c) d2 = Some (#"`a` in ($1,$2) AND (`a` = $3 or `b` = $4 and `c` = $5)", map GInt [1; 2; 1; 2; 3]%Z).
Proof. do 2 eexists. split; [vm_compute; reflexivity|]. split; [vm_compute; reflexivity|]. split; [reflexivity|]. split; [reflexivity|]. split; vm_compute; reflexivity. Qed.
(** What C79_guard asks for. *)
Example C79_ex_guard : exists e d1 d2 g,
  valid_runes #"a = 1 or b = 2 and c = 3" /\ reads #"a = 1 or b = 2 and c = 3" e /\ simple lo2 e = true /\ listed e = true /\ schema_of d1 = Some sch2 /\
  quotes (lex_name 96) (quote_name 96) (fun c => c) (is_column fold2 sch2) /\ unmarked (quote_name 96) (is_column fold2 sch2) /\
  Forall2 (conjunct (lex_name 96) #"mysql" (fun c => c)) (dWheres d1) [g] /\
  wire_mini_query fold2 (quote_name 96) lo2 d1 #"a = 1 or b = 2 and c = 3" = Some d2 /\ succeeded d1 d2.
Proof.
  destruct (C79_query fold2 (quote_name 96) lo2 (lex_name 96) #"mysql" (fun c => c) db2 #"a = 1 and not (b = 2 or c = 3)" _
    (add_where (#"`a` = ? and not (`b` = ? or `c` = ?)", [GInt 1; GInt 2; GInt 3]) db2) sch2
    ltac:(now apply valid_runesb_spec) (proj2 reads_abc) eq_refl eq_refl eq_refl (C73_quotes 96 eq_refl eq_refl fold2 sch2 eq_refl)
    (C79_unmarked 96 eq_refl eq_refl fold2 sch2 eq_refl) ltac:(vm_compute; reflexivity) eq_refl) as (c & g & E & C & _).
  change (dWheres db2 ++ [c]) with [c] in E. exists (ELogic (ELogic (ECmp (EName #"a") #"=" (EVal (VLit (LInt #"1")))) #"or" (ECmp (EName #"b") #"=" (EVal (VLit (LInt #"2"))))) #"and" (ECmp (EName #"c") #"=" (EVal (VLit (LInt #"3"))))).
  exists (add_where (#"`a` = ? and not (`b` = ? or `c` = ?)", [GInt 1; GInt 2; GInt 3]) db2). eexists. exists g.
  split; [now apply valid_runesb_spec|]. split; [exact (proj1 reads_abc)|]. split; [reflexivity|]. split; [reflexivity|]. split; [reflexivity|].
  split; [exact (C73_quotes 96 eq_refl eq_refl fold2 sch2 eq_refl)|]. split; [exact (C79_unmarked 96 eq_refl eq_refl fold2 sch2 eq_refl)|].
  split; [rewrite E; constructor; [exact C|constructor]|]. split; [vm_compute; reflexivity|reflexivity].
Qed.

(** The condition on arrays cannot be dropped: for an empty one gorm writes NULL
    in parentheses, so that "not in" of nothing is never true. *)
Lemma reads_not_in : reads #"a not in []" (EIn (EName #"a") #"not in" false []).
Proof.
  assert (B : blank #" ") by (apply blank_char; [reflexivity|constructor]).
  exists [], #"a not in []", []. rewrite app_nil_r. refine (conj eq_refl (conj blank_nil (conj blank_nil _))).
  apply (lay_in (EName #"a") #"a" #" " #"not in" #" " false false [] #"[]"); auto; try (cbn; lia).
  - apply lay_name; [one_char|]. intros [K|[K|[K|[K|[K|K]]]]]; destruct K as [r K]; discriminate.
  - right. exists #"in". split; [reflexivity|]. exists #"not", #" ". repeat split; [exact B|discriminate].
  - apply (at_empty false []). constructor.
  - intros _. reflexivity.
Qed.
Theorem C79_empty_refuted : ~ (forall fold_eq quote lo nl dialect up d q e d' sch t vs a w row nm, valid_runes q -> reads q e -> simple lo e = true -> schema_of d = Some sch ->
  quotes nl quote (fun c => c) (is_column fold_eq sch) -> unmarked quote (is_column fold_eq sch) -> dWheres d = [] ->
  wire_mini_query fold_eq quote lo d q = Some d' -> succeeded d d' -> where_clause dialect up d' = Some (t, vs) -> reads_sql nl dialect t vs a ->
  lists w -> agrees (wV w) fold_eq sch row nm -> sql_means w row a = db_means w lo nm e).
Proof.
  intro H. specialize (H fold2 (quote_name 96) lo2 (lex_name 96) #"mysql" (fun c => c) db2 #"a not in []" _ (add_where (#"`a` not in ?", [GArr []]) db2) sch2
    #"`a` not in (NULL)" [] (QCmp #"not in" (QCol #"a") (QList [QVal GNil])) world3 (fun _ => VInt 1) (fun _ => VInt 1)
    ltac:(now apply valid_runesb_spec) reads_not_in eq_refl eq_refl (C73_quotes 96 eq_refl eq_refl fold2 sch2 eq_refl) (C79_unmarked 96 eq_refl eq_refl fold2 sch2 eq_refl)
    eq_refl ltac:(vm_compute; reflexivity) eq_refl ltac:(vm_compute; reflexivity)).
  assert (K : reads_sql (lex_name 96) #"mysql" #"`a` not in (NULL)" [] (QCmp #"not in" (QCol #"a") (QList [QVal GNil]))).
  { clear H. exists 30. eexists. eexists. split; [vm_compute; reflexivity|]. split; [vm_compute; reflexivity|]. vm_compute. reflexivity. }
  specialize (H K (fun l => eq_refl)). clear K. assert (A : agrees v3 fold2 sch2 (fun _ => VInt 1) (fun _ => VInt 1)) by (split; reflexivity).
  specialize (H A). vm_compute in H. discriminate H.
Qed.

Print Assumptions C79_query.
Print Assumptions C79_where.
Print Assumptions C79_guard.
Print Assumptions C79_unmarked.
Print Assumptions C79_empty_refuted.
