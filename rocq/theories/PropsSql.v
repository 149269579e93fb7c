(** C73: what the condition of WireMiniQuery means.  Text and values are read by
    an independent reader of SQL conditions ([SqlSpec]); the values of names and
    columns and the meaning of the operators are arbitrary ([world]). *)
From Verif Require Import Base Peg Grammar Node Vocab Tree Parse Syntax ParseProofs ParserFacts ParserFacts2 ParserMain Build NodeFacts
  Gorm GormSpec GormSample GormFacts GormFacts4 SqlSpec SqlProofs SqlGorm SqlDialect.
Strategy expand [parse_machine rule_trace].
Strategy 1000 [parse_fuel mrun tok_trace].

(** A query of the fragment [neat] that is accepted adds one condition; the
    database can read it, and it means what the query means, in every world. *)
Theorem C73_means : forall fold_eq quote lo nl d q e d' sch,
  valid_runes q -> reads q e -> neat lo e = true -> schema_of d = Some sch -> quotes nl quote (fun c => c) (is_column fold_eq sch) ->
  wire_mini_query fold_eq quote lo d q = Some d' -> succeeded d d' ->
  exists t vs a, dWheres d' = dWheres d ++ [(t, vs)] /\ reads_marks nl t vs a /\
    forall w row nm, agrees (wV w) fold_eq sch row nm -> sql_means w row a = query_means w lo nm e.
Proof. exact wire_sql. Qed.
(** There is no second way to read it. *)
Theorem C73_unique : forall nl t args a b, reads_marks nl t args a -> reads_marks nl t args b -> a = b.
Proof. exact marks_unique. Qed.
(** The quoting of gorm's dialects, part by part, is as required, as long as no
    column or relation contains the quote character. *)
Theorem C73_quotes : forall qc, unquoted qc = false -> (qc =? 46)%N = false ->
  forall fold_eq sch, clean_schema qc sch = true -> quotes (lex_name qc) (quote_name qc) (fun c => c) (is_column fold_eq sch).
Proof. exact clean_quotes. Qed.

(** A world of numbers: 1 is true, 0 is false. *)
Definition truth (b : bool) : Z := if b then 1%Z else 0%Z.
Definition world2 : world := World Z
  (fun v => match v with GInt z => z | GBool b => truth b | _ => 0%Z end)
  (fun o a b => if streq o #"=" then truth (Z.eqb a b) else if streq o #">" then truth (Z.ltb b a) else 0%Z)
  (fun o a => truth (Z.eqb a 1)) (fun neg a b c => truth (xorb neg (Z.leb b a && Z.leb a c))) (fun a => a) (fun _ => 0%Z)
  (fun a => truth (Z.eqb a 0)) (fun a b => truth (negb (Z.eqb a 0) && negb (Z.eqb b 0))) (fun a b => truth (negb (Z.eqb a 0) || negb (Z.eqb b 0))).
(** a = 1, b = 1, all other columns 0 *)
Definition row2 (c : list N) : Z := if streq c #"a" then 1%Z else if streq c #"b" then 1%Z else 0%Z.
Definition nm2 (xs : list (list N)) : Z := match xs with [x] => row2 (map ascii_lower x) | _ => 0%Z end.

Lemma agrees2 : agrees Z fold2 sch2 row2 nm2.
Proof.
  split.
  - intros x c H. destruct H as [I|db _ A|b f db a _ _ E F _].
    + cbn in I. repeat (destruct I as [I|I]; [subst x; reflexivity|]). destruct I.
    + unfold sch2, tab2 in A. cbn [sTable tByName assoc] in A.
      repeat (match goal with A : (if ?t then _ else _) = _ |- _ => destruct t eqn:E; [apply streq_eq in E; subst x; injection A as <-; reflexivity|clear E] end). discriminate.
    + unfold nm2. unfold fold2 in F. apply streq_eq in F. rewrite <- F.
      unfold sch2, tab2 in E. cbn [sTable tFields] in E.
      repeat (destruct b as [|? b]; [injection E as E1 E2 _; subst; reflexivity|injection E as _ E]). now destruct b.
  - intros r x t c A H. unfold sch2 in A. cbn [sRelations assoc] in A. destruct (streq r #"Profile") eqn:E; [|discriminate].
    apply streq_eq in E. now subst r.
Qed.

(** The condition on "and" and "or" cannot be dropped: the condition of this query
    is read as another one, and is true where the query is false. *)
Theorem C73_loose_refuted : ~ (forall fold_eq quote lo nl d q e d' sch t vs a w row nm,
  valid_runes q -> reads q e -> schema_of d = Some sch -> quotes nl quote (fun c => c) (is_column fold_eq sch) ->
  wire_mini_query fold_eq quote lo d q = Some d' -> succeeded d d' -> dWheres d' = dWheres d ++ [(t, vs)] -> reads_marks nl t vs a ->
  agrees (wV w) fold_eq sch row nm -> sql_means w row a = query_means w lo nm e).
Proof.
  intro H. specialize (H fold2 (quote_name 96) lo2 (lex_name 96) db2 #"a = 1 or b = 2 and c = 3" _
    (add_where (#"`a` = ? or `b` = ? and `c` = ?", [GInt 1; GInt 2; GInt 3]) db2) sch2
    #"`a` = ? or `b` = ? and `c` = ?" [GInt 1; GInt 2; GInt 3]
    (QOr (QCmp #"=" (QCol #"a") (QVal (GInt 1))) (QAnd (QCmp #"=" (QCol #"b") (QVal (GInt 2))) (QCmp #"=" (QCol #"c") (QVal (GInt 3)))))
    world2 row2 nm2 ltac:(now apply valid_runesb_spec) (proj1 reads_abc) eq_refl).
  specialize (H (C73_quotes 96 eq_refl eq_refl fold2 sch2 eq_refl) ltac:(vm_compute; reflexivity) eq_refl eq_refl).
  assert (K : reads_marks (lex_name 96) #"`a` = ? or `b` = ? and `c` = ?" [GInt 1; GInt 2; GInt 3]
    (QOr (QCmp #"=" (QCol #"a") (QVal (GInt 1))) (QAnd (QCmp #"=" (QCol #"b") (QVal (GInt 2))) (QCmp #"=" (QCol #"c") (QVal (GInt 3)))))).
  { clear H. exists 30. eexists. eexists. split; [vm_compute; reflexivity|]. split; [vm_compute; reflexivity|]. vm_compute. reflexivity. }
  specialize (H K agrees2). clear K. cbn in H. discriminate H.
Qed.

(** A query of the fragment, its condition, how that is read, and what it means
    where a is 1 and c is 0. *)
Example C73_ex : exists e d' a,
  reads #"a = 1 and not (b = 2 or c = 3)" e /\ neat lo2 e = true /\
  wire_mini_query fold2 (quote_name 96) lo2 db2 #"a = 1 and not (b = 2 or c = 3)" = Some d' /\ succeeded db2 d' /\
  dWheres d' = [(#"`a` = ? and not (`b` = ? or `c` = ?)", [GInt 1; GInt 2; GInt 3])] /\
  reads_marks (lex_name 96) #"`a` = ? and not (`b` = ? or `c` = ?)" [GInt 1; GInt 2; GInt 3] a /\
  a = QAnd (QCmp #"=" (QCol #"a") (QVal (GInt 1)))
       (QNot (QOr (QCmp #"=" (QCol #"b") (QVal (GInt 2))) (QCmp #"=" (QCol #"c") (QVal (GInt 3))))) /\
  sql_means world2 row2 a = 1%Z /\ query_means world2 lo2 nm2 e = 1%Z.
Proof.
  do 3 eexists. split; [exact (proj2 reads_abc)|]. split; [reflexivity|]. split; [vm_compute; reflexivity|]. split; [reflexivity|]. split; [reflexivity|].
  split; [exists 40; do 2 eexists; split; [vm_compute; reflexivity|split; [vm_compute; reflexivity|vm_compute; reflexivity]]|]. split; [reflexivity|]. split; reflexivity.
Qed.
Example C73_ex_quotes : (* a dotted name is quoted part by part *)
  quote_name 96 #"Profile.age" = #"`Profile`.`age`" /\ lex_name 96 #"`Profile`.`age` = ?" = Some (#"Profile.age", #" = ?") /\
  clean_schema 96 sch2 = true.
Proof. repeat split. Qed.
(** The reader: precedence, unreadable texts, and values left over. *)
Example C73_ex_reader :
  (exists a, reads_marks (lex_name 96) #"not `a` in ? and `b` is not null" [GArr [GInt 1]] a /\ a = QAnd (QNot (QCmp #"in" (QCol #"a") (QVal (GArr [GInt 1])))) (QPred #"is not null" (QCol #"b"))) /\
  (forall a, ~ reads_marks (lex_name 96) #"`a` = ?" [] a) /\ (forall a, ~ reads_marks (lex_name 96) #"`a` = ?" [GInt 1; GInt 2] a).
Proof.
  split; [eexists; split; [exists 40; do 2 eexists; split; [vm_compute; reflexivity|split; [vm_compute; reflexivity|vm_compute; reflexivity]]|reflexivity]|].
  assert (U : forall args, length args <> 1 -> forall a, ~ reads_marks (lex_name 96) #"`a` = ?" args a).
  { intros args K a (f & ts & ts' & H1 & H2 & _). assert (E : ts = [TName #"a"; TSym #"="; TMark]).
    { do 6 (destruct f as [|f]; [discriminate H1|]). vm_compute in H1. now injection H1 as <-. }
    subst ts. destruct args as [|v [|v' args]]; [discriminate H2|now apply K|discriminate H2]. }
  split; apply U; discriminate.
Qed.

Print Assumptions C73_means.
Print Assumptions C73_unique.
Print Assumptions C73_quotes.
Print Assumptions C73_loose_refuted.
