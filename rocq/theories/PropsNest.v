(** C94: queries with has_edge, at any depth, as a database reads them. *)
From Verif Require Import Base Peg Grammar Node Vocab Tree Parse Syntax Blank ParseProofs ParserFacts ParserFacts2 ParserMain Build NodeFacts Reader
  Gorm GormSpec GormSample GormFacts GormFacts4 EntSQL EntSQLSpec EntSQLSample EntSQLFacts3 SqlSpec SqlSpecDb SqlSpecEntDb SqlProofs SqlProofs2 SqlProofs3 SqlDialect SqlEnt SqlAll SqlEntLoose PropsSql PropsSqlEnt
  SqlSpecWhere SqlWhere3 PropsSqlWhere EntWhere SqlSpecEntWhere SqlEntWhere PropsSqlEntWhere EdgeSpec PropsEdge NestSpec NestFacts NestFacts2 NestFacts3 NestFacts4 NestFacts5.
Require Import Lia.
Strategy expand [parse_machine rule_trace].
Strategy 1000 [parse_fuel mrun tok_trace].

(** If no error is recorded, the database can read the text, every subselect with
    its own condition, and [edge_means] says what it means, in any world and for
    any rows. *)
Theorem C94_means : forall lo nl ident_sql edge_sql heap d dis col opens word code own nd q e m t a,
  quotes nl (ident_sql d) col ident -> quotes_properly (ident_sql d) col ident -> edge_words edge_sql heap d nl opens word code own ->
  valid_runes q -> reads q e -> simple3 lo e = true ->
  query lo ident_sql edge_sql heap (fresh d dis nd q) = Some (m, (t, a)) -> no_error m ->
  exists t' s, t = spelled word t' /\ reads_nested opens nl d t' (map arg_value a) s /\
    forall w R env, nested_means w R env s = edge_means w R lo heap code own col env nd e.
Proof.
  intros lo nl ident_sql edge_sql heap d dis col opens word code own nd q e m t a Q QP EW. exact (query_nested lo nl ident_sql edge_sql heap d dis col opens word code own Q QP EW nd q e m t a).
Qed.
(** There is one way to read a text. *)
Theorem C94_unique : forall opens nl d t args s s', reads_nested opens nl d t args s -> reads_nested opens nl d t args s' -> s = s'.
Proof. exact nested_unique. Qed.
(** Without the constructs named in [straight3], has_edge asks for a neighbour
    with the condition, at every depth. *)
Theorem C94_wanted : forall lo nl ident_sql edge_sql heap d dis col opens word code own nd q e m t a,
  quotes nl (ident_sql d) col ident -> quotes_properly (ident_sql d) col ident -> edge_words edge_sql heap d nl opens word code own ->
  valid_runes q -> reads q e -> simple3 lo e = true -> straight3 lo heap own nd e = true ->
  query lo ident_sql edge_sql heap (fresh d dis nd q) = Some (m, (t, a)) -> no_error m ->
  exists t' s, t = spelled word t' /\ reads_nested opens nl d t' (map arg_value a) s /\
    forall w R env, lawful w -> nested_means w R env s = wanted w R lo heap code own col env nd e.
Proof.
  intros lo nl ident_sql edge_sql heap d dis col opens word code own nd q e m t a Q QP EW Hq He Hn Hs H HE.
  destruct (C94_means lo nl ident_sql edge_sql heap d dis col opens word code own nd q e m t a Q QP EW Hq He Hn H HE) as (t' & s & H1 & H2 & H3). exists t', s. split; [exact H1|]. split; [exact H2|].
  intros w R env W. rewrite H3. now apply (straight_wanted_q w R lo heap code own col q).
Qed.

(** And only without them: with one of them there are a world and rows for which
    the database finds something else than is wanted. *)
Theorem C94_exact : forall lo nl ident_sql edge_sql heap d dis col opens word code own nd q e m t a,
  quotes nl (ident_sql d) col ident -> quotes_properly (ident_sql d) col ident -> edge_words edge_sql heap d nl opens word code own ->
  valid_runes q -> reads q e -> simple3 lo e = true ->
  query lo ident_sql edge_sql heap (fresh d dis nd q) = Some (m, (t, a)) -> no_error m ->
  exists t' s, t = spelled word t' /\ reads_nested opens nl d t' (map arg_value a) s /\
    (straight3 lo heap own nd e = true <-> forall w R env, lawful w -> nested_means w R env s = wanted w R lo heap code own col env nd e).
Proof.
  intros lo nl ident_sql edge_sql heap d dis col opens word code own nd q e m t a Q QP EW Hq He Hn H HE.
  destruct (C94_means lo nl ident_sql edge_sql heap d dis col opens word code own nd q e m t a Q QP EW Hq He Hn H HE) as (t' & s & H1 & H2 & H3). exists t', s. split; [exact H1|]. split; [exact H2|].
  pose proof (query_linked lo ident_sql edge_sql heap d dis nd q e m t a Hq He Hn H HE) as HL. rewrite (nested_exact lo heap code own col q e nd He Hn HL).
  split; intros K w R env W; [rewrite H3; now apply K|rewrite <- H3; now apply K].
Qed.

(** ** Users and their pets *)
(** the mark for an edge: one for every table, with and without a condition *)
Definition code6 (b : bool) (c : nat) (p : list N) : N := (1114112 + 2 * match target heap3 c p with Some t => N.of_nat t | None => 0 end + if b then 1 else 0)%N.
Definition opens6 (m : N) : bool := N.odd m.
Definition table6 (m : N) : nat := N.to_nat ((m - 1114112) / 2).
Definition word6 (m : N) : list N :=
  #"EXISTS (SELECT * FROM " ++ ident4 #"mysql" (gnTable (heap3 (table6 m))) ++ #" WHERE " ++ (if opens6 m then [] else guard5 ++ #")").
Definition own6 (c : nat) (p : list N) : list sql := [QCmp #"=" (QCol #"owner_id") (QCol #"user_id")].
Lemma code6_ok : forall b c p, is_mark (code6 b c p) = true /\ opens6 (code6 b c p) = b /\ forall t, target heap3 c p = Some t -> table6 (code6 b c p) = t.
Proof.
  intros b c p. unfold code6. set (x := match target heap3 c p with Some t => N.of_nat t | None => 0%N end). split; [|split].
  - unfold is_mark. apply N.leb_le. destruct b; lia.
  - unfold opens6. destruct b.
    + apply N.odd_spec. exists (557056 + x)%N. lia.
    + rewrite <- N.negb_even. apply Bool.negb_false_iff, N.even_spec. exists (557056 + x)%N. lia.
  - intros t E. unfold table6. subst x. rewrite E. replace (1114112 + 2 * N.of_nat t + (if b then 1 else 0) - 1114112)%N with ((if b then 1 else 0) + N.of_nat t * 2)%N by (destruct b; lia).
    rewrite N.div_add by lia. destruct b; cbn [N.div]; change (1 / 2)%N with 0%N; change (0 / 2)%N with 0%N; now rewrite N.add_0_l, Nnat.Nat2N.id.
Qed.
Lemma idchar_proper : forall x, ident x -> proper x.
Proof.
  assert (I : forall c, idchar c = true -> is_mark c = false).
  { intros c H. unfold is_mark. apply N.leb_gt. unfold idchar, letter, is_digit in H. rewrite ?Bool.orb_true_iff, ?Bool.andb_true_iff, ?N.leb_le, ?N.eqb_eq in H. lia. }
  intros x [(c0 & r & -> & H1 & H2) _]. unfold proper. cbn [forallb]. rewrite (I c0) by (unfold idchar; now rewrite H1). cbn [negb andb].
  rewrite forallb_forall in *. intros c K. rewrite (I c); [reflexivity|]. now apply H2.
Qed.
Lemma proper6 : quotes_properly (ident4 #"mysql") (fun x => x) ident.
Proof.
  intros x H. pose proof (idchar_proper x H) as P. split.
  - unfold ident4. change (streq #"mysql" #"postgres") with false. cbv iota. unfold proper, quote_name in *. cbn [forallb app]. rewrite forallb_app. cbn [forallb]. rewrite Bool.andb_true_r.
    clear H. change (negb (is_mark 96)) with true. cbn [andb]. revert P. induction x as [|c x IH]; intro P; [reflexivity|]. cbn [forallb] in P. apply andb_prop in P as [P1 P2]. cbn [flat_map]. rewrite forallb_app, (IH P2).
    rewrite Bool.andb_true_r. unfold quote_part. destruct (c =? 46)%N; [reflexivity|]. cbn [forallb]. now rewrite P1.
  - destruct H as [(c0 & r & -> & H1 & H2) _]. unfold proper in P. cbn [forallb] in P. apply andb_prop in P as [P _]. cbn [marked]. now apply Bool.negb_true_iff.
Qed.
Definition gts6 : list tok := [TName #"owner_id"; TSym #"="; TName #"user_id"].
Lemma some_pair : forall (a b x y : list N), Some (a, b) = Some (x, y) -> a = x /\ b = y.
Proof. intros a b x y H. now injection H. Qed.
Lemma words6 : edge_words edge5 heap3 #"mysql" (lex4 #"mysql") opens6 word6 code6 own6.
Proof.
  split; [|split].
  - intros b c p. destruct (code6_ok b c p) as (H1 & H2 & _). now split.
  - intros c p t s1 s2 (s & E & _ & _ & ES). destruct (code6_ok false c p) as (H1 & H2 & H3). apply some_pair in ES as [<- <-]. unfold word6. rewrite H2. rewrite (H3 t) by (unfold target; now rewrite E).
    rewrite <- !app_assoc. reflexivity.
  - intros c p t s1 s2 (s & E & _ & _ & ES). destruct (code6_ok true c p) as (H1 & H2 & H3). apply some_pair in ES as [<- <-]. split; [reflexivity|]. exists (guard5 ++ #" AND "). split.
    + unfold word6. rewrite H2. rewrite (H3 t) by (unfold target; now rewrite E). rewrite <- !app_assoc. reflexivity.
    + right. exists guard5, gts6. split; [reflexivity|]. split; [reflexivity|]. pose proof (QM (lex4 #"mysql") ident4 #"mysql" (fun x => x) (quotes4 #"mysql") proper6) as QM6.
      assert (I1 : ident #"owner_id") by (split; [exists 111%N, #"wner_id"; now repeat split|]; intros (v & r & E0 & C0); destruct v as [|v0 v]; [discriminate C0|]; injection E0 as <- _; discriminate C0).
      assert (I2 : ident #"user_id") by (split; [exists 117%N, #"ser_id"; now repeat split|]; intros (v & r & E0 & C0); destruct v as [|v0 v]; [discriminate C0|]; injection E0 as <- _; discriminate C0).
      split; [|split; [|split; [reflexivity|split; [reflexivity|]]]].
      * assert (L : LE (with_marks (lex4 #"mysql")) ident4 #"mysql" ([SName #"owner_id"] ++ SFix (#" " ++ #"=" ++ #" ") :: [SName #"user_id"]) ([TName #"owner_id"] ++ [TSym #"="] ++ [TName #"user_id"])).
        { apply (LE_infix _ ident4 #"mysql"); [|reflexivity| |].
          - apply (fix_padded _ ident4 #"mysql" (fun x => x) _ QM6). apply (close_sym _ ident4 #"mysql" (fun x => x) _ QM6). cbn. tauto.
          - now apply (LE_name _ ident4 #"mysql" (fun x => x) _ QM6).
          - now apply (LE_name _ ident4 #"mysql" (fun x => x) _ QM6). }
        intro pre. exists guard5, []. split; [reflexivity|]. intros post rest br N0 K. exact (L pre post rest br N0 K).
      * constructor. intros rest EC. apply R_not_end; [exact I|]. apply (R_cond _ (QCol #"owner_id") (TSym #"=" :: TName #"user_id" :: rest)); [apply R_name|]. apply R_sym; [cbn; tauto|apply R_name].
      * intros w row row' A. cbn [own6 map sql_means]. now rewrite (A #"owner_id"), (A #"user_id") by reflexivity.
Qed.
(** two users and their pets; the subselects go through the tables *)
Definition row6 : Set := list (list N * v3).
Definition get6 (env : list row6) (x : list N) : v3 := match find (fun r => match assoc x r with Some _ => true | None => false end) env with Some r => match assoc x r with Some v => v | None => VNull end | None => VNull end.
Definition yes6 (v : v3) : bool := match v with VB true => true | _ => false end.
Definition some6 (db : nat -> list row6) (m : N) (env : list row6) (f : row6 -> v3) : v3 := VB (existsb (fun r => yes6 (f r)) (db (table6 m))).
Definition has6 (db : nat -> list row6) (m : N) (env : list row6) : v3 :=
  some6 db m env (fun r => cmp3 #"=" (get6 (r :: env) #"owner_id") (get6 (r :: env) #"user_id")).
Lemma same6 : forall db m env f g, (forall r, f r = g r) -> some6 db m env f = some6 db m env g.
Proof. intros db m env f g H. unfold some6. f_equal. induction (db (table6 m)) as [|r l IH]; [reflexivity|]. cbn [existsb]. now rewrite H, IH. Qed.
Definition rows6 (db : nat -> list row6) : rows world3 := Rows world3 row6 get6 (some6 db) (has6 db) (same6 db).
Definition user7 : row6 := [(#"user_id", VInt 7); (#"a", VInt 1); (#"b", VInt 2)].
Definition user8 : row6 := [(#"user_id", VInt 8); (#"a", VInt 1); (#"b", VInt 5)].
Definition db6 (t : nat) : list row6 :=
  match t with 0 => [user7; user8] | _ => [[(#"owner_id", VInt 7); (#"c", VInt 0)]; [(#"owner_id", VInt 8); (#"c", VInt 0)]; [(#"owner_id", VInt 9); (#"c", VInt 3)]] end.
Definition c3 : expr := ECmp (EName #"c") #"=" (EVal (VLit (LInt #"3"))).
Definition e6 : expr := ELogic a1 #"and" (e_pets (EParen (ELogic (ECall #"has_edge" [EName #"owner"; b2]) #"or" c3))).
(** An edge inside the condition of another: what the theorems ask for, the text,
    and what it means for the two users. *)
Example C94_ex : exists m, reads #"a = 1 and has_edge(pets, (has_edge(owner, b = 2) or c = 3))" e6 /\
  simple3 lo2 e6 = true /\ straight3 lo2 heap3 own6 (Some 0) e6 = true /\
  query lo2 ident4 edge5 heap3 (fresh #"mysql" false (Some 0) #"a = 1 and has_edge(pets, (has_edge(owner, b = 2) or c = 3))") =
    Some (m, (#"`a` = ? AND EXISTS (SELECT * FROM `pets` WHERE `owner_id` = `user_id` AND (EXISTS (SELECT * FROM `users` WHERE `owner_id` = `user_id` AND `b` = ?) OR `c` = ?))",
      [ACast (GInt 1); ACast (GInt 2); ACast (GInt 3)])) /\ no_error m /\
  quotes (lex4 #"mysql") (ident4 #"mysql") (fun x => x) ident /\ quotes_properly (ident4 #"mysql") (fun x => x) ident /\
  edge_words edge5 heap3 #"mysql" (lex4 #"mysql") opens6 word6 code6 own6 /\ lawful world3 /\
  wanted world3 (rows6 db6) lo2 heap3 code6 own6 (fun x => x) [user7] (Some 0) e6 = VB true /\
  wanted world3 (rows6 db6) lo2 heap3 code6 own6 (fun x => x) [user8] (Some 0) e6 = VB false.
Proof.
  eexists. split; [apply read_of_reads; vm_compute; reflexivity|]. split; [reflexivity|]. split; [reflexivity|]. split; [vm_compute; reflexivity|]. split; [reflexivity|].
  split; [apply quotes4|]. split; [apply proper6|]. split; [apply words6|]. split; [apply (proj1 (proj2 C79_ex_world))|]. split; vm_compute; reflexivity.
Qed.
(** An edge without a condition, under "not". *)
Example C94_ex_bare : exists m, reads #"not (has_edge(pets))" (ENot (EParen (ECall #"has_edge" [EName #"pets"]))) /\
  query lo2 ident4 edge5 heap3 (fresh #"mysql" false (Some 0) #"not (has_edge(pets))") =
    Some (m, (#"NOT (EXISTS (SELECT * FROM `pets` WHERE `owner_id` = `user_id`))", [])) /\ no_error m /\
  wanted world3 (rows6 db6) lo2 heap3 code6 own6 (fun x => x) [user7] (Some 0) (ENot (EParen (ECall #"has_edge" [EName #"pets"]))) = VB false /\
  wanted world3 (rows6 db6) lo2 heap3 code6 own6 (fun x => x) [[(#"user_id", VInt 6)]] (Some 0) (ENot (EParen (ECall #"has_edge" [EName #"pets"]))) = VB true.
Proof.
  eexists. split; [apply read_of_reads; vm_compute; reflexivity|]. split; [vm_compute; reflexivity|]. split; [reflexivity|]. split; vm_compute; reflexivity.
Qed.
(** With "or" in the condition of an edge that is itself a condition of the text:
    the user has no pet with c = 3, but someone else has. *)
Theorem C94_or_refuted : ~ (forall lo nl ident_sql edge_sql heap d dis col opens word code own nd q e m t a t' s w R env,
  quotes nl (ident_sql d) col ident -> quotes_properly (ident_sql d) col ident -> edge_words edge_sql heap d nl opens word code own ->
  valid_runes q -> reads q e -> simple3 lo e = true ->
  query lo ident_sql edge_sql heap (fresh d dis nd q) = Some (m, (t, a)) -> no_error m ->
  t = spelled word t' -> reads_nested opens nl d t' (map arg_value a) s -> lawful w ->
  nested_means w R env s = wanted w R lo heap code own col env nd e).
Proof.
  intro H. set (q := #"has_edge(pets, c = 3 or c = 3)"). set (e := e_pets (ELogic c3 #"or" c3)).
  assert (RD : reads q e) by (apply read_of_reads; vm_compute; reflexivity). assert (V : valid_runes q) by now apply valid_runesb_spec.
  assert (K : exists m t a, query lo2 ident4 edge5 heap3 (fresh #"mysql" false (Some 0) q) = Some (m, (t, a)) /\ no_error m) by (do 3 eexists; split; [vm_compute; reflexivity|reflexivity]).
  destruct K as (m & t & a & K1 & K2).
  destruct (C94_means lo2 (lex4 #"mysql") ident4 edge5 heap3 #"mysql" false (fun x => x) opens6 word6 code6 own6 (Some 0) q e m t a (quotes4 _) proper6 words6 V RD eq_refl K1 K2) as (t' & s & T1 & T2 & T3).
  specialize (H lo2 (lex4 #"mysql") ident4 edge5 heap3 #"mysql" false (fun x => x) opens6 word6 code6 own6 (Some 0) q e m t a t' s world3 (rows6 db6) [user7] (quotes4 _) proper6 words6 V RD eq_refl K1 K2 T1 T2 (proj1 (proj2 C79_ex_world))).
  rewrite T3 in H. vm_compute in H. discriminate H.
Qed.

Print Assumptions C94_means.
Print Assumptions C94_unique.
Print Assumptions C94_wanted.
Print Assumptions C94_exact.
Print Assumptions C94_or_refuted.
