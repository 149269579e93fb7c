(** C95: whose column a name in the condition of an edge is. *)
From Verif Require Import Base Peg Grammar Node Vocab Tree Parse Syntax Blank ParseProofs ParserFacts ParserFacts2 ParserMain Build NodeFacts Reader
  Gorm GormSpec GormSample GormFacts GormFacts4 EntSQL EntSQLSpec EntSQLSample EntSQLFacts3 SqlSpec SqlSpecDb SqlSpecEntDb PropsSql PropsSqlEnt
  SqlSpecWhere PropsSqlWhere EntWhere SqlSpecEntWhere PropsSqlEntWhere EdgeSpec PropsEdge NestSpec PropsNest ScopeSpec ScopeFacts.
Strategy expand [parse_machine rule_trace].
Strategy 1000 [parse_fuel mrun tok_trace].

(** The columns are written without their tables.  If every name of the query is
    a column of the table it is about, at every depth, the condition means what
    it says about the rows of that table. *)
Theorem C95_local : forall lo nl ident_sql edge_sql heap d dis col opens word code own c q e m t a,
  quotes nl (ident_sql d) col ident -> quotes_properly (ident_sql d) col ident -> edge_words edge_sql heap d nl opens word code own ->
  valid_runes q -> reads q e -> simple3 lo e = true -> straight3 lo heap own (Some c) e = true ->
  query lo ident_sql edge_sql heap (fresh d dis (Some c) q) = Some (m, (t, a)) -> no_error m ->
  exists t' s, t = spelled word t' /\ reads_nested opens nl d t' (map arg_value a) s /\
    forall w R table has get, lawful w -> innermost w R has get -> from_table w R table heap code -> at_home w R table has heap col (Some c) e ->
      forall r env, table c r -> nested_means w R (r :: env) s = local w R get lo heap code own col r env (Some c) e.
Proof.
  intros lo nl ident_sql edge_sql heap d dis col opens word code own c q e m t a Q QP EW Hq He Hn Hs H HE.
  destruct (C94_wanted lo nl ident_sql edge_sql heap d dis col opens word code own (Some c) q e m t a Q QP EW Hq He Hn Hs H HE) as (t' & s & H1 & H2 & H3). exists t', s. split; [exact H1|]. split; [exact H2|].
  intros w R table has get W IN FT AH r env T. rewrite (H3 w R (r :: env) W). now apply (wanted_local w R table has).
Qed.

(** ** Users and their pets *)
Definition has6r (r : row6) (x : list N) : bool := match assoc x r with Some _ => true | None => false end.
Definition get6r (r : row6) (x : list N) : v3 := match assoc x r with Some v => v | None => VNull end.
Lemma innermost6 : forall db, innermost world3 (rows6 db) has6r get6r.
Proof.
  intros db r env x. unfold rows6, rGet, get6. cbn [find]. unfold has6r, get6r. destruct (assoc x r) eqn:E; [now rewrite E|reflexivity].
Qed.
Lemma from_table6 : forall db, from_table world3 (rows6 db) (fun t r => In r (db t)) heap3 code6.
Proof.
  intros db c p t env f g TG H. unfold rows6, rSome, some6. rewrite (proj2 (proj2 (code6_ok true c p)) t TG). f_equal.
  induction (db t) as [|r l IH]; [reflexivity|]. cbn [existsb]. rewrite (H r (or_introl eq_refl)). f_equal. apply IH. intros r' I. apply H. now right.
Qed.
(** The query of C94_ex: a and b are columns of users, c is one of pets. *)
Example C95_ex : innermost world3 (rows6 db6) has6r get6r /\ from_table world3 (rows6 db6) (fun t r => In r (db6 t)) heap3 code6 /\
  at_home world3 (rows6 db6) (fun t r => In r (db6 t)) has6r heap3 (fun x => x) (Some 0) e6 /\ In user7 (db6 0) /\
  local world3 (rows6 db6) get6r lo2 heap3 code6 own6 (fun x => x) user7 [] (Some 0) e6 = VB true.
Proof.
  split; [apply innermost6|]. split; [apply from_table6|]. split; [|split; [now left|vm_compute; reflexivity]].
  cbn. repeat split; intros r I; repeat (destruct I as [<-|I]; [reflexivity|]); contradiction.
Qed.
(** A name the target does not have: "has a pet with a = 1", and pets have no a.
    The database takes the a of the user. *)
Theorem C95_home_refuted : ~ (forall lo nl ident_sql edge_sql heap d dis col opens word code own c q e m t a t' s w R table has get r env,
  quotes nl (ident_sql d) col ident -> quotes_properly (ident_sql d) col ident -> edge_words edge_sql heap d nl opens word code own ->
  valid_runes q -> reads q e -> simple3 lo e = true -> straight3 lo heap own (Some c) e = true ->
  query lo ident_sql edge_sql heap (fresh d dis (Some c) q) = Some (m, (t, a)) -> no_error m ->
  t = spelled word t' -> reads_nested opens nl d t' (map arg_value a) s ->
  lawful w -> innermost w R has get -> from_table w R table heap code -> table c r ->
  nested_means w R (r :: env) s = local w R get lo heap code own col r env (Some c) e).
Proof.
  intro H. set (q := #"has_edge(pets, a = 1)"). set (e := e_pets a1).
  assert (RD : reads q e) by (apply read_of_reads; vm_compute; reflexivity). assert (V : valid_runes q) by now apply valid_runesb_spec.
  assert (K : exists m t a, query lo2 ident4 edge5 heap3 (fresh #"mysql" false (Some 0) q) = Some (m, (t, a)) /\ no_error m) by (do 3 eexists; split; [vm_compute; reflexivity|reflexivity]).
  destruct K as (m & t & a & K1 & K2).
  destruct (C94_wanted lo2 (lex4 #"mysql") ident4 edge5 heap3 #"mysql" false (fun x => x) opens6 word6 code6 own6 (Some 0) q e m t a (quotes4 _) proper6 words6 V RD eq_refl eq_refl K1 K2) as (t' & s & T1 & T2 & T3).
  specialize (H lo2 (lex4 #"mysql") ident4 edge5 heap3 #"mysql" false (fun x => x) opens6 word6 code6 own6 0 q e m t a t' s world3 (rows6 db6) (fun t r => In r (db6 t)) has6r get6r user7 []
    (quotes4 _) proper6 words6 V RD eq_refl eq_refl K1 K2 T1 T2 (proj1 (proj2 C79_ex_world)) (innermost6 db6) (from_table6 db6) (or_introl eq_refl)).
  pose proof (eq_trans (eq_sym (T3 world3 (rows6 db6) [user7] (proj1 (proj2 C79_ex_world)))) H) as X. vm_compute in X. discriminate X.
Qed.

Print Assumptions C95_local.
Print Assumptions C95_home_refuted.
