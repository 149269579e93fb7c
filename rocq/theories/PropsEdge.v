(** C90: the condition inside has_edge beside the condition of the edge itself. *)
From Verif Require Import Base Peg Grammar Node Vocab Tree Parse Syntax Blank ParseProofs ParserFacts ParserFacts2 ParserMain Build NodeFacts Reader
  Gorm GormSpec GormSample GormFacts GormFacts4 EntSQL EntSQLSpec EntSQLSample EntSQLFacts3 SqlSpec SqlSpecDb SqlSpecEntDb SqlProofs SqlDialect SqlEnt SqlAll SqlEntLoose PropsSql PropsSqlEnt
  SqlSpecWhere SqlWhere3 PropsSqlWhere EntWhere SqlSpecEntWhere SqlEntWhere PropsSqlEntWhere EdgeSpec EdgeFacts.
Require Import Lia.
Strategy expand [parse_machine rule_trace].
Strategy 1000 [parse_fuel mrun tok_trace].

(** Wherever a query asks for an edge with a condition, its text contains the
    text of the edge with [T] in it, and [T] means the condition.  When the edge
    has a condition [g] of its own before it, the two together mean the
    condition with [g] "and" before it, where nothing is put in parentheses. *)
Theorem C90_edge : forall lo nl ident_sql edge_sql heap d dis nd col q E m t a c p e, quotes nl (ident_sql d) col ident ->
  valid_runes q -> reads q E -> json_free E = true ->
  query lo ident_sql edge_sql heap (fresh d dis nd q) = Some (m, (t, a)) -> no_error m ->
  asks heap nd E c p e -> simple2 lo e = true ->
  exists tg s1 s2 A T B X Y Z, edge_to edge_sql heap d true c p tg s1 s2 /\ t = A ++ s1 ++ T ++ s2 ++ B /\ a = X ++ Y ++ Z /\
    (exists b, reads_sql nl d T (seen d (map arg_value X) (map arg_value Y)) b /\
       forall w row nm, (forall x, nm [x] = row (col x)) -> sql_means w row b = ent_means w lo nm e) /\
    forall pre g gs, s1 = pre ++ g ++ #" AND " -> guards nl d g gs ->
      exists b, reads_sql nl d (g ++ #" AND " ++ T) (seen d (map arg_value X) (map arg_value Y)) b /\
        forall w row nm, (forall x, nm [x] = row (col x)) ->
          sql_means w row b = led w lo nm (joined (wAnd w) (wVal w GNil) (map (sql_means w row) gs)) e.
Proof. intros lo nl ident_sql edge_sql heap d dis nd col q E m t a c p e Q. exact (edge_placed lo nl ident_sql edge_sql heap d dis nd col Q q E m t a c p e). Qed.
(** So, without a top-level "or", a row meets the two if and only if it is a
    neighbour and meets the condition. *)
Theorem C90_neighbour : forall lo nl ident_sql edge_sql heap d dis nd col q E m t a c p e, quotes nl (ident_sql d) col ident ->
  valid_runes q -> reads q E -> json_free E = true ->
  query lo ident_sql edge_sql heap (fresh d dis nd q) = Some (m, (t, a)) -> no_error m ->
  asks heap nd E c p e -> simple2 lo e = true -> loose_or e = false ->
  exists tg s1 s2 A T B X Y Z, edge_to edge_sql heap d true c p tg s1 s2 /\ t = A ++ s1 ++ T ++ s2 ++ B /\ a = X ++ Y ++ Z /\
    forall pre g gs, s1 = pre ++ g ++ #" AND " -> guards nl d g gs ->
      exists b, reads_sql nl d (g ++ #" AND " ++ T) (seen d (map arg_value X) (map arg_value Y)) b /\
        forall w row nm, lawful w -> (forall x, nm [x] = row (col x)) -> forall M : wV w -> Prop, (forall x y, M (wAnd w x y) <-> M x /\ M y) ->
          (M (sql_means w row b) <-> Forall (fun x => M (sql_means w row x)) gs /\ M (ent_means w lo nm e)).
Proof.
  intros lo nl ident_sql edge_sql heap d dis nd col q E m t a c p e Q Hq He Hj H HE Ha Hn HL.
  destruct (C90_edge lo nl ident_sql edge_sql heap d dis nd col q E m t a c p e Q Hq He Hj H HE Ha Hn) as (tg & s1 & s2 & A & T & B & X & Y & Z & H1 & H2 & H3 & _ & H5).
  exists tg, s1, s2, A, T, B, X, Y, Z. split; [exact H1|]. split; [exact H2|]. split; [exact H3|]. intros pre g gs Hs HG. destruct (H5 pre g gs Hs HG) as (b & R1 & R2). exists b. split; [exact R1|].
  intros w row nm W An M HM. rewrite (R2 w row nm An), (led_and w lo nm _ e W HL), HM. destruct HG as (gts & _ & HR). apply run_some in HR. destruct gs as [|x gs]; [congruence|]. clear HR.
  cbn [map joined]. rewrite Forall_cons_iff.
  assert (J : forall z l, M (fold_left (wAnd w) (map (sql_means w row) l) z) <-> M z /\ Forall (fun x => M (sql_means w row x)) l).
  { intros z l. revert z. induction l as [|y l IH]; intro z; cbn [map fold_left]; [intuition constructor|]. rewrite IH, HM, Forall_cons_iff. tauto. }
  rewrite J. tauto.
Qed.

(** ** Users and their pets *)
(** an edge library with a condition of its own *)
Definition edge5 (w : bool) (d : list N) (from : gnode) (spec : gspec) (to : gnode) : option (list N * list N) :=
  let g := ident4 d #"owner_id" ++ #" = " ++ ident4 d #"user_id" in
  if w then Some (#"EXISTS (SELECT * FROM " ++ ident4 d (gnTable to) ++ #" WHERE " ++ g ++ #" AND ", #")")
  else Some (#"EXISTS (SELECT * FROM " ++ ident4 d (gnTable to) ++ #" WHERE " ++ g, #")").
Definition guard5 : list N := #"`owner_id` = `user_id`".
Definition pre5 : list N := #"EXISTS (SELECT * FROM `pets` WHERE ".
Definition e_owner : expr := ECmp (EName #"owner_id") #"=" (EName #"user_id").
Lemma reads_owner : reads #"owner_id = user_id" e_owner.
Proof. apply read_of_reads. vm_compute. reflexivity. Qed.
Lemma guards5 : exists gs, guards (lex4 #"mysql") #"mysql" guard5 gs /\
  forall w row nm, (forall x, nm [x] = row x) -> joined (wAnd w) (wVal w GNil) (map (sql_means w row) gs) = ent_means w lo2 nm e_owner.
Proof.
  assert (K : exists m t a, query lo2 ident4 edge3 heap3 (fresh #"mysql" false None #"owner_id = user_id") = Some (m, (t, a)) /\ no_error m)
    by (do 3 eexists; split; [vm_compute; reflexivity|reflexivity]).
  destruct K as (m & t & a & K1 & K2).
  destruct (C80_query lo2 (lex4 #"mysql") ident4 edge3 heap3 #"mysql" false None (fun x => x) #"owner_id = user_id" e_owner m t a (quotes4 #"mysql") ltac:(now apply valid_runesb_spec) reads_owner eq_refl eq_refl K1 K2) as (gs & C & S).
  exists gs. split; [|exact S]. destruct C as (bts & W & R0). exists bts. split; [|exact R0]. intro pre. destruct (W pre) as (t' & a' & E & L). exists t', a'. split; [|exact L].
  rewrite <- E. vm_compute. reflexivity.
Qed.
Definition a1 : expr := ECmp (EName #"a") #"=" (EVal (VLit (LInt #"1"))).
Definition b2 : expr := ECmp (EName #"b") #"=" (EVal (VLit (LInt #"2"))).
Definition e_pets (e : expr) : expr := ECall #"has_edge" [EName #"pets"; e].
Definition e_tame : expr := ENot (EParen (e_pets (EParen (ELogic a1 #"or" b2)))).
Lemma reads_tame : reads #"not (has_edge(pets, (a = 1 or b = 2)))" e_tame.
Proof. apply read_of_reads. vm_compute. reflexivity. Qed.
(** What C90_neighbour asks for, and the text. *)
Example C90_ex : exists m gs, valid_runes #"not (has_edge(pets, (a = 1 or b = 2)))" /\ json_free e_tame = true /\
  query lo2 ident4 edge5 heap3 (fresh #"mysql" false (Some 0) #"not (has_edge(pets, (a = 1 or b = 2)))") =
    Some (m, (#"NOT (EXISTS (SELECT * FROM `pets` WHERE `owner_id` = `user_id` AND (`a` = ? OR `b` = ?)))", [ACast (GInt 1); ACast (GInt 2)])) /\ no_error m /\
  asks heap3 (Some 0) e_tame 0 #"pets" (EParen (ELogic a1 #"or" b2)) /\ simple2 lo2 (EParen (ELogic a1 #"or" b2)) = true /\ loose_or (EParen (ELogic a1 #"or" b2)) = false /\
  guards (lex4 #"mysql") #"mysql" guard5 gs.
Proof.
  destruct guards5 as (gs & G & _). eexists. exists gs. split; [now apply valid_runesb_spec|]. split; [reflexivity|]. split; [vm_compute; reflexivity|]. split; [reflexivity|].
  split; [apply asks_not, asks_paren, asks_here|]. now repeat split.
Qed.
(** Inside the condition of another edge. *)
Example C90_ex_nested : reads #"has_edge(pets, (has_edge(owner, a = 1)))" (e_pets (EParen (ECall #"has_edge" [EName #"owner"; a1]))) /\
  asks heap3 (Some 0) (e_pets (EParen (ECall #"has_edge" [EName #"owner"; a1]))) 1 #"owner" a1 /\
  exists m, query lo2 ident4 edge5 heap3 (fresh #"mysql" false (Some 0) #"has_edge(pets, (has_edge(owner, a = 1)))") =
    Some (m, (#"EXISTS (SELECT * FROM `pets` WHERE `owner_id` = `user_id` AND (EXISTS (SELECT * FROM `users` WHERE `owner_id` = `user_id` AND `a` = ?)))", [ACast (GInt 1)])) /\ no_error m.
Proof.
  split; [apply read_of_reads; vm_compute; reflexivity|]. split; [apply (asks_edge _ _ _ _ 1 (Some spec3)); [reflexivity|]; apply asks_paren, asks_here|].
  eexists. split; [vm_compute; reflexivity|reflexivity].
Qed.

(** With a top-level "or" the condition lets rows through that are no neighbours:
    here the row of another owner with b = 2. *)
Theorem C90_neighbour_refuted : ~ (forall lo nl ident_sql edge_sql heap d dis nd col q E m t a c p e, quotes nl (ident_sql d) col ident ->
  valid_runes q -> reads q E -> json_free E = true ->
  query lo ident_sql edge_sql heap (fresh d dis nd q) = Some (m, (t, a)) -> no_error m ->
  asks heap nd E c p e -> simple2 lo e = true ->
  forall tg s1 s2 A T B X Y Z pre g gs b w row nm (M : wV w -> Prop), edge_to edge_sql heap d true c p tg s1 s2 -> t = A ++ s1 ++ T ++ s2 ++ B -> a = X ++ Y ++ Z ->
    s1 = pre ++ g ++ #" AND " -> guards nl d g gs -> reads_sql nl d (g ++ #" AND " ++ T) (seen d (map arg_value X) (map arg_value Y)) b ->
    lawful w -> (forall x, nm [x] = row (col x)) -> (forall x y, M (wAnd w x y) <-> M x /\ M y) ->
    M (sql_means w row b) -> M (joined (wAnd w) (wVal w GNil) (map (sql_means w row) gs))).
Proof.
  intro H. set (row := fun x : list N => if streq x #"owner_id" then VInt 7 else if streq x #"user_id" then VInt 8 else VInt 2).
  destruct guards5 as (gs & G & S).
  assert (K : exists m, query lo2 ident4 edge5 heap3 (fresh #"mysql" false (Some 0) #"has_edge(pets, a = 1 or b = 2)") =
    Some (m, (#"EXISTS (SELECT * FROM `pets` WHERE `owner_id` = `user_id` AND `a` = ? OR `b` = ?)", [ACast (GInt 1); ACast (GInt 2)])) /\ no_error m)
    by (eexists; split; [vm_compute; reflexivity|reflexivity]).
  destruct K as (m & K1 & K2).
  assert (RD : reads #"has_edge(pets, a = 1 or b = 2)" (e_pets (ELogic a1 #"or" b2))) by (apply read_of_reads; vm_compute; reflexivity).
  specialize (H lo2 (lex4 #"mysql") ident4 edge5 heap3 #"mysql" false (Some 0) (fun x => x) #"has_edge(pets, a = 1 or b = 2)" _ m _ _ 0 #"pets" (ELogic a1 #"or" b2) (quotes4 #"mysql") ltac:(now apply valid_runesb_spec) RD eq_refl K1 K2
    ltac:(apply asks_here) eq_refl 1 (pre5 ++ guard5 ++ #" AND ") #")" [] #"`a` = ? OR `b` = ?" [] [] [ACast (GInt 1); ACast (GInt 2)] [] pre5 guard5 gs
    (QOr (QAnd (QCmp #"=" (QCol #"owner_id") (QCol #"user_id")) (QCmp #"=" (QCol #"a") (QVal (GInt 1)))) (QCmp #"=" (QCol #"b") (QVal (GInt 2))))
    world3 row (fun l => match l with x :: _ => row x | [] => VNull end) (fun v => v = VB true)). clear K1 K2 RD.
  assert (E1 : edge_to edge5 heap3 #"mysql" true 0 #"pets" 1 (pre5 ++ guard5 ++ #" AND ") #")").
  { exists spec3. split; [reflexivity|]. split; [discriminate|]. split; [discriminate|]. vm_compute. reflexivity. }
  specialize (H E1 ltac:(vm_compute; reflexivity) eq_refl eq_refl G).
  match type of H with ?A -> _ => assert (K : A) by (exists 80; do 2 eexists; split; [vm_compute; reflexivity|split; [vm_compute; reflexivity|vm_compute; reflexivity]]); specialize (H K); clear K end.
  specialize (H (proj1 (proj2 C79_ex_world)) (fun x => eq_refl)).
  assert (A : forall x y, wAnd world3 x y = VB true <-> x = VB true /\ y = VB true) by (intros x y; split; [apply (proj2 (proj2 C79_ex_world))|now intros [-> ->]]).
  specialize (H A eq_refl). rewrite (S world3 row (fun l => match l with x :: _ => row x | [] => VNull end) (fun x => eq_refl)) in H. vm_compute in H. discriminate H.
Qed.

Print Assumptions C90_edge.
Print Assumptions C90_neighbour.
Print Assumptions C90_neighbour_refuted.
