(** Proofs for C94, continued: the tokens of a query with has_edge. *)
From Verif Require Import Base Peg Node Vocab Tree Parse Syntax Blank ParseProofs NormProofs Unique ParserFacts ParserFacts2 ParserMain Build BuildProofs NodeFacts SafeInd
  Gorm GormSpec GormProofs GormFacts GormFacts2 GormFacts3 GormFacts4 TreeFacts EntSQL EntSQLSpec EntSQLProofs EntSQLFacts EntSQLFacts2 SqlSpec SqlProofs SqlProofs2 SqlProofs3 SqlGorm SqlDialect
  SqlSpecDb SqlDbFacts SqlSpecEntDb SqlLoose SqlEnt EntSQLFacts3 SqlEntLoose SqlEntDbFacts SqlSpecWhere SqlWhere3 EntWhere SqlSpecEntWhere SqlEntWhere NestSpec NestFacts.
Require Import Lia.
Strategy expand [parse_machine rule_trace].
Strategy 1000 [parse_fuel mrun tok_trace].

Section N5.
  Variable lo : N -> N.
  Variable nl : list N -> option (list N * list N).
  Variable ident_sql : list N -> list N -> list N.
  Variable edge_sql : bool -> list N -> gnode -> gspec -> gnode -> option (list N * list N).
  Variable heap : nat -> gnode.
  Variable d : list N.
  Variable dis : bool.
  Variable col : list N -> list N.
  Variable opens : N -> bool.
  Variable word : N -> list N.
  Variable code : bool -> nat -> list N -> N.
  Variable own : nat -> list N -> list sql.
  Hypothesis Q : quotes nl (ident_sql d) col ident.
  Hypothesis QP : quotes_properly (ident_sql d) col ident.
  Hypothesis EW : edge_words edge_sql heap d nl opens word code own.
  Notation nlM := (with_marks nl).
  Notation emit := (emits edge_sql heap d dis).
  Notation LL := (LE nlM ident_sql d).
  Notation sub := (subselect opens).
  Notation EP w R := (edge_parts w R lo heap code own col).
  Ltac noval := match goal with K : go_value _ _ |- _ => apply go_value_type in K; discriminate K end.

  Lemma QM : quotes nlM (ident_sql d) col ident.
  Proof.
    destruct Q as (Q1 & Q2 & Q3). split; [|split; [exact Q2|]].
    - intros c t H. cbn [with_marks]. rewrite (unquoted_unmarked c H). now apply Q1.
    - intros x t Hx E. rewrite <- (Q3 x t Hx E). destruct (QP x Hx) as [P _]. specialize (Q2 x Hx). destruct (ident_sql d x) as [|c q]; [congruence|].
      unfold proper in P. cbn [forallb] in P. apply andb_prop in P as [P _]. apply Bool.negb_true_iff in P. cbn [app with_marks]. now rewrite P.
  Qed.
  Lemma fix_mark : forall c, is_mark c = true -> fixes nlM d [c] [TName [c]].
  Proof.
    intros c H t args us. apply (TK_next nlM (bindd d) (other d) t args us [c] (TName [c])); try discriminate. intro f. cbn [app lex with_marks]. now rewrite H.
  Qed.

  (** ** Texts *)
  Definition spells (ps ps' : list spiece) : Prop := sargs ps' = sargs ps /\ forall k, spelled word (sql_of ident_sql d k ps') = sql_of ident_sql d k ps.
  Lemma spells_app : forall a a' b b', spells a a' -> spells b b' -> spells (a ++ b) (a' ++ b').
  Proof.
    intros a a' b b' [A1 A2] [B1 B2]. split; [now rewrite !sargs_app, A1, B1|]. intro k. now rewrite !sql_app, spelled_app, A2, A1, B2.
  Qed.
  Lemma spells_fix : forall t, proper t -> spells [SFix t] [SFix t].
  Proof. intros t H. split; [reflexivity|]. intro k. cbn [sql_of]. rewrite app_nil_r. now apply spelled_proper. Qed.
  Lemma spells_name : forall x, ident x -> spells [SName x] [SName x].
  Proof. intros x H. split; [reflexivity|]. intro k. cbn [sql_of]. rewrite app_nil_r. apply spelled_proper. now apply QP. Qed.
  Lemma spells_arg : forall a, spells [SArg a] [SArg a].
  Proof.
    intro a. split; [reflexivity|]. intro k. cbn [sql_of]. rewrite app_nil_r. apply spelled_proper. unfold holder. destruct (streq d #"postgres"); [|reflexivity].
    destruct (print_N_ok (k + 1)) as (H & _). apply proper_app; [reflexivity|]. apply proper_app; [now apply digits_proper|]. destruct a as [v|v]; [reflexivity|destruct v; reflexivity].
  Qed.
  Lemma spells_scalar : forall b v, spells [scalar_piece b v] [scalar_piece b v].
  Proof. intros b v. unfold scalar_piece. destruct b; [destruct v; try apply spells_arg; now apply spells_fix|apply spells_arg]. Qed.
  Lemma spells_commas : forall vs, spells (commas vs) (commas vs).
  Proof.
    induction vs as [|v vs IH]; [split; reflexivity|]. destruct vs as [|v' vs]; [apply spells_scalar|].
    change (commas (v :: v' :: vs)) with ([scalar_piece true v] ++ [SFix #", "] ++ commas (v' :: vs)). apply spells_app; [apply spells_scalar|]. apply spells_app; [now apply spells_fix|exact IH].
  Qed.
  Lemma spells_infix : forall a a' w b b', proper w -> spells a a' -> spells b b' -> spells (a ++ SFix w :: b) (a' ++ SFix w :: b').
  Proof. intros a a' w b b' W A B. apply spells_app; [exact A|]. apply (spells_app [SFix w] [SFix w]); [now apply spells_fix|exact B]. Qed.
  Lemma spells_around : forall x a a' y, proper x -> proper y -> spells a a' -> spells (SFix x :: a ++ [SFix y]) (SFix x :: a' ++ [SFix y]).
  Proof. intros x a a' y X Y A. apply (spells_app [SFix x] [SFix x]); [now apply spells_fix|]. apply spells_app; [exact A|now apply spells_fix]. Qed.

  (** ** Operators *)
  Definition okc (c : N) : bool := (c =? 32)%N || letter c || sym_char c.
  Definition okt (k : tok) : bool := match k with TWord _ | TSym _ => true | _ => false end.
  Lemma span_rest : forall p t, exists x, t = x ++ snd (span p t).
  Proof.
    intros p t. induction t as [|c t IH]; [now exists []|]. cbn [span]. destruct (p c); [|now exists []]. destruct (span p t) as [a r]. cbn [snd] in *. destruct IH as [x ->]. now exists (c :: x).
  Qed.
  Lemma lex_words : forall f t ts, forallb okc t = true -> lex nlM f t = Some ts -> forallb okt ts = true.
  Proof.
    induction f as [|f IH]; intros t ts H E; [discriminate E|]. destruct t as [|c t]; [now injection E as <-|]. cbn [forallb] in H. apply andb_prop in H as [H1 H2].
    assert (U : unquoted c = true).
    { unfold okc in H1. unfold unquoted. apply Bool.orb_prop in H1 as [H1|H1]; [apply Bool.orb_prop in H1 as [H1|H1]|]; [apply N.eqb_eq in H1; now subst|rewrite H1; now rewrite Bool.orb_true_r|rewrite H1; now rewrite Bool.orb_true_r]. }
    assert (K : forall r u k, (exists x, c :: t = x ++ r) -> okt k = true -> option_map (cons k) (lex nlM f r) = Some u -> forallb okt u = true).
    { intros r u k [x X] O F. destruct (lex nlM f r) as [v|] eqn:L; [|discriminate F]. injection F as <-. cbn [forallb]. rewrite O. cbn [andb]. apply (IH r v); [|exact L].
      assert (A : forallb okc (c :: t) = true) by (cbn [forallb]; now rewrite H1, H2). rewrite X, forallb_app in A. now apply andb_prop in A as [_ A]. }
    cbn [lex] in E. rewrite (proj1 QM c t U) in E. destruct (c =? 32)%N eqn:C0; [now apply (IH t ts)|].
    destruct (c =? 40)%N eqn:C1; [apply N.eqb_eq in C1; subst; discriminate H1|]. destruct (c =? 41)%N eqn:C2; [apply N.eqb_eq in C2; subst; discriminate H1|].
    destruct (c =? 44)%N eqn:C3; [apply N.eqb_eq in C3; subst; discriminate H1|]. destruct (c =? 63)%N eqn:C4; [apply N.eqb_eq in C4; subst; discriminate H1|].
    destruct (c =? 36)%N eqn:C5; [apply N.eqb_eq in C5; subst; discriminate H1|].
    destruct (letter c).
    - destruct (span_rest letter (c :: t)) as [x X]. destruct (span letter (c :: t)) as [a r]. cbn [snd] in X. apply (K r ts (TWord (map ascii_lower a))); [now exists x|reflexivity|exact E].
    - destruct (sym_char c); [|discriminate E]. destruct (span_rest sym_char (c :: t)) as [x X]. destruct (span sym_char (c :: t)) as [a r]. cbn [snd] in X. apply (K r ts (TSym a)); [now exists x|reflexivity|exact E].
  Qed.
  Lemma okt_bind : forall ts us, forallb okt ts = true -> bindd d [] ts = Some us -> us = ts.
  Proof.
    induction ts as [|x ts IH]; intros us H E; [unfold bindd in E; destruct (pg d); now injection E as <-|]. cbn [forallb] in H. apply andb_prop in H as [H1 H2].
    rewrite (other d) in E; [|destruct x; discriminate H1 || discriminate|destruct x; discriminate H1 || discriminate].
    destruct (bindd d [] ts) as [v|] eqn:B; [|discriminate E]. injection E as <-. f_equal. now apply IH.
  Qed.
  Lemma okt_plains : forall ts, forallb okt ts = true -> plains opens ts.
  Proof.
    unfold plains. induction ts as [|x ts IH]; intro H; [reflexivity|]. cbn [forallb] in *. apply andb_prop in H as [H1 H2]. rewrite IH by exact H2. destruct x; discriminate H1 || reflexivity.
  Qed.
  Lemma closes_plains : forall w bo, forallb okc w = true -> closes nlM d w bo -> plains opens bo.
  Proof.
    intros w bo H F. specialize (F [] [] [] I). rewrite !app_nil_r in F. destruct F as (f & ts & L & B).
    - exists 1, []. split; [reflexivity|]. unfold bindd. destruct (pg d); reflexivity.
    - pose proof (lex_words f w ts H L) as O. rewrite (okt_bind ts bo O B). now apply okt_plains.
  Qed.
  Lemma fixes_plains : forall w bo, forallb okc w = true -> fixes nlM d w bo -> plains opens bo.
  Proof. intros w bo H F. apply (closes_plains w bo H). intros t args us _. apply F. Qed.
  Lemma infix_ok : forall o w, In (o, w) infix_words -> forallb okc w = true /\ proper w.
  Proof.
    intros o w H. assert (A : forallb (fun p => forallb okc (snd p) && forallb (fun c => negb (is_mark c)) (snd p)) infix_words = true) by reflexivity.
    rewrite forallb_forall in A. specialize (A _ H). now apply andb_prop in A.
  Qed.
  Lemma pred_ok : forall o w, In (o, w) pred_words -> forallb okc w = true /\ proper w.
  Proof. intros o w H. apply (infix_ok o w). apply in_or_app. now left. Qed.

  (** ** The induction *)
  Definition same5 (e : expr) (c : option nat) (k : nat) (subs : list nested) (dd : option sql) (xs : list sql) : Prop :=
    forall w R env S, at_ k subs S -> option_map (sql_means w (view w R env S)) dd = fst (EP w R [] env c e) /\ map (sql_means w (view w R env S)) xs = snd (EP w R [] env c e).
  Definition sameW5 (e : expr) (c : option nat) (k : nat) (subs : list nested) (a : sql) : Prop :=
    forall w R env S, at_ k subs S -> sql_means w (view w R env S) a = whole2 w (EP w R [] env c e).
  Definition fine5 (e : expr) : Prop := simple3 lo e = true -> forall c n ps, tree_of lo e = Some n -> emit c n ps ->
    exists ps' bts, spells ps ps' /\ LL ps' bts /\ bal opens bts /\
      forall k, exists cts subs dd xs, Cut opens k bts cts subs /\ good4 e cts dd xs /\ same5 e c k subs dd xs.
  Lemma same5_whole : forall e c k subs dd xs, same5 e c k subs dd xs -> sameW5 e c k subs (sor dd (jn xs)).
  Proof.
    intros e c k subs dd xs H w R env S A. destruct (H w R env S A) as [H1 H2]. unfold whole2. destruct (EP w R [] env c e) as [d' a']. cbn [fst snd] in H1, H2. subst.
    destruct dd as [dd|]; cbn [sor option_map sql_means]; now rewrite sm_jn.
  Qed.
  Lemma use_prime5 : forall e, fine5 e -> prime e = true -> simple3 lo e = true -> forall c n ps, tree_of lo e = Some n -> emit c n ps ->
    exists ps' bts, spells ps ps' /\ LL ps' bts /\ bal opens bts /\
      forall k, exists cts subs a, Cut opens k bts cts subs /\ (forall rest, R GPrim (cts ++ rest) (a, rest)) /\ (forall rest, no_word #"not" (cts ++ rest)) /\ sameW5 e c k subs a.
  Proof.
    intros e H Hp Hn c n ps T K. destruct (H Hn c n ps T K) as (ps' & bts & X1 & X2 & X3 & X4). exists ps', bts. split; [exact X1|]. split; [exact X2|]. split; [exact X3|]. intro k.
    destruct (X4 k) as (cts & subs & dd & xs & C & G1 & S1). destruct (k_prim _ _ _ _ G1 Hp) as (-> & a & -> & P1 & P2). exists cts, subs, a. split; [exact C|]. split; [exact P1|]. split; [exact P2|].
    exact (same5_whole e c k subs None [a] S1).
  Qed.
  Lemma use_whole5 : forall e, fine5 e -> simple3 lo e = true -> forall c n ps, tree_of lo e = Some n -> emit c n ps ->
    exists ps' bts, spells ps ps' /\ LL ps' bts /\ bal opens bts /\
      forall k, exists cts subs a, Cut opens k bts cts subs /\
        (forall rest, stops rest -> no_word #"and" rest -> (forall w us, rest = TWord w :: us -> streq w #"or" = false) -> R GOr (cts ++ rest) (a, rest)) /\ sameW5 e c k subs a.
  Proof.
    intros e H Hn c n ps T K. destruct (H Hn c n ps T K) as (ps' & bts & X1 & X2 & X3 & X4). exists ps', bts. split; [exact X1|]. split; [exact X2|]. split; [exact X3|]. intro k.
    destruct (X4 k) as (cts & subs & dd & xs & C & G1 & S1). exists cts, subs, (sor dd (jn xs)). split; [exact C|]. split; [|now apply same5_whole].
    intros rest S N O. apply (good4_whole _ _ _ _ G1); [exact S|exact N|]. apply R_or_end. destruct rest as [|[] ?]; try exact I. cbn. now apply (O w rest).
  Qed.

  Lemma vtok_plains : forall v, plains opens [vtok dis v].
  Proof. intro v. unfold plains, vtok. destruct (dis && is_nil v); reflexivity. Qed.
  Lemma n_lit : forall l, fine5 (EVal (VLit l)).
  Proof.
    intros l _ c n ps T H. injection T as <-. apply (emit_lit edge_sql heap d dis c l) in H. subst. exists [scalar_piece dis (lit_value l)], [vtok dis (lit_value l)].
    split; [apply spells_scalar|]. split; [apply (LE_scalar nlM ident_sql d col _ QM), lit_no_float|]. split; [apply plains_bal, vtok_plains|]. intro k.
    exists [vtok dis (lit_value l)], [], None, [QVal (lit_value l)]. split; [apply Cut_plains, vtok_plains|]. split; [|intros w R env S _; now split].
    apply good4_prim; [reflexivity|intro; apply R_vtok|]. intro rest. unfold vtok. destruct (dis && is_nil (lit_value l)); reflexivity || exact I.
  Qed.
  Lemma n_name : forall x, ident x -> fine5 (EName x).
  Proof.
    intros x I0 _ c n ps [= <-] H. inversion H; subst; try noval. assert (M : marked (col x) = false) by now apply QP.
    assert (P : plains opens [TName (col x)]).
    { unfold plains. cbn [forallb plain1 subselect]. destruct (col x) as [|k [|? ?]]; try reflexivity. cbn [marked] in M. now rewrite M. }
    exists [SName x], [TName (col x)]. split; [now apply spells_name|]. split; [now apply (LE_name nlM ident_sql d col _ QM)|]. split; [now apply plains_bal|]. intro k.
    exists [TName (col x)], [], None, [QCol (col x)]. split; [now apply Cut_plains|]. split; [apply good4_prim; [reflexivity|intro; apply R_name|intro; exact I]|].
    intros w R env S _. cbn [sql_means edge_parts map option_map fst snd app]. split; [reflexivity|]. now rewrite view_name.
  Qed.
  Lemma n_paren : forall e, fine5 e -> fine5 (EParen e).
  Proof.
    intros e IH Hn c n ps T H. cbn [simple3] in Hn. cbn [tree_of] in T. injection T as <-. destruct (tree_of lo e) as [m|] eqn:T; [|inversion H; noval].
    apply emits_paren_inv in H as (b & H & ->). destruct (use_whole5 e IH Hn c _ _ T H) as (ps' & bts & X1 & X2 & X3 & X4).
    exists (SFix #"(" :: ps' ++ [SFix #")"]), ([TOpen] ++ bts ++ [TClose]). split; [now apply spells_around|].
    split; [apply (LE_paren nlM ident_sql d col _ QM); [intros t args us; now apply (TK_open nlM _ (other d) (proj1 QM))|exact X2]|]. split; [now apply bal_paren|]. intro k.
    destruct (X4 k) as (cts & subs & a & C & G1 & S1). exists ([TOpen] ++ cts ++ [TClose]), subs, None, [a]. split; [apply Cut_before; [reflexivity|]; now apply Cut_after|].
    split.
    - apply good4_prim; [reflexivity| |intro; exact I]. intro rest. cbn [List.app]. rewrite <- app_assoc. apply R_paren. apply G1; [exact I|exact I|discriminate].
    - intros w R env S A. cbn [edge_parts map option_map fst snd app]. split; [reflexivity|]. f_equal. now apply S1.
  Qed.
  Lemma n_date : forall f args, f <> #"has_edge" -> Forall fine5 args -> fine5 (ECall f args).
  Proof.
    intros f args NE IH Hn c n ps T H. cbn [simple3] in Hn. assert (F : streq f #"has_edge" = false) by (destruct (streq_spec f #"has_edge"); congruence). rewrite F in Hn.
    cbn [tree_of] in T. injection T as <-. apply (emit_call edge_sql heap d dis c) in H as (-> & m & l & b & E & H & ->); [|exact NE].
    destruct args as [|e args]; [discriminate E|]. cbn [map] in E. injection E as T _. cbn [forallb] in Hn. apply andb_prop in Hn as [Hn _].
    inversion_clear IH as [|? ? IH1 _]. destruct (use_whole5 e IH1 Hn c _ _ T H) as (ps' & bts & X1 & X2 & X3 & X4).
    exists (SFix #"DATE(" :: ps' ++ [SFix #")"]), ([TWord #"date"; TOpen] ++ bts ++ [TClose]). split; [now apply spells_around|].
    split; [apply (LE_paren nlM ident_sql d col _ QM); [|exact X2]|].
    - intros t args0 us K. change (#"DATE(" ++ t) with (#"DATE" ++ #"(" ++ t). apply (TK_word nlM _ (other d) (proj1 QM) #"DATE"); [discriminate|reflexivity|reflexivity|].
      now apply (TK_open nlM _ (other d) (proj1 QM)).
    - split; [apply (bal_app opens [TWord #"date"] ([TOpen] ++ bts ++ [TClose])); [now apply plains_bal|now apply bal_paren]|]. intro k.
      destruct (X4 k) as (cts & subs & a & C & G1 & S1). exists ([TWord #"date"; TOpen] ++ cts ++ [TClose]), subs, None, [QDate a]. split; [apply Cut_before; [reflexivity|]; now apply Cut_after|]. split.
      + apply good4_prim; [reflexivity| |intro; reflexivity]. intro rest. cbn [List.app]. rewrite <- app_assoc. apply R_date. apply G1; [exact I|exact I|discriminate].
      + intros w R env S A. cbn [edge_parts map option_map fst snd sql_means app]. rewrite F. cbn [map option_map fst snd app]. split; [reflexivity|]. f_equal. f_equal. now apply S1.
  Qed.
  Lemma n_not : forall e, level e <= 4 -> fine5 e -> fine5 (ENot e).
  Proof.
    intros e LV IH Hn c n ps T H. cbn [simple3] in Hn. cbn [tree_of] in T. injection T as <-. destruct (tree_of lo e) as [m|] eqn:T; [|inversion H; noval].
    apply emits_not_inv in H as (b & H & ->). destruct (IH Hn c _ _ T H) as (ps' & bts & X1 & X2 & X3 & X4).
    exists (SFix #"NOT " :: ps'), ([TWord #"not"] ++ bts). split; [apply (spells_app [SFix #"NOT "] [SFix #"NOT "]); [now apply spells_fix|exact X1]|]. split; [apply (LE_prefix nlM ident_sql d); [|exact X2]|].
    - intros t args us K. change (#"NOT " ++ t) with (#"NOT" ++ #" " ++ t). apply (TK_word nlM _ (other d) (proj1 QM) #"NOT"); [discriminate|reflexivity|reflexivity|].
      now apply (TK_blank nlM _ (proj1 QM)).
    - split; [apply bal_app; [now apply plains_bal|exact X3]|]. intro k. destruct (X4 k) as (cts & subs & dd & xs & C & G1 & S1). destruct (k_chain _ _ _ _ G1 ltac:(lia)) as [-> Ch].
      destruct xs as [|x xs]; [now destruct (chain_nonempty _ _ Ch)|]. exists ([TWord #"not"] ++ cts), subs, None, (QNot x :: xs). split; [now apply Cut_before|]. split.
      + apply good4_chain; [cbn; lia|reflexivity|]. now apply chain_not.
      + intros w R env S A. destruct (S1 w R env S A) as [Y1 Y2]. cbn [edge_parts fst snd app]. split; [reflexivity|]. unfold ands. destruct (EP w R [] env c e) as [d' a']. cbn [fst snd option_map] in Y1, Y2. subst d' a'. reflexivity.
  Qed.
  Lemma n_pred : forall e o, fine5 e -> fine5 (EPred e o).
  Proof.
    intros e o IH Hn c n ps T H. cbn [simple3] in Hn. apply andb_prop in Hn as [Hn Ho]. apply andb_prop in Hn as [Hn _]. apply andb_prop in Hn as [Hn Hp]. cbn [tree_of] in T. injection T as <-. destruct (tree_of lo e) as [m|] eqn:T; [|inversion H; noval].
    apply (emit_pred edge_sql heap d dis c) in H as (w & b & I1 & H & ->). cbn [nOperation mk_op] in I1. destruct (pred_ok _ _ I1) as [W1 W2].
    destruct (read_predE lo nlM ident_sql d col QM o w I1 (pred_named lo o w I1 Ho)) as (bo & F & B & R2). pose proof (closes_plains w bo W1 F) as PB.
    destruct (use_prime5 e IH Hp Hn c _ _ T H) as (ps' & bts & X1 & X2 & X3 & X4).
    exists (ps' ++ [SFix w]), (bts ++ bo). split; [apply spells_app; [exact X1|now apply spells_fix]|]. split; [now apply (LE_suffix nlM ident_sql d)|]. split; [apply bal_app; [exact X3|now apply plains_bal]|]. intro k.
    destruct (X4 k) as (cts & subs & a & C & G1 & G2 & S1). exists (cts ++ bo), subs, None, [QPred (op_sql lo o) a]. split; [apply Cut_after; [now apply plains_subs|exact C]|]. split.
    - apply (good4_more _ cts a); [exact G1|exact G2|cbn; lia|reflexivity|]. intros rest S. apply R2.
    - intros w0 R env S A. cbn [edge_parts map option_map fst snd sql_means app]. split; [reflexivity|]. f_equal. f_equal. now apply S1.
  Qed.
  Lemma n_cmp : forall l o r, fine5 l -> fine5 r -> fine5 (ECmp l o r).
  Proof.
    intros l o r IH1 IH2 Hn c n ps T H. cbn [simple3] in Hn. apply andb_prop in Hn as [Hn Ho]. apply andb_prop in Hn as [Hn1 Hn2].
    apply andb_prop in Hn1 as [Hn1 _]. apply andb_prop in Hn1 as [Hn1 Hl]. apply andb_prop in Hn2 as [Hn2 _]. apply andb_prop in Hn2 as [Hn2 Hr].
    cbn [tree_of] in T. injection T as <-. destruct (tree_of lo l) as [ml|] eqn:T1; [|inversion H; noval]. destruct (tree_of lo r) as [mr|] eqn:T2; [|inversion H; noval].
    apply (emit_cmp edge_sql heap d dis c) in H as (w & pa & pb & I1 & H1 & H2 & ->). cbn [nOperation mk_op] in I1. destruct (infix_ok _ _ I1) as [W1 W2].
    destruct (read_cmpE lo nlM ident_sql edge_sql d dis col QM o w I1 Ho) as (bo & F & B & R3). pose proof (fixes_plains w bo W1 F) as PB.
    destruct (use_prime5 l IH1 Hl Hn1 c _ _ T1 H1) as (p1 & b1 & X1 & X2 & X3 & X4). destruct (use_prime5 r IH2 Hr Hn2 c _ _ T2 H2) as (p2 & b2 & Y1 & Y2 & Y3 & Y4).
    exists (p1 ++ SFix w :: p2), (b1 ++ bo ++ b2). split; [now apply spells_infix|]. split; [now apply (LE_infix nlM ident_sql d)|].
    split; [apply bal_app; [exact X3|]; apply bal_app; [now apply plains_bal|exact Y3]|]. intro k.
    destruct (X4 k) as (c1 & s1 & a1 & C1 & G1 & G1' & S1). destruct (Y4 (k + length s1)) as (c2 & s2 & a2 & C2 & G2 & G2' & S2).
    exists (c1 ++ bo ++ c2), (s1 ++ s2), None, [QCmp (op_sql lo o) a1 a2]. split; [apply Cut_app; [exact C1|]; apply Cut_before; [now apply plains_subs|exact C2]|]. split.
    - apply (good4_more _ c1 a1); [exact G1|exact G1'|cbn; lia|reflexivity|]. intros rest S. rewrite <- app_assoc. apply R3. apply G2.
    - intros w0 R env S A. apply at_app in A as [A1 A2]. cbn [edge_parts map option_map fst snd sql_means app]. split; [reflexivity|]. f_equal. f_equal; [now apply S1|now apply S2].
  Qed.
  Lemma ctoks_plains : forall vs, plains opens (ctoks vs).
  Proof.
    assert (V : forall v, plains opens [vtok true v]) by (intro v; unfold plains, vtok; destruct v; reflexivity).
    induction vs as [|v vs IH]; [reflexivity|]. destruct vs as [|v' vs]; [apply V|]. change (ctoks (v :: v' :: vs)) with ([vtok true v] ++ [TComma] ++ ctoks (v' :: vs)).
    apply plains_app; [apply V|]. apply plains_app; [reflexivity|exact IH].
  Qed.
  Lemma n_in : forall e o p ls, fine5 e -> fine5 (EIn e o p ls).
  Proof.
    intros e o p ls IH Hn c n ps T H. cbn [simple3] in Hn. apply andb_prop in Hn as [Hn Hz]. apply andb_prop in Hn as [Hn Ho]. apply andb_prop in Hn as [Hn _]. apply andb_prop in Hn as [Hn Hp].
    assert (NE : map lit_value ls <> []) by (destruct ls; [discriminate Hz|discriminate]).
    cbn [tree_of] in T. injection T as <-. destruct (tree_of lo e) as [m|] eqn:T; [|inversion H; noval].
    apply (emit_cmp edge_sql heap d dis c) in H as (w & pa & pb & I1 & H1 & H2 & ->). cbn [nOperation mk_op] in I1. destruct (infix_ok _ _ I1) as [W1 W2].
    destruct (read_inE lo nlM ident_sql d col QM o w I1 Ho) as (bo & F & B & R3). apply (emit_arr edge_sql heap d dis c p) in H2. subst pb. pose proof (fixes_plains w bo W1 F) as PB.
    destruct (use_prime5 e IH Hp Hn c _ _ T H1) as (p1 & b1 & X1 & X2 & X3 & X4).
    set (inn := [TOpen] ++ ctoks (map lit_value ls) ++ [TClose]).
    exists (p1 ++ SFix w :: SFix #"(" :: commas (map lit_value ls) ++ [SFix #")"]), (b1 ++ bo ++ inn).
    split; [apply spells_infix; [exact W2|exact X1|]; apply spells_around; [reflexivity|reflexivity|apply spells_commas]|]. split.
    { apply (LE_infix nlM ident_sql d); [exact F|exact B|exact X2|]. apply (LE_paren nlM ident_sql d col _ QM); [intros t args us; now apply (TK_open nlM _ (other d) (proj1 QM))|].
      apply (LE_commas nlM ident_sql d col _ QM); [exact NE|apply lits_no_float]. }
    split; [apply bal_app; [exact X3|]; apply bal_app; [now apply plains_bal|]; apply bal_paren, plains_bal, ctoks_plains|]. intro k.
    destruct (X4 k) as (c1 & s1 & a1 & C1 & G1 & G1' & S1).
    exists (c1 ++ bo ++ inn), s1, None, [QCmp (op_sql lo o) a1 (QList (map QVal (map lit_value ls)))]. split; [|split].
    - apply Cut_after; [|exact C1]. rewrite forallb_app, (plains_subs opens bo PB). unfold inn. rewrite !forallb_app, (plains_subs opens _ (ctoks_plains _)). reflexivity.
    - apply (good4_more _ c1 a1); [exact G1|exact G1'|cbn; lia|reflexivity|]. intros rest S. rewrite <- app_assoc. apply R3.
      unfold inn. cbn [List.app]. rewrite <- app_assoc. now apply R_values.
    - intros w0 R env S A. cbn [edge_parts map option_map fst snd sql_means app]. split; [reflexivity|]. f_equal. f_equal; [now apply S1|]. f_equal. now rewrite map_map.
  Qed.
  Lemma n_between : forall e o b x y, fine5 e -> fine5 (EBetween e o b x y).
  Proof.
    intros e o b x y IH Hn c n ps T H. cbn [simple3] in Hn. apply andb_prop in Hn as [Hn Hy]. apply andb_prop in Hn as [Hn Hx]. apply andb_prop in Hn as [Hn Ho]. apply andb_prop in Hn as [Hn _]. apply andb_prop in Hn as [Hn Hp].
    destruct x as [x|]; [|discriminate]. destruct y as [y|]; [|discriminate]. cbn [tree_of] in T. injection T as <-. destruct (tree_of lo e) as [m|] eqn:T; [|inversion H; noval].
    apply emits_between_inv in H as (pa & px & py & H & Kx & Ky & K). apply (emit_lit edge_sql heap d dis c x) in Kx. apply (emit_lit edge_sql heap d dis c y) in Ky. subst px py. cbn [nOperation mk_op] in K.
    destruct (use_prime5 e IH Hp Hn c _ _ T H) as (p1 & b1 & X1 & X2 & X3 & X4).
    assert (S : forall z, In z cmp_syms -> fixes nlM d (#" " ++ z ++ #" ") [TSym z]).
    { intros z I0. apply (fix_padded nlM ident_sql d col _ QM). now apply (close_sym nlM ident_sql d col _ QM). }
    assert (PW : forall z, In z cmp_syms -> proper (#" " ++ z ++ #" ")) by (intros z I0; cbn [In cmp_syms] in I0; decompose [or] I0; subst; (reflexivity || contradiction)).
    set (vx := vtok dis (lit_value x)). set (vy := vtok dis (lit_value y)).
    assert (D : forall u v, In u cmp_syms -> In v cmp_syms ->
      exists ps' bts, spells (pa ++ SFix (#" " ++ u ++ #" ") :: [scalar_piece dis (lit_value x)] ++ SFix #" AND " :: pa ++ SFix (#" " ++ v ++ #" ") :: [scalar_piece dis (lit_value y)]) ps' /\
        LL ps' bts /\ bal opens bts /\ forall k, exists cts subs xs, Cut opens k bts cts subs /\ good4 (EBetween e o b (VLit x) (VLit y)) cts None xs /\
          forall w R env S, at_ k subs S -> map (sql_means w (view w R env S)) xs = [wCmp w u (whole2 w (EP w R [] env c e)) (wVal w (lit_value x)); wCmp w v (whole2 w (EP w R [] env c e)) (wVal w (lit_value y))]).
    { intros u v U V. set (sx := [scalar_piece dis (lit_value x)]). set (sy := [scalar_piece dis (lit_value y)]).
      exists ((p1 ++ SFix (#" " ++ u ++ #" ") :: sx) ++ SFix #" AND " :: p1 ++ SFix (#" " ++ v ++ #" ") :: sy), ((b1 ++ [TSym u] ++ [vx]) ++ [TWord #"and"] ++ (b1 ++ [TSym v] ++ [vy])).
      split; [|split; [|split]].
      - replace (pa ++ SFix (#" " ++ u ++ #" ") :: sx ++ SFix #" AND " :: pa ++ SFix (#" " ++ v ++ #" ") :: sy)
          with ((pa ++ SFix (#" " ++ u ++ #" ") :: sx) ++ SFix #" AND " :: pa ++ SFix (#" " ++ v ++ #" ") :: sy) by now rewrite <- app_assoc.
        apply spells_infix; [reflexivity| |]; (apply spells_infix; [now apply PW|exact X1|apply spells_scalar]).
      - apply (LE_infix nlM ident_sql d); [apply (fix_pad_word nlM ident_sql d col QM #"AND"); (discriminate || reflexivity)|reflexivity| |].
        + apply (LE_infix nlM ident_sql d); [now apply S|reflexivity|exact X2|]. apply (LE_scalar nlM ident_sql d col _ QM), lit_no_float.
        + apply (LE_infix nlM ident_sql d); [now apply S|reflexivity|exact X2|]. apply (LE_scalar nlM ident_sql d col _ QM), lit_no_float.
      - assert (PV : forall z t, plains opens ([TSym z] ++ [vtok dis t])) by (intros z t; apply plains_app; [reflexivity|apply vtok_plains]).
        apply bal_app; [apply bal_app; [exact X3|apply plains_bal, PV]|]. apply bal_app; [now apply plains_bal|]. apply bal_app; [exact X3|apply plains_bal, PV].
      - intro k. destruct (X4 k) as (c1 & s1 & a1 & C1 & G1 & G1' & S1). destruct (X4 (k + length s1)) as (c2 & s2 & a2 & C2 & G2 & G2' & S2).
        exists ((c1 ++ [TSym u] ++ [vx]) ++ [TWord #"and"] ++ (c2 ++ [TSym v] ++ [vy])), (s1 ++ s2), [QCmp u a1 (QVal (lit_value x)); QCmp v a2 (QVal (lit_value y))].
        assert (PV : forall z t, forallb (fun x => negb (sub x)) ([TSym z] ++ [vtok dis t]) = true) by (intros z t; apply plains_subs, plains_app; [reflexivity|apply vtok_plains]).
        split; [apply Cut_app; [apply Cut_after; [apply PV|exact C1]|apply Cut_before; [reflexivity|]; apply Cut_after; [apply PV|exact C2]]|].
        assert (Z : forall cc aa z t rest, (forall rest, R GPrim (cc ++ rest) (aa, rest)) -> (forall rest, no_word #"not" (cc ++ rest)) -> In z cmp_syms -> stops rest ->
          R GNot ((cc ++ [TSym z] ++ [vtok dis t]) ++ rest) (QCmp z aa (QVal t), rest)).
        { intros cc aa z t rest P1 P2 I0 _. rewrite <- app_assoc. apply R_not_end; [apply P2|]. apply (R_cond _ aa (([TSym z] ++ [vtok dis t]) ++ rest)); [apply P1|].
          cbn [List.app]. apply R_sym; [exact I0|apply R_vtok]. }
        split.
        + apply good4_chain; [cbn; lia|reflexivity|]. apply ch_cons; [intros rest ST; now apply Z|]. apply ch_one. intros rest ST. now apply Z.
        + intros w R env S0 A. apply at_app in A as [A1 A2]. cbn [map sql_means]. now rewrite (S1 w R env S0 A1), (S2 w R env S0 A2). }
    destruct K as [[K ->]|[K ->]].
    - destruct (D #">=" #"<=" ltac:(cbn; tauto) ltac:(cbn; tauto)) as (ps' & bts & D1 & D2 & D3 & D4). exists ps', bts. split; [exact D1|]. split; [exact D2|]. split; [exact D3|]. intro k.
      destruct (D4 k) as (cts & subs & xs & E1 & E2 & E3). exists cts, subs, None, xs. split; [exact E1|]. split; [exact E2|]. intros w R env S0 A. rewrite (E3 w R env S0 A).
      assert (E : streq (op_sql lo o) #"not between" = false).
      { apply existsb_streq in Ho. destruct Ho as [Ho|[Ho|[]]]; [now rewrite <- Ho|]. exfalso. unfold op_sql in Ho. destruct (find _ sql_word) as [[kk s]|] eqn:F; [|now apply K].
        apply find_some in F as [F _]. subst s. clear - F. unfold sql_word in F. cbn [In] in F. decompose [or] F; (contradiction || (match goal with X : (_, _) = (_, _) |- _ => injection X as _ X; discriminate X end)). }
      cbn [edge_parts fst snd app val_value option_map]. now rewrite E.
    - destruct (D #"<" #">" ltac:(cbn; tauto) ltac:(cbn; tauto)) as (ps' & bts & D1 & D2 & D3 & D4). exists ps', bts. split; [exact D1|]. split; [exact D2|]. split; [exact D3|]. intro k.
      destruct (D4 k) as (cts & subs & xs & E1 & E2 & E3). exists cts, subs, None, xs. split; [exact E1|]. split; [exact E2|]. intros w R env S0 A. rewrite (E3 w R env S0 A).
      assert (E : streq (op_sql lo o) #"not between" = true) by (unfold op_sql; now rewrite K). cbn [edge_parts fst snd app val_value option_map]. now rewrite E.
  Qed.
  Lemma ands5 : forall r c k subs xs, same5 r c k subs None xs -> forall w R env S, at_ k subs S -> map (sql_means w (view w R env S)) xs = ands w (EP w R [] env c r).
  Proof.
    intros r c k subs xs H w R env S A. destruct (H w R env S A) as [X1 X2]. unfold ands. destruct (EP w R [] env c r) as [d' a']. cbn [fst snd option_map] in X1, X2. now subst.
  Qed.
  Lemma n_logic : forall l o r, op_logic o -> level r <= 5 -> fine5 l -> fine5 r -> fine5 (ELogic l o r).
  Proof.
    intros l o r OP LV IH1 IH2 Hn c n ps T H. cbn [simple3] in Hn. apply andb_prop in Hn as [Hn1 Hn2].
    cbn [tree_of] in T. injection T as <-. destruct (tree_of lo l) as [ml|] eqn:T1; [|inversion H; noval]. destruct (tree_of lo r) as [mr|] eqn:T2; [|inversion H; noval].
    apply emits_logic_inv in H as (w & pa & pb & I1 & H1 & H2 & ->). cbn [nOperation mk_op] in I1. apply (logic_word lo o w OP) in I1. subst w.
    destruct (IH1 Hn1 c _ _ T1 H1) as (p1 & b1 & X1 & X2 & X3 & X4). destruct (IH2 Hn2 c _ _ T2 H2) as (p2 & b2 & Y1 & Y2 & Y3 & Y4).
    destruct (is_or o) eqn:E.
    - exists (p1 ++ SFix #" OR " :: p2), (b1 ++ [TWord #"or"] ++ b2). split; [now apply spells_infix|].
      split; [apply (LE_infix nlM ident_sql d); [apply (fix_pad_word nlM ident_sql d col QM #"OR"); (discriminate || reflexivity)|reflexivity|exact X2|exact Y2]|].
      split; [apply bal_app; [exact X3|]; apply bal_app; [now apply plains_bal|exact Y3]|]. intro k.
      destruct (X4 k) as (c1 & s1 & d1 & xs1 & C1 & G1 & S1). destruct (Y4 (k + length s1)) as (c2 & s2 & d2 & xs2 & C2 & G2 & S2). destruct (k_chain _ _ _ _ G2 LV) as [-> Ch2].
      exists (c1 ++ [TWord #"or"] ++ c2), (s1 ++ s2), (Some (sor d1 (jn xs1))), xs2. split; [apply Cut_app; [exact C1|]; now apply Cut_before|].
      split; [constructor; [discriminate|exact (k_some _ _ _ _ G2)|cbn; lia|]|].
      + intros rest b us x S K1 K2. rewrite <- !app_assoc. apply (good4_whole _ _ _ _ G1); [reflexivity|reflexivity|]. cbn [List.app]. apply (R_or_more _ _ b us); [|exact K2].
        now apply (chain_and c2 xs2).
      + intros w R env S A. apply at_app in A as [A1 A2]. cbn [edge_parts]. rewrite E. cbn [fst snd option_map]. split; [f_equal; now apply (same5_whole l c k s1 d1 xs1)|now apply (ands5 r c (k + length s1) s2)].
    - exists (p1 ++ SFix #" AND " :: p2), (b1 ++ [TWord #"and"] ++ b2). split; [now apply spells_infix|].
      split; [apply (LE_infix nlM ident_sql d); [apply (fix_pad_word nlM ident_sql d col QM #"AND"); (discriminate || reflexivity)|reflexivity|exact X2|exact Y2]|].
      split; [apply bal_app; [exact X3|]; apply bal_app; [now apply plains_bal|exact Y3]|]. intro k.
      destruct (X4 k) as (c1 & s1 & d1 & xs1 & C1 & G1 & S1). destruct (Y4 (k + length s1)) as (c2 & s2 & d2 & xs2 & C2 & G2 & S2). destruct (k_chain _ _ _ _ G2 LV) as [-> Ch2].
      exists (c1 ++ [TWord #"and"] ++ c2), (s1 ++ s2), d1, (xs1 ++ xs2). split; [apply Cut_app; [exact C1|]; now apply Cut_before|].
      split; [constructor; [discriminate|pose proof (k_some _ _ _ _ G1); now destruct xs1|cbn; lia|]|].
      + intros rest b us x S K1 K2. rewrite <- !app_assoc. apply (k_or _ _ _ _ G1 _ b us); [reflexivity| |exact K2]. cbn [List.app]. apply (chain_more c2 xs2 Ch2); [exact S|].
        assert (J : jn (xs1 ++ xs2) = fold_left QAnd xs2 (jn xs1)).
        { destruct xs1 as [|z xs1]; [|unfold jn; cbn [joined List.app]; now rewrite fold_left_app]. now destruct (k_some _ _ _ _ G1). }
        now rewrite <- J.
      + intros w R env S A. apply at_app in A as [A1 A2]. cbn [edge_parts]. rewrite E. cbn [fst snd option_map]. destruct (S1 w R env S A1) as [Z1 Z2]. split; [exact Z1|]. rewrite map_app.
        f_equal; [exact Z2|now apply (ands5 r c (k + length s1) s2)].
  Qed.
End N5.
