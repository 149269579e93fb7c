(** Proofs for C90: the condition of an edge. *)
From Verif Require Import Base Peg Node Vocab Tree Parse Syntax Blank ParseProofs NormProofs Unique ParserFacts ParserFacts2 ParserMain Build BuildProofs NodeFacts SafeInd
  Gorm GormSpec GormProofs GormFacts GormFacts2 GormFacts3 GormFacts4 TreeFacts EntSQL EntSQLSpec EntSQLProofs EntSQLFacts EntSQLFacts2 SqlSpec SqlProofs SqlProofs2 SqlProofs3 SqlGorm SqlDialect
  SqlSpecDb SqlDbFacts SqlSpecEntDb SqlLoose SqlEnt EntSQLFacts3 SqlEntLoose SqlEntDbFacts SqlSpecWhere SqlWhere3 EntWhere SqlSpecEntWhere SqlEntWhere EdgeSpec.
Require Import Lia.
Strategy expand [parse_machine rule_trace].
Strategy 1000 [parse_fuel mrun tok_trace].

Section E.
  Variable lo : N -> N.
  Variable edge_sql : bool -> list N -> gnode -> gspec -> gnode -> option (list N * list N).
  Variable heap : nat -> gnode.
  Variable d : list N.
  Variable dis : bool.
  Notation emit := (emits edge_sql heap d dis).
  (** the pieces of the condition inside those of the query *)
  Definition within (P : list spiece) (c : nat) (p : list N) (e : expr) : Prop :=
    exists t s1 s2 m ps A B, P = A ++ SEdge s1 :: ps ++ SEdge s2 :: B /\ edge_to edge_sql heap d true c p t s1 s2 /\ tree_of lo e = Some m /\ emit (Some t) m ps.
  Lemma within_around : forall X P Y c p e, within P c p e -> within (X ++ P ++ Y) c p e.
  Proof.
    intros X P Y c p e (t & s1 & s2 & m & ps & A & B & -> & H). exists t, s1, s2, m, ps, (X ++ A), (B ++ Y). split; [|exact H].
    rewrite <- !app_assoc. cbn [app]. now rewrite <- !app_assoc.
  Qed.
  Lemma within_l : forall P Y c p e, within P c p e -> within (P ++ Y) c p e.
  Proof. intros P Y c p e H. exact (within_around [] P Y c p e H). Qed.
  Lemma within_r : forall X P c p e, within P c p e -> within (X ++ P) c p e.
  Proof. intros X P c p e H. rewrite <- (app_nil_r P). now apply within_around. Qed.
  Ltac noval := match goal with K : go_value _ _ |- _ => apply go_value_type in K; discriminate K end.

  Lemma asks_within : forall n E c p e, asks heap n E c p e -> forall m P, tree_of lo E = Some m -> emit n m P -> within P c p e.
  Proof.
    induction 1 as [c p e|n p E t s c p' e Ha H IH|n E c p e H IH|n E c p e H IH|n E more c p e H IH|n E o c p e H IH|n E o tr ls c p e H IH|n E o f a b c p e H IH|n l o r c p e H IH|n l o r c p e H IH|n l o r c p e H IH|n l o r c p e H IH];
      intros m P T M; cbn [tree_of map] in T; injection T as <-.
    - inversion M; subst; try noval. cbn [nName mk_ident] in *.
      eexists _, _, _, _, _, [], []. split; [reflexivity|]. split; [eassumption|]. split; [symmetry; eassumption|assumption].
    - inversion M; subst; try noval. cbn [nName mk_ident] in *.
      match goal with K : edge_to _ _ _ true n p ?t2 _ _, F : emits _ _ _ _ (Some ?t2) _ ?ps, Q : Some _ = tree_of lo E |- _ =>
        symmetry in Q; assert (t2 = t) as -> by (destruct K as (spec & K & _); rewrite Ha in K; now injection K); pose proof (IH _ _ Q F) as W end.
      change (SEdge s1 :: ps ++ [SEdge s2]) with ([SEdge s1] ++ ps ++ [SEdge s2]). now apply within_around.
    - inversion M; subst; try noval. match goal with Q : Some _ = tree_of lo E, F : emits _ _ _ _ n _ ?ps |- _ => symmetry in Q; pose proof (IH _ _ Q F) as W end.
      now apply (within_around [SFix #"("] ps [SFix #")"]).
    - inversion M; subst; try noval. match goal with Q : Some _ = tree_of lo E, F : emits _ _ _ _ n _ ?ps |- _ => symmetry in Q; pose proof (IH _ _ Q F) as W end.
      now apply (within_r [SFix #"NOT "] ps).
    - inversion M; subst; try noval. match goal with Q : Some _ = tree_of lo E, F : emits _ _ _ _ n _ ?ps |- _ => symmetry in Q; pose proof (IH _ _ Q F) as W end.
      now apply (within_around [SFix #"DATE("] ps [SFix #")"]).
    - inversion M; subst; try noval. match goal with Q : Some _ = tree_of lo E, F : emits _ _ _ _ n _ _ |- _ => symmetry in Q; pose proof (IH _ _ Q F) as W end. now apply within_l.
    - inversion M; subst; try noval. match goal with Q : Some _ = tree_of lo E, F : emits _ _ _ _ n ?l ?ps, F0 : emits _ _ _ _ n ?r _ |- within (?ps ++ _) _ _ _ => symmetry in Q; pose proof (IH _ _ Q F) as W end. now apply within_l.
    - inversion M; subst; try noval; match goal with Q : Some ?l = tree_of lo E, F : emits _ _ _ _ n ?l ?ps |- within (?ps ++ _) _ _ _ => symmetry in Q; pose proof (IH _ _ Q F) as W end; now apply within_l.
    - inversion M; subst; try noval. match goal with Q : Some ?l = tree_of lo _, F : emits _ _ _ _ n ?l ?ps |- within (?ps ++ _) _ _ _ => symmetry in Q; pose proof (IH _ _ Q F) as W end. now apply within_l.
    - inversion M; subst; try noval. match goal with Q : Some ?l = tree_of lo r, F : emits _ _ _ _ n ?l ?ps |- within (_ ++ _ :: ?ps) _ _ _ => symmetry in Q; pose proof (IH _ _ Q F) as W end. apply within_r. now apply (within_r [SFix w]).
    - inversion M; subst; try noval. match goal with Q : Some ?l = tree_of lo _, F : emits _ _ _ _ n ?l ?ps |- within (?ps ++ _) _ _ _ => symmetry in Q; pose proof (IH _ _ Q F) as W end. now apply within_l.
    - inversion M; subst; try noval. match goal with Q : Some ?l = tree_of lo r, F : emits _ _ _ _ n ?l ?ps |- within (_ ++ _ :: ?ps) _ _ _ => symmetry in Q; pose proof (IH _ _ Q F) as W end. apply within_r. now apply (within_r [SFix w]).
  Qed.
  Lemma lays_in : forall es t, lays es t -> forall e, In e es -> exists t', lay e t'.
  Proof. induction 1 as [e t H|e t w1 w2 es ts H _ _ _ IH]; intros x [<-|K]; eauto. destruct K. Qed.
  Lemma asks_lay : forall n E c p e, asks heap n E c p e -> forall t, lay E t -> exists t', lay e t'.
  Proof.
    induction 1 as [c p e|n p E t s c p' e Ha H IH|n E c p e H IH|n E c p e H IH|n E more c p e H IH|n E o c p e H IH|n E o tr ls c p e H IH|n E o f a b c p e H IH|n l o r c p e H IH|n l o r c p e H IH|n l o r c p e H IH|n l o r c p e H IH];
      intros tx L; inversion L; subst; eauto;
      match goal with K : lays (?x :: ?es) _ |- _ => pose proof (lays_in _ _ K) as LI end; try (apply LI; cbn; now auto);
      match goal with |- _ => (destruct (LI E) as (? & ?); [cbn; now auto|]; now eauto) end.
  Qed.
End E.

Section Rd.
  Variable lo : N -> N.
  Variable nl : list N -> option (list N * list N).
  Variable ident_sql : list N -> list N -> list N.
  Variable edge_sql : bool -> list N -> gnode -> gspec -> gnode -> option (list N * list N).
  Variable heap : nat -> gnode.
  Variable d : list N.
  Variable dis : bool.
  Variable nd : option nat.
  Variable col : list N -> list N.
  Hypothesis Q : quotes nl (ident_sql d) col ident.

  Lemma tokens_read : forall t args bts a, tokens nl d t args bts -> R GOr bts (a, []) -> reads_sql nl d t args a.
  Proof.
    intros t args bts a (h & ts & K1 & K2) (g & RD). unfold reads_sql, numbered in *. destruct (streq d #"postgres");
      (exists (max h g), ts, bts; split; [apply (lex_fuel nl h); [lia|exact K1]|]; split; [exact K2|]; apply (rd_fuel g); [lia|exact RD]).
  Qed.
  Lemma tokens_nil : forall X, tokens nl d [] (seen d X []) [].
  Proof. intro X. unfold tokens, seen. exists 1, []. split; [reflexivity|]. now destruct (numbered d). Qed.
  Lemma pieces_tokens : forall ps bts X, LE nl ident_sql d ps bts -> tokens nl d (sql_of ident_sql d (N.of_nat (length X)) ps) (seen d X (map arg_value (sargs ps))) bts.
  Proof.
    intros ps bts X L. specialize (L X [] [] [] I). rewrite !app_nil_r in L. exact (L (tokens_nil _)).
  Qed.
  Lemma guard_tokens : forall g gs, guards nl d g gs -> exists gts, run gts gs /\ forall args rest br, ends_name rest -> tokens nl d rest args br -> tokens nl d (g ++ rest) args (gts ++ br).
  Proof.
    intros g gs (gts & W & G). exists gts. split; [exact G|]. intros args rest br N K. destruct (W []) as (t & a & E & L). injection E as <- <-. cbn [map app] in L.
    specialize (L args rest br N). unfold seen in L. cbn [app] in L. destruct (numbered d); exact (L K).
  Qed.

  Definition placed (q : list N) (t : list N) (a : list sarg) (c : nat) (p : list N) (e : expr) : Prop :=
    exists tg s1 s2 A T B X Y Z, edge_to edge_sql heap d true c p tg s1 s2 /\ t = A ++ s1 ++ T ++ s2 ++ B /\ a = X ++ Y ++ Z /\
      (exists b, reads_sql nl d T (seen d (map arg_value X) (map arg_value Y)) b /\ forall w row nm, (forall x, nm [x] = row (col x)) -> sql_means w row b = ent_means w lo nm e) /\
      forall pre g gs, s1 = pre ++ g ++ #" AND " -> guards nl d g gs ->
        exists b, reads_sql nl d (g ++ #" AND " ++ T) (seen d (map arg_value X) (map arg_value Y)) b /\
          forall w row nm, (forall x, nm [x] = row (col x)) -> sql_means w row b = led w lo nm (joined (wAnd w) (wVal w GNil) (map (sql_means w row) gs)) e.
  Lemma edge_placed : forall q E m t a c p e, valid_runes q -> reads q E -> json_free E = true ->
    query lo ident_sql edge_sql heap (fresh d dis nd q) = Some (m, (t, a)) -> no_error m -> asks heap nd E c p e -> simple2 lo e = true -> placed q t a c p e.
  Proof.
    intros q E m t a c p e Hq He Hj H HE Ha Hn.
    destruct (query_complete lo ident_sql edge_sql heap d dis nd q m t a Hq H HE) as (n & ps & Hp & K & Et & Ea).
    assert (Hf : fits E = true).
    { destruct (parse_ok_inv lo q _ Hq Hp) as (e2 & H2 & Hf & _). now rewrite (reads_unique _ _ _ He H2). }
    pose proof (parse_spec lo q E Hq He Hf Hj) as Hp'. rewrite Hp in Hp'. injection Hp' as Hp'. symmetry in Hp'. destruct He as (w1 & tx & w2 & _ & _ & _ & Hl).
    destruct (asks_within lo edge_sql heap d dis nd E c p e Ha n ps Hp' K) as (tg & s1 & s2 & me & P & A & B & -> & Hedge & Te & Me).
    destruct (asks_lay heap nd E c p e Ha tx Hl) as (te & Le).
    set (X := sargs A). set (k := N.of_nat (length (map arg_value X))).
    exists tg, s1, s2, (sql_of ident_sql d 0 A), (sql_of ident_sql d k P), (sql_of ident_sql d (k + N.of_nat (length (sargs P))) B), X, (sargs P), (sargs B).
    split; [exact Hedge|]. split; [|split; [|split]].
    - rewrite Et, sql_app. cbn [sql_of]. rewrite sql_app. cbn [sql_of]. unfold k. now rewrite map_length.
    - rewrite Ea, sargs_app. f_equal. change (SEdge s1 :: P ++ SEdge s2 :: B) with ([SEdge s1] ++ P ++ [SEdge s2] ++ B). rewrite !sargs_app. reflexivity.
    - destruct (all_fine4 lo nl ident_sql edge_sql heap d dis (Some tg) col Q e te Le Hn me P Te Me) as (bts & dd & xs & L1 & G1 & S1).
      exists (sor dd (jn xs)). split.
      + apply tokens_read with bts; [exact (pieces_tokens P bts (map arg_value X) L1)|].
        specialize (k_or _ _ _ _ G1 [] (jn xs) [] (sor dd (jn xs), []) I). rewrite app_nil_r. intro R0. apply R0; [now apply R_and_end|now apply R_or_end].
      + intros w row nm A0. destruct (S1 w row nm A0) as [X1 X2]. unfold ent_means, whole2. destruct (ent_parts w lo nm e) as [d' a']. cbn [fst snd] in X1, X2.
        rewrite <- X2, <- sm_jn. destruct dd as [dd|]; cbn [option_map sor sql_means] in *; subst d'; reflexivity.
    - intros pre g gs -> HG. destruct (guard_tokens g gs HG) as (gts & HR & GT).
      destruct (all_fineL lo nl ident_sql edge_sql heap d dis (Some tg) col Q gts gs HR e te Le Hn me P Te Me) as (bts & dd & x & L1 & G1 & S1).
      exists (sor dd x). split.
      + apply tokens_read with (gts ++ TWord #"and" :: bts).
        * apply GT; [reflexivity|]. apply (word_and nl d (proj1 Q)). exact (pieces_tokens P bts (map arg_value X) L1).
        * specialize (G1 [] x [] (sor dd x, []) I). rewrite app_nil_r in G1. apply G1; [now apply R_and_end|now apply R_or_end].
      + intros w row nm A0. destruct (S1 w row nm A0) as [X1 X2]. rewrite sm_jn in X1, X2. unfold led, whole2.
        destruct (led_parts w lo nm _ e) as [d' a']. cbn [fst snd] in X1, X2. rewrite <- X2. destruct dd as [dd|]; cbn [option_map sor sql_means] in *; subst d'; reflexivity.
  Qed.
End Rd.
