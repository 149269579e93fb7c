(** Proofs for C79: conditions of queries, and clauses of several conditions. *)
From Verif Require Import Base Peg Node Vocab Tree Parse Syntax Blank ParseProofs NormProofs Unique ParserFacts ParserFacts2 ParserMain Build BuildProofs NodeFacts SafeInd
  Gorm GormSpec GormProofs GormFacts GormFacts2 GormFacts3 GormFacts4 TreeFacts SqlSpec SqlSpecDb SqlProofs SqlProofs2 SqlProofs3 SqlGorm SqlLoose
  SqlDialect GormSQL SqlSpecWhere SqlWhere SqlWhere2.
Require Import Lia.
Strategy expand [parse_machine rule_trace].
Strategy 1000 [parse_fuel mrun tok_trace].

Lemma mem_app : forall c a b, mem c (a ++ b) = mem c a || mem c b.
Proof. intros. unfold mem. apply existsb_app. Qed.

(** ** Blanks around "and" and "or" *)
Lemma starts_self : forall p t, starts p (p ++ t) = true.
Proof. induction p as [|c p IH]; intro t; [reflexivity|]. cbn [app starts]. now rewrite N.eqb_refl, IH. Qed.
Lemma contains_mid : forall a p b, contains p (a ++ p ++ b) = true.
Proof.
  induction a as [|c a IH]; intros p b.
  - cbn [app]. pose proof (starts_self p b) as H. destruct (p ++ b) as [|x y]; cbn [contains]; now rewrite H.
  - cbn [app contains]. now rewrite IH, Bool.orb_true_r.
Qed.
Lemma spaced_mid : forall upper_hi (isor : bool) a b, spaced upper_hi (a ++ #" " ++ (if isor then #"or" else #"and") ++ #" " ++ b) = true.
Proof.
  intros up isor a b. unfold spaced. rewrite map_app. destruct isor.
  - change (map (upper up) (#" " ++ #"or" ++ #" " ++ b)) with (#" OR " ++ map (upper up) b). now rewrite (contains_mid _ #" OR "), Bool.orb_true_r.
  - change (map (upper up) (#" " ++ #"and" ++ #" " ++ b)) with (#" AND " ++ map (upper up) b). now rewrite (contains_mid _ #" AND ").
Qed.

Section SG.
  Variable fold_eq : list N -> list N -> bool.
  Variable lo : N -> N.
  Variable nl : list N -> option (list N * list N).
  Variable quote : list N -> list N.
  Variable sch : schema.
  Variable d0 : list N.
  Variable up : N -> N.
  Hypothesis Q : quotes nl quote (fun c => c) (is_column fold_eq sch).
  Hypothesis U : unmarked quote (is_column fold_eq sch).
  Notation rend := (renders fold_eq sch).
  Ltac noval := match goal with K : go_value _ _ |- _ => apply go_value_type in K; discriminate K end.

  Lemma unspaced_level : forall e t n ps, lay e t -> tree_of lo e = Some n -> rend n ps -> spaced up (sql_text quote ps) = false -> level e <= 5.
  Proof.
    intros e t n ps H T K S. destruct e as [v|x|xs|xs|f args|e|e o b x y|e o|e o p ls|l o r|e|l o r]; cbn [level]; try lia. exfalso.
    assert (OP : op_logic o) by (inversion H; assumption). cbn [tree_of] in T. injection T as <-. inversion K; subst; try noval.
    match goal with K : rend (mk_op _) _ |- _ => apply (rend_op fold_eq lo sch) in K; subst end. rewrite (logic_op lo o OP) in S.
    rewrite text_app in S. cbn [app] in S. rewrite !text_cons in S.
    rewrite spaced_mid in S. discriminate.
  Qed.
  Lemma values_mark : forall ps, values ps <> [] -> mem 63%N (sql_text quote ps) = true.
  Proof.
    intros ps. induction ps as [|p ps IH]; intro H; [now destruct H|]. change (sql_text quote (p :: ps)) with (sql_text quote ([p] ++ ps)). rewrite text_app, mem_app.
    destruct p as [t|c|v]; [| |reflexivity]; rewrite IH; try apply Bool.orb_true_r; exact H.
  Qed.
  Lemma query_condition : forall q e n ps, reads q e -> simple lo e = true -> listed e = true -> tree_of lo e = Some n -> rend n ps ->
    exists a, conjunct nl d0 up (sql_text quote ps, values ps) a /\
      forall w row nm, lists w -> agrees (wV w) fold_eq sch row nm -> sql_means w row a = db_means w lo nm e.
  Proof.
    intros q e n ps (w1 & t & w2 & _ & _ & _ & Hl) Hn Hd T H.
    destruct (all_fine3 fold_eq lo nl quote sch d0 Q U e t Hl Hn Hd n ps T H) as (bts & d & a & [L1 N1] & G1 & S1). exists (sor d a). split; [|now apply same_whole].
    split.
    - unfold build_condition. cbn [fst snd]. rewrite (no_numeral_number _ N1). destruct (values ps) as [|v vs] eqn:V.
      + destruct (sql_text quote ps); [discriminate|reflexivity].
      + assert (M : mem 63%N (sql_text quote ps) = true) by (apply values_mark; now rewrite V). destruct (sql_text quote ps); now rewrite M.
    - exists bts. split; [|split].
      + intros before pre. cbn [fst snd]. destruct (L1 false before pre) as (f & tx & vs & E & LX). exists tx, vs. split; [|exact LX].
        specialize (E [] []). rewrite !app_nil_r in E. rewrite E. cbn [expr_build sSQL sVars]. now rewrite app_nil_r.
      + intros rest C. assert (NW : forall w, no_word w rest /\ stops rest) by (destruct rest as [|[]]; try contradiction; now split).
        apply (good2_or _ _ _ _ G1); [apply (NW #"and")|apply NW|]. destruct d; apply R_or_end; apply NW.
      + cbn [fst]. intros SP rest C. pose proof (unspaced_level e t n ps Hl T H SP) as LV. destruct G1 as [G1 _]. destruct (G1 (loose_level e LV)) as [-> G].
        cbn [sor]. apply (g_not _ _ _ G); [exact LV|]. destruct rest as [|[]]; try contradiction; try exact I. cbn [ends_conjunct] in C. subst. reflexivity.
  Qed.
End SG.

Section Wire.
  Variable fold_eq : list N -> list N -> bool.
  Variable quote : list N -> list N.
  Variable lo : N -> N.
  Variable nl : list N -> option (list N * list N).
  Variable d0 : list N.
  Variable up : N -> N.
  Lemma wire_condition : forall d q e d' sch, valid_runes q -> reads q e -> simple lo e = true -> listed e = true -> schema_of d = Some sch ->
    quotes nl quote (fun c => c) (is_column fold_eq sch) -> unmarked quote (is_column fold_eq sch) ->
    wire_mini_query fold_eq quote lo d q = Some d' -> succeeded d d' ->
    exists c a, dWheres d' = dWheres d ++ [c] /\ conjunct nl d0 up c a /\
      forall w row nm, lists w -> agrees (wV w) fold_eq sch row nm -> sql_means w row a = db_means w lo nm e.
  Proof.
    intros d q e d' sch Hq He Hn Hd Hs HQ HU H HS. pose proof (simple_json_free lo e Hn) as Hj.
    assert (HP : exists n, parse lo q = Ok n).
    { destruct (parse lo q) as [n|er|] eqn:E; [eauto| |]; exfalso; unfold wire_mini_query in H; destruct q as [|c q].
      - discriminate (reads_not_blank [] e He Hq).
      - rewrite E in H. injection H as <-. unfold succeeded in HS. cbn in HS. now apply app_neq in HS.
      - discriminate (reads_not_blank [] e He Hq).
      - rewrite E in H. discriminate. }
    destruct HP as (p & HP). assert (Hf : fits e = true).
    { destruct (parse_ok_inv lo q _ Hq HP) as (e2 & H2 & Hf & _). now rewrite (reads_unique _ _ _ He H2). }
    pose proof (parse_spec lo q e Hq He Hf Hj) as HP'. destruct (tree_of lo e) as [n|] eqn:T.
    2:{ exfalso. clear - T Hj. destruct e; discriminate. }
    destruct (renders_complete fold_eq quote lo d q n d' Hq HP' H HS) as (sch' & ps & Hs' & K). rewrite Hs in Hs'. injection Hs' as <-.
    destruct (query_condition fold_eq lo nl quote sch d0 up HQ HU q e n ps He Hn Hd T K) as (a & R1 & S1).
    pose proof (renders_sound fold_eq quote lo d sch q n ps Hq HP' Hs K) as E. rewrite H in E. apply some_inj in E. subst d'.
    exists (sql_text quote ps, values ps), a. split; [reflexivity|]. now split.
  Qed.
End Wire.

(** ** Several conditions *)
Section Clause.
  Variable nl : list N -> option (list N * list N).
  Variable d : list N.
  Variable up : N -> N.
  Hypothesis PS : forall c t, unquoted c = true -> nl (c :: t) = None.
  Notation cond := (conjunct nl d up).
  Lemma all_same : forall cs qs, Forall2 cond cs qs -> all_conditions cs = Some cs.
  Proof. intros cs qs H. induction H as [|c q cs qs [E _] _ IH]; [reflexivity|]. cbn [all_conditions]. now rewrite E, IH. Qed.
  (** what one condition among several adds *)
  Lemma one_of_many : forall c a, cond c a -> exists bts,
    (forall before pre, exists t vs, build_one d up true c (Stmt before pre) = Stmt (before ++ t) (pre ++ vs) /\ lexes nl d pre t vs bts) /\
    forall rest, ends_conjunct rest -> R GNot (bts ++ rest) (a, rest).
  Proof.
    intros c a (_ & bts & ST1 & R1 & R2). unfold build_one. cbn [andb]. destruct (spaced up (fst c)) eqn:S.
    - exists (TOpen :: bts ++ [TClose]). split.
      + intros before pre. destruct (ST1 (before ++ #"(") pre) as (t & vs & E & L1). exists (#"(" ++ t ++ #")"), vs. split.
        * unfold put at 2. cbn [sSQL sVars]. rewrite E. unfold put. cbn [sSQL sVars]. now rewrite <- !app_assoc.
        * intros post rest br N K. rewrite <- !app_assoc. cbn [app]. rewrite <- app_assoc. apply (TK_open nl (bindd d) (other d) PS (t ++ #")" ++ rest)). apply L1; [reflexivity|]. now apply (TK_close nl (bindd d) (other d) PS).
      + intros rest C. cbn [app]. rewrite <- app_assoc. apply R_not_end; [exact I|]. apply (R_cond _ a rest).
        * apply R_paren. now apply R1.
        * apply R_cond_end. destruct rest as [|[]]; try contradiction; try exact I. cbn [ends_conjunct] in C. subst. reflexivity.
    - exists bts. split; [exact ST1|]. now apply R2.
  Qed.
  (** the tail of the clause *)
  Lemma tail : forall cs qs, Forall2 cond cs qs -> exists bts,
    (forall before pre, exists t vs, fold_left (fun s c => build_one d up true c (put #" AND " s)) cs (Stmt before pre) = Stmt (before ++ t) (pre ++ vs) /\ lexes nl d pre t vs bts /\
       forall r, ends_name r -> ends_name (t ++ r)) /\
    ends_conjunct bts /\ forall a, R (GAndMore a) bts (fold_left QAnd qs a, []).
  Proof.
    intros cs qs H. induction H as [|c q cs qs C _ (bt & IH1 & IH2 & IH3)].
    - exists []. split; [|split; [exact I|intro a; now apply R_and_end]]. intros before pre. exists [], []. rewrite !app_nil_r. split; [reflexivity|]. split; [|auto]. intros post rest br N K. now rewrite app_nil_r in K.
    - destruct (one_of_many c q C) as (bc & O1 & O2). exists (TWord #"and" :: bc ++ bt). split; [|split; [reflexivity|]].
      + intros before pre. cbn [fold_left]. unfold put at 2. cbn [sSQL sVars]. destruct (O1 (before ++ #" AND ") pre) as (t1 & v1 & E1 & L1). rewrite E1.
        destruct (IH1 ((before ++ #" AND ") ++ t1) (pre ++ v1)) as (t2 & v2 & E2 & L2 & N2). rewrite E2. exists (#" AND " ++ t1 ++ t2), (v1 ++ v2). split; [now rewrite <- !app_assoc|]. split; [|reflexivity].
        pose proof (lexes_app nl d pre t1 v1 bc t2 v2 bt L1 N2 L2) as L3. intros post rest br N K. specialize (L3 post rest br N K). rewrite <- app_assoc.
        change (#" AND " ++ (t1 ++ t2) ++ rest) with (#" " ++ #"AND" ++ #" " ++ (t1 ++ t2) ++ rest). apply (TK_blank nl (bindd d) PS).
        apply (TK_word nl (bindd d) (other d) PS #"AND"); [discriminate|reflexivity|reflexivity|]. now apply (TK_blank nl (bindd d) PS).
      + intro a. cbn [fold_left]. apply (R_and_more a _ q bt); [|apply IH3]. now apply O2.
  Qed.
  Lemma means_fold : forall w row qs a, sql_means w row (fold_left QAnd qs a) = fold_left (wAnd w) (map (sql_means w row) qs) (sql_means w row a).
  Proof. intros w row qs. induction qs as [|q qs IH]; intro a; [reflexivity|]. cbn [fold_left map]. now rewrite IH. Qed.
  Lemma clause_reads : forall db qs, dWheres db <> [] -> Forall2 cond (dWheres db) qs -> exists t vs a, where_clause d up db = Some (t, vs) /\ reads_sql nl d t vs a /\
    forall w row, sql_means w row a = joined (wAnd w) (wVal w GNil) (map (sql_means w row) qs).
  Proof.
    intros db qs NE H. unfold where_clause. rewrite (all_same _ _ H). 
    assert (K : exists t vs bts a, build_exprs d up (dWheres db) (Stmt [] []) = Stmt t vs /\ lexes nl d [] t vs bts /\ R GOr bts (a, []) /\
      forall w row, sql_means w row a = joined (wAnd w) (wVal w GNil) (map (sql_means w row) qs)).
    { destruct H as [|c q cs qs C H]; [congruence|]. destruct H as [|c' q' cs qs C' H].
      - destruct C as (_ & bts & ST1 & R1 & _). destruct (ST1 [] []) as (t & vs & E & L1). exists t, vs, bts, q. split; [exact E|]. split; [exact L1|]. split; [|reflexivity].
        specialize (R1 [] I). now rewrite app_nil_r in R1.
      - destruct (one_of_many c q C) as (bc & O1 & O2). destruct (tail (c' :: cs) (q' :: qs) (Forall2_cons _ _ C' H)) as (bt & T1 & T2 & T3).
        destruct (O1 [] []) as (t1 & v1 & E1 & L1). destruct (T1 ([] ++ t1) ([] ++ v1)) as (t2 & v2 & E2 & L2 & N2). exists (t1 ++ t2), (v1 ++ v2), (bc ++ bt), (fold_left QAnd (q' :: qs) q). split.
        + unfold build_exprs. rewrite E1. rewrite E2. now rewrite <- ?app_assoc.
        + split; [now apply lexes_app|]. split.
          * apply (R_or _ (fold_left QAnd (q' :: qs) q) []); [|now apply R_or_end]. apply (R_and _ q bt); [now apply O2|apply T3].
          * intros w row. rewrite means_fold. reflexivity. }
    destruct K as (t & vs & bts & a & E & L1 & RD & M). exists t, vs, a. rewrite E. split; [reflexivity|]. split; [|exact M].
    assert (K : tokens nl d t (seen d [] vs) bts).
    { specialize (L1 [] [] []). rewrite !app_nil_r in L1. apply L1; [exact I|]. unfold tokens, seen. exists 1, []. split; [reflexivity|]. now destruct (numbered d). }
    destruct K as (f & ts & K1 & K2). destruct RD as (g & RD). unfold reads_sql, seen, numbered in *. destruct (streq d #"postgres").
    - exists (max f g), ts, bts. split; [apply (lex_fuel nl f); [lia|exact K1]|]. split; [exact K2|]. apply (rd_fuel g); [lia|exact RD].
    - exists (max f g), ts, bts. split; [apply (lex_fuel nl f); [lia|exact K1]|]. split; [exact K2|]. apply (rd_fuel g); [lia|exact RD].
  Qed.
End Clause.
Lemma fold_all : forall (V : Type) (f : V -> V -> V) (T : V -> Prop), (forall x y, T (f x y) -> T x /\ T y) -> forall l a, T (fold_left f l a) -> T a /\ Forall T l.
Proof.
  intros V f T HT. induction l as [|x l IH]; intros a H; [split; [exact H|constructor]|]. cbn [fold_left] in H. apply IH in H as [H1 H2]. apply HT in H1 as [H0 H1]. split; [exact H0|now constructor].
Qed.
Lemma joined_all : forall (V : Type) (f : V -> V -> V) none (T : V -> Prop), (forall x y, T (f x y) -> T x /\ T y) -> forall l, l <> [] -> T (joined f none l) -> Forall T l.
Proof. intros V f none T HT [|a l] N H; [congruence|]. cbn [joined] in H. apply (fold_all V f T HT) in H as [H1 H2]. now constructor. Qed.

(** ** gorm's quoting *)
Lemma quote_part_chars : forall qc x c, In c (flat_map (quote_part qc) x) -> c = qc \/ c = 46%N \/ In c x.
Proof.
  intros qc x c H. apply in_flat_map in H as (y & I & H). unfold quote_part in H. destruct (y =? 46)%N.
  - destruct H as [<-|[<-|[<-|[]]]]; auto.
  - destruct H as [<-|[]]. auto.
Qed.
Lemma quote_unmarked : forall qc, unquoted qc = false -> no_numeral [qc] = true ->
  forall fold_eq sch, clean_schema 63 sch = true -> unmarked (quote_name qc) (is_column fold_eq sch).
Proof.
  intros qc H1 H2 fold_eq sch H c C. pose proof (clean_column 63 eq_refl fold_eq sch c H C) as K. split.
  - destruct (mem 63%N (quote_name qc c)) eqn:M; [|reflexivity]. exfalso. unfold mem in M. apply existsb_exists in M as (x & I & E). apply N.eqb_eq in E. subst x.
    assert (Q : 63%N = qc -> False) by (intros <-; discriminate H1). destruct I as [I|I]; [now apply Q|]. apply in_app_or in I as [I|[I|[]]]; [|now apply Q].
    apply quote_part_chars in I as [I|[I|I]]; [now apply Q|discriminate I|now apply K].
  - unfold quote_name. cbn [no_numeral existsb] in *. change (no_numeral (qc :: flat_map (quote_part qc) c ++ [qc])) with (negb (is_digit qc || mem qc #"+-") || no_numeral (flat_map (quote_part qc) c ++ [qc])).
    unfold no_numeral in H2. cbn [existsb] in H2. rewrite Bool.orb_false_r in H2. now rewrite H2.
Qed.
