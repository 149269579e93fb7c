(** Proofs for C94, continued: has_edge, and the whole query. *)
From Verif Require Import Base Peg Node Vocab Tree Parse Syntax Blank ParseProofs NormProofs Unique ParserFacts ParserFacts2 ParserMain Build BuildProofs NodeFacts SafeInd
  Gorm GormSpec GormProofs GormFacts GormFacts2 GormFacts3 GormFacts4 TreeFacts EntSQL EntSQLSpec EntSQLProofs EntSQLFacts EntSQLFacts2 SqlSpec SqlProofs SqlProofs2 SqlProofs3 SqlGorm SqlDialect
  SqlSpecDb SqlDbFacts SqlSpecEntDb SqlLoose SqlEnt EntSQLFacts3 SqlEntLoose SqlEntDbFacts SqlSpecWhere SqlWhere3 EntWhere SqlSpecEntWhere SqlEntWhere NestSpec NestFacts NestFacts2.
Require Import Lia.
Strategy expand [parse_machine rule_trace].
Strategy 1000 [parse_fuel mrun tok_trace].

Lemma parts_lead : forall w R lo heap code own col lead env n e, level e <= 5 ->
  edge_parts w R lo heap code own col lead env n e = (None, lead ++ snd (edge_parts w R lo heap code own col [] env n e)).
Proof.
  intros w R lo heap code own col lead env n e H. destruct e as [v|x|xs|xs|f args|e|e o b x y|e o|e o p ls|l o r|e|l o r]; cbn [edge_parts]; try reflexivity; try (cbn [snd app]; now rewrite ?app_nil_r).
  - destruct (streq f #"has_edge"); [|reflexivity]. destruct n as [c|]; [|cbn [snd]; now rewrite app_nil_r].
    destruct args as [|[] [|e2 [|]]]; try (cbn [snd]; now rewrite app_nil_r); [reflexivity|]. destruct (target heap c x); [reflexivity|cbn [snd]; now rewrite app_nil_r].
  - cbn [level] in H. lia.
Qed.

Section N6.
  Variable lo : N -> N.
  Variable nl : list N -> option (list N * list N).
  Variable ident_sql : list N -> list N -> list N.
  Variable edge_sql : bool -> list N -> gnode -> gspec -> gnode -> option (list N * list N).
  Variable heap : nat -> gnode.
  Variable d : list N.
  Variable dis : bool.
  Variable col : list N -> list N.
  Variable opens : N -> bool.
  Variable word : N -> list N.
  Variable code : bool -> nat -> list N -> N.
  Variable own : nat -> list N -> list sql.
  Hypothesis Q : quotes nl (ident_sql d) col ident.
  Hypothesis QP : quotes_properly (ident_sql d) col ident.
  Hypothesis EW : edge_words edge_sql heap d nl opens word code own.
  Notation nlM := (with_marks nl).
  Notation emit := (emits edge_sql heap d dis).
  Notation LL := (LE nlM ident_sql d).
  Notation sub := (subselect opens).
  Notation EP w R := (edge_parts w R lo heap code own col).
  Notation fine := (fine5 lo nl ident_sql edge_sql heap d dis col opens word code own).
  Notation QM := (QM nl ident_sql d col Q QP).
  Notation spl := (spells ident_sql d word).
  Ltac noval := match goal with K : go_value _ _ |- _ => apply go_value_type in K; discriminate K end.

  Definition fineL5 (gts : list tok) (gs : list sql) (e : expr) : Prop := simple3 lo e = true -> forall c n ps, tree_of lo e = Some n -> emit c n ps ->
    exists ps' bts, spl ps ps' /\ LL ps' bts /\ bal opens bts /\
      forall k, exists cts subs dd x, Cut opens k bts cts subs /\
        (forall rest b us r, stops rest -> R (GAndMore x) rest (b, us) -> R (GOrMore (sor dd b)) us r -> R GOr ((gts ++ TWord #"and" :: cts) ++ rest) r) /\
        forall w R env S, at_ k subs S -> let lead := map (sql_means w (view w R env S)) gs in
          option_map (sql_means w (view w R env S)) dd = fst (EP w R lead env c e) /\
          sql_means w (view w R env S) x = joined (wAnd w) (wVal w GNil) (snd (EP w R lead env c e)) /\ snd (EP w R lead env c e) <> [].
  Definition full (e : expr) : Prop := fine e /\ forall gts gs, run gts gs -> fineL5 gts gs e.

  Lemma full_fine : forall e, full e -> fine e.
  Proof. now intros e [F _]. Qed.
  Lemma l_leaf : forall e, level e <= 5 -> fine e -> full e.
  Proof.
    intros e LV F. split; [exact F|]. intros gts gs G Hn c n ps T H. destruct (F Hn c n ps T H) as (ps' & bts & X1 & X2 & X3 & X4). exists ps', bts. split; [exact X1|]. split; [exact X2|]. split; [exact X3|]. intro k.
    destruct (X4 k) as (cts & subs & dd & xs & C & G1 & S1). destruct (k_chain _ _ _ _ G1 LV) as [-> Ch]. exists cts, subs, None, (fold_left QAnd xs (jn gs)). split; [exact C|]. pose proof (run_some gts gs G) as NE. split.
    - intros rest b us r S K1 K2. rewrite <- app_assoc. apply (R_or _ b us r); [|exact K2]. apply (run_and gts gs G); [reflexivity|]. now apply (chain_more cts xs Ch).
    - intros w R0 env S A. cbn zeta. rewrite parts_lead by exact LV. cbn [fst snd option_map]. split; [reflexivity|]. destruct (S1 w R0 env S A) as [_ Y]. rewrite <- Y. split.
      + rewrite means_fold, sm_jn. apply fold_joined. destruct gs; [congruence|discriminate].
      + destruct gs; [congruence|discriminate].
  Qed.
  Lemma l_logic : forall l o r, op_logic o -> level r <= 5 -> full l -> fine r -> full (ELogic l o r).
  Proof.
    intros l o r OP LV [FL1 FL2] FR. split; [now apply (n_logic lo nl ident_sql edge_sql heap d dis col opens word code own Q QP)|]. intros gts gs G Hn c n ps T H.
    cbn [simple3] in Hn. apply andb_prop in Hn as [Hn1 Hn2].
    cbn [tree_of] in T. injection T as <-. destruct (tree_of lo l) as [ml|] eqn:T1; [|inversion H; noval]. destruct (tree_of lo r) as [mr|] eqn:T2; [|inversion H; noval].
    apply emits_logic_inv in H as (w & pa & pb & I1 & M1 & M2 & ->). cbn [nOperation mk_op] in I1. apply (logic_word lo o w OP) in I1. subst w.
    destruct (FL2 gts gs G Hn1 c _ _ T1 M1) as (p1 & b1 & X1 & X2 & X3 & X4). destruct (FR Hn2 c _ _ T2 M2) as (p2 & b2 & Y1 & Y2 & Y3 & Y4).
    destruct (is_or o) eqn:E.
    - exists (p1 ++ SFix #" OR " :: p2), (b1 ++ [TWord #"or"] ++ b2). split; [now apply spells_infix|].
      split; [apply (LE_infix nlM ident_sql d); [apply (fix_pad_word nlM ident_sql d col QM #"OR"); (discriminate || reflexivity)|reflexivity|exact X2|exact Y2]|].
      split; [apply bal_app; [exact X3|]; apply bal_app; [now apply plains_bal|exact Y3]|]. intro k.
      destruct (X4 k) as (c1 & s1 & d1 & x1 & C1 & G1 & S1). destruct (Y4 (k + length s1)) as (c2 & s2 & d2 & xs2 & C2 & G2 & S2). destruct (k_chain _ _ _ _ G2 LV) as [-> Ch2].
      exists (c1 ++ [TWord #"or"] ++ c2), (s1 ++ s2), (Some (sor d1 x1)), (jn xs2). split; [apply Cut_app; [exact C1|]; now apply Cut_before|]. split.
      + intros rest b us x S K1 K2. rewrite <- !app_assoc. cbn [app]. rewrite <- !app_assoc. cbn [app].
        specialize (G1 (TWord #"or" :: c2 ++ rest) x1 (TWord #"or" :: c2 ++ rest) x). rewrite <- !app_assoc in G1. cbn [app] in G1. rewrite <- ?app_assoc in G1. apply G1; [reflexivity|now apply R_and_end|].
        apply (R_or_more _ _ b us); [|exact K2]. now apply (chain_and c2 xs2).
      + intros w R0 env S A. cbn zeta. apply at_app in A as [A1 A2]. destruct (S1 w R0 env S A1) as (Z1 & Z2 & Z3). pose proof (ands5 lo heap col code own r c (k + length s1) s2 xs2 S2 w R0 env S A2) as Z4.
        cbn [edge_parts]. rewrite E. cbn [fst snd option_map]. rewrite <- Z4. split; [|split].
        * f_equal. unfold whole2. destruct (EP w R0 _ env c l) as [d' a']. cbn [fst snd] in Z1, Z2. rewrite <- Z2. destruct d1 as [d1|]; cbn [option_map sor sql_means] in *; subst d'; reflexivity.
        * apply sm_jn.
        * pose proof (k_some _ _ _ _ G2). destruct xs2; [congruence|discriminate].
    - exists (p1 ++ SFix #" AND " :: p2), (b1 ++ [TWord #"and"] ++ b2). split; [now apply spells_infix|].
      split; [apply (LE_infix nlM ident_sql d); [apply (fix_pad_word nlM ident_sql d col QM #"AND"); (discriminate || reflexivity)|reflexivity|exact X2|exact Y2]|].
      split; [apply bal_app; [exact X3|]; apply bal_app; [now apply plains_bal|exact Y3]|]. intro k.
      destruct (X4 k) as (c1 & s1 & d1 & x1 & C1 & G1 & S1). destruct (Y4 (k + length s1)) as (c2 & s2 & d2 & xs2 & C2 & G2 & S2). destruct (k_chain _ _ _ _ G2 LV) as [-> Ch2].
      exists (c1 ++ [TWord #"and"] ++ c2), (s1 ++ s2), d1, (fold_left QAnd xs2 x1). split; [apply Cut_app; [exact C1|]; now apply Cut_before|]. split.
      + intros rest b us x S K1 K2. rewrite <- !app_assoc. cbn [app]. rewrite <- !app_assoc. cbn [app].
        specialize (G1 (TWord #"and" :: c2 ++ rest) b us x). rewrite <- !app_assoc in G1. cbn [app] in G1. rewrite <- ?app_assoc in G1. apply G1; [reflexivity| |exact K2]. now apply (chain_more c2 xs2 Ch2).
      + intros w R0 env S A. cbn zeta. apply at_app in A as [A1 A2]. destruct (S1 w R0 env S A1) as (Z1 & Z2 & Z3). pose proof (ands5 lo heap col code own r c (k + length s1) s2 xs2 S2 w R0 env S A2) as Z4.
        cbn [edge_parts]. rewrite E. cbn [fst snd option_map]. rewrite <- Z4. split; [exact Z1|]. split; [rewrite means_fold, Z2; now apply fold_joined|]. intro N0. apply app_eq_nil in N0. now destruct N0.
  Qed.

  Lemma emit_edge1 : forall c p ps, emit c (mk_function #"has_edge" [Some (mk_ident p)]) ps -> exists c0 t s1 s2, c = Some c0 /\ edge_to edge_sql heap d false c0 p t s1 s2 /\ ps = [SEdge (s1 ++ s2)].
  Proof.
    intros c p ps H. remember (mk_function #"has_edge" [Some (mk_ident p)]) as n eqn:E. destruct H; try discriminate E; [subst; noval|]. injection E as ->. cbn [nName mk_ident] in *. eauto 8.
  Qed.
  Lemma emit_edge2 : forall c p e ps, emit c (mk_function #"has_edge" [Some (mk_ident p); e]) ps ->
    exists c0 e0 t s1 s2 b, c = Some c0 /\ e = Some e0 /\ edge_to edge_sql heap d true c0 p t s1 s2 /\ emit (Some t) e0 b /\ ps = SEdge s1 :: b ++ [SEdge s2].
  Proof.
    intros c p e ps H. remember (mk_function #"has_edge" [Some (mk_ident p); e]) as n eqn:E. destruct H; try discriminate E; [subst; noval|]. injection E as -> <-. cbn [nName mk_ident] in *. do 6 eexists. repeat (split; [first [reflexivity|eassumption]|]). reflexivity.
  Qed.
  Lemma edge_target : forall b c p t s1 s2, edge_to edge_sql heap d b c p t s1 s2 -> target heap c p = Some t.
  Proof. intros b c p t s1 s2 (s & E & _). unfold target. now rewrite E. Qed.
  Lemma view_mark : forall w R env S k m s, is_mark m = true -> at_ k [s] S -> view w R env S [m; N.of_nat k] = rSome R m env (fun r => nested_means w R (r :: env) s).
  Proof.
    intros w R env S k m s M A. unfold view, in_view. rewrite M, Nnat.Nat2N.id, nth_error_map. specialize (A 0 s eq_refl). rewrite Nat.add_0_r in A. now rewrite A.
  Qed.
  Lemma n_edge1 : forall p, fine (ECall #"has_edge" [EName p]).
  Proof.
    intros p _ c n ps T H. injection T as <-. apply emit_edge1 in H as (c0 & t & s1 & s2 & -> & ET & ->). destruct EW as (EW1 & EW2 & _). rewrite (EW2 _ _ _ _ _ ET). destruct (EW1 false c0 p) as [M O]. set (m := code false c0 p) in *.
    assert (P : plains opens [TName [m]]) by (unfold plains; cbn [forallb plain1 subselect]; now rewrite M, O).
    exists [SFix [m]], [TName [m]]. split; [|split; [|split]].
    - split; [reflexivity|]. intro k. cbn [sql_of]. rewrite !app_nil_r. unfold spelled. cbn [flat_map]. now rewrite M, app_nil_r.
    - apply (LE_closes nlM ident_sql d). intros t0 args us _. now apply (fix_mark nl d).
    - now apply plains_bal.
    - intro k. exists [TName [m]], [], None, [QCol [m]]. split; [now apply Cut_plains|]. split; [apply good4_prim; [reflexivity|intro; apply R_name|intro; exact I]|].
      intros w R0 env S _. cbn [sql_means edge_parts map option_map fst snd app]. change (streq #"has_edge" #"has_edge") with true. cbv iota. cbn [fst snd]. split; [reflexivity|].
      unfold view, in_view. now rewrite M.
  Qed.
  Lemma n_edge2 : forall p e, full e -> fine (ECall #"has_edge" [EName p; e]).
  Proof.
    intros p e [F1 F2] Hn c n ps T H. cbn [simple3] in Hn. change (streq #"has_edge" #"has_edge") with true in Hn. cbv iota in Hn. injection T as <-.
    cbn [map] in H. apply emit_edge2 in H as (c0 & e0 & t & s1 & s2 & pe & -> & T & ET & H & ->). pose proof (edge_target _ _ _ _ _ _ ET) as TG.
    destruct EW as (EW1 & _ & EW3). destruct (EW3 _ _ _ _ _ ET) as (-> & g & -> & L). destruct (EW1 true c0 p) as [M O]. set (m := code true c0 p) in *.
    assert (SB : sub (TName [m]) = true) by (cbn [subselect]; now rewrite M, O).
    assert (D : exists ps' inner s, spl (SFix g :: pe) ps' /\ LL ps' inner /\ bal opens inner /\ reads_tokens opens inner s /\
      forall w R env, nested_means w R env s = whole2 w (EP w R (neighbours w R own c0 p env) env (Some t) e)).
    { destruct L as [[-> OW]|(g0 & gts & -> & PG & W & RN & CL & SBS & IND)].
      - destruct (F1 Hn (Some t) e0 pe T H) as (ps' & bts & X1 & X2 & X3 & X4). destruct (X4 0) as (cts & subs & dd & xs & C & G1 & S1).
        exists ps', bts, (Nest (sor dd (jn xs)) subs). split; [|split; [exact X2|split; [exact X3|split]]].
        + destruct X1 as [Z1 Z2]. split; [exact Z1|exact Z2].
        + apply (Cut_reads opens _ cts); [exact C|]. rewrite <- (app_nil_r cts). apply (good4_whole _ _ _ _ G1); [exact I|exact I|]. destruct dd; now apply R_or_end.
        + intros w R0 env. unfold neighbours. rewrite OW. exact (same5_whole lo heap col code own e (Some t) 0 subs dd xs S1 w R0 env subs (at_self subs)).
      - destruct (F2 gts (own c0 p) RN Hn (Some t) e0 pe T H) as (ps' & bts & X1 & X2 & X3 & X4). destruct (X4 0) as (cts & subs & dd & x & C & G1 & S1).
        assert (FX : fixes nlM d (g0 ++ #" AND ") (gts ++ [TWord #"and"])).
        { intros t0 args us K. destruct (W []) as (t1 & a1 & E & W1). injection E as <- <-. specialize (W1 args (#" AND " ++ t0) (TWord #"and" :: us)). rewrite <- !app_assoc.
          assert (SE : forall l, seen d [] l = l) by (intro l; unfold seen; now destruct (numbered d)). cbn [map app] in W1. rewrite SE in W1. apply W1; [reflexivity|].
          exact (word_and nlM d (proj1 QM) t0 args us K). }
        exists (SFix (g0 ++ #" AND ") :: ps'), ((gts ++ [TWord #"and"]) ++ bts), (Nest (sor dd x) subs). split; [|split; [|split; [|split]]].
        + apply (spells_app ident_sql d word [SFix (g0 ++ #" AND ")] [SFix (g0 ++ #" AND ")]); [|exact X1]. apply spells_fix. now apply proper_app.
        + now apply (LE_prefix nlM ident_sql d).
        + apply bal_app; [|exact X3]. apply bal_app; [now apply closed_bal|now apply plains_bal].
        + rewrite <- app_assoc. cbn [app]. apply (Cut_reads opens _ (gts ++ TWord #"and" :: cts)).
          * apply Cut_before; [exact SBS|]. now apply (Cut_before opens 0 [TWord #"and"]).
          * rewrite <- (app_nil_r (gts ++ _)). apply (G1 [] x []); [exact I|now apply R_and_end|]. destruct dd; now apply R_or_end.
        + intros w R0 env. destruct (S1 w R0 env subs (at_self subs)) as (Z1 & Z2 & _). cbn zeta in Z1, Z2.
          rewrite (IND w (view w R0 env subs) (rGet R0 env)) in Z1, Z2 by (intros; now apply view_name). fold (neighbours w R0 own c0 p env) in Z1, Z2.
          cbn [nested_means]. fold (view w R0 env subs). unfold whole2. destruct (EP w R0 _ env (Some t) e) as [d' a']. cbn [fst snd] in Z1, Z2. rewrite <- Z2.
          destruct dd as [dd|]; cbn [option_map sor sql_means] in *; subst d'; reflexivity. }
    destruct D as (ps' & inner & s & [D1 D1'] & D2 & D3 & D4 & D5). exists (SFix [m] :: ps' ++ [SFix #")"]), ([TName [m]] ++ inner ++ [TClose]). split; [|split; [|split]].
    - split.
      + change (sargs (ps' ++ [SFix #")"]) = sargs (pe ++ [SEdge #")"])). rewrite !sargs_app, D1. reflexivity.
      + intro k. cbn [sql_of]. rewrite !sql_app. rewrite !spelled_app. specialize (D1' k). cbn [sql_of] in *. rewrite D1'. unfold spelled at 1. cbn [flat_map]. rewrite M, app_nil_r, <- !app_assoc. reflexivity.
    - apply (LE_paren nlM ident_sql d col _ QM); [|exact D2]. now apply (fix_mark nl d).
    - now apply bal_sub.
    - intro k. exists [TName [m; N.of_nat k]], [s], None, [QCol [m; N.of_nat k]]. split; [now apply Cut_sub|]. split; [apply good4_prim; [reflexivity|intro; apply R_name|intro; exact I]|].
      intros w R0 env S A. cbn [sql_means edge_parts map option_map fst snd app]. change (streq #"has_edge" #"has_edge") with true. cbv iota. rewrite TG. cbn [fst snd app]. split; [reflexivity|].
      rewrite (view_mark w R0 env S k m s M A). f_equal. apply rSame. intro r. now rewrite (D5 w R0 (r :: env)).
  Qed.
  Lemma n_call : forall f args, Forall full args -> fine (ECall f args).
  Proof.
    intros f args H. destruct (streq_spec f #"has_edge") as [->|NE]; [|apply (n_date lo nl ident_sql edge_sql heap d dis col opens word code own Q QP); [exact NE|]; apply (Forall_impl _ (fun e (K : full e) => proj1 K) H)].
    destruct args as [|[v|p|xs|xs|f a|e|e o b x y|e o|e o pp ls|l o r|e|l o r] [|e2 [|e3 args]]]; try (intros Hn; discriminate Hn); [apply n_edge1|]. apply n_edge2. inversion_clear H as [|? ? _ H1]. now inversion_clear H1.
  Qed.

  Lemma all_full : forall e t, lay e t -> full e.
  Proof.
    intros e t H. refine (lay_mind (fun e t _ => full e) (fun es t _ => Forall full es) _ _ _ _ _ _ _ _ _ _ _ _ _ _ _ _ _ _ e t H); clear e t H; intros;
      try (match goal with |- full (ELogic _ _ _) => fail 1 | |- full _ => apply l_leaf; [cbn [level]; lia|] | _ => idtac end).
    - apply (n_lit lo nl ident_sql edge_sql heap d dis col opens word code own Q QP).
    - intro K. discriminate K.
    - now apply (n_name lo nl ident_sql edge_sql heap d dis col opens word code own Q QP).
    - intro K. discriminate K.
    - intro K. discriminate K.
    - apply n_call. constructor.
    - now apply n_call.
    - now apply n_call.
    - apply (n_paren lo nl ident_sql edge_sql heap d dis col opens word code own Q QP). now apply full_fine.
    - apply (n_between lo nl ident_sql edge_sql heap d dis col opens word code own Q QP). now apply full_fine.
    - apply (n_between lo nl ident_sql edge_sql heap d dis col opens word code own Q QP). now apply full_fine.
    - apply (n_pred lo nl ident_sql edge_sql heap d dis col opens word code own Q QP). now apply full_fine.
    - apply (n_in lo nl ident_sql edge_sql heap d dis col opens word code own Q QP). now apply full_fine.
    - apply (n_cmp lo nl ident_sql edge_sql heap d dis col opens word code own Q QP); now apply full_fine.
    - apply (n_not lo nl ident_sql edge_sql heap d dis col opens word code own Q QP); [assumption|]. now apply full_fine.
    - apply l_logic; try assumption. now apply full_fine.
    - now constructor.
    - now constructor.
  Qed.

  Lemma simple3_json_free : forall e, simple3 lo e = true -> json_free e = true.
  Proof.
    fix IH 1. intros [v|x|xs|xs|f args|e|e o b x y|e o|e o p ls|l o r|e|l o r] H; cbn [simple3 json_free] in *; try reflexivity; try discriminate.
    - destruct (streq f #"has_edge").
      + destruct args as [|[v|p|xs|xs|f' a|e|e o b x y|e o|e o pp ls|l o r|e|l o r] [|e2 [|e3 args]]]; try discriminate H; [reflexivity|]. cbn [forallb json_free andb]. now rewrite (IH _ H).
      + revert args H. fix IHL 1. intros [|a args] H; [reflexivity|]. cbn [forallb] in *. apply andb_prop in H as [H1 H2]. now rewrite (IH _ H1), (IHL _ H2).
    - now apply IH.
    - do 3 (apply andb_prop in H as [H _]). apply andb_prop in H as [H _]. apply andb_prop in H as [H _]. now apply IH.
    - apply andb_prop in H as [H _]. apply andb_prop in H as [H _]. apply andb_prop in H as [H _]. now apply IH.
    - apply andb_prop in H as [H _]. apply andb_prop in H as [H _]. apply andb_prop in H as [H _]. apply andb_prop in H as [H _]. now apply IH.
    - apply andb_prop in H as [H _]. apply andb_prop in H as [H1 H2]. apply andb_prop in H1 as [H1 _]. apply andb_prop in H1 as [H1 _]. apply andb_prop in H2 as [H2 _]. apply andb_prop in H2 as [H2 _]. now rewrite (IH _ H1), (IH _ H2).
    - now apply IH.
    - apply andb_prop in H as [H1 H2]. now rewrite (IH _ H1), (IH _ H2).
  Qed.

  Lemma query_nested : forall nd q e m t a, valid_runes q -> reads q e -> simple3 lo e = true ->
    query lo ident_sql edge_sql heap (fresh d dis nd q) = Some (m, (t, a)) -> no_error m ->
    exists t' s, t = spelled word t' /\ reads_nested opens nl d t' (map arg_value a) s /\
      forall w R env, nested_means w R env s = edge_means w R lo heap code own col env nd e.
  Proof.
    intros nd q e m t a Hq He Hn H HE. pose proof (simple3_json_free e Hn) as Hj.
    destruct (query_complete lo ident_sql edge_sql heap d dis nd q m t a Hq H HE) as (n & ps & Hp & K & -> & ->).
    assert (Hf : fits e = true).
    { destruct (parse_ok_inv lo q _ Hq Hp) as (e2 & H2 & Hf & _). now rewrite (reads_unique _ _ _ He H2). }
    pose proof (parse_spec lo q e Hq He Hf Hj) as Hp'. rewrite Hp in Hp'. injection Hp' as Hp'. symmetry in Hp'. destruct He as (w1 & tx & w2 & _ & _ & _ & Hl).
    destruct (proj1 (all_full e tx Hl) Hn nd n ps Hp' K) as (ps' & bts & [X1 X1'] & X2 & X3 & X4). destruct (X4 0) as (cts & subs & dd & xs & C & G1 & S1).
    exists (sql_of ident_sql d 0 ps'), (Nest (sor dd (jn xs)) subs). split; [now rewrite X1'|]. split.
    - exists bts. split.
      + specialize (X2 [] [] [] [] I). assert (Z : TK nlM (bindd d) [] (argsd d ([] ++ vals ps') []) []).
        { exists 1, []. split; [reflexivity|]. unfold bindd, argsd. destruct (pg d); reflexivity. }
        specialize (X2 Z). cbn [length N.of_nat] in X2. rewrite !app_nil_r in X2. unfold vals in X2. rewrite X1 in X2.
        unfold argsd in X2. cbn [app] in X2. destruct (pg d) in X2; exact X2.
      + apply (Cut_reads opens _ cts); [exact C|]. rewrite <- (app_nil_r cts). apply (good4_whole _ _ _ _ G1); [exact I|exact I|]. destruct dd; now apply R_or_end.
    - intros w R0 env. exact (same5_whole lo heap col code own e nd 0 subs dd xs S1 w R0 env subs (at_self subs)).
  Qed.
End N6.
