(** Proofs for C80: the condition of a query beside other conditions in ent. *)
From Verif Require Import Base Peg Node Vocab Tree Parse Syntax Blank ParseProofs NormProofs Unique ParserFacts ParserFacts2 ParserMain Build BuildProofs NodeFacts SafeInd
  Gorm GormSpec GormProofs GormFacts GormFacts2 GormFacts3 GormFacts4 TreeFacts EntSQL EntSQLSpec EntSQLProofs EntSQLFacts EntSQLFacts2 SqlSpec SqlProofs SqlProofs2 SqlProofs3 SqlGorm SqlDialect
  SqlSpecDb SqlDbFacts SqlSpecEntDb SqlLoose SqlEnt EntSQLFacts3 SqlEntLoose SqlEntDbFacts SqlSpecWhere SqlWhere3 EntWhere SqlSpecEntWhere.
Require Import Lia.
Strategy expand [parse_machine rule_trace].
Strategy 1000 [parse_fuel mrun tok_trace].

(** ** Runs *)
Lemma ends_stops : forall ts, ends_conjunct ts -> stops ts.
Proof. intros [|[]] H; try contradiction; try exact I. cbn in H. subst. reflexivity. Qed.
Lemma run_chain : forall ts xs, run ts xs -> forall acc rest r, ends_conjunct rest -> R (GAndMore (fold_left QAnd xs acc)) rest r -> R (GAndMore acc) (TWord #"and" :: ts ++ rest) r.
Proof.
  induction 1 as [t x H|t x ts xs H K IH]; intros acc rest r S G.
  - apply (R_and_more acc _ x rest r); [now apply H|exact G].
  - rewrite <- app_assoc. apply (R_and_more acc _ x (TWord #"and" :: ts ++ rest) r); [now apply H|]. now apply IH.
Qed.
Lemma run_and : forall ts xs, run ts xs -> forall rest r, ends_conjunct rest -> R (GAndMore (jn xs)) rest r -> R GAnd (ts ++ rest) r.
Proof.
  intros ts xs [t x H|t x ts' xs' H K] rest r S G.
  - apply (R_and _ x rest r); [now apply H|exact G].
  - rewrite <- app_assoc. apply (R_and _ x (TWord #"and" :: ts' ++ rest) r); [now apply H|]. now apply (run_chain ts' xs').
Qed.
Lemma run_some : forall ts xs, run ts xs -> xs <> [].
Proof. now intros ts xs [t x H|t x ts' xs' H K]. Qed.
Lemma chain_run : forall ts xs, chainN ts xs -> run ts xs.
Proof.
  induction 1 as [t x H|t x ts xs H K IH].
  - constructor. intros rest E. apply H. now apply ends_stops.
  - apply run_more; [|exact IH]. intros rest E. apply H. now apply ends_stops.
Qed.
Lemma run_paren : forall ts a, (forall rest, at_end rest -> R GOr (ts ++ rest) (a, rest)) -> run (TOpen :: ts ++ [TClose]) [a].
Proof.
  intros ts a H. constructor. intros rest E. cbn [app]. rewrite <- app_assoc. apply R_not_end; [exact I|]. apply (R_cond _ a rest); [|apply R_cond_end; now apply ends_stops].
  apply R_paren. now apply H.
Qed.
Lemma fold_joined : forall (V : Type) (f : V -> V -> V) none xs ys, xs <> [] -> fold_left f ys (joined f none xs) = joined f none (xs ++ ys).
Proof. intros V f none [|x xs] ys H; [congruence|]. cbn [joined app]. now rewrite fold_left_app. Qed.

Section C.
  Variable nl : list N -> option (list N * list N).
  Variable d : list N.
  Hypothesis PS : forall c t, unquoted c = true -> nl (c :: t) = None.
  Notation wr := (writes nl d).

  Lemma word_and : forall t args us, tokens nl d t args us -> tokens nl d (#" AND " ++ t) args (TWord #"and" :: us).
  Proof.
    intros t args us K. change (#" AND " ++ t) with (#" " ++ #"AND" ++ #" " ++ t). apply (TK_blank nl (bindd d) PS).
    apply (TK_word nl (bindd d) (other d) PS #"AND"); [discriminate|reflexivity|reflexivity|]. now apply (TK_blank nl (bindd d) PS).
  Qed.
  Lemma writes_then : forall f g b1 b2, wr f b1 -> wr g b2 -> wr (then_fn f #" AND " g) (b1 ++ TWord #"and" :: b2).
  Proof.
    intros f g b1 b2 F G pre. destruct (F pre) as (t & a & E & L). destruct (G (pre ++ map arg_value a)) as (t' & a' & E' & L').
    exists (t ++ #" AND " ++ t'), (a ++ a'). split.
    - unfold then_fn. rewrite E. rewrite app_length, map_length, Nnat.Nat2N.inj_add in E'. now rewrite E'.
    - intros post rest br N K. rewrite map_app, <- !app_assoc. apply L; [reflexivity|]. cbn [app]. apply word_and. apply L'; [exact N|].
      now rewrite map_app, app_assoc in K.
  Qed.
  Lemma writes_paren : forall f bts, wr f bts -> wr (paren_fn f) (TOpen :: bts ++ [TClose]).
  Proof.
    intros f bts F pre. destruct (F pre) as (t & a & E & L). exists (#"(" ++ t ++ #")"), a. split; [unfold paren_fn; now rewrite E|].
    intros post rest br N K. rewrite <- !app_assoc. cbn [app]. rewrite <- app_assoc. apply (TK_open nl (bindd d) (other d) PS (t ++ #")" ++ rest)). apply L; [reflexivity|]. now apply (TK_close nl (bindd d) (other d) PS).
  Qed.
  Lemma writes_reads : forall f bts a, wr f bts -> R GOr bts (a, []) -> exists t x, f d 0%N = Some (t, x, []) /\ reads_sql nl d t (map arg_value x) a.
  Proof.
    intros f bts a F RD. destruct (F []) as (t & x & E & L). exists t, x. split; [exact E|].
    assert (K : tokens nl d t (seen d [] (map arg_value x)) bts).
    { specialize (L [] [] []). rewrite !app_nil_r in L. apply L; [exact I|]. unfold tokens, seen. exists 1, []. split; [reflexivity|]. now destruct (numbered d). }
    destruct K as (h & ts & K1 & K2). destruct RD as (g & RD). unfold reads_sql, seen, numbered in *. destruct (streq d #"postgres");
      (exists (max h g), ts, bts; split; [apply (lex_fuel nl h); [lia|exact K1]|]; split; [exact K2|]; apply (rd_fuel g); [lia|exact RD]).
  Qed.

  (** ** Several conditions *)
  Definition stepF (p : epred) (f : pfn) : epred := EAnd p (EFn f).
  Lemma wheres_cons : forall f fs, wheres (f :: fs) = Some (fold_left stepF fs (EFn f)).
  Proof.
    intros f fs. unfold wheres. cbn [fold_left add_cond]. generalize (EFn f). induction fs as [|g fs IH]; intro p; [reflexivity|]. cbn [fold_left add_cond]. apply IH.
  Qed.
  (** [b]: read as [a] wherever the text ends, and as a conjunct when nested *)
  Definition means (a : sql) (xs : list sql) : Prop := forall w row, sql_means w row a = joined (wAnd w) (wVal w GNil) (map (sql_means w row) xs).
  Definition whole_ok (p : epred) (a : sql) : Prop := exists bts, wr (write_pred false p) bts /\ forall rest, at_end rest -> R GOr (bts ++ rest) (a, rest).
  Definition nested_ok (p : epred) (a : sql) : Prop := exists bts xs, wr (write_pred true p) bts /\ run bts xs /\ jn xs = a.
  Lemma end_words : forall rest, at_end rest -> ends_conjunct rest /\ no_word #"and" rest /\ no_word #"or" rest.
  Proof. intros [|[]] H; try contradiction; repeat split. Qed.
  Lemma run_or : forall ts xs, run ts xs -> forall rest, at_end rest -> R GOr (ts ++ rest) (jn xs, rest).
  Proof.
    intros ts xs H rest E. destruct (end_words rest E) as (E1 & E2 & E3). apply (R_or _ (jn xs) rest); [|now apply R_or_end]. apply (run_and ts xs H); [exact E1|now apply R_and_end].
  Qed.
  Lemma both_ok : forall p q a, whole_ok (EAnd p q) a -> nested_ok (EAnd p q) a.
  Proof.
    intros p q a (bts & W & H). exists (TOpen :: bts ++ [TClose]), [a]. split; [exact (writes_paren _ bts W)|]. split; [|reflexivity]. now apply run_paren.
  Qed.
  Lemma and_ok : forall p f a ys, nested_ok p a -> conjuncts nl d f ys -> whole_ok (EAnd p (EFn f)) (fold_left QAnd ys a).
  Proof.
    intros p f a ys (b1 & xs & W1 & R1 & <-) (b2 & W2 & R2). exists (b1 ++ TWord #"and" :: b2). split; [exact (writes_then _ _ _ _ W1 W2)|].
    intros rest E. destruct (end_words rest E) as (E1 & E2 & E3). rewrite <- app_assoc. apply (R_or _ (fold_left QAnd ys (jn xs)) rest); [|now apply R_or_end].
    apply (run_and b1 xs R1); [reflexivity|]. apply (run_chain b2 ys R2); [exact E1|now apply R_and_end].
  Qed.
  Lemma more_ok : forall fs yss, Forall2 (conjuncts nl d) fs yss -> forall p a, nested_ok p a ->
    nested_ok (fold_left stepF fs p) (fold_left QAnd (concat yss) a) /\ (whole_ok p a \/ fs <> [] -> whole_ok (fold_left stepF fs p) (fold_left QAnd (concat yss) a)).
  Proof.
    intros fs yss H. induction H as [|f ys fs yss C _ IH]; intros p a N; [split; [exact N|]; intros [W|W]; [exact W|congruence]|]. cbn [fold_left concat]. rewrite fold_left_app.
    pose proof (and_ok p f a ys N C) as W. destruct (IH _ _ (both_ok _ _ _ W)) as [I1 I2]. split; [exact I1|]. intros _. apply I2. now left.
  Qed.
  Lemma first_ok : forall f xs, conjuncts nl d f xs -> nested_ok (EFn f) (jn xs) /\ whole_ok (EFn f) (jn xs).
  Proof. intros f xs (bts & W & H). split; [now exists bts, xs|]. exists bts. split; [exact W|]. exact (run_or bts xs H). Qed.
  Lemma all_ok : forall f xs fs xss, conjuncts nl d f xs -> Forall2 (conjuncts nl d) fs xss ->
    nested_ok (fold_left stepF fs (EFn f)) (jn (xs ++ concat xss)) /\ whole_ok (fold_left stepF fs (EFn f)) (jn (xs ++ concat xss)).
  Proof.
    intros f xs fs xss C F. destruct (first_ok f xs C) as [N W]. destruct (more_ok fs xss F _ _ N) as [N1 W1].
    assert (X : xs <> []) by (destruct C as (? & _ & C); exact (run_some _ _ C)). unfold jn in N1, W1 |- *. rewrite fold_joined in N1, W1 by exact X. split; [exact N1|apply W1; now left].
  Qed.
  Lemma whole_text : forall p a, whole_ok p a -> exists t x, write_pred false p d 0%N = Some (t, x, []) /\ reads_sql nl d t (map arg_value x) a.
  Proof. intros p a (bts & W & H). specialize (H [] I). rewrite app_nil_r in H. exact (writes_reads _ _ _ W H). Qed.
  Lemma jn_means : forall xs, means (jn xs) xs.
  Proof. intros xs w row. apply sm_jn. Qed.
  Lemma where_reads : forall fs xss, fs <> [] -> Forall2 (conjuncts nl d) fs xss ->
    exists t x a, where_text d fs = Some (t, x, []) /\ reads_sql nl d t (map arg_value x) a /\ means a (concat xss).
  Proof.
    intros fs xss NE F. destruct F as [|f xs fs xss C F]; [congruence|]. destruct (all_ok f xs fs xss C F) as [_ W]. destruct (whole_text _ _ W) as (t & x & E & RD).
    exists t, x, (jn (xs ++ concat xss)). unfold where_text. rewrite wheres_cons. split; [exact E|]. split; [exact RD|]. apply jn_means.
  Qed.
End C.

(** ** What a query writes *)
Section SE.
  Variable lo : N -> N.
  Variable nl : list N -> option (list N * list N).
  Variable ident_sql : list N -> list N -> list N.
  Variable edge_sql : bool -> list N -> gnode -> gspec -> gnode -> option (list N * list N).
  Variable heap : nat -> gnode.
  Variable d : list N.
  Variable dis : bool.
  Variable c : option nat.
  Variable col : list N -> list N.
  Hypothesis Q : quotes nl (ident_sql d) col ident.
  Notation emit := (emits edge_sql heap d dis c).
  Notation LL := (LE nl ident_sql d).
  Ltac noval := match goal with K : go_value _ _ |- _ => apply go_value_type in K; discriminate K end.

  (** without "or" *)
  Lemma chain_app : forall a xs b ys, chainN a xs -> chainN b ys -> chainN (a ++ [TWord #"and"] ++ b) (xs ++ ys).
  Proof.
    intros a xs b ys H K. induction H as [t x H|t x ts xs H _ IH]; [now apply ch_cons|]. cbn [app] in *. rewrite <- app_assoc. cbn [app]. now apply ch_cons.
  Qed.
  Lemma fine_chain : forall e t, lay e t -> simple2 lo e = true -> loose_or e = false -> forall n ps, tree_of lo e = Some n -> emit n ps ->
    exists bts xs, LL ps bts /\ chainN bts xs /\ forall w row nm, (forall x, nm [x] = row (col x)) -> map (sql_means w row) xs = snd (ent_parts w lo nm e).
  Proof.
    assert (LEAF : forall e t, level e <= 5 -> lay e t -> simple2 lo e = true -> forall n ps, tree_of lo e = Some n -> emit n ps ->
      exists bts xs, LL ps bts /\ chainN bts xs /\ forall w row nm, (forall x, nm [x] = row (col x)) -> fst (ent_parts w lo nm e) = None /\ map (sql_means w row) xs = snd (ent_parts w lo nm e)).
    { intros e t LV Hl Hn n ps T H. destruct (all_fine4 lo nl ident_sql edge_sql heap d dis c col Q e t Hl Hn n ps T H) as (bts & dd & xs & L1 & G1 & S1).
      destruct (k_chain _ _ _ _ G1 LV) as [-> C]. exists bts, xs. split; [exact L1|]. split; [exact C|]. intros w row nm A. destruct (S1 w row nm A) as [X1 X2]. now split. }
    induction e as [v|x|xs|xs|f args|e IH|e IH o t a b|e IH o|e IH o t ls|l IH1 o r IH2|e IH|l IH1 o r IH2]; intros tx Hl Hn HL n ps T H;
      try (match goal with |- context [ent_parts _ _ _ ?E] => assert (LV : level E <= 5) by (cbn [level]; lia) end;
        destruct (LEAF _ tx LV Hl Hn n ps T H) as (bts & xs' & L1 & C & S1); exists bts, xs'; split; [exact L1|]; split; [exact C|]; intros w row nm A; now apply S1).
    cbn [loose_or] in HL. apply Bool.orb_false_iff in HL as [HO HL]. inversion Hl; subst. cbn [simple2] in Hn. apply andb_prop in Hn as [Hn1 Hn2].
    cbn [tree_of] in T. injection T as <-. destruct (tree_of lo l) as [ml|] eqn:T1; [|inversion H; noval]. destruct (tree_of lo r) as [mr|] eqn:T2; [|inversion H; noval].
    apply emits_logic_inv in H as (w & pa & pb & I1 & M1 & M2 & ->). cbn [nOperation mk_op] in I1. apply (logic_word lo o w) in I1; [|assumption]. subst w.
    match goal with K : lay l _ |- _ => destruct (IH1 _ K Hn1 HL _ _ eq_refl M1) as (b1 & xs1 & L1 & C1 & S1) end.
    match goal with K : lay r _, LV : level r <= 5 |- _ => destruct (LEAF r _ LV K Hn2 _ _ T2 M2) as (b2 & xs2 & L2 & C2 & S2) end.
    exists (b1 ++ [TWord #"and"] ++ b2), (xs1 ++ xs2). rewrite HO.
    split; [apply (LE_infix nl ident_sql d); [apply (fix_pad_word nl ident_sql d col Q #"AND"); (discriminate || reflexivity)|reflexivity|exact L1|exact L2]|].
    split; [now apply chain_app|]. intros w row nm A. cbn [ent_parts]. rewrite HO. cbn [snd]. rewrite map_app, (S1 w row nm A). f_equal.
    destruct (S2 w row nm A) as [X1 X2]. unfold ands. destruct (ent_parts w lo nm r) as [d' a']. cbn [fst snd] in X1, X2. now subst.
  Qed.
  Lemma fine_run : forall e t, lay e t -> simple2 lo e = true -> loose_or e = false -> forall n ps, tree_of lo e = Some n -> emit n ps ->
    exists bts xs, LL ps bts /\ run bts xs /\ forall w row nm, (forall x, nm [x] = row (col x)) -> joined (wAnd w) (wVal w GNil) (map (sql_means w row) xs) = ent_means w lo nm e.
  Proof.
    intros e t Hl Hn HL n ps T H. destruct (fine_chain e t Hl Hn HL n ps T H) as (bts & xs & L1 & C & S1). exists bts, xs. split; [exact L1|]. split; [now apply chain_run|].
    intros w row nm A. rewrite (S1 w row nm A). unfold ent_means, whole2. apply (proj2 (parts2_loose w lo nm e)) in HL. destruct (ent_parts w lo nm e) as [d' a']. cbn [fst] in HL. now subst.
  Qed.

  Variable gts : list tok.
  Variable gxs : list sql.
  Hypothesis G : run gts gxs.
  (** after the tokens of a run *)
  Definition fineL (e : expr) : Prop := simple2 lo e = true -> forall n ps, tree_of lo e = Some n -> emit n ps ->
    exists bts dd x, LL ps bts /\
      (forall rest b us r, stops rest -> R (GAndMore x) rest (b, us) -> R (GOrMore (sor dd b)) us r -> R GOr ((gts ++ TWord #"and" :: bts) ++ rest) r) /\
      forall w row nm, (forall x, nm [x] = row (col x)) ->
        option_map (sql_means w row) dd = fst (led_parts w lo nm (sql_means w row (jn gxs)) e) /\
        sql_means w row x = joined (wAnd w) (wVal w GNil) (snd (led_parts w lo nm (sql_means w row (jn gxs)) e)).
  Lemma led_leaf : forall e t, level e <= 5 -> (forall w nm g, led_parts w lo nm g e = (None, g :: snd (ent_parts w lo nm e))) -> lay e t -> fineL e.
  Proof.
    intros e t LV E Hl Hn n ps T H. destruct (all_fine4 lo nl ident_sql edge_sql heap d dis c col Q e t Hl Hn n ps T H) as (bts & dd & xs & L1 & G1 & S1).
    destruct (k_chain _ _ _ _ G1 LV) as [-> C]. exists bts, None, (fold_left QAnd xs (jn gxs)). split; [exact L1|]. split.
    - intros rest b us r S K1 K2. rewrite <- app_assoc. apply (R_or _ b us r); [|exact K2]. apply (run_and gts gxs G); [reflexivity|]. now apply (chain_more bts xs C).
    - intros w row nm A. rewrite E. cbn [fst snd option_map joined]. split; [reflexivity|]. rewrite means_fold. now rewrite (proj2 (S1 w row nm A)).
  Qed.
  Lemma led_some : forall w nm g e, snd (led_parts w lo nm g e) <> [].
  Proof.
    intros w nm g e. induction e as [v|x|xs|xs|f args|e IH|e IH o t a b|e IH o|e IH o t ls|l IH1 o r IH2|e IH|l IH1 o r IH2]; try discriminate.
    cbn [led_parts]. destruct (is_or o); cbn [snd]; [apply ands_some, snd_some|]. intro K. apply app_eq_nil in K. now destruct K.
  Qed.
  Lemma all_fineL : forall e t, lay e t -> fineL e.
  Proof.
    induction e as [v|x|xs|xs|f args|e IH|e IH o t a b|e IH o|e IH o t ls|l IH1 o r IH2|e IH|l IH1 o r IH2]; intros tx Hl; try (apply (led_leaf _ tx); [cbn [level]; lia|reflexivity|exact Hl]).
    inversion Hl; subst. match goal with K : lay l _ |- _ => pose proof (IH1 _ K) as FL end. match goal with K : lay r _ |- _ => pose proof (all_fine4 lo nl ident_sql edge_sql heap d dis c col Q r _ K) as FR end.
    assert (LV : level r <= 5) by assumption. assert (OP : op_logic o) by assumption. clear IH1 IH2.
    intros Hn n ps T H. cbn [simple2] in Hn. apply andb_prop in Hn as [Hn1 Hn2].
    cbn [tree_of] in T. injection T as <-. destruct (tree_of lo l) as [ml|] eqn:T1; [|inversion H; noval]. destruct (tree_of lo r) as [mr|] eqn:T2; [|inversion H; noval].
    apply emits_logic_inv in H as (w & pa & pb & I1 & M1 & M2 & ->). cbn [nOperation mk_op] in I1. apply (logic_word lo o w OP) in I1. subst w.
    destruct (FL Hn1 _ _ T1 M1) as (b1 & d1 & x1 & L1 & G1 & S1). destruct (FR Hn2 _ _ T2 M2) as (b2 & d2 & xs2 & L2 & G2 & S2). destruct (k_chain _ _ _ _ G2 LV) as [-> C2].
    assert (A2 : forall w row nm, (forall x, nm [x] = row (col x)) -> map (sql_means w row) xs2 = ands w (ent_parts w lo nm r)).
    { intros w row nm A. destruct (S2 w row nm A) as [X1 X2]. unfold ands. destruct (ent_parts w lo nm r) as [d' a']. cbn [fst snd option_map] in X1, X2. now subst. }
    destruct (is_or o) eqn:E.
    - exists (b1 ++ [TWord #"or"] ++ b2), (Some (sor d1 x1)), (jn xs2).
      split; [apply (LE_infix nl ident_sql d); [apply (fix_pad_word nl ident_sql d col Q #"OR"); (discriminate || reflexivity)|reflexivity|exact L1|exact L2]|]. split.
      + intros rest b us x S K1 K2. rewrite <- !app_assoc. cbn [app]. rewrite <- !app_assoc. cbn [app].
        specialize (G1 (TWord #"or" :: b2 ++ rest) x1 (TWord #"or" :: b2 ++ rest) x). rewrite <- !app_assoc in G1. cbn [app] in G1. rewrite <- ?app_assoc in G1. apply G1; [reflexivity|now apply R_and_end|].
        apply (R_or_more _ _ b us); [|exact K2]. now apply (chain_and b2 xs2).
      + intros w row nm A. cbn [led_parts]. rewrite E. cbn [fst snd option_map]. destruct (S1 w row nm A) as [X1 X2]. split.
        * f_equal. unfold whole2. destruct (led_parts w lo nm _ l) as [d' a']. cbn [fst snd] in X1, X2. rewrite <- X2. destruct d1 as [d1|]; cbn [option_map sor sql_means] in *; subst d'; reflexivity.
        * rewrite sm_jn. now rewrite (A2 w row nm A).
    - exists (b1 ++ [TWord #"and"] ++ b2), d1, (fold_left QAnd xs2 x1).
      split; [apply (LE_infix nl ident_sql d); [apply (fix_pad_word nl ident_sql d col Q #"AND"); (discriminate || reflexivity)|reflexivity|exact L1|exact L2]|]. split.
      + intros rest b us x S K1 K2. rewrite <- !app_assoc. cbn [app]. rewrite <- !app_assoc. cbn [app].
        specialize (G1 (TWord #"and" :: b2 ++ rest) b us x). rewrite <- !app_assoc in G1. cbn [app] in G1. rewrite <- ?app_assoc in G1. apply G1; [reflexivity| |exact K2]. now apply (chain_more b2 xs2 C2).
      + intros w row nm A. cbn [led_parts]. rewrite E. cbn [fst snd option_map]. destruct (S1 w row nm A) as [X1 X2]. split; [exact X1|]. rewrite means_fold, X2, (A2 w row nm A). apply fold_joined. apply led_some.
  Qed.
End SE.

Section Mini.
  Variable lo : N -> N.
  Variable nl : list N -> option (list N * list N).
  Variable ident_sql : list N -> list N -> list N.
  Variable edge_sql : bool -> list N -> gnode -> gspec -> gnode -> option (list N * list N).
  Variable heap : nat -> gnode.
  Variable d : list N.
  Variable dis : bool.
  Variable nd : option nat.
  Variable col : list N -> list N.
  Hypothesis Q : quotes nl (ident_sql d) col ident.
  Notation mini := (mini_fn lo ident_sql edge_sql heap dis nd).
  Lemma mini_text : forall q n ps, parse lo q = Ok (Some n) -> emits edge_sql heap d dis nd n ps -> forall k, mini q d k = Some (sql_of ident_sql d k ps, sargs ps, []).
  Proof.
    intros q n ps Hp H k. unfold mini_fn, query. cbn [mAst mQuery]. rewrite Hp. unfold mrun_ast. cbn [mDisable mNode mSt set_ast].
    rewrite (emits_visit ident_sql edge_sql heap d dis nd n ps H (SB [] [] k d [])) by reflexivity. reflexivity.
  Qed.
  Lemma mini_pieces : forall q e m t a, valid_runes q -> reads q e -> simple2 lo e = true ->
    query lo ident_sql edge_sql heap (fresh d dis nd q) = Some (m, (t, a)) -> no_error m ->
    exists n ps tx, tree_of lo e = Some n /\ emits edge_sql heap d dis nd n ps /\ lay e tx /\ forall k, mini q d k = Some (sql_of ident_sql d k ps, sargs ps, []).
  Proof.
    intros q e m t a Hq He Hn H HE. pose proof (simple2_json_free lo e Hn) as Hj.
    destruct (query_complete lo ident_sql edge_sql heap d dis nd q m t a Hq H HE) as (n & ps & Hp & K & _ & _).
    assert (Hf : fits e = true).
    { destruct (parse_ok_inv lo q _ Hq Hp) as (e2 & H2 & Hf & _). now rewrite (reads_unique _ _ _ He H2). }
    pose proof (parse_spec lo q e Hq He Hf Hj) as Hp'. rewrite Hp in Hp'. injection Hp' as Hp'. symmetry in Hp'. destruct He as (w1 & tx & w2 & _ & _ & _ & Hl).
    exists n, ps, tx. split; [exact Hp'|]. split; [exact K|]. split; [exact Hl|]. now apply mini_text with n.
  Qed.
  Lemma mini_stands : forall q ps bts, LE nl ident_sql d ps bts -> (forall k, mini q d k = Some (sql_of ident_sql d k ps, sargs ps, [])) -> writes nl d (mini q) bts.
  Proof. intros q ps bts L E pre. exists (sql_of ident_sql d (N.of_nat (length pre)) ps), (sargs ps). split; [apply E|]. intros post rest br N K. exact (L pre post rest br N K). Qed.

  Lemma mini_conjuncts : forall q e m t a, valid_runes q -> reads q e -> simple2 lo e = true -> loose_or e = false ->
    query lo ident_sql edge_sql heap (fresh d dis nd q) = Some (m, (t, a)) -> no_error m ->
    exists xs, conjuncts nl d (mini q) xs /\ forall w row nm, (forall x, nm [x] = row (col x)) -> joined (wAnd w) (wVal w GNil) (map (sql_means w row) xs) = ent_means w lo nm e.
  Proof.
    intros q e m t a Hq He Hn HL H HE. destruct (mini_pieces q e m t a Hq He Hn H HE) as (n & ps & tx & T & K & Hl & E).
    destruct (fine_run lo nl ident_sql edge_sql heap d dis nd col Q e tx Hl Hn HL n ps T K) as (bts & xs & L1 & R1 & S1).
    exists xs. split; [exists bts; split; [now apply mini_stands with ps|exact R1]|]. exact S1.
  Qed.
  Lemma led_reads : forall fs xss q e m t a, fs <> [] -> Forall2 (conjuncts nl d) fs xss -> valid_runes q -> reads q e -> simple2 lo e = true ->
    query lo ident_sql edge_sql heap (fresh d dis nd q) = Some (m, (t, a)) -> no_error m ->
    exists t x b, where_text d (fs ++ [mini q]) = Some (t, x, []) /\ reads_sql nl d t (map arg_value x) b /\
      forall w row nm, (forall x, nm [x] = row (col x)) ->
        sql_means w row b = led w lo nm (joined (wAnd w) (wVal w GNil) (map (sql_means w row) (concat xss))) e.
  Proof.
    intros fs xss q e m t a NE F Hq He Hn H HE. destruct (mini_pieces q e m t a Hq He Hn H HE) as (n & ps & tx & T & K & Hl & E).
    destruct F as [|f xs fs xss C F]; [congruence|]. destruct (all_ok nl d (proj1 Q) f xs fs xss C F) as [(gts & gxs & W & G & J) _].
    destruct (all_fineL lo nl ident_sql edge_sql heap d dis nd col Q gts gxs G e tx Hl Hn n ps T K) as (bts & dd & x & L1 & G1 & S1).
    pose proof (writes_then nl d (proj1 Q) _ _ _ _ W (mini_stands q ps bts L1 E)) as W2. destruct (writes_reads nl d _ _ (sor dd x) W2) as (t' & y & E' & RD).
    - specialize (G1 [] x [] (sor dd x, []) I). rewrite app_nil_r in G1. apply G1; [now apply R_and_end|now apply R_or_end].
    - exists t', y, (sor dd x). split; [|split; [exact RD|]].
      + unfold where_text. cbn [app]. rewrite wheres_cons, fold_left_app. exact E'.
      + intros w row nm A. destruct (S1 w row nm A) as [X1 X2]. rewrite J in X1, X2. rewrite sm_jn in X1, X2. cbn [concat]. unfold led, whole2.
        destruct (led_parts w lo nm _ e) as [d' a']. cbn [fst snd] in X1, X2. rewrite <- X2. destruct dd as [dd|]; cbn [option_map sor sql_means] in *; subst d'; reflexivity.
  Qed.
  Lemma trailed_reads : forall g ys fs yss q e m t a, conjuncts nl d g ys -> Forall2 (conjuncts nl d) fs yss -> valid_runes q -> reads q e -> simple2 lo e = true ->
    query lo ident_sql edge_sql heap (fresh d dis nd q) = Some (m, (t, a)) -> no_error m ->
    exists t x b, where_text d (mini q :: g :: fs) = Some (t, x, []) /\ reads_sql nl d t (map arg_value x) b /\
      forall w row nm, (forall x, nm [x] = row (col x)) ->
        sql_means w row b = fold_left (wAnd w) (map (sql_means w row) (concat yss)) (trailed w lo nm e (map (sql_means w row) ys)).
  Proof.
    intros g ys fs yss q e m t a (bg & WG & RG) F Hq He Hn H HE. destruct (mini_pieces q e m t a Hq He Hn H HE) as (n & ps & tx & T & K & Hl & E).
    destruct (all_fine4 lo nl ident_sql edge_sql heap d dis nd col Q e tx Hl Hn n ps T K) as (bts & dd & xs & L1 & G1 & S1).
    set (b0 := sor dd (fold_left QAnd ys (jn xs))). assert (W : whole_ok nl d (EAnd (EFn (mini q)) (EFn g)) b0).
    { exists (bts ++ TWord #"and" :: bg). split; [exact (writes_then nl d (proj1 Q) _ _ _ _ (mini_stands q ps bts L1 E) WG)|].
      intros rest A. destruct (end_words rest A) as (E1 & E2 & E3). rewrite <- app_assoc. apply (k_or _ _ _ _ G1 _ (fold_left QAnd ys (jn xs)) rest); [reflexivity| |now apply R_or_end].
      cbn [app]. apply (run_chain bg ys RG); [exact E1|now apply R_and_end]. }
    destruct (more_ok nl d (proj1 Q) fs yss F _ _ (both_ok nl d (proj1 Q) _ _ _ W)) as [_ W2]. destruct (whole_text nl d _ _ (W2 (or_introl W))) as (t' & y & E' & RD).
    exists t', y, (fold_left QAnd (concat yss) b0). split; [|split; [exact RD|]].
    - unfold where_text. rewrite wheres_cons. exact E'.
    - intros w row nm A. rewrite means_fold. f_equal. subst b0. destruct (S1 w row nm A) as [X1 X2]. unfold trailed, whole2. pose proof (snd_some w lo nm e) as X3. destruct (ent_parts w lo nm e) as [d' a']. cbn [fst snd] in *.
      rewrite <- fold_joined by exact X3. rewrite <- X2, <- sm_jn. rewrite <- means_fold. destruct dd as [dd|]; cbn [option_map sor sql_means] in *; subst d'; reflexivity.
  Qed.
End Mini.

(** ** Where the condition before or after counts *)
Lemma led_loose : forall w lo nm g e, fst (led_parts w lo nm g e) = None <-> loose_or e = false.
Proof.
  intros w lo nm g. induction e as [v|x|xs|xs|f args|e IH|e IH o t a b|e IH o|e IH o t ls|l IH1 o r IH2|e IH|l IH1 o r IH2]; try (split; reflexivity).
  cbn [led_parts loose_or]. destruct (is_or o); cbn [orb fst]; [split; discriminate|exact IH1].
Qed.
Lemma led_tight : forall w lo nm g e, loose_or e = false -> snd (led_parts w lo nm g e) = g :: snd (ent_parts w lo nm e).
Proof.
  intros w lo nm g. induction e as [v|x|xs|xs|f args|e IH|e IH o t a b|e IH o|e IH o t ls|l IH1 o r IH2|e IH|l IH1 o r IH2]; try reflexivity.
  cbn [led_parts ent_parts loose_or]. intro H. apply Bool.orb_false_iff in H as [HO HL]. rewrite HO. cbn [snd]. now rewrite (IH1 HL).
Qed.
Lemma led_and : forall w lo nm g e, lawful w -> loose_or e = false -> led w lo nm g e = wAnd w g (ent_means w lo nm e).
Proof.
  intros w lo nm g e W H. unfold led, ent_means. pose proof (proj2 (led_loose w lo nm g e) H) as H1. pose proof (led_tight w lo nm g e H) as H2.
  pose proof (proj2 (parts2_loose w lo nm e) H) as H3. pose proof (snd_some w lo nm e) as H4. destruct (led_parts w lo nm g e) as [d1 a1], (ent_parts w lo nm e) as [d2 a2]. cbn [fst snd] in *. subst.
  cbn [whole2]. exact (all_app w W [g] a2 ltac:(discriminate) H4).
Qed.
Lemma trailed_and : forall w lo nm e gs, lawful w -> gs <> [] -> loose_or e = false -> trailed w lo nm e gs = wAnd w (ent_means w lo nm e) (joined (wAnd w) (wVal w GNil) gs).
Proof.
  intros w lo nm e gs W N H. unfold trailed, ent_means. pose proof (proj2 (parts2_loose w lo nm e) H) as H3. pose proof (snd_some w lo nm e) as H4. destruct (ent_parts w lo nm e) as [d2 a2]. cbn [fst snd] in *. subst.
  cbn [whole2]. exact (all_app w W a2 gs H4 N).
Qed.
Lemma led_exact : forall lo e, (forall w nm g, lawful w -> led w lo nm g e = wAnd w g (ent_means w lo nm e)) <-> loose_or e = false.
Proof.
  intros lo e. split; [|intros H w nm g W; now apply led_and]. intro H. specialize (H free2 (fun _ => []) [QVal GNil; QVal GNil] lawful_free2). apply (led_loose free2 lo (fun _ => []) [QVal GNil; QVal GNil] e).
  unfold led in H. destruct (led_parts free2 lo _ _ e) as [[x|] a]; [|reflexivity]. exfalso. cbn [whole2 wOr wAnd free2 app] in H. discriminate H.
Qed.
Lemma trailed_exact : forall lo e, (forall w nm gs, lawful w -> gs <> [] -> trailed w lo nm e gs = wAnd w (ent_means w lo nm e) (joined (wAnd w) (wVal w GNil) gs)) <-> loose_or e = false.
Proof.
  intros lo e. split; [|intros H w nm gs W N; now apply trailed_and]. intro H. specialize (H free2 (fun _ => []) [[QVal GNil; QVal GNil]] lawful_free2 ltac:(discriminate)). apply (parts2_loose free2 lo (fun _ => []) e).
  unfold trailed in H. destruct (ent_parts free2 lo _ e) as [[x|] a]; [|reflexivity]. exfalso. cbn [fst snd whole2 wOr wAnd free2 joined fold_left] in H. apply (f_equal (@length sql)) in H. rewrite app_length in H. cbn [length] in H. lia.
Qed.
