(** Facts about entsql. *)
From Verif Require Import Base Peg Node Vocab Tree Parse Syntax ParseProofs ParserFacts ParserFacts2 ParserMain Build BuildProofs NodeFacts SafeInd
  Gorm GormSpec GormProofs GormFacts GormFacts2 GormFacts3 GormSample GormFacts4 EntSQL EntSQLSpec.
Require Import Arith.
Strategy expand [parse_machine rule_trace].
Strategy 1000 [parse_fuel mrun tok_trace].

Lemma words_assoc : forall o w, In (o, w) pred_words <-> exists p, assoc o entsql_ops = Some p /\ w = bText (write_op p (SB [] [] 0 [] [])).
Proof.
  intros o w. unfold entsql_ops. cbn [assoc]. split.
  - intro H. cbn in H. decompose [or] H; try contradiction; match goal with K : _ = (o, w) |- _ => injection K as <- <- end; eexists; (split; [reflexivity|reflexivity]).
  - intros (p & H & ->). revert H.
    repeat match goal with |- context [streq o ?w] => destruct (streq_spec o w) as [K|_]; [subst o; intros [= <-]; cbn; tauto|] end. discriminate.
Qed.
Lemma pred_known : forall o, In o (map fst pred_words) <-> assoc o entsql_ops <> None.
Proof.
  intro o. split.
  - intro H. apply in_map_iff in H as ((x & w) & <- & H). apply words_assoc in H as (p & H & _). cbn [fst]. now rewrite H.
  - intro H. destruct (assoc o entsql_ops) as [p|] eqn:E; [|congruence]. apply in_map_iff. exists (o, bText (write_op p (SB [] [] 0 [] []))).
    split; [reflexivity|]. apply words_assoc. eauto.
Qed.

(** ** Builders only grow *)
Lemma join_join : forall t1 a1 e1 t2 a2 e2 b, join t2 a2 e2 (join t1 a1 e1 b) = join (t1 ++ t2) (a1 ++ a2) (e1 ++ e2) b.
Proof. intros. unfold join. cbn. rewrite !app_assoc, app_length, Nat2N.inj_add, N.add_assoc. reflexivity. Qed.
Lemma join_nil : forall b, join [] [] [] b = b.
Proof. intros [t a n d e]. unfold join. cbn. now rewrite !app_nil_r, N.add_0_r. Qed.
Lemma join_write : forall t b, write t b = join t [] [] b.
Proof. intros t [x a n d e]. unfold join, write. cbn. now rewrite !app_nil_r, N.add_0_r. Qed.
Lemma join_op : forall o b, write_op o b = join (bText (write_op o (SB [] [] 0 [] []))) [] [] b.
Proof. intros o b. unfold write_op, pad. destruct o; rewrite !join_write, !join_join; reflexivity. Qed.
Lemma join_dialect : forall t a e b, bDialect (join t a e b) = bDialect b.
Proof. reflexivity. Qed.
Lemma join_total : forall t a e b, bTotal (join t a e b) = (bTotal b + N.of_nat (length a))%N.
Proof. reflexivity. Qed.

Section ESQL.
  Variable lo : N -> N.
  Variable ident_sql : list N -> list N -> list N.
  Variable edge_sql : bool -> list N -> gnode -> gspec -> gnode -> option (list N * list N).
  Variable heap : nat -> gnode.
  Notation visit := (svisit ident_sql edge_sql heap).
  Notation sql := (sql_of ident_sql).
  Notation emits := (emits edge_sql heap).
  Notation edge_to := (edge_to edge_sql heap).

  Lemma sargs_app : forall a b, sargs (a ++ b) = sargs a ++ sargs b.
  Proof. intros. unfold sargs. now rewrite map_app, concat_app. Qed.
  Lemma sql_app : forall d a b k, sql d k (a ++ b) = sql d k a ++ sql d (k + N.of_nat (length (sargs a))) b.
  Proof.
    intros d a. induction a as [|p a IH]; intros b k; cbn [app]; [cbn; now rewrite N.add_0_r|].
    destruct p; cbn [sql_of]; rewrite IH, ?app_assoc; try reflexivity. do 2 f_equal. cbn [sargs map concat app length]. unfold sargs. lia.
  Qed.
  (** writing pieces *)
  Definition put (d : list N) (ps : list spiece) (b : sqlb) : sqlb := join (sql d (bTotal b) ps) (sargs ps) [] b.
  Lemma put_app : forall d a b x, put d (a ++ b) x = put d b (put d a x).
  Proof. intros. unfold put. rewrite join_join, join_total, sql_app, sargs_app. reflexivity. Qed.
  Lemma put_fix : forall d t x, write t x = put d [SFix t] x.
  Proof. intros. unfold put. rewrite join_write. cbn. now rewrite app_nil_r. Qed.
  Lemma put_three : forall d x y z b, put d [SFix x] (put d [SFix y] (put d [SFix z] b)) = put d [SFix (z ++ y ++ x)] b.
  Proof. intros. unfold put. rewrite !join_join. cbn [sql_of sargs map concat app]. now rewrite !app_nil_r. Qed.
  Lemma put_arg : forall (dis : bool) v x, write_arg (if dis then APlain v else ACast v) x = put (bDialect x) [scalar_piece dis v] x.
  Proof.
    intros dis v [t a n d e]. unfold put, join, scalar_piece. destruct dis.
    - destruct v; cbn [write_arg sql_of sargs map concat app length bText bArgs bTotal bDialect bErrs N.of_nat Pos.of_succ_nat]; unfold holder, is_postgres, write; try (destruct (streq d #"postgres"));
        cbn [bText bArgs bTotal bDialect bErrs]; rewrite ?app_nil_r, ?N.add_0_r; reflexivity.
    - destruct v; cbn [write_arg sql_of sargs map concat app length bText bArgs bTotal bDialect bErrs N.of_nat Pos.of_succ_nat];
        unfold holder, format_param, is_postgres; destruct (streq d #"postgres"); cbn [cast_suffix]; rewrite ?app_nil_r, <- ?app_assoc; reflexivity.
  Qed.
  Lemma put_args : forall vs x, write_args (map APlain vs) x = put (bDialect x) (commas vs) x.
  Proof.
    induction vs as [|v vs IH]; intro x; [unfold put; cbn; now rewrite join_nil|].
    destruct vs as [|w vs]; [exact (put_arg true v x)|].
    change (write_args (map APlain (v :: w :: vs)) x) with (write_args (map APlain (w :: vs)) (write #", " (write_arg (APlain v) x))).
    change (commas (v :: w :: vs)) with ([scalar_piece true v] ++ [SFix #", "] ++ commas (w :: vs)).
    rewrite IH, !put_app, (put_fix (bDialect x)), <- (put_arg true v x). cbn [bDialect]. f_equal.
    unfold put, join. cbn [bDialect]. now destruct v.
  Qed.
  Lemma put_op : forall d o x, write_op o x = put d [SFix (bText (write_op o (SB [] [] 0 [] [])))] x.
  Proof. intros. rewrite join_op. unfold put. cbn [sql_of sargs map concat]. now rewrite app_nil_r. Qed.
  Lemma put_dialect : forall d ps x, bDialect (put d ps x) = bDialect x.
  Proof. reflexivity. Qed.

  Lemma infix_cases : forall o w, In (o, w) infix_words ->
    (exists p, assoc o entsql_ops = Some p /\ w = bText (write_op p (SB [] [] 0 [] []))) \/
    (assoc o entsql_ops = None /\ streq o #"not like" || streq o #"and" || streq o #"or" = true /\ w = #" " ++ to_upper o ++ #" ").
  Proof.
    intros o w H. unfold infix_words in H. apply in_app_or in H as [H|H]; [left; now apply words_assoc|right].
    cbn in H. decompose [or] H; try contradiction; match goal with K : _ = (o, w) |- _ => injection K as <- <- end; repeat split; reflexivity.
  Qed.
  Lemma infix_known : forall o, In o (map fst infix_words) <-> assoc o entsql_ops <> None \/ streq o #"not like" || streq o #"and" || streq o #"or" = true.
  Proof.
    intro o. unfold infix_words. rewrite map_app, in_app_iff, pred_known. cbn [map fst].
    destruct (streq_spec o #"not like"); [subst; cbn; tauto|]. destruct (streq_spec o #"and"); [subst; cbn; tauto|]. destruct (streq_spec o #"or"); [subst; cbn; tauto|].
    cbn [orb In]. split; [|intros [H|H]; [now left|discriminate]]. intros [H|[H|[H|[H|[]]]]]; [now left|congruence..].
  Qed.
  Lemma edge_step_to : forall w d c x t s1 s2, edge_to d w c x t s1 s2 -> exists spec, assoc x (gnEdges (heap c)) = Some (Some t, Some spec) /\
    edge_step edge_sql heap w d (heap c) (Some t, Some spec) = Some (t, (s1, s2)).
  Proof.
    intros w d c x t s1 s2 (spec & H1 & H2 & H3 & H4). exists spec. split; [exact H1|]. unfold edge_step. destruct (gnID (heap c)); [|congruence].
    destruct (gnID (heap t)); [|congruence]. now rewrite H4.
  Qed.
  Lemma edge_step_inv : forall w d c x edge, assoc x (gnEdges (heap c)) = Some edge ->
    match edge_step edge_sql heap w d (heap c) edge with
    | Some (t, (s1, s2)) => edge_to d w c x t s1 s2
    | None => ~ exists t s1 s2, edge_to d w c x t s1 s2
    end.
  Proof.
    intros w d c x edge H. destruct (edge_step edge_sql heap w d (heap c) edge) as [(t & (s1 & s2))|] eqn:E.
    - unfold edge_step in E. destruct edge as [[t'|] [spec|]]; try discriminate. destruct (gnID (heap c)) eqn:E1; [|discriminate].
      destruct (gnID (heap t')) eqn:E2; [|discriminate]. destruct (edge_sql w d (heap c) spec (heap t')) as [[u1 u2]|] eqn:E3; [|discriminate]. injection E as <- <- <-.
      exists spec. repeat split; try assumption; congruence.
    - intros (t & s1 & s2 & K). destruct (edge_step_to w d c x t s1 s2 K) as (spec & K1 & K2). rewrite H in K1. injection K1 as ->. congruence.
  Qed.

  (** ** A rendered tree is written *)
  Lemma emits_visit : forall d dis c n ps, emits d dis c n ps -> forall b, bDialect b = d ->
    visit dis c n (ST b None) = Some (ST (put d ps b) None, None).
  Proof.
    intros d dis c n ps H.
    assert (INF : forall c l k r w a a', In (nOperation k, w) infix_words ->
      (forall b, bDialect b = d -> visit dis c l (ST b None) = Some (ST (put d a b) None, None)) ->
      (forall b, bDialect b = d -> visit dis c r (ST b None) = Some (ST (put d a' b) None, None)) ->
      forall b, bDialect b = d ->
      match visit dis c l (ST b None), Some k with
      | Some (s, e), Some o =>
          match assoc (nOperation o) entsql_ops with
          | Some op => unless_err (Some (emit (write_op op) s, e)) (visit dis c r)
          | None =>
              if streq (nOperation o) #"not like" || streq (nOperation o) #"and" || streq (nOperation o) #"or"
              then unless_err (Some (emit (fun b => pad (write (to_upper (nOperation o)) (pad b))) s, e)) (visit dis c r)
              else Some (s, Some (SOp (nOperation o)))
          end
      | _, _ => None
      end = Some (ST (put d (a ++ SFix w :: a') b) None, None)).
    { intros c' l k r w a a' HW IHl IHr b Hb. rewrite (IHl b Hb). change (a ++ SFix w :: a') with (a ++ [SFix w] ++ a'). rewrite !put_app.
      destruct (infix_cases _ _ HW) as [(p & -> & ->)|(-> & -> & ->)]; cbn [unless_err emit sExt sOwn].
      - rewrite (put_op d), IHr; [reflexivity|exact Hb].
      - unfold pad. rewrite !(put_fix d), put_three, IHr by exact Hb. reflexivity. }
    induction H as [c n v G HA|c l vs G|c x|c e ps _ IH|c e ps _ IH|c a rest ps _ IH|c p t s1 s2 HN HE|c p e t s1 s2 ps HN HE HX _ IH|c l k w ps HW _ IH
      |c l k r w a a' HW _ IHl _ IHr|c l k r w a a' HW _ IHl _ IHr|c l k x y a a' e HK _ IHl _ IHx _ IHy|c l k x y a a' e HK _ IHl _ IHx _ IHy]; intros b Hb.
    - pose proof (go_value_type n v G) as HT. pose proof (go_value_value n v G) as HV. destruct n as [ty vt i bo st fl arr op na ns ex le oo ri pa]. cbn [nType] in HT. subst ty.
      cbn [svisit nType nVType]. rewrite HV. assert (HN : vt <> VArray). { intros ->. cbn in HV. destruct (_ arr) as [xs|] in HV; [|discriminate]. injection HV as <-. now apply (HA xs). }
      destruct vt; try congruence; cbn [emit sExt sOwn]; rewrite put_arg, Hb; reflexivity.
    - pose proof (go_value_value _ _ (gv_array l vs G)) as HV. cbn [svisit mk_array nType nVType]. unfold mk_array in HV. rewrite HV. cbn [emit sExt sOwn]. rewrite (put_fix d), put_args, (put_fix d).
      change (SFix #"(" :: commas vs ++ [SFix #")"]) with ([SFix #"("] ++ commas vs ++ [SFix #")"]). rewrite !put_app, put_dialect, Hb. reflexivity.
    - cbn [svisit mk_ident nType nName emit sExt sOwn]. rewrite Hb, join_write. unfold put. cbn [sql_of sargs map concat]. now rewrite app_nil_r.
    - cbn [svisit mk_paren nType nExpression emit sExt sOwn]. rewrite (put_fix d), IH by exact Hb. cbn [always emit sExt sOwn]. rewrite (put_fix d).
      change (SFix #"(" :: ps ++ [SFix #")"]) with ([SFix #"("] ++ ps ++ [SFix #")"]). now rewrite !put_app.
    - cbn [svisit mk_not nType nExpression emit sExt sOwn]. rewrite (put_fix d), IH by exact Hb. change (SFix #"NOT " :: ps) with ([SFix #"NOT "] ++ ps). now rewrite !put_app.
    - cbn [svisit mk_function nType nName nParams]. change (streq #"date" #"date") with true. cbn [emit sExt sOwn]. rewrite (put_fix d), IH by exact Hb.
      cbn [always emit sExt sOwn]. rewrite (put_fix d). change (SFix #"DATE(" :: ps ++ [SFix #")"]) with ([SFix #"DATE("] ++ ps ++ [SFix #")"]). now rewrite !put_app.
    - cbn [svisit mk_function nType nName nParams]. change (streq #"has_edge" #"date") with false. change (streq #"has_edge" #"has_edge") with true. cbn [sOwn].
      destruct (streq_spec (nName p) []); [contradiction|]. destruct (edge_step_to _ _ _ _ _ _ _ HE) as (spec & E1 & E2). rewrite E1, Hb, E2.
      unfold own, put. cbn [sOwn sExt sql_of sargs map concat]. now rewrite app_nil_r.
    - cbn [svisit mk_function nType nName nParams]. change (streq #"has_edge" #"date") with false. change (streq #"has_edge" #"has_edge") with true. cbn [sOwn].
      destruct (streq_spec (nName p) []); [contradiction|]. destruct (edge_step_to _ _ _ _ _ _ _ HE) as (spec & E1 & E2). rewrite E1. change (isExpression e) with (compound e). rewrite HX, Hb, E2. cbn [negb].
      rewrite IH by reflexivity. unfold own, put. cbn [sOwn sExt sql_of bTotal join bText bArgs bErrs]. rewrite sql_app. cbn [sql_of].
      change (SEdge s1 :: ps ++ [SEdge s2]) with ([SEdge s1] ++ ps ++ [SEdge s2]). rewrite !sargs_app. cbn [sargs map concat app]. now rewrite !app_nil_r.
    - cbn [svisit mk_predicate nType nLeft nOp]. apply words_assoc in HW as (p & -> & ->). rewrite IH by exact Hb. cbn [always emit sExt sOwn]. now rewrite (put_op d), put_app.
    - exact (INF c l k r w a a' HW IHl IHr b Hb).
    - exact (INF c l k r w a a' HW IHl IHr b Hb).
    - cbn [svisit mk_between nType nLeft nOp nParams]. destruct (streq_spec (nOperation k) #"not between"); [contradiction|].
      rewrite IHl by exact Hb. cbn [unless_err emit sExt sOwn]. rewrite (put_op d), IHx by exact Hb. cbn [unless_err emit sExt sOwn]. rewrite (put_fix d), IHl by exact Hb.
      cbn [unless_err emit sExt sOwn]. rewrite (put_op d), IHy by exact Hb.
      change (a ++ SFix #" >= " :: a' ++ SFix #" AND " :: a ++ SFix #" <= " :: e) with (a ++ [SFix #" >= "] ++ a' ++ [SFix #" AND "] ++ a ++ [SFix #" <= "] ++ e).
      now rewrite !put_app.
    - cbn [svisit mk_between nType nLeft nOp nParams]. destruct (streq_spec (nOperation k) #"not between"); [|contradiction].
      rewrite IHl by exact Hb. cbn [unless_err emit sExt sOwn]. rewrite (put_op d), IHx by exact Hb. cbn [unless_err emit sExt sOwn]. rewrite (put_fix d), IHl by exact Hb.
      cbn [unless_err emit sExt sOwn]. rewrite (put_op d), IHy by exact Hb.
      change (a ++ SFix #" < " :: a' ++ SFix #" AND " :: a ++ SFix #" > " :: e) with (a ++ [SFix #" < "] ++ a' ++ [SFix #" AND "] ++ a ++ [SFix #" > "] ++ e).
      now rewrite !put_app.
  Qed.

  (** ** The outcomes of a visit *)
  Definition grows (d : list N) (f : sqlb -> sres) (e : option serr) (es : list serr) : Prop :=
    forall b, bDialect b = d -> exists t a, f b = Some (ST (join t a es b) None, e).
  Notation deep := (deep edge_sql heap).
  Notation hazard := (hazard edge_sql heap).
  Notation unsupported := (unsupported heap).
  Definition reason (d : list N) (dis : bool) (c : option nat) (n : node) (e : option serr) (es : list serr) : Prop :=
    match e, es with
    | Some _, _ => exists m, visits n m /\ unsupported c m
    | None, [] => exists ps, emits d dis c n ps
    | None, _ :: _ => exists c' m, deep d c n c' m /\ unsupported c' m
    end.
  Definition panics (d : list N) (f : sqlb -> sres) : Prop := forall b, bDialect b = d -> f b = None.
  Definition result (d : list N) (dis : bool) (c : option nat) (n : node) : Prop :=
    (panics d (fun b => visit dis c n (ST b None)) /\ exists c' m, deep d c n c' m /\ hazard d c' m) \/
    (exists e es, grows d (fun b => visit dis c n (ST b None)) e es /\ reason d dis c n e es).
  Lemma deep_lift : forall d n n' c c' m, (forall m, visits n m -> visits n' m) -> deep d c n c' m -> deep d c n' c' m.
  Proof. intros d n n' c c' m H D. inversion D; subst; [apply deep_here; auto|eapply deep_edge; eauto]. Qed.
  Lemma emits_grows : forall d dis c n ps, emits d dis c n ps -> grows d (fun b => visit dis c n (ST b None)) None [].
  Proof. intros d dis c n ps H b Hb. eexists _, _. now rewrite (emits_visit d dis c n ps H b Hb). Qed.
  Lemma result_emits : forall d dis c n ps, emits d dis c n ps -> result d dis c n.
  Proof. intros d dis c n ps H. right. exists None, []. split; [now apply (emits_grows _ _ _ _ ps)|]. now exists ps. Qed.
  Lemma result_fails : forall d dis c n e, (forall b, bDialect b = d -> visit dis c n (ST b None) = Some (ST b None, Some e)) -> unsupported c n -> result d dis c n.
  Proof.
    intros d dis c n e H U. right. exists (Some e), []. split; [|exists n; split; [constructor|exact U]]. intros b Hb. exists [], []. rewrite (H b Hb). now rewrite join_nil.
  Qed.
  (** sequencing: [l] first, then a text, then what [k] does *)
  Lemma grows_write : forall d f e es t (g : sst -> sst), (forall b, g (ST b None) = ST (join t [] [] b) None) -> grows d f e es -> grows d (fun b => always (f b) g) e es.
  Proof.
    intros d f e es t g Hg H b Hb. destruct (H b Hb) as (u & a & E). exists (u ++ t), a. rewrite E. cbn [always]. now rewrite Hg, join_join, !app_nil_r.
  Qed.
  Lemma grows_after : forall d f e es t, grows d f e es -> grows d (fun b => f (join t [] [] b)) e es.
  Proof.
    intros d f e es t H b Hb. destruct (H (join t [] [] b) Hb) as (u & a & E). exists (t ++ u), a. rewrite E, join_join. reflexivity.
  Qed.
  Lemma grows_then : forall d f es e2 es2 k, grows d f None es -> grows d (fun b => k (ST b None)) e2 es2 -> grows d (fun b => unless_err (f b) k) e2 (es ++ es2).
  Proof.
    intros d f es e2 es2 k H K b Hb. destruct (H b Hb) as (u & a & E). rewrite E. cbn [unless_err]. destruct (K (join u a es b) Hb) as (u2 & a2 & E2).
    exists (u ++ u2), (a ++ a2). now rewrite E2, join_join.
  Qed.
  Lemma grows_stop : forall d f e es k, grows d f (Some e) es -> grows d (fun b => unless_err (f b) k) (Some e) es.
  Proof. intros d f e es k H b Hb. destruct (H b Hb) as (u & a & E). exists u, a. now rewrite E. Qed.
  Lemma panics_then : forall d f es k, grows d f None es -> panics d (fun b => k (ST b None)) -> panics d (fun b => unless_err (f b) k).
  Proof. intros d f es k H K b Hb. destruct (H b Hb) as (u & a & E). rewrite E. cbn [unless_err]. now apply K. Qed.

  Lemma infix_result : forall d dis c l k r (mk : option node -> option node -> option node -> node), (mk = mk_compare \/ mk = mk_logic) ->
    result d dis c l -> result d dis c r -> result d dis c (mk (Some l) (Some k) (Some r)).
  Proof.
    intros d dis c l k r mk Hmk Hl Hr.
    assert (VL : forall m, visits l m -> visits (mk (Some l) (Some k) (Some r)) m) by (intros m H; destruct Hmk as [-> | ->]; now constructor).
    assert (VR : forall m, visits r m -> visits (mk (Some l) (Some k) (Some r)) m) by (intros m H; destruct Hmk as [-> | ->]; [now apply vis_cmp_r|now apply vis_logic_r]).
    assert (UN : ~ In (nOperation k) (map fst infix_words) -> unsupported c (mk (Some l) (Some k) (Some r))) by (intros H; destruct Hmk as [-> | ->]; now constructor).
    assert (EM : forall w a b, In (nOperation k, w) infix_words -> emits d dis c l a -> emits d dis c r b -> exists ps, emits d dis c (mk (Some l) (Some k) (Some r)) ps).
    { intros w a b H1 H2 H3. exists (a ++ SFix w :: b). destruct Hmk as [-> | ->]; [now apply em_compare|now apply em_logic]. }
    set (n := mk (Some l) (Some k) (Some r)) in *.
    assert (EV : forall b, visit dis c n (ST b None) = match visit dis c l (ST b None), Some k with
      | Some (s, e), Some o =>
          match assoc (nOperation o) entsql_ops with
          | Some op => unless_err (Some (emit (write_op op) s, e)) (visit dis c r)
          | None =>
              if streq (nOperation o) #"not like" || streq (nOperation o) #"and" || streq (nOperation o) #"or"
              then unless_err (Some (emit (fun b => pad (write (to_upper (nOperation o)) (pad b))) s, e)) (visit dis c r)
              else Some (s, Some (SOp (nOperation o)))
          end
      | _, _ => None
      end) by (intro b; subst n; destruct Hmk as [-> | ->]; reflexivity).
    clearbody n.
    destruct Hl as [(Hp & c' & m & D & Z)|(e & es & G & R)].
    { left. split; [|exists c', m; split; [now apply (deep_lift d l n)|exact Z]]. intros b Hb. now rewrite EV, (Hp b Hb). }
    destruct (in_dec (list_eq_dec N.eq_dec) (nOperation k) (map fst infix_words)) as [HK|HK].
    - assert (T : exists t, exists g : sst -> sst, (forall b, g (ST b None) = ST (join t [] [] b) None) /\ In (nOperation k, t) infix_words /\
        (forall b, visit dis c n (ST b None) = unless_err (always (visit dis c l (ST b None)) g) (visit dis c r))).
      { apply in_map_iff in HK as ((o & w) & E & HK). cbn [fst] in E. subst o. exists w. destruct (infix_cases _ _ HK) as [(p & E1 & E2)|(E1 & E2 & E3)].
        - exists (emit (write_op p)). split; [intro b; cbn; now rewrite join_op, E2|]. split; [exact HK|]. intro b. rewrite EV.
          destruct (visit dis c l (ST b None)) as [[s e']|]; [|reflexivity]. now rewrite E1.
        - exists (emit (fun b => pad (write (to_upper (nOperation k)) (pad b)))). split; [|split; [exact HK|]].
          + intro b. cbn. unfold pad. rewrite !join_write, !join_join, E3, ?app_nil_r, <- ?app_assoc. reflexivity.
          + intro b. rewrite EV. destruct (visit dis c l (ST b None)) as [[s e']|]; [|reflexivity]. now rewrite E1, E2. }
      destruct T as (t & g & Hg & HW & E). pose proof (grows_write d _ e es t g Hg G) as G'. destruct e as [e|].
      + right. exists (Some e), es. split; [intros b Hb; cbv beta; rewrite E; exact (grows_stop d _ e es _ G' b Hb)|]. cbn in R |- *. destruct R as (m & V & U). exists m. auto.
      + destruct Hr as [(Hp & c' & m & D & Z)|(e2 & es2 & G2 & R2)].
        * left. split; [intros b Hb; rewrite E; exact (panics_then d _ es _ G' Hp b Hb)|]. exists c', m. split; [now apply (deep_lift d r n)|exact Z].
        * right. exists e2, (es ++ es2). split; [intros b Hb; cbv beta; rewrite E; exact (grows_then d _ es e2 es2 _ G' G2 b Hb)|].
          destruct e2 as [e2|]; cbn [reason] in *; [destruct R2 as (m & V & U); exists m; auto|].
          destruct es as [|x es]; cbn [app] in *.
          -- destruct R as (ps & R). destruct es2 as [|x es2]; [destruct R2 as (ps2 & R2); eapply EM; eassumption|].
             destruct R2 as (c' & m & D & U). exists c', m. split; [now apply (deep_lift d r n)|exact U].
          -- destruct R as (c' & m & D & U). exists c', m. split; [now apply (deep_lift d l n)|exact U].
    - right. exists (Some (SOp (nOperation k))), es. split; [|exists n; split; [constructor|now apply UN]]. intros b Hb. destruct (G b Hb) as (t & a & E). exists t, a. cbv beta. rewrite EV, E.
      rewrite infix_known in HK. destruct (assoc (nOperation k) entsql_ops) as [p|] eqn:EA; [exfalso; apply HK; left; discriminate|].
      destruct (streq (nOperation k) #"not like" || streq (nOperation k) #"and" || streq (nOperation k) #"or"); [exfalso; apply HK; now right|reflexivity].
  Qed.
  Lemma value_emits : forall d dis c n v, go_value n v -> exists ps, emits d dis c n ps.
  Proof.
    intros d dis c n v G. destruct v as [| | | | |l]; try (eexists; apply em_value; [exact G|congruence]).
    inversion G as [| | | |l' vs Gs]; subst. exists (SFix #"(" :: commas l ++ [SFix #")"]). exact (em_array edge_sql heap d dis c l' l Gs).
  Qed.
  Lemma visit_result : forall d dis n, safe n -> forall c, result d dis c n.
  Proof.
    intros d dis. apply (safe_shape_ind (fun n => forall c, result d dis c n)).
    - intros n v _ _ _ G c. destruct (value_emits d dis c n v G) as (ps & H). exact (result_emits d dis c n ps H).
    - intros o c. apply (result_fails _ _ _ _ (SOpNode o)); [reflexivity|constructor].
    - intros x c. apply (result_emits _ _ _ _ [SName x]). constructor.
    - intros ns c. apply (result_fails _ _ _ _ (SType NReference)); [reflexivity|constructor].
    - intros l o _ _ IH _ c. destruct (assoc (nOperation o) entsql_ops) as [p|] eqn:EA.
      + assert (HW : In (nOperation o, bText (write_op p (SB [] [] 0 [] []))) pred_words) by (apply words_assoc; eauto).
        assert (E : forall b, visit dis c (mk_predicate (Some l) (Some o)) (ST b None) = always (visit dis c l (ST b None)) (emit (write_op p))).
        { intro b. cbn [svisit mk_predicate nType nLeft nOp]. now rewrite EA. }
        destruct (IH c) as [(Hp & c' & m & D & Z)|(e & es & G & R)].
        * left. split; [intros b Hb; rewrite E, (Hp b Hb); reflexivity|]. exists c', m. split; [|exact Z]. eapply deep_lift; [|exact D]. intros; now constructor.
        * right. exists e, es. split.
          -- intros b Hb. cbv beta. rewrite E. refine (grows_write d (fun b => visit dis c l (ST b None)) e es _ _ _ G b Hb). intro b'. cbn [emit sExt sOwn]. now rewrite join_op.
          -- unfold reason in *. destruct e as [e|]; [destruct R as (m & V & U); exists m; split; [now constructor|exact U]|]. destruct es as [|x es].
             ++ destruct R as (ps & R). eexists. eapply em_pred; eassumption.
             ++ destruct R as (c' & m & D & U). exists c', m. split; [|exact U]. eapply deep_lift; [|exact D]. intros; now constructor.
      + apply (result_fails _ _ _ _ (SPredOp (nOperation o))).
        * intros b _. cbn [svisit mk_predicate nType nLeft nOp]. now rewrite EA.
        * constructor. rewrite pred_known. congruence.
    - intros l o r _ _ _ IHl _ IHr c. apply infix_result; auto.
    - intros l o r _ _ _ IHl _ IHr c. apply infix_result; auto.
    - intros e _ IH c. assert (E : forall b, visit dis c (mk_paren (Some e)) (ST b None) = always (visit dis c e (ST (join #"(" [] [] b) None)) (emit (write #")"))).
      { intro b. cbn [svisit mk_paren nType nExpression emit sExt sOwn]. now rewrite join_write. }
      destruct (IH c) as [(Hp & c' & m & D & Z)|(er & es & G & R)].
      + left. split; [intros b Hb; rewrite E, Hp; [reflexivity|exact Hb]|]. exists c', m. split; [|exact Z]. eapply deep_lift; [|exact D]. intros; now constructor.
      + right. exists er, es. split.
        * intros b Hb. cbv beta. rewrite E. refine (grows_write d (fun b => visit dis c e (ST (join #"(" [] [] b) None)) er es #")" _ _ _ b Hb).
          -- intro b'. cbn. now rewrite join_write.
          -- exact (grows_after d (fun b => visit dis c e (ST b None)) er es #"(" G).
        * unfold reason in *. destruct er as [er|]; [destruct R as (m & V & U); exists m; split; [now constructor|exact U]|]. destruct es as [|x es].
          -- destruct R as (ps & R). eexists. eapply em_paren; eassumption.
          -- destruct R as (c' & m & D & U). exists c', m. split; [|exact U]. eapply deep_lift; [|exact D]. intros; now constructor.
    - intros e _ IH c. assert (E : forall b, visit dis c (mk_not (Some e)) (ST b None) = visit dis c e (ST (join #"NOT " [] [] b) None)).
      { intro b. cbn [svisit mk_not nType nExpression emit sExt sOwn]. now rewrite join_write. }
      destruct (IH c) as [(Hp & c' & m & D & Z)|(er & es & G & R)].
      + left. split; [intros b Hb; rewrite E, Hp; [reflexivity|exact Hb]|]. exists c', m. split; [|exact Z]. eapply deep_lift; [|exact D]. intros; now constructor.
      + right. exists er, es. split.
        * intros b Hb. cbv beta. rewrite E. exact (grows_after d (fun b => visit dis c e (ST b None)) er es #"NOT " G b Hb).
        * unfold reason in *. destruct er as [er|]; [destruct R as (m & V & U); exists m; split; [now constructor|exact U]|]. destruct es as [|x es].
          -- destruct R as (ps & R). eexists. eapply em_not; eassumption.
          -- destruct R as (c' & m & D & U). exists c', m. split; [|exact U]. eapply deep_lift; [|exact D]. intros; now constructor.
    - intros l o a b _ _ Sa Sb Ta Tb IHl _ _ _ c.
      destruct (safe_go a Sa Ta) as (va & _ & Ga). destruct (safe_go b Sb Tb) as (vb & _ & Gb).
      destruct (value_emits d dis c a va Ga) as (pa & Ea). destruct (value_emits d dis c b vb Gb) as (pb & Eb).
      set (neg := streq (nOperation o) #"not between"). set (p1 := if neg then OpLT else OpGTE). set (p2 := if neg then OpGT else OpLTE).
      assert (E : forall x, visit dis c (mk_between (Some l) (Some o) (Some a) (Some b)) (ST x None) =
        unless_err (visit dis c l (ST x None)) (fun s => unless_err (visit dis c a (emit (write_op p1) s)) (fun s =>
          unless_err (visit dis c l (emit (write #" AND ") s)) (fun s => visit dis c b (emit (write_op p2) s))))) by reflexivity.
      assert (V : forall m, visits l m -> visits (mk_between (Some l) (Some o) (Some a) (Some b)) m) by (intros; now constructor).
      destruct (IHl c) as [(Hp & c' & m & D & Z)|(e & es & G & R)].
      { left. split; [intros x Hx; rewrite E, (Hp x Hx); reflexivity|]. exists c', m. split; [|exact Z]. eapply deep_lift; [exact V|exact D]. }
      destruct e as [e|].
      { right. exists (Some e), es. split; [intros x Hx; cbv beta; rewrite E; exact (grows_stop d _ e es _ G x Hx)|]. destruct R as (m & Vm & U). exists m. auto. }
      assert (GA : grows d (fun x => visit dis c a (emit (write_op p1) (ST x None))) None []).
      { intros x Hx. destruct (emits_grows d dis c a pa Ea (write_op p1 x)) as (t & u & K); [rewrite join_op; exact Hx|].
        eexists _, _. cbn [emit sExt sOwn]. cbv beta in K. rewrite K, join_op, join_join. reflexivity. }
      assert (GB : grows d (fun x => visit dis c b (emit (write_op p2) (ST x None))) None []).
      { intros x Hx. destruct (emits_grows d dis c b pb Eb (write_op p2 x)) as (t & u & K); [rewrite join_op; exact Hx|].
        eexists _, _. cbn [emit sExt sOwn]. cbv beta in K. rewrite K, join_op, join_join. reflexivity. }
      assert (GL : grows d (fun x => visit dis c l (emit (write #" AND ") (ST x None))) None es).
      { intros x Hx. destruct (G (write #" AND " x)) as (t & u & K); [rewrite join_write; exact Hx|].
        eexists _, _. cbn [emit sExt sOwn]. cbv beta in K. rewrite K, join_write, join_join. reflexivity. }
      right. exists None, (es ++ [] ++ es ++ []). split.
      + intros x Hx. cbv beta. rewrite E. revert x Hx. apply grows_then; [exact G|]. apply grows_then; [exact GA|]. apply grows_then; [exact GL|exact GB].
      + destruct es as [|x es]; cbn [app reason] in *.
        * destruct R as (ps & R). destruct (streq_spec (nOperation o) #"not between") as [K|K]; eexists; [eapply em_not_between|eapply em_between]; eassumption.
        * destruct R as (c' & m & D & U). exists c', m. split; [|exact U]. eapply deep_lift; [exact V|exact D].
    - intros f ms _ IH c. destruct (streq_spec f #"date") as [->|Hd].
      + destruct ms as [|a ms].
        { left. split; [intros b Hb; reflexivity|]. exists c. eexists. split; [apply deep_here; constructor|constructor]. }
        apply Forall_inv in IH. cbn [map].
        assert (E : forall b, visit dis c (mk_function #"date" (Some a :: map Some ms)) (ST b None) = always (visit dis c a (ST (join #"DATE(" [] [] b) None)) (emit (write #")"))).
        { intro b. cbn [svisit mk_function nType nName nParams]. change (streq #"date" #"date") with true. cbn [emit sExt sOwn]. now rewrite join_write. }
        destruct (IH c) as [(Hp & c' & m & D & Z)|(er & es & G & R)].
        * left. split; [intros b Hb; rewrite E, Hp; [reflexivity|exact Hb]|]. exists c', m. split; [|exact Z]. eapply deep_lift; [|exact D]. intros; now constructor.
        * right. exists er, es. split.
          -- intros b Hb. cbv beta. rewrite E. refine (grows_write d (fun b => visit dis c a (ST (join #"DATE(" [] [] b) None)) er es #")" _ _ _ b Hb).
             ++ intro b'. cbn. now rewrite join_write.
             ++ exact (grows_after d (fun b => visit dis c a (ST b None)) er es #"DATE(" G).
          -- unfold reason in *. destruct er as [er|]; [destruct R as (m & V & U); exists m; split; [now constructor|exact U]|]. destruct es as [|x es].
             ++ destruct R as (ps & R). eexists. eapply em_date; eassumption.
             ++ destruct R as (c' & m & D & U). exists c', m. split; [|exact U]. eapply deep_lift; [|exact D]. intros; now constructor.
      + destruct (streq_spec f #"has_edge") as [->|He].
        2:{ apply (result_fails _ _ _ _ (SFunc f)); [|now constructor]. intros b _. cbn [svisit mk_function nType nName].
            destruct (streq_spec f #"date"); [contradiction|]. destruct (streq_spec f #"has_edge"); [contradiction|reflexivity]. }
        assert (E : forall b, visit dis c (mk_function #"has_edge" (map Some ms)) (ST b None) =
          match map Some ms with
          | [] => Some (ST b None, Some SEdgeParam)
          | None :: _ => None
          | Some p0 :: rest =>
              if streq (nName p0) [] then Some (ST b None, Some SEdgeParam)
              else match c with None => None | Some c => match assoc (nName p0) (gnEdges (heap c)) with
                | None => Some (ST b None, Some (SNoEdge (nName p0)))
                | Some edge =>
                    match rest with
                    | [] => match edge_step edge_sql heap false (bDialect b) (heap c) edge with None => None | Some (_, (t1, t2)) => Some (own (join (t1 ++ t2) [] []) (ST b None), None) end
                    | [None] => None
                    | [Some p1] =>
                        if negb (compound p1) then Some (ST b None, Some (SEdgeCond p1))
                        else match edge_step edge_sql heap true (bDialect b) (heap c) edge with
                          | None => None
                          | Some (t, (t1, t2)) =>
                              match visit dis (Some t) p1 (ST (SB [] [] (bTotal b) (bDialect b) []) None) with
                              | None => None
                              | Some (s', None) => Some (own (join (t1 ++ bText (sOwn s') ++ t2) (bArgs (sOwn s')) (bErrs (sOwn s'))) (ST b None), None)
                              | Some (s', Some e) => Some (own (join (t1 ++ t2) [] (bErrs (sOwn s') ++ [e])) (ST b None), None)
                              end
                          end
                    | _ => Some (ST b None, Some SEdgeParam)
                    end end end end) by reflexivity.
        destruct ms as [|p ms]; [apply (result_fails _ _ _ _ SEdgeParam); [reflexivity|apply un_edge_none]|]. cbn [map] in *.
        destruct (streq_spec (nName p) []) as [HN|HN]; [apply (result_fails _ _ _ _ SEdgeParam); [intros b _; rewrite E; reflexivity|now apply un_edge_nameless]|].
        destruct c as [c|].
        2:{ left. split; [intros b Hb; now rewrite E|]. exists None. eexists. split; [apply deep_here; constructor|now apply haz_node]. }
        destruct (assoc (nName p) (gnEdges (heap c))) as [edge|] eqn:EA; [|apply (result_fails _ _ _ _ (SNoEdge (nName p))); [intros b _; rewrite E; reflexivity|now apply un_edge_unknown]].
        destruct ms as [|q ms].
        { pose proof (edge_step_inv false d c (nName p) edge EA) as HE. destruct (edge_step edge_sql heap false d (heap c) edge) as [(t & (s1 & s2))|] eqn:ES.
          - eapply result_emits. eapply em_edge; eassumption.
          - left. split; [intros b Hb; rewrite E; cbn [map]; now rewrite Hb, ES|]. eexists _, _. split; [apply deep_here; constructor|]. eapply haz_edge; eassumption. }
        destruct ms as [|r ms].
        2:{ apply (result_fails _ _ _ _ SEdgeParam); [intros b _; rewrite E; reflexivity|]. eapply un_edge_many; eassumption. }
        cbn [map] in *. change (isExpression q) with (compound q) in *. destruct (compound q) eqn:HX.
        2:{ apply (result_fails _ _ _ _ (SEdgeCond q)); [intros b _; rewrite E; reflexivity|]. eapply un_edge_value; eassumption. }
        cbn [negb] in E. pose proof (edge_step_inv true d c (nName p) edge EA) as HE. destruct (edge_step edge_sql heap true d (heap c) edge) as [(t & (s1 & s2))|] eqn:ES.
        2:{ left. split; [intros b Hb; rewrite E; now rewrite Hb, ES|]. eexists _, _. split; [apply deep_here; constructor|]. eapply haz_edge_with; eassumption. }
        apply Forall_inv_tail, Forall_inv in IH. destruct (IH (Some t)) as [(Hp & c' & m & D & Z)|(er & es & G & R)].
        { left. split; [intros b Hb; rewrite E, Hb, ES; now rewrite Hp|]. exists c', m. split; [|exact Z]. eapply deep_edge; try eassumption. constructor. }
        right. destruct er as [er|].
        * exists None, (es ++ [er]). split.
          -- intros b Hb. cbv beta. rewrite E, Hb, ES. destruct (G (SB [] [] (bTotal b) d []) eq_refl) as (u & a & K). cbv beta in K. rewrite K. eexists _, _. reflexivity.
          -- assert (X : exists c' m, deep d (Some c) (mk_function #"has_edge" [Some p; Some q]) c' m /\ unsupported c' m).
             { destruct R as (m & V & U). exists (Some t), m. split; [|exact U]. eapply deep_edge; try eassumption; [constructor|now constructor]. }
             destruct es; exact X.
        * exists None, es. split.
          -- intros b Hb. cbv beta. rewrite E, Hb, ES. destruct (G (SB [] [] (bTotal b) d []) eq_refl) as (u & a & K). cbv beta in K. rewrite K. eexists _, _. reflexivity.
          -- destruct es as [|x es]; cbn [reason] in *.
             ++ destruct R as (ps & R). eexists. eapply em_edge_with; eassumption.
             ++ destruct R as (c' & m & D & U). exists c', m. split; [|exact U]. eapply deep_edge; try eassumption. constructor.
  Qed.

  (** ** A rendered tree has nothing unsupported in it *)
  Lemma emits_visits : forall d dis n m, visits n m -> forall c ps, emits d dis c n ps -> exists ps', emits d dis c m ps'.
  Proof.
    induction 1 as [n|e m _ IH|e m _ IH|a rest m _ IH|l k m _ IH|l k r m _ IH|l k r m _ IH|l k r m _ IH|l k r m _ IH|l k a b m _ IH]; intros c ps HE; [eauto|..];
      inversion HE; subst; try match goal with G : go_value _ _ |- _ => now apply go_value_type in G end; eauto.
  Qed.
  Lemma edge_to_fun : forall d w c x t s1 s2 t' s1' s2', edge_to d w c x t s1 s2 -> edge_to d w c x t' s1' s2' -> t = t'.
  Proof. intros d w c x t s1 s2 t' s1' s2' (p & H & _) (p' & H' & _). rewrite H in H'. now injection H'. Qed.
  Lemma emits_deep : forall d dis c n c' m, deep d c n c' m -> forall ps, emits d dis c n ps -> exists ps', emits d dis c' m ps'.
  Proof.
    induction 1 as [c n m V|c n p e t s1 s2 c' m V HN HE HX _ IH]; intros ps H; [eapply emits_visits; eassumption|].
    destruct (emits_visits d dis _ _ V _ _ H) as (ps' & K). inversion K; subst; [match goal with G : go_value _ _ |- _ => now apply go_value_type in G end|].
    match goal with K' : edge_to _ _ _ _ ?t' _ _ |- _ => rewrite (edge_to_fun _ _ _ _ _ _ _ _ _ _ HE K') in IH end. eauto.
  Qed.
  Lemma emits_supported : forall d dis c n ps, emits d dis c n ps -> ~ unsupported c n.
  Proof.
    intros d dis c n ps H U. inversion U; subst; inversion H; subst; try (match goal with G : go_value _ _ |- _ => now apply go_value_type in G end); try congruence;
      repeat match goal with
      | K : ~ In ?x (map fst ?l), K' : In (?x, ?w) ?l |- _ => apply K; apply in_map_iff; exists (x, w); now split
      | K : edge_to _ _ _ _ _ _ _ |- _ => destruct K as (? & ? & _); congruence
      | K : ?x <> ?y |- _ => solve [destruct K; reflexivity]
      end.
  Qed.
  Lemma unsupported_fails : forall dis c n s s', unsupported c n -> visit dis c n s <> Some (s', None).
  Proof.
    intros dis c n s s' U. destruct U as [c ns|c o|c f ps H1 H2|c l k H|c l k r H|c l k r H|c|c p ps H|c p ps H1 H2|c p e x H1 H2 H3|c p e1 e2 ps x H1 H2]; try discriminate.
    - cbn [svisit mk_function nType nName]. destruct (streq_spec f #"date"); [contradiction|]. destruct (streq_spec f #"has_edge"); [contradiction|discriminate].
    - cbn [svisit mk_predicate nType nOp]. rewrite pred_known in H. destruct (assoc (nOperation k) entsql_ops); [exfalso; apply H; discriminate|discriminate].
    - cbn [svisit mk_compare nType nOp nLeft nRight]. rewrite infix_known in H. destruct (svisit _ _ _ dis c l s) as [[s1 e]|]; [|discriminate].
      destruct (assoc (nOperation k) entsql_ops); [exfalso; apply H; left; discriminate|]. destruct (_ || _); [exfalso; apply H; now right|discriminate].
    - cbn [svisit mk_logic nType nOp nLeft nRight]. rewrite infix_known in H. destruct (svisit _ _ _ dis c l s) as [[s1 e]|]; [|discriminate].
      destruct (assoc (nOperation k) entsql_ops); [exfalso; apply H; left; discriminate|]. destruct (_ || _); [exfalso; apply H; now right|discriminate].
    - cbn [svisit mk_function nType nName nParams]. change (streq #"has_edge" #"date") with false. change (streq #"has_edge" #"has_edge") with true. cbn iota.
      rewrite H. discriminate.
    - cbn [svisit mk_function nType nName nParams]. change (streq #"has_edge" #"date") with false. change (streq #"has_edge" #"has_edge") with true. cbn iota.
      destruct (streq_spec (nName p) []); [contradiction|]. rewrite H2. discriminate.
    - cbn [svisit mk_function nType nName nParams]. change (streq #"has_edge" #"date") with false. change (streq #"has_edge" #"has_edge") with true. cbn iota.
      destruct (streq_spec (nName p) []); [contradiction|]. rewrite H2. change (isExpression e) with (compound e). rewrite H3. discriminate.
    - cbn [svisit mk_function nType nName nParams]. change (streq #"has_edge" #"date") with false. change (streq #"has_edge" #"has_edge") with true. cbn iota.
      destruct (streq_spec (nName p) []); [contradiction|]. rewrite H2. destruct e1; discriminate.
  Qed.
  Lemma visits_fails : forall dis n m, visits n m -> forall c s s', unsupported c m -> visit dis c n s <> Some (s', None).
  Proof.
    assert (INF : forall dis c l k r s s', (forall s s', visit dis c l s <> Some (s', None)) \/ (forall s s', visit dis c r s <> Some (s', None)) ->
      match visit dis c l s, Some k with
      | Some (s, e), Some o =>
          match assoc (nOperation o) entsql_ops with
          | Some op => unless_err (Some (emit (write_op op) s, e)) (visit dis c r)
          | None =>
              if streq (nOperation o) #"not like" || streq (nOperation o) #"and" || streq (nOperation o) #"or"
              then unless_err (Some (emit (fun b => pad (write (to_upper (nOperation o)) (pad b))) s, e)) (visit dis c r)
              else Some (s, Some (SOp (nOperation o)))
          end
      | _, _ => None
      end <> Some (s', None)).
    { intros dis c l k r s s' H. destruct (visit dis c l s) as [[s1 [e|]]|] eqn:E; [| |discriminate].
      - destruct (assoc (nOperation k) entsql_ops); [discriminate|]. destruct (_ || _); discriminate.
      - destruct H as [H|H]; [now destruct (H s s1)|]. destruct (assoc (nOperation k) entsql_ops); [apply H|]. destruct (_ || _); [apply H|discriminate]. }
    intros dis. induction 1 as [n|e m _ IH|e m _ IH|a rest m _ IH|l k m _ IH|l k r m _ IH|l k r m _ IH|l k r m _ IH|l k r m _ IH|l k a b m _ IH]; intros c s s' U.
    - now apply unsupported_fails.
    - cbn [svisit mk_paren nType nExpression]. specialize (IH c (emit (write #"(") s)). destruct (visit dis c e (emit (write #"(") s)) as [[s1 [x|]]|]; try discriminate. now destruct (IH s1).
    - cbn [svisit mk_not nType nExpression]. now apply IH.
    - cbn [svisit mk_function nType nName nParams]. change (streq #"date" #"date") with true. cbn iota.
      specialize (IH c (emit (write #"DATE(") s)). destruct (visit dis c a (emit (write #"DATE(") s)) as [[s1 [x|]]|]; try discriminate. now destruct (IH s1).
    - cbn [svisit mk_predicate nType nLeft nOp]. destruct (assoc (nOperation k) entsql_ops); [|discriminate].
      specialize (IH c s). destruct (visit dis c l s) as [[s1 [x|]]|]; try discriminate. now destruct (IH s1).
    - apply (INF dis c l k r). left. intros. now apply IH.
    - apply (INF dis c l k r). right. intros. now apply IH.
    - apply (INF dis c l k r). left. intros. now apply IH.
    - apply (INF dis c l k r). right. intros. now apply IH.
    - cbn [svisit mk_between nType nLeft nOp nParams]. specialize (IH c s). destruct (visit dis c l s) as [[s1 [x|]]|]; try discriminate. now destruct (IH s1).
  Qed.
End ESQL.
