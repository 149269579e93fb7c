(** Facts about Query of the entsql builder. *)
From Verif Require Import Base Peg Node Vocab Tree Parse Syntax ParseProofs NormProofs ParserFacts ParserFacts2 ParserMain NameFacts Build BuildProofs NodeFacts SafeInd
  Gorm GormSpec GormProofs GormFacts GormFacts2 GormFacts3 GormSample GormFacts4 EntSQL EntSQLSpec EntSQLProofs.
Require Import Arith.
Strategy expand [parse_machine rule_trace].
Strategy 1000 [parse_fuel mrun tok_trace].

Lemma go_go_fun : forall n v w, go_value n v -> go_value n w -> v = w.
Proof. intros n v w H K. apply go_value_value in H, K. congruence. Qed.
Lemma gos_fun : forall l vs ws, go_values l vs -> go_values l ws -> vs = ws.
Proof.
  intros l vs ws H K. pose proof (go_go_fun _ _ _ (gv_array _ _ H) (gv_array _ _ K)) as E. now injection E.
Qed.

Section Query.
  Variable lo : N -> N.
  Variable ident_sql : list N -> list N -> list N.
  Variable edge_sql : bool -> list N -> gnode -> gspec -> gnode -> option (list N * list N).
  Variable heap : nat -> gnode.
  Notation visit := (svisit ident_sql edge_sql heap).
  Notation sql := (sql_of ident_sql).
  Notation emits := (emits edge_sql heap).
  Notation edge_to := (edge_to edge_sql heap).
  Notation deep := (deep edge_sql heap).
  Notation hazard := (hazard edge_sql heap).
  Notation unsupported := (unsupported heap).
  Notation query := (query lo ident_sql edge_sql heap).
  Notation origin := (origin edge_sql).
  Notation clean := (clean ident_sql edge_sql).
  Notation had n := (fun x : list N => reach n (mk_ident x)).

  (** the builder after a successful Query *)
  Definition done (d : list N) (dis : bool) (nd : option nat) (q : list N) (n : node) (b : sqlb) : mbuilder := MB nd q (Some n) dis (ST b None).
  Lemma query_fresh : forall d dis nd q n, parse lo q = Ok (Some n) -> query (fresh d dis nd q) = mrun_ast ident_sql edge_sql heap (done d dis nd q n (SB [] [] 0 d [])) n.
  Proof. intros d dis nd q n H. unfold EntSQL.query. cbn [mAst fresh mQuery]. now rewrite H. Qed.
  Lemma query_emits : forall d dis nd q n ps, parse lo q = Ok (Some n) -> emits d dis nd n ps ->
    query (fresh d dis nd q) = Some (done d dis nd q n (SB (sql d 0 ps) (sargs ps) (N.of_nat (length (sargs ps))) d []), (sql d 0 ps, sargs ps)).
  Proof.
    intros d dis nd q n ps Hp H. rewrite (query_fresh d dis nd q n Hp). unfold mrun_ast. cbn [mDisable mNode mSt done].
    rewrite (emits_visit ident_sql edge_sql heap d dis nd n ps H (SB [] [] 0 d [])) by reflexivity. reflexivity.
  Qed.
  Lemma query_complete : forall d dis nd q m t a, valid_runes q -> query (fresh d dis nd q) = Some (m, (t, a)) -> no_error m ->
    exists n ps, parse lo q = Ok (Some n) /\ emits d dis nd n ps /\ t = sql d 0 ps /\ a = sargs ps.
  Proof.
    intros d dis nd q m t a Hq H HE. destruct (parse_total lo q Hq) as [(n & Hp)|(e & Hp)].
    - pose proof (parse_safe lo q n Hq Hp) as Hn. exists n. destruct (visit_result ident_sql edge_sql heap d dis n Hn nd) as [(Hpa & _)|(e & es & G & R)].
      + rewrite (query_fresh d dis nd q n Hp) in H. unfold mrun_ast in H. cbn [mDisable mNode mSt done] in H. rewrite Hpa in H by reflexivity. discriminate.
      + destruct (G (SB [] [] 0 d []) eq_refl) as (u & b & E). cbv beta in E.
        pose proof H as H'. rewrite (query_fresh d dis nd q n Hp) in H'. unfold mrun_ast in H'. cbn [mDisable mNode mSt done] in H'. rewrite E in H'.
        destruct e as [e|].
        * injection H' as <- <- <-. unfold no_error in HE. cbn in HE. now destruct es.
        * injection H' as <- _ _. unfold no_error in HE. cbn in HE. subst es. destruct R as (ps & R). exists ps. rewrite (query_emits d dis nd q n ps Hp R) in H. apply some_inj, (f_equal snd) in H. cbn [snd] in H. injection H as <- <-. auto.
    - unfold EntSQL.query in H. cbn [mAst fresh mQuery] in H. rewrite Hp in H. injection H as <- <- <-. discriminate.
  Qed.
  Lemma query_syntax : forall d dis nd q e, parse lo q = Err e -> exists m, query (fresh d dis nd q) = Some (m, ([], [])) /\ bErrs (sOwn (mSt m)) = [SParse e].
  Proof. intros d dis nd q e H. unfold EntSQL.query. cbn [mAst fresh mQuery]. rewrite H. eexists. split; reflexivity. Qed.
  Lemma query_unsupported : forall d dis nd q n m, valid_runes q -> parse lo q = Ok (Some n) -> visits n m -> unsupported nd m ->
    query (fresh d dis nd q) = None \/ exists b, query (fresh d dis nd q) = Some (b, ([], [])) /\ ~ no_error b.
  Proof.
    intros d dis nd q n m Hq Hp V U. rewrite (query_fresh d dis nd q n Hp). unfold mrun_ast. cbn [mDisable mNode mSt done].
    pose proof (visits_fails ident_sql edge_sql heap dis n m V nd (ST (SB [] [] 0 d []) None)) as K.
    destruct (visit dis nd n (ST (SB [] [] 0 d []) None)) as [[s [e|]]|]; [right|now destruct (K s U)|now left].
    eexists. split; [reflexivity|]. unfold no_error. cbn. now destruct (bErrs (sOwn s)).
  Qed.
  Lemma query_recorded : forall d dis nd q n c m b r, valid_runes q -> parse lo q = Ok (Some n) -> deep d nd n c m -> unsupported c m ->
    query (fresh d dis nd q) = Some (b, r) -> ~ no_error b.
  Proof.
    intros d dis nd q n c m b [t a] Hq Hp D U H HE. destruct (query_complete d dis nd q b t a Hq H HE) as (n' & ps & Hp' & K & _).
    rewrite Hp in Hp'. injection Hp' as <-. destruct (emits_deep edge_sql heap d dis nd n c m D ps K) as (ps' & K'). now apply (emits_supported edge_sql heap d dis c m ps').
  Qed.
  Lemma query_error : forall d dis nd q n b r, valid_runes q -> parse lo q = Ok (Some n) -> query (fresh d dis nd q) = Some (b, r) -> ~ no_error b ->
    exists c m, deep d nd n c m /\ unsupported c m.
  Proof.
    intros d dis nd q n b r Hq Hp H HE. destruct (visit_result ident_sql edge_sql heap d dis n (parse_safe lo q n Hq Hp) nd) as [(Hpa & _)|(e & es & G & R)];
      rewrite (query_fresh d dis nd q n Hp) in H; unfold mrun_ast in H; cbn [mDisable mNode mSt done] in H.
    - rewrite Hpa in H by reflexivity. discriminate.
    - destruct (G (SB [] [] 0 d []) eq_refl) as (u & a & E). cbv beta in E. rewrite E in H. destruct e as [e|].
      + destruct R as (m & V & U). exists nd, m. split; [now apply deep_here|exact U].
      + destruct es as [|x es]; [|exact R]. injection H as <- _. now destruct HE.
  Qed.
  Lemma query_no_panic : forall d dis nd q, valid_runes q -> (forall n c m, parse lo q = Ok (Some n) -> deep d nd n c m -> ~ hazard d c m) ->
    query (fresh d dis nd q) <> None.
  Proof.
    intros d dis nd q Hq HZ. destruct (parse_total lo q Hq) as [(n & Hp)|(e & Hp)].
    - rewrite (query_fresh d dis nd q n Hp). unfold mrun_ast. cbn [mDisable mNode mSt done].
      destruct (visit_result ident_sql edge_sql heap d dis n (parse_safe lo q n Hq Hp) nd) as [(_ & c & m & D & Z)|(e & es & G & _)]; [now destruct (HZ n c m Hp D)|].
      destruct (G (SB [] [] 0 d []) eq_refl) as (u & a & E). cbv beta in E. rewrite E. destruct e; discriminate.
    - destruct (query_syntax d dis nd q e Hp) as (m & -> & _). discriminate.
  Qed.
  (** the second call *)
  Lemma query_twice : forall d dis nd q n ps m, parse lo q = Ok (Some n) -> emits d dis nd n ps -> query (fresh d dis nd q) = Some (m, (sql d 0 ps, sargs ps)) ->
    exists m', query m = Some (m', (sql d 0 ps ++ sql d (N.of_nat (length (sargs ps))) ps, sargs ps ++ sargs ps)) /\ no_error m'.
  Proof.
    intros d dis nd q n ps m Hp H Hq. rewrite (query_emits d dis nd q n ps Hp H) in Hq. injection Hq as <-.
    unfold EntSQL.query. cbn [mAst done]. unfold mrun_ast. cbn [mDisable mNode mSt done].
    rewrite (emits_visit ident_sql edge_sql heap d dis nd n ps H) by reflexivity. eexists. split; [reflexivity|]. reflexivity.
  Qed.
  Lemma query_grows : forall d dis nd q m t a m' t' a', valid_runes q -> query (fresh d dis nd q) = Some (m, (t, a)) -> no_error m -> t <> [] ->
    query m = Some (m', (t', a')) -> t' <> t /\ exists u, t' = t ++ u.
  Proof.
    intros d dis nd q m t a m' t' a' Hq H HE HT H'. destruct (query_complete d dis nd q m t a Hq H HE) as (n & ps & Hp & K & -> & ->).
    destruct (query_twice d dis nd q n ps m Hp K H) as (m2 & E & _). rewrite E in H'. apply some_inj in H'. apply (f_equal (fun x => fst (snd x))) in H'. cbn [fst snd] in H'. subst t'.
    split; [|eauto]. intro X. rewrite <- (app_nil_r (sql d 0 ps)) in X at 2. apply app_inv_head in X. apply HT. clear - X.
    (* the same pieces, only the numbers differ *)
    revert X. generalize (N.of_nat (length (sargs ps))) as k, 0%N as k0. induction ps as [|p ps IH]; intros k k0 X; [reflexivity|].
    destruct p; cbn [sql_of] in *; try (apply app_eq_nil in X as [-> X]; now apply (IH k)).
    apply app_eq_nil in X as [X _]. unfold holder in X. destruct (streq d #"postgres"); discriminate.
  Qed.

  (** ** What the pieces are *)
  Lemma commas_sargs : forall vs, sargs (commas vs) = map APlain (filter (fun x => negb (is_nil x)) vs).
  Proof.
    induction vs as [|v vs IH]; [reflexivity|]. destruct vs as [|w vs]; [now destruct v|].
    change (commas (v :: w :: vs)) with ([scalar_piece true v; SFix #", "] ++ commas (w :: vs)). rewrite sargs_app, IH. now destruct v.
  Qed.
  Lemma emits_operands : forall d dis c n ps, emits d dis c n ps -> exists vs, Forall2 go_value (operands n) vs /\ map arg_value (sargs ps) = concat (map (passed dis) vs).
  Proof.
    induction 1 as [c n v G HA|c l vs G|c x|c e ps _ IH|c e ps _ IH|c a rest ps _ IH|c p t s1 s2 HN HE|c p e t s1 s2 ps HN HE HX _ IH|c l k w ps HW _ IH
      |c l k r w a a' HW _ IHl _ IHr|c l k r w a a' HW _ IHl _ IHr|c l k x y a a' e HK _ IHl _ IHx _ IHy|c l k x y a a' e HK _ IHl _ IHx _ IHy].
    - exists [v]. split.
      + pose proof (go_value_type n v G) as HT. destruct n as [ty vt i b st fl arr op na ns ex le oo ri pp]. cbn in HT. subst ty. cbn. auto.
      + destruct v; try reflexivity; destruct dis; try reflexivity. now destruct (HA l). now destruct (HA l).
    - exists [GArr vs]. split; [repeat constructor; exact G|]. change (SFix #"(" :: commas vs ++ [SFix #")"]) with ([SFix #"("] ++ commas vs ++ [SFix #")"]).
      rewrite !sargs_app, commas_sargs. cbn [sargs map concat passed app]. rewrite !app_nil_r, map_map. cbn [arg_value]. now rewrite map_id.
    - exists []. split; [constructor|reflexivity].
    - destruct IH as (vs & F & E). exists vs. split; [exact F|]. change (SFix #"(" :: ps ++ [SFix #")"]) with ([SFix #"("] ++ ps ++ [SFix #")"]).
      rewrite !sargs_app. cbn [sargs map concat app]. now rewrite app_nil_r.
    - destruct IH as (vs & F & E). exists vs. split; [exact F|exact E].
    - destruct IH as (vs & F & E). exists vs. split; [exact F|]. change (SFix #"DATE(" :: ps ++ [SFix #")"]) with ([SFix #"DATE("] ++ ps ++ [SFix #")"]).
      rewrite !sargs_app. cbn [sargs map concat app]. now rewrite app_nil_r.
    - exists []. split; [constructor|reflexivity].
    - destruct IH as (vs & F & E). exists vs. split; [exact F|]. change (SEdge s1 :: ps ++ [SEdge s2]) with ([SEdge s1] ++ ps ++ [SEdge s2]).
      rewrite !sargs_app. cbn [sargs map concat app]. now rewrite app_nil_r.
    - destruct IH as (vs & F & E). exists vs. split; [exact F|]. rewrite sargs_app. cbn [sargs map concat app]. now rewrite app_nil_r.
    - destruct IHl as (v1 & F1 & E1). destruct IHr as (v2 & F2 & E2). exists (v1 ++ v2). split; [now apply Forall2_app|].
      change (a ++ SFix w :: a') with (a ++ [SFix w] ++ a'). rewrite !sargs_app, !map_app, concat_app, E1, E2. reflexivity.
    - destruct IHl as (v1 & F1 & E1). destruct IHr as (v2 & F2 & E2). exists (v1 ++ v2). split; [now apply Forall2_app|].
      change (a ++ SFix w :: a') with (a ++ [SFix w] ++ a'). rewrite !sargs_app, !map_app, concat_app, E1, E2. reflexivity.
    - destruct IHl as (v1 & F1 & E1). destruct IHx as (v2 & F2 & E2). destruct IHy as (v3 & F3 & E3). exists (v1 ++ v2 ++ v1 ++ v3).
      split; [cbn [operands mk_between nType nLeft nParams]; repeat apply Forall2_app; assumption|].
      change (a ++ SFix #" >= " :: a' ++ SFix #" AND " :: a ++ SFix #" <= " :: e) with (a ++ [SFix #" >= "] ++ a' ++ [SFix #" AND "] ++ a ++ [SFix #" <= "] ++ e).
      rewrite !sargs_app, !map_app, !concat_app, E1, E2, E3. reflexivity.
    - destruct IHl as (v1 & F1 & E1). destruct IHx as (v2 & F2 & E2). destruct IHy as (v3 & F3 & E3). exists (v1 ++ v2 ++ v1 ++ v3).
      split; [cbn [operands mk_between nType nLeft nParams]; repeat apply Forall2_app; assumption|].
      change (a ++ SFix #" < " :: a' ++ SFix #" AND " :: a ++ SFix #" > " :: e) with (a ++ [SFix #" < "] ++ a' ++ [SFix #" AND "] ++ a ++ [SFix #" > "] ++ e).
      rewrite !sargs_app, !map_app, !concat_app, E1, E2, E3. reflexivity.
  Qed.
  Lemma fixed_infix : forall o w, In (o, w) infix_words -> In w ent_fixed.
  Proof.
    intros o w H. assert (K : forallb (fun p => existsb (streq (snd p)) ent_fixed) infix_words = true) by reflexivity.
    rewrite forallb_forall in K. apply K, existsb_exists in H as (x & Hx & E). cbn [snd] in E. now destruct (streq_spec w x) as [->|].
  Qed.
  Lemma fixed_pred : forall o w, In (o, w) pred_words -> In w ent_fixed.
  Proof. intros o w H. apply (fixed_infix o). unfold infix_words. apply in_or_app. now left. Qed.
  Lemma edge_origin : forall d w c x t s1 s2 P, edge_to d w c x t s1 s2 -> origin d P (SEdge s1) /\ origin d P (SEdge s2) /\ origin d P (SEdge (s1 ++ s2)).
  Proof. intros d w c x t s1 s2 P (spec & _ & _ & _ & E). repeat split; eexists _, _, _, _, s1, s2; split; try exact E; tauto. Qed.
  Lemma commas_origin : forall d P vs, Forall (origin d P) (commas vs).
  Proof.
    intros d P. induction vs as [|v vs IH]; [constructor|]. assert (origin d P (scalar_piece true v)) by (destruct v; cbn; tauto). destruct vs as [|w vs]; [now repeat constructor|].
    change (commas (v :: w :: vs)) with (scalar_piece true v :: SFix #", " :: commas (w :: vs)). constructor; [assumption|]. constructor; [cbn; tauto|exact IH].
  Qed.
  Lemma emits_origin : forall d dis c n ps, emits d dis c n ps -> Forall (origin d (had n)) ps.
  Proof.
    assert (W : forall d n k ps, In (Some k) (children n) -> Forall (origin d (had k)) ps -> Forall (origin d (had n)) ps).
    { intros d n k ps H. apply Forall_impl. intros [t|x|t|a]; cbn; auto. intro R. eapply reach_step; eassumption. }
    induction 1 as [c n v G HA|c l vs G|c x|c e ps _ IH|c e ps _ IH|c a rest ps _ IH|c p t s1 s2 HN HE|c p e t s1 s2 ps HN HE HX _ IH|c l k w ps HW _ IH
      |c l k r w a a' HW _ IHl _ IHr|c l k r w a a' HW _ IHl _ IHr|c l k x y a a' e HK _ IHl _ IHx _ IHy|c l k x y a a' e HK _ IHl _ IHx _ IHy].
    - constructor; [|constructor]. destruct dis, v; cbn; tauto.
    - constructor; [cbn; tauto|]. apply Forall_app. split; [apply commas_origin|]. constructor; [cbn; tauto|constructor].
    - constructor; [apply reach_refl|constructor].
    - constructor; [cbn; tauto|]. apply Forall_app. split; [eapply W; [|exact IH]; cbn; tauto|]. constructor; [cbn; tauto|constructor].
    - constructor; [cbn; tauto|]. eapply W; [|exact IH]; cbn; tauto.
    - constructor; [cbn; tauto|]. apply Forall_app. split; [eapply W; [|exact IH]; cbn; tauto|]. constructor; [cbn; tauto|constructor].
    - destruct (edge_origin d _ _ _ _ _ _ (had (mk_function #"has_edge" [Some p])) HE) as (_ & _ & O). constructor; [exact O|constructor].
    - destruct (edge_origin d _ _ _ _ _ _ (had (mk_function #"has_edge" [Some p; Some e])) HE) as (O1 & O2 & _).
      constructor; [exact O1|]. apply Forall_app. split; [eapply W; [|exact IH]; cbn; tauto|]. constructor; [exact O2|constructor].
    - apply Forall_app. split; [eapply W; [|exact IH]; cbn; tauto|]. constructor; [now apply fixed_pred in HW|constructor].
    - apply Forall_app. split; [eapply W; [|exact IHl]; cbn; tauto|]. constructor; [now apply fixed_infix in HW|]. eapply W; [|exact IHr]; cbn; tauto.
    - apply Forall_app. split; [eapply W; [|exact IHl]; cbn; tauto|]. constructor; [now apply fixed_infix in HW|]. eapply W; [|exact IHr]; cbn; tauto.
    - apply Forall_app. split; [eapply W; [|exact IHl]; cbn; tauto|]. constructor; [cbn; tauto|]. apply Forall_app. split; [eapply W; [|exact IHx]; cbn; tauto|].
      constructor; [cbn; tauto|]. apply Forall_app. split; [eapply W; [|exact IHl]; cbn; tauto|]. constructor; [cbn; tauto|]. eapply W; [|exact IHy]; cbn; tauto.
    - apply Forall_app. split; [eapply W; [|exact IHl]; cbn; tauto|]. constructor; [cbn; tauto|]. apply Forall_app. split; [eapply W; [|exact IHx]; cbn; tauto|].
      constructor; [cbn; tauto|]. apply Forall_app. split; [eapply W; [|exact IHl]; cbn; tauto|]. constructor; [cbn; tauto|]. eapply W; [|exact IHy]; cbn; tauto.
  Qed.

  (** ** With SQLBuilder set *)
  Definition sim (b : sqlb) (r s : sres) : Prop :=
    (r = None /\ s = None) \/ exists y e, r = Some (ST y None, e) /\ s = Some (ST b (Some y), e).
  Lemma sim_here : forall b y e, sim b (Some (ST y None, e)) (Some (ST b (Some y), e)).
  Proof. intros b y e. right. eauto. Qed.
  Lemma sim_unless : forall b r s f, sim b r s -> (forall y, sim b (f (ST y None)) (f (ST b (Some y)))) -> sim b (unless_err r f) (unless_err s f).
  Proof. intros b r s f [[-> ->]|(y & [e|] & -> & ->)] H; cbn [unless_err]; [now left|apply sim_here|apply H]. Qed.
  Lemma sim_always : forall b r s f, sim b r s -> sim b (always r (emit f)) (always s (emit f)).
  Proof. intros b r s f [[-> ->]|(y & e & -> & ->)]; cbn [always]; [now left|apply sim_here]. Qed.
  Lemma visit_sim : forall dis n, safe n -> edgeless n -> forall c x b, sim b (visit dis c n (ST x None)) (visit dis c n (ST b (Some x))).
  Proof.
    intros dis. apply (safe_shape_ind (fun n => edgeless n -> forall c x b, sim b (visit dis c n (ST x None)) (visit dis c n (ST b (Some x))))).
    - intros n v _ HT HV G _ c x b. destruct n as [ty vt i bo st fl arr op na ns ex le oo ri pp]. cbn in HT. subst ty.
      cbn [svisit nType nVType]. rewrite HV. destruct vt; try apply sim_here; try (destruct v; try (now left); apply sim_here).
    - intros o _ c x b. apply sim_here.
    - intros y _ c x b. apply sim_here.
    - intros ns _ c x b. apply sim_here.
    - intros l o _ _ IH _ HE c x b. cbn [svisit mk_predicate nType nLeft nOp]. destruct (assoc (nOperation o) entsql_ops); [|apply sim_here].
      apply sim_always, IH. intros ps V. apply (HE ps). now constructor.
    - intros l o r _ _ _ IHl _ IHr HE c x b. cbn [svisit mk_compare nType nLeft nOp nRight].
      assert (El : edgeless l) by (intros ps V; apply (HE ps); now apply vis_cmp_l). assert (Er : edgeless r) by (intros ps V; apply (HE ps); now apply vis_cmp_r).
      destruct (IHl El c x b) as [[-> ->]|(y & e & -> & ->)]; [now left|]. destruct (assoc (nOperation o) entsql_ops) as [op|].
      + apply sim_unless; [apply sim_here|]. intro z. now apply IHr.
      + destruct (streq (nOperation o) #"not like" || streq (nOperation o) #"and" || streq (nOperation o) #"or"); [|apply sim_here].
        apply sim_unless; [apply sim_here|]. intro z. now apply IHr.
    - intros l o r _ _ _ IHl _ IHr HE c x b. cbn [svisit mk_logic nType nLeft nOp nRight].
      assert (El : edgeless l) by (intros ps V; apply (HE ps); now apply vis_logic_l). assert (Er : edgeless r) by (intros ps V; apply (HE ps); now apply vis_logic_r).
      destruct (IHl El c x b) as [[-> ->]|(y & e & -> & ->)]; [now left|]. destruct (assoc (nOperation o) entsql_ops) as [op|].
      + apply sim_unless; [apply sim_here|]. intro z. now apply IHr.
      + destruct (streq (nOperation o) #"not like" || streq (nOperation o) #"and" || streq (nOperation o) #"or"); [|apply sim_here].
        apply sim_unless; [apply sim_here|]. intro z. now apply IHr.
    - intros e _ IH HE c x b. cbn [svisit mk_paren nType nExpression]. apply sim_always. cbn [emit sExt sOwn]. apply IH. intros ps V. apply (HE ps). now constructor.
    - intros e _ IH HE c x b. cbn [svisit mk_not nType nExpression]. cbn [emit sExt sOwn]. apply IH. intros ps V. apply (HE ps). now constructor.
    - intros l o u w _ _ _ _ Tu Tw IHl _ IHu IHw HE c x b. cbn [svisit mk_between nType nOp nLeft nParams].
      assert (El : edgeless l) by (intros ps V; apply (HE ps); now apply vis_between).
      assert (Eu : edgeless u) by (intros ps V; inversion V; subst; discriminate). assert (Ew : edgeless w) by (intros ps V; inversion V; subst; discriminate).
      apply sim_unless; [now apply IHl|]. intro y. apply sim_unless; [now apply IHu|]. intro z. apply sim_unless; [now apply IHl|]. intro k. now apply IHw.
    - intros f ms _ HF HE c x b. cbn [svisit mk_function nType nName nParams]. destruct (streq_spec f #"date") as [->|].
      + destruct ms as [|m ms]; [now left|]. cbn [map]. inversion_clear HF as [|? ? Hm _]. apply sim_always. cbn [emit sExt sOwn]. apply Hm.
        intros ps V. apply (HE ps). cbn [map]. now constructor.
      + destruct (streq_spec f #"has_edge") as [->|]; [|apply sim_here]. destruct (HE (map Some ms)). constructor.
  Qed.
  Lemma query_ext : forall d dis nd q n b x ps, valid_runes q -> parse lo q = Ok (Some n) -> edgeless n -> bDialect x = d -> emits d dis nd n ps ->
    exists x', query (MB nd q None dis (ST b (Some x))) = Some (MB nd q (Some n) dis (ST b (Some x')), (bText b, bArgs b)) /\
      bText x' = bText x ++ sql d (bTotal x) ps /\ bArgs x' = bArgs x ++ sargs ps.
  Proof.
    intros d dis nd q n b x ps Hq Hp HE Hx H. exists (put ident_sql d ps x). refine (conj _ (conj eq_refl eq_refl)). unfold EntSQL.query. cbn [mAst mQuery]. rewrite Hp. unfold mrun_ast. cbn [mDisable mNode mSt set_ast mAst mQuery].
    pose proof (visit_sim dis n (parse_safe lo q n Hq Hp) HE nd x b) as S. rewrite (emits_visit ident_sql edge_sql heap d dis nd n ps H x Hx) in S.
    destruct S as [[S _]|(y & e & S & T)]; [discriminate|]. injection S as <- <-. rewrite T. reflexivity.
  Qed.

  (** ** Counting placeholders *)
  Lemma occ_app : forall c s t, occurrences c (s ++ t) = occurrences c s + occurrences c t.
  Proof. intros c s t. unfold occurrences. now rewrite filter_app, app_length. Qed.
  Lemma digits_occ : forall c s, ~ (48 <= c <= 57)%N -> forallb is_digit s = true -> occurrences c s = 0.
  Proof.
    intros c s Hc. induction s as [|x s IH]; intro H; [reflexivity|]. apply andb_true_iff in H as [H1 H2]. unfold occurrences in *. cbn [filter].
    destruct (N.eqb_spec c x) as [->|]; [|now apply IH]. unfold is_digit in H1. apply andb_true_iff in H1 as [A B]. apply N.leb_le in A, B. lia.
  Qed.
  Lemma print_occ : forall c n, ~ (48 <= c <= 57)%N -> occurrences c (print_N n) = 0.
  Proof. intros c n H. destruct (print_N_ok n) as (H1 & _). now apply digits_occ. Qed.
  Lemma holder_occ : forall d k a, occurrences (mark d) (holder d k a) = 1.
  Proof.
    intros d k a. unfold mark, holder. destruct (streq d #"postgres"); [|reflexivity]. rewrite !occ_app, print_occ by lia.
    destruct a as [v|v]; [reflexivity|]. now destruct v.
  Qed.
  Lemma fixed_occ : forall d t, In t ent_fixed -> occurrences (mark d) t = 0.
  Proof.
    intros d t H. unfold mark. cbn [ent_fixed In] in H. decompose [or] H; subst; destruct (streq d #"postgres"); reflexivity || contradiction.
  Qed.
  Lemma pieces_occ : forall d P ps k, clean (mark d) d -> Forall (origin d P) ps -> occurrences (mark d) (sql d k ps) = length (sargs ps).
  Proof.
    intros d P ps k (HI & HE) H. revert k. induction H as [|p ps Hp _ IH]; intro k; [reflexivity|]. destruct p as [t|x|t|a]; cbn [sql_of]; rewrite occ_app, IH.
    - cbn in Hp. now rewrite (fixed_occ d t Hp).
    - now rewrite HI.
    - destruct Hp as (w & from & spec & to & s1 & s2 & E & K). destruct (HE _ _ _ _ _ _ E) as [E1 E2].
      destruct K as [->|[->| ->]]; rewrite ?occ_app, ?E1, ?E2; reflexivity.
    - rewrite holder_occ. reflexivity.
  Qed.
End Query.
