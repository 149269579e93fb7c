(** Facts about entsql: statements for the properties, and witnesses. *)
From Verif Require Import Base Peg Node Vocab Tree Parse Syntax Blank ParseProofs NormProofs Unique ParserFacts ParserFacts2 ParserMain NameFacts Build BuildProofs NodeFacts SafeInd
  Gorm GormSpec GormProofs GormFacts GormFacts2 GormFacts3 GormSample GormFacts4 EntSQL EntSQLSpec EntSQLProofs EntSQLFacts EntSQLFacts2 EntSQLSample.
Require Import Arith.
Strategy expand [parse_machine rule_trace].
Strategy 1000 [parse_fuel mrun tok_trace].

(** not before between *)
Lemma not_between_reading : forall lo e o br a b v, negated_between lo o = false ->
  holds v (sql_reading (flat2 lo (ENot (EBetween e o br a b)))) = negb (v (ECmp e #">=" (EVal a))) && v (ECmp e #"<=" (EVal b)).
Proof. intros lo e o br a b v H. cbn [flat2]. rewrite H. reflexivity. Qed.
Lemma between_reading : forall lo e o br a b v (x y z : Z), negated_between lo o = false ->
  v (ECmp e #">=" (EVal a)) = (y <=? x)%Z -> v (ECmp e #"<=" (EVal b)) = (x <=? z)%Z ->
  holds v (sql_reading (flat2 lo (EBetween e o br a b))) = true <-> (y <= x <= z)%Z.
Proof.
  intros lo e o br a b v x y z H H1 H2. cbn [flat2]. rewrite H. unfold sql_reading, below. cbn [read_chain read_operand bnot bor holds]. rewrite H1, H2.
  rewrite andb_true_iff, !Z.leb_le. tauto.
Qed.
Lemma outside_reading : forall lo e o br a b v (x y z : Z), negated_between lo o = true ->
  v (ECmp e #"<" (EVal a)) = (x <? y)%Z -> v (ECmp e #">" (EVal b)) = (z <? x)%Z -> (y <= z)%Z ->
  holds v (sql_reading (flat2 lo (EBetween e o br a b))) = false.
Proof.
  intros lo e o br a b v x y z H H1 H2 L. cbn [flat2]. rewrite H. unfold sql_reading, below. cbn [read_chain read_operand bnot bor holds]. rewrite H1, H2.
  destruct (Z.ltb_spec x y), (Z.ltb_spec z x); try reflexivity. lia.
Qed.

Section More.
  Variable lo : N -> N.
  Variable ident_sql : list N -> list N -> list N.
  Variable edge_sql : bool -> list N -> gnode -> gspec -> gnode -> option (list N * list N).
  Variable heap : nat -> gnode.
  Notation visit := (svisit ident_sql edge_sql heap).
  Notation sql := (sql_of ident_sql).
  Notation emits := (emits edge_sql heap).
  Notation query := (query lo ident_sql edge_sql heap).

  Lemma query_args : forall d dis nd q m t a, valid_runes q -> query (fresh d dis nd q) = Some (m, (t, a)) -> no_error m ->
    exists n vs, parse lo q = Ok (Some n) /\ Forall2 go_value (operands n) vs /\ map arg_value a = concat (map (passed dis) vs).
  Proof.
    intros d dis nd q m t a Hq H HE. destruct (query_complete lo ident_sql edge_sql heap d dis nd q m t a Hq H HE) as (n & ps & Hp & K & -> & ->).
    destruct (emits_operands edge_sql heap d dis nd n ps K) as (vs & F & E). exists n, vs. auto.
  Qed.
  Lemma query_marks : forall d dis nd q m t a, valid_runes q -> clean ident_sql edge_sql (mark d) d -> query (fresh d dis nd q) = Some (m, (t, a)) -> no_error m ->
    occurrences (mark d) t = length a.
  Proof.
    intros d dis nd q m t a Hq HC H HE. destruct (query_complete lo ident_sql edge_sql heap d dis nd q m t a Hq H HE) as (n & ps & Hp & K & -> & ->).
    eapply pieces_occ; [exact HC|]. eapply (emits_origin ident_sql), K.
  Qed.
  Lemma query_origin : forall d dis nd q m t a, valid_runes q -> query (fresh d dis nd q) = Some (m, (t, a)) -> no_error m ->
    exists ps, t = sql d 0 ps /\ Forall (origin edge_sql d (fun x => ident x /\ part x q)) ps.
  Proof.
    intros d dis nd q m t a Hq H HE. destruct (query_complete lo ident_sql edge_sql heap d dis nd q m t a Hq H HE) as (n & ps & Hp & K & -> & ->).
    exists ps. split; [reflexivity|]. eapply Forall_impl; [|eapply (emits_origin ident_sql), K]. intros [u|x|u|b]; cbn; auto.
    intro R. exact (parse_names lo q n _ Hq Hp R).
  Qed.
  (** casts *)
  Lemma commas_plain : forall vs, map plain (commas vs) = commas vs.
  Proof.
    induction vs as [|v vs IH]; [reflexivity|]. destruct vs as [|w vs]; [now destruct v|].
    change (commas (v :: w :: vs)) with ([scalar_piece true v; SFix #", "] ++ commas (w :: vs)). rewrite map_app, IH. now destruct v.
  Qed.
  Lemma emits_plain : forall d c n ps, emits d false c n ps -> (forall m, In m (operands n) -> ~ go_value m GNil) -> emits d true c n (map plain ps).
  Proof.
    induction 1 as [c n v G HA|c l vs G|c x|c e ps _ IH|c e ps _ IH|c a rest ps _ IH|c p t s1 s2 HN HE|c p e t s1 s2 ps HN HE HX _ IH|c l k w ps HW _ IH
      |c l k r w a a' HW _ IHl _ IHr|c l k r w a a' HW _ IHl _ IHr|c l k x y a a' e HK _ IHl _ IHx _ IHy|c l k x y a a' e HK _ IHl _ IHx _ IHy]; intro HO.
    - replace (map plain [scalar_piece false v]) with [scalar_piece true v]; [now constructor|].
      assert (v <> GNil); [|now destruct v]. intros ->. apply (HO n); [|exact G]. pose proof (go_value_type n _ G) as T. destruct n. cbn in T. subst. cbn. auto.
    - cbn [map]. rewrite map_app, commas_plain. now constructor.
    - constructor.
    - cbn [map]. rewrite map_app. constructor. apply IH. exact HO.
    - cbn [map]. constructor. apply IH. exact HO.
    - cbn [map]. rewrite map_app. constructor. apply IH. exact HO.
    - econstructor; eassumption.
    - cbn [map]. rewrite map_app. econstructor; try eassumption. apply IH. exact HO.
    - rewrite map_app. constructor; [exact HW|]. apply IH. exact HO.
    - rewrite map_app. constructor; [exact HW|apply IHl|apply IHr]; intros m Hm; apply HO; cbn; apply in_or_app; auto.
    - rewrite map_app. constructor; [exact HW|apply IHl|apply IHr]; intros m Hm; apply HO; cbn; apply in_or_app; auto.
    - rewrite map_app. cbn [map]. rewrite map_app. cbn [map]. rewrite map_app. cbn [map].
      constructor; [exact HK|apply IHl|apply IHx|apply IHy]; intros m Hm; apply HO; cbn [operands mk_between nType nLeft nParams]; rewrite ?in_app_iff; auto.
    - rewrite map_app. cbn [map]. rewrite map_app. cbn [map]. rewrite map_app. cbn [map].
      constructor; [exact HK|apply IHl|apply IHx|apply IHy]; intros m Hm; apply HO; cbn [operands mk_between nType nLeft nParams]; rewrite ?in_app_iff; auto.
  Qed.
  Lemma query_plain : forall d nd q m t a, valid_runes q -> (forall n m, parse lo q = Ok (Some n) -> In m (operands n) -> ~ go_value m GNil) ->
    query (fresh d false nd q) = Some (m, (t, a)) -> no_error m ->
    exists ps m', t = sql d 0 ps /\ a = sargs ps /\ query (fresh d true nd q) = Some (m', (sql d 0 (map plain ps), sargs (map plain ps))) /\ no_error m'.
  Proof.
    intros d nd q m t a Hq HO H HE. destruct (query_complete lo ident_sql edge_sql heap d false nd q m t a Hq H HE) as (n & ps & Hp & K & -> & ->).
    exists ps. eexists. refine (conj eq_refl (conj eq_refl (conj _ _))).
    - apply (query_emits lo ident_sql edge_sql heap d true nd q n _ Hp). apply emits_plain; [exact K|]. intros x Hx. exact (HO n x Hp Hx).
    - reflexivity.
  Qed.
  Lemma plain_args : forall ps, map arg_value (sargs (map plain ps)) = map arg_value (sargs ps).
  Proof. induction ps as [|p ps IH]; [reflexivity|]. unfold sargs in *. cbn [map concat]. rewrite !map_app, IH. f_equal. destruct p as [t|x|t|[v|v]]; reflexivity. Qed.
  Lemma plain_text : forall d ps k, d <> #"postgres" -> sql d k (map plain ps) = sql d k ps.
  Proof.
    intros d ps k Hd. revert k. induction ps as [|p ps IH]; intro k; [reflexivity|]. destruct p as [t|x|t|[v|v]]; cbn [map plain sql_of]; rewrite IH; try reflexivity.
    f_equal. unfold holder. now destruct (streq_spec d #"postgres").
  Qed.
  Lemma number_text : forall k v, exists ds, holder #"postgres" k (APlain v) = #"$" ++ ds /\ holder #"postgres" k (ACast v) = #"$" ++ ds ++ cast_suffix v /\
    forallb is_digit ds = true /\ dec_value ds = Z.of_N k /\ (hd 0%N ds = 48%N -> ds = [48%N]).
  Proof.
    intros k v. exists (print_N k). destruct (print_N_ok k) as (H1 & H2 & c & r & H3 & H4).
    refine (conj _ (conj eq_refl (conj H1 (conj H2 _)))); [unfold holder; change (streq #"postgres" #"postgres") with true; cbn iota; now rewrite app_nil_r|].
    intro H. rewrite H3 in H. cbn in H. subst c. destruct H4 as [H4|[-> ->]]; [discriminate|exact H3].
  Qed.
  Lemma cast_cases : forall v p d, arg_value (ACast v) = v /\ (d <> #"postgres" -> format_param v p d = p) /\ (d = #"postgres" -> format_param v p d = p ++ cast_suffix v).
  Proof.
    intros v p d. refine (conj eq_refl (conj _ _)); intro Hd; unfold format_param, is_postgres; destruct (streq_spec d #"postgres") as [E|E]; try contradiction; try reflexivity.
    destruct v; cbn [cast_suffix]; rewrite ?app_nil_r; reflexivity.
  Qed.
  Lemma query_plain_text : forall d nd q m t a, valid_runes q -> d <> #"postgres" -> (forall n m, parse lo q = Ok (Some n) -> In m (operands n) -> ~ go_value m GNil) ->
    query (fresh d false nd q) = Some (m, (t, a)) -> no_error m ->
    exists m' a', query (fresh d true nd q) = Some (m', (t, a')) /\ no_error m' /\ map arg_value a' = map arg_value a.
  Proof.
    intros d nd q m t a Hq Hd HO H HE. destruct (query_plain d nd q m t a Hq HO H HE) as (ps & m' & -> & -> & K & HE'). rewrite (plain_text d ps 0 Hd) in K.
    exists m'. eexists. refine (conj K (conj HE' _)). apply plain_args.
  Qed.
  (** the text of a query and what SQL makes of it *)
  Lemma query_between : forall d dis nd q e o br lw up m t a, valid_runes q -> reads q (EBetween e o br lw up) -> json_free e = true -> negated_between lo o = false ->
    query (fresh d dis nd q) = Some (m, (t, a)) -> no_error m ->
    exists c ps, t = sql d 0 ps /\ a = sargs ps /\ spells lo (emits d dis nd) c ps /\
      forall v (x y z : Z), v (ECmp e #">=" (EVal lw)) = (y <=? x)%Z -> v (ECmp e #"<=" (EVal up)) = (x <=? z)%Z ->
        (holds v (sql_reading c) = true <-> (y <= x <= z)%Z).
  Proof.
    intros d dis nd q e o br lw up m t a Hq He Hj Ho H HE. destruct (query_spells lo ident_sql edge_sql heap d dis nd q _ m t a Hq He Hj H HE) as (ps & H1 & H2 & H3).
    eexists _, ps. refine (conj H1 (conj H2 (conj H3 _))). intros v x y z. now apply between_reading.
  Qed.
  Lemma query_outside : forall d dis nd q e o br lw up m t a, valid_runes q -> reads q (EBetween e o br lw up) -> json_free e = true -> negated_between lo o = true ->
    query (fresh d dis nd q) = Some (m, (t, a)) -> no_error m ->
    exists c ps, t = sql d 0 ps /\ a = sargs ps /\ spells lo (emits d dis nd) c ps /\
      forall v (x y z : Z), v (ECmp e #"<" (EVal lw)) = (x <? y)%Z -> v (ECmp e #">" (EVal up)) = (z <? x)%Z -> (y <= z)%Z -> holds v (sql_reading c) = false.
  Proof.
    intros d dis nd q e o br lw up m t a Hq He Hj Ho H HE. destruct (query_spells lo ident_sql edge_sql heap d dis nd q _ m t a Hq He Hj H HE) as (ps & H1 & H2 & H3).
    eexists _, ps. refine (conj H1 (conj H2 (conj H3 _))). intros v x y z. now apply outside_reading.
  Qed.
  Lemma query_not_between : forall d dis nd q e o br lw up m t a, valid_runes q -> reads q (ENot (EBetween e o br lw up)) -> json_free e = true -> negated_between lo o = false ->
    query (fresh d dis nd q) = Some (m, (t, a)) -> no_error m ->
    exists c ps, t = sql d 0 ps /\ a = sargs ps /\ spells lo (emits d dis nd) c ps /\
      forall v, holds v (sql_reading c) = negb (v (ECmp e #">=" (EVal lw))) && v (ECmp e #"<=" (EVal up)).
  Proof.
    intros d dis nd q e o br lw up m t a Hq He Hj Ho H HE. destruct (query_spells lo ident_sql edge_sql heap d dis nd q _ m t a Hq He Hj H HE) as (ps & H1 & H2 & H3).
    eexists _, ps. refine (conj H1 (conj H2 (conj H3 _))). intros v. now apply not_between_reading.
  Qed.
  (** date *)
  Lemma date_rest : forall d dis nd q q' a r r', parse lo q = Ok (Some (mk_function #"date" (Some a :: r))) -> parse lo q' = Ok (Some (mk_function #"date" (Some a :: r'))) ->
    option_map snd (query (fresh d dis nd q)) = option_map snd (query (fresh d dis nd q')).
  Proof.
    intros d dis nd q q' a r r' H H'. rewrite (query_fresh lo ident_sql edge_sql heap d dis nd q _ H), (query_fresh lo ident_sql edge_sql heap d dis nd q' _ H').
    unfold mrun_ast. cbn [mDisable mNode mSt done].
    change (visit dis nd (mk_function #"date" (Some a :: r'))) with (visit dis nd (mk_function #"date" (Some a :: r))).
    destruct (visit dis nd (mk_function #"date" (Some a :: r)) (ST (SB [] [] 0 d []) None)) as [[s [e|]]|]; reflexivity.
  Qed.
  Lemma query_success : forall d dis nd q n ps, parse lo q = Ok (Some n) -> emits d dis nd n ps ->
    exists m, query (fresh d dis nd q) = Some (m, (sql d 0 ps, sargs ps)) /\ no_error m.
  Proof. intros d dis nd q n ps Hp H. eexists. refine (conj (query_emits lo ident_sql edge_sql heap d dis nd q n ps Hp H) _). reflexivity. Qed.
End More.

(** ** Witnesses *)
Notation run3 d dis nd q := (query lo2 ident3 edge3 heap3 (fresh d dis nd q)).
Lemma nested_error : forall lo, exists q m t a, valid_runes q /\ query lo ident3 edge3 heap3 (fresh #"mysql" true (Some 0) q) = Some (m, (t, a)) /\ ~ no_error m /\ t <> [].
Proof.
  intro lo. exists #"has_edge(pets, a.b = 1)". do 3 eexists. refine (conj _ (conj _ (conj _ _))); [now apply valid_runesb_spec|vm_compute; reflexivity|discriminate|discriminate].
Qed.
Lemma sql_panics : forall lo, (exists q, valid_runes q /\ query lo ident3 edge3 heap3 (fresh #"mysql" true (Some 0) q) = None) /\
  (exists q, valid_runes q /\ query lo ident3 edge3 heap3 (fresh #"mysql" true (Some 0) q) <> None /\ query lo ident3 edge3 heap3 (fresh #"mysql" true None q) = None).
Proof.
  intro lo. split.
  - exists #"date() = 1". refine (conj _ _); [now apply valid_runesb_spec|vm_compute; reflexivity].
  - exists #"has_edge(pets)". refine (conj _ (conj _ _)); [now apply valid_runesb_spec|vm_compute; discriminate|vm_compute; reflexivity].
Qed.
Lemma reads_between : 
  reads #"not a between 1 and 2" (ENot (EBetween (EName #"a") #"between" false (VLit (LInt #"1")) (VLit (LInt #"2")))) /\
  reads #"a between 1 and 2 = b" (ECmp (EBetween (EName #"a") #"between" false (VLit (LInt #"1")) (VLit (LInt #"2"))) #"=" (EName #"b")).
Proof.
  assert (B : blank #" ") by (apply blank_char; [reflexivity|constructor]).
  assert (N : forall x, length x = 1 -> ~ starts_word x).
  { intros [|c [|? ?]] H; try discriminate. intros [K|[K|[K|[K|[K|K]]]]]; destruct K as [r K]; discriminate. }
  assert (S : forall q e, lay e q -> reads q e) by (intros q e H; exists [], q, []; rewrite app_nil_r; refine (conj eq_refl (conj blank_nil (conj blank_nil H)))).
  assert (L : lay (EBetween (EName #"a") #"between" false (VLit (LInt #"1")) (VLit (LInt #"2"))) #"a between 1 and 2").
  { apply (lay_between (EName #"a") #"a" #" " #"between" #" " (VLit (LInt #"1")) #"1" #" " #"and" #" " (VLit (LInt #"2")) #"2"); auto; try (cbn; lia); try reflexivity.
    - apply lay_name; [one_char|now apply N].
    - left. reflexivity.
    - constructor. now apply lt_int.
    - constructor. now apply lt_int.
    - intros _. reflexivity. }
  split; apply S.
  - apply (lay_not #"not" #" " _ #"a between 1 and 2"); [reflexivity|split; [exact B|discriminate]|cbn; lia|exact L].
  - apply (lay_cmp _ #"a between 1 and 2" #" " #"=" #" " (EName #"b") #"b"); auto; try (cbn; lia).
    + left. cbn. tauto.
    + apply lay_name; [one_char|now apply N].
    + intros _. reflexivity.
Qed.
Lemma not_between_witness : forall lo, exists q e m, valid_runes q /\ reads q (ENot e) /\
  query lo ident3 edge3 heap3 (fresh #"mysql" true (Some 0) q) = Some (m, (#"NOT `a` >= ? AND `a` <= ?", [APlain (GInt 1); APlain (GInt 2)])) /\ no_error m /\
  exists v, holds v (sql_reading (flat2 lo (ENot e))) = false /\ holds v (sql_reading (flat2 lo e)) = false.
Proof.
  intro lo. exists #"not a between 1 and 2". eexists. eexists. refine (conj _ (conj (proj1 reads_between) (conj _ (conj _ _)))); [now apply valid_runesb_spec|vm_compute; reflexivity|reflexivity|].
  exists (fun e => match e with ECmp _ o _ => streq o #">=" | _ => false end). split; vm_compute; reflexivity.
Qed.
Lemma or_and_witness : forall lo, exists q e m, valid_runes q /\ reads q e /\
  query lo ident3 edge3 heap3 (fresh #"mysql" true (Some 0) q) = Some (m, (#"`a` = ? OR `b` = ? AND `c` = ?", [APlain (GInt 1); APlain (GInt 2); APlain (GInt 3)])) /\ no_error m /\
  exists v, holds v (sql_reading (flat2 lo e)) <> holds v (grouping2 lo e).
Proof.
  intro lo. exists #"a = 1 or b = 2 and c = 3". eexists. eexists. refine (conj _ (conj (proj1 reads_abc) (conj _ (conj _ _)))); [now apply valid_runesb_spec|vm_compute; reflexivity|reflexivity|].
  exists (fun e => match e with ECmp (EName x) _ _ => streq x #"a" | _ => false end). vm_compute. discriminate.
Qed.
(** a between as the operand of a comparison *)
Lemma operand_witness : forall lo, exists q e o f m, valid_runes q /\ reads q (ECmp e o f) /\ bare_between e = true /\
  query lo ident3 edge3 heap3 (fresh #"mysql" true (Some 0) q) = Some (m, (#"`a` >= ? AND `a` <= ? = `b`", [APlain (GInt 1); APlain (GInt 2)])) /\ no_error m.
Proof.
  intro lo. exists #"a between 1 and 2 = b". do 4 eexists. refine (conj _ (conj (proj2 reads_between) (conj _ (conj _ _)))); [now apply valid_runesb_spec|reflexivity|vm_compute; reflexivity|reflexivity].
Qed.

Lemma split_text : forall lo, exists q m x t, valid_runes q /\
  query lo ident3 edge3 heap3 (MB (Some 0) q None true (ST (SB [] [] 0 #"mysql" []) (Some (SB [] [] 0 #"mysql" [])))) = Some (m, (t, [])) /\
  no_error m /\ sExt (mSt m) = Some x /\ bText x = #"`a` = ? AND " /\ t = #"EXISTS (SELECT * FROM pets)".
Proof.
  intro lo. exists #"a = 1 and has_edge(pets)". do 3 eexists. refine (conj _ (conj _ _)); [now apply valid_runesb_spec|vm_compute; reflexivity|]. repeat split.
Qed.
Lemma group_example : exists e, reads #"a = 1 and not (b = 2 or c = 3)" e /\ regular2 lo2 e = true /\ json_free e = true /\
  query3 #"mysql" true None #"a = 1 and not (b = 2 or c = 3)" = Some (#"`a` = ? AND NOT (`b` = ? OR `c` = ?)", [APlain (GInt 1); APlain (GInt 2); APlain (GInt 3)]).
Proof. eexists. refine (conj (proj2 reads_abc) (conj _ (conj _ _))); [reflexivity|reflexivity|vm_compute; reflexivity]. Qed.
Lemma names_example : exists n, parse lo2 #"f(user_name) = a.b" = Ok (Some n) /\ reach n (mk_ident #"user_name") /\ reach n (mk_reference [#"a"; #"b"]).
Proof.
  eexists. refine (conj _ (conj _ _)); [vm_compute; reflexivity| |].
  - apply (reach_step _ (mk_function #"f" [Some (mk_ident #"user_name")])); [cbn; auto 9|]. apply (reach_step _ (mk_ident #"user_name")); [cbn; auto 9|]. apply reach_refl.
  - apply (reach_step _ (mk_reference [#"a"; #"b"])); [cbn; auto 9|]. apply reach_refl.
Qed.
