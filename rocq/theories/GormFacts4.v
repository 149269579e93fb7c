(** Facts about gormq: the statements' remaining lemmas and witnesses. *)
From Verif Require Import Base Peg Node Vocab Tree Parse Syntax Blank ParseProofs NormProofs Unique ParserFacts ParserFacts2 ParserMain Build BuildProofs NodeFacts SafeInd
  Gorm GormSpec GormProofs GormFacts GormFacts2 GormFacts3 GormSample.
Require Import Arith.
Strategy expand [parse_machine rule_trace].
Strategy 1000 [parse_fuel mrun tok_trace].

Scheme go_value_mind := Induction for go_value Sort Prop with go_values_mind := Induction for go_values Sort Prop.
Lemma go_value_value : forall n v, go_value n v -> value n = Some v.
Proof.
  refine (go_value_mind (fun n v _ => value n = Some v) (fun l vs _ => value (mk_array l) = Some (GArr vs)) _ _ _ _ _ _ _); try reflexivity; auto.
  intros n l v vs _ Hv _ Hl. cbn [value mk_array nType nVType nArray] in *. rewrite Hv.
  match type of Hl with match ?X with _ => _ end = _ => destruct X; [|discriminate] end. now injection Hl as ->.
Qed.
Lemma go_value_type : forall n v, go_value n v -> nType n = NValue.
Proof. destruct 1; reflexivity. Qed.

Section GF4.
  Variable fold_eq : list N -> list N -> bool.
  Variable quote : list N -> list N.
  Variable lo : N -> N.
  Notation wire := (wire_mini_query fold_eq quote lo).

  Lemma wire_vocabulary : forall d q n d', valid_runes q -> marker_free q -> parse lo q = Ok (Some n) -> wire d q = Some d' -> succeeded d d' ->
    exists sch ps, schema_of d = Some sch /\ dWheres d' = dWheres d ++ [(sql_text quote ps, values ps)] /\
      Forall (fun c => exists m, In m (names n) /\ column fold_eq sch m c) (columns ps) /\
      Forall (fun t => In t (sql_fixed ++ sql_operators)) (fixed ps).
  Proof.
    intros d q n d' Hq Hm Hp H Hs. destruct (wire_pieces fold_eq quote lo d q n d' Hq Hp H Hs) as (sch & ps & H1 & H2 & _ & H4 & H5).
    exists sch, ps. refine (conj H1 (conj H2 (conj _ _))).
    - clear -H4. induction H4 as [|m c l l' Hc _ IH]; constructor; [exists m; split; [now left|exact Hc]|].
      eapply Forall_impl; [|exact IH]. intros a (k & K1 & K2). exists k. split; [now right|exact K2].
    - eapply Forall_impl; [|exact H5]. intros t [Ht|(o & Ho & ->)]; apply in_or_app; [now left|right]. apply sql_vocab. eapply ops_vocab; eauto.
  Qed.
  Lemma wire_columns : forall d q n d', valid_runes q -> parse lo q = Ok (Some n) -> wire d q = Some d' -> succeeded d d' ->
    exists sch ps, schema_of d = Some sch /\ dWheres d' = dWheres d ++ [(sql_text quote ps, values ps)] /\ Forall2 (column fold_eq sch) (names n) (columns ps).
  Proof.
    intros d q n d' Hq Hp H Hs. destruct (wire_pieces fold_eq quote lo d q n d' Hq Hp H Hs) as (sch & ps & H1 & H2 & _ & H4 & _).
    exists sch, ps. exact (conj H1 (conj H2 H4)).
  Qed.
  Lemma wire_exact : forall d sch q n, valid_runes q -> parse lo q = Ok (Some n) -> schema_of d = Some sch -> schema_ok sch ->
    ((exists d', wire d q = Some d' /\ succeeded d d') <->
     (Forall (fun m => exists c, column fold_eq sch m c) (names n) /\ Forall (eq #"date") (functions n))).
  Proof.
    intros d sch q n Hq Hp Hs Hok. split.
    - intros (d' & H & Hd). destruct (wire_ok fold_eq quote lo d q n d' Hq Hp H Hd) as (sch' & l & H1 & _ & _ & _ & HS).
      rewrite Hs in H1. apply some_inj in H1. subst sch'. exact (summ_supp _ _ _ _ _ HS).
    - intro HS. pose proof (parse_safe lo q n Hq Hp) as Hn. destruct (ev_right fold_eq quote sch Hok n Hn) as (l & e & E & K).
      specialize (K HS). subst e. exists (after quote sch d l None). split; [|reflexivity].
      rewrite (wire_ev fold_eq quote lo d q n sch (parse_nonempty lo q _ Hp) Hn Hp Hs), E. reflexivity.
  Qed.
  Lemma wire_joins : forall d q n d', valid_runes q -> parse lo q = Ok (Some n) -> wire d q = Some d' -> succeeded d d' ->
    dJoins d' = dJoins d ++ firsts [] (relations n).
  Proof.
    intros d q n d' Hq Hp H Hd. destruct (wire_ok fold_eq quote lo d q n d' Hq Hp H Hd) as (sch & l & _ & _ & _ & -> & [_ _ _ HR _]).
    cbn. now rewrite HR.
  Qed.
  Lemma function_fails : forall d q n f d', valid_runes q -> parse lo q = Ok (Some n) -> In f (functions n) -> f <> #"date" ->
    wire d q = Some d' -> exists e, dErrors d' = dErrors d ++ [e] /\ dWheres d' = dWheres d.
  Proof.
    intros d q n f d' Hq Hp Hf Hn H. destruct (wire_all_or_nothing fold_eq quote lo d q d' Hq H) as [[-> _]|(_ & _ & [(w & _ & K)|(e & K1 & K2)])].
    - apply parse_nonempty in Hp. congruence.
    - destruct (wire_ok fold_eq quote lo d q n d' Hq Hp H K) as (sch & l & _ & _ & _ & _ & [_ _ _ _ HF]). rewrite Forall_forall in HF.
      apply HF in Hf. congruence.
    - exists e. auto.
  Qed.
  Lemma scope_none : forall d, scope fold_eq quote lo [] d = Some d.
  Proof. reflexivity. Qed.
  Lemma scope_single : forall q d, scope fold_eq quote lo [q] d = wire d q.
  Proof. reflexivity. Qed.

  Lemma lookup_unique : forall t x c c', resolves fold_eq t x c -> resolves fold_eq t x c' -> c = c'.
  Proof. intros t x c c' H H'. apply (resolves_iff fold_eq quote) in H, H'. congruence. Qed.
  Lemma lookup_none : forall t x, (forall c, ~ resolves fold_eq t x c) <->
    ~ In x (tByDB t) /\ assoc x (tByName t) = None /\ Forall (fun f => fold_eq (fst f) x = false) (tFields t).
  Proof.
    intros t x. split.
    - intro H. assert (N1 : ~ In x (tByDB t)) by (intro K; apply (H x); now constructor).
      assert (N2 : assoc x (tByName t) = None) by (destruct (assoc x (tByName t)) as [c|] eqn:E; [destruct (H c); now apply res_field|reflexivity]).
      refine (conj N1 (conj N2 _)).
      assert (G : forall bef l, tFields t = bef ++ l -> Forall (fun y => fold_eq (fst y) x = false) bef -> Forall (fun y => fold_eq (fst y) x = false) l).
      { intros bef l. revert bef. induction l as [|[f c] l IH]; intros bef E HB; [constructor|].
        destruct (fold_eq f x) eqn:F; [destruct (H c); now apply (res_fold _ t x bef f c l)|]. constructor; [exact F|].
        apply (IH (bef ++ [(f, c)])); [now rewrite <- app_assoc|]. apply Forall_app. split; [exact HB|]. constructor; [exact F|constructor]. }
      apply (G [] _ eq_refl). constructor.
    - intros (H1 & H2 & H3) c H. destruct H as [K|db _ K|bef f db aft _ _ E F _]; [contradiction|congruence|].
      rewrite E in H3. apply Forall_app in H3 as [_ H3]. inversion_clear H3 as [|? ? H4 _]. cbn in H4. congruence.
  Qed.

  (** ** Rendering (C50) *)
  Lemma spelled_iff : forall o s, spelled o s <-> s = normalize_sql o.
  Proof.
    intros o s. unfold spelled. split.
    - intros [H|[H ->]].
      + cbn in H. decompose [or] H; try contradiction; match goal with K : _ = (o, s) |- _ => injection K as <- <- end; reflexivity.
      + cbn [map fst sql_word In] in H. unfold normalize_sql, sql_ops. cbn [assoc].
        repeat match goal with |- context [streq o ?w] => destruct (streq_spec o w) as [K|_]; [subst o; (reflexivity || (exfalso; tauto))|] end. reflexivity.
    - intros ->. destruct (in_dec (list_eq_dec N.eq_dec) o (map fst sql_word)) as [H|H].
      + left. cbn in H. decompose [or] H; try contradiction; subst; cbn; tauto.
      + right. split; [exact H|]. cbn [map fst sql_word In] in H. unfold normalize_sql, sql_ops. cbn [assoc].
        repeat match goal with |- context [streq o ?w] => destruct (streq_spec o w) as [K|_]; [subst o; (reflexivity || (exfalso; tauto))|] end. reflexivity.
  Qed.
  Notation ren := (renders fold_eq).
  Notation ev := (GormProofs.ev fold_eq).
  Lemma ev_renders : forall sch n, safe n -> forall l, ev sch n = Some (l, None) -> ren sch n (pieces l).
  Proof.
    intro sch. apply (safe_shape_ind (fun n => forall l, ev sch n = Some (l, None) -> ren sch n (pieces l))).
    - intros n v Hn HT Hv Hg l H. destruct n as [ty vt i b st fl arr op na ns ex le oo ri ps]. cbn [nType] in HT. subst ty.
      cbn [GormProofs.ev nType] in H. rewrite Hv in H. injection H as <-. now apply ren_value.
    - intros s l [= <-]. apply ren_op. now apply spelled_iff.
    - intros x l H. cbn in H. unfold ev_ident in H. destruct (get_db_name fold_eq (sTable sch) x) eqn:E; [|discriminate]. injection H as <-.
      apply ren_ident. now apply (resolves_iff fold_eq quote).
    - intros xs l H. cbn in H. unfold ev_ref in H. destruct xs as [|r [|f [|? ?]]]; try discriminate.
      destruct (assoc r (sRelations sch)) as [[t|]|] eqn:E; try discriminate. destruct (get_db_name fold_eq t f) eqn:E2; [|discriminate]. injection H as <-.
      apply (ren_ref fold_eq sch r f t); [exact E|]. now apply (resolves_iff fold_eq quote).
    - intros a o _ _ IHa IHo l H. cbn [GormProofs.ev mk_predicate nType nLeft nOp nRight evp_with] in H.
      apply seq_ok in H as (la & lb & H1 & H2 & ->). apply seq_ok in H2 as (lc & ld & H2 & H3 & ->). apply seq_ok in H2 as (l1 & l2 & H4 & H5 & ->).
      injection H3 as <-. injection H4 as <-. rewrite !app_nil_r, !pieces_app. apply (ren_pred fold_eq sch a o (pieces la) (pieces l2)); auto.
    - intros a o r _ _ _ IHa IHo IHr l H. cbn [GormProofs.ev mk_compare nType nLeft nOp nRight evp_with] in H.
      apply seq_ok in H as (la & lb & H1 & H2 & ->). apply seq_ok in H2 as (lc & ld & H2 & H3 & ->). apply seq_ok in H2 as (l1 & l2 & H4 & H5 & ->).
      apply seq_ok in H3 as (l3 & l4 & H6 & H7 & ->). injection H4 as <-. injection H6 as <-. rewrite !pieces_app. cbn [app]. rewrite <- app_assoc. apply (ren_compare fold_eq sch a o r (pieces la) (pieces l2) (pieces l4)); auto.
    - intros a o r _ _ _ IHa IHo IHr l H. cbn [GormProofs.ev mk_logic nType nLeft nOp nRight evp_with] in H.
      apply seq_ok in H as (la & lb & H1 & H2 & ->). apply seq_ok in H2 as (lc & ld & H2 & H3 & ->). apply seq_ok in H2 as (l1 & l2 & H4 & H5 & ->).
      apply seq_ok in H3 as (l3 & l4 & H6 & H7 & ->). injection H4 as <-. injection H6 as <-. rewrite !pieces_app. cbn [app]. rewrite <- app_assoc. apply (ren_logic fold_eq sch a o r (pieces la) (pieces l2) (pieces l4)); auto.
    - intros e _ IH l H. cbn [GormProofs.ev mk_paren nType nExpression evp_with] in H. apply always_ok in H as (la & H & ->).
      apply seq_ok in H as (l1 & l2 & H1 & H2 & ->). injection H1 as <-. rewrite !pieces_app. apply (ren_paren fold_eq sch e (pieces l2)). auto.
    - intros e _ IH l H. cbn [GormProofs.ev mk_not nType nExpression evp_with] in H. apply seq_ok in H as (l1 & l2 & H1 & H2 & ->). injection H1 as <-.
      rewrite pieces_app. apply (ren_not fold_eq sch e (pieces l2)). auto.
    - intros a o x y _ _ _ _ _ _ IHa IHo IHx IHy l H. cbn [GormProofs.ev mk_between nType nLeft nOp nParams evp_with] in H.
      apply seq_ok in H as (la & lb & H1 & H2 & ->). apply seq_ok in H2 as (lc & ld & H2 & H3 & ->). apply seq_ok in H2 as (l1 & l2 & H4 & H5 & ->).
      apply seq_ok in H3 as (l3 & l4 & H6 & H7 & ->). apply seq_ok in H6 as (l5 & l6 & H8 & H9 & ->). apply seq_ok in H7 as (l7 & l8 & H10 & H11 & ->).
      injection H4 as <-. injection H8 as <-. injection H10 as <-. rewrite !pieces_app. cbn [app]. rewrite <- !app_assoc. cbn [app].
      apply (ren_between fold_eq sch a o x y (pieces la) (pieces l2) (pieces l6) (pieces l8)); auto.
    - intros f ms _ IH l H. rewrite ev_fun in H. destruct (streq_spec f #"date") as [->|]; [|discriminate].
      apply seq_ok in H as (l1 & l2 & H1 & H2 & ->). apply seq_ok in H2 as (l3 & l4 & H3 & H4 & ->). injection H1 as <-. injection H4 as <-.
      rewrite !pieces_app. apply (ren_date fold_eq sch ms (pieces l3)). revert l3 H3.
      induction IH as [|m ms Hm _ IHm]; intros l3 H3; [injection H3 as <-; constructor|]. cbn [ev_all] in H3.
      apply seq_ok in H3 as (l5 & l6 & H5 & H6 & ->). rewrite pieces_app. constructor; auto.
  Qed.
  Lemma renders_ev : forall sch n, safe n -> forall ps, ren sch n ps -> exists l, ev sch n = Some (l, None) /\ pieces l = ps.
  Proof.
    intro sch. apply (safe_shape_ind (fun n => forall ps, ren sch n ps -> exists l, ev sch n = Some (l, None) /\ pieces l = ps)).
    - intros n v Hn HT Hv _ ps H. inversion H; subst; try discriminate.
      match goal with K : go_value n ?w |- _ => apply go_value_value in K; rewrite Hv in K; injection K as <- end.
      destruct n as [ty vt i b st fl arr op na ns ex le oo ri pp]. cbn [nType] in HT. subst ty. cbn [GormProofs.ev nType]. rewrite Hv. eexists. split; reflexivity.
    - intros s ps H. inversion H as [n v G| | | | | | | | | |]; subst; [apply go_value_type in G; discriminate|].
      match goal with K : spelled _ _ |- _ => apply spelled_iff in K; subst end. eexists. split; reflexivity.
    - intros x ps H. inversion H as [n v G| | | | | | | | | |]; subst; [apply go_value_type in G; discriminate|].
      match goal with K : resolves _ _ _ _ |- _ => apply (resolves_iff fold_eq quote) in K; cbn; unfold ev_ident; rewrite K end. eexists. split; reflexivity.
    - intros xs ps H. inversion H as [n v G| | | | | | | | | |]; subst; [apply go_value_type in G; discriminate|].
      match goal with K : resolves _ _ _ _, A : assoc _ _ = _ |- _ => apply (resolves_iff fold_eq quote) in K; cbn; unfold ev_ref; rewrite A, K end. eexists. split; reflexivity.
    - intros a o _ _ IHa IHo ps H. inversion H as [n v G| | | | | | | | | |]; subst; [apply go_value_type in G; discriminate|].
      match goal with A : renders _ _ a _, B : renders _ _ o _ |- _ => destruct (IHa _ A) as (l1 & E1 & <-); destruct (IHo _ B) as (l2 & E2 & <-) end.
      cbn [GormProofs.ev mk_predicate nType nLeft nOp nRight evp_with]. rewrite E1, E2. cbn [evseq evt]. eexists. split; [reflexivity|].
      rewrite !pieces_app. cbn [app]. now rewrite app_nil_r.
    - intros a o r _ _ _ IHa IHo IHr ps H. inversion H as [n v G| | | | | | | | | |]; subst; [apply go_value_type in G; discriminate|].
      match goal with A : renders _ _ a _, B : renders _ _ o _, C : renders _ _ r _ |- _ =>
        destruct (IHa _ A) as (l1 & E1 & <-); destruct (IHo _ B) as (l2 & E2 & <-); destruct (IHr _ C) as (l3 & E3 & <-) end.
      cbn [GormProofs.ev mk_compare nType nLeft nOp nRight evp_with]. rewrite E1, E2, E3. cbn [evseq evt]. eexists. split; [reflexivity|].
      rewrite !pieces_app. cbn [app]. now rewrite <- app_assoc.
    - intros a o r _ _ _ IHa IHo IHr ps H. inversion H as [n v G| | | | | | | | | |]; subst; [apply go_value_type in G; discriminate|].
      match goal with A : renders _ _ a _, B : renders _ _ o _, C : renders _ _ r _ |- _ =>
        destruct (IHa _ A) as (l1 & E1 & <-); destruct (IHo _ B) as (l2 & E2 & <-); destruct (IHr _ C) as (l3 & E3 & <-) end.
      cbn [GormProofs.ev mk_logic nType nLeft nOp nRight evp_with]. rewrite E1, E2, E3. cbn [evseq evt]. eexists. split; [reflexivity|].
      rewrite !pieces_app. cbn [app]. now rewrite <- app_assoc.
    - intros e _ IH ps H. inversion H as [n v G| | | | | | | | | |]; subst; [apply go_value_type in G; discriminate|].
      match goal with A : renders _ _ e _ |- _ => destruct (IH _ A) as (l1 & E1 & <-) end.
      cbn [GormProofs.ev mk_paren nType nExpression evp_with]. rewrite E1. cbn [evseq evt evalways]. eexists. split; [reflexivity|]. now rewrite !pieces_app.
    - intros e _ IH ps H. inversion H as [n v G| | | | | | | | | |]; subst; [apply go_value_type in G; discriminate|].
      match goal with A : renders _ _ e _ |- _ => destruct (IH _ A) as (l1 & E1 & <-) end.
      cbn [GormProofs.ev mk_not nType nExpression evp_with]. rewrite E1. cbn [evseq evt]. eexists. split; [reflexivity|]. now rewrite !pieces_app.
    - intros a o x y _ _ _ _ _ _ IHa IHo IHx IHy ps H. inversion H as [n v G| | | | | | | | | |]; subst; [apply go_value_type in G; discriminate|].
      match goal with A : renders _ _ a _, B : renders _ _ o _, C : renders _ _ x _, D : renders _ _ y _ |- _ =>
        destruct (IHa _ A) as (l1 & E1 & <-); destruct (IHo _ B) as (l2 & E2 & <-); destruct (IHx _ C) as (l3 & E3 & <-); destruct (IHy _ D) as (l4 & E4 & <-) end.
      cbn [GormProofs.ev mk_between nType nLeft nOp nParams evp_with]. rewrite E1, E2, E3, E4. cbn [evseq evt]. eexists. split; [reflexivity|].
      rewrite !pieces_app. cbn [app]. rewrite <- !app_assoc. reflexivity.
    - intros f ms _ IH ps H. inversion H as [n v G| | | | | | | | | |args pp HA]; subst; [apply go_value_type in G; discriminate|].
      assert (args = ms).
      { match goal with K : map Some args = map Some ms |- _ => revert K end. clear. revert ms. induction args as [|x l IH]; destruct ms; cbn; intro K; try discriminate; [reflexivity|].
        injection K as -> K. f_equal. auto. } subst args.
      rewrite ev_fun. change (streq #"date" #"date") with true. cbn iota.
      assert (G : exists l, ev_all fold_eq sch ms = Some (l, None) /\ pieces l = pp).
      { clear H H1. revert pp HA. induction IH as [|m ms Hm _ IHm]; intros pp HA; inversion HA as [|? ? a b R1 R2]; subst; [exists []; split; reflexivity|].
        destruct (Hm _ R1) as (l1 & E1 & <-). destruct (IHm _ R2) as (l2 & E2 & <-). exists (l1 ++ l2). cbn [ev_all]. rewrite E1, E2. split; [reflexivity|]. apply pieces_app. }
      destruct G as (l & -> & <-). cbn [evseq evt]. eexists. split; [reflexivity|]. now rewrite !pieces_app.
  Qed.
  Lemma renders_unique : forall sch n ps ps', safe n -> ren sch n ps -> ren sch n ps' -> ps = ps'.
  Proof.
    intros sch n ps ps' Hn H H'. destruct (renders_ev sch n Hn ps H) as (l & E & <-). destruct (renders_ev sch n Hn ps' H') as (l' & E' & <-). congruence.
  Qed.
  Lemma renders_sound : forall d sch q n ps, valid_runes q -> parse lo q = Ok (Some n) -> schema_of d = Some sch -> ren sch n ps ->
    wire d q = Some (add_where (sql_text quote ps, values ps) (add_joins (firsts [] (relations n)) (with_schema sch d))).
  Proof.
    intros d sch q n ps Hq Hp Hs H. pose proof (parse_safe lo q n Hq Hp) as Hn. destruct (renders_ev sch n Hn ps H) as (l & E & <-).
    rewrite (wire_ev fold_eq quote lo d q n sch (parse_nonempty lo q _ Hp) Hn Hp Hs), E. destruct (ev_sums fold_eq quote sch n Hn l E) as [_ _ _ HR _].
    unfold after. now rewrite HR.
  Qed.
  Lemma renders_complete : forall d q n d', valid_runes q -> parse lo q = Ok (Some n) -> wire d q = Some d' -> succeeded d d' ->
    exists sch ps, schema_of d = Some sch /\ ren sch n ps.
  Proof.
    intros d q n d' Hq Hp H Hd. destruct (wire_ok fold_eq quote lo d q n d' Hq Hp H Hd) as (sch & l & H1 & H2 & H3 & _). exists sch, (pieces l).
    split; [exact H1|]. now apply ev_renders.
  Qed.
  Lemma wire_spelled : forall d q n d', valid_runes q -> parse lo q = Ok (Some n) -> wire d q = Some d' -> succeeded d d' ->
    exists sch ps, schema_of d = Some sch /\ dWheres d' = dWheres d ++ [(sql_text quote ps, values ps)] /\
      Forall2 go_value (literals n) (values ps) /\ Forall2 (column fold_eq sch) (names n) (columns ps) /\
      Forall (fun t => In t sql_fixed \/ exists o, In o (operations n) /\ spelled o t) (fixed ps).
  Proof.
    intros d q n d' Hq Hp H Hs. destruct (wire_pieces fold_eq quote lo d q n d' Hq Hp H Hs) as (sch & ps & H1 & H2 & H3 & H4 & H5).
    exists sch, ps. refine (conj H1 (conj H2 (conj H3 (conj H4 _)))). eapply Forall_impl; [|exact H5].
    intros t [K|(o & Ho & K)]; [now left|right]. exists o. split; [exact Ho|]. now apply spelled_iff.
  Qed.
  Lemma wire_spells : forall d q e d', valid_runes q -> reads q e -> json_free e = true -> wire d q = Some d' -> succeeded d d' ->
    exists sch atom vs, schema_of d = Some sch /\ dWheres d' = dWheres d ++ [(spell_chain atom (flat e), vs)] /\
      Forall (fun a => exists n ps, tree_of lo a = Some n /\ ren sch n ps /\ atom a = sql_text quote ps) (atoms (flat e)).
  Proof.
    intros d q e d' Hq He Hj Hw Hs.
    assert (Hn : exists n, parse lo q = Ok n).
    { destruct (parse lo q) as [n|er|] eqn:E; [eauto| |]; exfalso; unfold wire_mini_query in Hw; destruct q as [|c q].
      - discriminate (reads_not_blank [] e He Hq).
      - rewrite E in Hw. injection Hw as <-. unfold succeeded in Hs. cbn in Hs. now apply app_neq in Hs.
      - discriminate (reads_not_blank [] e He Hq).
      - rewrite E in Hw. discriminate. }
    destruct (wire_grouping fold_eq quote lo d q e d' Hq He Hj Hn Hw Hs) as (sch & vs & H1 & H2 & H3).
    exists sch, (atom fold_eq quote lo sch), vs. refine (conj H1 (conj H2 _)). eapply Forall_impl; [|exact H3].
    intros a (m & l & K1 & K2 & K3 & K4). exists m, (pieces l). refine (conj K2 (conj (ev_renders sch m K3 l K4) _)).
    unfold atom. rewrite K1. now apply ev_sql.
  Qed.
  Lemma wire_date : forall d sch q ms pss, valid_runes q -> schema_of d = Some sch ->
    parse lo q = Ok (Some (mk_function #"date" (map Some ms))) -> Forall2 (ren sch) ms pss ->
    exists d', wire d q = Some d' /\ succeeded d d' /\
      dWheres d' = dWheres d ++ [(#"date(" ++ concat (map (sql_text quote) pss) ++ #")", concat (map values pss))].
  Proof.
    intros d sch q ms pss Hq Hd Hp HR.
    assert (HA : renders_all fold_eq sch ms (concat pss)) by (clear Hp; induction HR; cbn [concat]; constructor; auto).
    eexists. split; [exact (renders_sound d sch q _ _ Hq Hp Hd (ren_date fold_eq sch ms _ HA))|]. split; [reflexivity|].
    cbn [add_where add_joins with_schema dWheres]. do 3 f_equal.
    - change (PText #"date" :: PText #"(" :: concat pss ++ [PText #")"]) with ([PText #"date"; PText #"("] ++ (concat pss ++ [PText #")"])).
      rewrite !text_app. change (sql_text quote [PText #"date"; PText #"("]) with #"date(". do 2 f_equal.
      clear HR HA. induction pss as [|p pss IH]; [reflexivity|]. cbn [concat map]. now rewrite text_app, IH.
    - change (PText #"date" :: PText #"(" :: concat pss ++ [PText #")"]) with ([PText #"date"; PText #"("] ++ (concat pss ++ [PText #")"])).
      rewrite !values_app. cbn [values map concat app]. rewrite app_nil_r.
      clear HR HA. induction pss as [|p pss IH]; [reflexivity|]. cbn [concat map]. now rewrite values_app, IH.
  Qed.
End GF4.

Lemma lookup_spec : forall fold_eq t x c, get_db_name fold_eq t x = Some c <-> resolves fold_eq t x c.
Proof. intros fold_eq t x c. apply (resolves_iff fold_eq (fun q => q)). Qed.
Lemma firsts_spec : forall l, NoDup (firsts [] l) /\ forall x, In x (firsts [] l) <-> In x l.
Proof. intro l. pose (f := fun _ _ : list N => true). pose (g := fun q : list N => q). split; [apply (firsts_nodup f g)|]. intro x. rewrite (firsts_in f g). cbn. tauto. Qed.
Lemma firsts_filter : forall b s, firsts s b = filter (fun x => negb (existsb (streq x) s)) (firsts [] b).
Proof.
  assert (G : forall b s s', incl s' s -> firsts s b = filter (fun x => negb (existsb (streq x) s)) (firsts s' b)).
  { induction b as [|y b IH]; intros s s' H; [reflexivity|]. cbn [firsts]. destruct (existsb (streq y) s') eqn:E'.
    - assert (E : existsb (streq y) s = true) by (apply existsb_in; apply H; now apply existsb_in). rewrite E. now apply IH.
    - destruct (existsb (streq y) s) eqn:E.
      + cbn [filter]. rewrite E. cbn [negb]. apply IH. intros x [<-|Hx]; [now apply existsb_in|now apply H].
      + cbn [filter]. rewrite E. cbn [negb]. f_equal. rewrite (IH (y :: s) (y :: s')) by (intros x [<-|Hx]; [now left|right; now apply H]).
        apply filter_ext_in. intros x Hx. cbn [existsb]. apply (firsts_in (fun _ _ => true) (fun q => q)) in Hx as [_ Hx]. cbn in Hx.
        destruct (streq_spec x y) as [->|]; [tauto|reflexivity]. }
  intros b s. apply G. intros x [].
Qed.
Lemma firsts_order : forall a b, firsts [] (a ++ b) = firsts [] a ++ filter (fun x => negb (existsb (streq x) a)) (firsts [] b).
Proof. intros a b. rewrite (firsts_app (fun _ _ => true) (fun q => q)), app_nil_r. f_equal. apply firsts_filter. Qed.

(** ** Witnesses *)
Lemma comment_marks : forall lo, exists q n d' t v, valid_runes q /\ parse lo q = Ok (Some n) /\
  wire_mini_query fold2 quote2 lo db2 q = Some d' /\ succeeded db2 d' /\ dWheres d' = [(t, [v])] /\ count_marks t = 2.
Proof.
  intro lo. exists (#"a is --?" ++ [10%N] ++ #"null and b = 1"). do 4 eexists.
  refine (conj _ (conj _ (conj _ _))); [now apply valid_runesb_spec|vm_compute; reflexivity|vm_compute; reflexivity|]. repeat split.
Qed.
Lemma joins_left : forall lo, exists q d', valid_runes q /\ wire_mini_query fold2 quote2 lo db2 q = Some d' /\ dErrors d' <> dErrors db2 /\ dJoins d' <> dJoins db2.
Proof.
  intro lo. exists #"Profile.age = 1 and nope = 2". eexists. refine (conj _ (conj _ _)); [now apply valid_runesb_spec|vm_compute; reflexivity|]. split; discriminate.
Qed.
Lemma empty_column : forall lo, exists q d', valid_runes q /\ wire_mini_query fold2 quote2 lo db2 q = Some d' /\
  succeeded db2 d' /\ dWheres d' = [(quote2 [] ++ #" = ?", [GInt 1])].
Proof. intro lo. exists #"Profile = 1". eexists. refine (conj _ (conj _ _)); [now apply valid_runesb_spec|vm_compute; reflexivity|]. split; reflexivity. Qed.
Lemma joins_twice : forall lo, exists q d1 d2, valid_runes q /\ wire_mini_query fold2 quote2 lo db2 q = Some d1 /\ succeeded db2 d1 /\
  wire_mini_query fold2 quote2 lo d1 q = Some d2 /\ succeeded d1 d2 /\ ~ NoDup (dJoins d2).
Proof.
  intro lo. exists #"Profile.age = 1". do 2 eexists. refine (conj _ (conj _ (conj _ (conj _ (conj _ _)))));
    [now apply valid_runesb_spec|vm_compute; reflexivity|reflexivity|vm_compute; reflexivity|reflexivity|].
  cbn. intro H. inversion_clear H as [|? ? K _]. apply K. now left.
Qed.
Lemma nil_schema : forall lo, exists q d, valid_runes q /\ ~ db_ok d /\ wire_mini_query fold2 quote2 lo d q = None.
Proof.
  intro lo. exists #"r.x = 1", (DB (Some (Schema tab2 [(#"r", None)])) None [] [] []). refine (conj _ (conj _ _)); [now apply valid_runesb_spec| |vm_compute; reflexivity].
  intros [H _]. apply (H _ eq_refl #"r"). reflexivity.
Qed.

Ltac one_char := split; [eexists _, _; split; [reflexivity|split; reflexivity]|intros (v & r & E & C); destruct v as [|? [|? ?]]; discriminate].
Lemma reads_abc :
  let cmp x k := ECmp (EName x) #"=" (EVal (VLit (LInt k))) in
  reads #"a = 1 or b = 2 and c = 3" (ELogic (ELogic (cmp #"a" #"1") #"or" (cmp #"b" #"2")) #"and" (cmp #"c" #"3")) /\
  reads #"a = 1 and not (b = 2 or c = 3)" (ELogic (cmp #"a" #"1") #"and" (ENot (EParen (ELogic (cmp #"b" #"2") #"or" (cmp #"c" #"3"))))).
Proof.
  intro cmp.
  assert (B : blank #" ") by (apply blank_char; [reflexivity|constructor]).
  assert (L : forall x k, ident x -> ~ starts_word x -> lit_text (LInt k) k -> lay (cmp x k) (x ++ #" " ++ #"=" ++ #" " ++ k)).
  { intros x k H1 H2 H3. apply lay_cmp; auto; try (cbn; lia); [now apply lay_name|left; cbn; tauto|now apply lay_lit|intros _; reflexivity]. }
  assert (N : forall x, length x = 1 -> ~ starts_word x).
  { intros [|c [|? ?]] H; try discriminate. intros [K|[K|[K|[K|[K|K]]]]]; destruct K as [r K]; discriminate. }
  assert (LA : lay (cmp #"a" #"1") #"a = 1") by (apply (L #"a" #"1"); [one_char|now apply N|now apply lt_int]).
  assert (LB : lay (cmp #"b" #"2") #"b = 2") by (apply (L #"b" #"2"); [one_char|now apply N|now apply lt_int]).
  assert (LC : lay (cmp #"c" #"3") #"c = 3") by (apply (L #"c" #"3"); [one_char|now apply N|now apply lt_int]).
  assert (S : forall q e, lay e q -> reads q e) by (intros q e H; exists [], q, []; rewrite app_nil_r; refine (conj eq_refl (conj blank_nil (conj blank_nil H)))).
  assert (J : forall l tl o r tr, lay l tl -> lay r tr -> level r <= 5 -> op_logic o -> ends_ident l = false -> ends_bracket l = false ->
    lay (ELogic l o r) (tl ++ #" " ++ o ++ #" " ++ tr)).
  { intros l tl o r tr H1 H2 H3 H4 H5 H6. apply lay_logic; auto; [intro K; congruence|intros [K _]; congruence]. }
  split; apply S.
  - apply (J _ #"a = 1 or b = 2" #"and" _ #"c = 3"); try reflexivity; try (cbn; lia); [|exact LC|left; reflexivity].
    apply (J _ #"a = 1" #"or" _ #"b = 2"); try reflexivity; try (cbn; lia); [exact LA|exact LB|right; left; reflexivity].
  - apply (J _ #"a = 1" #"and" _ #"not (b = 2 or c = 3)"); try reflexivity; try (cbn; lia); [exact LA| |left; reflexivity].
    apply (lay_not #"not" #" " _ #"(b = 2 or c = 3)"); [reflexivity|split; [exact B|discriminate]|cbn; lia|].
    apply (lay_paren _ #"b = 2 or c = 3" [] []); [|constructor|constructor].
    apply (J _ #"b = 2" #"or" _ #"c = 3"); try reflexivity; try (cbn; lia); [exact LB|exact LC|right; left; reflexivity].
Qed.
Lemma regrouped : forall lo, exists q e d', valid_runes q /\ reads q e /\ wire_mini_query fold2 quote2 lo db2 q = Some d' /\ succeeded db2 d' /\
  dWheres d' = [(#"`a` = ? or `b` = ? and `c` = ?", [GInt 1; GInt 2; GInt 3])] /\
  exists v, holds v (sql_reading (flat e)) <> holds v (grouping e).
Proof.
  intro lo. exists #"a = 1 or b = 2 and c = 3". eexists. eexists.
  refine (conj _ (conj (proj1 reads_abc) (conj _ (conj _ (conj _ _))))); [now apply valid_runesb_spec|vm_compute; reflexivity|reflexivity|reflexivity|].
  exists (fun e => match e with ECmp (EName x) _ _ => streq x #"a" | _ => false end). vm_compute. discriminate.
Qed.
Lemma regular_example : exists e, reads #"a = 1 and not (b = 2 or c = 3)" e /\ regular e = true /\
  wire_mini_query fold2 quote2 lo2 db2 #"a = 1 and not (b = 2 or c = 3)" =
    Some (add_where (#"`a` = ? and not (`b` = ? or `c` = ?)", [GInt 1; GInt 2; GInt 3]) db2) /\
  spell_chain (fun a => match a with ECmp (EName x) o _ => #"`" ++ x ++ #"` " ++ o ++ #" ?" | _ => [] end) (flat e) = #"`a` = ? and not (`b` = ? or `c` = ?)".
Proof.
  eexists. refine (conj (proj2 reads_abc) (conj _ (conj _ _))); [reflexivity|vm_compute; reflexivity|vm_compute; reflexivity].
Qed.
Lemma renders_example : exists n, parse lo2 #"not date(ID) between 1 and 2" = Ok (Some n) /\
  renders fold2 sch2 n [PText #"not "; PText #"date"; PText #"("; PColumn #"id"; PText #")"; PText #" "; PText #"between"; PText #" ";
    PValue (GInt 1); PText #" and "; PValue (GInt 2)].
Proof.
  eexists. refine (conj _ _); [vm_compute; reflexivity|].
  apply (ren_not fold2 sch2 (mk_between (Some (mk_function #"date" [Some (mk_ident #"ID")])) (Some (mk_op #"between")) (Some (mk_int 1)) (Some (mk_int 2)))).
  apply (ren_between fold2 sch2 (mk_function #"date" [Some (mk_ident #"ID")]) (mk_op #"between") (mk_int 1) (mk_int 2)
    [PText #"date"; PText #"("; PColumn #"id"; PText #")"] [PText #"between"] [PValue (GInt 1)] [PValue (GInt 2)]).
  - apply (ren_date fold2 sch2 [mk_ident #"ID"] [PColumn #"id"]). apply (ren_cons fold2 sch2 (mk_ident #"ID") [] [PColumn #"id"] []); [|constructor].
    apply ren_ident. apply res_field; [|reflexivity]. cbn. intros H. decompose [or] H; try discriminate; assumption.
  - apply ren_op. right. split; [|reflexivity]. cbn. intros H. decompose [or] H; try discriminate; assumption.
  - apply ren_value. constructor.
  - apply ren_value. constructor.
Qed.
