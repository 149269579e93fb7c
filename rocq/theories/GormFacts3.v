(** Facts about gormq: grouping, functions, scopes, injected comments. *)
From Verif Require Import Base Peg Node Vocab Tree Parse Syntax Blank ParseProofs NormProofs Unique ParserFacts ParserFacts2 ParserMain Build BuildProofs NodeFacts SafeInd
  Gorm GormSpec GormProofs GormFacts GormFacts2.
Require Import Arith.
Strategy expand [parse_machine rule_trace].
Strategy 1000 [parse_fuel mrun tok_trace].

(** ** Reading a sequence *)
Lemma spell_more : forall atom c x d, spell_chain atom (more c x d) = spell_chain atom c ++ (if x then #" or " else #" and ") ++ spell_chain atom d.
Proof.
  intros atom c x d. induction d as [k o|d IH y k o]; [reflexivity|]. cbn [more spell_chain]. rewrite IH. now rewrite <- !app_assoc.
Qed.
Lemma spell_deny : forall atom c, spell_chain atom (deny c) = #"not " ++ spell_chain atom c.
Proof. intros atom. induction c as [k o|c IH y k o]; cbn [deny spell_chain]; [reflexivity|]. now rewrite IH, <- app_assoc. Qed.

Lemma some_inj : forall A (a b : A), Some a = Some b -> a = b.
Proof. congruence. Qed.
(** levels as the layout imposes them *)
Lemma flat_reading : forall e t, lay e t ->
  (level e <= 5 -> exists k o, flat e = COne k o) /\
  (fst (read_chain (flat e)) = None <-> loose_or e = false) /\
  (sql_reading (flat e) = grouping e <-> regular e = true).
Proof.
  assert (A : forall e, flat e = COne 0 (OAtom e) -> grouping e = BAtom e -> regular e = true -> loose_or e = false ->
    (level e <= 5 -> exists k o, flat e = COne k o) /\ (fst (read_chain (flat e)) = None <-> loose_or e = false) /\ (sql_reading (flat e) = grouping e <-> regular e = true)).
  { intros e H1 H2 H3 H4. rewrite H1, H2, H3, H4. repeat split; eauto. }
  intros e t H. refine (lay_mind (fun e t _ => (level e <= 5 -> exists k o, flat e = COne k o) /\
    (fst (read_chain (flat e)) = None <-> loose_or e = false) /\ (sql_reading (flat e) = grouping e <-> regular e = true)) (fun _ _ _ => True)
    _ _ _ _ _ _ _ _ _ _ _ _ _ _ _ _ _ _ e t H); clear e t H;
    intros; try (now apply A); try exact I; clear A.
  - match goal with H : _ /\ _ |- _ => destruct H as (_ & _ & H0) end. cbn [flat grouping regular loose_or]. split; [eauto|]. split; [cbn; tauto|].
    unfold sql_reading at 1. cbn [read_chain read_operand bnot bor]. exact H0.
  - match goal with H : _ /\ _ /\ _ |- _ => destruct H as (Hu & _ & H0) end. cbn [flat grouping regular loose_or]. destruct Hu as (k & o & E); [lia|]. rewrite E in *. cbn [deny]. split; [eauto|].
    split; [cbn; tauto|]. unfold sql_reading in *. cbn [read_chain bnot bor] in *. rewrite <- H0. split; [now intros [= ->]|now intros ->].
  - destruct H as (_ & L1 & L2). destruct H0 as (Ru & R1 & R2). destruct Ru as (k & x & E); [assumption|]. cbn [flat grouping regular loose_or]. rewrite E in *. cbn [more].
    split; [cbn; lia|]. unfold sql_reading in *. cbn [read_chain bor] in *. destruct (read_chain (flat l)) as [d a]. cbn [fst] in L1. destruct (is_or o) eqn:EO; cbn [orb].
    + split; [cbn; split; discriminate|]. cbn [bor]. rewrite andb_true_r, andb_true_iff, <- L2, <- R2. split; [now intros [= -> ->]|now intros [-> ->]].
    + split; [cbn; exact L1|]. rewrite !andb_true_iff, negb_true_iff, <- L1, <- L2, <- R2. destruct d as [b'|]; cbn [bor].
      * split; [discriminate|]. intros [_ [=]].
      * split; [now intros [= -> ->]|now intros [[-> ->] _]].
Qed.

Section GF3.
  Variable fold_eq : list N -> list N -> bool.
  Variable quote : list N -> list N.
  Variable lo : N -> N.
  Notation wire := (wire_mini_query fold_eq quote lo).
  Notation ev := (ev fold_eq).
  Notation visit := (visit fold_eq quote).

  (** the SQL text of one tree, and of one expression *)
  Definition sql_of (sch : schema) (n : node) : list N := match visit sch n start with QOk s => qBuf s | _ => [] end.
  Definition atom (sch : schema) (e : expr) : list N := match ntree lo e with Some n => sql_of sch n | None => [] end.

  Lemma ev_sql : forall sch n l, safe n -> ev sch n = Some (l, None) -> sql_of sch n = sql_text quote (pieces l).
  Proof. intros sch n l Hn He. unfold sql_of. rewrite (visit_ev fold_eq quote sch n Hn), He. cbn [out]. now rewrite run_buf. Qed.
  Lemma seq_ok : forall a b l, evseq a b = Some (l, None) -> exists la lb, a = Some (la, None) /\ b = Some (lb, None) /\ l = la ++ lb.
  Proof. intros [[la [ea|]]|] [[lb [eb|]]|] l H; cbn in H; try discriminate. injection H as <-. exists la, lb. auto. Qed.
  Lemma always_ok : forall t a l, evalways t a = Some (l, None) -> exists la, a = Some (la, None) /\ l = la ++ [EvP (PText t)].
  Proof. intros t [[la [ea|]]|] l H; cbn in H; try discriminate. injection H as <-. exists la. auto. Qed.
  Lemma tree_safe : forall e t, lay e t -> json_free e = true -> fits e = true -> exists n, ntree lo e = Some n /\ safe n.
  Proof.
    intros e t Hl Hj Hf. pose proof (proj1 (stk_safe_mut lo) e t Hl) as HF. rewrite (stk_tree lo e Hj Hf) in HF. inversion_clear HF as [|? ? H _].
    destruct H as (n & H1 & H2). eauto.
  Qed.
  Lemma logic_sql : forall o, op_logic o -> normalize_sql (normalize_operation lo o) = if is_or o then #"or" else #"and".
  Proof.
    intros o [H|[H|[->| ->]]]; try reflexivity; rewrite (norm_ci lo _ _ H); unfold is_or; unfold ci in H; rewrite H; [|reflexivity].
    destruct (streq_spec o #"||") as [->|]; [discriminate|reflexivity].
  Qed.
  Lemma flat_text : forall sch e t, lay e t -> json_free e = true -> fits e = true -> forall n l, ntree lo e = Some n -> ev sch n = Some (l, None) ->
    sql_text quote (pieces l) = spell_chain (atom sch) (flat e).
  Proof.
    intro sch.
    assert (A : forall e t, lay e t -> flat e = COne 0 (OAtom e) -> json_free e = true -> fits e = true -> forall n l, ntree lo e = Some n -> ev sch n = Some (l, None) ->
      sql_text quote (pieces l) = spell_chain (atom sch) (flat e)).
    { intros e t Hl Hfl Hj Hf n l Hn He. rewrite Hfl. cbn [spell_chain spell_not spell_operand app]. unfold atom. rewrite Hn. symmetry. apply ev_sql; [|exact He].
      destruct (tree_safe e t Hl Hj Hf) as (n' & H1 & H2). congruence. }
    intros e t H. refine (lay_mind (fun e t _ => json_free e = true -> fits e = true -> forall n l, ntree lo e = Some n -> ev sch n = Some (l, None) ->
      sql_text quote (pieces l) = spell_chain (atom sch) (flat e)) (fun _ _ _ => True) _ _ _ _ _ _ _ _ _ _ _ _ _ _ _ _ _ _ e t H);
      try (intros; exact I); 
      try (intros; match goal with Hb : op_between ?o, Hs : seam ?e (?w1 ++ ?o) |- _ =>
        eapply A; [solve [eapply (lay_between e _ w1 o); eassumption|eapply (lay_between_br e _ w1 o); eassumption]|reflexivity|eassumption..] end);
      try (intros; match goal with Hb : op_in ?o, Hs : seam ?e (?w1 ++ ?o) |- _ => eapply A; [eapply (lay_in e _ w1 o); eassumption|reflexivity|eassumption..] end);
      try (intros; match goal with Hb : op_cmp ?o, Hs : seam ?e (?w1 ++ ?o) |- _ => eapply A; [eapply (lay_cmp e _ w1 o); eassumption|reflexivity|eassumption..] end);
      try (intros; eapply A; [econstructor; eassumption|reflexivity|eassumption..]); clear e t H A.
    - intros e t w1 w2 Hl IH _ _ Hj Hf n l Hn He. cbn [json_free fits] in Hj, Hf. destruct (tree_safe e t Hl Hj Hf) as (m & Hm & _).
      cbn [ntree] in Hn. rewrite Hm in Hn. injection Hn as <-. cbn [GormProofs.ev mk_paren nType nExpression evp_with] in He.
      apply always_ok in He as (la & He & ->). apply seq_ok in He as (l1 & l2 & [= <-] & E2 & ->).
      change (spell_chain (atom sch) (flat (EParen e))) with (#"(" ++ spell_chain (atom sch) (flat e) ++ #")").
      rewrite <- (IH Hj Hf m l2 Hm E2), !pieces_app, !text_app. cbn [pieces map concat app sql_text render]. rewrite <- ?app_assoc. reflexivity.
    - intros nn g e t _ _ _ Hl IH Hj Hf n l Hn He. cbn [json_free fits] in Hj, Hf. destruct (tree_safe e t Hl Hj Hf) as (m & Hm & _).
      cbn [ntree] in Hn. rewrite Hm in Hn. injection Hn as <-. cbn [GormProofs.ev mk_not nType nExpression evp_with] in He.
      apply seq_ok in He as (l1 & l2 & [= <-] & E2 & ->). cbn [flat]. now rewrite spell_deny, <- (IH Hj Hf m l2 Hm E2).
    - intros x tx w1 o w2 r tr _ Hx IHx _ Ho _ Hr IHr _ _ Hj Hf n l Hn He. cbn [json_free fits] in Hj, Hf. apply andb_true_iff in Hj as [J1 J2]. apply andb_true_iff in Hf as [F1 F2].
      destruct (tree_safe x tx Hx J1 F1) as (a & Ha & _). destruct (tree_safe r tr Hr J2 F2) as (b & Hb & _).
      cbn [ntree] in Hn. rewrite Ha, Hb in Hn. injection Hn as <-. cbn [GormProofs.ev mk_logic nType nLeft nOp nRight evp_with mk_op nOperation] in He.
      apply seq_ok in He as (l1 & l2 & E1 & E2 & ->). apply seq_ok in E2 as (l3 & l4 & [= <-] & E4 & ->). apply seq_ok in E4 as (l5 & l6 & [= <-] & E6 & ->).
      cbn [flat]. rewrite spell_more, <- (IHx J1 F1 a l1 Ha E1), <- (IHr J2 F2 b l6 Hb E6), !pieces_app, !text_app.
      cbn [pieces map concat sql_text render app]. rewrite (logic_sql o Ho). destruct (is_or o); reflexivity.
  Qed.

  Lemma atoms_deny : forall c, atoms (deny c) = atoms c.
  Proof. fix IH 1. intros [k o|c d k o]; [reflexivity|]. cbn [deny atoms]. now rewrite IH. Qed.
  Lemma atoms_more : forall c d x, atoms (more c x d) = atoms c ++ atoms d.
  Proof. intros c d x. revert d. fix IH 1. intros [k o|d y k o]; [reflexivity|]. cbn [more atoms]. now rewrite IH, app_assoc. Qed.
  Lemma flat_atoms : forall sch e t, lay e t -> json_free e = true -> fits e = true -> forall n l, ntree lo e = Some n -> ev sch n = Some (l, None) ->
    Forall (fun a => exists m k, ntree lo a = Some m /\ tree_of lo a = Some m /\ safe m /\ ev sch m = Some (k, None)) (atoms (flat e)).
  Proof.
    intro sch.
    pose (P := fun e => Forall (fun a => exists m k, ntree lo a = Some m /\ tree_of lo a = Some m /\ safe m /\ ev sch m = Some (k, None)) (atoms (flat e))).
    assert (A : forall e t, lay e t -> flat e = COne 0 (OAtom e) -> json_free e = true -> fits e = true -> forall n l, ntree lo e = Some n -> ev sch n = Some (l, None) -> P e).
    { intros e t Hl Hfl Hj Hf n l Hn He. unfold P. rewrite Hfl. constructor; [|constructor]. exists n, l.
      destruct (tree_safe e t Hl Hj Hf) as (n' & H1 & H2). rewrite Hn in H1. injection H1 as <-.
      refine (conj Hn (conj _ (conj H2 He))). now rewrite <- (ntree_tree lo e t Hl). }
    intros e t H. refine (lay_mind (fun e t _ => json_free e = true -> fits e = true -> forall n l, ntree lo e = Some n -> ev sch n = Some (l, None) -> P e)
      (fun _ _ _ => True) _ _ _ _ _ _ _ _ _ _ _ _ _ _ _ _ _ _ e t H);
      try (intros; exact I); 
      try (intros; match goal with Hb : op_between ?o, Hs : seam ?e (?w1 ++ ?o) |- _ =>
        eapply A; [solve [eapply (lay_between e _ w1 o); eassumption|eapply (lay_between_br e _ w1 o); eassumption]|reflexivity|eassumption..] end);
      try (intros; match goal with Hb : op_in ?o, Hs : seam ?e (?w1 ++ ?o) |- _ => eapply A; [eapply (lay_in e _ w1 o); eassumption|reflexivity|eassumption..] end);
      try (intros; match goal with Hb : op_cmp ?o, Hs : seam ?e (?w1 ++ ?o) |- _ => eapply A; [eapply (lay_cmp e _ w1 o); eassumption|reflexivity|eassumption..] end);
      try (intros; eapply A; [econstructor; eassumption|reflexivity|eassumption..]); clear e t H A.
    - intros e t w1 w2 Hl IH _ _ Hj Hf n l Hn He. cbn [json_free fits] in Hj, Hf. destruct (tree_safe e t Hl Hj Hf) as (m & Hm & _).
      cbn [ntree] in Hn. rewrite Hm in Hn. injection Hn as <-. cbn [GormProofs.ev mk_paren nType nExpression evp_with] in He.
      apply always_ok in He as (la & He & ->). apply seq_ok in He as (l1 & l2 & [= <-] & E2 & ->). exact (IH Hj Hf m l2 Hm E2).
    - intros nn g e t _ _ _ Hl IH Hj Hf n l Hn He. cbn [json_free fits] in Hj, Hf. destruct (tree_safe e t Hl Hj Hf) as (m & Hm & _).
      cbn [ntree] in Hn. rewrite Hm in Hn. injection Hn as <-. cbn [GormProofs.ev mk_not nType nExpression evp_with] in He.
      apply seq_ok in He as (l1 & l2 & [= <-] & E2 & ->). unfold P. cbn [flat]. rewrite atoms_deny. exact (IH Hj Hf m l2 Hm E2).
    - intros x tx w1 o w2 r tr _ Hx IHx _ Ho _ Hr IHr _ _ Hj Hf n l Hn He. cbn [json_free fits] in Hj, Hf. apply andb_true_iff in Hj as [J1 J2]. apply andb_true_iff in Hf as [F1 F2].
      destruct (tree_safe x tx Hx J1 F1) as (a & Ha & _). destruct (tree_safe r tr Hr J2 F2) as (b & Hb & _).
      cbn [ntree] in Hn. rewrite Ha, Hb in Hn. injection Hn as <-. cbn [GormProofs.ev mk_logic nType nLeft nOp nRight evp_with mk_op nOperation] in He.
      apply seq_ok in He as (l1 & l2 & E1 & E2 & ->). apply seq_ok in E2 as (l3 & l4 & [= <-] & E4 & ->). apply seq_ok in E4 as (l5 & l6 & [= <-] & E6 & ->).
      unfold P. cbn [flat]. rewrite atoms_more. apply Forall_app. split; [exact (IHx J1 F1 a l1 Ha E1)|exact (IHr J2 F2 b l6 Hb E6)].
  Qed.

  Lemma wire_grouping : forall d q e d', valid_runes q -> reads q e -> json_free e = true -> (exists n, parse lo q = Ok n) -> wire d q = Some d' -> succeeded d d' ->
    exists sch vs, schema_of d = Some sch /\ dWheres d' = dWheres d ++ [(spell_chain (atom sch) (flat e), vs)] /\
      Forall (fun a => exists m k, ntree lo a = Some m /\ tree_of lo a = Some m /\ safe m /\ ev sch m = Some (k, None)) (atoms (flat e)).
  Proof.
    intros d q e d' Hq He Hj (n & Hn) Hw Hs.
    assert (Hf : fits e = true).
    { destruct (parse_ok_inv lo q _ Hq Hn) as (e2 & H2 & Hf & _). now rewrite (reads_unique _ _ _ He H2). }
    pose proof He as (w1 & t & w2 & _ & _ & _ & Hl). destruct (tree_safe e t Hl Hj Hf) as (m & Hm & _).
    pose proof (parse_tree lo q e Hq He Hf Hj) as Hp. rewrite Hm in Hp.
    destruct (wire_ok fold_eq quote lo d q m d' Hq Hp Hw Hs) as (sch & l & H1 & H2 & H3 & -> & _).
    exists sch, (values (pieces l)). split; [exact H1|]. split; [cbn; now rewrite (flat_text sch e t Hl Hj Hf m l Hm H3)|exact (flat_atoms sch e t Hl Hj Hf m l Hm H3)].
  Qed.
  Lemma reads_regular : forall q e, reads q e -> (sql_reading (flat e) = grouping e <-> regular e = true).
  Proof. intros q e (w1 & t & w2 & _ & _ & _ & Hl). apply (flat_reading e t Hl). Qed.

  (** ** C36 *)
  Definition group (t : list N) : list N := #"(" ++ t ++ #")".
  Record outcome3 : Type := Out3 { oText : list N; oVals : list gval; oJoins : list (list N) }.
  Definition lands (sch : schema) (d : gdb) (o : outcome3) : gdb := add_where (oText o, oVals o) (add_joins (oJoins o) (with_schema sch d)).
  Definition lists_of (l : list event) : outcome3 := Out3 (sql_text quote (pieces l)) (values (pieces l)) (firsts [] (rels l)).
  Lemma conj_ev : forall sch ns ls acc la, Forall safe ns -> Forall2 (fun n l => ev sch n = Some (l, None)) ns ls -> safe acc -> ev sch acc = Some (la, None) ->
    exists n l, conj_tree (Some acc) (map (fun m => Some (mk_paren (Some m))) ns) = Some n /\ safe n /\ ev sch n = Some (l, None) /\
      sql_text quote (pieces l) = sql_text quote (pieces la) ++ concat (map (fun x => #" and " ++ group (sql_text quote (pieces x))) ls) /\
      values (pieces l) = values (pieces la) ++ concat (map (fun x => values (pieces x)) ls) /\ rels l = rels la ++ concat (map rels ls).
  Proof.
    intros sch ns ls acc la Hs HF. revert acc la. induction HF as [|m x ns ls Hx _ IH]; intros acc la HA EA.
    - exists acc, la. cbn [map concat conj_tree fold_left]. rewrite !app_nil_r. auto 6.
    - inversion_clear Hs as [|? ? S1 S2].
      set (acc2 := mk_logic (Some acc) (Some (mk_op #"and")) (Some (mk_paren (Some m)))).
      assert (HA2 : safe acc2).
      { apply safe_ok; [reflexivity|]. cbn. repeat constructor; [exists acc; auto|apply (okp_op (fun c => c) #"and")|].
        exists (mk_paren (Some m)). split; [reflexivity|]. apply safe_ok; [reflexivity|]. cbn. repeat constructor. exists m. auto. }
      destruct (IH S2 acc2 (la ++ ([EvP (PText #" ")] ++ [EvP (PText #"and")]) ++ [EvP (PText #" ")] ++ ([EvP (PText #"(")] ++ x) ++ [EvP (PText #")")]) HA2) as (n & l & H1 & H2 & H3 & H4 & H5 & H6).
      { unfold acc2. cbn [GormProofs.ev mk_logic mk_paren mk_op nType nLeft nOp nRight nOperation nExpression evp_with]. rewrite EA, Hx. reflexivity. }
      exists n, l. split; [exact H1|]. split; [exact H2|]. split; [exact H3|]. rewrite H4, H5, H6. rewrite !pieces_app, !text_app, !values_app, !rels_app.
      cbn [map concat pieces rels values sql_text render app]. unfold group. rewrite <- !app_assoc. cbn [app]. rewrite ?app_nil_r. repeat split.
      all: rewrite <- ?app_assoc; reflexivity.
  Qed.
  Lemma scope_conjunction : forall d sch x y l vs os, Forall valid_runes vs -> vs <> [] -> schema_of d = Some sch ->
    filter (fun v => negb (blank_entry v)) (x :: y :: l) = vs ->
    Forall2 (fun q o => (exists e, reads q e /\ json_free e = true) /\ wire d q = Some (lands sch d o)) vs os ->
    scope fold_eq quote lo (x :: y :: l) d =
      Some (lands sch d (Out3 (join_with #" and " (map (fun o => group (oText o)) os)) (concat (map oVals os)) (firsts [] (concat (map oJoins os))))).
  Proof.
    intros d sch x y l vs os Hv Hne Hs Hf HF. unfold scope.
    assert (K : exists ns ls, Forall2 (member lo) vs (map Some ns) /\ Forall safe ns /\ Forall2 (fun n l => ev sch n = Some (l, None)) ns ls /\ os = map lists_of ls).
    { clear Hf Hne. revert Hv. induction HF as [|q o vs os [(e & He & Hj) Hw] HF IH]; intro Hv.
      - exists [], []. repeat split; constructor.
      - inversion_clear Hv as [|? ? V1 V2]. destruct (IH V2) as (ns & ls & K1 & K2 & K3 & ->).
        assert (G : exists n k, parse lo q = Ok (Some n) /\ safe n /\ ev sch n = Some (k, None) /\ o = lists_of k).
        { destruct (wire_cases fold_eq quote lo d q V1) as [[-> W]|[(e' & _ & _ & W)|[(n & e' & _ & _ & _ & _ & W)|(n & sch' & _ & Hp & HS & Hs' & W)]]];
            rewrite Hw in W.
          - exfalso. apply some_inj in W. apply (f_equal dWheres) in W. cbn in W. now apply app_neq in W.
          - exfalso. apply some_inj in W. apply (f_equal dErrors) in W. cbn in W. symmetry in W. now apply app_neq in W.
          - exfalso. apply some_inj in W. apply (f_equal dErrors) in W. cbn in W. symmetry in W. now apply app_neq in W.
          - rewrite Hs in Hs'. injection Hs' as <-. destruct (ev sch n) as [[k [er|]]|] eqn:E; [| |discriminate]; apply some_inj in W.
            + exfalso. apply (f_equal dErrors) in W. cbn in W. symmetry in W. now apply app_neq in W.
            + exists n, k. refine (conj Hp (conj HS (conj E _))). destruct o as [ot ov oj]. unfold lands, after, lists_of in *.
              pose proof (f_equal dWheres W) as W1. pose proof (f_equal dJoins W) as W2. cbn in W1, W2. apply app_inv_head in W1, W2. injection W1 as -> ->. now rewrite W2. }
        destruct G as (n & k & Hp & HS & HE & ->). exists (n :: ns), (k :: ls). split; [|repeat split; constructor; assumption].
        constructor; [|exact K1]. exists e. auto. }
    destruct K as (ns & ls & K1 & K2 & K3 & ->).
    destruct (join_shape x y l) as (us & Hus & Hj). rewrite Hf in Hus. subst us. rewrite Hj. clear Hf Hj HF x y l.
    destruct vs as [|v vs]; [congruence|]. destruct ns as [|n ns]; [inversion K1|]. destruct ls as [|k ls]; [inversion K3|].
    inversion_clear K2 as [|? ? S1 S2]. inversion_clear K3 as [|? ? ? ? E1 E2].
    pose proof (join_parse lo v vs (Some n) (map Some ns) Hv K1) as HP. rewrite map_map in HP.
    assert (SP : safe (mk_paren (Some n))) by (apply safe_ok; [reflexivity|]; cbn; repeat constructor; exists n; auto).
    destruct (conj_ev sch ns ls (mk_paren (Some n)) ([EvP (PText #"(")] ++ k ++ [EvP (PText #")")]) S2 E2 SP) as (m & r & H1 & H2 & H3 & H4 & H5 & H6).
    { cbn [GormProofs.ev mk_paren nType nExpression evp_with]. rewrite E1. reflexivity. }
    rewrite H1 in HP. assert (NE : #"(" ++ v ++ #")" ++ and_texts vs <> []) by discriminate.
    rewrite (wire_ev fold_eq quote lo d _ m sch NE H2 HP Hs), H3. f_equal. unfold after, lands. cbn [oText oVals oJoins]. rewrite H4, H5, H6.
    rewrite !pieces_app, !text_app, !values_app, !rels_app. rewrite !map_map. cbn [map lists_of oText oVals oJoins concat].
    f_equal; [f_equal|f_equal].
    - cbn [pieces map concat sql_text render app]. unfold group at 2. cbn [app]. rewrite <- !app_assoc. cbn [app]. clear.
      assert (G : forall h, h ++ concat (map (fun x => #" and " ++ group (sql_text quote (pieces x))) ls) =
        join_with #" and " (h :: map (fun x => group (sql_text quote (pieces x))) ls)).
      { induction ls as [|z ls IH]; intro h; [cbn; now rewrite app_nil_r|]. cbn [map concat]. rewrite <- app_assoc. change (join_with #" and " (h :: group (sql_text quote (pieces z)) :: map (fun x => group (sql_text quote (pieces x))) ls))
          with (h ++ #" and " ++ join_with #" and " (group (sql_text quote (pieces z)) :: map (fun x => group (sql_text quote (pieces x))) ls)). now rewrite <- IH. }
      rewrite <- G. unfold group. cbn [app]. now rewrite <- !app_assoc.
    - cbn [pieces map concat values app]. now rewrite app_nil_r.
    - cbn [rels map concat app]. rewrite app_nil_r. fold (rels k).
      change (firsts [] (rels k) ++ concat (map (fun x => firsts [] (rels x)) ls)) with (concat (map (fun x => firsts [] (rels x)) (k :: ls))).
      rewrite <- (map_map rels (firsts [])), (firsts_concat fold_eq quote). reflexivity.
  Qed.

  (** a failing member makes the scope fail with its error *)
  Lemma conj_fail : forall sch ns acc la e, safe acc -> Forall safe ns -> ev sch acc = Some (la, Some e) ->
    exists n, conj_tree (Some acc) (map (fun m => Some (mk_paren (Some m))) ns) = Some n /\ safe n /\ ev sch n = Some (la, Some e).
  Proof.
    intros sch ns. induction ns as [|m ns IH]; intros acc la e HA Hs HE; [exists acc; auto|]. inversion_clear Hs as [|? ? S1 S2].
    cbn [map conj_tree fold_left]. apply IH; [|exact S2|].
    - apply safe_ok; [reflexivity|]. cbn. repeat constructor; [exists acc; auto|apply (okp_op (fun c => c) #"and")|].
      exists (mk_paren (Some m)). split; [reflexivity|]. apply safe_ok; [reflexivity|]. cbn. repeat constructor. exists m. auto.
    - cbn [GormProofs.ev mk_logic nType nLeft evp_with]. now rewrite HE.
  Qed.
  Lemma evseq_text : forall t l e, evseq (evt t) (Some (l, e)) = Some (EvP (PText t) :: l, e).
  Proof. reflexivity. Qed.
  Lemma scope_failure : forall d sch x y l good bad rest os e, Forall valid_runes (good ++ bad :: rest) -> schema_of d = Some sch ->
    filter (fun v => negb (blank_entry v)) (x :: y :: l) = good ++ bad :: rest ->
    Forall (fun q => exists e n, reads q e /\ json_free e = true /\ parse lo q = Ok n) (good ++ bad :: rest) ->
    Forall2 (fun q o => wire d q = Some (lands sch d o)) good os ->
    (exists js, wire d bad = Some (add_err e (add_joins js (with_schema sch d)))) ->
    exists js, scope fold_eq quote lo (x :: y :: l) d = Some (add_err e (add_joins js (with_schema sch d))).
  Proof.
    intros d sch x y l good bad rest os e Hv Hs Hf Hm Hg (jb & Hb). unfold scope.
    assert (K : exists ns, Forall2 (member lo) (good ++ bad :: rest) (map Some ns) /\ Forall safe ns).
    { clear Hf Hg Hb. revert Hv. induction Hm as [|q qs (e' & n & He & Hj & Hp) _ IH]; intro Hv; [exists []; split; constructor|].
      inversion_clear Hv as [|? ? V1 V2]. destruct (IH V2) as (ns & K1 & K2). destruct (parse_total lo q V1) as [(n' & Hn)|(e2 & He2)]; [|congruence].
      exists (n' :: ns). split; constructor; auto; [exists e'; auto|]. eapply parse_safe; eassumption. }
    destruct K as (ns & K1 & K2).
    destruct (join_shape x y l) as (us & Hus & Hj). rewrite Hf in Hus. subst us. rewrite Hj. clear Hf Hj x y l.
    assert (W : forall q n, valid_runes q -> member lo q (Some n) -> parse lo q = Ok (Some n) /\ safe n /\ wire d q = match ev sch n with None => None | Some (l, e) => Some (after quote sch d l e) end).
    { intros q n Vq (e' & _ & _ & Hp). pose proof (parse_safe lo q n Vq Hp) as HS. refine (conj Hp (conj HS _)).
      apply wire_ev; auto. eapply parse_nonempty; eassumption. }
    apply Forall_app in Hv as [Vg Vb]. inversion_clear Vb as [|? ? Vb' Vr].
    apply Forall2_app_inv_l in K1 as (ng' & nb' & K1 & K3 & E). inversion K3 as [|? nb ? nr K4 K5]; subst. clear K3.
    apply map_eq_app in E as (ng & nb'' & -> & <- & E). apply map_eq_cons in E as (m & nr' & -> & <- & <-).
    apply Forall_app in K2 as [Sg Sb]. inversion_clear Sb as [|? ? Sm Sr].
    destruct (W bad m Vb' K4) as (Pb & _ & Wb). rewrite Hb in Wb. destruct (ev sch m) as [[lb [eb|]]|] eqn:Eb; [| |discriminate]; apply some_inj in Wb.
    2: { apply (f_equal dErrors) in Wb. cbn in Wb. now apply app_neq in Wb. }
    assert (eb = e). { apply (f_equal dErrors) in Wb. cbn in Wb. apply app_inv_head in Wb. now injection Wb. } subst eb. clear Wb.
    assert (PS : forall k, safe k -> safe (mk_paren (Some k))) by (intros k Hk; apply safe_ok; [reflexivity|]; cbn; repeat constructor; exists k; auto).
    assert (G : exists ls, Forall2 (fun n l => ev sch n = Some (l, None)) ng ls).
    { clear -Hg K1 Vg W. revert os Hg K1. revert ng. induction good as [|q good IH]; intros ng os Hg K1; destruct ng as [|n ng]; try (now inversion K1).
      - exists []. constructor.
      - inversion_clear K1 as [|? ? ? ? M1 M2]. inversion_clear Hg as [|? o ? os' G1 G2]. inversion_clear Vg as [|? ? V1 V2].
        destruct (IH V2 ng os' G2 M2) as (ls & HL). destruct (W q n V1 M1) as (_ & _ & Wq). rewrite G1 in Wq.
        destruct (ev sch n) as [[k [e'|]]|] eqn:E; [| |discriminate]; apply some_inj in Wq.
        + apply (f_equal dErrors) in Wq. cbn in Wq. symmetry in Wq. now apply app_neq in Wq.
        + exists (k :: ls). constructor; auto. }
    destruct G as (ls & HL).
    assert (FIN : forall q n lf, q <> [] -> parse lo q = Ok (Some n) -> safe n -> ev sch n = Some (lf, Some e) ->
      exists js, wire d q = Some (add_err e (add_joins js (with_schema sch d)))).
    { intros q n lf Hq Hp HS HE. rewrite (wire_ev fold_eq quote lo d q n sch Hq HS Hp Hs), HE. eexists. reflexivity. }
    destruct good as [|v good]; destruct ng as [|n ng]; try (now inversion K1).
    - cbn [app]. assert (HP := join_parse lo bad rest (Some m) (map Some nr') (Forall_cons _ Vb' Vr) (Forall2_cons _ _ K4 K5)). rewrite map_map in HP.
      destruct (conj_fail sch nr' (mk_paren (Some m)) (EvP (PText #"(") :: lb ++ [EvP (PText #")")]) e (PS m Sm) Sr) as (z & Z1 & Z2 & Z3).
      { cbn [GormProofs.ev mk_paren nType nExpression evp_with]. rewrite Eb. reflexivity. }
      rewrite Z1 in HP. eapply FIN; eauto. discriminate.
    - cbn [app]. inversion_clear K1 as [|? ? ? ? M1 M2]. inversion_clear HL as [|? k ? ls' L1 L2]. inversion_clear Sg as [|? ? Sn Sng].
      assert (HP := join_parse lo v (good ++ bad :: rest) (Some n) (map Some (ng ++ m :: nr'))).
      assert (VA : Forall valid_runes (v :: good ++ bad :: rest)).
      { change (Forall valid_runes ((v :: good) ++ bad :: rest)). apply Forall_app. split; [exact Vg|]. now constructor. }
      specialize (HP VA). rewrite map_app in HP. specialize (HP (Forall2_cons _ _ M1 (Forall2_app M2 (Forall2_cons _ _ K4 K5)))).
      rewrite <- map_app, map_map, map_app in HP. unfold conj_tree in HP. rewrite fold_left_app in HP.
      destruct (conj_ev sch ng ls' (mk_paren (Some n)) (EvP (PText #"(") :: k ++ [EvP (PText #")")]) Sng L2 (PS n Sn)) as (a & la & A1 & A2 & A3 & _).
      { cbn [GormProofs.ev mk_paren nType nExpression evp_with]. rewrite L1. reflexivity. }
      unfold conj_tree in A1. rewrite A1 in HP. cbn [map fold_left] in HP.
      set (a2 := mk_logic (Some a) (Some (mk_op #"and")) (Some (mk_paren (Some m)))) in HP.
      assert (SA : safe a2).
      { apply safe_ok; [reflexivity|]. cbn. repeat constructor; [exists a; auto|apply (okp_op (fun c => c) #"and")|]. exists (mk_paren (Some m)). auto. }
      edestruct (conj_fail sch nr' a2) as (z & Z1 & Z2 & Z3); [exact SA|exact Sr| |].
      { unfold a2. cbn [GormProofs.ev mk_logic mk_op mk_paren nType nLeft nOp nRight nOperation nExpression evp_with]. rewrite A3, Eb. cbn. reflexivity. }
      unfold conj_tree in Z1. rewrite Z1 in HP. eapply FIN; eauto. discriminate.
  Qed.
  Lemma scope_blank : forall x y l d, forallb blank_entry (x :: y :: l) = true -> scope fold_eq quote lo (x :: y :: l) d = Some d.
  Proof.
    intros x y l d H. unfold scope. destruct (join_shape x y l) as (us & Hus & ->).
    assert (K : us = []); [|now rewrite K]. rewrite Hus. clear Hus us. induction (x :: y :: l) as [|z k IH]; [reflexivity|].
    cbn [forallb filter] in *. apply andb_true_iff in H as [-> H]. exact (IH H).
  Qed.

  (** ** Text of comments inside operators reaches SQL (C27) *)
  Definition visible (c : N) : bool := ((33 <=? c) && (c <=? 126) && negb ((65 <=? c) && (c <=? 90)))%N.
  Definition word_ok (w : list N) : Prop := w <> [] /\ forallb visible w = true.
  Lemma visible_facts : forall c, visible c = true -> re_space c = false /\ to_lower_rune lo c = c /\ line_end c = false /\ (c < endSymbol)%N.
  Proof.
    intros c H. unfold visible in H. rewrite !andb_true_iff, negb_true_iff in H. destruct H as [[H1 H2] H3]. apply N.leb_le in H1, H2.
    repeat split.
    - unfold re_space, mem. cbn [existsb]. rewrite !(proj2 (N.eqb_neq c _)) by lia. reflexivity.
    - unfold to_lower_rune, lower_ascii. rewrite H3. destruct (c <? 128)%N eqn:K; [reflexivity|]. apply N.ltb_ge in K. lia.
    - unfold line_end. destruct (N.eqb_spec c 10); [lia|]. destruct (N.eqb_spec c 13); [lia|reflexivity].
    - unfold endSymbol. lia.
  Qed.
  Lemma thin_word : forall w b r, forallb visible w = true -> w <> [] -> thin b (w ++ r) = thin false r.
  Proof.
    induction w as [|c w IH]; intros b r H Hn; [congruence|]. cbn [forallb] in H. apply andb_true_iff in H as [Hc H]. cbn [app thin].
    destruct (visible_facts c Hc) as (-> & _). destruct w as [|c' w]; [reflexivity|]. apply IH; [exact H|discriminate].
  Qed.
  Definition body_char (c : N) : bool := visible c || (c =? 32)%N.
  Lemma body_chars : forall ws, Forall word_ok ws -> forallb body_char (join_with #" " ws) = true.
  Proof.
    intros ws H. assert (V : forall w, forallb visible w = true -> forallb body_char w = true).
    { intros w Hw. rewrite forallb_forall in *. intros c Hc. unfold body_char. now rewrite (Hw c Hc). }
    induction H as [|w ws [Hn Hw] _ IH]; [reflexivity|]. cbn [join_with]. destruct ws; [auto|]. rewrite !forallb_app, (V w Hw). exact IH.
  Qed.
  Lemma thin_join : forall ws b r, Forall word_ok ws -> thin false r = true -> ws <> [] -> thin b (join_with #" " ws ++ r) = true.
  Proof.
    intros ws b r H Hr. revert b. induction H as [|w ws [Hn Hw] _ IH]; intros b HN; [congruence|].
    cbn [join_with]. destruct ws as [|w2 ws]; [now rewrite thin_word|]. rewrite <- !app_assoc, thin_word by assumption.
    change (thin true (join_with #" " (w2 :: ws) ++ r) = true). apply IH. discriminate.
  Qed.
  Lemma thin_body : forall ws u r, Forall word_ok ws -> thin false r = true -> forallb visible u = true -> u <> [] -> thin false (u ++ join_with #" " ws ++ r) = true.
  Proof.
    intros ws u r H Hr Hu Hn. rewrite thin_word by assumption. destruct ws as [|w ws]; [exact Hr|]. apply thin_join; auto. discriminate.
  Qed.
  Definition comment_op (m body : list N) : list N := #"is " ++ m ++ body ++ [10%N] ++ #"null".
  Lemma body_facts : forall c, body_char c = true -> to_lower_rune lo c = c /\ line_end c = false /\ (c < endSymbol)%N.
  Proof.
    intros c H. unfold body_char in H. apply orb_true_iff in H as [H|H]; [now destruct (visible_facts c H) as (_ & ?)|].
    apply N.eqb_eq in H. subst. repeat split.
  Qed.
  Lemma comment_op_norm : forall m ws, m = #"--" \/ m = #"//" -> Forall word_ok ws ->
    normalize_operation lo (comment_op m (join_with #" " ws)) = #"is " ++ m ++ join_with #" " ws ++ #" null".
  Proof.
    intros m ws Hm Hw. set (body := join_with #" " ws). pose proof (body_chars ws Hw) as HB. fold body in HB.
    assert (T : trim_space (comment_op m body) = comment_op m body).
    { apply trim_space_ends. split; [reflexivity|]. unfold trim_right.
      assert (E : exists z, comment_op m body = z ++ #"null").
      { exists (#"is " ++ m ++ body ++ [10%N]). unfold comment_op. now rewrite <- !app_assoc. }
      destruct E as (z & ->). rewrite rev_app_distr. change (rev #"null") with (108%N :: #"lun"). cbn [app]. rewrite trim_left_stop by reflexivity.
      change (rev (rev #"null" ++ rev z) = z ++ #"null"). now rewrite rev_app_distr, !rev_involutive. }
    assert (L : map (to_lower_rune lo) (comment_op m body) = comment_op m body).
    { unfold comment_op. rewrite !map_app. f_equal. f_equal; [destruct Hm as [-> | ->]; reflexivity|]. f_equal.
      clear -HB. induction body as [|c b IH]; [reflexivity|]. cbn [forallb] in HB. apply andb_true_iff in HB as [Hc HB].
      cbn [map]. rewrite IH by exact HB. now destruct (body_facts c Hc) as (-> & _). }
    assert (C : collapse false (comment_op m body) = #"is " ++ m ++ body ++ #" null").
    { unfold comment_op. change (#"is " ++ m ++ body ++ [10%N] ++ #"null") with (#"is " ++ m ++ body ++ ([10%N] ++ #"null")).
      replace (#"is " ++ m ++ body ++ ([10%N] ++ #"null")) with ((#"is " ++ m ++ body) ++ [10%N] ++ #"null") by (rewrite <- !app_assoc; reflexivity).
      rewrite (collapse_mid _ [10%N] [32%N]) by (reflexivity || discriminate).
      replace ((#"is " ++ m ++ body) ++ [32%N] ++ #"null") with (#"is " ++ m ++ body ++ #" null") by (rewrite <- !app_assoc; reflexivity).
      apply thin_collapse. change (thin true (m ++ body ++ #" null") = true).
      rewrite thin_word; [|destruct Hm as [-> | ->]; reflexivity|destruct Hm as [-> | ->]; discriminate].
      unfold body. destruct ws as [|w ws']; [reflexivity|]. apply thin_join; [exact Hw|reflexivity|discriminate]. }
    unfold normalize_operation. rewrite T, L, C. destruct Hm as [-> | ->]; reflexivity.
  Qed.
  Lemma comment_injection : forall d sch x c m ws, schema_of d = Some sch -> ident x -> ~ starts_word x ->
    resolves fold_eq (sTable sch) x c -> m = #"--" \/ m = #"//" -> Forall word_ok ws ->
    wire d (x ++ #" " ++ comment_op m (join_with #" " ws)) =
      Some (add_where (quote c ++ #" is " ++ m ++ join_with #" " ws ++ #" null", []) (with_schema sch d)).
  Proof.
    intros d sch x c m ws Hs Hx Hw Hr Hm Hws. set (body := join_with #" " ws). pose proof (body_chars ws Hws) as HB. fold body in HB.
    set (q := x ++ #" " ++ comment_op m body).
    assert (Hbl : blank (m ++ body ++ [10%N])).
    { apply blank_comment; [exact Hm| |reflexivity|constructor]. rewrite forallb_forall in *. intros a Ha.
      destruct (body_facts a (HB a Ha)) as (_ & -> & _). reflexivity. }
    assert (Ho : op_match (comment_op m body)).
    { right. right. left. exists (32%N :: m ++ body ++ [10%N]), #"null". refine (conj (conj _ _) (conj _ _)).
      - apply blank_char; [reflexivity|exact Hbl].
      - discriminate.
      - unfold tfn. cbn. auto.
      - unfold comment_op. cbn [app runes_of]. rewrite <- !app_assoc. reflexivity. }
    assert (HR : reads q (EPred (EName x) (comment_op m body))).
    { exists [], q, []. rewrite app_nil_r. refine (conj eq_refl (conj blank_nil (conj blank_nil _))).
      unfold q. apply lay_pred; [cbn; lia|now apply lay_name| |exact Ho]. split; [apply blank_char; [reflexivity|constructor]|discriminate]. }
    assert (HV : valid_runes q).
    { unfold q, comment_op. repeat (apply Forall_app; split).
      - destruct Hx as [(a & r & -> & Ha & Hr') _]. assert (I : forall k, idchar k = true -> (k < endSymbol)%N).
        { intros k Hk. unfold idchar, letter, is_digit in Hk. rewrite !orb_true_iff, !andb_true_iff, !N.leb_le, N.eqb_eq in Hk. unfold endSymbol. lia. }
        constructor; [apply I; unfold idchar; now rewrite Ha|]. rewrite forallb_forall in Hr'. apply Forall_forall. auto.
      - repeat constructor.
      - repeat constructor.
      - destruct Hm as [-> | ->]; repeat constructor.
      - rewrite forallb_forall in HB. apply Forall_forall. intros a Ha. now destruct (body_facts a (HB a Ha)) as (_ & _ & ?).
      - repeat constructor.
      - repeat constructor. }
    pose proof (parse_tree lo q _ HV HR eq_refl eq_refl) as HP. cbn [ntree] in HP. pose proof (comment_op_norm m ws Hm Hws) as HN. fold body in HN. rewrite HN in HP.
    rewrite (wire_ev fold_eq quote lo d q _ sch (parse_nonempty lo q _ HP) (parse_safe lo q _ HV HP) HP Hs).
    cbn [GormProofs.ev mk_predicate mk_ident mk_op nType nLeft nOp nRight nName nOperation evp_with]. unfold ev_ident.
    rewrite (proj2 (resolves_iff fold_eq quote (sTable sch) x c) Hr). unfold after, normalize_sql.
    replace (assoc (#"is " ++ m ++ body ++ #" null") sql_ops) with (@None (list N)) by (destruct Hm as [-> | ->]; reflexivity).
    cbn [evseq evt app pieces rels concat map firsts sql_text render values]. unfold add_joins. f_equal.
    rewrite !app_nil_r. change (#" is " ++ m ++ body ++ #" null") with (#" " ++ #"is " ++ m ++ body ++ #" null"). reflexivity.
  Qed.
End GF3.
