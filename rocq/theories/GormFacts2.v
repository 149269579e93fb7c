(** More facts about gormq: placeholders, literals, grouping, scopes. *)
From Verif Require Import Base Peg Node Vocab Tree Parse Syntax Blank ParseProofs NormProofs Unique ParserFacts ParserFacts2 ParserMain Build BuildProofs NodeFacts SafeInd
  Gorm GormSpec GormProofs GormFacts.
Require Import Arith.
Strategy expand [parse_machine rule_trace].
Strategy 1000 [parse_fuel mrun tok_trace].

Section GF2.
  Variable fold_eq : list N -> list N -> bool.
  Variable quote : list N -> list N.
  Variable lo : N -> N.
  Notation wire := (wire_mini_query fold_eq quote lo).
  Notation ev := (ev fold_eq).

  (** ** Placeholders *)
  Definition unmarked (t : list N) : Prop := count_marks t = 0.
  Lemma marks_app : forall a b, count_marks (a ++ b) = count_marks a + count_marks b.
  Proof. induction a as [|c a IH]; intro b; cbn; [reflexivity|]. rewrite IH. lia. Qed.
  (** the text cut at its question marks: one more piece than values *)
  Lemma split_marks : forall ps, (forall c, In c (columns ps) -> unmarked (quote c)) -> Forall unmarked (fixed ps) ->
    exists ts, length ts = S (length (values ps)) /\ sql_text quote ps = join_with #"?" ts /\ Forall unmarked ts.
  Proof.
    assert (K : forall u ts, u <> [] \/ u = [] -> ts <> [] -> exists h tl, ts = h :: tl /\ u ++ join_with #"?" ts = join_with #"?" ((u ++ h) :: tl)).
    { intros u [|h tl] _ Hn; [congruence|]. exists h, tl. split; [reflexivity|]. destruct tl; [reflexivity|]. cbn [join_with]. now rewrite <- !app_assoc. }
    assert (U : forall u ts, unmarked u -> Forall unmarked ts -> ts <> [] -> exists ts', length ts' = length ts /\ u ++ join_with #"?" ts = join_with #"?" ts' /\ Forall unmarked ts').
    { intros u ts Hu Ht Hn. destruct (K u ts) as (h & tl & -> & E); [destruct u; [now right|left; discriminate]|exact Hn|].
      exists ((u ++ h) :: tl). split; [reflexivity|]. split; [exact E|]. inversion_clear Ht as [|? ? H1 H2]. constructor; [|exact H2].
      unfold unmarked in *. rewrite marks_app. lia. }
    induction ps as [|p ps IH]; intros Hc Hf.
    - exists [[]]. repeat constructor.
    - destruct p as [t|c|v].
      + change (fixed (PText t :: ps)) with (t :: fixed ps) in Hf. inversion_clear Hf as [|? ? F1 F2].
        destruct IH as (ts & L & E & F); [exact Hc|exact F2|]. destruct (U t ts F1 F) as (ts' & L' & E' & F'); [intros ->; discriminate|].
        exists ts'. change (sql_text quote (PText t :: ps)) with (t ++ sql_text quote ps). rewrite E, L'. auto.
      + destruct IH as (ts & L & E & F); [intros x Hx; apply Hc; now right|exact Hf|].
        destruct (U (quote c) ts) as (ts' & L' & E' & F'); [apply Hc; now left|exact F|intros ->; discriminate|].
        exists ts'. change (sql_text quote (PColumn c :: ps)) with (quote c ++ sql_text quote ps). rewrite E, L'. auto.
      + destruct IH as (ts & L & E & F); [exact Hc|exact Hf|]. exists ([] :: ts). split; [cbn; now rewrite L|].
        change (sql_text quote (PValue v :: ps)) with (#"?" ++ sql_text quote ps). rewrite E. split; [destruct ts; [discriminate|reflexivity]|].
        constructor; [reflexivity|exact F].
  Qed.
  Lemma vocab_unmarked : Forall unmarked (sql_fixed ++ sql_operators).
  Proof. repeat constructor. Qed.

  Lemma wire_marks : forall d q n d', valid_runes q -> marker_free q -> parse lo q = Ok (Some n) -> wire d q = Some d' -> succeeded d d' ->
    (forall c, unmarked (quote c)) ->
    exists ts vs, dWheres d' = dWheres d ++ [(join_with #"?" ts, vs)] /\ length ts = S (length vs) /\ Forall unmarked ts /\ Forall2 go_value (literals n) vs.
  Proof.
    intros d q n d' Hq Hm Hp H Hs Hc. destruct (wire_pieces fold_eq quote lo d q n d' Hq Hp H Hs) as (sch & ps & _ & H1 & H2 & _ & H3).
    destruct (split_marks ps) as (ts & T1 & T2 & T3); [auto| |].
    - eapply Forall_impl; [|exact H3]. intros t Ht. pose proof vocab_unmarked as HV. rewrite Forall_forall in HV. apply HV. apply in_or_app.
      destruct Ht as [Ht|(o & Ho & ->)]; [now left|right]. apply sql_vocab. eapply ops_vocab; eauto.
    - exists ts, (values ps). rewrite <- T2. auto.
  Qed.

  (** ** C28 *)
  Definition sim_ev (a b : event) : Prop := a = b \/ exists v w, a = EvP (PValue v) /\ b = EvP (PValue w).
  Definition sim (a b : evres) : Prop :=
    match a, b with
    | Some (l, e), Some (m, f) => Forall2 sim_ev l m /\ e = f
    | None, None => True
    | _, _ => False
    end.
  Lemma sim_ev_refl : forall l, Forall2 sim_ev l l.
  Proof. induction l; constructor; auto. now left. Qed.
  Lemma sim_refl : forall a, sim a a.
  Proof. intros [[l e]|]; cbn; auto using sim_ev_refl. Qed.
  Lemma sim_seq : forall a b c d, sim a b -> sim c d -> sim (evseq a c) (evseq b d).
  Proof.
    intros [[la ea]|] [[lb eb]|] [[lc ec]|] [[ld ed]|]; cbn; try tauto; intros [H1 ->] H2; destruct eb; cbn; auto; try tauto.
    destruct H2 as [H2 ->]. split; [now apply Forall2_app|reflexivity].
  Qed.
  Lemma sim_always : forall t a b, sim a b -> sim (evalways t a) (evalways t b).
  Proof. intros t [[la ea]|] [[lb eb]|]; cbn; try tauto. intros [H ->]. split; [|reflexivity]. apply Forall2_app; [exact H|apply sim_ev_refl]. Qed.
  Lemma sim_text : forall l m, Forall2 sim_ev l m -> sql_text quote (pieces l) = sql_text quote (pieces m) /\ rels l = rels m /\
    length (values (pieces l)) = length (values (pieces m)).
  Proof.
    induction 1 as [|a b l m H _ (I1 & I2 & I3)]; [auto|].
    change (a :: l) with ([a] ++ l). change (b :: m) with ([b] ++ m). rewrite !pieces_app, !rels_app.
    rewrite !text_app, !values_app, !app_length, I1, I2, I3. destruct H as [->|(v & w & -> & ->)]; auto.
  Qed.
  Lemma alike_some : forall n p, alike (Some n) p -> exists m, p = Some m /\ alike (Some n) (Some m).
  Proof. intros n p H. inversion H; subst; eexists; split; try reflexivity; [now apply alike_value|now apply alike_node]. Qed.
  Lemma alike_inv : forall n m, alike (Some n) (Some m) -> nType n <> NValue -> nType n = nType m /\ nOperation n = nOperation m /\ nName n = nName m /\
    nNames n = nNames m /\ alike (nExpression n) (nExpression m) /\ alike (nLeft n) (nLeft m) /\ alike (nOp n) (nOp m) /\
    alike (nRight n) (nRight m) /\ Forall2 alike (nParams n) (nParams m).
  Proof. intros n m H HT. inversion H; subst; [congruence|]. auto 10. Qed.
  Lemma alike_ev : forall sch n, safe n -> forall m, safe m -> alike (Some n) (Some m) -> sim (ev sch n) (ev sch m).
  Proof.
    intro sch. apply (safe_shape_ind (fun n => forall m, safe m -> alike (Some n) (Some m) -> sim (ev sch n) (ev sch m))).
    - intros n v Hn HT Hv _ m Hm HA.
      assert (HTm : nType m = NValue) by (inversion HA; subst; [assumption|congruence]).
      destruct (safe_value m Hm) as (w & Hw).
      destruct n as [ty vt i b st fl arr op na ns ex le oo ri ps]. cbn [nType] in HT. subst ty.
      destruct m as [ty' vt' i' b' st' fl' arr' op' na' ns' ex' le' oo' ri' ps']. cbn [nType] in HTm. subst ty'.
      cbn [GormProofs.ev nType]. rewrite Hv, Hw. split; [|reflexivity]. constructor; [|constructor]. right. eauto.
    - intros s m Hm HA. apply alike_inv in HA; [|discriminate]. destruct HA as (A1 & A2 & _). destruct m as [ty ? ? ? ? ? ? ? ? ? ? ? ? ? ?]. cbn in A1, A2. subst.
      apply sim_refl.
    - intros s m Hm HA. apply alike_inv in HA; [|discriminate]. destruct HA as (A1 & A2 & A3 & _). destruct m as [ty ? ? ? ? ? ? ? ? ? ? ? ? ? ?]. cbn in A1, A3. subst.
      apply sim_refl.
    - intros s m Hm HA. apply alike_inv in HA; [|discriminate]. destruct HA as (A1 & A2 & A3 & A4 & _). destruct m as [ty ? ? ? ? ? ? ? ? ? ? ? ? ? ?]. cbn in A1, A4. subst.
      apply sim_refl.
    - intros l o Hl Ho IHl IHo m Hm HA. apply alike_inv in HA; [|discriminate]. destruct HA as (A1 & _ & _ & _ & _ & A6 & A7 & A8 & _).
      destruct Hm as [m _ _ Hk]. destruct m as [ty ? ? ? ? ? ? ? ? ? ? le oo ri ?]. cbn in A1, A6, A7, A8. subst ty.
      apply alike_some in A6 as (l' & -> & A6). apply alike_some in A7 as (o' & -> & A7). inversion A8; subst.
      cbn [GormProofs.ev mk_predicate nType nLeft nOp nRight evp_with]. repeat apply sim_seq; auto using sim_refl.
      + apply IHl; [apply Hk; cbn; auto|exact A6].
      + apply IHo; [apply Hk; cbn; auto|exact A7].
    - intros l o r Hl Ho Hr IHl IHo IHr m Hm HA. apply alike_inv in HA; [|discriminate]. destruct HA as (A1 & _ & _ & _ & _ & A6 & A7 & A8 & _).
      destruct Hm as [m _ _ Hk]. destruct m as [ty ? ? ? ? ? ? ? ? ? ? le oo ri ?]. cbn in A1, A6, A7, A8. subst ty.
      apply alike_some in A6 as (l' & -> & A6). apply alike_some in A7 as (o' & -> & A7). apply alike_some in A8 as (r' & -> & A8).
      cbn [GormProofs.ev mk_compare nType nLeft nOp nRight evp_with]. repeat apply sim_seq; auto using sim_refl.
      + apply IHl; [apply Hk; cbn; auto|exact A6].
      + apply IHo; [apply Hk; cbn; auto|exact A7].
      + apply IHr; [apply Hk; cbn; auto|exact A8].
    - intros l o r Hl Ho Hr IHl IHo IHr m Hm HA. apply alike_inv in HA; [|discriminate]. destruct HA as (A1 & _ & _ & _ & _ & A6 & A7 & A8 & _).
      destruct Hm as [m _ _ Hk]. destruct m as [ty ? ? ? ? ? ? ? ? ? ? le oo ri ?]. cbn in A1, A6, A7, A8. subst ty.
      apply alike_some in A6 as (l' & -> & A6). apply alike_some in A7 as (o' & -> & A7). apply alike_some in A8 as (r' & -> & A8).
      cbn [GormProofs.ev mk_logic nType nLeft nOp nRight evp_with]. repeat apply sim_seq; auto using sim_refl.
      + apply IHl; [apply Hk; cbn; auto|exact A6].
      + apply IHo; [apply Hk; cbn; auto|exact A7].
      + apply IHr; [apply Hk; cbn; auto|exact A8].
    - intros e He IH m Hm HA. apply alike_inv in HA; [|discriminate]. destruct HA as (A1 & _ & _ & _ & A5 & _).
      destruct Hm as [m _ _ Hk]. destruct m as [ty ? ? ? ? ? ? ? ? ? ex le oo ri ?]. cbn in A1, A5. subst ty. apply alike_some in A5 as (e' & -> & A5).
      cbn [GormProofs.ev mk_paren nType nExpression evp_with]. apply sim_always. apply sim_seq; [apply sim_refl|]. apply IH; [apply Hk; cbn; auto|exact A5].
    - intros e He IH m Hm HA. apply alike_inv in HA; [|discriminate]. destruct HA as (A1 & _ & _ & _ & A5 & _).
      destruct Hm as [m _ _ Hk]. destruct m as [ty ? ? ? ? ? ? ? ? ? ex le oo ri ?]. cbn in A1, A5. subst ty. apply alike_some in A5 as (e' & -> & A5).
      cbn [GormProofs.ev mk_not nType nExpression evp_with]. apply sim_seq; [apply sim_refl|]. apply IH; [apply Hk; cbn; auto|exact A5].
    - intros l o a b Hl Ho Ha Hb _ _ IHl IHo IHa IHb m Hm HA. apply alike_inv in HA; [|discriminate]. destruct HA as (A1 & _ & _ & _ & _ & A6 & A7 & A8 & A9).
      destruct Hm as [m _ _ Hk]. destruct m as [ty ? ? ? ? ? ? ? ? ? ? le oo ri ps]. cbn in A1, A6, A7, A8, A9. subst ty.
      apply alike_some in A6 as (l' & -> & A6). apply alike_some in A7 as (o' & -> & A7). inversion A9 as [|? pa ? ps1 B1 B2]; subst.
      inversion B2 as [|? pb ? ps2 C1 C2]; subst. inversion C2; subst. apply alike_some in B1 as (a' & -> & B1). apply alike_some in C1 as (b' & -> & C1).
      cbn [GormProofs.ev mk_between nType nLeft nOp nParams evp_with]. repeat apply sim_seq; auto using sim_refl.
      + apply IHl; [apply Hk; cbn; auto|exact A6].
      + apply IHo; [apply Hk; cbn; auto|exact A7].
      + apply IHa; [apply Hk; cbn; auto|exact B1].
      + apply IHb; [apply Hk; cbn; auto|exact C1].
    - intros f ms Hms IH m Hm HA. apply alike_inv in HA; [|discriminate]. destruct HA as (A1 & _ & A3 & _ & _ & _ & _ & _ & A9).
      rewrite ev_fun. assert (Hm' := Hm). destruct Hm' as [m _ _ Hk].
      assert (K : exists ms', nParams m = map Some ms' /\ Forall2 (fun a b => alike (Some a) (Some b)) ms ms').
      { cbn [mk_function nParams] in A9. clear -A9. revert A9. generalize (nParams m). induction ms as [|x ms IH]; intros ps H; inversion_clear H as [|? p ? ps' H1 H2].
        - exists []. split; [reflexivity|constructor].
        - apply alike_some in H1 as (y & -> & H1). destruct (IH _ H2) as (ms' & -> & H3). exists (y :: ms'). split; [reflexivity|]. now constructor. }
      destruct K as (ms' & HP & HF).
      assert (HM : m = mk_function f (map Some ms')).
      { destruct Hm as [m Hsh _ _]. unfold shaped in Hsh. cbn in A1. rewrite <- A1 in Hsh. cbn in A3. now rewrite Hsh, <- A3, HP. }
      rewrite HM, ev_fun. destruct (streq f #"date"); [|apply sim_refl]. apply sim_seq; [apply sim_refl|]. apply sim_seq; [|apply sim_refl].
      assert (S' : Forall safe ms').
      { apply Forall_forall. intros x Hx. apply Hk. rewrite HM. cbn. now apply in_map. }
      clear -IH HF S'. revert ms' HF S'. induction IH as [|x ms Hx _ IHm]; intros ms' HF S'; inversion HF as [|? y ? ms2 F1 F2]; subst; [apply sim_refl|].
      inversion_clear S' as [|? ? S1 S2]. cbn [ev_all]. apply sim_seq; auto.
  Qed.
  Definition same_up_to_values (d d1 d2 : gdb) : Prop :=
    dJoins d1 = dJoins d2 /\ dErrors d1 = dErrors d2 /\ dSchema d1 = dSchema d2 /\ dModel d1 = dModel d2 /\
    (dWheres d1 = dWheres d2 \/ exists t v1 v2, dWheres d1 = dWheres d ++ [(t, v1)] /\ dWheres d2 = dWheres d ++ [(t, v2)] /\ length v1 = length v2).
  Lemma wire_alike : forall d q1 q2 n1 n2, valid_runes q1 -> valid_runes q2 -> parse lo q1 = Ok (Some n1) -> parse lo q2 = Ok (Some n2) ->
    alike (Some n1) (Some n2) ->
    match wire d q1, wire d q2 with
    | Some d1, Some d2 => same_up_to_values d d1 d2
    | None, None => True
    | _, _ => False
    end.
  Proof.
    intros d q1 q2 n1 n2 V1 V2 P1 P2 HA. pose proof (parse_safe lo q1 n1 V1 P1) as S1. pose proof (parse_safe lo q2 n2 V2 P2) as S2.
    pose proof (parse_nonempty lo q1 _ P1) as N1. pose proof (parse_nonempty lo q2 _ P2) as N2.
    destruct (known_schema d) as [(sch & Hs & _)|(Hs & e & Hg & _)].
    - rewrite (wire_ev fold_eq quote lo d q1 n1 sch N1 S1 P1 Hs), (wire_ev fold_eq quote lo d q2 n2 sch N2 S2 P2 Hs).
      pose proof (alike_ev sch n1 S1 n2 S2 HA) as HE. destruct (ev sch n1) as [[l1 e1]|]; destruct (ev sch n2) as [[l2 e2]|]; try contradiction; [|exact I].
      destruct HE as [HE ->]. destruct (sim_text _ _ HE) as (T1 & T2 & T3). unfold after. rewrite T1, T2. destruct e2; cbn; (split; [reflexivity|]); (split; [reflexivity|]);
      (split; [reflexivity|]); (split; [reflexivity|]); [now left|right]. do 3 eexists. split; [reflexivity|]. split; [reflexivity|exact T3].
    - assert (W : forall q n, q <> [] -> parse lo q = Ok (Some n) -> wire d q = Some (add_err e d)).
      { intros q n Hq Hp. unfold wire_mini_query. destruct q; [congruence|]. now rewrite Hp, Hg. }
      rewrite (W q1 n1 N1 P1), (W q2 n2 N2 P2). repeat split. now left.
  Qed.

  (** ** C31 *)
  Lemma firsts_in : forall l s x, In x (firsts s l) <-> In x l /\ ~ In x s.
  Proof.
    induction l as [|y l IH]; intros s x; [cbn; tauto|]. cbn [firsts]. destruct (existsb (streq y) s) eqn:E.
    - apply existsb_in in E. rewrite IH. cbn. split; [tauto|]. intros [[->|H] Hs]; tauto.
    - assert (NY : ~ In y s) by (rewrite <- existsb_in; congruence). cbn. rewrite IH. cbn. split.
      + intros [->|H]; tauto.
      + intros [[->|H] Hs]; [now left|]. destruct (streq_spec y x); [now left|right]. intuition.
  Qed.
  Lemma firsts_nodup : forall l s, NoDup (firsts s l).
  Proof.
    induction l as [|y l IH]; intro s; [constructor|]. cbn [firsts]. destruct (existsb (streq y) s); [apply IH|]. constructor; [|apply IH].
    rewrite firsts_in. cbn. tauto.
  Qed.
  Lemma firsts_app : forall a b s, firsts s (a ++ b) = firsts s a ++ firsts (a ++ s) b.
  Proof.
    induction a as [|y a IH]; intros b s; [reflexivity|]. cbn [app firsts]. destruct (existsb (streq y) s) eqn:E.
    - rewrite IH. f_equal. apply firsts_ext. intro x. apply existsb_in in E. cbn. rewrite in_app_iff. split; [tauto|]. intros [->|H]; tauto.
    - cbn. f_equal. rewrite IH. f_equal. apply firsts_ext. intro x. cbn. rewrite !in_app_iff. cbn. tauto.
  Qed.
  Lemma firsts_idem : forall b s s', incl s s' -> firsts s' (firsts s b) = firsts s' b.
  Proof.
    induction b as [|y b IH]; intros s s' H; [reflexivity|]. cbn [firsts]. destruct (existsb (streq y) s) eqn:E.
    - apply existsb_in in E. apply H in E. apply existsb_in in E. rewrite E. now apply IH.
    - cbn [firsts]. destruct (existsb (streq y) s') eqn:E'.
      + apply IH. intros x [->|Hx]; [now apply existsb_in|now apply H].
      + f_equal. apply IH. intros x [->|Hx]; [now left|right; now apply H].
  Qed.
  Lemma firsts_concat : forall ls s, firsts s (concat (map (firsts []) ls)) = firsts s (concat ls).
  Proof.
    induction ls as [|a ls IH]; intro s; [reflexivity|]. cbn [map concat]. rewrite !firsts_app. rewrite firsts_idem by (intros x []). f_equal.
    rewrite IH. apply firsts_ext. intro x. rewrite !in_app_iff, firsts_in. cbn. tauto.
  Qed.
End GF2.
